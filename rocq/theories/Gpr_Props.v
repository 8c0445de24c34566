(** Theorems about the printing of geometries (C119). *)
From Coq Require Import Ascii String Lia.
From Verif Require Import Prelude Str_Model Text_Model Gpr_Model Gpr_Spec.
Import List ListNotations.

Lemma rows_word w row x s : word x -> rows_from w row (x ++ " "%char :: s) = rows_from [] (row ++ [w ++ x]) s.
Proof.
  revert w. induction x as [|c x IH]; intros w [H1 H2]; cbn [app rows_from].
  - rewrite app_nil_r. reflexivity.
  - destruct (Ascii.eqb_spec c " ") as [->|_]; [destruct H1; left; reflexivity|]. destruct (Ascii.eqb_spec c (ascii_of_nat 10)) as [->|_]; [destruct H2; left; reflexivity|].
    rewrite IH by (split; intros H; [apply H1|apply H2]; right; exact H). rewrite <- app_assoc. reflexivity.
Qed.
Definition cells (l : list str) : str := flat_map (fun x => x ++ lit " ") l.
Lemma rows_cells l : forall row s, (forall x, In x l -> word x) -> rows_from [] row (cells l ++ s) = rows_from [] (row ++ l) s.
Proof.
  induction l as [|x l IH]; intros row s H; cbn [cells flat_map app]; [rewrite app_nil_r; reflexivity|].
  rewrite <- !app_assoc. cbn [lit app]. change (lit " " ++ flat_map (fun x => x ++ lit " ") l ++ s) with (" "%char :: cells l ++ s).
  rewrite rows_word by (apply H; left; reflexivity). rewrite IH by (intros y Hy; apply H; right; exact Hy). cbn [app]. rewrite <- app_assoc. reflexivity.
Qed.
Lemma rows_lines T : (forall r, In r T -> forall x, In x r -> word x) -> rows (flat_map (fun r => cells r ++ nl) T) = T.
Proof.
  unfold rows. induction T as [|r T IH]; intros H; [reflexivity|]. cbn [flat_map]. rewrite <- app_assoc, rows_cells by (apply H; left; reflexivity).
  cbn [app]. change (rows_from [] r (nl ++ flat_map (fun r => cells r ++ nl) T)) with (r :: rows_from [] [] (flat_map (fun r => cells r ++ nl) T)). f_equal. apply IH. intros r' Hr. apply H. right. exact Hr.
Qed.

Lemma append_loop (t : nat -> str) (f : nat -> str -> res str) : forall n i os, (forall k os, i <= k < i + n -> f k os = Ok (os ++ t k)) ->
  forM n i f os = Ok (os ++ flat_map t (seq i n)).
Proof.
  induction n as [|n IH]; intros i os H; cbn [forM seq flat_map]; [rewrite app_nil_r; reflexivity|]. rewrite H by lia. cbn [bind].
  rewrite IH by (intros k os' Hk; apply H; lia). rewrite <- app_assoc. reflexivity.
Qed.
Lemma flat_map_concat_map' {A B C} (f : B -> list C) (g : A -> list B) l : flat_map f (flat_map g l) = flat_map (fun a => flat_map f (g a)) l.
Proof. induction l as [|a l IH]; [reflexivity|]. cbn [flat_map]. rewrite flat_map_app, IH. reflexivity. Qed.
Lemma flat_map_map {A B C} (f : B -> list C) (g : A -> B) l : flat_map f (map g l) = flat_map (fun a => f (g a)) l.
Proof. induction l as [|a l IH]; [reflexivity|]. cbn [flat_map map]. rewrite IH. reflexivity. Qed.

(** A term prints, after a comment, a row for each orbital of each site and in it a word for each orbital of each site: the
    coupling where the two sites are connected, and 0 where they are not. *)
Theorem C119_term : forall K (show : K -> str) L orbitals connected value orb conn v os,
  (forall i, i < L -> orbitals i = Ok (orb i)) -> (forall i j, i < L -> j < L -> connected i j = Ok (conn i j)) ->
  (forall i d1 j d2, i < L -> j < L -> d1 < orb i -> d2 < orb j -> conn i j = true -> value i d1 j d2 = Ok (v i d1 j d2) /\ word (show (v i d1 j d2))) ->
  exists t, term_print K show L orbitals connected value os = Ok (os ++ lit "#orbital changes first" ++ nl ++ t) /\
  rows t = map (fun p => map (fun q => if conn (fst p) (fst q) then show (v (fst p) (snd p) (fst q) (snd q)) else lit "0") (places L orb)) (places L orb).
Proof.
  intros K show L orbitals connected value orb conn v os HO HC HV.
  set (cell := fun i d1 j d2 => if conn i j then show (v i d1 j d2) else lit "0" : str).
  exists (flat_map (fun r => cells r ++ nl) (map (fun p => map (fun q => cell (fst p) (snd p) (fst q) (snd q)) (places L orb)) (places L orb))). split.
  - unfold term_print.
    rewrite (append_loop (fun i => flat_map (fun d1 => flat_map (fun j => flat_map (fun d2 => cell i d1 j d2 ++ lit " ") (seq 0 (orb j))) (seq 0 L) ++ nl) (seq 0 (orb i)))).
    + rewrite <- !app_assoc. do 4 f_equal. rewrite flat_map_map. unfold places at 2. rewrite flat_map_concat_map'. apply flat_map_ext. intros i.
      rewrite flat_map_map. apply flat_map_ext. intros d1. f_equal. unfold cells, places. rewrite flat_map_map, flat_map_concat_map'. apply flat_map_ext. intros j.
      rewrite flat_map_map. reflexivity.
    + intros i os1 Hi. rewrite HO by lia. cbn [bind]. apply append_loop. intros d1 os2 Hd1.
      rewrite (append_loop (fun j => flat_map (fun d2 => cell i d1 j d2 ++ lit " ") (seq 0 (orb j)))); [cbn [bind]; rewrite <- app_assoc; reflexivity|].
      intros j os3 Hj. rewrite HO by lia. cbn [bind]. apply append_loop. intros d2 os4 Hd2. rewrite HC by lia. cbn [bind]. unfold cell.
      destruct (conn i j) eqn:C; cbn [negb]; [|reflexivity]. assert (E : value i d1 j d2 = Ok (v i d1 j d2)) by (apply HV; [lia|lia|lia|lia|exact C]). rewrite E. reflexivity.
  - apply rows_lines. assert (P : forall i d, In (i, d) (places L orb) -> i < L /\ d < orb i).
    { intros i d H. unfold places in H. apply in_flat_map in H. destruct H as (i' & H1 & H2). apply in_map_iff in H2. destruct H2 as (d' & E & H2).
      injection E as -> ->. apply in_seq in H1. apply in_seq in H2. lia. }
    intros r Hr x Hx. apply in_map_iff in Hr. destruct Hr as ((i & d1) & <- & Hp). apply in_map_iff in Hx. destruct Hx as ((j & d2) & <- & Hq).
    cbn [fst snd]. destruct (P i d1 Hp). destruct (P j d2 Hq). unfold cell. destruct (conn i j) eqn:C; [apply HV; auto|].
    split; intros [W|[]]; discriminate W.
Qed.
Print Assumptions C119_term.

(** The rows and the words of a row are as many as the orbitals of all sites; with the same number n for each site, orbital d of
    site i is number i n + d. *)
Theorem C119_places : forall L n i d, i < L -> d < n ->
  List.length (places L (fun _ => n)) = L * n /\ nth_error (places L (fun _ => n)) (i * n + d) = Some (i, d).
Proof.
  intros L n i d Hi Hd. assert (G : forall L s, List.length (flat_map (fun i => map (fun d => (i, d)) (seq 0 n)) (seq s L)) = L * n).
  { clear. induction L as [|L IH]; intros s; [reflexivity|]. cbn [seq flat_map]. rewrite app_length, map_length, seq_length, IH. cbn. reflexivity. }
  split; [apply G|]. unfold places. assert (HH : forall i s L, i < L -> nth_error (flat_map (fun i => map (fun d => (i, d)) (seq 0 n)) (seq s L)) (i * n + d) = Some (s + i, d)).
  { clear - Hd. induction i as [|i IH]; intros s [|L] Hi; try lia; cbn [seq flat_map].
    - rewrite nth_error_app1 by (rewrite map_length, seq_length; lia). rewrite Nat.add_0_r. cbn [Nat.mul Nat.add]. apply map_nth_error.
      rewrite (nth_error_nth' (seq 0 n) 0) by (rewrite seq_length; exact Hd). rewrite seq_nth by exact Hd. reflexivity.
    - rewrite nth_error_app2 by (rewrite map_length, seq_length; cbn; lia). rewrite map_length, seq_length. replace (S i * n + d - n) with (i * n + d) by (cbn; lia).
      rewrite (IH (S s) L) by lia. f_equal. f_equal. lia. }
  apply (HH i 0 L Hi).
Qed.
Print Assumptions C119_places.

(** A direction prints its flags, how many numbers it has, and them in order. *)
Theorem C119_direction : forall K (show : K -> str) M showM (gd : gdirp K M) os, gp_specific K M gd = false -> gp_orbitals K M gd <= 1 -> (forall x, In x (gp_numbers K M gd) -> word (show x)) ->
  exists t, direction_print K show M showM gd os = Ok (os ++ lit "#GeometryDirectionAuxiliary" ++ nl ++ lit "constantValues=" ++ lit (if gp_constant K M gd then "1" else "0") ++ nl ++
    lit "dirId=" ++ print_nat (gp_id K M gd) ++ nl ++ lit "edof=0" ++ nl ++ lit "#GeometryNumbersSize=" ++ print_nat (List.length (gp_numbers K M gd)) ++ nl ++ lit "#GeometryNumbers=" ++ t) /\
  rows t = [map show (gp_numbers K M gd)].
Proof.
  intros K show M showM gd os Hs Ho Hw. exists (cells (map show (gp_numbers K M gd)) ++ nl). split.
  - unfold direction_print. rewrite Hs. cbv zeta. replace (1 <? gp_orbitals K M gd) with false by (symmetry; apply Nat.ltb_ge; exact Ho). cbn [orb negb].
    clear Hw. generalize (gp_numbers K M gd) as l. intros l. assert (A : forall n i os, i + n <= List.length l ->
      forM n i (fun i os => do x <- vget l i ;; Ok (os ++ show x ++ lit " ")) os = Ok (os ++ cells (map show (firstn n (skipn i l))))).
    { clear. induction n as [|n IH]; intros i os H; cbn [forM]; [cbn; rewrite app_nil_r; reflexivity|].
      unfold vget at 1. destruct (nth_error l i) as [x|] eqn:E; [|apply nth_error_None in E; lia]. cbn [bind]. rewrite IH by lia. f_equal. rewrite <- !app_assoc. f_equal.
      assert (S : skipn i l = x :: skipn (S i) l).
      { clear - E. revert l E. induction i as [|i IH]; intros [|a l] E; try discriminate E; [injection E as ->; reflexivity|]. cbn [skipn]. apply IH, E. }
      rewrite S. cbn [firstn map cells flat_map]. rewrite <- app_assoc. reflexivity. }
    rewrite A by lia. cbn [bind]. cbn [skipn]. rewrite firstn_all. rewrite <- !app_assoc. reflexivity.
  - pose proof (rows_lines [map show (gp_numbers K M gd)]) as R. cbn [flat_map] in R. rewrite app_nil_r in R. apply R.
    intros r [<-|[]] x Hx. apply in_map_iff in Hx. destruct Hx as (y & <- & Hy). apply Hw, Hy.
Qed.
Print Assumptions C119_direction.

(** A direction with matrices, which are for more than one orbital or for specific ones, prints its flags, how many matrices it
    has, and them in order. *)
Theorem C119_matrices : forall K (show : K -> str) M showM (gd : gdirp K M) os, gp_specific K M gd = true \/ 1 < gp_orbitals K M gd ->
  direction_print K show M showM gd os = Ok (os ++ lit "#GeometryDirectionAuxiliary" ++ nl ++ lit "constantValues=" ++ lit (if gp_constant K M gd then "1" else "0") ++ nl ++
    lit "dirId=" ++ print_nat (gp_id K M gd) ++ nl ++ lit "edof=" ++ lit (if gp_specific K M gd then "1" else "0") ++ nl ++
    lit "#GeometryMatrixSize=" ++ print_nat (List.length (gp_matrices K M gd)) ++ nl ++ List.concat (map showM (gp_matrices K M gd))).
Proof.
  intros K show M showM gd os H. unfold direction_print. cbv zeta.
  replace ((1 <? gp_orbitals K M gd) || gp_specific K M gd)%bool with true by (symmetry; apply Bool.orb_true_iff; destruct H as [H|H]; [right; exact H|left; apply Nat.ltb_lt; exact H]).
  cbn [negb]. set (l := gp_matrices K M gd). destruct l as [|d0 l0] eqn:EL; [cbn [List.length forM map List.concat]; rewrite <- !app_assoc; rewrite ?app_nil_r; reflexivity|]. rewrite <- EL.
  rewrite (append_loop (fun i => showM (nth i l d0))).
  - rewrite <- !app_assoc. do 17 f_equal. clear. assert (A : forall l s, flat_map (fun i => showM (nth (i - s) l d0)) (seq s (List.length l)) = List.concat (map showM l)).
    { clear. induction l as [|a l IH]; intros s; [reflexivity|]. cbn [List.length seq flat_map map List.concat]. rewrite Nat.sub_diag. cbn [nth]. f_equal.
      rewrite <- (IH (S s)). rewrite !flat_map_concat_map. f_equal. apply map_ext_in. intros i Hi. apply in_seq in Hi. replace (i - s) with (S (i - S s)) by lia. reflexivity. }
    rewrite <- (A l 0). apply flat_map_ext. intros i. rewrite Nat.sub_0_r. reflexivity.
  - intros i os' Hi. rewrite (@vget_ok _ l i d0) by lia. reflexivity.
Qed.
Print Assumptions C119_matrices.

(** A term of three sites with two orbitals at the middle one, the first two connected *)
Example C119_nonvacuous :
  term_print nat print_nat 3 (fun i => Ok (if i =? 1 then 2 else 1)) (fun i j => Ok (i + j =? 1)) (fun i d1 j d2 => Ok (10 * d1 + d2 + 5)) [] =
  Ok (lit "#orbital changes first" ++ nl ++ lit "0 5 6 0 " ++ nl ++ lit "5 0 0 0 " ++ nl ++ lit "15 0 0 0 " ++ nl ++ lit "0 0 0 0 " ++ nl).
Proof. vm_compute. reflexivity. Qed.
Example C119_nonvacuous_words : word (print_nat 15) /\ places 3 (fun i => if i =? 1 then 2 else 1) = [(0, 0); (1, 0); (1, 1); (2, 0)].
Proof. split; [|reflexivity]. split; vm_compute; intros H; repeat (destruct H as [H|H]; [discriminate H|]); exact H. Qed.
Example C119_nonvacuous_matrices :
  direction_print nat print_nat str (fun x => x) (mkgdirp nat str true 1 true 1 [] [lit "m" ++ nl; lit "n" ++ nl]) [] =
  Ok (lit "#GeometryDirectionAuxiliary" ++ nl ++ lit "constantValues=1" ++ nl ++ lit "dirId=1" ++ nl ++ lit "edof=1" ++ nl ++ lit "#GeometryMatrixSize=2" ++ nl ++ lit "m" ++ nl ++ lit "n" ++ nl) /\
  direction_print nat print_nat str (fun x => x) (mkgdirp nat str false 0 false 1 [7; 8] []) [] =
  Ok (lit "#GeometryDirectionAuxiliary" ++ nl ++ lit "constantValues=0" ++ nl ++ lit "dirId=0" ++ nl ++ lit "edof=0" ++ nl ++ lit "#GeometryNumbersSize=2" ++ nl ++ lit "#GeometryNumbers=7 8 " ++ nl).
Proof. split; vm_compute; reflexivity. Qed.
