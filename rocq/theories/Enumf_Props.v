(** Theorems about enumerations in files (C125). *)
From Coq Require Import ZArith Ascii String.
From Verif Require Import Prelude Ring Str_Model Text_Model Dense_Model Ng_Model Ng_Spec Ng_Proofs Ng_Comp Ng_Store Ng_Props Ngs_Props Appi_Props Gwr_Model Gwr_Spec Gwr_Proofs Gwr_Props Enumf_Model.
Import List.
Local Open Scope Z_scope.

Definition one_byte (v : Z) : Prop := 0 <= v < 256.
Lemma first_byte_ok v : first_byte v = v <-> one_byte v.
Proof. unfold first_byte, one_byte. pose proof (Z.mod_pos_bound v 256). split; [lia|]. apply Z.mod_small. Qed.

(** After any history of steps an enumerator is written under a new name, perhaps another one is written over it, and other steps
    follow. After the file is closed and opened again, the enumerator that is read is the last one written exactly if its number is
    at least 0 and less than 256. The values written before stay as they were.
    Missing for the full claim: the other numbers, for which it is false (see below). *)
Theorem C125_number_partial : forall (R : cring) (l1 l2 : list (step R)) n v (over : option Z),
  let st1 := want_steps R (empty_store R) l1 in let last := match over with None => v | Some w => w end in
  propers R (empty_store R) l1 -> good_name n -> st1 n = None -> inside R st1 n ->
  (forall s, In s l2 -> step_name R s <> n) -> (forall st, (forall m, m <> n -> st m = st1 m) -> st n <> None -> propers R st l2) ->
  exists s f0 f1 f s' disk s'' h,
    ser_new R None TRUNC = Ok s /\ se_file R s = Some f0 /\ do_steps R f0 l1 = Ok f1 /\
    do_steps R (match over with None => write_enum R f1 n v NO_OVERWRITE | Some w => write_enum R (write_enum R f1 n v NO_OVERWRITE) n w ALLOW_OVERWRITE end) l2 = Ok f /\
    ser_close R (mkser R (Some f) (se_h5mode R s) (se_mode R s)) = Ok (s', disk) /\ ser_new R (Some disk) RDONLY = Ok s'' /\ se_file R s'' = Some h /\
    (exists x, read_enum R h n = Ok x /\ one_byte x /\ (x = last <-> one_byte last)) /\
    (forall m k x old, st1 m = Some (EVal k x) -> (forall s, In s l2 -> step_name R s <> m) -> rd R k h m old = Ok x).
Proof.
  intros R l1 l2 n v over st1 last P1 G W Is A P2.
  set (mid := SWrite n KInt (first_byte v) :: match over with None => [] | Some w => [SOverwrite n KInt (first_byte w)] end : list (step R)).
  assert (M : want_steps R st1 mid n = Some (EVal KInt (first_byte last)) /\ (forall m, m <> n -> want_steps R st1 mid m = st1 m) /\ propers R st1 mid).
  { unfold mid, last. destruct over as [w|]; cbn [want_steps fold_left want_step propers proper storable overwritable]; (split; [apply sset_eq|split]).
    - intros m H. rewrite !sset_neq; auto.
    - split; [auto|]. split; [|exact I]. split; [|auto]. exists (first_byte v). apply sset_eq.
    - intros m H. apply sset_neq; auto.
    - auto. }
  destruct M as (M1 & M2 & M3).
  assert (P : propers R (empty_store R) (l1 ++ mid ++ l2)).
  { apply propers_app2; [exact P1|]. apply propers_app2; [exact M3|]. apply P2; [exact M2|]. fold st1. rewrite M1. discriminate. }
  assert (E2 : forall m, (forall s, In s l2 -> step_name R s <> m) -> want_steps R (empty_store R) (l1 ++ mid ++ l2) m = want_steps R st1 mid m).
  { intros m Hm. rewrite !want_app. apply want_none. exact Hm. }
  destruct (C49_history_partial R _ P) as (s & f0 & f & s' & disk & s'' & h & H1 & H2 & H3 & H4 & H5 & H6 & H7).
  rewrite do_steps_app in H3. destruct (do_steps R f0 l1) as [f1| | |] eqn:E1; try discriminate H3. cbn [bind] in H3. rewrite do_steps_app in H3.
  exists s, f0, f1, f, s', disk, s'', h. split; [exact H1|]. split; [exact H2|]. split; [exact E1|]. split; [|split; [exact H4|split; [exact H5|split; [exact H6|split]]]].
  - unfold mid in H3. destruct over as [w|]; exact H3.
  - exists (first_byte last). split; [|split; [apply Z.mod_pos_bound; lia|apply first_byte_ok]].
    apply (proj1 (H7 h (or_intror eq_refl) n) KInt (first_byte last) 0). rewrite E2 by exact A. exact M1.
  - intros m k x old Em Hm. apply (proj1 (H7 h (or_intror eq_refl) m)). rewrite E2 by exact Hm. rewrite M2; [exact Em|]. intros ->. fold st1 in W. congruence.
Qed.
Print Assumptions C125_number_partial.

(** The claim that every enumerator can be kept is false: one with the number 256 is read as the one with the number 0. *)
Theorem C125_large_refuted : exists s f0, ser_new Z None TRUNC = Ok s /\ se_file Z s = Some f0 /\
  read_enum Z (write_enum Z f0 (lit "e") 256 NO_OVERWRITE) (lit "e") = Ok 0 /\ read_enum Z (write_enum Z f0 (lit "e") (-1) NO_OVERWRITE) (lit "e") = Ok 255.
Proof. eexists. eexists. split; [reflexivity|]. split; [reflexivity|]. split; vm_compute; reflexivity. Qed.
Print Assumptions C125_large_refuted.

Lemma firstn_S_upd {A} (w : list A) i x : (i < length w)%nat -> firstn (S i) (upd w i x) = firstn i w ++ [x].
Proof.
  revert i. induction w as [|y w IH]; intros [|i] H; cbn [length] in H; try lia; [reflexivity|].
  change (upd (y :: w) (S i) x) with (y :: upd w i x). cbn [firstn app]. f_equal. apply IH. lia.
Qed.

Section V.
  Variable R : cring.
  Definition enumr (v : Z) : list (rel R) := [RV R [] KInt (first_byte v)].
  Lemma enumr_do f n v : do_steps R f (at_ R n (enumr v)) = Ok (write_enum R f n v NO_OVERWRITE).
  Proof. unfold enumr. rewrite leaf_do. reflexivity. Qed.
  Lemma enums_do f n l : do_steps R f (at_ R n (objr R enumr l)) = write_enums R f n l NO_OVERWRITE.
  Proof. rewrite (objr_do R (fun f n v => Ok (write_enum R f n v NO_OVERWRITE)) enumr enumr_do). reflexivity. Qed.
  Lemma enums_read h n l : seen R h n (objr R enumr l) -> forall old, read_enums R h n old = Ok (map first_byte l).
  Proof.
    intros S old. destruct (seen_objs R h enumr (fun n v => read_enum R h n = Ok (first_byte v)) n l (fun n x S => seen_leaf R h n KInt _ S 0) S) as (Hs & He).
    unfold read_enums. change (sub n "Size") with (item n "Size"). unfold has_number in Hs. rewrite Hs. cbn [bind]. rewrite Nat2Z.id.
    assert (B : forall k i w, (i + k = length l)%nat -> length w = length l -> firstn i w = map first_byte (firstn i l) ->
      forM k i (fun i what => do x <- read_enum R h (subn n i) ;; vset what i x) w = Ok (map first_byte l)).
    { induction k as [|k IH]; intros i w Hk Lw F.
      - cbn [forM]. f_equal. rewrite !firstn_all2 in F by lia. exact F.
      - cbn [forM]. destruct (nth_error l i) as [x|] eqn:Ex; [|apply nth_error_None in Ex; lia]. change (subn n i) with (element n i). rewrite (He i x Ex). cbn [bind].
        unfold vset. assert ((i <? length w)%nat = true) as -> by (apply Nat.ltb_lt; lia). cbn [bind]. apply IH; [lia|rewrite upd_length; exact Lw|].
        rewrite (firstn_S_upd w i (first_byte x)) by lia. rewrite F. clear - Ex. revert i Ex. induction l as [|y l IH]; intros [|i] Ex; try discriminate Ex.
        + injection Ex as ->. reflexivity.
        + cbn [firstn map app]. f_equal. apply IH. exact Ex. }
    apply (B (length l) 0%nat); [lia|apply vresize_length|reflexivity].
  Qed.
End V.

(** After any history of steps a vector of enumerators is written under a new name, and other steps follow. After the file is closed
    and opened again, the vector can be read, whatever the target held, and it is the one that was written exactly if the numbers
    of all enumerators are at least 0 and less than 256. The values written before stay as they were.
    Missing for the full claim: the other numbers, for which it is false. *)
Theorem C125_vector_partial : forall (R : cring) (l1 l2 : list (step R)) n (v : list Z),
  let st1 := want_steps R (empty_store R) l1 in
  propers R (empty_store R) l1 -> good_name n -> st1 n = None -> inside R st1 n ->
  (forall s, In s l2 -> ~ under n (step_name R s)) -> (forall st, (forall m, ~ under n m -> st m = st1 m) -> propers R st l2) ->
  exists s f0 f1 f2 f s' disk s'' h,
    ser_new R None TRUNC = Ok s /\ se_file R s = Some f0 /\ do_steps R f0 l1 = Ok f1 /\ write_enums R f1 n v NO_OVERWRITE = Ok f2 /\ do_steps R f2 l2 = Ok f /\
    ser_close R (mkser R (Some f) (se_h5mode R s) (se_mode R s)) = Ok (s', disk) /\ ser_new R (Some disk) RDONLY = Ok s'' /\ se_file R s'' = Some h /\
    (exists w, (forall old, read_enums R h n old = Ok w) /\ length w = length v /\ Forall one_byte w /\ (w = v <-> Forall one_byte v)) /\
    (forall m k x old, st1 m = Some (EVal k x) -> (forall s, In s l2 -> step_name R s <> m) -> rd R k h m old = Ok x).
Proof.
  intros R l1 l2 n v st1 P1 G W Is A P2.
  assert (N : node R (objr R (enumr R) v)) by (apply node_objs; intros x _; apply node_leaf; exact I).
  destruct (tree_history R l1 l2 n (objr R (enumr R) v) P1 G W Is N A P2) as (s & f0 & f1 & f2 & f & s' & disk & s'' & h & H1 & H2 & H3 & H4 & H5 & H6 & H7 & H8 & H9 & H10).
  rewrite enums_do in H4. exists s, f0, f1, f2, f, s', disk, s'', h. repeat (split; [assumption|]). split; [|exact H10].
  exists (map first_byte v). split; [apply enums_read; exact H9|]. split; [apply map_length|]. split.
  - apply Forall_forall. intros x I. apply in_map_iff in I. destruct I as (y & <- & _). apply Z.mod_pos_bound. lia.
  - split.
    + intros E. clear - E. induction v as [|x v IH]; [constructor|]. cbn [map] in E. injection E as Ex E. constructor; [apply first_byte_ok; exact Ex|apply IH; exact E].
    + clear. induction 1 as [|x w Hx _ IH]; [reflexivity|]. cbn [map]. rewrite IH. f_equal. apply first_byte_ok. exact Hx.
Qed.
Print Assumptions C125_vector_partial.

(** Under a name that is taken, writing an enumerator leaves the file as it was unless overwriting is asked for, and writing a
    vector of them is refused even then. *)
Theorem C125_taken : forall (F : Type) (f : file F) n v l m, f (full n) <> None -> write_enum F f n v NO_OVERWRITE = f /\ write_enums F f n l m = Throw.
Proof.
  intros F f n v l m H. unfold write_enum, write_num, internalWrite, write_enums, createGroup, h5_create. destruct (f (full n)); [|contradiction]. split; [reflexivity|destruct m; reflexivity].
Qed.
Print Assumptions C125_taken.

(** The hypothesis of C125_taken: a name that was written *)
Example C125_taken_nonvacuous : exists s f0, ser_new Z None TRUNC = Ok s /\ se_file Z s = Some f0 /\ write_enum Z f0 (lit "e") 7 NO_OVERWRITE (full (lit "e")) <> None.
Proof. eexists. eexists. split; [reflexivity|]. split; [reflexivity|]. vm_compute. discriminate. Qed.

(** Names that are new, after a value and before one *)
Example C125_nonvacuous : let l1 := [SGroup (lit "g"); SWrite (lit "Energy") KInt (-7)%Z] : list (step Zring) in let st1 := want_steps Zring (empty_store Zring) l1 in
  let l2 := [SWrite (lit "After") KInt 5%Z] : list (step Zring) in let n := lit "g/kinds" in
  propers Zring (empty_store Zring) l1 /\ good_name n /\ st1 n = None /\ inside Zring st1 n /\ Forall one_byte [3; 0; 255] /\
  (forall s, In s l2 -> ~ under n (step_name Zring s)) /\ (forall st, (forall m, ~ under n m -> st m = st1 m) -> propers Zring st l2) /\
  (forall s, In s l2 -> step_name Zring s <> n) /\ (forall st, (forall m, m <> n -> st m = st1 m) -> st n <> None -> propers Zring st l2).
Proof.
  cbv zeta. assert (U : ~ under (lit "g/kinds") (lit "After")) by (intros [H|(r & H)]; discriminate H). split; [|split; [|split; [|split; [|split; [|split; [|split; [|split]]]]]]].
  - cbn [propers proper want_step]. split; [split; [good [lit "g"]|split; [reflexivity|top]]|]. split; [|exact I]. split; [good [lit "Energy"]|]. split; [reflexivity|]. split; [top|exact I].
  - good [lit "g"; lit "kinds"].
  - reflexivity.
  - right. exists (lit "g"), (lit "kinds"). split; [reflexivity|]. split; [apply okc_ok; reflexivity|reflexivity].
  - unfold one_byte. repeat constructor; lia.
  - intros s [<-|[]]. exact U.
  - intros st H. cbn [propers proper]. split; [|exact I]. split; [good [lit "After"]|]. split; [rewrite H by exact U; reflexivity|]. split; [top|exact I].
  - intros s [<-|[]]. discriminate.
  - intros st H _. cbn [propers proper]. split; [|exact I]. split; [good [lit "After"]|]. split; [rewrite H by discriminate; reflexivity|]. split; [top|exact I].
Qed.
