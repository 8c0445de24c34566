(** Theorems about reductions over processes (C123). *)
From Coq Require Import ZArith.
From Verif Require Import Prelude Ring Dense_Model Mred_Model Mred_Spec.
Import List.
Local Open Scope Z_scope.

Section Reduce.
  Variable D : Type.
  Variable dop : mpi_op -> D -> D -> D.
  Variable d : D.
  Lemma combine_nth (w v : list D) op i : length v = length w -> (i < length w)%nat ->
    nth i (map (fun '(x, y) => dop op x y) (List.combine w v)) d = dop op (nth i w d) (nth i v d).
  Proof.
    revert v i. induction w as [|x w IH]; intros [|y v] i L H; cbn [length List.combine map nth] in *; try lia. destruct i; [reflexivity|].
    apply IH; lia.
  Qed.
  Lemma combine_all_ok op vs : forall w, (forall v, In v vs -> length v = length w) ->
    length (combine_all D dop op w vs) = length w /\
    forall i, (i < length w)%nat -> nth i (combine_all D dop op w vs) d = fold_left (dop op) (column d vs i) (nth i w d).
  Proof.
    induction vs as [|v vs IH]; intros w H; [split; reflexivity|]. cbn [combine_all column map fold_left].
    assert (L : length v = length w) by (apply H; left; reflexivity).
    set (w' := map _ _). assert (L' : length w' = length w) by (unfold w'; rewrite map_length, combine_length; lia).
    destruct (IH w') as [A B]; [intros u Hu; rewrite L'; apply H; right; exact Hu|]. split; [lia|]. intros i Hi. rewrite B by lia.
    unfold w'. rewrite combine_nth by auto. reflexivity.
  Qed.
  Lemma allreduce_ok op vs n : vs <> [] -> (forall v, In v vs -> length v = n) ->
    exists ws, allReduce_op D dop op vs = Ok ws /\ reduced d (fun l r => match l with [] => False | x :: l => r = fold_left (dop op) l x end) n vs ws.
  Proof.
    intros N H. destruct vs as [|v vs]; [contradiction|]. unfold allReduce_op, mpi_allreduce.
    assert (L : length v = n) by (apply H; left; reflexivity).
    replace (forallb _ vs) with true.
    2:{ symmetry. apply forallb_forall. intros w Hw. apply Nat.eqb_eq. rewrite L. apply H. right. exact Hw. }
    cbn [bind]. destruct (combine_all_ok op vs v) as [A B]; [intros u Hu; rewrite L; apply H; right; exact Hu|].
    eexists. split; [reflexivity|]. exists (combine_all D dop op v vs). split; [|split; [lia|]].
    - cbn [map length repeat]. f_equal. clear. generalize (combine_all D dop op v vs). intros w. induction vs; [reflexivity|]. cbn [map length repeat]. f_equal. auto.
    - intros i Hi. cbn [column map]. apply B. lia.
  Qed.
End Reduce.
Lemma reduced_impl {D} (d : D) (P Q : list D -> D -> Prop) n vs ws :
  (forall i r, (i < n)%nat -> P (column d vs i) r -> Q (column d vs i) r) -> reduced d P n vs ws -> reduced d Q n vs ws.
Proof. intros H (w & E & L & G). exists w. split; [exact E|]. split; [exact L|]. intros i Hi. apply H; auto. Qed.

Lemma as_long_cong u : (as_long u) mod 2 ^ 64 = u mod 2 ^ 64.
Proof. unfold as_long. destruct (Z.ltb_spec u (2 ^ 63)); [reflexivity|]. replace (u - 2 ^ 64) with (u + (-1) * 2 ^ 64) by ring. apply Z_mod_plus_full. Qed.
Lemma long_sum u v : long_op SUM u v = (u + v) mod 2 ^ 64.
Proof. unfold long_op, as_ulong. rewrite Z.add_mod, !as_long_cong, <- Z.add_mod by lia. reflexivity. Qed.
Lemma long_prod u v : long_op PROD u v = (u * v) mod 2 ^ 64.
Proof. unfold long_op, as_ulong. rewrite Z.mul_mod, !as_long_cong, <- Z.mul_mod by lia. reflexivity. Qed.
Lemma column_ulong n (vs : list (list Z)) i P : (forall v, In v vs -> length v = n) -> (forall v, In v vs -> Forall P v) -> (i < n)%nat -> Forall P (column 0 vs i).
Proof.
  intros L H Hi. apply Forall_forall. intros x Hx. apply in_map_iff in Hx. destruct Hx as (v & <- & Hv). specialize (H v Hv). rewrite Forall_forall in H. apply H. apply nth_In. rewrite (L v Hv). exact Hi.
Qed.

(** The sum over the processes of vectors of unsigned longs arrives at all of them, modulo 2^64 as sums of unsigned longs are. *)
Theorem C123_unsigned_sum : forall vs n, vs <> [] -> (forall v, In v vs -> length v = n /\ Forall ulong v) ->
  exists ws, allReduce_ulong SUM vs = Ok ws /\ reduced 0 (fun l r => r = zsum l mod 2 ^ 64) n vs ws.
Proof.
  intros vs n N H. destruct (allreduce_ok Z long_op 0 SUM vs n N (fun v Hv => proj1 (H v Hv))) as (ws & E & G). exists ws. split; [exact E|].
  revert G. apply reduced_impl. intros i r Hi. pose proof (column_ulong n vs i ulong (fun v Hv => proj1 (H v Hv)) (fun v Hv => proj2 (H v Hv)) Hi) as U.
  destruct (column 0 vs i) as [|x l]; [intros []|]. intros ->. inversion U as [|? ? Hx Hl]; subst. change (zsum (x :: l)) with (x + zsum l). clear U. revert x Hx.
  induction Hl as [|y l Hy Hl IH]; intros x Hx; cbn [fold_left].
  - change (zsum []) with 0. rewrite Z.add_0_r, Z.mod_small by exact Hx. reflexivity.
  - rewrite long_sum, IH by (apply Z.mod_pos_bound; lia). change (zsum (y :: l)) with (y + zsum l). rewrite Z.add_mod_idemp_l by lia. f_equal. lia.
Qed.
Print Assumptions C123_unsigned_sum.

(** ... and so does the product. *)
Theorem C123_unsigned_product : forall vs n, vs <> [] -> (forall v, In v vs -> length v = n /\ Forall ulong v) ->
  exists ws, allReduce_ulong PROD vs = Ok ws /\ reduced 0 (fun l r => r = zprod l mod 2 ^ 64) n vs ws.
Proof.
  intros vs n N H. destruct (allreduce_ok Z long_op 0 PROD vs n N (fun v Hv => proj1 (H v Hv))) as (ws & E & G). exists ws. split; [exact E|].
  revert G. apply reduced_impl. intros i r Hi. pose proof (column_ulong n vs i ulong (fun v Hv => proj1 (H v Hv)) (fun v Hv => proj2 (H v Hv)) Hi) as U.
  destruct (column 0 vs i) as [|x l]; [intros []|]. intros ->. inversion U as [|? ? Hx Hl]; subst. change (zprod (x :: l)) with (x * zprod l). clear U. revert x Hx.
  induction Hl as [|y l Hy Hl IH]; intros x Hx; cbn [fold_left].
  - change (zprod []) with 1. rewrite Z.mul_1_r, Z.mod_small by exact Hx. reflexivity.
  - rewrite long_prod, IH by (apply Z.mod_pos_bound; lia). change (zprod (y :: l)) with (y * zprod l). rewrite Z.mul_mod_idemp_l by lia. f_equal. lia.
Qed.
Print Assumptions C123_unsigned_product.

Lemma long_max u v : 0 <= u < 2 ^ 63 -> 0 <= v < 2 ^ 63 -> long_op MAX u v = Z.max u v /\ long_op MIN u v = Z.min u v.
Proof.
  intros Hu Hv. unfold long_op, as_ulong, as_long. destruct (Z.ltb_spec u (2 ^ 63)); [|lia]. destruct (Z.ltb_spec v (2 ^ 63)); [|lia].
  split; apply Z.mod_small; lia.
Qed.
(** The largest and the smallest of the numbers arrive at all processes, if all numbers are below 2^63.
    Missing for the full claim: larger numbers, for which it is false (see below). *)
Theorem C123_unsigned_max_partial : forall vs n, vs <> [] -> (forall v, In v vs -> length v = n /\ Forall (fun x => 0 <= x < 2 ^ 63) v) ->
  (exists ws, allReduce_ulong MAX vs = Ok ws /\ reduced 0 (fun l r => is_max r l) n vs ws) /\
  (exists ws, allReduce_ulong MIN vs = Ok ws /\ reduced 0 (fun l r => is_min r l) n vs ws).
Proof.
  intros vs n N H. split.
  - destruct (allreduce_ok Z long_op 0 MAX vs n N (fun v Hv => proj1 (H v Hv))) as (ws & E & G). exists ws. split; [exact E|].
    revert G. apply reduced_impl. intros i r Hi. pose proof (column_ulong n vs i _ (fun v Hv => proj1 (H v Hv)) (fun v Hv => proj2 (H v Hv)) Hi) as U.
    destruct (column 0 vs i) as [|x l]; [intros []|]. intros ->. inversion U as [|? ? Hx Hl]; subst. clear U. revert x Hx.
    induction Hl as [|y l Hy Hl IH]; intros x Hx; cbn [fold_left]; [split; [left; reflexivity|intros z [<-|[]]; lia]|].
    rewrite (proj1 (long_max x y Hx Hy)). destruct (IH (Z.max x y) ltac:(lia)) as [A B]. split.
    + destruct A as [A|A]; [|right; right; exact A]. rewrite <- A. destruct (Z.max_dec x y) as [->| ->]; [left; reflexivity|right; left; reflexivity].
    + intros z [<-|[<-|Hz]]; [pose proof (B _ (or_introl eq_refl)); lia|pose proof (B _ (or_introl eq_refl)); lia|apply B; right; exact Hz].
  - destruct (allreduce_ok Z long_op 0 MIN vs n N (fun v Hv => proj1 (H v Hv))) as (ws & E & G). exists ws. split; [exact E|].
    revert G. apply reduced_impl. intros i r Hi. pose proof (column_ulong n vs i _ (fun v Hv => proj1 (H v Hv)) (fun v Hv => proj2 (H v Hv)) Hi) as U.
    destruct (column 0 vs i) as [|x l]; [intros []|]. intros ->. inversion U as [|? ? Hx Hl]; subst. clear U. revert x Hx.
    induction Hl as [|y l Hy Hl IH]; intros x Hx; cbn [fold_left]; [split; [left; reflexivity|intros z [<-|[]]; lia]|].
    rewrite (proj2 (long_max x y Hx Hy)). destruct (IH (Z.min x y) ltac:(lia)) as [A B]. split.
    + destruct A as [A|A]; [|right; right; exact A]. rewrite <- A. destruct (Z.min_dec x y) as [->| ->]; [left; reflexivity|right; left; reflexivity].
    + intros z [<-|[<-|Hz]]; [pose proof (B _ (or_introl eq_refl)); lia|pose proof (B _ (or_introl eq_refl)); lia|apply B; right; exact Hz].
Qed.
Print Assumptions C123_unsigned_max_partial.

(** A number from 2^63 on counts as negative: the largest of it and a number below 2^63 is said to be the latter. *)
Theorem C123_unsigned_max_refuted : forall a b, 0 <= a < 2 ^ 63 -> 2 ^ 63 <= b < 2 ^ 64 ->
  allReduce_ulong MAX [[a]; [b]] = Ok [[a]; [a]] /\ allReduce_ulong MIN [[a]; [b]] = Ok [[b]; [b]].
Proof.
  intros a b Ha Hb. unfold allReduce_ulong, allReduce_op, mpi_allreduce. cbn [forallb length Nat.eqb andb bind combine_all List.combine map].
  unfold long_op, as_long, as_ulong. destruct (Z.ltb_spec a (2 ^ 63)); [|lia]. destruct (Z.ltb_spec b (2 ^ 63)); [lia|].
  rewrite Z.max_l, Z.min_r by lia. split.
  - rewrite Z.mod_small by lia. reflexivity.
  - replace ((b - 2 ^ 64) mod 2 ^ 64) with b; [reflexivity|]. symmetry. replace (b - 2 ^ 64) with (b + (-1) * 2 ^ 64) by ring. rewrite Z_mod_plus_full. apply Z.mod_small. lia.
Qed.
Print Assumptions C123_unsigned_max_refuted.

Section Cplx.
  Variable R : cring.
  Variables rmax rmin : R -> R -> R.
  Definition pair_op (op : mpi_op) (x y : R * R) : R * R := (double_op R rmax rmin op (fst x) (fst y), double_op R rmax rmin op (snd x) (snd y)).
  Lemma unflat_flat v : unflat R (flat R v) = v.
  Proof. induction v as [|[x y] v IH]; [reflexivity|]. cbn [flat flat_map app unflat fst snd]. unfold flat in IH. rewrite IH. reflexivity. Qed.
  Lemma flat_length v : length (flat R v) = (2 * length v)%nat.
  Proof. induction v as [|z v IH]; [reflexivity|]. cbn [flat flat_map app length]. unfold flat in IH. rewrite IH. lia. Qed.
  Lemma flat_map2 op : forall w v, map (fun '(x, y) => double_op R rmax rmin op x y) (List.combine (flat R w) (flat R v)) =
    flat R (map (fun '(x, y) => pair_op op x y) (List.combine w v)).
  Proof.
    induction w as [|x w IH]; intros [|y v]; try reflexivity. cbn [flat flat_map app List.combine map pair_op fst snd]. do 2 f_equal. apply IH.
  Qed.
  Lemma flat_all op vs : forall w, combine_all R (double_op R rmax rmin) op (flat R w) (map (flat R) vs) = flat R (combine_all (R * R) pair_op op w vs).
  Proof. induction vs as [|v vs IH]; intros w; [reflexivity|]. cbn [combine_all map]. rewrite flat_map2. apply IH. Qed.
  Lemma cplx_pairs op vs : allReduce_cplx R rmax rmin op vs = allReduce_op (R * R) pair_op op vs.
  Proof.
    unfold allReduce_cplx, allReduce_op, mpi_allreduce. destruct vs as [|v vs]; [reflexivity|]. cbn [map].
    replace (forallb (fun w => Nat.eqb (length w) (length (flat R v))) (map (flat R) vs)) with (forallb (fun w => Nat.eqb (length w) (length v)) vs).
    2:{ induction vs as [|w vs IH]; [reflexivity|]. cbn [forallb map]. rewrite IH, !flat_length. f_equal.
        destruct (Nat.eqb_spec (length w) (length v)) as [H|H]; symmetry; [apply Nat.eqb_eq|apply Nat.eqb_neq]; lia. }
    destruct (forallb _ vs); [|reflexivity]. cbn [bind map]. rewrite flat_all, unflat_flat. do 2 f_equal. rewrite !map_map. apply map_ext. intros _. apply unflat_flat.
  Qed.
  Add Ring Rr : (c_ring R).
  Lemma add0 (x : R) : cadd x c0 = x. Proof. ring. Qed.
  Lemma add_assoc (x y z : R) : cadd (cadd x y) z = cadd x (cadd y z). Proof. ring. Qed.
  Lemma mul00 : cmul c0 c0 = c0 :> R. Proof. ring. Qed.
  Lemma mul11 : cmul c1 c1 = c1 :> R. Proof. ring. Qed.
End Cplx.

(** The sum over the processes of vectors of complex numbers arrives at all of them. *)
Theorem C123_complex_sum : forall (R : cring) rmax rmin (vs : list (list (R * R))) n, vs <> [] -> (forall v, In v vs -> length v = n) ->
  exists ws, allReduce_cplx R rmax rmin SUM vs = Ok ws /\
    reduced (c0, c0) (fun l r => r = fold_right (fun x y => (cadd (fst x) (fst y), cadd (snd x) (snd y))) (c0, c0) l) n vs ws.
Proof.
  intros R rmax rmin vs n N H. rewrite cplx_pairs. destruct (allreduce_ok (R * R) (pair_op R rmax rmin) (c0, c0) SUM vs n N H) as (ws & E & G). exists ws. split; [exact E|].
  revert G. apply reduced_impl. intros i r Hi. destruct (column (c0, c0) vs i) as [|x l]; [intros []|]. intros ->. cbn [fold_right].
  revert x. induction l as [|y l IH]; intros [a b]; cbn [fold_left fold_right fst snd]; [rewrite !add0; reflexivity|]. rewrite IH. unfold pair_op. cbn [fst snd double_op]. rewrite !add_assoc. reflexivity.
Qed.
Print Assumptions C123_complex_sum.

(** The claim that the product arrives is false for complex numbers: the real parts and the imaginary parts are multiplied, so the
    product of i and i is said to be i. *)
Theorem C123_complex_product_refuted : forall (R : cring) rmax rmin,
  allReduce_cplx R rmax rmin PROD [[(c0, c1)]; [(c0, c1)]] = Ok [[(c0, c1)]; [(c0, c1)]].
Proof.
  intros R rmax rmin. rewrite cplx_pairs. unfold allReduce_op, mpi_allreduce. cbn [forallb length Nat.eqb andb bind combine_all List.combine map]. unfold pair_op. cbn [double_op fst snd].
  rewrite mul00, mul11. reflexivity.
Qed.
Print Assumptions C123_complex_product_refuted.

(** The sum over the processes of matrices of one shape, which is not empty, arrives at all of them, with that shape. *)
Theorem C123_matrix_partial : forall (R : cring) rmax rmin (ms : list (mat R)) r c, ms <> [] -> (0 < r)%nat -> (0 < c)%nat ->
  (forall m, In m ms -> m_nrow m = r /\ m_ncol m = c /\ length (m_data m) = (r * c)%nat) ->
  exists m, allReduce_mat R rmax rmin SUM ms = Ok (repeat m (length ms)) /\ m_nrow m = r /\ m_ncol m = c /\ length (m_data m) = (r * c)%nat /\
    forall i j, (i < r)%nat -> (j < c)%nat -> nth (i + j * r) (m_data m) c0 = fold_right cadd c0 (map (fun a => nth (i + j * r) (m_data a) c0) ms).
Proof.
  intros R rmax rmin ms r c N Hr Hc H. unfold allReduce_mat.
  replace (forallb _ ms) with true.
  2:{ symmetry. apply forallb_forall. intros m Hm. destruct (H m Hm) as (-> & -> & _). destruct (Nat.eqb_spec (r * c) 0) as [Q|Q]; [nia|reflexivity]. }
  destruct (allreduce_ok R (double_op R rmax rmin) c0 SUM (map (@m_data R) ms) (r * c)) as (ws & E & w & Ew & L & G).
  { destruct ms; [contradiction|discriminate]. } { intros v Hv. apply in_map_iff in Hv. destruct Hv as (m & <- & Hm). apply H. exact Hm. }
  rewrite E. cbn [bind]. exists (mkmat r c w). split; [|split; [reflexivity|split; [reflexivity|split; [exact L|]]]].
  - f_equal. rewrite Ew, map_length. clear - H. induction ms as [|m ms IH]; [reflexivity|]. cbn [length repeat List.combine map].
    destruct (H m (or_introl eq_refl)) as (-> & -> & _). f_equal. apply IH. intros m' Hm. apply H. right. exact Hm.
  - intros i j Hi Hj. cbn [m_data]. assert (Hk : (i + j * r < r * c)%nat) by nia. specialize (G _ Hk). unfold column in G. rewrite map_map in G.
    destruct (map (fun x => nth (i + j * r) (m_data x) c0) ms) as [|x l]; [destruct G|]. rewrite G. cbn [fold_right]. clear.
    revert x. induction l as [|y l IH]; intros x; cbn [fold_left fold_right]; [rewrite add0; reflexivity|]. rewrite IH. cbn [double_op]. apply add_assoc.
Qed.
Print Assumptions C123_matrix_partial.

(** The claim that matrices of different shapes are refused is false: only the numbers of their elements count. *)
Theorem C123_matrix_shape_refuted : forall (R : cring) rmax rmin (a b c d : R),
  allReduce_mat R rmax rmin SUM [mkmat 1 2 [a; b]; mkmat 2 1 [c; d]] = Ok [mkmat 1 2 [cadd a c; cadd b d]; mkmat 2 1 [cadd a c; cadd b d]].
Proof. intros. reflexivity. Qed.
Print Assumptions C123_matrix_shape_refuted.

(** Three processes *)
Example C123_nonvacuous :
  (forall v, In v [[5; 2 ^ 64 - 1]; [7; 3]; [1; 4]] -> length v = 2%nat /\ Forall ulong v) /\
  allReduce_ulong SUM [[5; 2 ^ 64 - 1]; [7; 3]; [1; 4]] = Ok (repeat [13; 6] 3) /\
  allReduce_ulong MAX [[5; 2]; [7; 3]; [1; 4]] = Ok (repeat [7; 4] 3) /\
  allReduce_mat Zring Z.max Z.min SUM [@mkmat Zring 1 2 [5; 2]; @mkmat Zring 1 2 [7; 3]] = Ok (repeat (@mkmat Zring 1 2 [12; 5]) 2).
Proof.
  split; [|split; [|split]; vm_compute; reflexivity]. intros v [<-|[<-|[<-|[]]]]; (split; [reflexivity|repeat constructor; vm_compute; intuition discriminate]).
Qed.
