(** C17-C28 compressed-row-storage matrices, C75 the validity check, C76
    equality, norm and the product a*b^dagger. *)
From Verif Require Import Prelude Ring Vec_Model Vec_Spec Vec_Proofs
  Dense_Model Dense_Spec Dense_Proofs Sort_Model Sort_Spec Sort_Proofs
  Crs_Model Crs_Spec Crs_Base Crs_Proofs Crs_Proofs2 Crs_Proofs3 Crs_Proofs4 Crs_Proofs5.
Local Open Scope nat_scope.
Local Open Scope cring_scope.

(** C17. Dense to CRS. *)
Theorem C17_from_dense : forall (R : cring) (a : mat R), mat_wf a ->
  exists m, crs_of_dense R a = Ok m /\
    is_crs m (m_nrow a) (m_ncol a) (melem a) /\
    crs_nodup m /\ crs_sorted m /\ crs_nozero m.
Proof.
  intros R a W. rewrite crs_of_dense_rows by exact W. eexists. split; [reflexivity|].
  apply dense_rows_is. exact W.
Qed.
Print Assumptions C17_from_dense.

(** fullMatrixToCrsMatrix does the same whatever its target held before. *)
Theorem C17_fullMatrixToCrsMatrix : forall (R : cring) (target : crs R) (a : mat R), mat_wf a ->
  exists m, fullMatrixToCrsMatrix R target a = Ok m /\ crs_of_dense R a = Ok m.
Proof.
  intros R t a W. rewrite crs_of_dense_rows, fullMatrixToCrsMatrix_rows by exact W. eauto.
Qed.
Print Assumptions C17_fullMatrixToCrsMatrix.

Theorem C17_round_trip : forall (R : cring) (a : mat R), mat_wf a ->
  exists m, crs_of_dense R a = Ok m /\ crs_toDense R m = Ok a.
Proof. exact dense_roundtrip. Qed.
Print Assumptions C17_round_trip.

(** The other way round: a CRS matrix survives the trip through a dense one in
    canonical form (sorted columns, no zeros). *)
Theorem C17_round_trip_crs : forall (R : cring) (m : crs R), crs_wf m -> crs_nodup m ->
  exists d m', crs_toDense R m = Ok d /\ crs_of_dense R d = Ok m' /\
    is_crs m' (c_nrow m) (c_ncol m) (crs_elem m) /\ crs_sorted m' /\ crs_nozero m'.
Proof.
  intros R m W N. destruct (toDense_ok R m W N) as [d [E [H1 [H2 [H3 H4]]]]].
  destruct (C17_from_dense R d H3) as [m' [E' [H [_ [S Z]]]]].
  exists d, m'. split; [exact E|]. split; [exact E'|]. split; [|auto].
  rewrite H1, H2 in H. eapply is_crs_ext; [|exact H]. exact H4.
Qed.
Print Assumptions C17_round_trip_crs.

Example C17_nonvacuous :
  let a := @mkmat Zring 2 3 [0; 5; 7; 0; 0; 9]%Z in
  mat_wf a /\ crs_of_dense Zring a = Ok (@mkcrs Zring [0; 1; 3] [1; 0; 2] [7; 5; 9]%Z 2 3) /\
  crs_toDense Zring (@mkcrs Zring [0; 1; 3] [1; 0; 2] [7; 5; 9]%Z 2 3) = Ok a.
Proof. repeat split. Qed.

(** C18. Matrices obtained from constructors and operations. The old contents of
    every output argument are arbitrary. Direct writes to the arrays (setRow,
    setCol, pushCol, pushValue, resize with a number of entries) are not
    operations here: the caller does the bookkeeping. *)
Inductive built (R : cring) : crs R -> Prop :=
| B_empty : built R (crs_empty R)
| B_new r c : built R (crs_new R r c)
| B_clear m : built R (crs_clear R m)
| B_resize m r c : built R (crs_resize2 R m r c)
| B_dense a m : mat_wf a -> crs_of_dense R a = Ok m -> built R m
| B_full t a m : mat_wf a -> fullMatrixToCrsMatrix R t a = Ok m -> built R m
| B_diag t n x m : makeDiagonal R t n x = Ok m -> built R m
| B_scale a x m : built R a -> crs_scale R a x = Ok m -> built R m
| B_conj a m : built R a -> crs_conjugate R a = Ok m -> built R m
| B_mul t (a b : crs R) m : built R a -> built R b -> c_ncol a = c_nrow b -> multiply R t a b = Ok m -> built R m
| B_dagger t a m : built R a -> crs_transposeConjugate R t a = Ok m -> built R m
| B_plus t a x b y m : built R a -> built R b -> operatorPlus R t a x b y = Ok m -> built R m
| B_pluseq a b m : built R a -> built R b -> crs_plus_eq R a b = Ok m -> built R m
| B_pluseq_t a t b m : built R a -> built R b -> crs_plus_eq_scaled R a t b = Ok m -> built R m
| B_pluseq_p a t (b c : crs R) m : built R a -> built R b -> built R c -> c_ncol b = c_nrow c ->
    crs_plus_eq_product R a t b c = Ok m -> built R m
| B_sum t (bs : list (crs R)) (xs : list R) m : (forall b, In b bs -> built R b) -> length xs = length bs ->
    crs_sum R t bs xs = Ok m -> built R m
| B_kron1 t (a : crs R) n (s : list R) (o : bool) p m : built R a -> c_nrow a = c_ncol a -> is_perm p (n * c_nrow a)%nat ->
    (n <= length s)%nat -> externalProduct1 R t a n s o p = Ok m -> built R m
| B_kron2 t (a b : crs R) (s : list R) (o : bool) p m : built R a -> built R b -> c_nrow a = c_ncol a -> c_nrow b = c_ncol b ->
    is_perm p (c_nrow b * c_nrow a)%nat -> length s = (if o then c_nrow a else c_nrow b) ->
    externalProduct2 R t a b s o p = Ok m -> built R m
| B_block (f b : crs R) k m : built R b -> (k + c_nrow b <= c_nrow f)%nat -> (k + c_ncol b <= c_ncol f)%nat ->
    fromBlockToFull R f b k = Ok m -> built R m.

Lemma new_wf (R : cring) r c : crs_wf (crs_new R r c) /\ crs_nodup (crs_new R r c).
Proof.
  assert (Z : forall i, rp (crs_new R r c) i = 0%nat).
  { intros i. unfold rp. cbn [crs_new crs_resize2 c_rowptr]. apply nth_repeat_same. }
  split.
  - unfold crs_wf. rewrite !Z. cbn [crs_new crs_resize2 c_rowptr c_colind c_values c_nrow c_ncol length].
    split; [left; rewrite repeat_length; lia|]. split; [reflexivity|]. split; [intros; rewrite !Z; lia|].
    split; [reflexivity|]. split; [reflexivity|constructor].
  - intros i Hi. unfold crs_row. rewrite !Z. constructor.
Qed.

Lemma empty_wf (R : cring) : crs_wf (crs_empty R) /\ crs_nodup (crs_empty R).
Proof.
  split.
  - unfold crs_wf. cbn. split; [right; auto|]. split; [reflexivity|]. split; [intros; lia|].
    split; [reflexivity|]. split; [reflexivity|constructor].
  - intros i Hi. cbn in Hi. lia.
Qed.

Theorem C18_every_matrix_well_formed : forall (R : cring) (m : crs R), built R m ->
  crs_wf m /\ crs_nodup m.
Proof.
  intros R m H. induction H.
  - apply empty_wf.
  - apply new_wf.
  - apply empty_wf.
  - apply new_wf.
  - rewrite crs_of_dense_rows in H0 by exact H. apply Ok_inj in H0. subst m.
    destruct (dense_rows_is R a H) as [[_ [_ [_ [X _]]]] [N _]]. auto.
  - rewrite fullMatrixToCrsMatrix_rows in H0 by exact H. apply Ok_inj in H0. subst m.
    destruct (dense_rows_is R a H) as [[_ [_ [_ [X _]]]] [N _]]. auto.
  - destruct (makeDiagonal_ok R t n x) as [m' [E [[_ [_ [_ [X _]]]] [_ N]]]].
    rewrite H in E. apply Ok_inj in E. subst. auto.
  - destruct IHbuilt as [W N]. destruct (crs_scale_ok R a x W) as [m' [E [X [_ [_ [_ Y]]]]]].
    rewrite H0 in E. apply Ok_inj in E. subst. auto.
  - destruct IHbuilt as [W N]. destruct (crs_conjugate_ok R a W) as [m' [E [X [_ [_ [_ Y]]]]]].
    rewrite H0 in E. apply Ok_inj in E. subst. auto.
  - destruct IHbuilt1 as [W1 _], IHbuilt2 as [W2 _].
    destruct (multiply_ok R t a b W1 W2 H1) as [m' [E [[_ [_ [_ [X _]]]] Y]]].
    rewrite H2 in E. apply Ok_inj in E. subst. auto.
  - destruct IHbuilt as [W N]. destruct (transposeConjugate_ok R t a W) as [m' [E [[_ [_ [_ [X _]]]] Y]]].
    rewrite H0 in E. apply Ok_inj in E. subst. split; [exact X|apply Y; exact N].
  - destruct IHbuilt1 as [W1 _], IHbuilt2 as [W2 _].
    destruct (operatorPlus_ok R t a x b y W1 W2) as [m' [E [[_ [_ [_ [X _]]]] [Y _]]]].
    rewrite H1 in E. apply Ok_inj in E. subst. auto.
  - destruct IHbuilt1 as [W1 _], IHbuilt2 as [W2 _]. unfold crs_plus_eq in H1.
    destruct (Nat.eq_dec (c_nrow b) (c_ncol b)) as [Hb|Hb];
      [|unfold crs_add in H1; apply Nat.eqb_neq in Hb; rewrite Hb in H1; discriminate].
    destruct (crs_add_ok R a (crs_empty R) b c1 W1 W2 Hb) as [m' [E [[_ [_ [_ [X _]]]] [Y _]]]].
    rewrite H1 in E. apply Ok_inj in E. subst. auto.
  - destruct IHbuilt1 as [W1 _], IHbuilt2 as [W2 _]. unfold crs_plus_eq_scaled in H1.
    destruct (Nat.eq_dec (c_nrow b) (c_ncol b)) as [Hb|Hb];
      [|unfold crs_add in H1; apply Nat.eqb_neq in Hb; rewrite Hb in H1; discriminate].
    destruct (crs_add_ok R a (crs_empty R) b t W1 W2 Hb) as [m' [E [[_ [_ [_ [X _]]]] [Y _]]]].
    rewrite H1 in E. apply Ok_inj in E. subst. auto.
  - destruct IHbuilt1 as [W1 _], IHbuilt2 as [W2 _], IHbuilt3 as [W3 _]. unfold crs_plus_eq_product in H3.
    destruct (multiply_ok R (crs_empty R) b c W2 W3 H2) as [s [Es [[_ [_ [_ [Ws _]]]] _]]].
    rewrite Es in H3. cbn [bind] in H3.
    destruct (Nat.eq_dec (c_nrow s) (c_ncol s)) as [Hb|Hb];
      [|unfold crs_add in H3; apply Nat.eqb_neq in Hb; rewrite Hb in H3; discriminate].
    destruct (crs_add_ok R a (crs_empty R) s t W1 Ws Hb) as [m' [E [[_ [_ [_ [X _]]]] [Y _]]]].
    rewrite H3 in E. apply Ok_inj in E. subst. auto.
  - destruct (crs_sum_ok R t bs xs) as [m' [E [[_ [_ [_ [X _]]]] Y]]].
    + apply Forall_forall. intros b Hb. apply H0. exact Hb.
    + exact H1.
    + rewrite H2 in E. apply Ok_inj in E. subst. auto.
  - destruct IHbuilt as [W N].
    destruct (externalProduct1_ok R a n s o p W H0 H1 ltac:(auto) t) as [m' [E [_ [_ [_ [X [_ Y]]]]]]].
    rewrite H3 in E. apply Ok_inj in E. subst. auto.
  - destruct IHbuilt1 as [W1 N1], IHbuilt2 as [W2 N2].
    destruct (externalProduct2_ok R t a b s o p W1 W2 H1 H2 H3 H4) as [m' [E [_ [_ [_ [X [_ Y]]]]]]].
    rewrite H5 in E. apply Ok_inj in E. subst. auto.
  - destruct IHbuilt as [W N]. destruct (fromBlockToFull_ok R f b k W H0 H1) as [m' [E [[_ [_ [_ [X _]]]] [Y _]]]].
    rewrite H2 in E. apply Ok_inj in E. subst. auto.
Qed.
Print Assumptions C18_every_matrix_well_formed.

(** Consequently the library's own validity check accepts every matrix with at
    least one row and one column. *)
Theorem C18_checkValidity_accepts : forall (R : cring) (m : crs R), built R m ->
  (0 < c_nrow m)%nat -> (0 < c_ncol m)%nat -> checkValidity R m = Ok tt.
Proof.
  intros R m H Hr Hc. destruct (C18_every_matrix_well_formed R m H) as [W N].
  apply checkValidity_iff; [apply W|]. auto.
Qed.
Print Assumptions C18_checkValidity_accepts.

Theorem C18_scale_conjugate : forall (R : cring) (m : crs R) (x : R), crs_wf m ->
  (exists m', crs_scale R m x = Ok m' /\ crs_wf m' /\ c_nrow m' = c_nrow m /\ c_ncol m' = c_ncol m /\
     forall i j, crs_elem m' i j = x * crs_elem m i j) /\
  (exists m', crs_conjugate R m = Ok m' /\ crs_wf m' /\ c_nrow m' = c_nrow m /\ c_ncol m' = c_ncol m /\
     forall i j, crs_elem m' i j = cconj (crs_elem m i j)).
Proof.
  intros R m x W. split.
  - destruct (crs_scale_ok R m x W) as [m' [E [X [A1 [A2 [A3 _]]]]]]. eauto 10.
  - destruct (crs_conjugate_ok R m W) as [m' [E [X [A1 [A2 [A3 _]]]]]]. eauto 10.
Qed.
Print Assumptions C18_scale_conjugate.

Theorem C18_makeDiagonal : forall (R : cring) (m : crs R) n (x : R),
  exists m', makeDiagonal R m n x = Ok m' /\
    is_crs m' n n (fun i j => if (i =? j)%nat then x else c0) /\ crs_sorted m'.
Proof.
  intros R m n x. destruct (makeDiagonal_ok R m n x) as [m' [E [H [S _]]]]. eauto.
Qed.
Print Assumptions C18_makeDiagonal.

Example C18_nonvacuous :
  let a := @mkcrs Zring [0; 2; 4] [0; 1; 0; 1] [1; 2; 3; 4]%Z 2 2 in
  let b := @mkcrs Zring [0; 2; 4] [0; 1; 0; 1] [7; 10; 15; 22]%Z 2 2 in
  let c := @mkcrs Zring [0; 2; 4] [0; 1; 0; 1] [8; 12; 18; 26]%Z 2 2 in
  built Zring a /\ built Zring b /\ built Zring c /\ checkValidity Zring c = Ok tt.
Proof.
  cbv zeta.
  assert (Ha : built Zring (@mkcrs Zring [0; 2; 4] [0; 1; 0; 1] [1; 2; 3; 4]%Z 2 2)).
  { apply (B_dense Zring (@mkmat Zring 2 2 [1; 3; 2; 4]%Z)); reflexivity. }
  assert (Hb : built Zring (@mkcrs Zring [0; 2; 4] [0; 1; 0; 1] [7; 10; 15; 22]%Z 2 2)).
  { apply (B_mul Zring (crs_empty Zring) _ _ _ Ha Ha); [reflexivity|vm_compute; reflexivity]. }
  split; [exact Ha|]. split; [exact Hb|]. split; [|vm_compute; reflexivity].
  apply (B_pluseq Zring _ _ _ Hb Ha). vm_compute. reflexivity.
Qed.

(** C19. Matrix times vector. *)
Theorem C19_matrixVectorProduct : forall (R : cring) (A : crs R) (x y : list R),
  crs_wf A -> length x = length y -> c_nrow A = length y -> c_ncol A = length y ->
  exists x', matrixVectorProduct R A x y = Ok x' /\
    is_vec x' (length x) (fun i => vel x i + sumn (length y) (fun j => crs_elem A i j * vel y j)).
Proof. exact matrixVectorProduct_ok. Qed.
Print Assumptions C19_matrixVectorProduct.

(** The three-argument product overwrites its target. *)
Theorem C19_multiply : forall (R : cring) (old : list R) (A : crs R) (y : list R),
  crs_wf A -> (c_ncol A <= length y)%nat ->
  exists x', multiply_vec R old A y = Ok x' /\
    is_vec x' (c_nrow A) (fun i => sumn (c_ncol A) (fun j => crs_elem A i j * vel y j)).
Proof. exact multiply_vec_ok. Qed.
Print Assumptions C19_multiply.

Example C19_nonvacuous :
  let A := @mkcrs Zring [0; 2; 3] [0; 1; 0] [1; 2; 3]%Z 2 2 in
  crs_wf A /\ matrixVectorProduct Zring A [10; 20]%Z [5; 7]%Z = Ok [29; 35]%Z /\
  multiply_vec Zring [1; 1; 1]%Z A [5; 7]%Z = Ok [19; 15]%Z.
Proof.
  split; [|split; vm_compute; reflexivity].
  split; [left; reflexivity|]. split; [reflexivity|]. split.
  { intros i Hi. cbn in Hi. destruct i as [|[|i]]; [| |lia]; unfold rp; simpl; lia. }
  split; [reflexivity|]. split; [reflexivity|]. repeat constructor.
Qed.

(** C20. Product. *)
Theorem C20_multiply : forall (R : cring) (C A B : crs R),
  crs_wf A -> crs_wf B -> c_ncol A = c_nrow B ->
  exists C', multiply R C A B = Ok C' /\
    is_crs C' (c_nrow A) (c_ncol B)
      (fun i j => sumn (c_ncol A) (fun k => crs_elem A i k * crs_elem B k j)) /\
    crs_nodup C'.
Proof. exact multiply_ok. Qed.
Print Assumptions C20_multiply.

Example C20_nonvacuous :
  let A := @mkcrs Zring [0; 2; 2; 3] [0; 1; 0] [1; 2; 3]%Z 3 2 in
  let B := @mkcrs Zring [0; 1; 3] [1; 1; 0] [4; 5; 6]%Z 2 2 in
  checkValidity Zring A = Ok tt /\ checkValidity Zring B = Ok tt /\
  multiply Zring A A B = Ok (@mkcrs Zring [0; 2; 2; 3] [1; 0; 1] [14; 12; 12]%Z 3 2).
Proof. vm_compute. auto. Qed.

(** C21. Conjugate transpose. *)
Theorem C21_transposeConjugate : forall (R : cring) (B A : crs R), crs_wf A ->
  exists B', crs_transposeConjugate R B A = Ok B' /\
    is_crs B' (c_ncol A) (c_nrow A) (fun i j => cconj (crs_elem A j i)) /\
    (crs_nodup A -> crs_sorted B' /\ crs_nodup B').
Proof. exact transposeConjugate_ok. Qed.
Print Assumptions C21_transposeConjugate.

Theorem C21_twice : forall (R : cring) (B B2 A : crs R), crs_wf A ->
  exists B' A', crs_transposeConjugate R B A = Ok B' /\ crs_transposeConjugate R B2 B' = Ok A' /\
    is_crs A' (c_nrow A) (c_ncol A) (crs_elem A) /\ (crs_nodup A -> crs_sorted A').
Proof.
  intros R B B2 A W.
  destruct (transposeConjugate_ok R B A W) as [B' [E [[X1 [X2 [X3 [X4 X5]]]] N]]].
  destruct (transposeConjugate_ok R B2 B' X4) as [A' [E' [H' N']]].
  exists B', A'. split; [exact E|]. split; [exact E'|]. split.
  - rewrite X1, X2 in H'. eapply is_crs_ext; [|exact H']. intros i j Hi Hj. cbv beta.
    rewrite X5 by assumption. apply c_conj_inv.
  - intros HN. apply N'. apply N. exact HN.
Qed.
Print Assumptions C21_twice.

Example C21_nonvacuous :
  let A := @mkcrs Gring [0; 2; 2; 3] [1; 0; 0] [(1, 1); (2, 0); (3, -2)]%Z 3 2 in
  checkValidity Gring A = Ok tt /\
  crs_transposeConjugate Gring A A =
    Ok (@mkcrs Gring [0; 2; 3] [0; 2; 0] [(2, 0); (3, 2); (1, -1)]%Z 2 3).
Proof. vm_compute. auto. Qed.

(** C22. Linear combination; [pad_elem] extends a matrix by zeros. *)
Theorem C22_operatorPlus : forall (R : cring) (A0 B : crs R) (b : R) (C : crs R) (c' : R),
  crs_wf B -> crs_wf C ->
  exists A', operatorPlus R A0 B b C c' = Ok A' /\
    is_crs A' (Nat.max (c_nrow B) (c_nrow C)) (Nat.max (c_ncol B) (c_ncol C))
      (fun i j => pad_elem B i j * b + pad_elem C i j * c') /\
    crs_nodup A' /\ crs_nozero A'.
Proof. exact operatorPlus_ok. Qed.
Print Assumptions C22_operatorPlus.

Theorem C22_plus_assign : forall (R : cring) (this m : crs R) (t : R),
  crs_wf this -> crs_wf m -> c_nrow m = c_ncol m ->
  exists A', crs_plus_eq_scaled R this t m = Ok A' /\
    is_crs A' (Nat.max (c_nrow this) (c_nrow m)) (Nat.max (c_ncol this) (c_ncol m))
      (fun i j => pad_elem this i j + pad_elem m i j * t) /\
    crs_nodup A' /\ crs_nozero A'.
Proof. intros R this m t W1 W2 H. apply crs_add_ok; assumption. Qed.
Print Assumptions C22_plus_assign.

Theorem C22_plus_assign_product : forall (R : cring) (this a b : crs R) (t : R),
  crs_wf this -> crs_wf a -> crs_wf b -> c_ncol a = c_nrow b -> c_nrow a = c_ncol b ->
  exists A', crs_plus_eq_product R this t a b = Ok A' /\
    is_crs A' (Nat.max (c_nrow this) (c_nrow a)) (Nat.max (c_ncol this) (c_ncol b))
      (fun i j => pad_elem this i j +
         (if (i <? c_nrow a)%nat && (j <? c_ncol b)%nat
          then sumn (c_ncol a) (fun k => crs_elem a i k * crs_elem b k j) else c0) * t) /\
    crs_nodup A' /\ crs_nozero A'.
Proof.
  intros R this a b t W1 W2 W3 H1 H2. unfold crs_plus_eq_product.
  destruct (multiply_ok R (crs_empty R) a b W2 W3 H1) as [s [E [[X1 [X2 [X3 [X4 X5]]]] _]]].
  rewrite E. cbn [bind].
  destruct (crs_add_ok R this (crs_empty R) s t W1 X4) as [A' [E' [Y N]]]; [congruence|].
  exists A'. split; [exact E'|]. split; [|exact N]. rewrite X1, X2 in Y.
  eapply is_crs_ext; [|exact Y]. intros i j Hi Hj. cbv beta. f_equal. f_equal.
  unfold pad_elem. rewrite X1, X2. destruct (Nat.ltb_spec i (c_nrow a)); [|reflexivity].
  destruct (Nat.ltb_spec j (c_ncol b)); [|reflexivity]. apply X5; assumption.
Qed.
Print Assumptions C22_plus_assign_product.

Example C22_nonvacuous :
  let B := @mkcrs Zring [0; 2; 3] [0; 1; 0] [1; 2; 3]%Z 2 2 in
  let C := @mkcrs Zring [0; 1; 1; 2] [1; 2] [-1; 5]%Z 3 3 in
  checkValidity Zring B = Ok tt /\ checkValidity Zring C = Ok tt /\
  operatorPlus Zring B B 1%Z C 2%Z = Ok (@mkcrs Zring [0; 1; 2; 3] [0; 0; 2] [1; 3; 10]%Z 3 3).
Proof. vm_compute. auto. Qed.

(** C23. Sum of many matrices with coefficients. *)
Theorem C23_sum : forall (R : cring) (A0 : crs R) (Bmats : list (crs R)) (bvec : list R),
  Forall crs_wf Bmats -> length bvec = length Bmats ->
  exists A', crs_sum R A0 Bmats bvec = Ok A' /\
    is_crs A' (list_max (map c_nrow Bmats)) (list_max (map c_ncol Bmats))
      (fun i j => sumn (length Bmats)
         (fun k => pad_elem (nth k Bmats (crs_empty R)) i j * nth k bvec c0)) /\
    crs_nodup A'.
Proof. exact crs_sum_ok. Qed.
Print Assumptions C23_sum.

Example C23_nonvacuous :
  let B := @mkcrs Zring [0; 2; 3] [0; 1; 0] [1; 2; 3]%Z 2 2 in
  let C := @mkcrs Zring [0; 1; 1; 2] [1; 2] [-1; 5]%Z 3 3 in
  crs_sum Zring B [B; C; B] [1; 2; 10]%Z =
    Ok (@mkcrs Zring [0; 2; 3; 4] [0; 1; 0; 2] [11; 20; 33; 10]%Z 3 3).
Proof. vm_compute. reflexivity. Qed.

(** C24. Kronecker products. [p] permutes the product basis; the pair (a, e) of
    a state of A and one of the other factor has number a + e*na (order) or
    e + a*nout (not order) before permuting. *)
Theorem C24_with_identity : forall (R : cring) (B0 A : crs R) nout (signs : list R) (order : bool) (p : list nat),
  crs_wf A -> c_nrow A = c_ncol A -> is_perm p (nout * c_nrow A)%nat ->
  (order = false -> c_nrow A = 0%nat \/ (nout <= length signs)%nat) ->
  let n := (nout * c_nrow A)%nat in
  let pos a e := nth (if order then a + e * c_nrow A else e + a * nout)%nat p 0%nat in
  exists B', externalProduct1 R B0 A nout signs order p = Ok B' /\
    c_nrow B' = n /\ c_ncol B' = n /\ length (c_rowptr B') = S n /\ crs_wf B' /\
    (forall a1 e1 a2 e2, (a1 < c_nrow A)%nat -> (e1 < nout)%nat -> (a2 < c_nrow A)%nat -> (e2 < nout)%nat ->
       crs_elem B' (pos a1 e1) (pos a2 e2) =
       if (e1 =? e2)%nat then crs_elem A a1 a2 * (if order then c1 else nth e1 signs c0) else c0) /\
    (crs_nodup A -> crs_nodup B').
Proof. intros R B0 A nout signs order p W Hsq Hp Hs. exact (externalProduct1_ok R A nout signs order p W Hsq Hp Hs B0). Qed.
Print Assumptions C24_with_identity.

Theorem C24_two_matrices : forall (R : cring) (C0 A B : crs R) (signs : list R) (order : bool) (p : list nat),
  crs_wf A -> crs_wf B -> c_nrow A = c_ncol A -> c_nrow B = c_ncol B ->
  is_perm p (c_nrow B * c_nrow A)%nat ->
  length signs = (if order then c_nrow A else c_nrow B) ->
  let n := (c_nrow B * c_nrow A)%nat in
  let pos a b := nth (if order then a + b * c_nrow A else b + a * c_nrow B)%nat p 0%nat in
  exists C', externalProduct2 R C0 A B signs order p = Ok C' /\
    c_nrow C' = n /\ c_ncol C' = n /\ length (c_rowptr C') = S n /\ crs_wf C' /\
    (forall a1 b1 a2 b2, (a1 < c_nrow A)%nat -> (b1 < c_nrow B)%nat -> (a2 < c_nrow A)%nat -> (b2 < c_nrow B)%nat ->
       crs_elem C' (pos a1 b1) (pos a2 b2) =
       crs_elem A a1 a2 * crs_elem B b1 b2 * nth (if order then a1 else b1) signs c0) /\
    (crs_nodup A -> crs_nodup B -> crs_nodup C').
Proof. exact externalProduct2_ok. Qed.
Print Assumptions C24_two_matrices.

(** Every row and column number below n is the position of exactly one pair, so
    the elements above are all the elements. *)
Theorem C24_positions : forall na nout (order : bool) (p : list nat),
  is_perm p (nout * na)%nat ->
  let pos a e := nth (if order then a + e * na else e + a * nout)%nat p 0%nat in
  (forall a e, (a < na)%nat -> (e < nout)%nat -> (pos a e < nout * na)%nat) /\
  (forall a e a' e', (a < na)%nat -> (e < nout)%nat -> (a' < na)%nat -> (e' < nout)%nat ->
     pos a e = pos a' e' -> a = a' /\ e = e') /\
  (forall i, (i < nout * na)%nat -> exists a e, (a < na)%nat /\ (e < nout)%nat /\ i = pos a e).
Proof.
  intros na nout order p Hp. cbv zeta. split; [|split].
  - intros a e Ha He. apply perm_lt; [exact Hp|]. exact (kidx_lt order na nout a e Ha He).
  - intros a e a' e' Ha He Ha' He' H.
    apply (perm_inj _ _ Hp) in H.
    + exact (kidx_inj order na nout a e a' e' Ha He Ha' He' H).
    + exact (kidx_lt order na nout a e Ha He).
    + exact (kidx_lt order na nout a' e' Ha' He').
  - intros i Hi. destruct (perm_surj _ _ Hp i Hi) as [k [Hk Ek]].
    destruct (kidx_surj order na nout k Hk) as [a [e [Ha [He E]]]].
    exists a, e. split; [exact Ha|]. split; [exact He|]. rewrite <- Ek, E. reflexivity.
Qed.
Print Assumptions C24_positions.

Example C24_nonvacuous :
  let A := @mkcrs Zring [0; 1; 2] [1; 0] [2; 3]%Z 2 2 in
  is_perm [2; 0; 3; 1] 4 /\
  externalProduct1 Zring A A 2 [1; -1]%Z false [2; 0; 3; 1] =
    Ok (@mkcrs Zring [0; 1; 2; 3; 4] [1; 0; 3; 2] [-2; -3; 2; 3]%Z 4 4) /\
  externalProduct2 Zring A A A [1; -1]%Z true [2; 0; 3; 1] =
    Ok (@mkcrs Zring [0; 1; 2; 3; 4] [3; 2; 1; 0] [-6; -9; 4; 6]%Z 4 4).
Proof.
  split; [|split; vm_compute; reflexivity].
  unfold is_perm. simpl. 
  apply (Permutation_trans (l' := [0; 2; 3; 1])).
  - constructor. apply (Permutation_trans (l' := [2; 1; 3])); [constructor|]. constructor. constructor.
  - constructor.
Qed.

(** C25. Embedding a block. *)
Theorem C25_fromBlockToFull : forall (R : cring) (Bf B : crs R) offset, crs_wf B ->
  (offset + c_nrow B <= c_nrow Bf)%nat -> (offset + c_ncol B <= c_ncol Bf)%nat ->
  exists M, fromBlockToFull R Bf B offset = Ok M /\
    is_crs M (c_nrow Bf) (c_ncol Bf)
      (fun i j => if (offset <=? i)%nat && (offset <=? j)%nat
                  then pad_elem B (i - offset) (j - offset) else c0) /\
    (crs_nodup B -> crs_nodup M) /\ (crs_nozero B -> crs_nozero M).
Proof. exact fromBlockToFull_ok. Qed.
Print Assumptions C25_fromBlockToFull.

Example C25_nonvacuous :
  let B := @mkcrs Zring [0; 1; 3] [1; 0; 1] [2; 3; 4]%Z 2 2 in
  fromBlockToFull Zring (crs_new Zring 4 4) B 1 =
    Ok (@mkcrs Zring [0; 0; 1; 3; 3] [2; 1; 2] [2; 3; 4]%Z 4 4).
Proof. vm_compute. reflexivity. Qed.

(** C26. Coordinate lists: wrong as soon as a row has two entries, because the
    row pointers count rows instead of entries. *)
Theorem C26_triplets_refuted :
  exists (rank : nat) (rows cols : list nat) (vals : list Zring) (m : crs Zring),
    length rows = length cols /\ length rows = length vals /\
    Forall (fun r => (r < rank)%nat) rows /\ Forall (fun c => (c < rank)%nat) cols /\
    crs_of_triplets Zring (isort Nat.ltb) rank rows cols vals = Ok m /\
    ~ crs_wf m /\
    crs_elem m 1 0 <> sumn (length rows) (fun t =>
      if ((nth t rows 0 =? 1) && (nth t cols 0 =? 0))%nat then nth t vals c0 else c0).
Proof.
  exists 2%nat, [0; 0; 1]%nat, [0; 1; 0]%nat, [1; 2; 3]%Z,
    (@mkcrs Zring [0; 1; 2] [0; 1; 0] [1; 2; 3]%Z 2 2).
  split; [reflexivity|]. split; [reflexivity|].
  split; [repeat constructor|]. split; [repeat constructor|].
  split; [vm_compute; reflexivity|]. split.
  - intros [_ [_ [_ [H _]]]]. vm_compute in H. discriminate.
  - vm_compute. discriminate.
Qed.
Print Assumptions C26_triplets_refuted.

(** Rows without entries before the last row given also break it. *)
Theorem C26_gap_refuted :
  exists (m : crs Zring),
    crs_of_triplets Zring (isort Nat.ltb) 3 [0; 2]%nat [0; 0]%nat [1; 2]%Z = Ok m /\
    crs_elem m 0 0 = 0%Z /\ crs_elem m 1 0 = 1%Z.
Proof.
  exists (@mkcrs Zring [0; 0; 1; 2] [0; 0] [1; 2]%Z 3 3). vm_compute. auto.
Qed.
Print Assumptions C26_gap_refuted.

(** Empty lists make the constructor read outside a vector. *)
Theorem C26_empty_refuted : forall (R : cring) srt rank,
  crs_of_triplets R srt rank [] [] [] = UB.
Proof. intros R srt rank. reflexivity. Qed.
Print Assumptions C26_empty_refuted.

(** It is right when the listed rows are 0..k-1, once each, in any order. *)
Theorem C26_triplets_partial : forall (R : cring) srt rank (rows cols : list nat) (vals : list R) k,
  stdsort_ok Nat.ltb srt -> is_perm rows k -> (0 < k)%nat -> (k <= rank)%nat ->
  length cols = k -> length vals = k -> Forall (fun c => (c < rank)%nat) cols ->
  exists m, crs_of_triplets R srt rank rows cols vals = Ok m /\
    is_crs m rank rank (fun i j => sumn k (fun t =>
      if ((nth t rows 0 =? i) && (nth t cols 0 =? j))%nat then nth t vals c0 else c0)) /\
    crs_nodup m.
Proof. exact triplets_ok. Qed.
Print Assumptions C26_triplets_partial.

Example C26_nonvacuous :
  is_perm [1; 0] 2 /\
  crs_of_triplets Zring (isort Nat.ltb) 3 [1; 0] [2; 0] [5; 6]%Z =
    Ok (@mkcrs Zring [0; 1; 2; 2] [0; 2] [6; 5]%Z 3 3).
Proof. split; [constructor|vm_compute; reflexivity]. Qed.

(** C27. Predicates; [big x] is the test norm(x) > eps. *)
Theorem C27_hermitian : forall (R : cring) (big : R -> bool) (A : crs R), crs_wf A -> crs_nodup A ->
  (exists v, crs_isHermitian R big A = Ok v /\
     (v = true <-> c_nrow A = c_ncol A /\
        forall i j, (i < c_nrow A)%nat -> (j < c_nrow A)%nat ->
          big (crs_elem A i j - cconj (crs_elem A j i)) = false)) /\
  (exists v, crs_isAntiHermitian R big A = Ok v /\
     (v = true <-> c_nrow A = c_ncol A /\
        forall i j, (i < c_nrow A)%nat -> (j < c_nrow A)%nat ->
          big (crs_elem A i j + cconj (crs_elem A j i)) = false)).
Proof.
  intros R big A W N. split; [apply crs_isHermitian_ok|apply crs_isAntiHermitian_ok]; assumption.
Qed.
Print Assumptions C27_hermitian.

Theorem C27_diagonal_zero : forall (R : cring) (big : R -> bool) (A : crs R),
  crs_wf A -> crs_nodup A -> big c0 = false ->
  (exists v, crs_isDiagonal R big A false = Ok v /\
     (v = true <-> c_nrow A = c_ncol A /\
        forall i j, (i < c_nrow A)%nat -> (j < c_nrow A)%nat -> i <> j -> big (crs_elem A i j) = false)) /\
  (exists v, crs_isZero R big A = Ok v /\
     (v = true <-> forall i j, (i < c_nrow A)%nat -> (j < c_ncol A)%nat -> big (crs_elem A i j) = false)).
Proof.
  intros R big A W N H. split; [apply isDiagonal_ok|apply isZero_ok]; assumption.
Qed.
Print Assumptions C27_diagonal_zero.

(** isTheIdentity accepts the zero matrix. *)
Theorem C27_isTheIdentity_refuted :
  let big := fun x : Zring => negb (Z.eqb x 0) in
  let A := crs_new Zring 2 2 in
  crs_wf A /\ crs_nodup A /\ crs_isTheIdentity Zring big A = Ok true /\ crs_elem A 0 0 = 0%Z.
Proof.
  cbv zeta. split; [apply new_wf|]. split; [apply new_wf|]. split; reflexivity.
Qed.
Print Assumptions C27_isTheIdentity_refuted.

(** If every diagonal element is stored, isTheIdentity is right. *)
Theorem C27_isTheIdentity_partial : forall (R : cring) (big : R -> bool) (A : crs R),
  crs_wf A -> crs_nodup A -> big c0 = false ->
  (forall i, (i < c_nrow A)%nat -> In i (map fst (crs_row A i))) ->
  exists v, crs_isTheIdentity R big A = Ok v /\
    (v = true <-> c_nrow A = c_ncol A /\
       forall i j, (i < c_nrow A)%nat -> (j < c_nrow A)%nat ->
         big (crs_elem A i j - (if (i =? j)%nat then c1 else c0)) = false).
Proof.
  intros R big A W N Hb Hst. destruct (isTheIdentity_ok R big A W N Hb) as [v [E H]].
  exists v. split; [exact E|]. rewrite H.
  assert (Z : forall x : R, x - c0 = x).
  { intros x. rewrite (Rsub_def (c_ring R)), (ARopp_zero (Eqsth R) (Eq_ext _ _ _) (Rth_ARth (Eqsth R) (Eq_ext _ _ _) (c_ring R))).
    apply cadd_0_r. }
  split.
  - intros [E1 [H1 H2]]. split; [exact E1|]. intros i j Hi Hj.
    destruct (Nat.eqb_spec i j) as [->|Hne]; [apply H2; auto|rewrite Z; apply H1; auto].
  - intros [E1 H1]. split; [exact E1|]. split.
    + intros i j Hi Hj Hne. specialize (H1 i j Hi Hj). apply Nat.eqb_neq in Hne. rewrite Hne, Z in H1. exact H1.
    + intros i Hi _. specialize (H1 i i Hi Hi). rewrite Nat.eqb_refl in H1. exact H1.
Qed.
Print Assumptions C27_isTheIdentity_partial.

Example C27_nonvacuous :
  let big := fun x : Gring => negb (ceqb x c0) in
  let A := @mkcrs Gring [0; 2; 3] [0; 1; 0] [(1, 0); (2, 3); (2, -3)]%Z 2 2 in
  let D := @mkcrs Gring [0; 1; 2] [0; 1] [(1, 0); (1, 0)]%Z 2 2 in
  crs_isHermitian Gring big A = Ok true /\ crs_isDiagonal Gring big A false = Ok false /\
  crs_isTheIdentity Gring big D = Ok true /\ crs_isZero Gring big D = Ok false.
Proof. vm_compute. auto. Qed.

(** C28. Converting into a used dense matrix of the same dimensions keeps what
    was there wherever the sparse matrix stores nothing. *)
Theorem C28_overwrites_refuted :
  exists (d d' : mat Zring) (A : crs Zring),
    mat_wf d /\ crs_wf A /\ crs_nodup A /\ crsMatrixToFullMatrix Zring d A = Ok d' /\
    melem d' 0 0 <> crs_elem A 0 0.
Proof.
  exists (@mkmat Zring 1 1 [7]%Z), (@mkmat Zring 1 1 [7]%Z), (crs_new Zring 1 1).
  split; [reflexivity|]. split; [apply new_wf|]. split; [apply new_wf|]. split; [reflexivity|]. discriminate.
Qed.
Print Assumptions C28_overwrites_refuted.

(** For a target that already has the dimensions of the sparse matrix: the elements stored in the sparse matrix are written, all others keep the old value. *)
Theorem C28_same_dimensions_partial : forall (R : cring) (d : mat R) (A : crs R),
  crs_wf A -> crs_nodup A -> m_nrow d = c_nrow A -> m_ncol d = c_ncol A -> mat_wf d ->
  exists d', crsMatrixToFullMatrix R d A = Ok d' /\
    is_mat d' (c_nrow A) (c_ncol A)
      (fun i j => if in_dec Nat.eq_dec j (map fst (crs_row A i)) then crs_elem A i j else melem d i j).
Proof. exact toFull_stale. Qed.
Print Assumptions C28_same_dimensions_partial.

(** The conversion is right when every element of the target is zero before. *)
Theorem C28_zero_target_partial : forall (R : cring) (d : mat R) (A : crs R),
  crs_wf A -> crs_nodup A -> Forall (eq c0) (m_data d) ->
  exists d', crsMatrixToFullMatrix R d A = Ok d' /\ is_mat d' (c_nrow A) (c_ncol A) (crs_elem A).
Proof. exact toFull_zero. Qed.
Print Assumptions C28_zero_target_partial.

Example C28_nonvacuous :
  let A := @mkcrs Zring [0; 1; 2] [1; 0] [2; 3]%Z 2 2 in
  crsMatrixToFullMatrix Zring (@mkmat Zring 2 2 [9; 9; 9; 9]%Z) A = Ok (@mkmat Zring 2 2 [9; 3; 2; 9]%Z) /\
  crsMatrixToFullMatrix Zring (@mkmat Zring 1 3 [0; 0; 0]%Z) A = Ok (@mkmat Zring 2 2 [0; 3; 2; 0]%Z).
Proof. vm_compute. auto. Qed.

(** C75. checkValidity does not look at the first row pointer. *)
Theorem C75_checkValidity_refuted :
  exists m : crs Zring, checkValidity Zring m = Ok tt /\ ~ crs_wf m.
Proof.
  exists (@mkcrs Zring [1; 1] [0] [5]%Z 1 1). split; [vm_compute; reflexivity|].
  intros [_ [H _]]. discriminate.
Qed.
Print Assumptions C75_checkValidity_refuted.

(** The check is right for matrices whose first row pointer is 0. *)
Theorem C75_checkValidity_partial : forall (R : cring) (m : crs R), rp m 0 = 0%nat ->
  (checkValidity R m = Ok tt <->
   (0 < c_nrow m)%nat /\ (0 < c_ncol m)%nat /\ crs_wf m /\ crs_nodup m).
Proof. exact checkValidity_iff. Qed.
Print Assumptions C75_checkValidity_partial.

Example C75_nonvacuous :
  checkValidity Zring (@mkcrs Zring [0; 2; 3] [0; 1; 0] [1; 2; 3]%Z 2 2) = Ok tt /\
  checkValidity Zring (@mkcrs Zring [0; 2; 3] [1; 1; 0] [1; 2; 3]%Z 2 2) <> Ok tt /\
  checkValidity Zring (@mkcrs Zring [0; 2; 3] [0; 2; 0] [1; 2; 3]%Z 2 2) <> Ok tt.
Proof. vm_compute. repeat split; discriminate. Qed.

(** C76. Equality compares the representation. *)
Theorem C76_equality : forall (R : cring) (A B : crs R),
  crs_eqb R A B = true <-> A = B.
Proof. exact crs_eqb_eq. Qed.
Print Assumptions C76_equality.

(** On matrices with sorted columns and no stored zeros it is equality of the
    mathematical matrices. *)
Theorem C76_equality_canonical : forall (R : cring) (A B : crs R),
  crs_wf A -> crs_wf B -> (0 < c_nrow A)%nat ->
  crs_sorted A -> crs_sorted B -> crs_nozero A -> crs_nozero B ->
  (crs_eqb R A B = true <->
   c_nrow A = c_nrow B /\ c_ncol A = c_ncol B /\
   forall i j, (i < c_nrow A)%nat -> (j < c_ncol A)%nat -> crs_elem A i j = crs_elem B i j).
Proof.
  intros R A B WA WB Hr SA SB NA NB. rewrite crs_eqb_eq. split.
  - intros ->. auto.
  - intros [E1 [E2 H]]. apply (canonical_unique R A B (c_nrow A) (c_ncol A) (crs_elem A)); auto.
    + split; [reflexivity|]. split; [reflexivity|]. split; [|auto].
      destruct WA as [[L|[L _]] _]; [exact L|lia].
    + split; [auto|]. split; [auto|]. split.
      * destruct WB as [[L|[L _]] _]; [congruence|lia].
      * split; [exact WB|]. intros. symmetry. apply H; assumption.
Qed.
Print Assumptions C76_equality_canonical.

Theorem C76_norm2 : forall (R : cring) (m : crs R), crs_wf m -> crs_nodup m ->
  crs_norm2 R m = Ok (sumn (c_nrow m) (fun i => sumn (c_ncol m)
    (fun j => cconj (crs_elem m i j) * crs_elem m i j))).
Proof. exact crs_norm2_ok. Qed.
Print Assumptions C76_norm2.

Theorem C76_multiplyTc : forall (R : cring) (a b : crs R), crs_wf a -> crs_wf b -> c_ncol a = c_ncol b ->
  exists d, multiplyTc R a b = Ok d /\
    is_mat d (c_nrow a) (c_nrow b)
      (fun i j => sumn (c_ncol a) (fun k => crs_elem a i k * cconj (crs_elem b j k))).
Proof. exact multiplyTc_ok. Qed.
Print Assumptions C76_multiplyTc.

Example C76_nonvacuous :
  let A := @mkcrs Gring [0; 2; 3] [0; 1; 0] [(1, 0); (2, 3); (2, -3)]%Z 2 2 in
  crs_norm2 Gring A = Ok (27, 0)%Z /\
  multiplyTc Gring A A = Ok (@mkmat Gring 2 2 [(14, 0); (2, -3); (2, 3); (13, 0)]%Z) /\
  crs_eqb Gring A A = true.
Proof. vm_compute. auto. Qed.
