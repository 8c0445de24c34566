(** C30 dense matrix algebra, C72 in-place operations, C73 functions of a matrix,
    C74 dense predicates. *)
From Verif Require Import Prelude Ring Vec_Model Vec_Spec Vec_Proofs
  Dense_Model Dense_Spec Dense_Proofs.
From Coq Require Import Qcanon Ring.
Local Open Scope nat_scope.
Local Open Scope cring_scope.

(** C30. Element access stays inside the storage for indexes inside the
    dimensions, and is rejected outside them. *)
Theorem C30_access : forall (R : cring) (m : mat R) i j, mat_wf m ->
  (i < m_nrow m)%nat /\ (j < m_ncol m)%nat -> mget R m i j = Ok (melem m i j).
Proof. intros R m i j W [Hi Hj]. apply mget_ok; assumption. Qed.
Print Assumptions C30_access.

Theorem C30_access_outside : forall (R : cring) (m : mat R) i j,
  (m_nrow m <= i \/ m_ncol m <= j)%nat -> mget R m i j = UB.
Proof. exact mget_out. Qed.
Print Assumptions C30_access_outside.

(** Writing one element changes that element and no other. *)
Theorem C30_write : forall (R : cring) (m : mat R) i j x, mat_wf m ->
  (i < m_nrow m)%nat -> (j < m_ncol m)%nat ->
  exists m', mset R m i j x = Ok m' /\
    is_mat m' (m_nrow m) (m_ncol m)
      (fun i' j' => if (i' =? i)%nat && (j' =? j)%nat then x else melem m i' j').
Proof. exact mset_ok. Qed.
Print Assumptions C30_write.

(** [is_mat] determines the matrix object. *)
Theorem C30_is_mat_unique : forall (R : cring) (m m' : mat R) r c f,
  is_mat m r c f -> is_mat m' r c f -> m = m'.
Proof. exact is_mat_unique. Qed.
Print Assumptions C30_is_mat_unique.

Theorem C30_equality : forall (R : cring) (a b : mat R), mat_wf a -> mat_wf b ->
  (mat_eqb R a b = true <->
   m_nrow a = m_nrow b /\ m_ncol a = m_ncol b /\
   forall i j, (i < m_nrow a)%nat -> (j < m_ncol a)%nat -> melem a i j = melem b i j).
Proof. exact mat_eqb_ok. Qed.
Print Assumptions C30_equality.

(** Constructors. *)
Theorem C30_constructors : forall (R : cring) r c (x : R),
  is_mat (mat_new R r c) r c (fun _ _ => c0) /\
  is_mat (mat_fill R r c x) r c (fun _ _ => x) /\
  (forall data, (r * c <= length data)%nat ->
     exists m, mat_of_data R data r c = Ok m /\ is_mat m r c (fun i j => nth (i + j * r) data c0)) /\
  (forall data, (length data < r * c)%nat -> mat_of_data R data r c = Throw).
Proof.
  intros R r c x. split; [apply mat_new_is|]. split; [apply mat_fill_is|].
  split; [intros; apply mat_of_data_ok; assumption|].
  intros data H. unfold mat_of_data. apply Nat.ltb_lt in H. rewrite H. reflexivity.
Qed.
Print Assumptions C30_constructors.

(** resize(rows, cols) keeps the columns that remain, zeroes new ones, and
    throws instead of changing a non-zero number of rows. *)
Theorem C30_resize : forall (R : cring) (m : mat R) r c, mat_wf m ->
  (m_nrow m = r -> exists m', mat_resize R m r c = Ok m' /\
     is_mat m' r c (fun i j => if (j <? m_ncol m)%nat then melem m i j else c0)) /\
  ((0 < m_nrow m)%nat -> m_nrow m <> r -> mat_resize R m r c = Throw).
Proof.
  intros R m r c W. split; [apply mat_resize_cols; exact W|apply mat_resize_throw].
Qed.
Print Assumptions C30_resize.

(** m = t * a * b; [a] and [b] may be the assigned matrix. *)
Theorem C30_product : forall (R : cring) (a b : mat R) (t : R),
  mat_wf a -> mat_wf b -> m_ncol a = m_nrow b ->
  exists m, matrixMatrix R a b t = Ok m /\
    is_mat m (m_nrow a) (m_ncol b)
      (fun i j => sumn (m_ncol a) (fun k => melem a i k * melem b k j) * t).
Proof. exact matrixMatrix_ok. Qed.
Print Assumptions C30_product.

Theorem C30_compound : forall (R : cring) (m a : mat R) (t : R),
  mat_wf m -> mat_wf a -> m_nrow a = m_nrow m -> m_ncol a = m_ncol m ->
  let r := m_nrow m in let c := m_ncol m in
  (exists m', mat_plus_eq R m a = Ok m' /\ is_mat m' r c (fun i j => melem m i j + melem a i j)) /\
  (exists m', mat_minus_eq R m a = Ok m' /\ is_mat m' r c (fun i j => melem m i j - melem a i j)) /\
  (exists m', mat_times_eq R m t = Ok m' /\ is_mat m' r c (fun i j => t * melem m i j)) /\
  (exists m', mat_plus_eq_scaled R m t a = Ok m' /\
              is_mat m' r c (fun i j => melem m i j + t * melem a i j)) /\
  (exists m', mat_conj R m = Ok m' /\ is_mat m' r c (fun i j => cconj (melem m i j))).
Proof.
  intros R m a t Wm Wa Hr Hc r c. refine (conj _ (conj _ (conj _ (conj _ _)))).
  - apply mat_plus_eq_ok; assumption.
  - apply mat_minus_eq_ok; assumption.
  - apply mat_times_eq_ok; assumption.
  - apply mat_plus_eq_scaled_ok; assumption.
  - apply mat_conj_ok; assumption.
Qed.
Print Assumptions C30_compound.

(** Assignments of sums and multiples, also when the assigned matrix [m] is an
    operand ([MSelf]). *)
Theorem C30_assignments : forall (R : cring) (m : mat R) (p q : msrc R) r c,
  let P := mderef p m in let Q := mderef q m in
  mat_wf P -> mat_wf Q -> m_nrow P = r -> m_ncol P = c -> m_nrow Q = r -> m_ncol Q = c ->
  forall t : R,
  (exists m', mat_assign_scale R m t p = Ok m' /\ is_mat m' r c (fun i j => t * melem P i j)) /\
  (exists m', mat_assign_plus R m p q = Ok m' /\
              is_mat m' r c (fun i j => melem P i j + melem Q i j)) /\
  (exists m', mat_assign_minus R m p q = Ok m' /\
              is_mat m' r c (fun i j => melem P i j - melem Q i j)) /\
  (exists m', mat_assign_axpy R m p t q = Ok m' /\
              is_mat m' r c (fun i j => melem P i j + t * melem Q i j)) /\
  (exists m', mat_assign_scale_plus R m t p q = Ok m' /\
              is_mat m' r c (fun i j => t * (melem P i j + melem Q i j))) /\
  (exists m', mat_assign_scale_minus R m t p q = Ok m' /\
              is_mat m' r c (fun i j => t * (melem P i j - melem Q i j))).
Proof.
  intros R m p q r c P Q WP WQ Pr Pc Qr Qc t.
  refine (conj _ (conj _ (conj _ (conj _ (conj _ _))))).
  - rewrite <- Pr, <- Pc. apply mat_assign_scale_ok. exact WP.
  - apply mat_assign_plus_ok; assumption.
  - apply mat_assign_minus_ok; assumption.
  - apply mat_assign_axpy_ok; assumption.
  - apply mat_assign_scale_plus_ok; assumption.
  - apply mat_assign_scale_minus_ok; assumption.
Qed.
Print Assumptions C30_assignments.

Theorem C30_identity : forall (R : cring) (m : mat R), mat_wf m ->
  (m_nrow m = m_ncol m -> exists m', mat_setToIdentity R m = Ok m' /\
     is_mat m' (m_nrow m) (m_ncol m) delta) /\
  (m_nrow m <> m_ncol m -> mat_setToIdentity R m = Throw).
Proof.
  intros R m W. split; [apply mat_setToIdentity_ok; exact W|].
  intros H. unfold mat_setToIdentity. apply Nat.eqb_neq in H. rewrite H. reflexivity.
Qed.
Print Assumptions C30_identity.

(** Transposes; the target may have any previous content with a compatible
    number of rows. *)
Theorem C30_transpose : forall (R : cring) (m2 a : mat R),
  mat_wf a -> (m_nrow m2 = 0 \/ m_nrow m2 = m_ncol a)%nat ->
  (exists m, transposeConjugate2 R m2 (MOther a) = Ok m /\
     is_mat m (m_ncol a) (m_nrow a) (fun i j => cconj (melem a j i))) /\
  (exists m, transpose2 R m2 (MOther a) = Ok m /\
     is_mat m (m_ncol a) (m_nrow a) (fun i j => melem a j i)) /\
  (exists m, transposeConjugate1 R a = Ok m /\
     is_mat m (m_ncol a) (m_nrow a) (fun i j => cconj (melem a j i))).
Proof.
  intros R m2 a W H. split; [|split].
  - apply transposeConjugate2_ok; assumption.
  - apply transpose2_ok; assumption.
  - apply transposeConjugate1_ok; assumption.
Qed.
Print Assumptions C30_transpose.

(** Conjugate-transposing twice gives the same object back. *)
Theorem C30_transpose_involutive : forall (R : cring) (a : mat R), mat_wf a ->
  (do b <- transposeConjugate1 R a ;; transposeConjugate1 R b) = Ok a.
Proof.
  intros R a W. destruct (transposeConjugate1_ok R a W) as [b [E [Hr [Hc [Wb Hb]]]]].
  rewrite E. cbn [bind]. destruct (transposeConjugate1_ok R b Wb) as [c [E' Hc']].
  rewrite E'. f_equal. rewrite Hr, Hc in Hc'.
  eapply is_mat_unique; [exact Hc'|]. repeat split; auto.
  intros i j Hi Hj. rewrite Hb by assumption. symmetry. apply c_conj_inv.
Qed.
Print Assumptions C30_transpose_involutive.

Theorem C30_multiplyTransposeConjugate : forall (R : cring) (o1 o2 : mat R) (cq : bool),
  mat_wf o1 -> mat_wf o2 ->
  m_nrow o1 = m_ncol o1 -> m_nrow o2 = m_nrow o1 -> m_ncol o2 = m_nrow o1 ->
  exists m, multiplyTransposeConjugate R o1 o2 cq = Ok m /\
    is_mat m (m_nrow o1) (m_nrow o1)
      (fun s t => sumn (m_nrow o1) (fun w =>
         (if cq then cconj (melem o1 w s) else melem o1 w s) * melem o2 w t)).
Proof. exact mult_tc_ok. Qed.
Print Assumptions C30_multiplyTransposeConjugate.

Theorem C30_matrix_vector : forall (R : cring) (v : list R) (a : mat R) (w : list R), mat_wf a ->
  (m_ncol a = length w -> exists u, mat_vec R v a (Other w) = Ok u /\
     is_vec u (m_nrow a) (fun i => sumn (m_ncol a) (fun j => melem a i j * vel w j))) /\
  (m_nrow a = length w -> exists u, vec_mat R v (Other w) a = Ok u /\
     is_vec u (m_ncol a) (fun j => sumn (m_nrow a) (fun i => vel w i * melem a i j))).
Proof.
  intros R v a w W. split; intros; [apply mat_vec_ok|apply vec_mat_ok]; assumption.
Qed.
Print Assumptions C30_matrix_vector.

Theorem C30_outerProduct : forall (R : cring) (a b c : mat R), mat_wf b -> mat_wf c ->
  (m_nrow a = 0 \/ m_nrow a = m_nrow b * m_nrow c)%nat ->
  exists m, outerProduct R a b c = Ok m /\
    m_nrow m = (m_nrow b * m_nrow c)%nat /\ m_ncol m = (m_ncol b * m_ncol c)%nat /\ mat_wf m /\
    forall i1 j1 i2 j2, (i1 < m_nrow b)%nat -> (j1 < m_ncol b)%nat ->
      (i2 < m_nrow c)%nat -> (j2 < m_ncol c)%nat ->
      melem m (i1 + i2 * m_nrow b) (j1 + j2 * m_ncol b) = melem b i1 j1 * melem c i2 j2.
Proof. exact outerProduct_ok. Qed.
Print Assumptions C30_outerProduct.

Theorem C30_norm2_nonZeros : forall (R : cring) (m : mat R), mat_wf m ->
  mat_norm2 R m = Ok (sumn (m_nrow m) (fun i => sumn (m_ncol m) (fun j =>
                        cconj (melem m i j) * melem m i j))) /\
  mat_nonZeros R m = Ok (length (filter (fun x => negb (ceqb x c0)) (m_data m))).
Proof. intros R m W. split; [apply mat_norm2_ok|apply mat_nonZeros_ok]; exact W. Qed.
Print Assumptions C30_norm2_nonZeros.

(** 2x3 times 3x2, and the conjugate transpose of a Gaussian-integer matrix. *)
Example C30_nonvacuous :
  let a := @mkmat Zring 2 3 [1; 4; 2; 5; 3; 6]%Z in
  let b := @mkmat Zring 3 2 [7; 9; 11; 8; 10; 12]%Z in
  mat_wf a /\ mat_wf b /\
  matrixMatrix Zring a b 1%Z = Ok (@mkmat Zring 2 2 [58; 139; 64; 154]%Z) /\
  transposeConjugate1 Gring (@mkmat Gring 1 2 [(1, 2); (3, 4)]%Z)
    = Ok (@mkmat Gring 2 1 [(1, -2); (3, -4)]%Z) /\
  outerProduct Zring (mat_empty Zring) (@mkmat Zring 1 2 [1; 2]%Z) (@mkmat Zring 2 1 [3; 5]%Z)
    = Ok (@mkmat Zring 2 2 [3; 5; 6; 10]%Z) /\
  mat_assign_plus Zring a MSelf MSelf = Ok (@mkmat Zring 2 3 [2; 8; 4; 10; 6; 12]%Z).
Proof. vm_compute. repeat split. Qed.

(** C72. Transposing a matrix into itself, or assigning a matrix-vector product
    to its own operand, does not give the transpose or the product. *)
Theorem C72_in_place_refuted :
  (exists a : mat Zring, mat_wf a /\ m_nrow a = m_ncol a /\
     forall m, transposeConjugate2 Zring a MSelf = Ok m ->
       ~ is_mat m (m_ncol a) (m_nrow a) (fun i j => cconj (melem a j i))) /\
  (exists (a : mat Zring) v, mat_wf a /\ m_nrow a = m_ncol a /\ m_ncol a = length v /\
     forall u, mat_vec Zring v a Self = Ok u ->
       ~ is_vec u (m_nrow a) (fun i => sumn (m_ncol a) (fun j => melem a i j * vel v j))).
Proof.
  split.
  - exists (@mkmat Zring 2 2 [1; 2; 3; 4]%Z). split; [reflexivity|]. split; [reflexivity|].
    intros m H. apply Ok_inj in H. subst m. intros [_ [_ [_ H]]].
    specialize (H 1 0 ltac:(simpl; lia) ltac:(simpl; lia))%nat. vm_compute in H. discriminate.
  - exists (@mkmat Zring 2 2 [1; 1; 1; 1]%Z), [1; 2]%Z.
    split; [reflexivity|]. split; [reflexivity|]. split; [reflexivity|].
    intros u H. apply Ok_inj in H. subst u. intros [_ H].
    specialize (H 1 ltac:(simpl; lia))%nat. vm_compute in H. discriminate.
Qed.
Print Assumptions C72_in_place_refuted.

(** What does hold: products, sums and multiples may be assigned to an operand
    (see also C30_product, whose result does not depend on the target). *)
Theorem C72_in_place_partial : forall (R : cring) (m : mat R) (t : R), mat_wf m ->
  let r := m_nrow m in let c := m_ncol m in
  (exists m', mat_assign_scale R m t MSelf = Ok m' /\ is_mat m' r c (fun i j => t * melem m i j)) /\
  (exists m', mat_assign_plus R m MSelf MSelf = Ok m' /\
              is_mat m' r c (fun i j => melem m i j + melem m i j)) /\
  (exists m', mat_assign_axpy R m MSelf t MSelf = Ok m' /\
              is_mat m' r c (fun i j => melem m i j + t * melem m i j)).
Proof.
  intros R m t W r c. split; [|split].
  - apply (mat_assign_scale_ok R m t MSelf W).
  - apply (mat_assign_plus_ok R m MSelf MSelf r c W W); reflexivity.
  - apply (mat_assign_axpy_ok R m MSelf MSelf r c W W); reflexivity.
Qed.
Print Assumptions C72_in_place_partial.

Example C72_nonvacuous :
  transposeConjugate2 Zring (@mkmat Zring 2 2 [1; 2; 3; 4]%Z) MSelf
    = Ok (@mkmat Zring 2 2 [1; 2; 2; 4]%Z) /\
  mat_vec Zring [1; 2]%Z (@mkmat Zring 2 2 [1; 1; 1; 1]%Z) Self = Ok [3; 5]%Z.
Proof. vm_compute. repeat split. Qed.

(** C73. Given eigenvectors [u] (orthonormal columns) and values [e k] of a
    function at the eigenvalues, the function of the matrix is
    sum_k u_ik e_k conj(u_jk). [mat_fun_of_eigen] computes its transpose. *)
Definition orthonormal {R : cring} (u : mat R) : Prop :=
  forall k l, (k < m_nrow u)%nat -> (l < m_nrow u)%nat ->
    sumn (m_nrow u) (fun j => cconj (melem u j k) * melem u j l) = delta k l.

Definition qc (n : Z) (d : positive) : Qc := Q2Qc (QArith_base.Qmake n d).

Definition u5 : mat QGring :=
  @mkmat QGring 2 2 [(qc 3 5, 0); (0, qc 4 5); (0, qc 4 5); (qc 3 5, 0)]%Qc.
Definition e5 (k : nat) : QGring := match k with 0%nat => (0, 0) | _ => (1, 0) end%Qc.

(** For a complex Hermitian matrix the result is not the function of the matrix. *)
Theorem C73_exp_refuted :
  exists (u : mat QGring) (e : nat -> QGring), mat_wf u /\ m_nrow u = m_ncol u /\ orthonormal u /\
    forall m, mat_fun_of_eigen QGring u e = Ok m ->
      ~ is_mat m (m_nrow u) (m_nrow u)
          (fun i j => sumn (m_nrow u) (fun k => melem u i k * e k * cconj (melem u j k))).
Proof.
  exists u5, e5.
  split; [reflexivity|]. split; [reflexivity|]. split.
  - intros k l Hk Hl. unfold u5 in Hk, Hl. cbn [m_nrow] in Hk, Hl.
    destruct k as [|[|k]]; [| |lia]; (destruct l as [|[|l]]; [| |lia]);
      apply QG_eqb_eq; vm_compute; reflexivity.
  - intros m Hm [_ [_ [_ H]]].
    destruct (mat_fun_ok QGring u5 e5 eq_refl eq_refl) as [m' [E' [_ [_ [_ H']]]]].
    rewrite Hm in E'. apply Ok_inj in E'. subst m'.
    specialize (H 0%nat 1%nat ltac:(simpl; lia) ltac:(simpl; lia)).
    rewrite H' in H by (simpl; lia). apply QG_eqb_eq in H. vm_compute in H. discriminate.
Qed.
Print Assumptions C73_exp_refuted.

(** The transposed result applied to eigenvectors: sum_j m_ji u_jk = e_k u_ik. *)
Theorem C73_exp_transposed_partial : forall (R : cring) (u : mat R) (e : nat -> R),
  mat_wf u -> m_nrow u = m_ncol u -> orthonormal u ->
  exists m, mat_fun_of_eigen R u e = Ok m /\ mat_wf m /\
    m_nrow m = m_nrow u /\ m_ncol m = m_nrow u /\
    forall i k, (i < m_nrow u)%nat -> (k < m_nrow u)%nat ->
      sumn (m_nrow u) (fun j => melem m j i * melem u j k) = e k * melem u i k.
Proof.
  intros R u e W Sq On. destruct (mat_fun_ok R u e W Sq) as [m [E [Hr [Hc [Wm H]]]]].
  exists m. repeat split; auto. intros i k Hi Hk. set (n := m_nrow u) in *.
  pose proof (c_ring R) as RT.
  rewrite (sumn_ext R _ _ (fun j => sumn n (fun l =>
            melem u i l * e l * cconj (melem u j l) * melem u j k))).
  2:{ intros j Hj. rewrite H by assumption. rewrite <- sumn_mul_r. reflexivity. }
  rewrite sumn_exchange.
  rewrite (sumn_ext R _ _ (fun l => if Nat.eqb k l then melem u i l * e l else c0)).
  2:{ intros l Hl.
      rewrite (sumn_ext R _ _ (fun j => (melem u i l * e l) * (cconj (melem u j l) * melem u j k))).
      - rewrite sumn_mul_l, On by assumption. unfold delta. rewrite (Nat.eqb_sym l k).
        destruct (Nat.eqb k l); [apply cmul_1_r|apply cmul_0_r].
      - intros j Hj. symmetry. apply cmul_assoc. }
  rewrite sumn_delta by assumption. apply cmul_comm.
Qed.
Print Assumptions C73_exp_transposed_partial.

(** For a real element type the result is right: its eigenvectors are those of
    the matrix, with the function applied to the eigenvalues. *)
Theorem C73_exp_real_partial : forall (R : cring) (u : mat R) (e : nat -> R),
  (forall x : R, cconj x = x) ->
  mat_wf u -> m_nrow u = m_ncol u -> orthonormal u ->
  exists m, mat_fun_of_eigen R u e = Ok m /\
    is_mat m (m_nrow u) (m_nrow u)
      (fun i j => sumn (m_nrow u) (fun k => melem u i k * e k * cconj (melem u j k))).
Proof.
  intros R u e Hreal W Sq On. destruct (mat_fun_ok R u e W Sq) as [m [E H]].
  exists m. split; [exact E|]. eapply is_mat_ext; [|exact H]. intros i j Hi Hj. cbn beta.
  apply sumn_ext. intros k Hk. rewrite !Hreal.
  rewrite <- !cmul_assoc, (cmul_comm R (e k)), cmul_assoc, (cmul_comm R (melem u j k)).
  rewrite <- cmul_assoc, (cmul_comm R (melem u j k)). reflexivity.
Qed.
Print Assumptions C73_exp_real_partial.

Example C73_nonvacuous :
  let u := @mkmat Zring 2 2 [0; 1; 1; 0]%Z in
  mat_wf u /\ orthonormal u /\
  mat_fun_of_eigen Zring u (fun k => Z.of_nat (k + 5)) = Ok (@mkmat Zring 2 2 [6; 0; 0; 5]%Z).
Proof.
  split; [reflexivity|]. split; [|reflexivity].
  intros k l Hk Hl. cbn [m_nrow] in *.
  destruct k as [|[|k]]; [| |lia]; (destruct l as [|[|l]]; [| |lia]); reflexivity.
Qed.

(** C74. [big x] is the test norm(x) > eps. *)
Theorem C74_hermitian : forall (R : cring) (big : R -> bool) (a : mat R), mat_wf a ->
  (m_nrow a = m_ncol a -> exists v, mat_isHermitian R big a = Ok v /\
     (v = true <-> forall i j, (i < m_nrow a)%nat -> (j < m_ncol a)%nat ->
                     big (melem a i j - cconj (melem a j i)) = false)) /\
  (m_nrow a = m_ncol a -> exists v, mat_isAntiHermitian R big a = Ok v /\
     (v = true <-> forall i j, (i < m_nrow a)%nat -> (j < m_ncol a)%nat ->
                     big (melem a i j + cconj (melem a j i)) = false)) /\
  (m_nrow a <> m_ncol a ->
     mat_isHermitian R big a = Throw /\ mat_isAntiHermitian R big a = Throw).
Proof.
  intros R big a W. split; [apply mat_isHermitian_ok; exact W|].
  split; [apply mat_isAntiHermitian_ok; exact W|]. intros H.
  unfold mat_isHermitian, mat_isAntiHermitian. apply Nat.eqb_neq in H. rewrite H. auto.
Qed.
Print Assumptions C74_hermitian.

Theorem C74_isZero : forall (R : cring) (big : R -> bool) (a : mat R), mat_wf a ->
  exists v, mat_isZero R big a = Ok v /\
    (v = true <-> forall i j, (i < m_nrow a)%nat -> (j < m_ncol a)%nat -> big (melem a i j) = false).
Proof. exact mat_isZero_ok. Qed.
Print Assumptions C74_isZero.

(** For square matrices isTheIdentity is right. *)
Theorem C74_isTheIdentity_partial : forall (R : cring) (big : R -> bool) (a : mat R), mat_wf a ->
  m_nrow a = m_ncol a ->
  exists v, mat_isTheIdentity R big a = Ok v /\
    (v = true <-> forall i j, (i < m_nrow a)%nat -> (j < m_ncol a)%nat ->
       if (i =? j)%nat then big (melem a i j - c1) = false else big (melem a i j) = false).
Proof. intros R big a W H. apply mat_isTheIdentity_ok; [exact W|lia]. Qed.
Print Assumptions C74_isTheIdentity_partial.

(** A 1x2 matrix is accepted as an identity, and a 2x1 matrix is read out of
    bounds. *)
Theorem C74_isTheIdentity_refuted :
  let big := fun x : Zring => negb (Z.eqb x 0) in
  (exists a : mat Zring, mat_wf a /\ m_nrow a <> m_ncol a /\ mat_isTheIdentity Zring big a = Ok true) /\
  (exists a : mat Zring, mat_wf a /\ mat_isTheIdentity Zring big a = UB).
Proof.
  split.
  - exists (@mkmat Zring 1 2 [1; 0]%Z). split; [reflexivity|]. split; [discriminate|reflexivity].
  - exists (@mkmat Zring 2 1 [1; 0]%Z). split; reflexivity.
Qed.
Print Assumptions C74_isTheIdentity_refuted.

Example C74_nonvacuous :
  let big := fun x : Gring => negb (ceqb x c0) in
  mat_isHermitian Gring big (@mkmat Gring 2 2 [(1, 0); (2, -3); (2, 3); (4, 0)]%Z) = Ok true /\
  mat_isHermitian Gring big (@mkmat Gring 2 2 [(1, 0); (2, 3); (2, 3); (4, 0)]%Z) = Ok false /\
  mat_isZero Gring big (@mkmat Gring 2 1 [(0, 0); (0, 0)]%Z) = Ok true.
Proof. vm_compute. repeat split. Qed.
