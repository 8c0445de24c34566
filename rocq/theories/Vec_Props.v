(** C65 vector arithmetic, C71 nested vector times vector. *)
From Verif Require Import Prelude Ring Vec_Model Vec_Spec Vec_Proofs.
Local Open Scope cring_scope.

(** C65. Inner products: [scalarProduct] is antilinear in its first argument,
    [operator*] in its second; vectors of different length are rejected. *)
Theorem C65_scalarProduct : forall (R : cring) (v w : list R),
  scalarProduct R v w =
  if (length v =? length w)%nat
  then Ok (sumn (length v) (fun k => cconj (vel v k) * vel w k)) else Throw.
Proof. exact scalarProduct_ok. Qed.
Print Assumptions C65_scalarProduct.

Theorem C65_operator_times : forall (R : cring) (v w : list R),
  vec_mul R v w =
  if (length v =? length w)%nat
  then Ok (sumn (length w) (fun k => cconj (vel w k) * vel v k)) else Throw.
Proof. exact vec_mul_ok. Qed.
Print Assumptions C65_operator_times.

(** ... so that exchanging the arguments conjugates the result. *)
Theorem C65_inner_conj : forall (R : cring) (v w : list R) x,
  scalarProduct R v w = Ok x -> scalarProduct R w v = Ok (cconj x).
Proof.
  intros R v w x. rewrite !scalarProduct_ok, (Nat.eqb_sym (length w)).
  destruct (Nat.eqb_spec (length v) (length w)) as [L|L]; [|discriminate].
  intros H. apply Ok_inj in H. subst. f_equal. apply inner_conj. exact L.
Qed.
Print Assumptions C65_inner_conj.

(** Every closure assignment computes the expression it denotes, element by
    element, also when the assigned vector is one of the operands. *)
Theorem C65_assignments : forall (R : cring) (v : list R) (n : nat) (a b c d : src R),
  length (deref a v) = n -> length (deref b v) = n ->
  length (deref c v) = n -> length (deref d v) = n ->
  let A := vel (deref a v) in let B := vel (deref b v) in
  let C := vel (deref c v) in let D := vel (deref d v) in
  forall s t r q : R,
  (exists u, assign_scale R v t a = Ok u /\ is_vec u n (fun k => t * A k)) /\
  (exists u, assign_scale2 R v s t a = Ok u /\ is_vec u n (fun k => s * t * A k)) /\
  (exists u, assign_plus R v a b = Ok u /\ is_vec u n (fun k => A k + B k)) /\
  (exists u, assign_axpy R v a t b = Ok u /\ is_vec u n (fun k => A k + t * B k)) /\
  (exists u, assign_axpy' R v t a b = Ok u /\ is_vec u n (fun k => t * A k + B k)) /\
  (exists u, assign_scale_plus R v t a b = Ok u /\ is_vec u n (fun k => t * (A k + B k))) /\
  (exists u, assign_minus R v a b = Ok u /\ is_vec u n (fun k => A k - B k)) /\
  (exists u, assign_maxpy R v a t b = Ok u /\ is_vec u n (fun k => A k - t * B k)) /\
  (exists u, assign_scale_minus R v t a b = Ok u /\ is_vec u n (fun k => t * (A k - B k))) /\
  (exists u, assign_comb3 R v a s b t c = Ok u /\
             is_vec u n (fun k => A k - s * B k + t * C k)) /\
  (exists u, assign_comb4 R v q a r b s c t d = Ok u /\
             is_vec u n (fun k => q * A k + r * B k + s * C k + t * D k)).
Proof.
  intros R v n a b c d Ha Hb Hc Hd A B C D s t r q.
  refine (conj _ (conj _ (conj _ (conj _ (conj _ (conj _ (conj _ (conj _ (conj _ (conj _ _)))))))))).
  - rewrite <- Ha. apply assign_scale_ok.
  - rewrite <- Ha. apply assign_scale2_ok.
  - apply assign_plus_ok; assumption.
  - apply assign_axpy_ok; assumption.
  - apply assign_axpy'_ok; assumption.
  - apply assign_scale_plus_ok; assumption.
  - apply assign_minus_ok; assumption.
  - apply assign_maxpy_ok; assumption.
  - apply assign_scale_minus_ok; assumption.
  - apply assign_comb3_ok; assumption.
  - apply assign_comb4_ok; assumption.
Qed.
Print Assumptions C65_assignments.

(** Compound assignments. *)
Theorem C65_compound : forall (R : cring) (v : list R) (w : src R) (t : R),
  length (deref w v) = length v ->
  let W := vel (deref w v) in
  (exists u, plus_eq R v w = Ok u /\ is_vec u (length v) (fun k => vel v k + W k)) /\
  (exists u, minus_eq R v w = Ok u /\ is_vec u (length v) (fun k => vel v k - W k)) /\
  (exists u, plus_eq_scaled R v t w = Ok u /\ is_vec u (length v) (fun k => vel v k + t * W k)) /\
  (exists u, minus_eq_scaled R v t w = Ok u /\ is_vec u (length v) (fun k => vel v k - t * W k)) /\
  (exists u, times_eq R v t = Ok u /\ is_vec u (length v) (fun k => t * vel v k)).
Proof.
  intros R v w t Hw W. refine (conj _ (conj _ (conj _ (conj _ _)))).
  - destruct (plus_eq_ok R v w) as [u [E H]]; [lia|]. exists u. split; [exact E|].
    eapply is_vec_ext; [|exact H]. intros k Hk. cbn beta. rewrite Hw.
    apply Nat.ltb_lt in Hk. rewrite Hk. reflexivity.
  - destruct (minus_eq_ok R v w) as [u [E H]]; [lia|]. exists u. split; [exact E|].
    eapply is_vec_ext; [|exact H]. intros k Hk. cbn beta. rewrite Hw.
    apply Nat.ltb_lt in Hk. rewrite Hk. reflexivity.
  - apply plus_eq_scaled_ok. exact Hw.
  - apply minus_eq_scaled_ok. exact Hw.
  - apply times_eq_ok.
Qed.
Print Assumptions C65_compound.

(** Adding a longer vector writes out of bounds: the hypothesis on the lengths
    is needed. *)
Theorem C65_longer_operand : forall (R : cring) (v w : list R),
  (length v < length w)%nat -> plus_eq R v (Other w) = UB.
Proof. exact plus_eq_longer. Qed.
Print Assumptions C65_longer_operand.

Theorem C65_sum : forall (R : cring) (v : list R),
  vec_sum R v = Ok (sumn (length v) (vel v)).
Proof.
  intros R v. rewrite vec_sum_ok. f_equal. symmetry. apply sumn_nth.
Qed.
Print Assumptions C65_sum.

(** indexOrMinusOne finds the first occurrence. *)
Theorem C65_index : forall (R : cring) (v : list R) (x : R),
  match indexOrMinusOne R v x with
  | Some i => (i < length v)%nat /\ nth i v c0 = x /\ forall k, (k < i)%nat -> nth k v c0 <> x
  | None => ~ In x v
  end.
Proof. exact index_ok. Qed.
Print Assumptions C65_index.

Example C65_nonvacuous :
  scalarProduct Gring [(0, 1); (2, 0)]%Z [(1, 0); (0, 3)]%Z = Ok (0, 5)%Z /\
  assign_axpy Zring [1; 2; 3]%Z Self 10%Z (Other [1; 0; 5]%Z) = Ok [11; 2; 53]%Z /\
  plus_eq Zring [1; 2; 3]%Z Self = Ok [2; 4; 6]%Z /\
  indexOrMinusOne Zring [5; 7; 7]%Z 7%Z = Some 1%nat.
Proof. vm_compute. repeat split. Qed.

(** C71. The product of a nested vector with a non-empty vector never returns:
    the inner loop tests the outer counter. *)
Theorem C71_vecvec_refuted : forall (R : cring) fuel (v1 : list (list R)) (v2 : list R),
  v2 <> [] -> forall r, vecvec_mul R fuel v1 v2 <> Ok r.
Proof. exact vecvec_never. Qed.
Print Assumptions C71_vecvec_refuted.

Example C71_nonvacuous :
  vecvec_mul Zring 10 [[1; 2]; [3; 4]]%Z [1; 1]%Z = UB.
Proof. reflexivity. Qed.
