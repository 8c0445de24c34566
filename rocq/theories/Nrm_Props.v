(** Theorems about norms (C118). *)
From Coq Require Import Reals Lra Lia.
From Verif Require Import Prelude Ring Cplx Rsum Vec_Model Vec_Spec Vec_Proofs Nrm_Model Nrm_Spec Nrm_Proofs.
Local Open Scope R_scope.

(** The norm of a complex vector is the root of the sum of the squares of the absolute values, and never throws; it is zero
    exactly for a vector of zeros. *)
Theorem C118_norm : forall v : list Cring,
  (exists r, norm_cplx v = Ok r /\ 0 <= r /\ r * r = squares v) /\
  (norm_cplx v = Ok 0 <-> forall z, In z v -> z = (0, 0)).
Proof.
  intros v. pose proof (squares_nonneg v) as P. split.
  - exists (sqrt (squares v)). split; [apply norm_value|]. split; [apply sqrt_pos|apply sqrt_sqrt, P].
  - rewrite norm_value. split.
    + intros E z Hz. apply Ok_inj in E. apply sqrt_eq_0 in E; [|exact P]. apply (In_nth _ _ (c0 : Cring)) in Hz. destruct Hz as (k & Hk & <-).
      apply abs2_zero. exact (rsum_zero_inv _ _ (fun k => abs2_nonneg (vel v k)) E k Hk).
    + intros H. replace (squares v) with 0; [rewrite sqrt_0; reflexivity|]. symmetry. apply rsum_zero. intros k Hk. apply abs2_zero. apply H. apply nth_In, Hk.
Qed.
Print Assumptions C118_norm.

(** The norm of a real vector is that of the same numbers as complex ones. *)
Theorem C118_real : forall v : list Rring, norm_real v = norm_cplx (map RtoC v).
Proof.
  intros v. rewrite norm_value. unfold norm_real. rewrite vec_mul_ok, Nat.eqb_refl. cbn [bind]. do 2 f_equal. unfold inner, squares. rewrite map_length.
  assert (E : forall k, abs2 (vel (map RtoC v) k) = vel v k * vel v k).
  { intros k. assert (M : vel (map RtoC v) k = RtoC (vel v k)) by exact (map_nth RtoC v (c0 : Rring) k). rewrite M. unfold abs2, RtoC. cbn [fst snd]. ring. }
  assert (H : forall n, sumn n (fun k => cmul (cconj (vel v k)) (vel v k)) = rsum n (fun k => abs2 (vel (map RtoC v) k))).
  { induction n as [|n IH]; [reflexivity|]. rewrite sumn_S, IH. cbn [rsum]. rewrite E. reflexivity. }
  exact (H (length v)).
Qed.
Print Assumptions C118_real.

(** A multiple has the norm times the absolute value of the number. *)
Theorem C118_multiple : forall (v : list Cring) t, exists u r, times_eq Cring v t = Ok u /\ norm_cplx v = Ok r /\ norm_cplx u = Ok (sqrt (abs2 t) * r).
Proof.
  intros v t. destruct (times_eq_ok Cring v t) as (u & E & U). exists u, (sqrt (squares v)). split; [exact E|]. split; [apply norm_value|]. rewrite norm_value.
  rewrite <- sqrt_mult by (apply abs2_nonneg || apply squares_nonneg). do 2 f_equal. rewrite (squares_of u _ _ U). unfold squares. rewrite <- rsum_scal.
  apply rsum_ext. intros k _. apply abs2_mul.
Qed.
Print Assumptions C118_multiple.

(** The absolute value of a scalar product is at most the product of the norms. *)
Theorem C118_schwarz : forall v w : list Cring, length v = length w ->
  exists s r r', scalarProduct Cring v w = Ok s /\ norm_cplx v = Ok r /\ norm_cplx w = Ok r' /\ sqrt (abs2 s) <= r * r'.
Proof.
  intros v w L. exists (inner v w), (sqrt (squares v)), (sqrt (squares w)). split; [rewrite scalarProduct_ok, L, Nat.eqb_refl; reflexivity|].
  split; [apply norm_value|]. split; [apply norm_value|]. rewrite <- sqrt_mult by apply squares_nonneg. apply sqrt_le_1_alt.
  unfold squares. rewrite <- L. exact (schwarz (length v) (vel v) (vel w)).
Qed.
Print Assumptions C118_schwarz.

(** The norm of a sum is at most the sum of the norms. *)
Theorem C118_triangle : forall x v w : list Cring, length v = length w ->
  exists u r r' r'', assign_plus Cring x (Other v) (Other w) = Ok u /\ norm_cplx v = Ok r /\ norm_cplx w = Ok r' /\ norm_cplx u = Ok r'' /\ r'' <= r + r'.
Proof.
  intros x v w L. destruct (assign_plus_ok Cring x (length v) (Other v) (Other w) eq_refl (eq_sym L)) as (u & E & U). cbn [deref] in U.
  exists u, (sqrt (squares v)), (sqrt (squares w)), (sqrt (squares u)). split; [exact E|]. do 3 (split; [apply norm_value|]).
  pose proof (sqrt_pos (squares v)) as A. pose proof (sqrt_pos (squares w)) as B. apply sq_le; [lra|]. rewrite sqrt_sqrt by apply squares_nonneg.
  rewrite (squares_of u _ _ U), (sum_add (length v) (vel v) (vel w)). pose proof (schwarz (length v) (vel v) (vel w)) as S.
  set (c := fst (cip (length v) (vel v) (vel w))) in *.
  assert (C : c <= sqrt (squares v) * sqrt (squares w)).
  { apply sq_le; [apply Rmult_le_pos; assumption|]. replace (sqrt (squares v) * sqrt (squares w) * (sqrt (squares v) * sqrt (squares w))) with
      ((sqrt (squares v) * sqrt (squares v)) * (sqrt (squares w) * sqrt (squares w))) by ring. rewrite !sqrt_sqrt by apply squares_nonneg.
    unfold squares. rewrite <- L. apply Rle_trans with (abs2 (cip (length v) (vel v) (vel w))); [|exact S]. unfold abs2, c. nra. }
  pose proof (sqrt_sqrt (squares v) (squares_nonneg v)) as V. pose proof (sqrt_sqrt (squares w) (squares_nonneg w)) as W.
  unfold squares in V at 3. unfold squares in W at 3. rewrite <- L in W. nra.
Qed.
Print Assumptions C118_triangle.

(** A vector that is not zero divided by its norm has the norm one, and multiplied by it is the vector again. *)
Theorem C118_unit : forall (v : list Cring) r, norm_cplx v = Ok r -> r <> 0 ->
  exists u, divide_eq v r = Ok u /\ norm_cplx u = Ok 1 /\ times_eq Cring u (RtoC r) = Ok v.
Proof.
  intros v r E Hr. destruct (divide_ok v r Hr) as (u & Eu & U). exists u. split; [exact Eu|].
  assert (RC : RtoC r <> c0) by (intros H; injection H as H; contradiction).
  assert (M : times_eq Cring u (RtoC r) = Ok v).
  { destruct (times_eq_ok Cring u (RtoC r)) as (w & Ew & W). rewrite Ew. f_equal. destruct U as [L U]. rewrite L in W. apply (is_vec_eq w v (length v) (vel v)); [|split; [reflexivity|reflexivity]].
    apply (is_vec_ext Cring w (length v) (fun k => cmul (RtoC r) (vel u k))); [|exact W]. intros k Hk. unfold vel at 1. rewrite U by exact Hk. apply Cmul_div, RC. }
  split; [|exact M]. destruct (C118_multiple u (RtoC r)) as (v' & ru & E1 & E2 & E3). rewrite M in E1. apply Ok_inj in E1. subst v'. rewrite E in E3. apply Ok_inj in E3.
  assert (P : 0 <= r). { rewrite norm_value in E. apply Ok_inj in E. rewrite <- E. apply sqrt_pos. }
  assert (A : sqrt (abs2 (RtoC r)) = r). { unfold abs2, RtoC. cbn [fst snd]. replace (r * r + 0 * 0) with (r * r) by ring. apply sqrt_square, P. }
  rewrite A in E3. rewrite E2. f_equal. apply Rmult_eq_reg_l with r; [lra|exact Hr].
Qed.
Print Assumptions C118_unit.

(** The norm of (3, 4i) is 5. *)
Example C118_nonvacuous : norm_cplx [(3, 0); (0, 4)] = Ok 5 /\ 5 <> 0.
Proof.
  rewrite norm_value. unfold squares, abs2, vel. cbn [length rsum nth fst snd]. split; [|lra].
  replace (0 + (3 * 3 + 0 * 0) + (0 * 0 + 4 * 4)) with (5 * 5) by ring. rewrite sqrt_square by lra. reflexivity.
Qed.
