(** Finite sums of real numbers, used in specifications: rsum n f = f 0 + ... + f (n-1). *)
From Coq Require Import Reals Lra.
From Verif Require Import Prelude.
Local Open Scope R_scope.

Fixpoint rsum (n : nat) (f : nat -> R) : R := match n with 0%nat => 0 | S n => rsum n f + f n end.

Lemma rsum_ext n f g : (forall i, (i < n)%nat -> f i = g i) -> rsum n f = rsum n g.
Proof. induction n as [|n IH]; intros H; [reflexivity|]. cbn. rewrite IH, H by (intros; auto; apply H; lia). reflexivity. Qed.
Lemma rsum_add n f g : rsum n (fun i => f i + g i) = rsum n f + rsum n g.
Proof. induction n as [|n IH]; cbn; [ring|]. rewrite IH. ring. Qed.
Lemma rsum_scal n c f : rsum n (fun i => c * f i) = c * rsum n f.
Proof. induction n as [|n IH]; cbn; [ring|]. rewrite IH. ring. Qed.
Lemma rsum_zero n f : (forall i, (i < n)%nat -> f i = 0) -> rsum n f = 0.
Proof. induction n as [|n IH]; intros H; [reflexivity|]. cbn. rewrite IH, H by (intros; auto; apply H; lia). ring. Qed.
Lemma rsum_exchange n m f : rsum n (fun i => rsum m (f i)) = rsum m (fun j => rsum n (fun i => f i j)).
Proof.
  induction n as [|n IH]; cbn; [symmetry; apply rsum_zero; auto|]. rewrite IH, <- rsum_add. apply rsum_ext. reflexivity.
Qed.
Lemma rsum_nonneg n f : (forall i, (i < n)%nat -> 0 <= f i) -> 0 <= rsum n f.
Proof. induction n as [|n IH]; intros H; cbn; [lra|]. assert (0 <= f n) by (apply H; lia). assert (0 <= rsum n f) by (apply IH; intros; apply H; lia). lra. Qed.
Lemma rsum_shift n f : rsum (S n) f = f 0%nat + rsum n (fun i => f (S i)).
Proof. induction n as [|n IH]; [cbn; ring|]. change (rsum (S (S n)) f) with (rsum (S n) f + f (S n)). rewrite IH. cbn. ring. Qed.
Lemma rsum_extend n m f : (n <= m)%nat -> (forall i, (n <= i < m)%nat -> f i = 0) -> rsum m f = rsum n f.
Proof.
  intros H Z. induction m as [|m IH]; [replace n with 0%nat by lia; reflexivity|]. destruct (Nat.eq_dec n (S m)) as [->|]; [reflexivity|].
  cbn. rewrite IH, Z by (intros; try apply Z; lia). ring.
Qed.
Lemma rsum_telescope n f : rsum n (fun i => f (S i) - f i) = f n - f 0%nat.
Proof. induction n as [|n IH]; cbn; [ring|]. rewrite IH. ring. Qed.

Lemma rsum_sub n f g : rsum n (fun i => f i - g i) = rsum n f - rsum n g.
Proof. induction n as [|n IH]; cbn; [ring|]. rewrite IH. ring. Qed.
Lemma rsum_delta n i f : (i < n)%nat -> rsum n (fun j => if (j =? i)%nat then f j else 0) = f i.
Proof.
  intros H. induction n as [|n IH]; [lia|]. cbn [rsum]. destruct (Nat.eqb_spec n i) as [->|].
  - rewrite rsum_zero; [ring|]. intros j Hj. destruct (Nat.eqb_spec j i); [lia|reflexivity].
  - rewrite IH by lia. ring.
Qed.
Lemma rsum_zero_out n i f : (n <= i)%nat -> rsum n (fun j => if (j =? i)%nat then f j else 0) = 0.
Proof. intros H. apply rsum_zero. intros j Hj. destruct (Nat.eqb_spec j i); [lia|reflexivity]. Qed.
