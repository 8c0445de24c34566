(** The real and the complex numbers as number types: exact arithmetic on [R] and on pairs (re, im) of [R].
    They stand for double and std::complex<double> without rounding. *)
From Coq Require Import Reals Lra.
From Verif Require Import Prelude Ring.
Local Open Scope R_scope.

Definition Rceqb (a b : R) : bool := if Req_EM_T a b then true else false.
Lemma Rceqb_eq a b : Rceqb a b = true <-> a = b.
Proof. unfold Rceqb. destruct (Req_EM_T a b); split; intros; try congruence; auto. Qed.
Lemma Rring_th : ring_theory 0 1 Rplus Rmult Rminus Ropp (@eq R).
Proof. constructor; intros; ring. Qed.
Definition Rring : cring :=
  @mkring R 0 1 Rplus Rmult Rminus Ropp (fun a => a) Rceqb Rring_th Rceqb_eq (fun _ _ => eq_refl) (fun _ _ => eq_refl) (fun _ => eq_refl) eq_refl.

Definition Cadd (a b : R * R) : R * R := (fst a + fst b, snd a + snd b).
Definition Cmul (a b : R * R) : R * R := (fst a * fst b - snd a * snd b, fst a * snd b + snd a * fst b).
Definition Csub (a b : R * R) : R * R := (fst a - fst b, snd a - snd b).
Definition Copp (a : R * R) : R * R := (- fst a, - snd a).
Definition Cconj (a : R * R) : R * R := (fst a, - snd a).
Definition Cceqb (a b : R * R) : bool := Rceqb (fst a) (fst b) && Rceqb (snd a) (snd b).
Lemma Cring_th : ring_theory (0, 0) (1, 0) Cadd Cmul Csub Copp (@eq (R * R)).
Proof.
  constructor; intros; repeat match goal with p : R * R |- _ => destruct p end;
  unfold Cadd, Cmul, Csub, Copp; cbn [fst snd]; apply f_equal2; ring.
Qed.
Lemma C_eqb_eq a b : Cceqb a b = true <-> a = b.
Proof.
  destruct a as [a1 a2], b as [b1 b2]. unfold Cceqb. cbn [fst snd]. rewrite andb_true_iff, !Rceqb_eq.
  split; [intros [-> ->]; reflexivity|intros H; inversion H; auto].
Qed.
Lemma C_conj_add a b : Cconj (Cadd a b) = Cadd (Cconj a) (Cconj b).
Proof. unfold Cconj, Cadd. cbn [fst snd]. apply f_equal2; ring. Qed.
Lemma C_conj_mul a b : Cconj (Cmul a b) = Cmul (Cconj a) (Cconj b).
Proof. unfold Cconj, Cmul. cbn [fst snd]. apply f_equal2; ring. Qed.
Lemma C_conj_inv a : Cconj (Cconj a) = a.
Proof. destruct a. unfold Cconj. cbn [fst snd]. rewrite Ropp_involutive. reflexivity. Qed.
Lemma C_conj_1 : Cconj (1, 0) = (1, 0).
Proof. unfold Cconj. cbn [fst snd]. rewrite Ropp_0. reflexivity. Qed.
Definition Cring : cring :=
  @mkring (R * R) (0, 0) (1, 0) Cadd Cmul Csub Copp Cconj Cceqb Cring_th C_eqb_eq C_conj_add C_conj_mul C_conj_inv C_conj_1.

(** a real number as a complex one *)
Definition RtoC (r : R) : Cring := (r, 0).
(** 1/a; 0 for a = 0 *)
Definition Cinv (a : Cring) : Cring := (fst a / (fst a * fst a + snd a * snd a), - snd a / (fst a * fst a + snd a * snd a)).
Definition Cdiv (a b : Cring) : Cring := cmul a (Cinv b).

Lemma Cinv_l (a : Cring) : a <> c0 -> cmul (Cinv a) a = c1.
Proof.
  destruct a as [x y]. intros H. assert (x * x + y * y <> 0).
  { intros E. apply H. assert (x = 0) by nra. assert (y = 0) by nra. subst. reflexivity. }
  cbn. unfold Cinv, Cmul. cbn [fst snd]. apply f_equal2; field; auto.
Qed.
Lemma Cdiv_eq (a b c : Cring) : b <> c0 -> cmul b c = a -> Cdiv a b = c.
Proof.
  intros Hb <-. unfold Cdiv. rewrite (cmul_comm Cring b c), <- cmul_assoc, (cmul_comm Cring b), Cinv_l by auto. apply cmul_1_r.
Qed.
Lemma Cmul_div (a b : Cring) : b <> c0 -> cmul b (Cdiv a b) = a.
Proof. intros Hb. unfold Cdiv. rewrite (cmul_comm Cring a), cmul_assoc, (cmul_comm Cring b), Cinv_l by auto. apply cmul_1_l. Qed.
Lemma RtoC_add a b : RtoC (a + b) = cadd (RtoC a) (RtoC b).
Proof. unfold RtoC. cbn. unfold Cadd. cbn [fst snd]. apply f_equal2; ring. Qed.
Lemma RtoC_sub a b : RtoC (a - b) = csub (RtoC a) (RtoC b).
Proof. unfold RtoC. cbn. unfold Csub. cbn [fst snd]. apply f_equal2; ring. Qed.
Lemma RtoC_mul a b : RtoC (a * b) = cmul (RtoC a) (RtoC b).
Proof. unfold RtoC. cbn. unfold Cmul. cbn [fst snd]. apply f_equal2; ring. Qed.
Lemma C_eq_dec (a b : Cring) : {a = b} + {a <> b}.
Proof. destruct (Cceqb a b) eqn:E; [left; apply C_eqb_eq; auto|right; intros H; apply C_eqb_eq in H; congruence]. Qed.
