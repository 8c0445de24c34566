From Coq Require Import Reals Lra.
From Verif Require Import Fermi_Model Fermi_Proofs.
Local Open Scope R_scope.

(** fermi is 1/(1+e^x) up to e^-50, and exactly so for |x| <= 50; it lies between 0 and 1, never increases, and
    f(x) + f(-x) = 1 exactly. *)
Theorem C89_fermi : forall x : R,
  Rabs (fermi x - 1 / (1 + exp x)) < exp (-50) /\ (-50 <= x <= 50 -> fermi x = 1 / (1 + exp x)) /\
  0 <= fermi x <= 1 /\ fermi x + fermi (- x) = 1 /\ forall y, x <= y -> fermi y <= fermi x.
Proof.
  intros x. split; [apply fermi_err|]. split.
  { intros H. destruct (fermi_cases x) as [[H' _]|[[H' _]|[_ ->]]]; [lra|lra|reflexivity]. }
  pose proof (F_pos x) as P0. pose proof (F_lt1 x) as P1. split.
  { destruct (fermi_cases x) as [[_ ->]|[[_ ->]|[_ ->]]]; lra. }
  split.
  { destruct (fermi_cases x) as [[H ->]|[[H ->]|[H ->]]]; destruct (fermi_cases (- x)) as [[H' ->]|[[H' ->]|[H' ->]]]; try lra. apply F_neg. }
  intros y [H| ->]; [|lra]. pose proof (F_pos y). pose proof (F_lt1 y). pose proof (F_decr x y H).
  destruct (fermi_cases x) as [[Hx ->]|[[Hx ->]|[Hx ->]]]; destruct (fermi_cases y) as [[Hy ->]|[[Hy ->]|[Hy ->]]]; lra.
Qed.
Print Assumptions C89_fermi.

(** fermiPrime is within e^-50 of the derivative of 1/(1+e^x); it is even and never positive. *)
Theorem C89_prime : forall x : R, exists d, derivable_pt_lim (fun x => 1 / (1 + exp x)) x d /\
  Rabs (fermiPrime x - d) < exp (-50) /\ (-50 <= x <= 50 -> fermiPrime x = d) /\ fermiPrime (- x) = fermiPrime x /\ - 1 / 4 <= fermiPrime x <= 0.
Proof.
  intros x. exists (- (F x * F (- x))). split; [apply F_deriv|].
  pose proof (F_pos x) as A0. pose proof (F_lt1 x) as A1. pose proof (F_pos (- x)) as B0. pose proof (F_lt1 (- x)) as B1. pose proof (F_neg x) as S.
  assert (E50 : 0 < exp (-50)) by apply exp_pos.
  assert (PR : forall a b e, 0 < a < e -> 0 < b < 1 -> 0 < a * b < e).
  { intros a b e Ha Hb. split; [apply Rmult_lt_0_compat; lra|]. assert (a * b < a * 1) by (apply Rmult_lt_compat_l; lra). lra. }
  assert (Q : F x * F (- x) <= 1 / 4). { replace (F (- x)) with (1 - F x) by lra. pose proof (Rle_0_sqr (F x - 1 / 2)). unfold Rsqr in *. lra. }
  assert (Q0 : 0 < F x * F (- x)) by (apply Rmult_lt_0_compat; auto).
  unfold fermiPrime. rewrite Ropp_involutive.
  destruct (fermi_cases x) as [[H Ex]|[[H Ex]|[H Ex]]]; rewrite Ex; destruct (fermi_cases (- x)) as [[H' Ey]|[[H' Ey]|[H' Ey]]]; rewrite ?Ey; try lra.
  - split; [|split; [lra|split; [ring|lra]]]. pose proof (PR _ _ _ (F_far x ltac:(lra)) (conj B0 B1)). rewrite Rabs_right; lra.
  - split; [|split; [lra|split; [ring|lra]]]. pose proof (PR _ _ _ (F_far (- x) ltac:(lra)) (conj A0 A1)). rewrite Rabs_right; lra.
  - split; [|split; [intros; ring|split; [ring|lra]]]. replace (- F x * F (- x) - - (F x * F (- x))) with 0 by ring. rewrite Rabs_R0. auto.
Qed.
Print Assumptions C89_prime.

(** logfermi is within e^-20 of the logarithm of 1/(1+e^x), and never positive. *)
Theorem C89_log : forall x : R, Rabs (logfermi x - ln (1 / (1 + exp x))) < exp (-20) /\ (-20 <= x <= 20 -> logfermi x = ln (1 / (1 + exp x))) /\ logfermi x <= 0.
Proof.
  intros x. change (1 / (1 + exp x)) with (F x). rewrite ln_F. pose proof (exp_pos x). pose proof (exp_pos (- x)). pose proof (exp_pos (-20)).
  pose proof (ln_pos (1 + exp x) ltac:(lra)). pose proof (ln_below (exp x) ltac:(lra)). pose proof (ln_pos (1 + exp (- x)) ltac:(lra)). pose proof (ln_below (exp (- x)) ltac:(lra)).
  destruct (logfermi_cases x) as [[H' ->]|[[H' ->]|[H' ->]]].
  - split; [|split; [lra|lra]]. rewrite ln_split. assert (exp (- x) <= exp (-20)) by (apply exp_mono; lra). rewrite Rabs_right; lra.
  - split; [|split; [lra|lra]]. assert (exp x <= exp (-20)) by (apply exp_mono; lra). rewrite Rabs_right; lra.
  - split; [|split; [auto|lra]]. rewrite Rminus_diag_eq, Rabs_R0 by reflexivity. auto.
Qed.
Print Assumptions C89_log.

(** Unlike the logarithm of the Fermi function it increases, across x = 20. *)
Theorem C89_log_decreasing_refuted : exists x y, x < y /\ logfermi x < logfermi y.
Proof.
  pose proof (exp_pos (Ropp 20)). pose proof (ln_pos (1 + exp (Ropp 20)) ltac:(lra)) as P. set (d := ln (1 + exp (Ropp 20))) in *. exists 20, (20 + d / 2). split; [lra|].
  unfold logfermi. destruct (Rlt_dec 20 20); [lra|]. destruct (Rlt_dec 20 (-20)); [lra|]. destruct (Rlt_dec 20 (20 + d / 2)); [|lra]. rewrite ln_split. fold d. lra.
Qed.
Print Assumptions C89_log_decreasing_refuted.

(** Values on both sides of the cut-offs *)
Example C89_nonvacuous : fermi 0 = 1 / 2 /\ fermi 51 = 0 /\ fermi (-51) = 1 /\ fermiPrime 0 = - 1 / 4 /\ logfermi 21 = -21.
Proof.
  assert (F0 : fermi 0 = 1 / 2). { unfold fermi. destruct (Rlt_dec 50 0); [lra|]. destruct (Rlt_dec 0 (-50)); [lra|]. destruct (Rlt_dec 0 0); [lra|]. rewrite Ropp_0, exp_0. lra. }
  split; [exact F0|]. split; [unfold fermi; destruct (Rlt_dec 50 51); lra|]. split; [unfold fermi; destruct (Rlt_dec 50 (-51)); [lra|]; destruct (Rlt_dec (-51) (-50)); lra|].
  split; [unfold fermiPrime; rewrite Ropp_0, F0; lra|]. unfold logfermi. destruct (Rlt_dec 20 21); lra.
Qed.
