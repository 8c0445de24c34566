From Coq Require Import Reals Lra.
From Verif Require Import Fermi_Model.
Local Open Scope R_scope.

Definition F (x : R) : R := 1 / (1 + exp x).
Lemma exp_neg x : exp (- x) = / exp x. Proof. apply exp_Ropp. Qed.
Lemma F_other x : exp (- x) / (1 + exp (- x)) = F x.
Proof. unfold F. rewrite exp_neg. pose proof (exp_pos x). field. split; lra. Qed.
Lemma F_neg x : F x + F (- x) = 1.
Proof. unfold F. rewrite exp_neg. pose proof (exp_pos x). field. split; lra. Qed.
Lemma F_pos x : 0 < F x.
Proof. unfold F. pose proof (exp_pos x). apply Rmult_lt_0_compat; [lra|apply Rinv_0_lt_compat; lra]. Qed.
Lemma F_lt1 x : F x < 1.
Proof. pose proof (F_pos (- x)). pose proof (F_neg x). lra. Qed.
Lemma F_decr x y : x < y -> F y < F x.
Proof.
  intros H. unfold F. pose proof (exp_pos x). pose proof (exp_increasing x y H). unfold Rdiv. rewrite !Rmult_1_l. apply Rinv_lt_contravar; [|lra].
  apply Rmult_lt_0_compat; lra.
Qed.
Lemma F_tail x : F x < exp (- x).
Proof.
  rewrite <- F_other. pose proof (exp_pos (- x)). set (e := exp (- x)) in *. apply Rmult_lt_reg_r with (1 + e); [lra|].
  replace (e / (1 + e) * (1 + e)) with e by (field; lra). assert (0 < e * e) by (apply Rmult_lt_0_compat; auto). lra.
Qed.
Lemma fermi_cases x : (50 < x /\ fermi x = 0) \/ (x < -50 /\ fermi x = 1) \/ (-50 <= x <= 50 /\ fermi x = F x).
Proof.
  unfold fermi. destruct (Rlt_dec 50 x); [left; auto|]. destruct (Rlt_dec x (-50)); [right; left; auto|]. right; right. split; [lra|].
  destruct (Rlt_dec x 0); [reflexivity|apply F_other].
Qed.
Lemma exp_mono x y : x <= y -> exp x <= exp y.
Proof. intros [H| ->]; [left; apply exp_increasing; auto|right; reflexivity]. Qed.
Lemma F_far x : 50 <= x -> 0 < F x < exp (-50).
Proof. intros H. split; [apply F_pos|]. eapply Rlt_le_trans; [apply F_tail|]. apply exp_mono. lra. Qed.
Lemma fermi_err x : Rabs (fermi x - F x) < exp (-50).
Proof.
  destruct (fermi_cases x) as [[H ->]|[[H ->]|[H ->]]].
  - pose proof (F_far x ltac:(lra)). rewrite Rabs_left; lra.
  - pose proof (F_far (- x) ltac:(lra)). pose proof (F_neg x). rewrite Rabs_right; lra.
  - rewrite Rminus_diag_eq, Rabs_R0 by reflexivity. apply exp_pos.
Qed.
Lemma ln_pos y : 1 < y -> 0 < ln y.
Proof. intros H. rewrite <- ln_1. apply ln_increasing; lra. Qed.
Lemma ln_below y : 0 < y -> ln (1 + y) < y.
Proof.
  intros H. rewrite <- (ln_exp y) at 2. apply ln_increasing; [lra|]. apply exp_ineq1. lra.
Qed.
Lemma ln_split x : ln (1 + exp x) = x + ln (1 + exp (- x)).
Proof.
  pose proof (exp_pos x). pose proof (exp_pos (- x)). rewrite <- (ln_exp x) at 2. rewrite <- ln_mult by lra. f_equal. rewrite exp_neg. field. lra.
Qed.
Lemma logfermi_cases x : (20 < x /\ logfermi x = - x) \/ (x < -20 /\ logfermi x = 0) \/ (-20 <= x <= 20 /\ logfermi x = - ln (1 + exp x)).
Proof. unfold logfermi. destruct (Rlt_dec 20 x); [left; auto|]. destruct (Rlt_dec x (-20)); [right; left; auto|]. right; right. split; [lra|reflexivity]. Qed.
Lemma ln_F x : ln (F x) = - ln (1 + exp x).
Proof. unfold F. pose proof (exp_pos x). unfold Rdiv. rewrite Rmult_1_l. apply ln_Rinv. lra. Qed.
Lemma F_deriv x : derivable_pt_lim F x (- (F x * F (- x))).
Proof.
  pose proof (exp_pos x) as P.
  pose proof (derivable_pt_lim_div (fct_cte 1) (fct_cte 1 + exp)%F x 0 (0 + exp x) (derivable_pt_lim_const 1 x)
    (derivable_pt_lim_plus _ _ x _ _ (derivable_pt_lim_const 1 x) (derivable_pt_lim_exp x)) ltac:(unfold plus_fct, fct_cte; lra)) as D.
  replace (- (F x * F (- x))) with ((0 * (1 + exp x) - (0 + exp x) * 1) / Rsqr (1 + exp x)).
  - exact D.
  - unfold F, Rsqr. rewrite exp_neg. field. split; lra.
Qed.
