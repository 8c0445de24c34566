(** C87: the spectral function from Chebyshev moments. *)
From Coq Require Import Reals Lra.
From Verif Require Import Prelude Ring Cplx Rsum Tri_Model Cheb_Model Cheb_Spec Cf_Model Chser_Model Chser_Spec Chser_Proofs.
Local Open Scope R_scope.

(** The number of moments used: the cutoff, unless it is 0 or larger than what is stored. *)
Definition used (cs : chser) (kp : kernelparams) (N : nat) : Prop :=
  length (t_a (cs_moments cs)) = length (t_b (cs_moments cs)) /\
  N = (if (kp_cutoff kp =? 0)%nat then length (t_a (cs_moments cs)) else Nat.min (kp_cutoff kp) (length (t_a (cs_moments cs)))).

Lemma cutoff_used cs kp N : used cs kp N ->
  (if (kp_cutoff kp =? 0)%nat || (tri_size Rring (cs_moments cs) <? kp_cutoff kp)%nat then tri_size Rring (cs_moments cs) else kp_cutoff kp) = N.
Proof.
  intros [_ ->]. unfold tri_size. destruct (Nat.eqb_spec (kp_cutoff kp) 0); [reflexivity|]. cbn [orb].
  destruct (Nat.ltb_spec (length (t_a (cs_moments cs))) (kp_cutoff kp)); lia.
Qed.

(** On n = floor((omega2-omega1)/deltaOmega) >= 1 frequencies, the plot has at omega the density
    (g_0 mu_0 + 2 sum g_i mu_i T_i(x)) / sqrt(1 - x^2) at x = (omega + Eg - b)/a, with the kernel g asked for, if at least 6
    moments are used. *)
Theorem C87_plot_partial : forall cs kp pp N n, used cs kp N -> (6 <= N)%nat -> (kp_type kp = LORENTZ -> kp_lambda kp <> 0) ->
  0 < pp_deltaOmega pp -> (0 < n)%nat -> INR n <= (pp_omega2 pp - pp_omega1 pp) / pp_deltaOmega pp < INR n + 1 ->
  ch_plot cs [] pp kp = Ok (map (fun j => let omega := pp_omega1 pp + INR j * pp_deltaOmega pp in
    (omega, density N (match kp_type kp with JACKSON => jackson N | LORENTZ => lorentz (kp_lambda kp) N | DIRICHLET => dirichlet end)
                    (stored (t_a (cs_moments cs)) (t_b (cs_moments cs))) ((omega + cs_Eg cs - cs_b cs) * cs_oneOverA cs))) (seq 0 n)).
Proof.
  intros cs kp pp N n U H6 Hl Hw Hn Hq. unfold ch_plot. rewrite (cutoff_used cs kp N U). rewrite initKernel_ok by auto. cbn [bind].
  destruct U as [L EN]. assert (HN : (N <= length (t_a (cs_moments cs)))%nat) by (subst N; destruct (kp_cutoff kp =? 0)%nat; lia).
  rewrite map_length, seq_length, gnmn_ok by lia. cbn [bind]. destruct (Req_EM_T (pp_deltaOmega pp) 0); [lra|].
  assert (E : Int_part ((pp_omega2 pp - pp_omega1 pp) / pp_deltaOmega pp) = Z.of_nat n).
  { unfold Int_part. rewrite <- (tech_up _ (Z.of_nat n + 1)); [lia| |]; rewrite plus_IZR, <- INR_IZR_INZ; lra. }
  rewrite E. cbv zeta. destruct (Z.leb_spec 0 (Z.of_nat n)); [|lia]. rewrite Nat2Z.id. cbn [length Nat.eqb].
  rewrite (@vget_ok _ _ 0%nat 0), (@vget_ok _ _ 5%nat 0) by (rewrite map_length, seq_length; lia). cbn [bind]. rewrite repeat_length.
  assert (HB : (N <= length (t_b (cs_moments cs)))%nat) by lia. pose proof (ch_loop_ok cs kp N HN HB pp n (n + 1) 0 (repeat (0, 0) n)) as H0. cbn [INR firstn app] in H0. rewrite Rmult_0_l, Rplus_0_r in H0.
  rewrite H0; try lia; auto.
  - f_equal. apply map_ext. intros j. cbv zeta. unfold xof, kernel_value. destruct (kp_type kp); reflexivity.
  - apply repeat_length.
  - cbn [Nat.add]. assert (HQ : INR n * pp_deltaOmega pp <= (pp_omega2 pp - pp_omega1 pp) / pp_deltaOmega pp * pp_deltaOmega pp) by (apply Rmult_le_compat_r; lra).
    replace ((pp_omega2 pp - pp_omega1 pp) / pp_deltaOmega pp * pp_deltaOmega pp) with (pp_omega2 pp - pp_omega1 pp) in HQ by (field; lra). lra.
Qed.
Print Assumptions C87_plot_partial.

(** With fewer moments the message about the kernel reads outside its storage. *)
Theorem C87_few_refuted : forall cs kp pp N n, used cs kp N -> (N < 6)%nat -> (kp_type kp = LORENTZ -> kp_lambda kp <> 0) ->
  0 < pp_deltaOmega pp -> (0 < n)%nat -> INR n <= (pp_omega2 pp - pp_omega1 pp) / pp_deltaOmega pp < INR n + 1 ->
  ch_plot cs [] pp kp = UB.
Proof.
  intros cs kp pp N n U H6 Hl Hw Hn Hq. unfold ch_plot. rewrite (cutoff_used cs kp N U). rewrite initKernel_ok by auto. cbn [bind].
  destruct U as [L EN]. assert (HN : (N <= length (t_a (cs_moments cs)))%nat) by (subst N; destruct (kp_cutoff kp =? 0)%nat; lia).
  rewrite map_length, seq_length, gnmn_ok by lia. cbn [bind]. destruct (Req_EM_T (pp_deltaOmega pp) 0); [lra|].
  assert (E : Int_part ((pp_omega2 pp - pp_omega1 pp) / pp_deltaOmega pp) = Z.of_nat n).
  { unfold Int_part. rewrite <- (tech_up _ (Z.of_nat n + 1)); [lia| |]; rewrite plus_IZR, <- INR_IZR_INZ; lra. }
  rewrite E. cbv zeta. destruct (Z.leb_spec 0 (Z.of_nat n)); [|lia].
  assert (F : vget (map (kernel_value kp N) (seq 0 N)) 5 = UB).
  { unfold vget. rewrite (proj2 (nth_error_None _ _)); [reflexivity|rewrite map_length, seq_length; lia]. }
  rewrite F. unfold vget. destruct (nth_error _ 0); reflexivity.
Qed.
Print Assumptions C87_few_refuted.

(** The density of a positive measure is nowhere negative with the kernels of Jackson and Lorentz. *)
Theorem C87_positive : forall K w p mu N x, positive_moments K w p mu -> (0 < N)%nat ->
  0 <= density N (jackson N) mu x /\ (forall lambda, lambda <> 0 -> 0 <= density N (lorentz lambda N) mu x).
Proof.
  intros K w p mu N x P HN.
  assert (G : forall g, (forall t, 0 <= ker N g t) -> 0 <= density N g mu x).
  { intros g Hg. unfold density. destruct (Rlt_dec _ _) as [H|]; [|lra]. apply Rmult_le_pos.
    - apply (series_positive N g mu K w p); auto. nra.
    - left. apply Rinv_0_lt_compat. apply sqrt_lt_R0. lra. }
  split; [|intros lambda Hl]; apply G; intros t; [apply jackson_positive|apply lorentz_positive]; auto.
Qed.
Print Assumptions C87_positive.

(** The kernels leave the weight: g_0 = 1. *)
Theorem C87_weight : forall N lambda, (0 < N)%nat -> lambda <> 0 -> jackson N 0 = 1 /\ lorentz lambda N 0 = 1 /\ dirichlet 0 = 1.
Proof.
  intros N lambda HN Hl. repeat split.
  - unfold jackson. cbv zeta. rewrite Nat.sub_0_r. cbn [INR]. rewrite Rmult_0_r, cos_0, sin_0. assert (0 < INR (N + 1)) by (apply (lt_INR 0); lia). field.
    split; [|lra]. apply Rgt_not_eq; apply sin_gt_0; [apply Rdiv_lt_0_compat; [apply PI_RGT_0|lra]|].
    apply Rmult_lt_reg_r with (INR (N + 1)); [lra|]; unfold Rdiv; rewrite Rmult_assoc, Rinv_l by lra; rewrite plus_INR; cbn [INR]; assert (1 <= INR N) by (apply (le_INR 1); lia); pose proof PI_RGT_0; nra.
  - unfold lorentz. cbn [INR]. assert (0 < INR N) by (apply (lt_INR 0); lia). replace (lambda * (1 - 0 / INR N)) with lambda by (field; lra). field.
    intros E. destruct (Rlt_dec 0 lambda); [assert (sinh 0 < sinh lambda) by (apply sinh_lt; auto)|assert (sinh lambda < sinh 0) by (apply sinh_lt; lra)]; rewrite sinh_0 in *; lra.
Qed.
Print Assumptions C87_weight.

(** Without a kernel the density of a positive measure can be negative: unit weight at -1, two moments. *)
Theorem C87_dirichlet_refuted : exists mu x, positive_moments 1 (fun _ => 1) (fun _ => -1) mu /\ density 2 dirichlet mu x < 0.
Proof.
  exists (fun n => rsum 1 (fun k => 1 * T n (-1))), (3 / 5). split.
  - split; [intros; lra|]. intros n. reflexivity.
  - unfold density. destruct (Rlt_dec (1 / 1000000000000) (1 - 3 / 5 * (3 / 5))); [|lra].
    replace (1 - 3 / 5 * (3 / 5)) with (4 / 5 * (4 / 5)) by field. rewrite sqrt_square by lra. unfold series. cbn [rsum Nat.eqb].
    replace (T 0 (-1)) with 1 by reflexivity. replace (T 1 (-1)) with (-1) by reflexivity. replace (T 0 (3 / 5)) with 1 by reflexivity. replace (T 1 (3 / 5)) with (3 / 5) by reflexivity. unfold dirichlet. lra.
Qed.
Print Assumptions C87_dirichlet_refuted.

(** Eight stored moments, all used, on three frequencies. *)
Definition ex_cs : chser := mkchser (@mktri Rring (repeat 1 8) (repeat 0 8)) 0 (1 / 10) 0.
Example C87_nonvacuous : used ex_cs (mkkp JACKSON 0 0) 8 /\ (exists v, ch_plot ex_cs [] (mkpp 0 3 1 0 1 0) (mkkp JACKSON 0 0) = Ok v /\ length v = 3%nat) /\
  positive_moments 2 (fun _ => 1 / 2) (fun k => if (k =? 0)%nat then 1 else -1) (fun n => rsum 2 (fun k => 1 / 2 * T n (if (k =? 0)%nat then 1 else -1))).
Proof.
  assert (U : used ex_cs (mkkp JACKSON 0 0) 8) by (split; reflexivity). split; [exact U|]. split.
  - eexists. split; [apply (C87_plot_partial ex_cs (mkkp JACKSON 0 0) (mkpp 0 3 1 0 1 0) 8 3 U); cbn; try lra; try lia; discriminate|]. rewrite map_length, seq_length. reflexivity.
  - split; [|reflexivity]. intros k Hk. destruct (k =? 0)%nat; lra.
Qed.
