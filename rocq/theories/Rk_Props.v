From Coq Require Import Reals Lra.
From Verif Require Import Prelude Ring Cplx Rk_Model Rk_Spec Rk_Proofs Rkr_Proofs.

(** solve appends N vectors: the classical Runge-Kutta values at t0, t0+h, ..., t0+(N-1)h, in this order and starting with
    y0. The right-hand side is any function that keeps the size. *)
Theorem C90_solve : forall (R : cring) (half sixth : R) (f : R -> list R -> list R) (h t0 : R) (result : list (list R)) (N : nat) (y0 : list R),
  (forall t y, length y = length y0 -> length (f t y) = length y0) ->
  solve R half sixth f h result t0 N y0 = Ok (result ++ map (steps R half sixth f h t0 y0) (seq 0 N)).
Proof. intros. apply solve_ok with (n := length y0); auto. Qed.
Print Assumptions C90_solve.

(** For a linear equation y' = L y a step is the Taylor polynomial of order four of exp(h L). *)
Theorem C90_linear : forall (R : cring) (half sixth h t0 : R) (L : list R -> list R) (y0 : list R) (i k : nat),
  let n := length y0 in
  cadd half half = c1 -> cmul (cmul (cadd c1 c1) (cadd (cadd c1 c1) c1)) sixth = c1 ->
  (forall y, length y = n -> length (L y) = n) ->
  (forall a t b k, length a = n -> length b = n -> k < n -> nth k (L (axpy R a t b)) c0 = cadd (nth k (L a) c0) (cmul t (nth k (L b) c0))) ->
  k < n -> let y := steps R half sixth (fun _ y => L y) h t0 y0 i in
  nth k (steps R half sixth (fun _ y => L y) h t0 y0 (S i)) c0 =
  (nth k y c0 + h * nth k (L y) c0 + h * h * half * nth k (L (L y)) c0 + h * h * h * sixth * nth k (L (L (L y))) c0 +
   h * h * h * h * (sixth * half * half) * nth k (L (L (L (L y)))) c0)%C.
Proof.
  intros R half sixth h t0 L y0 i k n H2 H6 Ln La Hk y. cbn [steps]. apply (rk4_lin R half sixth H2 H6 n L Ln La); auto. apply steps_length.
Qed.
Print Assumptions C90_linear.

Local Open Scope R_scope.

(** Fourth order on y' = l y: the error at time ih is at most the time times h^4 |l|^5/120 e^(|l| time). *)
Theorem C90_order : forall (l h t0 : R) (y0 : list R) (i k : nat), 0 < h -> (k < length y0)%nat -> let T := INR i * h in
  Rabs (nth k (steps Rring (1 / 2) (1 / 6) (fun _ y => map (Rmult l) y) h t0 y0 i) 0 - exp (l * T) * nth k y0 0) <=
  T * h ^ 4 * (Rabs l ^ 5 / 120) * exp (Rabs l * T) * Rabs (nth k y0 0).
Proof.
  intros l h t0 y0 i k Hh Hk T. rewrite rk_scal by auto.
  assert (G : forall a b w : R, Rabs (a * w - b * w) = Rabs (a - b) * Rabs w) by (intros; rewrite <- Rabs_mult; f_equal; ring).
  refine (Rle_trans _ _ _ (Req_le _ _ (G _ _ _)) _).
  replace (l * T) with (INR i * (h * l)) by (unfold T; ring). apply Rmult_le_compat_r; [apply Rabs_pos|]. eapply Rle_trans; [apply order4|]. rewrite Rabs_mult, (Rabs_right h) by lra. right.
  unfold T. replace (Rabs l * (INR i * h)) with (INR i * (h * Rabs l)) by ring. field.
Qed.
Print Assumptions C90_order.

(** If the right-hand side is a polynomial of t of degree at most three, the values are exact. *)
Theorem C90_cubic : forall (a b c d : nat -> R) (h t0 : R) (y0 : list R) (i k : nat), (k < length y0)%nat ->
  let f := fun t (_ : list R) => map (fun j => cubic (a j) (b j) (c j) (d j) t) (seq 0 (length y0)) in
  let G := quartic (a k) (b k) (c k) (d k) in
  (forall t, derivable_pt_lim G t (cubic (a k) (b k) (c k) (d k) t)) /\
  nth k (steps Rring (1 / 2) (1 / 6) f h t0 y0 i) 0 = nth k y0 0 + (G (t0 + INR i * h) - G t0).
Proof.
  intros a b c d h t0 y0 i k Hk f G. split; [|apply rk_cubic; auto]. intros t.
  assert (P : forall m, derivable_pt_lim (fun x => x ^ m) t (INR m * t ^ pred m)) by (intros; apply derivable_pt_lim_pow).
  pose proof (derivable_pt_lim_plus _ _ t _ _ (derivable_pt_lim_plus _ _ t _ _ (derivable_pt_lim_plus _ _ t _ _
    (derivable_pt_lim_scal _ (a k) t _ (P 1%nat)) (derivable_pt_lim_scal _ (b k / 2) t _ (P 2%nat))) (derivable_pt_lim_scal _ (c k / 3) t _ (P 3%nat))) (derivable_pt_lim_scal _ (d k / 4) t _ (P 4%nat))) as D.
  unfold plus_fct, mult_real_fct in D.
  assert (E1 : forall x, a k * x ^ 1 + b k / 2 * x ^ 2 + c k / 3 * x ^ 3 + d k / 4 * x ^ 4 = G x) by (intros; unfold G, quartic; field).
  intros eps He. destruct (D eps He) as (del & Hd). exists del. intros hh H0 H1. specialize (Hd hh H0 H1). rewrite !E1 in Hd.
  replace (cubic (a k) (b k) (c k) (d k) t) with (a k * (INR 1 * t ^ pred 1) + b k / 2 * (INR 2 * t ^ pred 2) + c k / 3 * (INR 3 * t ^ pred 3) + d k / 4 * (INR 4 * t ^ pred 4)); [exact Hd|].
  unfold cubic. cbn [INR pred pow]. field.
Qed.
Print Assumptions C90_cubic.

(** For y' = -i E y the norm, which the equation keeps, is multiplied by 1 - x^6/72 + x^8/576 with x = E h in each step. *)
Theorem C90_norm : forall (E h t0 : R) (y0 : list Cring) (i k : nat), (k < length y0)%nat -> let x := E * h in
  nrm2 (nth k (steps Cring (RtoC (1 / 2)) (RtoC (1 / 6)) (fun _ y => map (cmul ((0, - E) : Cring)) y) (RtoC h) (RtoC t0) y0 i) c0) =
  (1 - x ^ 6 / 72 + x ^ 8 / 576) ^ i * nrm2 (nth k y0 c0).
Proof. exact rk_norm. Qed.
Print Assumptions C90_norm.
(** So the norm is not conserved. *)
Theorem C90_norm_refuted : ~ forall (E h t0 : R) (y0 : list Cring) (i k : nat), (k < length y0)%nat ->
  nrm2 (nth k (steps Cring (RtoC (1 / 2)) (RtoC (1 / 6)) (fun _ y => map (cmul ((0, - E) : Cring)) y) (RtoC h) (RtoC t0) y0 i) c0) = nrm2 (nth k y0 c0).
Proof.
  intros H. specialize (H 1 1 0 [((1, 0) : Cring)] 1%nat 0%nat ltac:(cbn; lia)). rewrite C90_norm in H by (cbn; lia). unfold nrm2 in H. cbn [nth fst snd] in H. lra.
Qed.
Print Assumptions C90_norm_refuted.

(** solveEx takes the largest N with N h <= t - t0 and reports the times before the N-th: the value at t is not among them. *)
Theorem C90_solveEx : forall (f : R -> list R -> list R) (h t0 t : R) (result : list (list R)) (y0 : list R), 0 < h -> t0 <= t ->
  (forall t y, length y = length y0 -> length (f t y) = length y0) ->
  exists N : nat, INR N * h <= t - t0 < (INR N + 1) * h /\
    solveEx f h result t0 t y0 = Ok (result ++ map (steps Rring (1 / 2) (1 / 6) f h t0 y0) (seq 0 N)).
Proof.
  intros f h t0 t result y0 Hh Ht Hf. unfold solveEx. set (x := (t - t0) / h).
  assert (X : 0 <= x) by (unfold x; apply Rmult_le_pos; [lra|left; apply Rinv_0_lt_compat; lra]). destruct (Rle_dec 0 x); [|lra].
  exists (Z.to_nat (Int_part x)). split; [|exact (C90_solve Rring (1 / 2) (1 / 6) f h t0 result _ y0 Hf)].
  destruct (base_Int_part x) as [I1 I2]. assert (P : (0 <= Int_part x)%Z). { apply le_IZR. assert (-1 < IZR (Int_part x)) by lra. apply lt_IZR in H. apply IZR_le. lia. }
  rewrite INR_IZR_INZ, Z2Nat.id by auto. replace (t - t0) with (x * h) by (unfold x; field; lra).
  split; [apply Rmult_le_compat_r; lra|apply Rmult_lt_compat_r; lra].
Qed.
Print Assumptions C90_solveEx.
(** The last time is not reported: with t one step after t0 only the initial value is. *)
Theorem C90_last_refuted : exists (h t0 t : R) (y0 : list R), 0 < h /\ t0 <= t /\ t = t0 + INR 1 * h /\
  solveEx (fun _ y => y) h [] t0 t y0 = Ok [y0] /\ steps Rring (1 / 2) (1 / 6) (fun _ y => y) h t0 y0 1 <> y0.
Proof.
  exists 1, 0, 1, [1]. split; [lra|]. split; [lra|]. split; [cbn; ring|]. split.
  - destruct (C90_solveEx (fun _ y => y) 1 0 1 [] [1]) as (N & HN & E); [lra|lra|auto|]. rewrite E. cbn [app].
    assert (N = 1%nat). { assert (A : INR N < INR 2) by (cbn; lra). assert (B : INR 0 < INR N) by (cbn; lra). apply INR_lt in A, B. lia. } subst N. reflexivity.
  - intros E. assert (E0 : nth 0 (steps Rring (1 / 2) (1 / 6) (fun _ y => y) 1 0 [1] 1) 0 = 1) by (rewrite E; reflexivity).
    cbn in E0. lra.
Qed.
Print Assumptions C90_last_refuted.

(** The hypotheses on the constants hold for the real numbers; two steps of y' = 2t from y(0) = 5 with h = 3 *)
Example C90_nonvacuous : cadd (1 / 2 : Rring) (1 / 2) = c1 /\ cmul (cmul (cadd c1 c1) (cadd (cadd c1 c1) c1)) (1 / 6 : Rring) = c1 /\
  nth 0 (steps Rring (1 / 2) (1 / 6) (fun t _ => [cubic 0 2 0 0 t]) 3 0 [5] 2) 0 = 41.
Proof.
  split; [cbn; lra|]. split; [cbn; lra|].
  destruct (C90_cubic (fun _ => 0) (fun _ => 2) (fun _ => 0) (fun _ => 0) 3 0 [5] 2 0) as [_ E]; [cbn; lia|]. cbn [length seq map nth] in E. refine (eq_trans E _). unfold quartic. cbn [INR]. match goal with |- ?a = ?b => change (@eq R a b) end. field.
Qed.
