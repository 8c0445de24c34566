(** C56: bisection. [min(a,b) <= c <= max(a,b)] is written with Rmin and Rmax. *)
From Coq Require Import Reals Lra Lia.
From Verif Require Import Prelude Bisect_Model Bisect_Proofs.
Local Open Scope R_scope.

(** What it returns is a point of the interval where the function is smaller than the tolerance; the
    function had opposite signs at the ends. *)
Theorem C56_small : forall f a b maxIter tol c,
  bisect f a b maxIter tol = Ok c -> Rabs (f c) < tol /\ Rmin a b <= c <= Rmax a b /\ f a * f b < 0.
Proof. intros f a b n tol c E. apply bisect_ok in E. destruct E as (E1 & E2 & E3). unfold between in E3. auto. Qed.
Print Assumptions C56_small.

(** It never evaluates the function outside the interval, and at most maxIter+1 times after construction. *)
Theorem C56_evaluations : forall f a b maxIter tol r seen,
  bisect_run f a b maxIter tol = (r, seen) ->
  (length seen <= maxIter + 1)%nat /\ (forall x, In x seen -> Rmin a b <= x <= Rmax a b).
Proof.
  intros f a b n tol r seen E. unfold bisect_run in E.
  apply (loop_inv f tol n a b (f a) [a] r seen a b) in E; try (apply between_iff; lra).
  destruct E as (E1 & E2 & _). cbn in E1. split; [lia|]. intros x Hx. destruct (E2 x Hx) as [[<-|[]]|H].
  - apply between_iff. lra.
  - exact H.
Qed.
Print Assumptions C56_evaluations.

(** For a Lipschitz function with opposite signs at the ends, maxIter iterations with
    L |b-a| < tol 2^maxIter are enough. *)
Theorem C56_lipschitz : forall f a b maxIter tol L,
  (forall x y, Rmin a b <= x <= Rmax a b -> Rmin a b <= y <= Rmax a b -> Rabs (f x - f y) <= L * Rabs (x - y)) ->
  f a * f b < 0 -> (0 < maxIter)%nat -> L * Rabs (b - a) < tol * 2 ^ maxIter ->
  exists c, bisect f a b maxIter tol = Ok c.
Proof.
  intros f a b n tol L HL Hs Hn Hw.
  assert (Hp : 0 < 2 ^ n) by (apply pow_lt; lra).
  apply (run_conv f tol (Rabs (b - a) / 2 ^ n)); auto.
  - intros x y Hx Hy Hxy. eapply Rle_lt_trans; [apply HL; auto|].
    assert (HL0 : 0 <= L).
    { destruct (Rle_dec 0 L) as [|Hneg]; auto. exfalso. assert (Hab : a <> b) by (intros ->; nra).
      pose proof (HL a b) as H. pose proof (Rabs_pos (f a - f b)). assert (0 < Rabs (a - b)) by (apply Rabs_pos_lt; lra).
      assert (Rabs (f a - f b) <= L * Rabs (a - b)) by (apply H; apply between_iff; lra). nra. }
    apply Rle_lt_trans with (L * (Rabs (b - a) / 2 ^ n)); [apply Rmult_le_compat_l; auto|].
    apply Rmult_lt_reg_r with (2 ^ n); auto. replace (L * (Rabs (b - a) / 2 ^ n) * 2 ^ n) with (L * Rabs (b - a)) by (field; lra). exact Hw.
  - right. field. lra.
Qed.
Print Assumptions C56_lipschitz.

(** For a continuous function with opposite signs at the ends and a positive tolerance, every large enough
    number of iterations succeeds. *)
Theorem C56_continuous : forall f a b tol,
  (forall x, Rmin a b <= x <= Rmax a b -> continuity_pt f x) -> f a * f b < 0 -> 0 < tol ->
  exists N, forall maxIter, (N <= maxIter)%nat -> exists c, bisect f a b maxIter tol = Ok c.
Proof.
  intros f a b tol Hf Hs Ht.
  destruct (@Heine_cor2 f (Rmin a b) (Rmax a b) Hf (mkposreal tol Ht)) as [[d Hd] Hh]. cbn in Hh.
  destruct (Pow_x_infinity 2 ltac:(rewrite Rabs_right; lra) (2 * (Rabs (b - a) / d))) as [N HN].
  exists (S N). intros n Hn. apply (run_conv f tol (d / 2)); [|auto| |lia].
  - intros x y Hx Hy Hxy. apply Hh; auto. lra.
  - specialize (HN n ltac:(lia)). rewrite Rabs_right in HN by (left; apply pow_lt; lra).
    assert (Rabs (b - a) = d / 2 * (2 * (Rabs (b - a) / d))) as -> by (field; lra).
    apply Rmult_le_compat_l; lra.
Qed.
Print Assumptions C56_continuous.

(** The comment in the code promises a value closer to a root than the tolerance. It is false: the only root
    of x/1000 is 0, and 1/2 is returned for the interval [-100,101] and the default tolerance. *)
Theorem C56_root_may_be_far :
  let f x := x / 1000 in
  (forall n, bisect f (-100) 101 (S n) (1 / 1000) = Ok (1 / 2)) /\ (forall r, f r = 0 -> r = 0) /\ ~ Rabs (1 / 2 - 0) < 1 / 1000.
Proof.
  cbn zeta. split; [|split].
  - intros n. unfold bisect. rewrite new_ok by lra. cbn [bind]. unfold bisect_run. cbn [bisect_loop].
    destruct (Rlt_dec _ _) as [H|H]; [cbn; f_equal; lra|]. exfalso. apply H. rewrite Rabs_right; lra.
  - intros r H. lra.
  - rewrite Rabs_right; lra.
Qed.
Print Assumptions C56_root_may_be_far.

Example C56_nonvacuous :
  let f x := x - 1 in
  (exists c, bisect f (-100) 100 30 (1 / 1000) = Ok c) /\
  (forall x y, Rmin (-100) 100 <= x <= Rmax (-100) 100 -> Rmin (-100) 100 <= y <= Rmax (-100) 100 -> Rabs (f x - f y) <= 1 * Rabs (x - y)) /\
  (forall x, continuity_pt f x).
Proof.
  cbn zeta.
  assert (HL : forall x y, Rmin (-100) 100 <= x <= Rmax (-100) 100 -> Rmin (-100) 100 <= y <= Rmax (-100) 100 -> Rabs ((x - 1) - (y - 1)) <= 1 * Rabs (x - y)).
  { intros x y _ _. replace (x - 1 - (y - 1)) with (x - y) by ring. lra. }
  split; [|split; [exact HL|intros x; reg]].
  apply (C56_lipschitz (fun x => x - 1) _ _ _ _ 1 HL); [lra|lia|].
  rewrite Rabs_right by lra. assert (2 ^ 20 <= 2 ^ 30) by (apply Rle_pow; [lra|lia]). replace (2 ^ 20) with 1048576 in H by ring. lra.
Qed.
