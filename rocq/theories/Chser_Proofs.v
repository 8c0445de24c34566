From Coq Require Import Reals Lra.
From Verif Require Import Prelude Ring Cplx Rsum Tri_Model Cheb_Model Cheb_Spec Cheb_Proofs Cf_Model Chser_Model Chser_Spec.
Local Open Scope R_scope.

(** The Chebyshev polynomials as cosines. *)
Lemma T_cos_pair n t : chebyshev_pair Rring (cos t) n = (cos (INR n * t), cos (INR (S n) * t)).
Proof.
  induction n as [|n IH]; [cbn [chebyshev_pair]; rewrite Rmult_0_l, cos_0, Rmult_1_l; reflexivity|].
  cbn [chebyshev_pair]. rewrite IH. f_equal. change ((1 + 1) * cos t * cos (INR (S n) * t) - cos (INR n * t) = cos (INR (S (S n)) * t)).
  replace (INR (S (S n)) * t) with (INR (S n) * t + t) by (rewrite (S_INR (S n)); ring).
  replace (INR n * t) with (INR (S n) * t - t) by (rewrite (S_INR n); ring). rewrite cos_plus, cos_minus. ring.
Qed.
Lemma T_cos n t : T n (cos t) = cos (INR n * t).
Proof. unfold T, chebyshev. rewrite T_cos_pair. reflexivity. Qed.

Definition wgt (n : nat) : R := if (n =? 0)%nat then 1 else 2.
(** The kernel in the variable t, with x = cos t *)
Definition ker (N : nat) (g : nat -> R) (t : R) : R := rsum N (fun n => wgt n * g n * cos (INR n * t)).

(** Double sums, by diagonals. *)
Lemma diagonals (f : nat -> nat -> R) N : (forall i j, f i j = f j i) ->
  rsum N (fun i => rsum N (f i)) = rsum N (fun n => wgt n * rsum (N - n) (fun i => f i (i + n)%nat)).
Proof.
  intros Sy. induction N as [|N IH]; [reflexivity|].
  transitivity (rsum N (fun i => rsum N (f i)) + 2 * rsum N (fun i => f i N) + f N N).
  { cbn. rewrite rsum_add. rewrite (rsum_ext N (f N) (fun i => f i N)) by auto. ring. }
  rewrite IH. symmetry.
  transitivity (rsum (S N) (fun n => wgt n * rsum (N - n) (fun i => f i (i + n)%nat)) + rsum (S N) (fun n => wgt n * f (N - n)%nat N)).
  { rewrite <- rsum_add. apply rsum_ext. intros n Hn. replace (S N - n)%nat with (S (N - n)) by lia. cbn. replace (N - n + n)%nat with N by lia. ring. }
  assert (Rev : forall M h, rsum M h = rsum M (fun i => h (M - 1 - i)%nat)).
  { induction M as [|M IHM]; intros h; [reflexivity|]. rewrite rsum_shift. rewrite (IHM (fun i => h (S i))). cbn [rsum]. replace (S M - 1 - M)%nat with 0%nat by lia.
    rewrite (rsum_ext M (fun i => h (S M - 1 - i)%nat) (fun i => h (S (M - 1 - i)))); [ring|]. intros i Hi. f_equal. lia. }
  rewrite (rsum_shift N (fun n => wgt n * f (N - n)%nat N)). replace (N - 0)%nat with N by lia. unfold wgt at 2. cbn [Nat.eqb].
  rewrite (rsum_ext N (fun i => wgt (S i) * f (N - S i)%nat N) (fun i => 2 * f (N - 1 - i)%nat N)).
  2:{ intros i Hi. unfold wgt. cbn [Nat.eqb]. replace (N - S i)%nat with (N - 1 - i)%nat by lia. ring. }
  rewrite rsum_scal. rewrite <- (Rev N (fun i => f i N)). cbn [rsum]. replace (N - N)%nat with 0%nat by lia. cbn [rsum]. ring.
Qed.

(** The square of a trigonometric sum is a kernel whose coefficients are the autocorrelation. *)
Lemma square_kernel N a t : 0 <= ker N (fun n => rsum (N - n) (fun i => a i * a (i + n)%nat)) t.
Proof.
  assert (E : ker N (fun n => rsum (N - n) (fun i => a i * a (i + n)%nat)) t =
    rsum N (fun i => a i * cos (INR i * t)) * rsum N (fun i => a i * cos (INR i * t)) + rsum N (fun i => a i * sin (INR i * t)) * rsum N (fun i => a i * sin (INR i * t))).
  { transitivity (rsum N (fun i => rsum N (fun j => a i * a j * cos ((INR i - INR j) * t)))).
    - rewrite diagonals.
      2:{ intros i j. replace ((INR i - INR j) * t) with (- ((INR j - INR i) * t)) by ring. rewrite cos_neg. ring. }
      unfold ker. apply rsum_ext. intros n Hn. rewrite Rmult_assoc. f_equal. rewrite Rmult_comm, <- rsum_scal. apply rsum_ext. intros i Hi.
      replace ((INR i - INR (i + n)) * t) with (- (INR n * t)) by (rewrite plus_INR; ring). rewrite cos_neg. ring.
    - rewrite <- !rsum_scal, <- rsum_add. apply rsum_ext. intros i Hi.
      transitivity (a i * cos (INR i * t) * rsum N (fun j => a j * cos (INR j * t)) + a i * sin (INR i * t) * rsum N (fun j => a j * sin (INR j * t))); [|ring].
      rewrite <- !rsum_scal, <- rsum_add. apply rsum_ext. intros j Hj. replace ((INR i - INR j) * t) with (INR i * t - INR j * t) by ring. rewrite cos_minus. ring. }
  rewrite E. nra.
Qed.

(** Jackson: the autocorrelation of sin((i+1) pi/(N+1)). *)
Lemma jackson_corr N n : (0 < N)%nat -> (n <= N)%nat ->
  let q := PI / INR (N + 1) in
  rsum (N - n) (fun i => sin (q * INR (i + 1)) * sin (q * INR (i + n + 1))) = INR (N + 1) / 2 * jackson N n.
Proof.
  intros HN Hn q. assert (P1 : 1 < INR (N + 1)). { rewrite plus_INR. cbn [INR]. assert (1 <= INR N) by (apply (le_INR 1); lia). lra. }
  pose proof PI_RGT_0 as Pi. assert (Eq : q * INR (N + 1) = PI) by (unfold q; field; lra).
  assert (Q : 0 < q < PI). { split; [unfold q; apply Rdiv_lt_0_compat; lra|]. apply Rmult_lt_reg_r with (INR (N + 1)); [lra|]. rewrite Eq. nra. }
  assert (Sq : 0 < sin q) by (apply sin_gt_0; lra).
  assert (Id : forall m, sin q * (2 * rsum m (fun i => sin (q * INR (i + 1)) * sin (q * INR (i + n + 1)))) =
    sin q * (INR m * cos (q * INR n)) - (sin (q * (2 * INR m + INR n + 1)) - sin (q * (INR n + 1))) / 2).
  { induction m as [|m IHm].
    - cbn [rsum INR]. replace (q * (2 * 0 + INR n + 1)) with (q * (INR n + 1)) by ring. field.
    - cbn [rsum]. rewrite Rmult_plus_distr_l, Rmult_plus_distr_l, IHm. rewrite S_INR.
      assert (Tr : sin q * (2 * (sin (q * INR (m + 1)) * sin (q * INR (m + n + 1)))) = sin q * cos (q * INR n) - (sin (q * (2 * (INR m + 1) + INR n + 1)) - sin (q * (2 * INR m + INR n + 1))) / 2).
      { replace (q * (2 * (INR m + 1) + INR n + 1)) with ((q * INR (m + 1) + q * INR (m + n + 1)) + q) by (rewrite !plus_INR; cbn [INR]; ring).
        replace (q * (2 * INR m + INR n + 1)) with ((q * INR (m + 1) + q * INR (m + n + 1)) - q) by (rewrite !plus_INR; cbn [INR]; ring).
        replace (q * INR n) with (q * INR (m + n + 1) - q * INR (m + 1)) by (rewrite !plus_INR; cbn [INR]; ring).
        generalize (q * INR (m + 1)) (q * INR (m + n + 1)). intros u v. rewrite (sin_plus (u + v) q), (sin_minus (u + v) q), (cos_minus v u), (cos_plus u v), (sin_plus u v). field. }
      rewrite Tr. field. }
  apply Rmult_eq_reg_l with (sin q); [|lra]. apply Rmult_eq_reg_l with 2; [|lra].
  transitivity (sin q * (2 * rsum (N - n) (fun i => sin (q * INR (i + 1)) * sin (q * INR (i + n + 1))))); [ring|]. rewrite Id.
  assert (E2 : sin (q * (2 * INR (N - n) + INR n + 1)) = - sin (q * (INR n + 1))).
  { rewrite minus_INR by auto. replace (q * (2 * (INR N - INR n) + INR n + 1)) with (- (q * (INR n + 1)) + 2 * PI).
    - rewrite sin_plus, sin_2PI, cos_2PI, sin_neg. ring.
    - rewrite <- Eq, plus_INR. cbn [INR]. ring. }
  rewrite E2. replace (q * (INR n + 1)) with (q * INR n + q) by ring. rewrite sin_plus.
  unfold jackson. fold q. replace (INR (N + 1 - n)) with (INR (N - n) + 1) by (rewrite <- S_INR; f_equal; lia). field. split; lra.
Qed.
Lemma jackson_positive N t : (0 < N)%nat -> 0 <= ker N (jackson N) t.
Proof.
  intros HN. assert (P1 : 0 < INR (N + 1)) by (apply (lt_INR 0); lia).
  pose proof (square_kernel N (fun i => sin (PI / INR (N + 1) * INR (i + 1))) t) as S.
  assert (E : ker N (fun n => rsum (N - n) (fun i => sin (PI / INR (N + 1) * INR (i + 1)) * sin (PI / INR (N + 1) * INR (i + n + 1)))) t = INR (N + 1) / 2 * ker N (jackson N) t).
  { unfold ker. rewrite <- rsum_scal. apply rsum_ext. intros n Hn. rewrite jackson_corr by lia. ring. }
  cbv beta in S. rewrite E in S. apply Rmult_le_reg_l with (INR (N + 1) / 2); [lra|]. lra.
Qed.

(** A convex sequence that ends in zero gives a positive kernel. *)
Lemma fejer_positive m t : 0 <= ker m (fun n => INR (m - n)) t.
Proof.
  assert (O : forall k, rsum k (fun _ => 1 * 1) = INR k). { induction k as [|k IH]; [reflexivity|]. cbn [rsum]. rewrite IH, S_INR. ring. }
  pose proof (square_kernel m (fun _ => 1) t) as S. unfold ker in *. rewrite (rsum_ext m (fun n => wgt n * rsum (m - n) (fun _ => 1 * 1) * cos (INR n * t)) (fun n => wgt n * INR (m - n) * cos (INR n * t))) in S; [exact S|].
  intros n Hn. rewrite O. reflexivity.
Qed.
Section Convex.
  Variable g : nat -> R.
  Definition d2 (m : nat) : R := g (m - 1)%nat - 2 * g m + g (m + 1)%nat.
  Lemma d2_sum n M : (n <= M)%nat -> rsum M (fun i => d2 (i + 1) * INR (i + 1 - n)) = g n - INR (M + 1 - n) * g M + INR (M - n) * g (M + 1)%nat.
  Proof.
    intros H. induction M as [|M IH].
    - replace n with 0%nat by lia. cbn [rsum Nat.sub Nat.add INR]. ring.
    - destruct (Nat.eq_dec n (S M)) as [->|].
      + rewrite rsum_zero.
        * replace (S M + 1 - S M)%nat with 1%nat by lia. rewrite Nat.sub_diag. cbn [INR]. ring.
        * intros i Hi. replace (i + 1 - S M)%nat with 0%nat by lia. cbn [INR]. ring.
      + cbn [rsum]. rewrite IH by lia. unfold d2. replace (M + 1 - 1)%nat with M by lia. replace (S M + 1 - n)%nat with (S (M + 1 - n)) by lia. replace (S M - n)%nat with (M + 1 - n)%nat by lia.
        replace (M + 1 - n)%nat with (S (M - n)) by lia. replace (S M) with (M + 1)%nat by lia. rewrite !S_INR. ring.
  Qed.
  Lemma convex_positive N t : g N = 0 -> g (N + 1)%nat = 0 -> (forall m, (1 <= m <= N)%nat -> 0 <= d2 m) -> 0 <= ker N g t.
  Proof.
    intros G0 G1 C.
    assert (E : ker N g t = rsum N (fun i => d2 (i + 1) * ker (i + 1) (fun n => INR (i + 1 - n)) t)).
    { transitivity (rsum N (fun i => rsum N (fun n => wgt n * cos (INR n * t) * (d2 (i + 1) * INR (i + 1 - n))))).
      - rewrite rsum_exchange. unfold ker. apply rsum_ext. intros n Hn. rewrite rsum_scal, d2_sum by lia. rewrite G0, G1. ring.
      - apply rsum_ext. intros i Hi. unfold ker. rewrite <- rsum_scal. rewrite (rsum_extend (i + 1) N) by (try lia; intros n Hn; replace (i + 1 - n)%nat with 0%nat by lia; cbn [INR]; ring).
        apply rsum_ext. intros n Hn. ring. }
    rewrite E. apply rsum_nonneg. intros i Hi. apply Rmult_le_pos; [apply C; lia|apply fejer_positive].
  Qed.
End Convex.

Lemma ker_ext N g g' t : (forall n, (n < N)%nat -> g n = g' n) -> ker N g t = ker N g' t.
Proof. intros H. apply rsum_ext. intros n Hn. rewrite H by auto. reflexivity. Qed.
Lemma sinh_opp x : sinh (- x) = - sinh x.
Proof. unfold sinh. rewrite Ropp_involutive. field. Qed.
Lemma sinh_pos x : 0 <= x -> 0 <= sinh x.
Proof. intros H. destruct (Req_EM_T x 0) as [->|]; [rewrite sinh_0; lra|]. rewrite <- sinh_0. left. apply sinh_lt. lra. Qed.
Lemma cosh_ge1 x : 1 <= cosh x.
Proof.
  unfold cosh. assert (E : exp x * exp (- x) = 1) by (rewrite <- exp_plus, Rplus_opp_r; apply exp_0).
  pose proof (exp_pos x) as P. pose proof (exp_pos (- x)) as Q.
  revert E P Q. generalize (exp x) (exp (- x)). intros a b E P Q. assert (0 <= (a - b) * (a - b)) by apply Rle_0_sqr. assert (2 <= a + b) by nra. lra.
Qed.
Lemma sinh_sum u h : sinh (u + h) + sinh (u - h) = 2 * sinh u * cosh h.
Proof.
  unfold sinh, cosh. replace (- (u + h)) with (- u + - h) by ring. replace (- (u - h)) with (- u + h) by ring. replace (u - h) with (u + - h) by ring. rewrite !exp_plus. field.
Qed.
Lemma lorentz_positive lambda N t : (0 < N)%nat -> lambda <> 0 -> 0 <= ker N (lorentz lambda N) t.
Proof.
  intros HN Hl. assert (PN : 0 < INR N) by (apply (lt_INR 0); lia).
  assert (Pos : forall l, 0 < l -> 0 <= ker N (lorentz l N) t).
  { intros l Pl. set (g := fun n => if (n <? N)%nat then lorentz l N n else 0).
    assert (E : ker N (lorentz l N) t = ker N g t). { apply ker_ext. intros n Hn. unfold g. destruct (Nat.ltb_spec n N); [reflexivity|lia]. } rewrite E.
    assert (SL : 0 < sinh l) by (rewrite <- sinh_0; apply sinh_lt; auto).
    assert (GN : forall n, (n <= N)%nat -> g n = lorentz l N n).
    { intros n Hn. unfold g. destruct (Nat.ltb_spec n N); [reflexivity|]. assert (n = N) by lia. subst n. unfold lorentz. replace (l * (1 - INR N / INR N)) with 0 by (field; lra). rewrite sinh_0. field. lra. }
    apply convex_positive.
    - unfold g. destruct (Nat.ltb_spec N N); [lia|reflexivity].
    - unfold g. destruct (Nat.ltb_spec (N + 1) N); [lia|reflexivity].
    - intros m Hm. unfold d2. destruct (Nat.eq_dec m N) as [->|].
      + replace (g N) with 0 by (unfold g; destruct (Nat.ltb_spec N N); [lia|reflexivity]).
        replace (g (N + 1)%nat) with 0 by (unfold g; destruct (Nat.ltb_spec (N + 1) N); [lia|reflexivity]). rewrite GN by lia. unfold lorentz.
        assert (0 <= sinh (l * (1 - INR (N - 1) / INR N))); [|apply Rmult_le_pos with (r2 := / sinh l) in H; [unfold Rdiv; lra|left; apply Rinv_0_lt_compat; auto]].
        apply sinh_pos. apply Rmult_le_pos; [lra|]. rewrite minus_INR by lia. cbn [INR]. replace (1 - (INR N - 1) / INR N) with (/ INR N) by (field; lra). left. apply Rinv_0_lt_compat. auto.
      + rewrite !GN by lia. unfold lorentz. set (u := l * (1 - INR m / INR N)). set (h := l / INR N).
        replace (l * (1 - INR (m - 1) / INR N)) with (u + h) by (unfold u, h; rewrite minus_INR by lia; cbn [INR]; field; lra).
        replace (l * (1 - INR (m + 1) / INR N)) with (u - h) by (unfold u, h; rewrite plus_INR; cbn [INR]; field; lra).
        replace (sinh (u + h) / sinh l - 2 * (sinh u / sinh l) + sinh (u - h) / sinh l) with (2 * sinh u * (cosh h - 1) / sinh l) by (replace (2 * sinh u * (cosh h - 1)) with (sinh (u + h) + sinh (u - h) - 2 * sinh u) by (rewrite sinh_sum; ring); field; lra).
        apply Rmult_le_pos; [|left; apply Rinv_0_lt_compat; auto]. apply Rmult_le_pos; [|pose proof (cosh_ge1 h); lra]. apply Rmult_le_pos; [lra|]. apply sinh_pos. unfold u.
        apply Rmult_le_pos; [lra|]. assert (INR m <= INR N) by (apply le_INR; lia). assert (INR m / INR N <= 1); [|lra]. apply Rmult_le_reg_r with (INR N); [auto|]. unfold Rdiv. rewrite Rmult_assoc, Rinv_l by lra. lra. }
  destruct (Rlt_dec 0 lambda) as [|Hn]; [auto|]. assert (E : ker N (lorentz lambda N) t = ker N (lorentz (- lambda) N) t); [|rewrite E; apply Pos; lra].
  apply ker_ext. intros n Hn'. unfold lorentz. replace (- lambda * (1 - INR n / INR N)) with (- (lambda * (1 - INR n / INR N))) by ring. rewrite !sinh_opp.
  field. assert (sinh lambda <> 0); [|lra]. intros E0. assert (sinh lambda < sinh 0) by (apply sinh_lt; lra). rewrite sinh_0 in H. lra.
Qed.

(** The series of a positive measure. *)
Lemma series_positive N g mu K w p x : (forall t, 0 <= ker N g t) -> positive_moments K w p mu -> -1 <= x <= 1 -> 0 <= series N g mu x.
Proof.
  intros Hk [Hw Hmu] Hx. unfold series.
  apply Rle_trans with (rsum K (fun k => w k * ((ker N g (acos x + acos (p k)) + ker N g (acos x - acos (p k))) / 2))).
  { apply rsum_nonneg. intros k Hk0. destruct (Hw k Hk0). apply Rmult_le_pos; auto. pose proof (Hk (acos x + acos (p k))). pose proof (Hk (acos x - acos (p k))). lra. }
  right. transitivity (rsum K (fun k => rsum N (fun n => wgt n * g n * (w k * T n (p k)) * T n x))).
  - apply rsum_ext. intros k Hk0. destruct (Hw k Hk0) as [_ Hp]. unfold ker. rewrite <- rsum_add. unfold Rdiv. rewrite (Rmult_comm _ (/ 2)), <- !rsum_scal. apply rsum_ext. intros n Hn.
    assert (Ex : T n x = cos (INR n * acos x)) by (rewrite <- T_cos, cos_acos by auto; reflexivity).
    assert (Ep : T n (p k) = cos (INR n * acos (p k))) by (rewrite <- T_cos, cos_acos by auto; reflexivity).
    rewrite Ex, Ep, (Rmult_plus_distr_l (INR n)), (Rmult_minus_distr_l (INR n)), cos_plus, cos_minus. field.
  - rewrite rsum_exchange. apply rsum_ext. intros n Hn. rewrite Hmu.
    transitivity ((if (n =? 0)%nat then 1 else 2) * g n * T n x * rsum K (fun k => w k * T n (p k))); [|ring].
    rewrite <- rsum_scal. apply rsum_ext. intros k Hk0. unfold wgt. ring.
Qed.

(** The program. *)
Definition kernel_value (kp : kernelparams) (N n : nat) : R :=
  match kp_type kp with JACKSON => jackson N n | LORENTZ => lorentz (kp_lambda kp) N n | DIRICHLET => dirichlet n end.

Lemma fill_ok N (v : list R) (g : nat -> R) (f : nat -> list R -> res (list R)) : length v = N ->
  (forall i u, (i < N)%nat -> f i u = vset u i (g i)) -> forR 0 N f v = Ok (map g (seq 0 N)).
Proof.
  intros L Hf. unfold forR. rewrite Nat.sub_0_r. rewrite (@forM_fill _ g f v N); [|lia|intros; apply Hf; auto].
  rewrite skipn_all2, app_nil_r by lia. reflexivity.
Qed.
Lemma nth_map_seq (g : nat -> R) N i d : (i < N)%nat -> nth i (map g (seq 0 N)) d = g i.
Proof. intros H. rewrite (nth_indep _ d (g 0%nat)) by (rewrite map_length, seq_length; lia). rewrite map_nth, seq_nth by lia. reflexivity. Qed.

Lemma initKernel_ok kp N : (kp_type kp = LORENTZ -> kp_lambda kp <> 0) -> initKernel (repeat 1 N) kp = Ok (map (kernel_value kp N) (seq 0 N)).
Proof.
  intros Hl. unfold initKernel, kernel_value. destruct (kp_type kp).
  - unfold initKernelJackson. rewrite repeat_length. apply fill_ok; [apply repeat_length|]. intros i u Hi. f_equal. unfold jackson. cbv zeta.
    rewrite minus_INR by lia. replace (PI * INR i / INR (N + 1)) with (PI / INR (N + 1) * INR i) by (unfold Rdiv; ring). reflexivity.
  - unfold initKernelLorentz. rewrite repeat_length. destruct (Req_EM_T (kp_lambda kp) 0) as [E|_]; [elim (Hl eq_refl E)|].
    apply fill_ok; [apply repeat_length|]. intros i u Hi. reflexivity.
  - f_equal. unfold dirichlet. clear. induction N as [|N IH]; [reflexivity|]. cbn [repeat seq map]. rewrite IH. f_equal. rewrite <- seq_shift, map_map. reflexivity.
Qed.

Section Prog.
  Variables (cs : chser) (kp : kernelparams) (N : nat).
  Notation a := (t_a (cs_moments cs)).
  Notation b := (t_b (cs_moments cs)).
  Notation mu := (stored a b).
  Notation g := (kernel_value kp N).
  Hypothesis La : (N <= length a)%nat.
  Hypothesis Lb : (N <= length b)%nat.

  Lemma gnmn_ok : computeGnMuN (cs_moments cs) (repeat 0 N) (map g (seq 0 N)) = Ok (map (fun n => mu n * g n) (seq 0 N)).
  Proof.
    unfold computeGnMuN. rewrite repeat_length. apply fill_ok; [apply repeat_length|]. intros i u Hi.
    rewrite (@vget_ok _ (map g (seq 0 N)) i 0) by (rewrite map_length, seq_length; auto). rewrite nth_map_seq by auto.
    assert (D : (Nat.div2 i <= i)%nat) by (destruct i; [cbn; lia|]; pose proof (Nat.lt_div2 (S i)); lia). unfold stored. rewrite <- !Nat.div2_div.
    destruct (Nat.odd i) eqn:O.
    - assert (E : Nat.div2 (i - 1) = Nat.div2 i). { apply Nat.odd_spec in O. destruct O as [k ->]. replace (2 * k + 1 - 1)%nat with (2 * k)%nat by lia. replace (2 * k + 1)%nat with (S (2 * k)) by lia. rewrite Nat.div2_double, Nat.div2_succ_double. reflexivity. }
      rewrite E. rewrite (@vget_ok _ b _ 0) by lia. reflexivity.
    - rewrite (@vget_ok _ a _ 0) by lia. reflexivity.
  Qed.

  Lemma calcF_ok x : (0 < N)%nat -> calcF x (map (fun n => mu n * g n) (seq 0 N)) = Ok (series N g mu x).
  Proof.
    intros HN. unfold calcF. rewrite (@vget_ok _ _ 0%nat 0) by (rewrite map_length, seq_length; auto). rewrite nth_map_seq by auto. cbn [bind].
    rewrite map_length, seq_length.
    destruct (@forR_inv R (fun i s => 2 * s = rsum i (fun n => (if (n =? 0)%nat then 1 else 2) * g n * mu n * T n x)) 1 N
      (fun i sum => do y <- vget (map (fun n => mu n * g n) (seq 0 N)) i ;; do t <- cheb Rring (i + 1) (Z.of_nat i) x ;; Ok (sum + y * t)) (1 / 2 * (mu 0%nat * g 0%nat))) as (s & E & S); [lia| | |].
    - cbn [rsum Nat.eqb]. replace (T 0 x) with 1 by reflexivity. field.
    - intros j t Hj I. rewrite (@vget_ok _ _ j 0) by (rewrite map_length, seq_length; lia). rewrite nth_map_seq by lia. cbn [bind]. rewrite cheb_ok by lia. cbn [bind].
      eexists. split; [reflexivity|]. cbn [rsum]. rewrite <- I. destruct (Nat.eqb_spec j 0); [lia|]. unfold T. ring.
    - rewrite E. cbn [bind]. rewrite S. reflexivity.
  Qed.
  Lemma calcF_short x : calcF x [] = UB. Proof. reflexivity. Qed.

  Variable pp : plotparams.
  Notation w1 := (pp_omega1 pp).
  Notation dw := (pp_deltaOmega pp).
  Definition xof (w : R) : R := (w + cs_Eg cs - cs_b cs) * cs_oneOverA cs.
  Notation D := (fun w => density N g mu (xof w)).

  Lemma value_ok x : (0 < N)%nat ->
    (let den := if Rlt_dec 1 x then 0 else if Rlt_dec x (-1) then 0 else sqrt (1 - x * x) in
     if Rlt_dec (1 / 1000000) (Rabs den) then do f <- calcF x (map (fun n => mu n * g n) (seq 0 N)) ;; Ok (f / den) else Ok 0) = Ok (density N g mu x).
  Proof.
    intros HN. cbv zeta. unfold density.
    assert (Out : (1 < x \/ x < -1) -> (if Rlt_dec (1 / 1000000000000) (1 - x * x) then series N g mu x / sqrt (1 - x * x) else 0) = 0).
    { intros Hx. destruct (Rlt_dec _ _); [nra|reflexivity]. }
    destruct (Rlt_dec 1 x); [rewrite Rabs_R0; destruct (Rlt_dec (1 / 1000000) 0); [lra|rewrite Out by auto; reflexivity]|].
    destruct (Rlt_dec x (-1)); [rewrite Rabs_R0; destruct (Rlt_dec (1 / 1000000) 0); [lra|rewrite Out by auto; reflexivity]|].
    assert (P : 0 <= 1 - x * x) by nra. pose proof (sqrt_pos (1 - x * x)) as SP. pose proof (sqrt_sqrt _ P) as SS. rewrite Rabs_right by lra.
    destruct (Rlt_dec (1 / 1000000) (sqrt (1 - x * x))) as [H|H]; destruct (Rlt_dec (1 / 1000000000000) (1 - x * x)) as [H'|H'].
    - rewrite calcF_ok by auto. reflexivity.
    - exfalso. apply H'. rewrite <- SS. nra.
    - exfalso. apply H. rewrite <- SS in H'. nra.
    - reflexivity.
  Qed.

  Lemma ch_loop_ok k : forall fuel c result, (0 < N)%nat -> (k < fuel)%nat -> (0 < k)%nat -> length result = (c + k)%nat ->
    0 < dw -> w1 + INR (c + k) * dw <= pp_omega2 pp ->
    ch_plot_loop fuel cs pp (map (fun n => mu n * g n) (seq 0 N)) (w1 + INR c * dw) c result =
    Ok (firstn c result ++ map (fun j => (w1 + INR j * dw, D (w1 + INR j * dw))) (seq c k)).
  Proof.
    induction k as [|k IH]; intros fuel c result HN Hf Hk Hl Hw Hn; [lia|]. destruct fuel as [|fuel]; [lia|]. cbn [ch_plot_loop].
    assert (Hc : INR c + 1 <= INR (c + S k)) by (rewrite <- S_INR; apply le_INR; lia).
    destruct (Rlt_dec (w1 + INR c * dw) (pp_omega2 pp)) as [Hlt|Hlt]; [|exfalso; nra].
    pose proof (value_ok (xof (w1 + INR c * dw)) HN) as VO. cbv zeta in VO |- *. unfold xof in VO. rewrite VO. clear VO. cbn [bind]. fold (xof (w1 + INR c * dw)).
    rewrite vset_ok by lia. cbn [bind]. rewrite upd_length.
    assert (E : upd result c (w1 + INR c * dw, D (w1 + INR c * dw)) = firstn c result ++ (w1 + INR c * dw, D (w1 + INR c * dw)) :: skipn (S c) result).
    { apply (@upd_split _ result c _ (0, 0)). lia. }
    destruct (Nat.leb_spec (length result) (c + 1)).
    - assert (k = 0%nat) by lia. subst k. rewrite E. rewrite (skipn_all2 (n := S c)) by lia. reflexivity.
    - replace (w1 + INR c * dw + dw) with (w1 + INR (c + 1) * dw) by (rewrite plus_INR; cbn; ring).
      rewrite IH; try lia; auto; [|rewrite upd_length; lia|replace (c + 1 + k)%nat with (c + S k)%nat by lia; auto].
      f_equal. replace (c + 1)%nat with (S c) by lia. rewrite E.
      replace (firstn (S c) (firstn c result ++ (w1 + INR c * dw, D (w1 + INR c * dw)) :: skipn (S c) result)) with (firstn c result ++ [(w1 + INR c * dw, D (w1 + INR c * dw))]).
      + rewrite <- app_assoc. reflexivity.
      + rewrite firstn_app, firstn_firstn, firstn_length. replace (Nat.min (S c) c) with c by lia. replace (S c - Nat.min c (length result))%nat with 1%nat by lia. reflexivity.
  Qed.
End Prog.
