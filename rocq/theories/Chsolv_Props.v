(** C86: the moments of the Chebyshev recurrence. *)
From Coq Require Import Reals Lra.
From Verif Require Import Prelude Ring Cplx Tri_Model Lanczos_Model Lanczos_Spec Lanczos_Proofs Chsolv_Model Chsolv_Spec Chsolv_Proofs Cheb_Spec.
Local Open Scope nat_scope.
Add Ring RCp : (c_ring Cring).

(** A user's loop: k steps from x = 0, y = init, collecting atmp and btmp. *)
Definition run rows mvp b s (init : vector) (k : nat) : res (vector * vector * list (R * R)) :=
  forM k 0 (fun j (st : vector * vector * list (R * R)) =>
    let '(x, y, l) := st in
    do (x, y, atmp, btmp) <- oneStepDec rows mvp b s x y j ;;
    Ok (x, y, l ++ [(atmp, btmp)])) (repeat c0 rows, init, []).

Lemma run_S rows mvp b s init k : run rows mvp b s init (S k) =
  do st <- run rows mvp b s init k ;;
  (let '(x, y, l) := st in do (x, y, atmp, btmp) <- oneStepDec rows mvp b s x y k ;; Ok (x, y, l ++ [(atmp, btmp)])).
Proof. unfold run. rewrite forM_snoc. apply f_equal. reflexivity. Qed.

Section Run.
  Variable n : nat.
  Variable H : nat -> nat -> Cring.
  Variable mvp : vector -> vector -> vector.
  Hypothesis Hm : multiplies n H mvp.
  Variable b s : R.
  Variable init : vector.
  Variable v : nat -> vector.
  Hypothesis V : chebyshev_vectors n H b s init v.

  Lemma run_ok k : exists x l, run n mvp b s init k = Ok (x, v k, l) /\ length l = k /\ x = (if k =? 0 then repeat c0 n else v (k - 1)) /\
    (forall j, j < k -> nth j l (0, 0)%R = (sum_re n (v j) (v j), sum_re n (v (j + 1)) (v j))).
  Proof.
    destruct V as (V0 & V1 & V2 & V3). induction k as [|k (x & l & E & L & X & Q)].
    - exists (repeat c0 n), []. unfold run. cbn. rewrite V0. repeat split; auto. intros; lia.
    - rewrite run_S, E. cbn [bind].
      assert (Lx : length x = n). { subst x. destruct (k =? 0); [apply repeat_length|apply V1]. }
      assert (Y : vec n (fun i => csub (cmul (RtoC (if k =? 0 then 1%R else 2%R)) (scaled n H b s (v k) i)) (nth i x c0)) = v (S k)).
      { apply vec_eq; [apply V1|]. intros i Hi. subst x. destruct k as [|k].
        - cbn [Nat.eqb]. rewrite nth_repeat. rewrite V2 by auto. change (RtoC 1) with (@c1 Cring). ring.
        - cbn [Nat.eqb]. replace (S k - 1) with k by lia. replace (S (S k)) with (k + 2) by lia. rewrite V3 by auto. replace (S k) with (k + 1) by lia.
          replace (RtoC 2) with (@cadd Cring c1 c1); [ring|]. cbn. unfold Cadd, RtoC. cbn [fst snd]. apply f_equal2; lra. }
      rewrite (step_ok n H b s mvp Hm) by auto. rewrite Y. cbn [bind]. eexists _, _. split; [reflexivity|].
      split; [rewrite app_length, L; cbn; lia|]. split; [cbn [Nat.eqb]; replace (S k - 1) with k by lia; reflexivity|].
      intros j Hj. destruct (Nat.eq_dec j k) as [->|].
      + rewrite app_nth2 by lia. rewrite L, Nat.sub_diag. cbn [nth]. replace (k + 1) with (S k) by lia. reflexivity.
      + rewrite app_nth1 by lia. apply Q. lia.
  Qed.
End Run.

(** Every Hermitian matrix and start vector has one sequence of Chebyshev vectors. k steps give the vector k. The numbers of
    step j are <v_j, v_j> and <v_j, v_(j+1)>; twice these minus the first two moments are the moments 2j and 2j+1. *)
Theorem C86_moments : forall n H mvp b s init, hermitian n H -> multiplies n H mvp -> length init = n ->
  exists v, chebyshev_vectors n H b s init v /\ forall k, exists x l,
    run n mvp b s init k = Ok (x, v k, l) /\ length l = k /\
    forall j, j < k -> let '(atmp, btmp) := nth j l (0, 0)%R in
      RtoC atmp = inner n (v j) (v j) /\ RtoC btmp = inner n (v j) (v (j + 1)) /\
      csub (RtoC (2 * atmp)) (moment n init v 0) = moment n init v (2 * j) /\
      csub (RtoC (2 * btmp)) (moment n init v 1) = moment n init v (2 * j + 1).
Proof.
  intros n H mvp b s init Hh Hm Hl. exists (fun k => fst (chv n H b s init k)). set (v := fun k => fst (chv n H b s init k)).
  assert (V : chebyshev_vectors n H b s init v) by (apply chv_ok; auto).
  split; [exact V|]. intros k. destruct (run_ok n H mvp Hm b s init v V k) as (x & l & E & L & _ & Q). exists x, l. split; [exact E|]. split; [exact L|].
  intros j Hj. rewrite Q by auto. assert (E1 : RtoC (sum_re n (v j) (v j)) = inner n (v j) (v j)) by (symmetry; apply inner_self).
  assert (E2 : RtoC (sum_re n (v (j + 1)) (v j)) = inner n (v j) (v (j + 1))).
  { rewrite sum_re_inner. symmetry. apply real_conj. apply (next_real n H Hh b s init v V). }
  assert (T : RtoC 2 = cadd c1 c1). { cbn. unfold RtoC, Cadd. cbn [fst snd]. apply f_equal2; lra. }
  repeat split; auto.
  - rewrite RtoC_mul, E1, T. apply (even_moments n H Hh b s init v V).
  - rewrite RtoC_mul, E2, T. apply (odd_moments n H Hh b s init v V).
Qed.
Print Assumptions C86_moments.

Theorem C86_unique : forall n H b s init v w, chebyshev_vectors n H b s init v -> chebyshev_vectors n H b s init w -> forall k, v k = w k.
Proof. intros n H b s init v w V W k. apply (ch_unique n H b s init v w V W k). Qed.
Print Assumptions C86_unique.

(** From an eigenvector of energy E the vectors are its multiples by the Chebyshev polynomials of s (E - b). *)
Theorem C86_eigenvector : forall n H b s init v E, chebyshev_vectors n H b s init v ->
  (forall i, i < n -> app_mat n H init i = cmul (RtoC E) (nth i init c0)) ->
  forall k i, i < n -> nth i (v k) c0 = cmul (RtoC (chebyshev Rring (s * (E - b))%R k)) (nth i init c0).
Proof.
  intros n H b s init v E (V0 & V1 & V2 & V3) HE.
  assert (SA : forall (u : vector) (c : Cring), (forall i, i < n -> nth i u c0 = cmul c (nth i init c0)) -> forall i, i < n -> scaled n H b s u i = cmul (cmul (RtoC (s * (E - b))) c) (nth i init c0)).
  { intros u c Hu i Hi. unfold scaled. replace (app_mat n H u i) with (cmul c (app_mat n H init i)).
    - rewrite HE, Hu by auto. rewrite RtoC_mul, RtoC_sub. ring.
    - unfold app_mat. rewrite <- (sumn_mul_l Cring). apply sumn_ext. intros k Hk. rewrite Hu by auto. ring. }
  set (x := (s * (E - b))%R) in *.
  assert (P : forall k, (forall i, i < n -> nth i (v k) c0 = cmul (RtoC (fst (chebyshev_pair Rring x k))) (nth i init c0)) /\
     (forall i, i < n -> nth i (v (k + 1)) c0 = cmul (RtoC (snd (chebyshev_pair Rring x k))) (nth i init c0))).
  { induction k as [|k [IH1 IH2]].
    - split; intros i Hi; cbn [Nat.add].
      + rewrite V0. change (RtoC (fst (chebyshev_pair Rring x 0))) with (@c1 Cring). ring.
      + rewrite V2 by auto. rewrite (SA (v 0) c1) by (auto; intros j Hj; rewrite V0; ring). cbn [chebyshev_pair snd]. ring.
    - cbn [chebyshev_pair]. destruct (chebyshev_pair Rring x k) as [p q]. cbn [fst snd] in *. replace (S k) with (k + 1) by lia. split; [auto|].
      intros i Hi. replace (k + 1 + 1) with (k + 2) by lia. rewrite V3, IH1 by auto. rewrite (SA (v (k + 1)) (RtoC q)) by auto.
      change (RtoC (csub (cmul (cmul (@cadd Rring c1 c1) x) q) p)) with (RtoC ((1 + 1) * x * q - p)).
      rewrite RtoC_sub, !RtoC_mul, RtoC_add. change (RtoC 1) with (@c1 Cring). ring. }
  intros k i Hi. apply P. auto.
Qed.
Print Assumptions C86_eigenvector.

(** But the decomposition that should collect the moments dereferences a null pointer on every solver object: the storage for
    the vectors, whose number of columns it asks for, is allocated nowhere before. *)
Theorem C86_decomposition_refuted : forall rows mvp b s steps init ab, ch_decomposition rows mvp b s steps None init ab = UB.
Proof. reflexivity. Qed.
Print Assumptions C86_decomposition_refuted.

(** And with storage its first number would be twice the moment 0. *)
Theorem C86_first_moment_refuted : forall n H mvp b s init V, multiplies n H mvp -> length init = n -> length V = 1 ->
  exists V' a b', ch_decomposition n mvp b s 1 (Some V) init (tri_new Rring) = Ok (V', @mktri Rring a b') /\
    RtoC (nth 0 a 0%R) = cmul (cadd c1 c1) (inner n init init).
Proof.
  intros n H mvp b s init V Hm Hl LV. unfold ch_decomposition. cbn [bind]. rewrite LV, Hl.
  cbn -[oneStepDec vec]. rewrite (step_ok n H b s mvp Hm) by (auto; apply vec_length). cbn [bind]. do 3 eexists. split; [reflexivity|].
  cbn [nth upd].
  rewrite inner_self. cbn. unfold RtoC, Cmul, Cadd. cbn [fst snd]. apply f_equal2; lra.
Qed.
Print Assumptions C86_first_moment_refuted.

Lemma resize_val_ok ab k : 0 < k -> exists t, tri_resize_val Rring ab k 0%R = Ok t /\ length (t_a t) = k /\ length (t_b t) = k /\
  (forall i, nth i (t_a t) 0%R = 0%R) /\ (forall i, nth i (t_b t) 0%R = 0%R).
Proof.
  intros Hk. unfold tri_resize_val, tri_resize. destruct (Nat.ltb_spec 0 k); [|lia]. cbn [bind].
  loopR (fun (i : nat) (t : tri Rring) => length (t_a t) = k /\ length (t_b t) = k /\ forall j, j < i -> nth j (t_a t) 0%R = 0%R /\ nth j (t_b t) 0%R = 0%R) as t E Q.
  - lia.
  - cbn [t_a t_b]. rewrite !vresize_length. repeat split; intros; lia.
  - intros i t Hi (A & B & C). rewrite !vset_ok by (cbn in *; lia). cbn [bind].
    eexists. split; [reflexivity|]. cbn [t_a t_b]. rewrite !upd_length. split; [auto|]. split; [auto|]. intros j Hj. split; (destruct (Nat.eq_dec j i) as [->|]; [apply nth_upd_eq; cbn in *; lia|]);
      rewrite nth_upd_neq by auto; apply C; lia.
  - destruct Q as (A & B & C). exists t. split; [exact E|]. split; [exact A|]. split; [exact B|].
    split; intros i; (destruct (Nat.lt_ge_cases i k); [apply C; auto|apply nth_overflow; cbn in *; lia]).
Qed.

(** With storage of as many columns as wanted, the decomposition keeps the Chebyshev vectors in them. Its first two numbers
    are twice the moments 0 and 1, and as these are what it subtracts later, each further number is the moment less the
    first of its kind. *)
Theorem C86_decomposition_partial : forall n H mvp b s steps init ab V v, hermitian n H -> multiplies n H mvp -> length init = n ->
  0 < length V <= 2 * steps -> chebyshev_vectors n H b s init v ->
  exists V' a b', ch_decomposition n mvp b s steps (Some V) init ab = Ok (V', @mktri Rring a b') /\
    V' = map v (seq 0 (length V)) /\
    RtoC (nth 0 a 0%R) = cmul (cadd c1 c1) (moment n init v 0) /\ RtoC (nth 0 b' 0%R) = cmul (cadd c1 c1) (moment n init v 1) /\
    forall j, 0 < j < length V -> RtoC (nth j a 0%R) = csub (moment n init v (2 * j)) (moment n init v 0) /\
      RtoC (nth j b' 0%R) = csub (moment n init v (2 * j + 1)) (moment n init v 1).
Proof.
  intros n H mvp b s steps init ab V v Hh Hm Hl LV Hv. pose proof Hv as (V0 & V1 & V2 & V3).
  assert (T : RtoC 2 = cadd c1 c1). { cbn. unfold RtoC, Cadd. cbn [fst snd]. apply f_equal2; lra. }
  assert (E1 : forall j, RtoC (sum_re n (v j) (v j)) = inner n (v j) (v j)) by (intros; symmetry; apply inner_self).
  assert (E2 : forall j, RtoC (sum_re n (v (j + 1)) (v j)) = inner n (v j) (v (j + 1))).
  { intros j. rewrite sum_re_inner. symmetry. apply real_conj. apply (next_real n H Hh b s init v Hv). }
  unfold ch_decomposition. cbn [bind]. set (cols := length V) in *. rewrite Hl.
  destruct (resize_val_ok ab (2 * steps)) as (t & -> & A & B & C & D); [lia|]. cbn [bind].
  set (P := fun (j : nat) (st : vector * vector * list vector * tri Rring) => let '(x, y, W, ab) := st in
    x = (if j =? 0 then vec n (fun _ => c0) else v (j - 1)) /\ y = v j /\ length W = cols /\ (forall i, i < j -> nth i W [] = v i) /\
    length (t_a ab) = 2 * steps /\ length (t_b ab) = 2 * steps /\
    nth 0 (t_a ab) 0%R = (if j =? 0 then 0%R else (2 * sum_re n (v 0%nat) (v 0%nat))%R) /\ nth 0 (t_b ab) 0%R = (if j =? 0 then 0%R else (2 * sum_re n (v 1%nat) (v 0%nat))%R) /\
    forall i, 0 < i < j -> nth i (t_a ab) 0%R = (2 * sum_re n (v i) (v i) - 2 * sum_re n (v 0%nat) (v 0%nat))%R /\
      nth i (t_b ab) 0%R = (2 * sum_re n (v (i + 1)%nat) (v i) - 2 * sum_re n (v 1%nat) (v 0%nat))%R).
  loopM P as st E Q.
  - unfold P. cbn [Nat.eqb]. rewrite repeat_length. do 3 (split; [auto|]). split; [intros; lia|]. do 4 (split; [auto|]). intros; lia.
  - intros j [[[x y] W] ab'] Hj (X & Y & LW & HW & LA & LB & A0 & B0 & HI). rewrite vset_ok by lia. cbn [bind].
    assert (Lx : length x = n). { subst x. destruct (j =? 0); [apply vec_length|apply V1]. }
    assert (Yn : vec n (fun i => csub (cmul (RtoC (if j =? 0 then 1%R else 2%R)) (scaled n H b s (v j) i)) (nth i x c0)) = v (S j)).
    { apply vec_eq; [apply V1|]. intros i Hi. subst x. destruct j as [|k].
      - cbn [Nat.eqb]. rewrite vec_nth by auto. rewrite V2 by auto. change (RtoC 1) with (@c1 Cring). ring.
      - cbn [Nat.eqb]. replace (S k - 1) with k by lia. replace (S (S k)) with (k + 2) by lia. rewrite V3 by auto. replace (S k) with (k + 1) by lia. rewrite T. ring. }
    subst y. rewrite (step_ok n H b s mvp Hm) by auto. rewrite Yn. cbn [bind].
    rewrite (@vget_ok _ (t_a ab') 0 0%R) by (cbn in *; lia). cbn [bind]. rewrite vset_ok by (cbn in *; lia). cbn [bind].
    rewrite (@vget_ok _ (t_b ab') 0 0%R) by (cbn in *; lia). cbn [bind]. rewrite vset_ok by (cbn in *; lia). cbn [bind].
    eexists. split; [reflexivity|]. unfold P. cbn [t_a t_b]. rewrite !upd_length.
    split; [cbn [Nat.eqb]; f_equal; lia|]. split; [reflexivity|]. split; [auto|].
    split. { intros i Hi. destruct (Nat.eq_dec i j) as [->|]; [apply nth_upd_eq; lia|]. rewrite nth_upd_neq by auto. apply HW. lia. }
    split; [auto|]. split; [auto|]. cbn [Nat.eqb]. destruct j as [|j].
    + cbn [Nat.eqb] in A0, B0. rewrite !nth_upd_eq by (cbn in *; lia). rewrite A0, B0. split; [apply Rminus_0_r|]. split; [apply Rminus_0_r|]. intros; lia.
    + cbn [Nat.eqb] in A0, B0. rewrite !nth_upd_neq by lia. split; [exact A0|]. split; [exact B0|]. intros i Hi. rewrite A0, B0.
      destruct (Nat.eq_dec i (S j)) as [->|]; [rewrite !nth_upd_eq by (cbn in *; lia); replace (S (S j)) with (S j + 1) by lia; auto|].
      rewrite !nth_upd_neq by auto. apply HI. lia.
  - rewrite E. destruct st as [[[x y] W] [a b']]. destruct Q as (_ & _ & LW & HW & _ & _ & A0 & B0 & HI). cbn [bind]. cbn [t_a t_b] in *.
    exists W, a, b'. split; [reflexivity|]. destruct cols as [|c] eqn:Ec; [lia|]. cbn [Nat.add Nat.eqb] in A0, B0, HW, HI.
    assert (M0 : moment n init v 0 = inner n (v 0) (v 0)) by (unfold moment; rewrite V0; reflexivity).
    assert (M1 : moment n init v 1 = inner n (v 0) (v (0 + 1))) by (unfold moment; rewrite V0; reflexivity).
    split. { apply (list_eq_nth _ _ []); [rewrite map_length, seq_length; auto|]. intros i Hi. assert (Hi' : i < S c) by (rewrite <- LW; exact Hi). rewrite HW by exact Hi'.
      rewrite (nth_indep _ [] (v 0)) by (rewrite map_length, seq_length; lia). rewrite map_nth, seq_nth by lia. reflexivity. }
    split; [rewrite A0, RtoC_mul, E1, T, M0; reflexivity|]. pose proof (E2 0) as E20. cbn [Nat.add] in E20, M1. split; [rewrite B0, RtoC_mul, E20, T, M1; reflexivity|].
    intros j Hj. destruct (HI j) as [-> ->]; [lia|]. rewrite !RtoC_sub, !RtoC_mul, !E1, (E2 j), E20, T.
    rewrite <- (even_moments n H Hh b s init v Hv j), <- (odd_moments n H Hh b s init v Hv j), M0, M1. split; ring.
Qed.
Print Assumptions C86_decomposition_partial.

(** The matrix given to the Lanczos solver that looks for the largest energy is the negated one. *)
Theorem C86_negated : forall n H mvp, multiplies n H mvp -> multiplies n (fun i j => copp (H i j)) (im_mvp n mvp).
Proof.
  intros n H mvp Hm x y Hx Hy. unfold im_mvp. destruct (Hm x (vec n (fun i => copp (at_ y i))) Hx (vec_length _ _)) as (L & E).
  split; [exact L|]. intros i Hi. rewrite E by auto. f_equal. unfold app_mat. apply sumn_ext. intros k Hk.
  rewrite vec_nth by auto. unfold at_. ring.
Qed.
Print Assumptions C86_negated.

(** Chebyshev polynomials stay between -1 and 1 where their argument is. *)
Lemma chebyshev_cos t k : chebyshev_pair Rring (cos t) k = (cos (INR k * t), cos (INR (S k) * t)).
Proof.
  induction k as [|k IH].
  - cbn [chebyshev_pair INR]. rewrite Rmult_0_l, Rmult_1_l, cos_0. reflexivity.
  - cbn [chebyshev_pair]. rewrite IH. f_equal.
    change (csub (cmul (cmul (@cadd Rring c1 c1) (cos t)) (cos (INR (S k) * t))) (cos (INR k * t)))
      with ((1 + 1) * cos t * cos (INR (S k) * t) - cos (INR k * t))%R.
    replace (INR (S (S k)) * t)%R with (INR (S k) * t + t)%R by (rewrite (S_INR (S k)); lra).
    replace (INR k * t)%R with (INR (S k) * t - t)%R by (rewrite (S_INR k); lra).
    rewrite cos_plus, cos_minus. lra.
Qed.
Lemma chebyshev_bound x k : (-1 <= x <= 1)%R -> (-1 <= chebyshev Rring x k <= 1)%R.
Proof.
  intros Hx. rewrite <- (cos_acos x Hx). unfold chebyshev. rewrite chebyshev_cos. cbn [fst]. apply COS_bound.
Qed.

(** If the smallest energy is not positive and the largest not negative, the scaling found from them takes every energy
    between them into the interval from -1 to 1, so no Chebyshev vector of an eigenvector is longer than it. *)
Theorem C86_bounds_partial : forall eMin eMax, (eMin <= 0 <= eMax)%R -> (/ 100 < eMax * 3 - eMin * 3)%R ->
  exists b s, computeAandB (- eMax) eMin = Ok (b, s) /\
    forall E, (eMin <= E <= eMax)%R -> (-1 <= s * (E - b) <= 1)%R /\
      forall k, (-1 <= chebyshev Rring (s * (E - b)) k <= 1)%R.
Proof.
  intros eMin eMax H0 H1. unfold computeAandB.
  destruct (Rlt_dec (/ 100) (- - eMax * 3 - eMin * 3)) as [_|N]; [|exfalso; apply N; rewrite Ropp_involutive; exact H1].
  eexists _, _. split; [reflexivity|]. intros E HE. rewrite !Ropp_involutive.
  assert (D : (0 < eMax * 3 - eMin * 3)%R) by lra.
  assert (B : (-1 <= 2 / (eMax * 3 - eMin * 3) * (E - (eMax * 3 + eMin * 3) / 2) <= 1)%R).
  { set (d := (eMax * 3 - eMin * 3)%R) in *.
    replace (2 / d * (E - (eMax * 3 + eMin * 3) / 2))%R with ((2 * E - (eMax * 3 + eMin * 3)) / d)%R by (field; lra).
    split.
    - apply (Rmult_le_reg_r d); [exact D|]. unfold Rdiv. rewrite Rmult_assoc, Rinv_l by lra. unfold d. lra.
    - apply (Rmult_le_reg_r d); [exact D|]. unfold Rdiv. rewrite Rmult_assoc, Rinv_l by lra. unfold d. lra. }
  split; [exact B|]. intros k. apply chebyshev_bound. exact B.
Qed.
Print Assumptions C86_bounds_partial.

(** Otherwise not: for energies from 5 to 6 the interval used is from 15 to 18, and the smallest energy is scaled to less
    than -7, whose second Chebyshev polynomial is more than 100. *)
Theorem C86_bounds_refuted : exists b s, computeAandB (- 6) 5 = Ok (b, s) /\
  (s * (5 - b) < -7)%R /\ (100 < chebyshev Rring (s * (5 - b)) 2)%R.
Proof.
  unfold computeAandB. destruct (Rlt_dec (/ 100) (- -6 * 3 - 5 * 3)) as [_|N]; [|exfalso; apply N; lra].
  eexists _, _. split; [reflexivity|].
  assert (E : (2 / (- -6 * 3 - 5 * 3) * (5 - (- -6 * 3 + 5 * 3) / 2) = -23 / 3)%R) by field.
  rewrite E. split; [lra|]. unfold chebyshev. cbn [chebyshev_pair fst].
  change (csub (cmul (cmul (@cadd Rring c1 c1) (-23 / 3)%R) (-23 / 3)%R) (@c1 Rring)) with ((1 + 1) * (-23 / 3) * (-23 / 3) - 1)%R. lra.
Qed.
Print Assumptions C86_bounds_refuted.

(** The two-site matrix with elements 0 1; 1 0, from the first unit vector, b = 0, s = 1. *)
Definition flipH (i j : nat) : Cring := if i =? j then c0 else c1.
Definition flip_mvp (x y : vector) : vector := vec 2 (fun i => cadd (nth i x c0) (app_mat 2 flipH y i)).
Example C86_nonvacuous : hermitian 2 flipH /\ multiplies 2 flipH flip_mvp /\
  forall v, chebyshev_vectors 2 flipH 0 1 [c1; c0] v -> v 1 = [c0; c1] /\ moment 2 [c1; c0] v 0 = c1 /\ moment 2 [c1; c0] v 1 = c0.
Proof.
  split; [|split].
  - intros i j Hi Hj. unfold flipH. rewrite (Nat.eqb_sym j i). destruct (i =? j); [rewrite cconj_0; reflexivity|symmetry; apply c_conj_1].
  - intros x y Hx Hy. unfold flip_mvp. split; [apply vec_length|]. intros i Hi. apply vec_nth. auto.
  - intros v (V0 & V1 & V2 & _).
    assert (E : v 1 = [c0; c1]).
    { apply (list_eq_nth _ _ c0); [rewrite V1; reflexivity|]. intros i. rewrite V1. intros Hi. rewrite V2, V0 by auto. unfold scaled, app_mat.
      rewrite !sumn_S. change (RtoC 1) with (@c1 Cring). change (RtoC 0) with (@c0 Cring). change (sumn 0 _) with (@c0 Cring).
      destruct i as [|[|i]]; [| |lia]; cbn [nth flipH Nat.eqb]; unfold flipH; cbn [Nat.eqb]; ring. }
    split; [exact E|]. unfold moment, inner. rewrite !sumn_S, V0, E. cbn [nth]. change (sumn 0 _) with (@c0 Cring). rewrite c_conj_1, cconj_0. split; ring.
Qed.
