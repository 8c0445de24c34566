(** Theorems about the Lanczos decomposition (C60). *)
From Coq Require Import Reals Lra.
From Verif Require Import Prelude Ring Cplx Tri_Model Lanczos_Model Lanczos_Spec Lanczos_Proofs Lanczos_Proofs2.
Local Open Scope nat_scope.
Add Ring RCr2 : (c_ring Cring).

(** Whatever the parameters: if the decomposition returns, then it returns
    between 2 and min(steps, rows) vectors that are orthonormal (up to the first
    zero off-diagonal element), and the Hermitian matrix in their basis is the
    tridiagonal matrix returned. *)
Theorem C60_lanczos :
  forall rows H mvp stedc tolerance minSteps excitedForStop isReortho steps init V ab,
  hermitian rows H -> multiplies rows H mvp ->
  decomposition rows mvp stedc tolerance minSteps excitedForStop isReortho steps init = Ok (V, ab) ->
  2 <= length V <= Nat.min rows steps /\
  length (t_a ab) = length V /\ length (t_b ab) = length V /\
  exists k, lanczos_ok rows H init V (t_a ab) (t_b ab) k.
Proof.
  intros rows H mvp stedc tol ms ex re steps init V ab Hh Hm E.
  destruct (decomp_ok rows H Hh mvp Hm _ _ _ _ _ _ _ _ _ E) as (R1 & R2 & R3 & R4 & R5 & _ & R6).
  repeat split; auto. lia.
Qed.

(** When it returns. *)
Theorem C60_returns :
  forall rows H mvp stedc tolerance minSteps excitedForStop steps init,
  hermitian rows H -> multiplies rows H mvp -> (forall i x y, stedc i x y <> None) ->
  length init = rows -> inner rows init init <> c0 ->
  2 <= rows -> 2 <= steps -> (rows <= 4 \/ minSteps < rows /\ minSteps < steps) ->
  exists V ab, decomposition rows mvp stedc tolerance minSteps excitedForStop false steps init = Ok (V, ab).
Proof.
  intros rows H mvp stedc tol ms ex steps init Hh Hm Hs Hl Hz H2 H3 H4.
  destruct (decomp_total rows H Hh mvp Hm stedc tol ms ex false steps init) as (V & ab & E & _); auto.
  - intros E. apply Hz. rewrite inner_self, E. reflexivity.
  - eauto.
Qed.

(** A start vector of the wrong size is rejected. *)
Theorem C60_size :
  forall rows mvp stedc tolerance minSteps excitedForStop isReortho steps init,
  decomposition rows mvp stedc tolerance minSteps excitedForStop isReortho steps init = Throw \/ length init = rows.
Proof.
  intros. unfold decomposition. destruct (Nat.eqb_spec (length init) rows); [right; auto|left; reflexivity].
Qed.

(** The claim that any number of steps and any matrix is allowed is false: with
    one step, or a 1 x 1 matrix, b(1) is written although it does not exist. *)
Theorem C60_one_step_refuted :
  forall rows mvp stedc tolerance minSteps excitedForStop isReortho steps init,
  length init = rows -> inner rows init init <> c0 -> rows < 2 \/ steps < 2 ->
  decomposition rows mvp stedc tolerance minSteps excitedForStop isReortho steps init = UB.
Proof.
  intros. apply decomp_short; auto.
  - intros E. apply H0. rewrite inner_self, E. reflexivity.
  - destruct (Nat.ltb_spec rows steps); lia.
Qed.

(** The claim that minSteps is only a lower bound on the steps is false: for a
    matrix larger than 4, if minSteps is not below the number of steps that can be
    done, a vector is stored behind the last column. *)
Theorem C60_min_steps_refuted :
  forall rows H mvp stedc tolerance minSteps excitedForStop isReortho steps init,
  hermitian rows H -> multiplies rows H mvp -> (forall i x y, stedc i x y <> None) ->
  length init = rows -> inner rows init init <> c0 -> 4 < rows -> 2 <= steps -> Nat.min rows steps <= minSteps ->
  decomposition rows mvp stedc tolerance minSteps excitedForStop isReortho steps init = UB.
Proof.
  intros rows H mvp stedc tol ms ex re steps init Hh Hm Hs Hl Hz H2 H3 H4. apply (decomp_over rows H Hh mvp Hm); auto.
  - intros E. apply Hz. rewrite inner_self, E. reflexivity.
  - lia.
Qed.

(** excitedVector adds the linear combination of the vectors. *)
Lemma excited_ok rows V s z : cols_ok rows V -> length V <= length s -> length z = rows ->
  exists z', excitedVector rows V s z = Ok z' /\ length z' = rows /\
    forall i, i < rows -> nth i z' c0 = cadd (nth i z c0) (sumn (length V) (fun j => cmul (nth j s c0) (nth i (nth j V []) c0))).
Proof.
  intros Hc Hs Hz. unfold excitedVector.
  destruct (@forM_inv _ (fun J (y : vector) => length y = rows /\ forall i, i < rows ->
    nth i y c0 = cadd (nth i z c0) (sumn J (fun j => cmul (nth j s c0) (nth i (nth j V []) c0)))) (length V) 0
    (fun j z => do ctmp <- vget s j ;; do c <- vget V j ;;
      forM rows 0 (fun i z => do x <- vget z i ;; do d <- vget c i ;; vset z i (cadd x (cmul ctmp d))) z) z) as (z' & E & L & Hn).
  - split; [auto|]. intros i Hi. unfold sumn. cbn [seq suml]. ring.
  - intros j y Hj [Ly Hy]. rewrite (@vget_ok _ s j c0) by lia. cbn [bind]. rewrite (@vget_ok _ V j []) by lia. cbn [bind].
    assert (Lc : length (nth j V []) = rows) by (apply Hc; lia).
    destruct (@forM_inv _ (fun I (u : vector) => length u = rows /\
      (forall i, i < I -> nth i u c0 = cadd (nth i y c0) (cmul (nth j s c0) (nth i (nth j V []) c0))) /\
      (forall i, I <= i -> nth i u c0 = nth i y c0)) rows 0
      (fun i z => do x <- vget z i ;; do d <- vget (nth j V []) i ;; vset z i (cadd x (cmul (nth j s c0) d))) y) as (u & Eu & Lu & Hu & _).
    + split; [auto|]. split; [intros; lia|auto].
    + intros i u Hi (Lu & Hu1 & Hu2). rewrite (@vget_ok _ u i c0) by lia. cbn [bind].
      rewrite (@vget_ok _ (nth j V []) i c0) by lia. cbn [bind]. rewrite vset_ok by lia. eexists. split; [reflexivity|].
      rewrite upd_length. split; [auto|]. split.
      * intros i' Hi'. destruct (Nat.eq_dec i' i) as [->|]; [rewrite nth_upd_eq by lia; rewrite Hu2 by lia; reflexivity|].
        rewrite nth_upd_neq by auto. apply Hu1. lia.
      * intros i' Hi'. rewrite nth_upd_neq by lia. apply Hu2. lia.
    + exists u. split; [exact Eu|]. split; [auto|]. intros i Hi. rewrite Hu by lia. rewrite Hy by auto. rewrite sumn_S. ring.
  - exists z'. auto.
Qed.

Section Ritz.
  Variables (n m : nat) (v : nat -> list Cring) (s z : list Cring).
  Hypothesis Hz : forall i, i < n -> nth i z c0 = sumn m (fun j => cmul (nth j s c0) (nth i (v j) c0)).
  Variable H : nat -> nat -> Cring.
  Lemma inner_comb u : inner n u z = sumn m (fun j => cmul (nth j s c0) (inner n u (v j))).
  Proof.
    unfold inner. transitivity (sumn n (fun i => sumn m (fun j => cmul (nth j s c0) (cmul (cconj (nth i u c0)) (nth i (v j) c0))))).
    { apply sumn_ext. intros i Hi. rewrite Hz by auto. rewrite <- sumn_mul_l. apply sumn_ext. intros j Hj. ring. }
    rewrite sumn_exchange. apply sumn_ext. intros j Hj. rewrite sumn_mul_l. reflexivity.
  Qed.
  Lemma app_comb i : app_mat n H z i = sumn m (fun j => cmul (nth j s c0) (app_mat n H (v j) i)).
  Proof.
    unfold app_mat. transitivity (sumn n (fun k => sumn m (fun j => cmul (nth j s c0) (cmul (H i k) (nth k (v j) c0))))).
    { apply sumn_ext. intros k Hk. rewrite Hz by auto. rewrite <- sumn_mul_l. apply sumn_ext. intros j Hj. ring. }
    rewrite sumn_exchange. apply sumn_ext. intros j Hj. rewrite sumn_mul_l. reflexivity.
  Qed.
  Lemma sandwich_comb u : sandwich n H u z = sumn m (fun j => cmul (nth j s c0) (sandwich n H u (v j))).
  Proof.
    unfold sandwich. transitivity (sumn n (fun i => sumn m (fun j => cmul (nth j s c0) (cmul (cconj (nth i u c0)) (app_mat n H (v j) i))))).
    { apply sumn_ext. intros i Hi. rewrite app_comb. rewrite <- sumn_mul_l. apply sumn_ext. intros j Hj. ring. }
    rewrite sumn_exchange. apply sumn_ext. intros j Hj. rewrite sumn_mul_l. reflexivity.
  Qed.
End Ritz.

(** The state returned by computeOneState: z is a combination of the Lanczos
    vectors; the expectation value of H in it is the energy returned; without a
    vanishing off-diagonal element, z has norm 1, the residual H z - E z is
    orthogonal to all Lanczos vectors, and the energy is not below any lower
    bound of the spectrum of H. *)
Theorem C60_state :
  forall rows H mvp stedc diagV tolerance minSteps isReortho steps init excited energy z,
  hermitian rows H -> multiplies rows H mvp -> diagonalizes diagV ->
  computeOneState rows mvp stedc diagV tolerance minSteps isReortho steps (repeat c0 rows) init excited = Ok (energy, z) ->
  length z = rows /\ sandwich rows H z z = RtoC energy /\
  exists V ab k, decomposition rows mvp stedc tolerance minSteps excited isReortho steps init = Ok (V, ab) /\
    lanczos_ok rows H init V (t_a ab) (t_b ab) k /\
    (k = length V ->
       inner rows z z = c1 /\
       (forall j, j < length V -> sandwich rows H (nth j V []) z = cmul (RtoC energy) (inner rows (nth j V []) z)) /\
       (forall low : R, (forall x, length x = rows -> (low * fst (inner rows x x) <= fst (sandwich rows H x x))%R) -> (low <= energy)%R)).
Proof.
  intros rows H mvp stedc diagV tol ms re steps init excited energy z Hh Hm Hd E.
  unfold computeOneState, one_state in E. apply bind_ok in E. destruct E as ([V ab] & Ed & E).
  destruct (decomp_ok rows H Hh mvp Hm _ _ _ _ _ _ _ _ _ Ed) as (R1 & R2 & R3 & R4 & R5 & Hc & k & Hk).
  change (car Rring) with R in *. destruct (diagV ab) as [[eigs ritz]|] eqn:Eg; [|discriminate].
  destruct (Hd _ _ _ Eg) as (Le & Lr & He & _).
  apply bind_ok in E. destruct E as (en & Een & E). apply bind_ok in E. destruct E as (s & Es & E).
  assert (Hx : excited < length (t_a ab)).
  { destruct (le_lt_dec (length (t_a ab)) excited); [|auto].
    unfold vget in Es. rewrite (proj2 (nth_error_None ritz excited)) in Es by (rewrite Lr; exact l). discriminate. }
  rewrite (@vget_ok _ _ excited 0%R) in Een by (rewrite Le; exact Hx). injection Een as <-.
  rewrite (@vget_ok _ _ excited []) in Es by (rewrite Lr; exact Hx). injection Es as <-.
  destruct (He _ Hx) as (Ls & Ht & Hn). set (s := nth excited ritz []) in *.
  destruct (excited_ok rows V s (repeat c0 rows)) as (z' & Ez & Lz & Hz); [auto|change (car Rring) with R in *; lia|apply repeat_length|].
  match type of E with bind ?x _ = _ => replace x with (Ok z') in E by (symmetry; exact Ez) end. cbn [bind] in E. destruct (Rlt_dec _ _); [discriminate|]. injection E as <- <-.
  set (m := length V) in *.
  assert (Hz' : forall i, i < rows -> nth i z' c0 = sumn m (fun j => cmul (nth j s c0) (nth i (nth j V []) c0))).
  { intros i Hi. rewrite Hz, nth_repeat_in by auto. ring. }
  split; [auto|].
  destruct Hk as (Hk1 & Hk2 & Hk3 & Hk4 & Hk5 & Hk6 & Hk7 & Hk8). fold m in Hk1, Hk4, Hk5, Hk6, Hk8.
  assert (Lm : length (t_a ab) = m) by exact R4.
  change (car Rring) with R in *. rewrite Lm in Ht, Hn.
  set (en := nth excited eigs 0%R) in *.
  assert (Sl : forall l, l < m -> sandwich rows H (nth l V []) z' = cmul (RtoC en) (nth l s c0)).
  { intros l Hl. rewrite (sandwich_comb rows m (fun j => nth j V []) s z' Hz' H). rewrite <- Ht by auto. apply sumn_ext. intros j Hj.
    rewrite Hk5 by auto. ring. }
  assert (Sz : sandwich rows H z' z' = RtoC en).
  { rewrite <- (sandwich_conj rows H Hh). rewrite (sandwich_comb rows m (fun j => nth j V []) s z' Hz' H).
    rewrite sumn_conj.
    transitivity (sumn m (fun j => cmul (RtoC en) (cmul (cconj (nth j s c0)) (nth j s c0)))).
    - apply sumn_ext. intros j Hj. rewrite c_conj_mul, (sandwich_conj rows H Hh), Sl by auto. ring.
    - rewrite sumn_mul_l. change (sumn m (fun j => cmul (cconj (nth j s c0)) (nth j s c0))) with (inner m s s). rewrite Hn. ring. }
  split; [exact Sz|]. exists V, ab, k. split; [auto|]. split.
  { unfold lanczos_ok. fold m. repeat split; auto; try apply Hk1; try apply Hk8; auto. }
  intros ->.
  assert (Il : forall l, l < m -> inner rows (nth l V []) z' = nth l s c0).
  { intros l Hl. rewrite (inner_comb rows m (fun j => nth j V []) s z' Hz').
    transitivity (sumn m (fun j => if l =? j then nth j s c0 else c0)).
    - apply sumn_ext. intros j Hj. rewrite Hk3 by auto. destruct (l =? j); ring.
    - apply (sumn_delta Cring m (fun j => nth j s c0) l Hl). }
  assert (Iz : inner rows z' z' = c1).
  { rewrite <- inner_conj, (inner_comb rows m (fun j => nth j V []) s z' Hz'), sumn_conj. rewrite <- Hn. unfold inner at 2.
    apply sumn_ext. intros j Hj. rewrite c_conj_mul, inner_conj, Il by auto. reflexivity. }
  split; [exact Iz|]. split.
  { intros j Hj. rewrite Sl, Il by auto. reflexivity. }
  intros low Hlow. specialize (Hlow z' Lz). rewrite Iz, Sz in Hlow. cbn in Hlow. lra.
Qed.

(** The claim that the ground state is computed to the tolerance asked for is
    false: computeOneState with excited = 0 watches no eigenvalue at all, and so
    it stops after minSteps steps whatever the matrix and the tolerance. *)
Theorem C60_tolerance_refuted :
  forall rows H mvp stedc tolerance minSteps steps init,
  hermitian rows H -> multiplies rows H mvp -> (forall i x y, stedc i x y <> None) ->
  length init = rows -> inner rows init init <> c0 -> (0 < tolerance)%R ->
  4 < rows -> 1 <= minSteps -> minSteps < rows -> minSteps < steps ->
  exists V ab, decomposition rows mvp stedc tolerance minSteps 0 false steps init = Ok (V, ab) /\
    length V = minSteps + 1.
Proof.
  intros rows H mvp stedc tol ms steps init Hh Hm Hs Hl Hz Ht H4 H1 Hr H5.
  destruct (decomp_total rows H Hh mvp Hm stedc tol ms 0 false steps init) as (V & ab & E & HL); auto; try lia.
  - intros E. apply Hz. rewrite inner_self, E. reflexivity.
  - exists V, ab. split; [auto|]. rewrite HL; auto. lia.
Qed.

(** The claim that a start vector with a component along the ground state is
    good enough is false: with an eigenvector of a positive eigenvalue as start
    vector - the ground state itself, if H is positive definite - the
    tridiagonal matrix has the eigenvalue 0, which H need not have ... *)
Theorem C60_invariant_refuted :
  forall rows H mvp stedc tolerance minSteps excitedForStop isReortho steps init lambda V ab,
  hermitian rows H -> multiplies rows H mvp ->
  (forall i, i < rows -> app_mat rows H init i = cmul (RtoC lambda) (nth i init c0)) ->
  decomposition rows mvp stedc tolerance minSteps excitedForStop isReortho steps init = Ok (V, ab) ->
  nth 0 (t_a ab) 0%R = lambda /\
  (forall i j, i < length V -> j < length V -> (i, j) <> (0, 0) -> tri_elem (t_a ab) (t_b ab) i j = 0%R) /\
  (forall j, 1 <= j < length V -> forall i, i < rows -> nth i (nth j V []) c0 = c0) /\
  exists s, tri_eigen (t_a ab) (t_b ab) 0 s.
Proof.
  intros rows H mvp stedc tol ms ex re steps init lam V ab Hh Hm Hev E.
  destruct (decomp_ok rows H Hh mvp Hm _ _ _ _ _ _ _ _ _ E) as (R1 & R2 & R3 & R4 & R5 & Hc & k & Hk).
  destruct Hk as (Hk1 & (r & Hr & Hi) & Hk3 & Hk4 & Hk5 & Hk6 & Hk7 & Hk8).
  set (m := length V) in *. fold m in Hk4, Hk5, Hk6, Hk8. set (v := fun j => nth j V []).
  assert (Hv0 : forall i, i < rows -> nth i (v 0) c0 = cmul (RtoC (1 / r)) (nth i init c0)).
  { intros i Hir. rewrite Hi by auto. rewrite (cmul_assoc Cring), <- RtoC_mul. 
    replace (1 / r * r)%R with 1%R by (field; lra). rewrite RtoC_1. rewrite cmul_1_l. reflexivity. }
  assert (Hev0 : forall i, i < rows -> app_mat rows H (v 0) i = cmul (RtoC lam) (nth i (v 0) c0)).
  { intros i Hir. rewrite Hv0 by auto.
    transitivity (cmul (RtoC (1 / r)) (app_mat rows H init i)); [|rewrite Hev by auto; ring].
    unfold app_mat. rewrite <- sumn_mul_l. apply sumn_ext. intros l Hl. rewrite Hv0 by auto. ring. }
  assert (S0 : forall u, sandwich rows H u (v 0) = cmul (RtoC lam) (inner rows u (v 0))).
  { intros u. unfold sandwich, inner. rewrite <- sumn_mul_l. apply sumn_ext. intros i Hir. rewrite Hev0 by auto. ring. }
  assert (Hk : k = 1).
  { destruct (Nat.eq_dec k 1); [auto|]. exfalso.
    assert (B : nth 1 (t_b ab) 0%R <> 0%R) by (apply Hk8; lia).
    apply B. apply RtoC_inj. transitivity (sandwich rows H (v 1) (v 0)).
    - unfold v. rewrite Hk5 by lia. reflexivity.
    - rewrite S0. unfold v. rewrite Hk3 by lia. cbn [Nat.eqb]. rewrite RtoC_0. ring. }
  subst k.
  assert (A0 : nth 0 (t_a ab) 0%R = lam).
  { apply RtoC_inj. transitivity (sandwich rows H (v 0) (v 0)).
    - unfold v. rewrite Hk5 by lia. reflexivity.
    - rewrite S0. unfold v. rewrite Hk3 by lia. cbn [Nat.eqb]. ring. }
  assert (T0 : forall i j, i < m -> j < m -> (i, j) <> (0, 0) -> tri_elem (t_a ab) (t_b ab) i j = 0%R).
  { intros i j Him Hjm Hij. apply RtoC_inj. rewrite <- Hk5 by auto.
    destruct (Nat.eq_dec j 0) as [->|].
    - rewrite <- (sandwich_conj rows H Hh). unfold sandwich. rewrite sumn_zero; [apply cconj_0|]. intros l Hl.
      rewrite app_mat_zero; [ring|]. apply Hk4. destruct (Nat.eq_dec i 0); [subst; congruence|split; [lia|exact Him]].
    - apply sumn_zero. intros l Hl. rewrite app_mat_zero; [ring|]. apply Hk4. split; [lia|exact Hjm]. }
  split; [auto|]. split; [auto|]. split; [intros j Hj; apply Hk4; exact Hj|].
  assert (Lm : length (t_a ab) = m) by exact R4. change (car Rring) with R in *.
  exists (vec m (fun i => if 1 =? i then c1 else c0)). unfold tri_eigen. rewrite Lm. split; [apply vec_length|]. split.
  - intros i Him. transitivity (sumn m (fun j => if 1 =? j then RtoC (tri_elem (t_a ab) (t_b ab) i j) else c0)).
    { apply sumn_ext. intros j Hj. rewrite vec_nth by auto. destruct (1 =? j); ring. }
    rewrite (sumn_delta Cring m (fun j => RtoC (tri_elem (t_a ab) (t_b ab) i j)) 1) by lia. rewrite T0 by (lia || congruence).
    rewrite RtoC_0. ring.
  - unfold inner. transitivity (sumn m (fun j => if 1 =? j then (@c1 Cring) else c0)).
    { apply sumn_ext. intros j Hj. rewrite vec_nth by auto. destruct (1 =? j); rewrite ?c_conj_1, ?cconj_0; ring. }
    apply (sumn_delta Cring m (fun j => c1) 1). lia.
Qed.

(** ... so that computeOneState, asked for the ground state, throws. *)
Theorem C60_ground_state_refuted :
  forall rows H mvp stedc diagV tolerance minSteps steps init lambda,
  hermitian rows H -> multiplies rows H mvp -> (forall i x y, stedc i x y <> None) -> diagonalizes diagV ->
  length init = rows -> inner rows init init <> c0 -> 2 <= rows -> 2 <= steps ->
  (rows <= 4 \/ minSteps < rows /\ minSteps < steps) -> (0 < lambda)%R ->
  (forall i, i < rows -> app_mat rows H init i = cmul (RtoC lambda) (nth i init c0)) ->
  computeOneState rows mvp stedc diagV tolerance minSteps false steps (repeat c0 rows) init 0 = Throw.
Proof.
  intros rows H mvp stedc diagV tol ms steps init lam Hh Hm Hs Hd Hl Hz H2 H3 H4 Hlam Hev.
  destruct (C60_returns rows H mvp stedc tol ms 0 steps init) as (V & ab & E); auto.
  destruct (C60_invariant_refuted _ _ _ _ _ _ _ _ _ _ _ _ _ Hh Hm Hev E) as (A0 & T0 & Vz & s0 & Hs0).
  destruct (decomp_ok rows H Hh mvp Hm _ _ _ _ _ _ _ _ _ E) as (R1 & R2 & R3 & R4 & R5 & Hc & _).
  unfold computeOneState, one_state. rewrite E. cbn [bind]. destruct (diagV ab) as [[eigs ritz]|] eqn:Eg; [|reflexivity].
  destruct (Hd _ _ _ Eg) as (Le & Lr & He & Hlow). specialize (Hlow _ _ Hs0).
  change (car Rring) with R in *.
  rewrite (@vget_ok _ eigs 0 0%R) by lia. cbn [bind]. rewrite (@vget_ok _ ritz 0 []) by lia. cbn [bind].
  destruct (He 0 ltac:(lia)) as (Ls & Ht & _). rewrite R4 in Ht, Ls. set (s := nth 0 ritz []) in *. set (m := length V) in *.
  assert (S0 : nth 0 s c0 = c0).
  { specialize (Ht 0 ltac:(lia)).
    assert (Eq : sumn m (fun j => cmul (RtoC (tri_elem (t_a ab) (t_b ab) 0 j)) (nth j s c0)) = cmul (RtoC lam) (nth 0 s c0)).
    { transitivity (sumn m (fun j => if 0 =? j then cmul (RtoC lam) (nth j s c0) else c0)).
      - apply sumn_ext. intros j Hj. destruct (Nat.eqb_spec 0 j) as [<-|].
        + unfold tri_elem. cbn [Nat.eqb]. rewrite A0. reflexivity.
        + rewrite T0 by (lia || congruence). rewrite RtoC_0. ring.
      - apply (sumn_delta Cring m (fun j => cmul (RtoC lam) (nth j s c0)) 0). lia. }
    rewrite Eq in Ht.
    assert (D : cmul (RtoC (lam - nth 0 eigs 0%R)) (nth 0 s c0) = c0).
    { rewrite RtoC_sub.
      transitivity (csub (cmul (RtoC lam) (nth 0 s c0)) (cmul (RtoC (nth 0 eigs 0%R)) (nth 0 s c0))); [ring|]. rewrite Ht. ring. }
    assert (Hne : (lam - nth 0 eigs 0 <> 0)%R) by lra.
    transitivity (cmul (RtoC (1 / (lam - nth 0 eigs 0%R))) (cmul (RtoC (lam - nth 0 eigs 0%R)) (nth 0 s c0))).
    - rewrite (cmul_assoc Cring), <- RtoC_mul. replace (1 / (lam - nth 0 eigs 0) * (lam - nth 0 eigs 0))%R with 1%R by (field; auto).
      rewrite RtoC_1. ring.
    - rewrite D. ring. }
  destruct (excited_ok rows V s (repeat c0 rows)) as (z' & Ez & Lz & Hz'); [auto|lia|apply repeat_length|].
  match goal with |- bind ?x _ = _ => replace x with (Ok z') by (symmetry; exact Ez) end. cbn [bind].
  assert (Zz : forall i, i < rows -> nth i z' c0 = c0).
  { intros i Hi. rewrite Hz', nth_repeat_in by auto. rewrite sumn_zero; [ring|]. intros j Hj.
    destruct (Nat.eq_dec j 0) as [->|]; [rewrite S0; ring|]. rewrite Vz by (auto; lia). ring. }
  rewrite (sum_re_of_zero rows z' Zz), sqrt_0. destruct (Rlt_dec _ _) as [|N]; [reflexivity|]. exfalso. apply N. lra.
Qed.

(** When it stops: with fewer vectors than the steps asked for only if from some number of vectors to the next the watched
    eigenvalues changed by less than the tolerance; and never later than that, if minSteps has passed. *)
Theorem C60_stops :
  forall rows mvp stedc tolerance minSteps excitedForStop isReortho steps init V ab,
  of_block stedc -> (0 < tolerance)%R ->
  decomposition rows mvp stedc tolerance minSteps excitedForStop isReortho steps init = Ok (V, ab) ->
  let k := length V in
  (k = Nat.min rows steps \/ exists s, 2 <= s <= k /\ settled stedc tolerance excitedForStop (t_a ab) (t_b ab) s) /\
  (forall k' s, 2 <= k' < k -> rows <= 4 \/ minSteps <= k' - 1 -> 2 <= s <= k' -> ~ settled stedc tolerance excitedForStop (t_a ab) (t_b ab) s).
Proof.
  intros rows mvp stedc tol ms ex re steps init V ab Hb Ht E. exact (decomp_stop rows mvp stedc Hb tol Ht ms ex re steps init V ab E).
Qed.
Print Assumptions C60_stops.
(** Such a function exists, and with it the two eigenvalues 3 and 5 are settled for the tolerance 1 when a third vector
    leaves them as they are, and not before. *)
Example C60_stops_nonvacuous :
  let stedc (nn : nat) (a b : list R) := Some (map (fun i => nth i a 0%R) (seq 0 nn)) in
  of_block stedc /\ ~ settled stedc 1 2 [3; 5]%R [0; 0]%R 2 /\ settled stedc 1 2 [3; 5; 7]%R [0; 0; 0]%R 3.
Proof.
  cbv zeta. split; [split|split].
  - intros nn a b ev E. injection E as <-. rewrite map_length, seq_length. reflexivity.
  - intros nn a b a' b' Ha _. f_equal. apply map_ext_in. intros i Hi. apply Ha. apply in_seq in Hi. lia.
  - intros (ev & ev' & E1 & E2 & H). injection E1 as <-. cbn [Nat.eqb] in E2. subst ev'. specialize (H 0 ltac:(lia)). cbn [nth seq map] in H.
    rewrite Rminus_0_r, Rabs_pos_eq in H by lra. lra.
  - exists [3; 5; 7]%R, [3; 5]%R. split; [reflexivity|]. split; [reflexivity|]. intros i Hi. destruct i as [|[|i]]; [| |lia]; cbn [nth].
    all: rewrite Rminus_diag_eq by reflexivity; rewrite Rabs_R0; lra.
Qed.

(** A case: the matrix of the two-site hopping problem, started on site 0. *)
Definition ex_H (i j : nat) : Cring := if i + j =? 1 then c1 else c0.
Definition ex_mvp (x y : vector) : vector := vec 2 (fun i => cadd (nth i x c0) (app_mat 2 ex_H y i)).
Definition ex_init : vector := [c1; c0].
Definition ex_stedc (n : nat) (a b : list R) : option (list R) := Some a.
(** Knows the eigenvalues of one tridiagonal matrix only. *)
Definition ex_diag (ab : tri Rring) : option (list R * list (list Cring)) :=
  if list_eq_dec Req_EM_T (t_a ab) [0%R; 0%R] then
    if list_eq_dec Req_EM_T (t_b ab) [0%R; 1%R] then
      Some ([(-1)%R; 1%R], [[RtoC (1 / sqrt 2); RtoC (- (1 / sqrt 2))]; [RtoC (1 / sqrt 2); RtoC (1 / sqrt 2)]])
    else None
  else None.

Lemma ex_herm : hermitian 2 ex_H.
Proof.
  intros i j Hi Hj. unfold ex_H. rewrite (Nat.add_comm j i). destruct (i + j =? 1); [rewrite c_conj_1|rewrite cconj_0]; reflexivity.
Qed.
Lemma ex_mult : multiplies 2 ex_H ex_mvp.
Proof. intros x y Hx Hy. split; [apply vec_length|]. intros i Hi. unfold ex_mvp. rewrite vec_nth by auto. reflexivity. Qed.
Lemma c1_neq : (c1 : Cring) <> c0.
Proof. intros E. apply (RtoC_inj 1 0) in E. lra. Qed.
Lemma ex_init_norm : inner 2 ex_init ex_init <> c0.
Proof.
  unfold inner, ex_init, sumn. cbn [seq suml nth]. rewrite c_conj_1, cconj_0.
  match goal with |- ?x <> _ => assert (x = c1) as -> by ring end. apply c1_neq.
Qed.
Lemma sq_half : (1 / sqrt 2 * (1 / sqrt 2) = 1 / 2)%R.
Proof.
  assert (E : (sqrt 2 * sqrt 2 = 2)%R) by (apply sqrt_sqrt; lra). assert (N : (sqrt 2 <> 0)%R) by nra.
  transitivity (1 / (sqrt 2 * sqrt 2))%R; [field; auto|rewrite E; reflexivity].
Qed.

Lemma sum2 (f : nat -> Cring) : sumn 2 f = cadd (f 0) (f 1).
Proof. unfold sumn. cbn [seq suml]. ring. Qed.

Lemma ex_diag_ok : diagonalizes ex_diag.
Proof.
  intros ab eigs ritz E. unfold ex_diag in E.
  destruct (list_eq_dec Req_EM_T (t_a ab) _) as [Ea|]; [|discriminate].
  destruct (list_eq_dec Req_EM_T (t_b ab) _) as [Eb|]; [|discriminate]. injection E as <- <-. cbv zeta.
  change (car Rring) with R in *. rewrite Ea, Eb. split; [reflexivity|]. split; [reflexivity|]. pose proof sq_half as Q. split.
  - intros i Hi. cbn [length] in Hi.
    assert (S2 : forall x, RtoC x = cmul c1 (RtoC x)) by (intros; ring).
    destruct i as [|[|i]]; [| |lia]; unfold tri_eigen; (split; [reflexivity|]); (split; [|]).
    + intros i Hi'. cbn [length] in *. rewrite sum2. destruct i as [|[|i]]; [| |lia]; cbn [tri_elem Nat.eqb Nat.add nth];
        unfold tri_elem; cbn [Nat.eqb Nat.add nth]; rewrite <- !RtoC_mul, <- RtoC_add; f_equal; ring.
    + unfold inner. cbn [length]. rewrite sum2. cbn [nth]. rewrite !conj_RtoC, <- !RtoC_mul, <- RtoC_add, <- RtoC_1. f_equal. lra.
    + intros i Hi'. cbn [length] in *. rewrite sum2. destruct i as [|[|i]]; [| |lia];
        unfold tri_elem; cbn [Nat.eqb Nat.add nth]; rewrite <- !RtoC_mul, <- RtoC_add; f_equal; ring.
    + unfold inner. cbn [length]. rewrite sum2. cbn [nth]. rewrite !conj_RtoC, <- !RtoC_mul, <- RtoC_add, <- RtoC_1. f_equal. lra.
  - intros th s (Ls & Ht & Hn). cbn [length] in *. cbn [nth].
    destruct s as [|[x0 y0] [|[x1 y1] [|]]]; try discriminate.
    pose proof (Ht 0 ltac:(lia)) as E0. pose proof (Ht 1 ltac:(lia)) as E1. clear Ht.
    rewrite sum2 in E0, E1. unfold inner in Hn. rewrite sum2 in Hn.
    unfold tri_elem in E0, E1. cbn [Nat.eqb Nat.add nth] in E0, E1, Hn.
    cbn in E0, E1, Hn. unfold RtoC, Cadd, Cmul, Cconj in E0, E1, Hn. cbn [fst snd] in E0, E1, Hn.
    injection E0 as E0a E0b. injection E1 as E1a E1b. injection Hn as Hn _.
    ring_simplify in E0a. ring_simplify in E0b. ring_simplify in E1a. ring_simplify in E1b. ring_simplify in Hn.
    destruct (Rle_dec (-1) th) as [|N]; [auto|exfalso]. assert (th < -1)%R by lra.
    assert (x0 * (th * th - 1) = 0)%R by (transitivity (x0 * th * th - x0)%R; [ring|rewrite <- E0a, <- E1a; ring]).
    assert (y0 * (th * th - 1) = 0)%R by (transitivity (y0 * th * th - y0)%R; [ring|rewrite <- E0b, <- E1b; ring]).
    assert (th * th - 1 > 0)%R by nra.
    assert (x0 = 0)%R by nra. assert (y0 = 0)%R by nra. subst x0 y0. nra.
Qed.

Lemma ex_decomp ex : exists V ab, decomposition 2 ex_mvp ex_stedc 1 4 ex false 10 ex_init = Ok (V, ab) /\
  length V = 2 /\ t_a ab = [0%R; 0%R] /\ t_b ab = [0%R; 1%R] /\ lanczos_ok 2 ex_H ex_init V (t_a ab) (t_b ab) 2.
Proof.
  destruct (C60_returns 2 ex_H ex_mvp ex_stedc 1 4 ex 10 ex_init) as (V & ab & E); auto using ex_herm, ex_mult, ex_init_norm; try lia.
  { discriminate. }
  destruct (C60_lanczos _ _ _ _ _ _ _ _ _ _ _ _ ex_herm ex_mult E) as (L & La & Lb & k & Hk).
  exists V, ab. split; [auto|]. assert (LV : length V = 2) by lia. split; [auto|].
  pose proof Hk as (Hk1 & (r & Hr & Hi) & Hk3 & Hk4 & Hk5 & Hk6 & Hk7 & Hk8). unfold vector in *. change (car Rring) with R in *. rewrite LV in *.
  assert (V0 : nth 0 (nth 0 V []) c0 = RtoC (1 / r) /\ nth 1 (nth 0 V []) c0 = c0).
  { pose proof (Hi 0 ltac:(lia)) as I0. pose proof (Hi 1 ltac:(lia)) as I1. unfold ex_init in I0, I1. cbn [nth] in I0, I1.
    assert (forall x : Cring, x = cmul (RtoC (1 / r)) (cmul (RtoC r) x)) as Q.
    { intros x. rewrite (cmul_assoc Cring), <- RtoC_mul. replace (1 / r * r)%R with 1%R by (field; lra). rewrite RtoC_1. ring. }
    split; (etransitivity; [apply Q|]); (etransitivity; [apply (f_equal (cmul _)); symmetry; first [exact I0|exact I1]|]); ring. }
  destruct V0 as [V00 V01].
  assert (r = 1)%R as ->.
  { pose proof (Hk3 0 0 ltac:(lia) ltac:(lia)) as N. unfold inner in N. rewrite sum2, V00, V01, conj_RtoC, cconj_0 in N. cbn [Nat.eqb] in N.
    rewrite <- RtoC_mul in N. rewrite cmul_0_l, cadd_0_r in N. apply (RtoC_inj _ 1) in N.
    assert (1 / r * r = 1)%R by (field; lra). nra. }
  replace (1 / 1)%R with 1%R in V00 by field. rewrite RtoC_1 in V00.
  assert (A0 : @nth R 0 (t_a ab) 0%R = 0%R).
  { apply RtoC_inj. pose proof (Hk5 0 0 ltac:(lia) ltac:(lia)) as S. unfold tri_elem in S. cbn [Nat.eqb] in S. etransitivity; [symmetry; exact S|].
    unfold sandwich, app_mat. rewrite !sum2, V00, V01. unfold ex_H. cbn [Nat.add Nat.eqb]. rewrite RtoC_0, cconj_0. ring. }
  assert (B1 : (0 <= @nth R 1 (t_b ab) 0)%R) by (apply Hk8; lia).
  pose proof (Hk6 0 ltac:(lia) 0 ltac:(lia)) as R0. pose proof (Hk6 0 ltac:(lia) 1 ltac:(lia)) as R1.
  unfold app_mat in R0, R1. rewrite !sum2, V00, V01, A0 in R0, R1. unfold ex_H in R0, R1. cbn [Nat.add Nat.eqb] in R0, R1.
  rewrite RtoC_0 in R0, R1.
  assert (R0' : cmul (RtoC (@nth R 1 (t_b ab) 0%R)) (nth 0 (nth 1 V []) c0) = c0) by (etransitivity; [|symmetry; etransitivity; [|exact R0]]; ring).
  assert (R1' : cmul (RtoC (@nth R 1 (t_b ab) 0%R)) (nth 1 (nth 1 V []) c0) = c1) by (etransitivity; [|symmetry; etransitivity; [|exact R1]]; ring).
  clear R0 R1.
  assert (Bn : @nth R 1 (t_b ab) 0%R <> 0%R).
  { intros Z. rewrite Z, RtoC_0 in R1'. apply c1_neq. rewrite <- R1'. ring. }
  assert (k = 2). { apply Hk8 in Bn; lia. } subst k.
  set (bb := @nth R 1 (t_b ab) 0%R) in *.
  assert (Q : forall x y : Cring, cmul (RtoC bb) x = y -> x = cmul (RtoC (1 / bb)) y).
  { intros x y <-. rewrite (cmul_assoc Cring), <- RtoC_mul. replace (1 / bb * bb)%R with 1%R by (field; auto). rewrite RtoC_1. ring. }
  apply Q in R0', R1'. rewrite cmul_0_r in R0'. rewrite cmul_1_r in R1'.
  assert (Eb : bb = 1%R).
  { pose proof (Hk3 1 1 ltac:(lia) ltac:(lia)) as N. unfold inner in N. rewrite sum2, R0', R1', conj_RtoC, cconj_0 in N. cbn [Nat.eqb] in N.
    rewrite <- RtoC_mul in N. rewrite cmul_0_l in N.
    assert (N' : RtoC (1 / bb * (1 / bb)) = RtoC 1) by (rewrite RtoC_1, <- N; ring). apply RtoC_inj in N'.
    assert (1 / bb * bb = 1)%R by (field; auto). nra. }
  assert (A1 : @nth R 1 (t_a ab) 0%R = 0%R).
  { apply RtoC_inj. pose proof (Hk5 1 1 ltac:(lia) ltac:(lia)) as S. unfold tri_elem in S. cbn [Nat.eqb] in S. etransitivity; [symmetry; exact S|].
    unfold sandwich, app_mat. rewrite !sum2, R0', R1'. unfold ex_H. cbn [Nat.add Nat.eqb]. rewrite RtoC_0, cconj_0. ring. }
  unfold bb in Eb. change (car Rring) with R in *.
  destruct (t_a ab) as [|a0 [|a1 [|]]]; try discriminate. destruct (t_b ab) as [|b0 [|b1 [|]]]; try discriminate.
  cbn [nth] in *. subst. auto.
Qed.

(** Hypotheses of the theorems, met: the decomposition of the 2 x 2 matrix has
    two vectors and no vanishing off-diagonal element, and the ground state
    comes out with energy -1. *)
Example C60_nonvacuous :
  hermitian 2 ex_H /\ multiplies 2 ex_H ex_mvp /\ diagonalizes ex_diag /\
  (exists V ab, decomposition 2 ex_mvp ex_stedc 1 4 0 false 10 ex_init = Ok (V, ab) /\ length V = 2 /\
     t_a ab = [0%R; 0%R] /\ t_b ab = [0%R; 1%R] /\ lanczos_ok 2 ex_H ex_init V (t_a ab) (t_b ab) 2) /\
  exists z, computeOneState 2 ex_mvp ex_stedc ex_diag 1 4 false 10 (repeat c0 2) ex_init 0 = Ok ((-1)%R, z).
Proof.
  split; [apply ex_herm|]. split; [apply ex_mult|]. split; [apply ex_diag_ok|].
  destruct (ex_decomp 0) as (V & ab & E & LV & Ea & Eb & Hk). split; [exists V, ab; auto|].
  destruct (decomp_ok 2 ex_H ex_herm ex_mvp ex_mult _ _ _ _ _ _ _ _ _ E) as (_ & _ & _ & _ & _ & Hc & _).
  set (s := [RtoC (1 / sqrt 2); RtoC (- (1 / sqrt 2))] : list Cring).
  destruct (excited_ok 2 V s (repeat c0 2)) as (z & Ez & Lz & Hz); [auto|rewrite LV; cbn; lia|reflexivity|].
  exists z. unfold computeOneState, one_state. rewrite E. cbn [bind].
  assert (Eg : ex_diag ab = Some ([(-1)%R; 1%R], [s; [RtoC (1 / sqrt 2); RtoC (1 / sqrt 2)]])).
  { unfold ex_diag. destruct (list_eq_dec Req_EM_T (t_a ab) _) as [|N]; [|contradiction].
    destruct (list_eq_dec Req_EM_T (t_b ab) _) as [|N]; [|contradiction]. reflexivity. }
  rewrite Eg. unfold vget at 1 2. cbn [nth_error bind].
  match goal with |- bind ?x _ = _ => replace x with (Ok z) by (symmetry; exact Ez) end. cbn [bind].
  destruct (Rlt_dec _ _) as [L|L]; [exfalso|reflexivity].
  assert (N : inner 2 z z = c1).
  { assert (Hz' : forall i, i < 2 -> nth i z c0 = sumn 2 (fun j => cmul (nth j s c0) (nth i (nth j V []) c0))).
    { intros i Hi. rewrite Hz, nth_repeat_in, LV by auto. ring. }
    destruct Hk as (_ & _ & Hk3 & _).
    assert (Il : forall l, l < 2 -> inner 2 (nth l V []) z = nth l s c0).
    { intros l Hl. rewrite (inner_comb 2 2 (fun j => nth j V []) s z Hz').
      transitivity (sumn 2 (fun j => if l =? j then nth j s c0 else c0)).
      - apply sumn_ext. intros j Hj. rewrite Hk3 by auto. destruct (l =? j); ring.
      - apply (sumn_delta Cring 2 (fun j => nth j s c0) l Hl). }
    rewrite <- inner_conj, (inner_comb 2 2 (fun j => nth j V []) s z Hz'), sumn_conj.
    transitivity (sumn 2 (fun j => cmul (cconj (nth j s c0)) (nth j s c0))).
    - apply sumn_ext. intros j Hj. rewrite c_conj_mul, inner_conj, Il by auto. reflexivity.
    - rewrite sum2. unfold s. cbn [nth]. rewrite !conj_RtoC, <- !RtoC_mul, <- RtoC_add, <- RtoC_1. f_equal. pose proof sq_half. lra. }
  rewrite inner_self in N. apply (RtoC_inj _ 1) in N. rewrite N, sqrt_1 in L. lra.
Qed.

(** The hypotheses of the refuted claims, met. *)
Definition ex_I (i j : nat) : Cring := if i =? j then RtoC 2 else c0.
Definition ex_imvp (n : nat) (x y : vector) : vector := vec n (fun i => cadd (nth i x c0) (app_mat n ex_I y i)).
Definition ex_e0 (n : nat) : vector := vec n (fun i => if 0 =? i then c1 else c0).
Example C60_refuted_nonvacuous : forall n, 1 <= n ->
  hermitian n ex_I /\ multiplies n ex_I (ex_imvp n) /\ length (ex_e0 n) = n /\ inner n (ex_e0 n) (ex_e0 n) = c1 /\
  (forall i, i < n -> app_mat n ex_I (ex_e0 n) i = cmul (RtoC 2) (nth i (ex_e0 n) c0)).
Proof.
  intros n Hn. split.
  { intros i j Hi Hj. unfold ex_I. rewrite (Nat.eqb_sym j i). destruct (i =? j); [rewrite conj_RtoC|rewrite cconj_0]; reflexivity. }
  split. { intros x y Hx Hy. split; [apply vec_length|]. intros i Hi. unfold ex_imvp. rewrite vec_nth by auto. reflexivity. }
  split; [apply vec_length|]. split.
  - unfold inner. transitivity (sumn n (fun j => if 0 =? j then (@c1 Cring) else c0)).
    { apply sumn_ext. intros j Hj. unfold ex_e0. rewrite vec_nth by auto. destruct (0 =? j); rewrite ?c_conj_1, ?cconj_0; ring. }
    apply (sumn_delta Cring n (fun j => c1) 0). lia.
  - intros i Hi. unfold app_mat. transitivity (sumn n (fun k => if i =? k then cmul (RtoC 2) (nth k (ex_e0 n) c0) else c0)).
    { apply sumn_ext. intros k Hk. unfold ex_I. destruct (i =? k); ring. }
    apply (sumn_delta Cring n (fun k => cmul (RtoC 2) (nth k (ex_e0 n) c0)) i). auto.
Qed.

Print Assumptions C60_lanczos.
Print Assumptions C60_returns.
Print Assumptions C60_size.
Print Assumptions C60_one_step_refuted.
Print Assumptions C60_min_steps_refuted.
Print Assumptions C60_state.
Print Assumptions C60_tolerance_refuted.
Print Assumptions C60_invariant_refuted.
Print Assumptions C60_ground_state_refuted.
