(** Theorems about [computeAllStatesBelow] (C60). *)
From Coq Require Import Reals Lra.
From Verif Require Import Prelude Ring Cplx Tri_Model Lanczos_Model Lanczos_Spec Lanczos_Proofs Lanczos_Props.
Local Open Scope nat_scope.
Add Ring RCr3 : (c_ring Cring).

(** The eigenvectors of the diagonalisation routine are orthogonal. *)
Definition orthogonal_vectors (diagV : Tri_Model.tri Rring -> option (list R * list (list Cring))) : Prop :=
  forall ab eigs ritz, diagV ab = Some (eigs, ritz) ->
    forall i j, i < length (t_a ab) -> j < length (t_a ab) -> i <> j ->
    inner (length (t_a ab)) (nth i ritz []) (nth j ritz []) = c0.

(** The loop: the first n vectors get the combinations, the others stay. *)
Lemma below_loop rows V ritz nz n :
  cols_ok rows V -> n <= nz -> n <= length ritz -> (forall i, i < n -> length V <= length (nth i ritz [])) ->
  exists zs, forM n 0 (fun i zs =>
      do s <- vget ritz i ;;
      do z <- vget zs i ;;
      do z' <- excitedVector rows V s z ;;
      vset zs i z') (repeat (repeat c0 rows) nz) = Ok zs /\ length zs = nz /\
    (forall i, n <= i -> i < nz -> nth i zs [] = repeat c0 rows) /\
    (forall i, i < n -> length (nth i zs []) = rows /\ forall h, h < rows ->
       nth h (nth i zs []) c0 = sumn (length V) (fun j => cmul (nth j (nth i ritz []) c0) (nth h (nth j V []) c0))).
Proof.
  intros Hc Hn Hr Hs.
  destruct (@forM_inv _ (fun I (zs : list vector) => length zs = nz /\
    (forall i, I <= i -> i < nz -> nth i zs [] = repeat c0 rows) /\
    (forall i, i < I -> length (nth i zs []) = rows /\ forall h, h < rows ->
       nth h (nth i zs []) c0 = sumn (length V) (fun j => cmul (nth j (nth i ritz []) c0) (nth h (nth j V []) c0)))) n 0
    (fun i zs => do s <- vget ritz i ;; do z <- vget zs i ;; do z' <- excitedVector rows V s z ;; vset zs i z')
    (repeat (repeat c0 rows) nz)) as (zs & E & L & H1 & H2).
  - split; [apply repeat_length|]. split; [intros; apply nth_repeat_in; auto|intros; lia].
  - intros i zs Hi (L & H1 & H2). rewrite (@vget_ok _ ritz i []) by lia. cbn [bind].
    rewrite (@vget_ok _ zs i []) by lia. cbn [bind]. rewrite H1 by lia.
    destruct (excited_ok rows V (nth i ritz []) (repeat c0 rows)) as (z' & Ez & Lz & Hz); [auto|apply Hs; lia|apply repeat_length|].
    rewrite Ez. cbn [bind]. rewrite vset_ok by lia. eexists. split; [reflexivity|]. rewrite upd_length. split; [auto|]. split.
    + intros i' Hi' Hi2. rewrite nth_upd_neq by lia. apply H1; lia.
    + intros i' Hi'. destruct (Nat.eq_dec i' i) as [->|].
      * rewrite nth_upd_eq by lia. split; [auto|]. intros h Hh. rewrite Hz, nth_repeat_in by auto. ring.
      * rewrite nth_upd_neq by auto. apply H2. lia.
  - exists zs. auto.
Qed.

(** computeAllStatesBelow on nz zero vectors: the first excited + 1 of them
    become states in which H has the energies returned, and between two of which
    it vanishes; without a vanishing off-diagonal element they are orthonormal,
    and the residuals are orthogonal to all Lanczos vectors. The rest stays. *)
Theorem C60_states_below :
  forall rows H mvp stedc diagV tolerance minSteps isReortho steps init excited nz eigs zs,
  hermitian rows H -> multiplies rows H mvp -> diagonalizes diagV -> orthogonal_vectors diagV ->
  computeAllStatesBelow rows mvp stedc diagV tolerance minSteps isReortho steps
    (repeat (repeat c0 rows) nz) init excited = Ok (eigs, zs) ->
  length zs = nz /\
  (forall i, i < nz -> length (nth i zs []) = rows) /\
  (forall i, i < nz -> excited < i -> nth i zs [] = repeat c0 rows) /\
  (forall i j, i < nz -> j < nz -> i <= excited -> j <= excited ->
     sandwich rows H (nth i zs []) (nth j zs []) = if i =? j then RtoC (nth i eigs 0%R) else c0) /\
  exists V ab k, decomposition rows mvp stedc tolerance minSteps excited isReortho steps init = Ok (V, ab) /\
    lanczos_ok rows H init V (t_a ab) (t_b ab) k /\ length eigs = length V /\ excited <= length V /\
    (k = length V ->
       (forall i j, i < nz -> j < nz -> i <= excited -> j <= excited ->
          inner rows (nth i zs []) (nth j zs []) = if i =? j then c1 else c0) /\
       (forall i j, i < nz -> i <= excited -> j < length V ->
          sandwich rows H (nth j V []) (nth i zs []) = cmul (RtoC (nth i eigs 0%R)) (inner rows (nth j V []) (nth i zs [])))).
Proof.
  intros rows H mvp stedc diagV tol ms re steps init excited nz eigs zs Hh Hm Hd Ho E.
  unfold computeAllStatesBelow in E. apply bind_ok in E. destruct E as ([V ab] & Ed & E).
  destruct (decomp_ok rows H Hh mvp Hm _ _ _ _ _ _ _ _ _ Ed) as (R1 & R2 & R3 & R4 & R5 & Hc & k & Hk).
  change (car Rring) with R in *. match type of E with (if ?c then _ else _) = _ => destruct c eqn:Hx; [discriminate|apply Nat.ltb_ge in Hx] end. change (car Rring) with R in *.
  destruct (diagV ab) as [[eigs' ritz]|] eqn:Eg; [|discriminate].
  destruct (Hd _ _ _ Eg) as (Le & Lr & He & _). specialize (Ho _ _ _ Eg). change (car Rring) with R in *.
  rewrite repeat_length in E. set (n := if excited + 1 <? nz then excited + 1 else nz) in *.
  assert (Hn : n = Nat.min (excited + 1) nz) by (unfold n; destruct (Nat.ltb_spec (excited + 1) nz); lia).
  apply bind_ok in E. destruct E as (zs' & Ez & E). injection E as <- <-.
  assert (Hnr : n <= length ritz).
  { (* otherwise column length ritz is read *)
    destruct (le_lt_dec n (length ritz)) as [|Hlt]; [auto|exfalso].
    destruct (below_loop rows V ritz nz (length ritz) Hc ltac:(lia) (le_n _)) as (zs1 & E1 & _).
    { intros i Hi. destruct (He i ltac:(lia)) as (Ls & _). rewrite Ls, R4. apply le_n. }
    replace n with (length ritz + (n - length ritz)) in Ez by lia. rewrite forM_app in Ez.
    change (list (car Cring)) with vector in *.
    match type of Ez with bind ?x _ = _ => replace x with (Ok zs1) in Ez by (symmetry; exact E1) end. cbn [bind] in Ez.
    destruct (n - length ritz) as [|q] eqn:Eq; [lia|]. cbn [forM] in Ez. rewrite Nat.add_0_l in Ez.
    unfold vget at 1 in Ez. rewrite (proj2 (nth_error_None ritz (length ritz))) in Ez by lia. discriminate. }
  destruct (below_loop rows V ritz nz n Hc ltac:(lia) Hnr) as (zs1 & E1 & L1 & Hrest & Hfirst).
  { intros i Hi. destruct (He i ltac:(lia)) as (Ls & _). rewrite Ls, R4. apply le_n. }
  assert (zs1 = zs') as ->.
  { apply Ok_inj. rewrite <- E1. exact Ez. }
  clear Ez E1. set (m := length V) in *. rewrite R4 in *.
  destruct Hk as (Hk1 & Hk2 & Hk3 & Hk4 & Hk5 & Hk6 & Hk7 & Hk8). fold m in Hk1, Hk4, Hk5, Hk6, Hk8.
  assert (Inn : forall i j, i < n -> j < n -> inner m (nth i ritz []) (nth j ritz []) = if i =? j then c1 else c0).
  { intros i j Hi Hj. destruct (Nat.eqb_spec i j) as [->|]; [|apply Ho; lia].
    destruct (He j ltac:(lia)) as (_ & _ & Q). rewrite R4 in Q. exact Q. }
  assert (Sl : forall i l, i < n -> l < m -> sandwich rows H (nth l V []) (nth i zs' []) = cmul (RtoC (nth i eigs' 0%R)) (nth l (nth i ritz []) c0)).
  { intros i l Hi Hl. destruct (Hfirst i Hi) as (_ & Hz).
    rewrite (sandwich_comb rows m (fun j => nth j V []) (nth i ritz []) (nth i zs' []) Hz H).
    destruct (He i ltac:(lia)) as (_ & Ht & _). rewrite R4 in Ht. rewrite <- Ht by auto. apply sumn_ext. intros j Hj.
    rewrite Hk5 by auto. ring. }
  assert (Sz : forall i j, i < n -> j < n -> sandwich rows H (nth i zs' []) (nth j zs' []) = if i =? j then RtoC (nth i eigs' 0%R) else c0).
  { intros i j Hi Hj. destruct (Hfirst i Hi) as (_ & Hz).
    rewrite <- (sandwich_conj rows H Hh).
    rewrite (sandwich_comb rows m (fun j => nth j V []) (nth i ritz []) (nth i zs' []) Hz H).
    rewrite sumn_conj.
    transitivity (cmul (RtoC (nth j eigs' 0%R)) (inner m (nth i ritz []) (nth j ritz []))).
    - unfold inner. rewrite <- sumn_mul_l. apply sumn_ext. intros l Hl. rewrite c_conj_mul, (sandwich_conj rows H Hh), Sl by auto. ring.
    - rewrite Inn by auto. destruct (Nat.eqb_spec i j) as [->|]; ring. }
  split; [auto|]. split.
  { intros i Hi. destruct (le_lt_dec n i); [rewrite Hrest by auto; apply repeat_length|apply Hfirst; auto]. }
  split. { intros i Hi Hx'. apply Hrest; lia. }
  split. { intros i j Hi Hj Hi' Hj'. apply Sz; lia. }
  exists V, ab, k. split; [auto|]. split.
  { unfold lanczos_ok. fold m. repeat split; auto; try apply Hk1; try apply Hk8; auto. }
  split; [exact Le|]. split; [exact Hx|]. intros ->.
  assert (Il : forall i l, i < n -> l < m -> inner rows (nth l V []) (nth i zs' []) = nth l (nth i ritz []) c0).
  { intros i l Hi Hl. destruct (Hfirst i Hi) as (_ & Hz).
    rewrite (inner_comb rows m (fun j => nth j V []) (nth i ritz []) (nth i zs' []) Hz).
    transitivity (sumn m (fun j => if l =? j then nth j (nth i ritz []) c0 else c0)).
    - apply sumn_ext. intros j Hj. rewrite Hk3 by auto. destruct (l =? j); ring.
    - apply (sumn_delta Cring m (fun j => nth j (nth i ritz []) c0) l Hl). }
  split.
  - intros i j Hi Hj Hi' Hj'. destruct (Hfirst i ltac:(lia)) as (_ & Hz).
    rewrite <- inner_conj, (inner_comb rows m (fun j => nth j V []) (nth i ritz []) (nth i zs' []) Hz), sumn_conj.
    rewrite <- Inn by lia. unfold inner at 2.
    apply sumn_ext. intros l Hl. rewrite c_conj_mul, inner_conj, Il by (auto; lia). reflexivity.
  - intros i j Hi Hi' Hj. rewrite Sl, Il by (auto; lia). reflexivity.
Qed.

(** The claim that it throws if there are not enough Lanczos vectors for all the
    states asked for is false: if exactly one is missing, the column behind the
    last of the matrix of eigenvectors is read. *)
Theorem C60_below_range_refuted :
  forall rows H mvp stedc diagV tolerance minSteps isReortho steps init V ab eigs ritz nz,
  hermitian rows H -> multiplies rows H mvp -> diagonalizes diagV ->
  decomposition rows mvp stedc tolerance minSteps (length V) isReortho steps init = Ok (V, ab) ->
  diagV ab = Some (eigs, ritz) -> length V < nz ->
  computeAllStatesBelow rows mvp stedc diagV tolerance minSteps isReortho steps
    (repeat (repeat c0 rows) nz) init (length V) = UB.
Proof.
  intros rows H mvp stedc diagV tol ms re steps init V ab eigs ritz nz Hh Hm Hd Ed Eg Hnz.
  destruct (decomp_ok rows H Hh mvp Hm _ _ _ _ _ _ _ _ _ Ed) as (R1 & R2 & R3 & R4 & R5 & Hc & _).
  destruct (Hd _ _ _ Eg) as (Le & Lr & He & _). change (car Rring) with R in *.
  unfold computeAllStatesBelow. rewrite Ed. cbn [bind]. change (car Rring) with R in *.
  rewrite R4, Nat.ltb_irrefl, Eg, repeat_length.
  destruct (below_loop rows V ritz nz (length ritz) Hc ltac:(lia) (le_n _)) as (zs1 & E1 & _).
  { intros i Hi. destruct (He i ltac:(lia)) as (Ls & _). rewrite Ls, R4. apply le_n. }
  replace (if length V + 1 <? nz then length V + 1 else nz) with (length ritz + 1) by (destruct (Nat.ltb_spec (length V + 1) nz); lia).
  rewrite forM_app. change (list (car Cring)) with vector in *.
  match goal with |- bind (bind ?x _) _ = _ => replace x with (Ok zs1) by (symmetry; exact E1) end. cbn [bind forM]. rewrite Nat.add_0_l.
  unfold vget at 1. rewrite (proj2 (nth_error_None ritz (length ritz))) by lia. reflexivity.
Qed.

(** The hypotheses, met: both states of the two-site problem; and three states
    asked for. *)
Lemma ex_diag_orth : orthogonal_vectors ex_diag.
Proof.
  intros ab eigs ritz E. unfold ex_diag in E.
  destruct (list_eq_dec Req_EM_T (t_a ab) _) as [Ea|]; [|discriminate].
  destruct (list_eq_dec Req_EM_T (t_b ab) _) as [Eb|]; [|discriminate]. injection E as <- <-.
  change (car Rring) with R in *. rewrite Ea. cbn [length]. intros i j Hi Hj Hij. unfold inner. rewrite sum2.
  destruct i as [|[|]], j as [|[|]]; try lia; cbn [nth]; rewrite !conj_RtoC, <- !RtoC_mul, <- RtoC_add, <- RtoC_0; f_equal; ring.
Qed.
Lemma ex_diag_some (ab : tri Rring) : t_a ab = [0%R; 0%R] -> t_b ab = [0%R; 1%R] -> exists eigs ritz, ex_diag ab = Some (eigs, ritz) /\ eigs = [(-1)%R; 1%R].
Proof.
  intros Ea Eb. unfold ex_diag. destruct (list_eq_dec Req_EM_T (t_a ab) _) as [|N]; [|contradiction].
  destruct (list_eq_dec Req_EM_T (t_b ab) _) as [|N]; [|contradiction]. eauto.
Qed.
Example C60_below_nonvacuous :
  orthogonal_vectors ex_diag /\
  (exists zs, computeAllStatesBelow 2 ex_mvp ex_stedc ex_diag 1 4 false 10 (repeat (repeat c0 2) 2) ex_init 1 = Ok ([(-1)%R; 1%R], zs)) /\
  (exists V ab eigs ritz, decomposition 2 ex_mvp ex_stedc 1 4 (length V) false 10 ex_init = Ok (V, ab) /\
     ex_diag ab = Some (eigs, ritz) /\ length V < 3).
Proof.
  split; [apply ex_diag_orth|]. split.
  - destruct (ex_decomp 1) as (V & ab & E & LV & Ea & Eb & Hk).
    destruct (decomp_ok 2 ex_H ex_herm ex_mvp ex_mult _ _ _ _ _ _ _ _ _ E) as (_ & _ & _ & R4 & _ & Hc & _).
    destruct (ex_diag_some ab Ea Eb) as (eigs & ritz & Eg & ->).
    destruct (ex_diag_ok _ _ _ Eg) as (Le & Lr & He & _). change (car Rring) with R in *. rewrite R4, LV in *.
    destruct (below_loop 2 V ritz 2 2 Hc) as (zs & E1 & _); [lia|lia| |].
    { intros i Hi. destruct (He i Hi) as (Ls & _). rewrite Ls, R4, LV. apply le_n. }
    exists zs. unfold computeAllStatesBelow. rewrite E. cbn [bind]. change (car Rring) with R in *. rewrite R4. cbn [Nat.ltb Nat.leb].
    rewrite Eg, repeat_length. cbn [Nat.add Nat.ltb Nat.leb].
    match goal with |- bind ?x _ = _ => replace x with (Ok zs) by (symmetry; exact E1) end. reflexivity.
  - destruct (ex_decomp 2) as (V & ab & E & LV & Ea & Eb & Hk). destruct (ex_diag_some ab Ea Eb) as (eigs & ritz & Eg & _).
    exists V, ab, eigs, ritz. rewrite LV. split; [auto|]. split; [auto|lia].
Qed.

Print Assumptions C60_states_below.
Print Assumptions C60_below_range_refuted.
