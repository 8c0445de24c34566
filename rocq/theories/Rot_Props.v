(** Theorems about the change of basis (C112). *)
From Coq Require Import Ascii Lia Ring.
From Verif Require Import Prelude Ring Dense_Model Dense_Spec Dense_Proofs Gemm_Model Gemm_Spec Gemm_Proofs Rot_Model Rot_Spec Rot_Proofs.
Local Open Scope nat_scope.

Section Turn.
  Variable R : cring.
  Add Ring Rr : (c_ring R).
  Lemma turn (x y z : R) : cmul (cmul x y) z = cmul (cmul z y) x. Proof. ring. Qed.
  Lemma turn2 (x y z : R) : cmul (cmul x y) z = cmul y (cmul z x). Proof. ring. Qed.
End Turn.

(** A square matrix is changed to T^dagger m T; T may have fewer columns than rows, or more. *)
Theorem C112_changed : forall (R : cring) (m T : mat R), mat_wf m -> mat_wf T -> 0 < m_nrow m -> 0 < m_ncol T ->
  m_ncol m = m_nrow m -> m_nrow T = m_nrow m ->
  exists m', rotate R m T = Ok m' /\ is_mat m' (m_ncol T) (m_ncol T) (changed (m_nrow m) (melem m) (melem T)).
Proof. exact rotate_ok. Qed.
Print Assumptions C112_changed.

(** Two changes of basis are the one by the product. *)
Theorem C112_twice : forall (R : cring) (m T S U : mat R), mat_wf m -> mat_wf T -> mat_wf S -> 0 < m_nrow m -> 0 < m_ncol T -> 0 < m_ncol S ->
  m_ncol m = m_nrow m -> m_nrow T = m_nrow m -> m_nrow S = m_ncol T ->
  is_mat U (m_nrow m) (m_ncol S) (times (m_ncol T) (melem T) (melem S)) ->
  exists m', rotate R m U = Ok m' /\ (do x <- rotate R m T ;; rotate R x S) = Ok m'.
Proof.
  intros R m T S U Wm WT WS Hn HT HS Es ET ES (U1 & U2 & WU & HU).
  destruct (rotate_ok R m T Wm WT Hn HT Es ET) as (x & Ex & X1 & X2 & WX & HX).
  destruct (rotate_ok R m U Wm WU Hn ltac:(lia) Es U1) as (m' & Em & H'). rewrite U2 in H'.
  destruct (rotate_ok R x S WX WS ltac:(lia) HS ltac:(lia) ltac:(lia)) as (y & Ey & HY). exists m'. split; [exact Em|]. rewrite Ex. cbn [bind]. rewrite Ey. f_equal.
  apply (is_mat_unique R y m' (m_ncol S) (m_ncol S) (changed (m_nrow m) (melem m) (melem U))); [|exact H'].
  eapply is_mat_ext; [|exact HY]. intros i j Hi Hj. cbn beta. rewrite X1.
  rewrite (changed_ext R (m_ncol T) (melem x) (changed (m_nrow m) (melem m) (melem T)) (melem S) (melem S)) by auto.
  rewrite changed_changed. apply changed_ext; auto; intros a Ha; symmetry; apply HU; assumption.
Qed.
Print Assumptions C112_twice.

(** If the product of T and S is one, the change by S takes back the change by T. *)
Theorem C112_back : forall (R : cring) (m T S : mat R), mat_wf m -> mat_wf T -> mat_wf S -> 0 < m_nrow m -> 0 < m_ncol T ->
  m_ncol m = m_nrow m -> m_nrow T = m_nrow m -> m_nrow S = m_ncol T -> m_ncol S = m_nrow m ->
  (forall i j, i < m_nrow m -> j < m_nrow m -> times (m_ncol T) (melem T) (melem S) i j = delta i j) ->
  (do x <- rotate R m T ;; rotate R x S) = Ok m.
Proof.
  intros R m T S Wm WT WS Hn HT Es ET ES ES2 H.
  destruct (rotate_ok R m T Wm WT Hn HT Es ET) as (x & Ex & X1 & X2 & WX & HX). rewrite Ex. cbn [bind].
  destruct (rotate_ok R x S WX WS ltac:(lia) ltac:(lia) ltac:(lia) ltac:(lia)) as (y & Ey & HY). rewrite Ey. f_equal. rewrite ES2 in HY.
  apply (is_mat_unique R y m (m_nrow m) (m_nrow m) (melem m)); [|rewrite <- Es at 2; apply is_mat_self, Wm].
  eapply is_mat_ext; [|exact HY]. intros i j Hi Hj. cbn beta. rewrite X1.
  rewrite (changed_ext R (m_ncol T) (melem x) (changed (m_nrow m) (melem m) (melem T)) (melem S) (melem S)).
  2:{ intros a b Ha Hb. apply HX; assumption. } 2,3: reflexivity.
  rewrite changed_changed. rewrite (changed_ext R _ (melem m) (melem m) _ delta); auto. apply changed_one; assumption.
Qed.
Print Assumptions C112_back.

(** A Hermitian matrix stays Hermitian. *)
Theorem C112_hermitian : forall (R : cring) (m T m' : mat R), mat_wf m -> mat_wf T -> 0 < m_nrow m -> 0 < m_ncol T ->
  m_ncol m = m_nrow m -> m_nrow T = m_nrow m ->
  (forall i j, i < m_nrow m -> j < m_nrow m -> melem m j i = cconj (melem m i j)) -> rotate R m T = Ok m' ->
  forall i j, i < m_ncol T -> j < m_ncol T -> melem m' j i = cconj (melem m' i j).
Proof.
  intros R m T m' Wm WT Hn HT Es ET H E i j Hi Hj. destruct (rotate_ok R m T Wm WT Hn HT Es ET) as (x & Ex & X1 & X2 & WX & HX).
  rewrite E in Ex. apply Ok_inj in Ex. subst x. rewrite !HX by assumption. unfold changed. rewrite sumn_conj, sumn_exchange. apply sumn_ext. intros a Ha.
  rewrite sumn_conj. apply sumn_ext. intros b Hb. rewrite !c_conj_mul, c_conj_inv, <- H by assumption.
  apply turn.
Qed.
Print Assumptions C112_hermitian.

(** If T T^dagger is one, the trace stays the same. *)
Theorem C112_trace : forall (R : cring) (m T m' : mat R), mat_wf m -> mat_wf T -> 0 < m_nrow m -> 0 < m_ncol T ->
  m_ncol m = m_nrow m -> m_nrow T = m_nrow m ->
  (forall a b, a < m_nrow m -> b < m_nrow m -> sumn (m_ncol T) (fun i => cmul (melem T b i) (cconj (melem T a i))) = delta b a) ->
  rotate R m T = Ok m' -> trace (m_ncol T) (melem m') = trace (m_nrow m) (melem m).
Proof.
  intros R m T m' Wm WT Hn HT Es ET H E. destruct (rotate_ok R m T Wm WT Hn HT Es ET) as (x & Ex & X1 & X2 & WX & HX).
  rewrite E in Ex. apply Ok_inj in Ex. subst x. unfold trace. rewrite (sumn_ext R _ _ (fun i => changed (m_nrow m) (melem m) (melem T) i i)) by (intros i Hi; apply HX; assumption).
  unfold changed. rewrite sumn_exchange. apply sumn_ext. intros a Ha. rewrite sumn_exchange.
  transitivity (sumn (m_nrow m) (fun b => if a =? b then melem m a b else c0)); [|apply sumn_delta, Ha].
  apply sumn_ext. intros b Hb. transitivity (cmul (melem m a b) (delta b a)).
  - rewrite <- H, <- sumn_mul_l by assumption. apply sumn_ext. intros i _. apply turn2.
  - unfold delta. rewrite (Nat.eqb_sym b a). destruct (a =? b); [apply cmul_1_r|apply cmul_0_r].
Qed.
Print Assumptions C112_trace.

(** Sizes that do not fit are not always noticed: if m has fewer rows than T and at least as many columns, rows of T are left
    out of the first product, and columns of m of the second, and there is a result. *)
Theorem C112_sizes_refuted : forall (R : cring) (m T : mat R), mat_wf m -> mat_wf T -> 0 < m_nrow m -> 0 < m_ncol T ->
  m_nrow m <= m_nrow T -> m_nrow T <= m_ncol m ->
  exists m', rotate R m T = Ok m' /\ is_mat m' (m_ncol T) (m_ncol T) (fun i j =>
    sumn (m_nrow T) (fun b => cmul (sumn (m_nrow m) (fun a => cmul (cconj (melem T a i)) (melem m a b))) (melem T b j))).
Proof. exact rotate_general. Qed.
Print Assumptions C112_sizes_refuted.

(** If T has fewer rows than m, BLAS stops the program. *)
Theorem C112_rows_refused : forall (R : cring) (m T : mat R), mat_wf m -> mat_wf T -> 0 < m_nrow T -> 0 < m_ncol T -> 0 < m_ncol m ->
  m_nrow T < m_nrow m -> rotate R m T = Throw.
Proof.
  intros R m T Wm WT H1 H2 H3 H. unfold rotate.
  rewrite (mget_ok R T 0 0 WT H1 H2). cbn [bind]. rewrite (mget_ok R m 0 0 Wm ltac:(lia) H3). cbn [bind].
  rewrite (mget_ok R (mat_new R (m_ncol T) (m_ncol m)) 0 0); [|apply mat_new_is|exact H2|exact H3]. cbn [bind].
  unfold gemm at 1. cbn [flagN flagT flagC Ascii.eqb Bool.eqb orb negb]. destruct (Nat.ltb_spec (m_nrow T) (Nat.max 1 (m_nrow m))) as [_|N]; [reflexivity|lia].
Qed.
Print Assumptions C112_rows_refused.

(** If m has fewer columns than T has rows, the program reads outside of the first product. *)
Theorem C112_columns_refuted : forall (R : cring) (m T : mat R), @c1 R <> c0 -> mat_wf m -> mat_wf T -> 0 < m_nrow m -> 0 < m_ncol T -> 0 < m_ncol m ->
  m_nrow m <= m_nrow T -> m_ncol m < m_nrow T -> rotate R m T = UB.
Proof.
  intros R m T N Wm WT H1 H2 H3 H4 H. unfold rotate.
  rewrite (mget_ok R T 0 0 WT ltac:(lia) H2). cbn [bind]. rewrite (mget_ok R m 0 0 Wm H1 H3). cbn [bind].
  set (k := m_ncol T) in *. set (c := m_ncol m) in *. assert (WC : mat_wf (mat_new R k c)) by apply mat_new_is.
  rewrite (mget_ok R (mat_new R k c) 0 0 WC H2 H3). cbn [bind].
  destruct (gemm_whole R "C" "N" Adjoint Plain k c (m_nrow m) c1 c0 (m_data T) (m_data m) (m_data (mat_new R k c)) (m_nrow T) (m_nrow m) (m_nrow (mat_new R k c))) as (us & E1 & P1 & _).
  { left; reflexivity. } { left; reflexivity. }
  { cbn [holds_op]. apply wf_holds; auto; fold k; lia. } { cbn [holds_op]. apply wf_holds; auto. }
  { apply wf_holds; auto; cbn [mat_new m_nrow m_ncol]; lia. }
  rewrite E1. cbn [bind]. set (D := fold_left (write R c1 c0) us (m_data (mat_new R k c))) in *.
  change (m_nrow (mat_new R k c)) with k in *. change (m_ncol (mat_new R k c)) with c in *.
  unfold mat_resize. cbn [m_nrow m_ncol m_data mat_empty Nat.ltb Nat.leb andb bind].
  assert (LD : length D = k * c) by (rewrite P1; exact WC).
  rewrite (mget_ok R (mkmat k c D) 0 0 LD H2 H3). cbn [bind].
  rewrite (mget_ok R (mkmat k k (vresize [] (k * k) c0)) 0 0); [|unfold mat_wf; cbn [m_nrow m_ncol m_data]; apply vresize_length|exact H2|exact H2]. cbn [bind].
  assert (X : forall f : nat * nat -> res (update R), f (0, 0) = UB -> traverse f (flat_map (fun j => map (fun i => (i, j)) (seq 0 k)) (seq 0 k)) = UB).
  { intros f Hf. destruct k as [|k']; [lia|]. cbn [seq flat_map map app traverse]. rewrite Hf. reflexivity. }
  unfold gemm at 1. cbn [flagN flagT flagC Ascii.eqb Bool.eqb orb negb].
  destruct (Nat.ltb_spec k (Nat.max 1 k)); [lia|]. destruct (Nat.ltb_spec (m_nrow T) (Nat.max 1 (m_nrow T))); [lia|].
  rewrite X; [reflexivity|]. destruct (ceqb_spec R c1 c0) as [|_]; [contradiction|].
  replace (m_nrow T) with (c + (m_nrow T - c)) at 1 by lia. rewrite forM_app.
  loopM (fun (l : nat) (s : R) => True) as s Es Hs; [exact I| |].
  - intros l s [_ Hl] _. unfold read_op. cbn [flagN Ascii.eqb Bool.eqb orb].
    rewrite (@vget_ok _ D _ c0) by (rewrite LD; clear - Hl H2; nia). cbn [bind].
    rewrite (@vget_ok _ (m_data T) _ c0) by (rewrite WT; fold k; clear - Hl H2 H; nia). cbn [bind]. eexists. split; [reflexivity|exact I].
  - rewrite Es. cbn [bind]. destruct (m_nrow T - c) as [|d] eqn:Ed; [lia|]. cbn [forM Nat.add]. unfold read_op at 1. cbn [flagN Ascii.eqb Bool.eqb orb].
    unfold vget. rewrite (proj2 (nth_error_None D _)) by (rewrite LD; clear; nia). reflexivity.
Qed.
Print Assumptions C112_columns_refuted.

(** A matrix without rows or columns is outside of what is allowed, also where the sizes fit. *)
Theorem C112_empty_refuted : forall (R : cring) (m T : mat R), m_nrow m = 0 \/ m_ncol T = 0 \/ m_ncol m = 0 -> m_nrow T = m_nrow m -> rotate R m T = UB.
Proof.
  intros R m T H ET. unfold rotate. destruct (mget R T 0 0) eqn:E1; cbn [bind]; try (unfold mget in E1; destruct (_ && _) in E1; [unfold vget in E1; destruct (nth_error _ _) in E1|]; congruence).
  rewrite mget_out; [reflexivity|]. unfold mget in E1. destruct H as [H|[H|H]]; [left; lia|exfalso|right; lia].
  rewrite H, andb_false_r in E1. discriminate E1.
Qed.
Print Assumptions C112_empty_refuted.

Definition had : mat Zring := mkmat 2 2 [0; 1; 1; 0]%Z.
(** Two vectors that are exchanged, and a matrix that is not symmetric; one vector that is kept *)
Example C112_nonvacuous : let m := @mkmat Zring 2 2 [1; 2; 3; 4]%Z in
  mat_wf m /\ rotate Zring m had = Ok (mkmat 2 2 [4; 3; 2; 1]%Z) /\ rotate Zring m (mkmat 2 1 [1; 1]%Z) = Ok (mkmat 1 1 [10%Z]) /\
  rotate Zring (mkmat 1 2 [1; 3]%Z) (mkmat 2 1 [1; 1]%Z) = Ok (mkmat 1 1 [4%Z]) /\
  (forall a b, a < 2 -> b < 2 -> times 2 (melem had) (melem had) a b = delta a b).
Proof.
  intros m. split; [reflexivity|]. split; [reflexivity|]. split; [reflexivity|]. split; [reflexivity|].
  intros [|[|a]] [|[|b]] Ha Hb; try lia; reflexivity.
Qed.
