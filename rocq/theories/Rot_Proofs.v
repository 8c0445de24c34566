(** Proofs about the change of basis. *)
From Coq Require Import Ascii Lia Ring Permutation.
From Verif Require Import Prelude Ring Dense_Model Dense_Spec Dense_Proofs Gemm_Model Gemm_Spec Gemm_Proofs Rot_Model Rot_Spec.
Local Open Scope nat_scope.

Section Rot.
  Variable R : cring.
  Add Ring Rr : (c_ring R).

  Lemma gemm_whole tA tB oA oB m n k (alpha beta : R) A B C ldA ldB ldC :
    letter tA oA -> letter tB oB -> holds_op oA A ldA m k -> holds_op oB B ldB k n -> holds C ldC m n ->
    exists us, gemm R tA tB m n k alpha A 0 ldA B 0 ldB (length C) 0 ldC = Ok us /\
      is_product oA oB m n k alpha A ldA B ldB beta C ldC (fold_left (write R alpha beta) us C).
  Proof.
    intros LA LB HA HB HC. pose proof (gemm_ok R tA tB oA oB m n k alpha A B C ldA ldB ldC LA LB HA HB HC 0 0 m n) as G.
    cbn [Nat.mul Nat.add] in G.
    replace (if is_notrans tA then 0 else 0) with 0 in G by (destruct (is_notrans tA); reflexivity).
    replace (if is_notrans tB then 0 else 0) with 0 in G by (destruct (is_notrans tB); reflexivity).
    rewrite G by lia. eexists. split; [reflexivity|]. apply exec_product; auto.
    match goal with |- Permutation ?x ?y => replace x with y; [reflexivity|] end.
    apply map_ext. intros [i j]. reflexivity.
  Qed.

  Lemma wf_holds (A : mat R) r c : mat_wf A -> 0 < m_nrow A -> r <= m_nrow A -> c <= m_ncol A -> holds (m_data A) (m_nrow A) r c.
  Proof. intros W H0 Hr Hc. split; [lia|]. split; [lia|]. intros i j Hi Hj. rewrite W. apply idx_lt; lia. Qed.

  Lemma first_ok (A : mat R) : mat_wf A -> 0 < m_nrow A -> 0 < m_ncol A -> exists x, mget R A 0 0 = Ok x.
  Proof. intros W H1 H2. rewrite mget_ok by assumption. eexists. reflexivity. Qed.

  Lemma rotate_general (m T : mat R) : mat_wf m -> mat_wf T -> 0 < m_nrow m -> 0 < m_ncol T ->
    m_nrow m <= m_nrow T -> m_nrow T <= m_ncol m ->
    exists m', rotate R m T = Ok m' /\ is_mat m' (m_ncol T) (m_ncol T) (fun i j =>
      sumn (m_nrow T) (fun b => cmul (sumn (m_nrow m) (fun a => cmul (cconj (melem T a i)) (melem m a b))) (melem T b j))).
  Proof.
    intros Wm WT Hn Hk H1 H2. unfold rotate. set (k := m_ncol T) in *. set (c := m_ncol m) in *.
    destruct (first_ok T WT ltac:(lia) ltac:(fold k; lia)) as (t0 & ET). rewrite ET. cbn [bind].
    destruct (first_ok m Wm ltac:(lia) ltac:(fold c; lia)) as (m0 & Em). rewrite Em. cbn [bind].
    assert (WC : mat_wf (mat_new R k c)) by apply mat_new_is.
    destruct (first_ok (mat_new R k c) WC ltac:(exact Hk) ltac:(cbn [mat_new m_ncol]; lia)) as (x0 & Ex). rewrite Ex. cbn [bind].
    destruct (gemm_whole "C" "N" Adjoint Plain k c (m_nrow m) c1 c0 (m_data T) (m_data m) (m_data (mat_new R k c)) (m_nrow T) (m_nrow m) (m_nrow (mat_new R k c))) as (us & E1 & P1 & P2 & _).
    { left; reflexivity. } { left; reflexivity. }
    { cbn [holds_op]. apply wf_holds; auto; fold k; lia. }
    { cbn [holds_op]. apply wf_holds; auto. }
    { apply wf_holds; auto; cbn [mat_new m_nrow m_ncol]; lia. }
    rewrite E1. cbn [bind]. set (D := fold_left (write R c1 c0) us (m_data (mat_new R k c))) in *.
    change (m_nrow (mat_new R k c)) with k in *. change (m_ncol (mat_new R k c)) with c in *.
    unfold mat_resize. cbn [m_nrow m_ncol m_data mat_empty Nat.ltb Nat.leb andb bind].
    set (Z := mkmat k k (vresize [] (k * k) (@c0 R))).
    assert (WZ : mat_wf Z) by (unfold mat_wf, Z; cbn [m_nrow m_ncol m_data]; apply vresize_length).
    assert (WD : mat_wf (mkmat k c D)) by (unfold mat_wf; cbn [m_nrow m_ncol m_data]; rewrite P1; exact WC).
    destruct (first_ok (mkmat k c D) WD ltac:(exact Hk) ltac:(cbn [m_ncol]; lia)) as (d0 & Ed). rewrite Ed. cbn [bind].
    destruct (first_ok Z WZ ltac:(exact Hk) ltac:(exact Hk)) as (z0 & Ez). rewrite Ez. cbn [bind].
    destruct (gemm_whole "N" "N" Plain Plain k k (m_nrow T) c1 c0 D (m_data T) (m_data Z) k (m_nrow T) k) as (vs & E2 & Q1 & Q2 & _).
    { left; reflexivity. } { left; reflexivity. }
    { cbn [holds_op]. apply (wf_holds (mkmat k c D)); auto; cbn [m_nrow m_ncol]; lia. }
    { cbn [holds_op]. apply wf_holds; auto; fold k; lia. }
    { apply (wf_holds Z); auto. }
    change (vresize [] (k * k) (@c0 R)) with (m_data Z). rewrite E2. cbn [bind]. eexists. split; [reflexivity|].
    split; [reflexivity|]. split; [reflexivity|]. split; [unfold mat_wf; cbn [m_nrow m_ncol m_data]; rewrite Q1; exact WZ|].
    intros i j Hi Hj. unfold melem at 1. cbn [m_nrow m_data]. fold (elem (fold_left (write R c1 c0) vs (m_data Z)) k i j).
    rewrite Q2 by assumption. rewrite cmul_1_l, cmul_0_l, cadd_0_r. apply sumn_ext. intros b Hb. cbn [elem_op].
    rewrite P2 by lia. rewrite cmul_1_l, cmul_0_l, cadd_0_r. reflexivity.
  Qed.

  Lemma as_double n r (f g : nat -> R) (h : nat -> nat -> R) :
    sumn r (fun b => cmul (sumn n (fun a => cmul (f a) (h a b))) (g b)) = sumn n (fun a => sumn r (fun b => cmul (cmul (f a) (h a b)) (g b))).
  Proof. rewrite sumn_exchange. apply sumn_ext. intros b _. rewrite <- sumn_mul_r. reflexivity. Qed.

  Lemma rotate_ok (m T : mat R) : mat_wf m -> mat_wf T -> 0 < m_nrow m -> 0 < m_ncol T -> m_ncol m = m_nrow m -> m_nrow T = m_nrow m ->
    exists m', rotate R m T = Ok m' /\ is_mat m' (m_ncol T) (m_ncol T) (changed (m_nrow m) (melem m) (melem T)).
  Proof.
    intros Wm WT Hn Hk Hs Ht. destruct (rotate_general m T Wm WT Hn Hk ltac:(lia) ltac:(lia)) as (m' & E & H). exists m'. split; [exact E|].
    eapply is_mat_ext; [|exact H]. intros i j Hi Hj. cbn beta. rewrite Ht, as_double. reflexivity.
  Qed.

  Lemma changed_ext n (m m' T T' : nat -> nat -> R) i j : (forall a b, a < n -> b < n -> m a b = m' a b) ->
    (forall a, a < n -> T a i = T' a i) -> (forall a, a < n -> T a j = T' a j) -> changed n m T i j = changed n m' T' i j.
  Proof. intros H1 H2 H3. unfold changed. apply sumn_ext. intros a Ha. apply sumn_ext. intros b Hb. rewrite H1, H2, H3 by assumption. reflexivity. Qed.

  Lemma changed_changed n k (m T S : nat -> nat -> R) i j : changed k (changed n m T) S i j = changed n m (times k T S) i j.
  Proof.
    unfold changed, times.
    transitivity (sumn k (fun p => sumn k (fun q => sumn n (fun a => sumn n (fun b => cmul (cmul (cmul (cconj (T a p)) (cconj (S p i))) (m a b)) (cmul (T b q) (S q j))))))).
    { apply sumn_ext. intros p _. apply sumn_ext. intros q _. rewrite <- sumn_mul_l, <- sumn_mul_r. apply sumn_ext. intros a _.
      rewrite <- sumn_mul_l, <- sumn_mul_r. apply sumn_ext. intros b _. ring. }
    transitivity (sumn n (fun a => sumn n (fun b => sumn k (fun p => sumn k (fun q => cmul (cmul (cmul (cconj (T a p)) (cconj (S p i))) (m a b)) (cmul (T b q) (S q j))))))).
    { transitivity (sumn k (fun p => sumn n (fun a => sumn k (fun q => sumn n (fun b => cmul (cmul (cmul (cconj (T a p)) (cconj (S p i))) (m a b)) (cmul (T b q) (S q j))))))).
      { apply sumn_ext. intros p _. apply sumn_exchange. }
      rewrite sumn_exchange. apply sumn_ext. intros a _.
      transitivity (sumn k (fun p => sumn n (fun b => sumn k (fun q => cmul (cmul (cmul (cconj (T a p)) (cconj (S p i))) (m a b)) (cmul (T b q) (S q j)))))).
      { apply sumn_ext. intros p _. apply sumn_exchange. }
      apply sumn_exchange. }
    apply sumn_ext. intros a _. apply sumn_ext. intros b _. rewrite sumn_conj, <- !sumn_mul_r. apply sumn_ext. intros p _.
    rewrite c_conj_mul, <- sumn_mul_l. reflexivity.
  Qed.

  Lemma changed_one n (m : nat -> nat -> R) i j : i < n -> j < n -> changed n m delta i j = m i j.
  Proof.
    intros Hi Hj. unfold changed.
    transitivity (sumn n (fun a => if i =? a then m a j else c0)).
    - apply sumn_ext. intros a _. unfold delta. rewrite (Nat.eqb_sym a i). destruct (Nat.eqb_spec i a) as [->|N].
      + transitivity (sumn n (fun b => if j =? b then m a b else c0)).
        * apply sumn_ext. intros b _. rewrite (Nat.eqb_sym b j), c_conj_1. destruct (j =? b); ring.
        * rewrite sumn_delta by exact Hj. reflexivity.
      + apply sumn_zero. intros b _. rewrite cconj_0. ring.
    - rewrite sumn_delta by exact Hi. reflexivity.
  Qed.
End Rot.
