(** Proofs about the dense matrix model. *)
From Verif Require Import Prelude Ring Vec_Model Vec_Spec Vec_Proofs Dense_Model Dense_Spec.
From Coq Require Import Ring.

(** Column-major addressing. *)
Lemma idx_lt i j r c : i < r -> j < c -> i + j * r < r * c.
Proof. intros. assert (S j * r <= c * r) by (apply Nat.mul_le_mono_r; lia). simpl in *. lia. Qed.

Lemma idx_inj i j i' j' r : i < r -> i' < r -> i + j * r = i' + j' * r -> i = i' /\ j = j'.
Proof.
  intros Hi Hi' H.
  assert (j = j') as ->.
  { assert (Hd : forall x y, x < r -> (x + y * r) / r = y).
    { intros x y Hx. rewrite Nat.div_add by lia. rewrite Nat.div_small by exact Hx. lia. }
    rewrite <- (Hd i j Hi), <- (Hd i' j' Hi'), H. reflexivity. }
  split; lia.
Qed.

Lemma idx_surj k r c : k < r * c -> exists i j, i < r /\ j < c /\ k = i + j * r.
Proof.
  intros H. destruct (Nat.eq_dec r 0) as [->|Hr]; [lia|].
  exists (k mod r), (k / r). split; [apply Nat.mod_upper_bound; exact Hr|]. split.
  - apply Nat.div_lt_upper_bound; assumption.
  - rewrite (Nat.div_mod k r Hr) at 1. lia.
Qed.

Section Proofs.
  Variable R : cring.
  Local Open Scope cring_scope.
  Add Ring Rring : (c_ring R).
  Implicit Types (a b m : mat R).

  Lemma mget_ok m i j : mat_wf m -> (i < m_nrow m)%nat -> (j < m_ncol m)%nat ->
    mget R m i j = Ok (melem m i j).
  Proof.
    intros W Hi Hj. unfold mget.
    apply Nat.ltb_lt in Hi as Hi'. apply Nat.ltb_lt in Hj as Hj'. rewrite Hi', Hj'. simpl.
    apply vget_ok. rewrite W. apply idx_lt; assumption.
  Qed.

  Lemma mget_out m i j : (m_nrow m <= i \/ m_ncol m <= j)%nat -> mget R m i j = UB.
  Proof.
    intros H. unfold mget. destruct (Nat.ltb_spec i (m_nrow m)); simpl; [|reflexivity].
    destruct (Nat.ltb_spec j (m_ncol m)); simpl; [lia|reflexivity].
  Qed.

  Lemma mset_ok m i j x : mat_wf m -> (i < m_nrow m)%nat -> (j < m_ncol m)%nat ->
    exists m', mset R m i j x = Ok m' /\
      is_mat m' (m_nrow m) (m_ncol m)
        (fun i' j' => if (i' =? i)%nat && (j' =? j)%nat then x else melem m i' j').
  Proof.
    intros W Hi Hj. unfold mset.
    apply Nat.ltb_lt in Hi as Hi'. apply Nat.ltb_lt in Hj as Hj'. rewrite Hi', Hj'. simpl.
    assert (Hlt := idx_lt i j _ _ Hi Hj). unfold mat_wf in W.
    rewrite vset_ok by lia. simpl. eexists. split; [reflexivity|].
    unfold is_mat, mat_wf, melem. cbn [m_nrow m_ncol m_data]. rewrite upd_length.
    repeat split; auto. intros i' j' H1 H2. rewrite nth_upd.
    destruct (Nat.eqb_spec (i' + j' * m_nrow m) (i + j * m_nrow m)) as [E|N].
    - apply idx_inj in E; auto. destruct E as [-> ->]. rewrite !Nat.eqb_refl. simpl.
      destruct (Nat.ltb_spec (i + j * m_nrow m) (length (m_data m))); [reflexivity|lia].
    - simpl. destruct (Nat.eqb_spec i' i) as [->|]; simpl; [|reflexivity].
      destruct (Nat.eqb_spec j' j) as [->|]; [congruence|reflexivity].
  Qed.

  Lemma is_mat_ext m r c f g :
    (forall i j, (i < r)%nat -> (j < c)%nat -> f i j = g i j) -> is_mat m r c f -> is_mat m r c g.
  Proof.
    intros H [H1 [H2 [H3 H4]]]. repeat split; auto. intros i j Hi Hj. rewrite H4, H; auto.
  Qed.

  Lemma is_mat_self m : mat_wf m -> is_mat m (m_nrow m) (m_ncol m) (melem m).
  Proof. intros W. repeat split; auto. Qed.

  (** Two matrices with the same elements are equal. *)
  Lemma is_mat_unique m m' r c f : is_mat m r c f -> is_mat m' r c f -> m = m'.
  Proof.
    intros [H1 [H2 [H3 H4]]] [H1' [H2' [H3' H4']]].
    destruct m as [nr nc d], m' as [nr' nc' d']. unfold mat_wf, melem in *.
    cbn [m_nrow m_ncol m_data] in *. subst nr' nc' nr nc. f_equal.
    apply (list_eq_nth d d' c0); [congruence|]. intros k Hk. rewrite H3 in Hk.
    apply idx_surj in Hk. destruct Hk as [i [j [Hi [Hj ->]]]]. rewrite H4, H4'; auto.
  Qed.

  Lemma mat_new_is r c : is_mat (mat_new R r c) r c (fun _ _ => c0).
  Proof.
    unfold is_mat, mat_wf, mat_new, melem. cbn [m_nrow m_ncol m_data]. rewrite repeat_length.
    repeat split; auto. intros. apply nth_repeat_same.
  Qed.

  Lemma mat_fill_is r c x : is_mat (mat_fill R r c x) r c (fun _ _ => x).
  Proof.
    unfold is_mat, mat_wf, mat_fill, melem. cbn [m_nrow m_ncol m_data]. rewrite repeat_length.
    repeat split; auto. intros i j Hi Hj. apply nth_repeat_in. apply idx_lt; assumption.
  Qed.

  Lemma mat_of_data_ok data r c :
    (r * c <= length data)%nat ->
    exists m, mat_of_data R data r c = Ok m /\
      is_mat m r c (fun i j => nth (i + j * r) data c0).
  Proof.
    intros H. unfold mat_of_data. destruct (Nat.ltb_spec (length data) (r * c)); [lia|].
    eexists. split; [reflexivity|]. unfold is_mat, mat_wf, melem. cbn [m_nrow m_ncol m_data].
    rewrite vresize_length. repeat split; auto. intros i j Hi Hj.
    assert (Hlt := idx_lt i j r c Hi Hj). rewrite nth_vresize by exact Hlt.
    destruct (Nat.ltb_spec (i + j * r) (length data)); [reflexivity|lia].
  Qed.

  (** resize with a value: it keeps old storage, position by position. *)
  Lemma mat_resize_val_same m x : mat_wf m -> mat_resize_val R m (m_nrow m) (m_ncol m) x = m.
  Proof.
    intros W. unfold mat_resize_val, vresize. destruct m as [r c d]. unfold mat_wf in W.
    cbn [m_nrow m_ncol m_data] in *. f_equal. rewrite <- W, firstn_all, Nat.sub_diag.
    apply app_nil_r.
  Qed.

  Lemma mat_resize_wf m r c : (m_nrow m = 0 \/ m_nrow m = r)%nat ->
    exists m', mat_resize R m r c = Ok m' /\ m_nrow m' = r /\ m_ncol m' = c /\ mat_wf m'.
  Proof.
    intros H. unfold mat_resize.
    replace ((0 <? m_nrow m)%nat && negb (m_nrow m =? r)%nat) with false.
    - eexists. split; [reflexivity|]. unfold mat_wf. simpl. rewrite vresize_length. auto.
    - destruct (Nat.ltb_spec 0 (m_nrow m)); simpl; [|reflexivity].
      destruct (Nat.eqb_spec (m_nrow m) r); simpl; [reflexivity|lia].
  Qed.

  (** Adding or removing columns keeps the others. *)
  Lemma mat_resize_cols m r c : mat_wf m -> m_nrow m = r ->
    exists m', mat_resize R m r c = Ok m' /\
      is_mat m' r c (fun i j => if (j <? m_ncol m)%nat then melem m i j else c0).
  Proof.
    intros W Hr. unfold mat_resize. subst r. rewrite Nat.eqb_refl. simpl. rewrite andb_false_r.
    eexists. split; [reflexivity|]. unfold is_mat, melem. unfold mat_wf in *.
    cbn [m_nrow m_ncol m_data]. rewrite vresize_length. repeat split; auto.
    intros i j Hi Hj. rewrite nth_vresize by (apply idx_lt; assumption). rewrite W.
    destruct (Nat.ltb_spec j (m_ncol m)).
    - destruct (Nat.ltb_spec (i + j * m_nrow m) (m_nrow m * m_ncol m)); [reflexivity|].
      pose proof (idx_lt i j (m_nrow m) (m_ncol m) Hi ltac:(lia)). lia.
    - destruct (Nat.ltb_spec (i + j * m_nrow m) (m_nrow m * m_ncol m)); [|reflexivity].
      assert (m_ncol m * m_nrow m <= j * m_nrow m)%nat by (apply Nat.mul_le_mono_r; lia). lia.
  Qed.

  Lemma mat_resize_throw m r c : (0 < m_nrow m)%nat -> m_nrow m <> r -> mat_resize R m r c = Throw.
  Proof.
    intros H1 H2. unfold mat_resize. apply Nat.ltb_lt in H1. rewrite H1.
    apply Nat.eqb_neq in H2. rewrite H2. reflexivity.
  Qed.

  (** The loop nest m(i,j) = f(i,j). *)
  Lemma fill2_spec r c body (f : nat -> nat -> R) m :
    m_nrow m = r -> m_ncol m = c -> mat_wf m ->
    (forall i j cur, (i < r)%nat -> (j < c)%nat ->
       m_nrow cur = r -> m_ncol cur = c -> mat_wf cur -> body i j cur = Ok (f i j)) ->
    exists m', fill2 R r c body m = Ok m' /\ is_mat m' r c f.
  Proof.
    intros Hr Hc W Hb. unfold fill2.
    loopM (fun i m' => is_mat m' r c (fun i' j' => if (i' <? i)%nat then f i' j' else melem m' i' j'))
      as m' E H.
    - repeat split; auto.
    - intros i t Hi [Hr1 [Hc1 [W1 H1]]].
      loopM (fun j m' => is_mat m' r c (fun i' j' =>
               if (i' <? i)%nat || ((i' =? i)%nat && (j' <? j)%nat)
               then f i' j' else melem m' i' j')) as m' E H.
      + repeat split; auto. intros i' j' Hi' Hj'.
        destruct (Nat.ltb_spec i' i); simpl.
        * rewrite H1 by auto. apply Nat.ltb_lt in H as ->. reflexivity.
        * rewrite andb_false_r. reflexivity.
      + intros j t2 Hj [Hr2 [Hc2 [W2 H2]]]. rewrite Hb by (auto; lia). simpl.
        destruct (mset_ok t2 i j (f i j) W2) as [m2 [E2 [Hr3 [Hc3 [W3 H3]]]]]; [lia|lia|].
        exists m2. split; [exact E2|]. rewrite Hr2, Hc2 in *.
        repeat split; auto. intros i' j' Hi' Hj'.
        destruct ((i' <? i)%nat || ((i' =? i)%nat && (j' <? S j)%nat)) eqn:B; [|reflexivity].
        rewrite H3 by auto.
        destruct (Nat.eqb_spec i' i) as [->|N1]; simpl in *.
        * destruct (Nat.eqb_spec j' j) as [->|N2]; [reflexivity|].
          rewrite H2 by auto. rewrite Nat.eqb_refl, Nat.ltb_irrefl in *. simpl in *.
          destruct (Nat.ltb_spec j' j); [reflexivity|]. apply Nat.ltb_lt in B. lia.
        * rewrite H2 by auto. rewrite orb_false_r in B. rewrite B. reflexivity.
      + exists m'. split; [exact E|]. destruct H as [Hr2 [Hc2 [W2 H2]]].
        repeat split; auto. intros i' j' Hi' Hj'.
        destruct (Nat.ltb_spec i' (S i)); [|reflexivity].
        rewrite H2 by auto. destruct (Nat.ltb_spec i' i); simpl; [reflexivity|].
        replace i' with i by lia. rewrite Nat.eqb_refl. simpl in *.
        apply Nat.ltb_lt in Hj'. rewrite Hj'. reflexivity.
    - exists m'. split; [exact E|]. eapply is_mat_ext; [|exact H].
      intros i j Hi Hj. simpl. apply Nat.ltb_lt in Hi. rewrite Hi. reflexivity.
  Qed.

  (** Product. *)
  Lemma matrixMatrix_ok a b t :
    mat_wf a -> mat_wf b -> m_ncol a = m_nrow b ->
    exists m, matrixMatrix R a b t = Ok m /\
      is_mat m (m_nrow a) (m_ncol b)
        (fun i j => sumn (m_ncol a) (fun k => melem a i k * melem b k j) * t).
  Proof.
    intros Wa Wb Hab. unfold matrixMatrix. rewrite Hab, Nat.eqb_refl. rewrite <- Hab.
    destruct (mat_new_is (m_nrow a) (m_ncol b)) as [H1 [H2 [H3 _]]].
    apply fill2_spec; auto. intros i j cur Hi Hj _ _ _.
    rewrite (forM_sum R _ _ (fun k => melem a i k * melem b k j)).
    - simpl. rewrite cadd_0_l. reflexivity.
    - intros k acc Hk. rewrite !mget_ok by (auto; lia). reflexivity.
  Qed.

  Lemma matrixMatrix_mismatch a b t : m_ncol a <> m_nrow b -> matrixMatrix R a b t = UB.
  Proof. intros H. unfold matrixMatrix. apply Nat.eqb_neq in H. rewrite H. reflexivity. Qed.

  (** Transposes. *)
  Lemma transposeConjugate1_ok a : mat_wf a ->
    exists m, transposeConjugate1 R a = Ok m /\
      is_mat m (m_ncol a) (m_nrow a) (fun i j => cconj (melem a j i)).
  Proof.
    intros Wa. unfold transposeConjugate1.
    destruct (mat_new_is (m_ncol a) (m_nrow a)) as [H1 [H2 [H3 _]]].
    apply fill2_spec; auto. intros i j cur Hi Hj _ _ _. rewrite mget_ok by auto. reflexivity.
  Qed.

  Lemma transposeConjugate2_ok m2 a : mat_wf a -> (m_nrow m2 = 0 \/ m_nrow m2 = m_ncol a)%nat ->
    exists m, transposeConjugate2 R m2 (MOther a) = Ok m /\
      is_mat m (m_ncol a) (m_nrow a) (fun i j => cconj (melem a j i)).
  Proof.
    intros Wa H. unfold transposeConjugate2. simpl.
    destruct (mat_resize_wf m2 (m_ncol a) (m_nrow a) H) as [m' [-> [Hr [Hc W]]]]. simpl.
    rewrite Hr, Hc. apply fill2_spec; auto. intros i j cur Hi Hj _ _ _.
    rewrite mget_ok by auto. reflexivity.
  Qed.

  Lemma transpose2_ok m2 a : mat_wf a -> (m_nrow m2 = 0 \/ m_nrow m2 = m_ncol a)%nat ->
    exists m, transpose2 R m2 (MOther a) = Ok m /\
      is_mat m (m_ncol a) (m_nrow a) (fun i j => melem a j i).
  Proof.
    intros Wa H. unfold transpose2. simpl.
    destruct (mat_resize_wf m2 (m_ncol a) (m_nrow a) H) as [m' [-> [Hr [Hc W]]]]. simpl.
    rewrite Hr, Hc. apply fill2_spec; auto. intros i j cur Hi Hj _ _ _.
    rewrite mget_ok by auto. reflexivity.
  Qed.

  (** Elementwise operations act on the storage. *)
  Lemma data_is_mat m r c d (f : nat -> nat -> R) g :
    is_vec d (r * c) g -> (forall i j, (i < r)%nat -> (j < c)%nat -> g (i + j * r)%nat = f i j) ->
    is_mat (mkmat r c d) r c f.
  Proof.
    intros [H1 H2] H. unfold is_mat, mat_wf, melem. cbn [m_nrow m_ncol m_data].
    repeat split; auto. intros i j Hi Hj. rewrite H2 by (apply idx_lt; assumption).
    apply H; assumption.
  Qed.

  Lemma op_loop_ok (op : R -> R -> R) (d e : list R) n :
    (n <= length d)%nat -> (n <= length e)%nat ->
    exists u, forM n 0 (fun i u => do x <- vget u i ;; do y <- vget e i ;; vset u i (op x y)) d = Ok u /\
      is_vec u (length d) (fun k => if (k <? n)%nat then op (vel d k) (vel e k) else vel d k).
  Proof.
    intros Hd He.
    loopM (fun i u => length u = length d /\
             (forall k, (k < i)%nat -> nth k u c0 = op (vel d k) (vel e k)) /\
             (forall k, (i <= k)%nat -> nth k u c0 = nth k d c0)) as u E H.
    - split; [reflexivity|split; intros; [lia|reflexivity]].
    - intros j t Hj [Hl [H1 H2]]. rewrite (vget_ok t c0) by lia. simpl.
      rewrite (vget_ok e c0) by lia. simpl. rewrite vset_ok by lia. eexists. split; [reflexivity|].
      rewrite upd_length. repeat split; [exact Hl| |].
      + intros k Hk. rewrite nth_upd. destruct (Nat.eqb_spec k j) as [->|N]; simpl.
        * destruct (Nat.ltb_spec j (length t)); [|lia]. rewrite H2 by lia. reflexivity.
        * apply H1. lia.
      + intros k Hk. rewrite nth_upd_neq by lia. apply H2. lia.
    - exists u. split; [exact E|]. destruct H as [H1 [H2 H3]]. split; auto.
      intros k Hk. simpl in *. destruct (Nat.ltb_spec k n); [apply H2|apply H3]; lia.
  Qed.

  Lemma mat_plus_eq_ok m a : mat_wf m -> mat_wf a -> m_nrow a = m_nrow m -> m_ncol a = m_ncol m ->
    exists m', mat_plus_eq R m a = Ok m' /\
      is_mat m' (m_nrow m) (m_ncol m) (fun i j => melem m i j + melem a i j).
  Proof.
    intros Wm Wa Hr Hc. unfold mat_plus_eq, mat_wf in *. rewrite Hr, Hc in Wa.
    replace (length (m_data m) =? m_ncol m * m_nrow m)%nat with true
      by (symmetry; apply Nat.eqb_eq; lia).
    rewrite Wm, Wa, Nat.min_id.
    destruct (op_loop_ok cadd (m_data m) (m_data a) (m_nrow m * m_ncol m)) as [u [E H]]; [lia|lia|].
    rewrite E. simpl. eexists. split; [reflexivity|]. rewrite Wm in H.
    eapply data_is_mat; [exact m|exact H|]. intros i j Hi Hj. cbn beta.
    apply (idx_lt i j _ _ Hi) in Hj. apply Nat.ltb_lt in Hj. rewrite Hj.
    unfold vel, melem. rewrite Hr. reflexivity.
  Qed.

  Lemma mat_minus_eq_ok m a : mat_wf m -> mat_wf a -> m_nrow a = m_nrow m -> m_ncol a = m_ncol m ->
    exists m', mat_minus_eq R m a = Ok m' /\
      is_mat m' (m_nrow m) (m_ncol m) (fun i j => melem m i j - melem a i j).
  Proof.
    intros Wm Wa Hr Hc. unfold mat_minus_eq, mat_wf in *. rewrite Hr, Hc in Wa.
    rewrite (Nat.mul_comm (m_ncol m)).
    destruct (op_loop_ok csub (m_data m) (m_data a) (m_nrow m * m_ncol m)) as [u [E H]]; [lia|lia|].
    rewrite E. simpl. eexists. split; [reflexivity|]. rewrite Wm in H.
    eapply data_is_mat; [exact m|exact H|]. intros i j Hi Hj. cbn beta.
    apply (idx_lt i j _ _ Hi) in Hj. apply Nat.ltb_lt in Hj. rewrite Hj.
    unfold vel, melem. rewrite Hr. reflexivity.
  Qed.

  Lemma mat_times_eq_ok m t : mat_wf m ->
    exists m', mat_times_eq R m t = Ok m' /\
      is_mat m' (m_nrow m) (m_ncol m) (fun i j => t * melem m i j).
  Proof.
    intros Wm. unfold mat_times_eq, mat_wf in *. rewrite (Nat.mul_comm (m_ncol m)), <- Wm.
    destruct (times_eq_ok R (m_data m) t) as [u [E H]]. unfold times_eq, each in E.
    rewrite (@forM_ext _ _ _ _ (fun i u => do x <- (do x <- vget u i;; Ok (x * t));; vset u i x)).
    - rewrite E. simpl. eexists. split; [reflexivity|]. rewrite Wm in H.
      eapply data_is_mat; [exact m|exact H|]. intros i j Hi Hj. reflexivity.
    - intros j u' Hj. destruct (vget u' j); reflexivity.
  Qed.

  Lemma mat_conj_ok m : mat_wf m ->
    exists m', mat_conj R m = Ok m' /\
      is_mat m' (m_nrow m) (m_ncol m) (fun i j => cconj (melem m i j)).
  Proof.
    intros Wm. unfold mat_conj.
    destruct (each_spec R (fun i u => do x <- vget u i ;; Ok (cconj x)) (m_data m)
                (fun k => cconj (vel (m_data m) k))) as [u [E H]].
    - intros i u Hi Hu H. rewrite (vget_ok u c0) by lia. simpl. rewrite H by lia. reflexivity.
    - rewrite E. simpl. eexists. split; [reflexivity|]. unfold mat_wf in Wm. rewrite Wm in H.
      eapply data_is_mat; [exact m|exact H|]. intros i j Hi Hj. reflexivity.
  Qed.

  Lemma mat_setTo_ok m x : mat_wf m ->
    exists m', mat_setTo R m x = Ok m' /\ is_mat m' (m_nrow m) (m_ncol m) (fun _ _ => x).
  Proof.
    intros Wm. unfold mat_setTo.
    destruct (each_spec R (fun i u => Ok x) (m_data m) (fun _ => x)) as [u [E H]]; [auto|].
    rewrite E. simpl. eexists. split; [reflexivity|]. unfold mat_wf in Wm. rewrite Wm in H.
    eapply data_is_mat; [exact m|exact H|]. auto.
  Qed.

  Lemma mat_setToIdentity_ok m : mat_wf m -> m_nrow m = m_ncol m ->
    exists m', mat_setToIdentity R m = Ok m' /\ is_mat m' (m_nrow m) (m_ncol m) delta.
  Proof.
    intros Wm Hsq. unfold mat_setToIdentity. rewrite Hsq, Nat.eqb_refl. simpl.
    destruct (mat_setTo_ok m c0 Wm) as [m0 [-> [Hr [Hc [W0 H0]]]]]. simpl. rewrite Hr.
    loopM (fun i m' => is_mat m' (m_nrow m) (m_ncol m)
             (fun i' j' => if (i' =? j')%nat && (i' <? i)%nat then c1 else c0)) as m' E H.
    - repeat split; auto. intros i j Hi Hj. rewrite andb_false_r. auto.
    - intros i t Hi [Hr1 [Hc1 [W1 H1]]].
      destruct (mset_ok t i i c1 W1) as [m2 [E2 [Hr3 [Hc3 [W3 H3]]]]]; [lia|lia|].
      exists m2. split; [exact E2|]. repeat split; auto; try congruence.
      intros i' j' Hi' Hj'. rewrite H3 by lia.
      destruct (Nat.eqb_spec i' i) as [->|N1]; simpl.
      + destruct (Nat.eqb_spec j' i) as [->|N2].
        * rewrite Nat.eqb_refl. simpl. destruct (Nat.ltb_spec i (S i)); [reflexivity|lia].
        * rewrite H1 by auto. destruct (Nat.eqb_spec i j'); [congruence|reflexivity].
      + rewrite H1 by auto. destruct (Nat.eqb_spec i' j'); simpl; [|reflexivity].
        destruct (Nat.ltb_spec i' i), (Nat.ltb_spec i' (S i)); auto; lia.
    - exists m'. split; [exact E|]. rewrite <- Hsq in *. eapply is_mat_ext; [|exact H].
      intros i j Hi Hj. cbn beta. unfold delta. simpl. apply Nat.ltb_lt in Hi. rewrite Hi.
      rewrite andb_true_r. reflexivity.
  Qed.

  Lemma mat_nonZeros_ok m : mat_wf m ->
    mat_nonZeros R m = Ok (length (filter (fun x => negb (ceqb x c0)) (m_data m))).
  Proof.
    intros Wm. unfold mat_nonZeros, mat_wf in *. rewrite <- Wm, Nat.leb_refl.
    loopM (fun i cnt => cnt = length (filter (fun x => negb (ceqb x c0)) (firstn i (m_data m))))
      as cnt E H.
    - reflexivity.
    - intros j t Hj ->. rewrite (vget_ok (m_data m) c0) by lia. cbn [bind].
      eexists. split; [reflexivity|].
      rewrite (firstn_S_nth (m_data m) c0) by lia. rewrite filter_app, app_length. simpl.
      destruct (negb (ceqb (nth j (m_data m) c0) c0)); simpl; lia.
    - rewrite E, H. simpl. rewrite firstn_all. reflexivity.
  Qed.

  (** Closure assignments. *)
  Lemma dsrc_deref (s : msrc R) m : deref (dsrc R s) (m_data m) = m_data (mderef s m).
  Proof. destruct s; reflexivity. Qed.

  Lemma mat_assign_scale_ok m t s : mat_wf (mderef s m) ->
    exists m', mat_assign_scale R m t s = Ok m' /\
      is_mat m' (m_nrow (mderef s m)) (m_ncol (mderef s m)) (fun i j => t * melem (mderef s m) i j).
  Proof.
    intros W. unfold mat_assign_scale.
    destruct (assign_scale_ok R (m_data m) t (dsrc R s)) as [u [E H]]. rewrite E. simpl.
    eexists. split; [reflexivity|]. rewrite dsrc_deref in H. unfold mat_wf in W. rewrite W in H.
    eapply data_is_mat; [exact m|exact H|]. reflexivity.
  Qed.

  Section Two.
    Variables (m : mat R) (p q : msrc R) (r c : nat).
    Hypothesis (Wp : mat_wf (mderef p m)) (Wq : mat_wf (mderef q m)).
    Hypothesis (Pr : m_nrow (mderef p m) = r) (Pc : m_ncol (mderef p m) = c).
    Hypothesis (Qr : m_nrow (mderef q m) = r) (Qc : m_ncol (mderef q m) = c).

    Lemma two_lengths : length (deref (dsrc R p) (m_data m)) = (r * c)%nat /\
                        length (deref (dsrc R q) (m_data m)) = (r * c)%nat.
    Proof. rewrite !dsrc_deref. unfold mat_wf in *. rewrite Wp, Wq. split; congruence. Qed.

    Lemma two_guard :
      let m' := mkmat (m_nrow (mderef p m)) (m_ncol (mderef p m)) (m_data m) in
      ((m_nrow m' =? m_nrow (mderef q m'))%nat && (m_ncol m' =? m_ncol (mderef q m'))%nat) = true.
    Proof.
      simpl. rewrite Pr, Pc. destruct q as [|w]; simpl in *.
      - rewrite !Nat.eqb_refl. reflexivity.
      - rewrite Qr, Qc, !Nat.eqb_refl. reflexivity.
    Qed.

    Ltac fin H :=
      eexists; split; [reflexivity|]; rewrite !dsrc_deref in H; rewrite Pr, Pc;
      eapply data_is_mat; [exact m|exact H|]; intros i j Hi Hj; unfold melem; cbn beta;
      rewrite Pr, Qr; reflexivity.

    Lemma mat_assign_plus_ok : exists m', mat_assign_plus R m p q = Ok m' /\
      is_mat m' r c (fun i j => melem (mderef p m) i j + melem (mderef q m) i j).
    Proof.
      unfold mat_assign_plus. rewrite two_guard. destruct two_lengths as [L1 L2].
      destruct (assign_plus_ok R (m_data m) _ (dsrc R p) (dsrc R q) L1 L2) as [u [E H]].
      rewrite E. simpl. fin H.
    Qed.

    Lemma mat_assign_minus_ok : exists m', mat_assign_minus R m p q = Ok m' /\
      is_mat m' r c (fun i j => melem (mderef p m) i j - melem (mderef q m) i j).
    Proof.
      unfold mat_assign_minus. rewrite two_guard. destruct two_lengths as [L1 L2].
      destruct (assign_minus_ok R (m_data m) _ (dsrc R p) (dsrc R q) L1 L2) as [u [E H]].
      rewrite E. simpl. fin H.
    Qed.

    Lemma mat_assign_axpy_ok t : exists m', mat_assign_axpy R m p t q = Ok m' /\
      is_mat m' r c (fun i j => melem (mderef p m) i j + t * melem (mderef q m) i j).
    Proof.
      unfold mat_assign_axpy. rewrite two_guard. destruct two_lengths as [L1 L2].
      destruct (assign_axpy_ok R (m_data m) _ (dsrc R p) t (dsrc R q) L1 L2) as [u [E H]].
      rewrite E. simpl. fin H.
    Qed.

    Lemma mat_assign_scale_plus_ok t : exists m', mat_assign_scale_plus R m t p q = Ok m' /\
      is_mat m' r c (fun i j => t * (melem (mderef p m) i j + melem (mderef q m) i j)).
    Proof.
      unfold mat_assign_scale_plus. destruct two_lengths as [L1 L2].
      destruct (assign_scale_plus_ok R (m_data m) _ t (dsrc R p) (dsrc R q) L1 L2) as [u [E H]].
      rewrite E. simpl. fin H.
    Qed.

    Lemma mat_assign_scale_minus_ok t : exists m', mat_assign_scale_minus R m t p q = Ok m' /\
      is_mat m' r c (fun i j => t * (melem (mderef p m) i j - melem (mderef q m) i j)).
    Proof.
      unfold mat_assign_scale_minus. destruct two_lengths as [L1 L2].
      destruct (assign_scale_minus_ok R (m_data m) _ t (dsrc R p) (dsrc R q) L1 L2) as [u [E H]].
      rewrite E. simpl. fin H.
    Qed.
  End Two.

  Lemma mat_plus_eq_scaled_ok m t a : mat_wf m -> mat_wf a ->
    m_nrow a = m_nrow m -> m_ncol a = m_ncol m ->
    exists m', mat_plus_eq_scaled R m t a = Ok m' /\
      is_mat m' (m_nrow m) (m_ncol m) (fun i j => melem m i j + t * melem a i j).
  Proof.
    intros Wm Wa Hr Hc. unfold mat_plus_eq_scaled. unfold mat_wf in *.
    assert (L : length (m_data a) = length (m_data m)) by (rewrite Wm, Wa, Hr, Hc; reflexivity).
    rewrite L, Nat.eqb_refl. simpl. rewrite andb_false_r.
    assert (D : (if (length (m_data m) =? 0)%nat then vresize (m_data m) (length (m_data m)) c0
                 else m_data m) = m_data m).
    { destruct (length (m_data m) =? 0)%nat; [|reflexivity]. unfold vresize.
      rewrite firstn_all, Nat.sub_diag. apply app_nil_r. }
    rewrite D.
    destruct (plus_eq_scaled_ok R (m_data m) t (Other (m_data a)) L) as [u [E H]].
    rewrite E. simpl. eexists. split; [reflexivity|]. simpl in H. rewrite Wm in H. rewrite Hr, Hc.
    eapply data_is_mat; [exact m|exact H|]. intros i j Hi Hj. unfold melem. rewrite Hr. reflexivity.
  Qed.

  (** Starting from an empty matrix, += t*a gives t*a. *)
  Lemma mat_plus_eq_scaled_empty t a : mat_wf a ->
    exists m', mat_plus_eq_scaled R (mat_empty R) t a = Ok m' /\
      is_mat m' (m_nrow a) (m_ncol a) (fun i j => t * melem a i j).
  Proof.
    intros Wa. unfold mat_plus_eq_scaled. simpl.
    destruct (plus_eq_scaled_ok R (vresize [] (length (m_data a)) c0) t (Other (m_data a)))
      as [u [E H]]; [simpl; rewrite vresize_length; reflexivity|].
    rewrite E. simpl. eexists. split; [reflexivity|]. rewrite vresize_length, Wa in H.
    eapply data_is_mat; [exact a|exact H|]. intros i j Hi Hj. simpl. unfold melem, vel at 1.
    rewrite nth_vresize by (unfold mat_wf in Wa; rewrite Wa; apply idx_lt; assumption).
    simpl. unfold vel. ring.
  Qed.

  (** Predicates. *)
  Lemma all2_spec r c test (t : nat -> nat -> bool) :
    (forall i j, (i < r)%nat -> (j < c)%nat -> test i j = Ok (t i j)) ->
    exists v, all2 r c test = Ok v /\
      (v = true <-> forall i j, (i < r)%nat -> (j < c)%nat -> t i j = true).
  Proof.
    intros Ht. unfold all2.
    loopM (fun i (v : bool) => v = true <-> forall i' j', (i' < i)%nat -> (j' < c)%nat -> t i' j' = true)
      as v E H.
    - split; [intros; lia|reflexivity].
    - intros i v Hi Hv.
      loopM (fun j (v : bool) => v = true <->
               (forall i' j', (i' < i)%nat -> (j' < c)%nat -> t i' j' = true) /\
               (forall j', (j' < j)%nat -> t i j' = true)) as v' E' H'.
      + rewrite Hv. split; [intros A; split; [exact A|intros; lia]|intros [A _]; exact A].
      + intros j w Hj Hw. destruct w.
        * rewrite Ht by lia. eexists. split; [reflexivity|].
          destruct Hw as [Hw _]. specialize (Hw eq_refl). destruct Hw as [A B].
          split.
          -- intros Et. split; [exact A|]. intros j' Hj'.
             destruct (Nat.eq_dec j' j) as [->|]; [exact Et|apply B; lia].
          -- intros [_ C]. apply C. lia.
        * exists false. split; [reflexivity|]. split; [discriminate|].
          intros [A B]. destruct Hw as [_ Hw]. exfalso.
          assert (false = true) by (apply Hw; split; [exact A|intros; apply B; lia]). discriminate.
      + exists v'. split; [exact E'|]. rewrite H'. split.
        * intros [A B] i' j' Hi' Hj'. destruct (Nat.eq_dec i' i) as [->|]; [apply B|apply A]; lia.
        * intros A. split; intros; apply A; lia.
    - exists v. split; [exact E|exact H].
  Qed.

  Lemma mat_isHermitian_ok big a : mat_wf a -> m_nrow a = m_ncol a ->
    exists v, mat_isHermitian R big a = Ok v /\
      (v = true <-> forall i j, (i < m_nrow a)%nat -> (j < m_ncol a)%nat ->
                      big (melem a i j - cconj (melem a j i)) = false).
  Proof.
    intros W Hsq. unfold mat_isHermitian. rewrite Hsq, Nat.eqb_refl. simpl. rewrite <- Hsq.
    destruct (all2_spec (m_nrow a) (m_nrow a)
      (fun i j => do x <- mget R a i j ;; do y <- mget R a j i ;; Ok (negb (big (x - cconj y))))
      (fun i j => negb (big (melem a i j - cconj (melem a j i))))) as [v [E H]].
    - intros i j Hi Hj. rewrite !mget_ok by (auto; lia). reflexivity.
    - exists v. split; [exact E|]. rewrite H. split; intros A i j Hi Hj.
      + specialize (A i j Hi Hj). apply negb_true_iff in A. exact A.
      + apply negb_true_iff. auto.
  Qed.

  Lemma mat_isAntiHermitian_ok big a : mat_wf a -> m_nrow a = m_ncol a ->
    exists v, mat_isAntiHermitian R big a = Ok v /\
      (v = true <-> forall i j, (i < m_nrow a)%nat -> (j < m_ncol a)%nat ->
                      big (melem a i j + cconj (melem a j i)) = false).
  Proof.
    intros W Hsq. unfold mat_isAntiHermitian. rewrite Hsq, Nat.eqb_refl. simpl. rewrite <- Hsq.
    destruct (all2_spec (m_nrow a) (m_nrow a)
      (fun i j => do x <- mget R a i j ;; do y <- mget R a j i ;; Ok (negb (big (x + cconj y))))
      (fun i j => negb (big (melem a i j + cconj (melem a j i))))) as [v [E H]].
    - intros i j Hi Hj. rewrite !mget_ok by (auto; lia). reflexivity.
    - exists v. split; [exact E|]. rewrite H. split; intros A i j Hi Hj.
      + specialize (A i j Hi Hj). apply negb_true_iff in A. exact A.
      + apply negb_true_iff. auto.
  Qed.

  Lemma mat_isZero_ok big a : mat_wf a ->
    exists v, mat_isZero R big a = Ok v /\
      (v = true <-> forall i j, (i < m_nrow a)%nat -> (j < m_ncol a)%nat -> big (melem a i j) = false).
  Proof.
    intros W. unfold mat_isZero.
    destruct (all2_spec (m_nrow a) (m_ncol a)
      (fun i j => do x <- mget R a i j ;; Ok (negb (big x)))
      (fun i j => negb (big (melem a i j)))) as [v [E H]].
    - intros i j Hi Hj. rewrite !mget_ok by (auto; lia). reflexivity.
    - exists v. split; [exact E|]. rewrite H. split; intros A i j Hi Hj.
      + specialize (A i j Hi Hj). apply negb_true_iff in A. exact A.
      + apply negb_true_iff. auto.
  Qed.

  (** Whenever the number of rows is at most that of columns. *)
  Lemma mat_isTheIdentity_ok big a : mat_wf a -> (m_nrow a <= m_ncol a)%nat ->
    exists v, mat_isTheIdentity R big a = Ok v /\
      (v = true <-> forall i j, (i < m_nrow a)%nat -> (j < m_ncol a)%nat ->
         if (i =? j)%nat then big (melem a i j - c1) = false else big (melem a i j) = false).
  Proof.
    intros W Hrc. unfold mat_isTheIdentity.
    destruct (all2_spec (m_nrow a) (m_ncol a)
      (fun i j => if negb (i =? j)%nat then do x <- mget R a i j ;; Ok (negb (big x)) else Ok true)
      (fun i j => if negb (i =? j)%nat then negb (big (melem a i j)) else true)) as [v [E H]].
    - intros i j Hi Hj. destruct (negb (i =? j)%nat); [|reflexivity].
      rewrite mget_ok by auto. reflexivity.
    - rewrite E. simpl.
      loopM (fun k (w : bool) => w = true <->
               v = true /\ forall i, (i < k)%nat -> big (melem a i i - c1) = false) as w E' H'.
      + split; [intros A; split; [exact A|intros; lia]|tauto].
      + intros k w Hk Hw. destruct w.
        * rewrite mget_ok by (auto; lia). simpl. eexists. split; [reflexivity|].
          destruct Hw as [Hw _]. destruct (Hw eq_refl) as [A B]. rewrite negb_true_iff. split.
          -- intros Et. split; [exact A|]. intros i Hi.
             destruct (Nat.eq_dec i k) as [->|]; [exact Et|apply B; lia].
          -- intros [_ C]. apply C. lia.
        * exists false. split; [reflexivity|]. split; [discriminate|].
          intros [A B]. apply Hw. split; [exact A|]. intros; apply B; lia.
      + exists w. split; [exact E'|]. rewrite H', H. split.
        * intros [A B] i j Hi Hj. specialize (A i j Hi Hj).
          destruct (Nat.eqb_spec i j) as [->|]; simpl in *; [apply B; assumption|].
          apply negb_true_iff in A. exact A.
        * intros A. split.
          -- intros i j Hi Hj. specialize (A i j Hi Hj). destruct (i =? j)%nat; simpl; [reflexivity|].
             apply negb_true_iff. exact A.
          -- intros i Hi. specialize (A i i Hi ltac:(lia)). rewrite Nat.eqb_refl in A. exact A.
  Qed.

  (** Matrix-vector products into a vector that is not the operand. *)
  Lemma mat_vec_ok v a (w : list R) : mat_wf a -> m_ncol a = length w ->
    exists u, mat_vec R v a (Other w) = Ok u /\
      is_vec u (m_nrow a) (fun i => sumn (m_ncol a) (fun j => melem a i j * vel w j)).
  Proof.
    intros W L. unfold mat_vec. simpl. rewrite L, Nat.eqb_refl.
    destruct (each_spec R (fun i v => forM (length w) 0
                   (fun j sum => do x <- mget R a i j ;; do y <- vget w j ;; Ok (sum + x * y)) c0)
                (vresize v (m_nrow a) c0)
                (fun i => sumn (m_ncol a) (fun j => melem a i j * vel w j))) as [u [E H]].
    - intros i u Hi _ _. rewrite vresize_length in Hi.
      rewrite (forM_sum R _ _ (fun j => melem a i j * vel w j)).
      + rewrite cadd_0_l, L. reflexivity.
      + intros j acc Hj. rewrite mget_ok by (auto; lia). simpl.
        rewrite (vget_el R w) by lia. reflexivity.
    - unfold each in E. rewrite vresize_length in *. rewrite E. rewrite L in H. eauto.
  Qed.

  Lemma vec_mat_ok v a (w : list R) : mat_wf a -> m_nrow a = length w ->
    exists u, vec_mat R v (Other w) a = Ok u /\
      is_vec u (m_ncol a) (fun j => sumn (m_nrow a) (fun i => vel w i * melem a i j)).
  Proof.
    intros W L. unfold vec_mat. simpl. rewrite L, Nat.eqb_refl.
    destruct (each_spec R (fun i v => forM (length w) 0
                   (fun j sum => do y <- vget w j ;; do x <- mget R a j i ;; Ok (sum + y * x)) c0)
                (vresize v (m_ncol a) c0)
                (fun j => sumn (m_nrow a) (fun i => vel w i * melem a i j))) as [u [E H]].
    - intros i u Hi _ _. rewrite vresize_length in Hi.
      rewrite (forM_sum R _ _ (fun j => vel w j * melem a j i)).
      + rewrite cadd_0_l, L. reflexivity.
      + intros j acc Hj. rewrite (vget_el R w) by lia. simpl.
        rewrite mget_ok by (auto; lia). reflexivity.
    - unfold each in E. rewrite vresize_length in *. rewrite E. rewrite L in H. eauto.
  Qed.

  (** Product of the (conjugate) transpose with another matrix, for square ones. *)
  Lemma mult_tc_ok o1 o2 cq : mat_wf o1 -> mat_wf o2 ->
    m_nrow o1 = m_ncol o1 -> m_nrow o2 = m_nrow o1 -> m_ncol o2 = m_nrow o1 ->
    exists m, multiplyTransposeConjugate R o1 o2 cq = Ok m /\
      is_mat m (m_nrow o1) (m_nrow o1)
        (fun s t => sumn (m_nrow o1) (fun w =>
           (if cq then cconj (melem o1 w s) else melem o1 w s) * melem o2 w t)).
  Proof.
    intros W1 W2 Sq R2 C2. unfold multiplyTransposeConjugate. set (n := m_nrow o1) in *.
    set (F := fun s t => sumn n (fun w =>
           (if cq then cconj (melem o1 w s) else melem o1 w s) * melem o2 w t)).
    loopM (fun s m => is_mat m n n (fun s' t' => if (s' <? s)%nat then F s' t' else c0)) as m E H.
    - exact (mat_new_is n n).
    - intros s m Hs Hm.
      loopM (fun t m => is_mat m n n (fun s' t' =>
               if (s' <? s)%nat || ((s' =? s)%nat && (t' <? t)%nat) then F s' t' else c0)) as m' E H.
      + eapply is_mat_ext; [|exact Hm]. intros i j _ _. cbn beta.
        rewrite andb_false_r, orb_false_r. reflexivity.
      + intros t m1 Ht Hm1.
        loopM (fun w m => is_mat m n n (fun s' t' =>
               if (s' <? s)%nat || ((s' =? s)%nat && (t' <? t)%nat) then F s' t'
               else if (s' =? s)%nat && (t' =? t)%nat then
                 sumn w (fun w => (if cq then cconj (melem o1 w s) else melem o1 w s) * melem o2 w t)
               else c0)) as m' E H.
        * eapply is_mat_ext; [|exact Hm1]. intros i j _ _. cbn beta.
          destruct (_ || _); [reflexivity|]. destruct (_ && _); reflexivity.
        * intros w m2 Hw [Hr2 [Hc2 [Wm2 H2]]].
          rewrite !mget_ok by (auto; lia). simpl.
          match goal with |- context [mset R m2 s t ?x] =>
            destruct (mset_ok m2 s t x Wm2) as [m3 [E3 [Hr3 [Hc3 [W3 H3]]]]] end; [lia|lia|].
          exists m3. split; [exact E3|].
          repeat split; auto; try congruence. intros i j Hi Hj. rewrite H3 by congruence.
          destruct (Nat.eqb_spec i s) as [->|N1]; simpl.
          -- rewrite Nat.ltb_irrefl. simpl. destruct (Nat.eqb_spec j t) as [->|N2]; simpl.
             ++ rewrite Nat.ltb_irrefl. rewrite H2 by lia.
                rewrite !Nat.eqb_refl, !Nat.ltb_irrefl. simpl. rewrite sumn_S. reflexivity.
             ++ rewrite H2 by auto. rewrite Nat.eqb_refl, Nat.ltb_irrefl. simpl.
                destruct (j <? t)%nat; [reflexivity|].
                destruct (Nat.eqb_spec j t); [congruence|reflexivity].
          -- rewrite H2 by auto. destruct (Nat.eqb_spec i s); [congruence|]. reflexivity.
        * exists m'. split; [exact E|]. eapply is_mat_ext; [|exact H].
          intros i j _ _. simpl. destruct (Nat.ltb_spec i s); simpl; [reflexivity|].
          destruct (Nat.eqb_spec i s) as [->|]; simpl; [|reflexivity].
          destruct (Nat.ltb_spec j t), (Nat.ltb_spec j (S t)), (Nat.eqb_spec j t) as [->|];
            try lia; reflexivity.
      + exists m'. split; [exact E|]. eapply is_mat_ext; [|exact H].
        intros i j Hi Hj. simpl. apply Nat.ltb_lt in Hj. rewrite Hj, andb_true_r.
        destruct (Nat.ltb_spec i s), (Nat.eqb_spec i s), (Nat.ltb_spec i (S s)); simpl;
          try lia; reflexivity.
    - exists m. split; [exact E|]. eapply is_mat_ext; [|exact H].
      intros i j Hi Hj. simpl. apply Nat.ltb_lt in Hi. rewrite Hi. reflexivity.
  Qed.

  Lemma mat_norm2_ok m : mat_wf m ->
    mat_norm2 R m = Ok (sumn (m_nrow m) (fun i => sumn (m_ncol m) (fun j =>
                          cconj (melem m i j) * melem m i j))).
  Proof.
    intros W. unfold mat_norm2.
    rewrite (forM_sum R _ _ (fun i => sumn (m_ncol m) (fun j => cconj (melem m i j) * melem m i j))).
    - rewrite cadd_0_l. reflexivity.
    - intros i acc Hi.
      rewrite (forM_sum R _ _ (fun j => cconj (melem m i j) * melem m i j)); [reflexivity|].
      intros j acc' Hj. rewrite mget_ok by auto. reflexivity.
  Qed.

  Lemma mat_fun_ok u e : mat_wf u -> m_nrow u = m_ncol u ->
    exists m, mat_fun_of_eigen R u e = Ok m /\
      is_mat m (m_nrow u) (m_nrow u)
        (fun i j => sumn (m_nrow u) (fun k => melem u j k * e k * cconj (melem u i k))).
  Proof.
    intros W Sq. unfold mat_fun_of_eigen. destruct (mat_new_is (m_nrow u) (m_nrow u)) as [H1 [H2 [H3 _]]].
    apply fill2_spec; auto. intros i j cur Hi Hj _ _ _.
    rewrite (forM_sum R _ _ (fun k => melem u j k * e k * cconj (melem u i k))).
    - rewrite cadd_0_l. reflexivity.
    - intros k acc Hk. rewrite !mget_ok by (auto; lia). simpl. f_equal. ring.
  Qed.

  (** outerProduct *)
  Lemma outer_bound i1 i2 n1 n2 : (i1 < n1)%nat -> (i2 < n2)%nat -> (i1 + i2 * n1 < n1 * n2)%nat.
  Proof. apply idx_lt. Qed.

  Lemma outerProduct_ok a b c : mat_wf b -> mat_wf c ->
    (m_nrow a = 0 \/ m_nrow a = m_nrow b * m_nrow c)%nat ->
    exists m, outerProduct R a b c = Ok m /\
      m_nrow m = (m_nrow b * m_nrow c)%nat /\ m_ncol m = (m_ncol b * m_ncol c)%nat /\ mat_wf m /\
      forall i1 j1 i2 j2, (i1 < m_nrow b)%nat -> (j1 < m_ncol b)%nat ->
        (i2 < m_nrow c)%nat -> (j2 < m_ncol c)%nat ->
        melem m (i1 + i2 * m_nrow b) (j1 + j2 * m_ncol b) = melem b i1 j1 * melem c i2 j2.
  Proof.
    intros Wb Wc Ha. unfold outerProduct.
    destruct (mat_resize_wf a _ (m_ncol b * m_ncol c) Ha) as [m0 [E0 [Hr0 [Hc0 W0]]]].
    rewrite E0. simpl.
    set (rb := m_nrow b) in *. set (cb := m_ncol b) in *.
    set (rc := m_nrow c) in *. set (cc := m_ncol c) in *.
    set (dim := fun m : mat R => m_nrow m = (rb * rc)%nat /\ m_ncol m = (cb * cc)%nat /\ mat_wf m).
    set (good := fun (m : mat R) i1 j1 i2 j2 =>
      melem m (i1 + i2 * rb) (j1 + j2 * cb) = melem b i1 j1 * melem c i2 j2).
    loopM (fun k1 m => dim m /\ forall i1 j1 i2 j2, (i1 < k1)%nat -> (j1 < cb)%nat ->
             (i2 < rc)%nat -> (j2 < cc)%nat -> good m i1 j1 i2 j2) as m E H.
    - split; [repeat split; auto|]. intros; lia.
    - intros k1 m Hk1 [Dm Hm].
      loopM (fun l1 m => dim m /\ forall i1 j1 i2 j2, (i1 < rb)%nat -> (j1 < cb)%nat ->
             (i2 < rc)%nat -> (j2 < cc)%nat -> (i1 < k1 \/ i1 = k1 /\ j1 < l1)%nat ->
             good m i1 j1 i2 j2) as m' E H.
      + split; [exact Dm|]. intros i1 j1 i2 j2 A B C D [?|?]; [apply Hm; auto|lia].
      + intros l1 m1 Hl1 [Dm1 Hm1].
        loopM (fun k2 m => dim m /\ forall i1 j1 i2 j2, (i1 < rb)%nat -> (j1 < cb)%nat ->
             (i2 < rc)%nat -> (j2 < cc)%nat ->
             (i1 < k1 \/ i1 = k1 /\ (j1 < l1 \/ j1 = l1 /\ i2 < k2))%nat ->
             good m i1 j1 i2 j2) as m' E H.
        * split; [exact Dm1|]. intros i1 j1 i2 j2 A B C D F. apply Hm1; auto. lia.
        * intros k2 m2 Hk2 [Dm2 Hm2].
          loopM (fun l2 m => dim m /\ forall i1 j1 i2 j2, (i1 < rb)%nat -> (j1 < cb)%nat ->
             (i2 < rc)%nat -> (j2 < cc)%nat ->
             (i1 < k1 \/ i1 = k1 /\ (j1 < l1 \/ j1 = l1 /\ (i2 < k2 \/ i2 = k2 /\ j2 < l2)))%nat ->
             good m i1 j1 i2 j2) as m' E H.
          -- split; [exact Dm2|]. intros i1 j1 i2 j2 A B C D F. apply Hm2; auto. lia.
          -- intros l2 m3 Hl2 [[Hr3 [Hc3 W3]] Hm3].
             rewrite !mget_ok by (auto; lia). simpl.
             assert (B1 : (k1 + k2 * rb < rb * rc)%nat) by (apply outer_bound; lia).
             assert (B2 : (l1 + l2 * cb < cb * cc)%nat) by (apply outer_bound; lia).
             destruct (mset_ok m3 (k1 + k2 * rb) (l1 + l2 * cb) (melem b k1 l1 * melem c k2 l2) W3)
               as [m4 [E4 [Hr4 [Hc4 [W4 H4]]]]]; [lia|lia|].
             exists m4. split; [exact E4|]. split; [repeat split; auto; congruence|].
             intros i1 j1 i2 j2 A B C D F. unfold good. rewrite H4.
             ++ destruct (Nat.eqb_spec (i1 + i2 * rb) (k1 + k2 * rb)) as [E1|N1]; simpl.
                ** destruct (Nat.eqb_spec (j1 + j2 * cb) (l1 + l2 * cb)) as [E2|N2].
                   --- apply idx_inj in E1; [|lia|lia]. apply idx_inj in E2; [|lia|lia].
                       destruct E1 as [-> ->], E2 as [-> ->]. reflexivity.
                   --- apply Hm3; auto.
                       destruct F as [F|[F1 [F|[F2 [F|[F3 F]]]]]]; try lia.
                       destruct (Nat.eq_dec j2 l2) as [->|]; [subst; lia|lia].
                ** apply Hm3; auto.
                   destruct F as [F|[F1 [F|[F2 [F|[F3 F]]]]]]; try lia.
             ++ rewrite Hr3. apply outer_bound; lia.
             ++ rewrite Hc3. apply outer_bound; lia.
          -- exists m'. split; [exact E|]. destruct H as [Dm' H]. split; [exact Dm'|].
             intros i1 j1 i2 j2 A B C D F. apply H; auto. simpl. lia.
        * exists m'. split; [exact E|]. destruct H as [Dm' H]. split; [exact Dm'|].
          intros i1 j1 i2 j2 A B C D F. apply H; auto. simpl. lia.
      + exists m'. split; [exact E|]. destruct H as [Dm' H]. split; [exact Dm'|].
        intros i1 j1 i2 j2 A B C D. apply H; auto; simpl; lia.
    - exists m. split; [exact E|]. destruct H as [[Hr [Hc W]] H]. repeat split; auto.
  Qed.

  Lemma list_eqb_eq (u v : list R) : list_eqb R u v = true <-> u = v.
  Proof.
    revert v. induction u as [|x u IH]; intros [|y v]; simpl; try (split; congruence).
    rewrite andb_true_iff, c_eqb_eq, IH. split; [intros [-> ->]; reflexivity|].
    intros H. inversion H. auto.
  Qed.

  Lemma mat_eqb_ok a b : mat_wf a -> mat_wf b ->
    (mat_eqb R a b = true <->
     m_nrow a = m_nrow b /\ m_ncol a = m_ncol b /\
     forall i j, (i < m_nrow a)%nat -> (j < m_ncol a)%nat -> melem a i j = melem b i j).
  Proof.
    intros Wa Wb. unfold mat_eqb. rewrite !andb_true_iff, !Nat.eqb_eq, list_eqb_eq. split.
    - intros [[H1 H2] H3]. repeat split; auto. intros. unfold melem. rewrite H1, H3. reflexivity.
    - intros [H1 [H2 H3]]. repeat split; auto.
      assert (E : a = b).
      { apply (is_mat_unique a b (m_nrow a) (m_ncol a) (melem a)); [apply is_mat_self; exact Wa|].
        repeat split; auto. intros. symmetry. auto. }
      rewrite E. reflexivity.
  Qed.
End Proofs.
