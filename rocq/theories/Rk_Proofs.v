From Verif Require Import Prelude Ring Vec_Model Vec_Spec Vec_Proofs Rk_Model Rk_Spec.

Section Rk.
  Variable R : cring.
  Local Open Scope cring_scope.
  Add Ring RkR : (c_ring R).
  Variables half sixth : R.
  Variable f : R -> list R -> list R.
  Variable h : R.
  Variable n : nat.
  Hypothesis fn : forall t y, length y = n -> length (f t y) = n.

  Lemma nth_mapseq {A} (g : nat -> A) m i d : (i < m)%nat -> nth i (map g (seq 0 m)) d = g i.
  Proof. intros H. rewrite (nth_indep _ d (g 0%nat)) by (rewrite map_length, seq_length; auto). rewrite map_nth, seq_nth by auto. reflexivity. Qed.
  Lemma axpy_length a t b : length (axpy R a t b) = length a.
  Proof. unfold axpy. rewrite map_length, seq_length. reflexivity. Qed.
  Lemma axpy_nth a t b k : (k < length a)%nat -> nth k (axpy R a t b) c0 = nth k a c0 + t * nth k b c0.
  Proof. intros H. unfold axpy. rewrite nth_mapseq by auto. reflexivity. Qed.
  Lemma is_vec_eq (u v : list R) m g : is_vec u m g -> length v = m -> (forall k, (k < m)%nat -> nth k v c0 = g k) -> u = v.
  Proof. intros [L E] Lv Ev. apply (list_eq_nth _ _ c0); [lia|]. intros k Hk. rewrite E, Ev by lia. reflexivity. Qed.

  Lemma rk_step_ok ti yi tmp result : length yi = n -> exists tmp', rk_step R half sixth f h (ti, yi, tmp, result) = Ok (ti + h, rk4 R half sixth f h ti yi, tmp', result ++ [yi]).
  Proof.
    intros Ly. unfold rk_step.
    assert (SC : forall g, length g = n -> exists k, assign_scale R [] h (Other g) = Ok k /\ length k = n /\ forall i, (i < n)%nat -> nth i k c0 = h * nth i g c0).
    { intros g Lg. destruct (assign_scale_ok R [] h (Other g)) as (k & E & V1 & V2). cbn [deref] in *. exists k. rewrite Lg in *. auto. }
    assert (AX : forall tm k g t0, length g = n -> length k = n -> (forall i, (i < n)%nat -> nth i k c0 = h * nth i g c0) -> assign_axpy R tm (Other yi) t0 (Other k) = Ok (axpy R yi (h * t0) g)).
    { intros tm k g t0 Lg Lk Ek. destruct (assign_axpy_ok R tm n (Other yi) t0 (Other k)) as (u & E & V); auto. cbn [deref] in *. rewrite E. f_equal.
      apply (is_vec_eq _ _ _ _ V); [rewrite axpy_length; auto|]. intros i Hi. rewrite axpy_nth by lia. unfold vel. rewrite Ek by auto. ring. }
    destruct (SC (f ti yi)) as (k1 & E1 & L1 & N1); [auto|]. rewrite E1. cbn [bind].
    rewrite (AX _ _ (f ti yi)) by auto. cbn [bind]. set (y2 := axpy R yi (h * half) (f ti yi)).
    assert (Ly2 : length y2 = n) by (unfold y2; rewrite axpy_length; auto).
    destruct (SC (f (ti + h * half) y2)) as (k2 & E2 & L2 & N2); [auto|]. rewrite E2. cbn [bind].
    rewrite (AX _ _ (f (ti + h * half) y2)) by auto. cbn [bind]. set (y3 := axpy R yi (h * half) (f (ti + h * half) y2)).
    assert (Ly3 : length y3 = n) by (unfold y3; rewrite axpy_length; auto).
    destruct (SC (f (ti + h * half) y3)) as (k3 & E3 & L3 & N3); [auto|]. rewrite E3. cbn [bind].
    destruct (assign_plus_ok R y3 n (Other yi) (Other k3)) as (u & Eu & V); auto. cbn [deref] in *. rewrite Eu. cbn [bind].
    set (y4 := axpy R yi h (f (ti + h * half) y3)).
    assert (Ly4 : length y4 = n) by (unfold y4; rewrite axpy_length; auto).
    replace u with y4. 2:{ symmetry. apply (is_vec_eq _ _ _ _ V); auto. intros i Hi. unfold y4. rewrite axpy_nth by lia. unfold vel. rewrite N3 by auto. reflexivity. }
    destruct (SC (f (ti + h) y4)) as (k4 & E4 & L4 & N4); [auto|]. rewrite E4. cbn [bind].
    assert (My : forM (length yi) 0 (fun j r => do x <- vget yi j ;; vset r j x) (repeat c0 (length yi)) = Ok yi).
    { destruct (@forM_inv _ (fun i r => length r = length yi /\ forall j, (j < i)%nat -> nth j r c0 = nth j yi c0) (length yi) 0 (fun j r => do x <- vget yi j ;; vset r j x) (repeat c0 (length yi))) as (r & Er & Lr & Nr).
      - split; [apply repeat_length|]. intros; lia.
      - intros j r Hj [Lr Nr]. rewrite (@vget_ok _ yi j c0) by lia. cbn [bind]. rewrite vset_ok by lia. eexists. split; [reflexivity|]. split; [rewrite upd_length; auto|].
        intros k Hk. destruct (Nat.eq_dec k j) as [->|]; [apply nth_upd_eq; lia|]. rewrite nth_upd_neq by auto. apply Nr. lia.
      - rewrite Er. f_equal. apply (list_eq_nth _ _ c0); auto. intros k Hk. apply Nr. lia. }
    rewrite My. cbn [bind].
    destruct (assign_comb4_ok R y4 n c1 (Other k1) (c1 + c1) (Other k2) (c1 + c1) (Other k3) c1 (Other k4)) as (w & Ew & Lw & Nw); auto. cbn [deref] in *. rewrite Ew. cbn [bind].
    destruct (plus_eq_scaled_ok R yi sixth (Other w)) as (z & Ez & V'); [cbn [deref]; lia|]. rewrite Ez. cbn [bind deref] in *. exists w. repeat f_equal.
    apply (is_vec_eq _ _ _ _ V'); [unfold rk4; rewrite map_length, seq_length; reflexivity|]. intros i Hi.
    unfold rk4. fold y2. fold y3. fold y4.
    rewrite nth_mapseq by lia.
    unfold vel. rewrite Nw by lia. unfold vel. rewrite N1, N2, N3, N4 by lia. ring.
  Qed.
  Lemma rk4_length t y : length (rk4 R half sixth f h t y) = length y.
  Proof. unfold rk4. rewrite map_length, seq_length. reflexivity. Qed.
  Lemma steps_length t0 y0 i : length (steps R half sixth f h t0 y0 i) = length y0.
  Proof. induction i; cbn [steps]; [reflexivity|]. rewrite rk4_length. auto. Qed.

  Lemma solve_ok result t0 N y0 : length y0 = n -> solve R half sixth f h result t0 N y0 = Ok (result ++ map (steps R half sixth f h t0 y0) (seq 0 N)).
  Proof.
    intros L. unfold solve.
    destruct (@forM_inv _ (fun i (s : R * list R * list R * list (list R)) => let '(ti, yi, tmp, r) := s in ti = t0 + times R h i /\ yi = steps R half sixth f h t0 y0 i /\ r = result ++ map (steps R half sixth f h t0 y0) (seq 0 i))
      N 0 (fun _ s => rk_step R half sixth f h s) (t0, y0, [], result)) as ([[[ti yi] tmp] r] & E & H).
    - cbn [times steps seq map]. rewrite app_nil_r. repeat split. ring.
    - intros j [[[ti yi] tmp] r] Hj (-> & -> & ->). destruct (rk_step_ok (t0 + times R h j) (steps R half sixth f h t0 y0 j) tmp (result ++ map (steps R half sixth f h t0 y0) (seq 0 j))) as (tmp' & E); [rewrite steps_length; auto|].
      eexists. split; [exact E|]. cbn [times steps]. repeat split.
      + ring.
      + rewrite seq_S, map_app, app_assoc. reflexivity.
    - rewrite E. cbn [bind]. destruct H as (_ & _ & ->). reflexivity.
  Qed.
End Rk.

Section Lin.
  Variable R : cring.
  Local Open Scope cring_scope.
  Add Ring RkL : (c_ring R).
  Variables half sixth : R.
  Hypothesis h2 : half + half = c1.
  Hypothesis h6 : (c1 + c1) * (c1 + c1 + c1) * sixth = c1.
  Lemma three : (c1 + c1 + c1) * sixth = half.
  Proof.
    transitivity (((c1 + c1) * (c1 + c1 + c1) * sixth) * half); [|rewrite h6; ring].
    transitivity ((c1 + c1 + c1) * sixth * (half + half)); [rewrite h2; ring|ring].
  Qed.
  (** The combination of a linear right-hand side: l1 to l4 are L y to L^4 y. *)
  Lemma lin_comb (h y l1 l2 l3 l4 : R) :
    y + h * sixth * (l1 + (c1 + c1) * (l1 + h * half * l2) + (c1 + c1) * (l1 + h * half * (l2 + h * half * l3)) + (l1 + h * (l2 + h * half * (l3 + h * half * l4)))) =
    y + h * l1 + h * h * half * l2 + h * h * h * sixth * l3 + h * h * h * h * (sixth * half * half) * l4.
  Proof.
    transitivity (y + h * l1 * ((c1 + c1) * (c1 + c1 + c1) * sixth) + h * h * (sixth * (c1 + (half + half) + (half + half))) * l2 + h * h * h * sixth * (half * (half + half) + half) * l3 + h * h * h * h * (sixth * half * half) * l4); [ring|].
    rewrite h6, h2. replace (half * c1 + half) with (half + half) by ring. rewrite h2.
    replace (sixth * (c1 + c1 + c1)) with half by (rewrite <- three; ring). ring.
  Qed.
  Variable n : nat.
  Variable L : list R -> list R.
  Hypothesis Ln : forall y, length y = n -> length (L y) = n.
  Hypothesis La : forall a t b k, length a = n -> length b = n -> (k < n)%nat -> nth k (L (axpy R a t b)) c0 = nth k (L a) c0 + t * nth k (L b) c0.

  Lemma L_axpy a t b : length a = n -> length b = n -> L (axpy R a t b) = axpy R (L a) t (L b).
  Proof.
    intros Ha Hb. assert (E : length (L (axpy R a t b)) = n) by (apply Ln; rewrite axpy_length; auto). apply (list_eq_nth _ _ c0).
    - rewrite axpy_length, E, Ln by auto. reflexivity.
    - intros k Hk. rewrite E in Hk. rewrite axpy_nth by (rewrite Ln; auto). apply La; auto.
  Qed.
  Lemma rk4_lin h t y k : length y = n -> (k < n)%nat ->
    nth k (rk4 R half sixth (fun _ y => L y) h t y) c0 =
    nth k y c0 + h * nth k (L y) c0 + h * h * half * nth k (L (L y)) c0 + h * h * h * sixth * nth k (L (L (L y))) c0 + h * h * h * h * (sixth * half * half) * nth k (L (L (L (L y)))) c0.
  Proof.
    intros Ly Hk. unfold rk4. rewrite nth_mapseq by lia.
    assert (L1 : length (L y) = n) by auto. assert (L2 : length (L (L y)) = n) by auto. assert (L3 : length (L (L (L y))) = n) by auto.
    repeat (rewrite L_axpy by (rewrite ?axpy_length; auto)). repeat (rewrite axpy_nth by (rewrite ?axpy_length; lia)). apply lin_comb.
  Qed.
End Lin.

Section Scal.
  Variable R : cring.
  Local Open Scope cring_scope.
  Add Ring RkS : (c_ring R).
  Lemma rk4_scal (half sixth l h t : R) y k : half + half = c1 -> (c1 + c1) * (c1 + c1 + c1) * sixth = c1 -> (k < length y)%nat ->
    let z := h * l in
    nth k (rk4 R half sixth (fun _ y => map (cmul l) y) h t y) c0 =
    (c1 + z + half * (z * z) + sixth * (z * (z * z)) + sixth * (half * half) * (z * (z * (z * z)))) * nth k y c0.
  Proof.
    intros H2 H6 Hk z.
    assert (N : forall u j, (j < length u)%nat -> nth j (map (cmul l) u) c0 = l * nth j u c0).
    { intros u j Hj. rewrite (nth_indep _ c0 (l * c0)) by (rewrite map_length; auto). apply map_nth. }
    rewrite (rk4_lin R half sixth H2 H6 (length y) (map (cmul l))); auto.
    - rewrite !N by (rewrite ?map_length; auto). unfold z. ring.
    - intros u Hu. rewrite map_length; auto.
    - intros a t' b j Ha Hb Hj. rewrite !N by (rewrite ?axpy_length; lia). rewrite axpy_nth by lia. ring.
  Qed.
End Scal.
