(** Proofs about linear prediction. *)
From Verif Require Import Prelude Ring Linpred_Model Linpred_Spec.
Local Open Scope nat_scope.

Section Fit.
  Variable F : cring.
  Add Ring Ff : (c_ring F).

  Lemma sub1_ok (y : list F) i l : l < i -> i <= length y -> sub1 F y i l = Ok (nth (i - 1 - l) y c0).
  Proof.
    intros H1 H2. unfold sub1. destruct (Nat.leb_spec i l); [lia|].
    replace (i - l - 1) with (i - 1 - l) by lia. apply vget_ok. lia.
  Qed.

  Lemma acc_cell (a b : nat) (f : nat -> list F -> res (list F)) (g : nat -> F) A pos :
    a <= b -> pos < length A ->
    (forall i A', a <= i < b -> length A' = length A ->
       f i A' = vset A' pos (cadd (nth pos A' c0) (g i))) ->
    forR a b f A = Ok (upd A pos (cadd (nth pos A c0) (suml g (seq a (b - a))))).
  Proof.
    intros Hab Hp Hf.
    destruct (forR_inv (fun i A' => A' = upd A pos (cadd (nth pos A c0) (suml g (seq a (i - a))))) f A Hab)
      as [s [E H]].
    - rewrite Nat.sub_diag. cbn [seq suml].
      replace (cadd (nth pos A c0) c0) with (nth pos A c0) by ring.
      apply list_eq_nth with (d := c0); [rewrite upd_length; reflexivity|].
      intros k Hk. rewrite nth_upd. destruct (Nat.eqb_spec k pos) as [->|]; cbn [andb]; [|reflexivity].
      destruct (pos <? length A); reflexivity.
    - intros i A' Hi ->. eexists. split.
      + rewrite Hf by (rewrite ?upd_length; lia). apply vset_ok. rewrite upd_length. exact Hp.
      + rewrite nth_upd_eq by exact Hp.
        replace (S i - a) with (S (i - a)) by lia. rewrite seq_S, suml_app. cbn [suml].
        replace (a + (i - a)) with i by lia.
        apply list_eq_nth with (d := c0); [rewrite !upd_length; reflexivity|].
        intros k Hk. rewrite !nth_upd, upd_length.
        destruct (Nat.eqb_spec k pos) as [->|]; cbn [andb]; [|reflexivity].
        destruct (pos <? length A); [|reflexivity]. ring.
    - rewrite E, H. reflexivity.
  Qed.

  Lemma computeA_ok (y : list F) p n : p <= n -> length y = 2 * n ->
    exists A, computeA F y p n = Ok A /\ length A = p * p /\
      forall l j, l < p -> j < p -> nth (l + j * p) A c0 = gram F y n l j.
  Proof.
    intros Hp Hy. unfold computeA.
    loopM (fun l A => length A = p * p /\
      forall l' j, l' < l -> l' < p -> j < p -> nth (l' + j * p) A c0 = gram F y n l' j) as A E H.
    - split; [apply repeat_length|]. intros; lia.
    - intros l A [_ Hl] [HL HA]. cbn [Nat.add] in Hl.
      loopM (fun j A => length A = p * p /\
        forall l' j', (l' < l \/ (l' = l /\ j' < j)) -> l' < p -> j' < p ->
          nth (l' + j' * p) A c0 = gram F y n l' j') as A2 E2 H2.
      + split; [exact HL|]. intros l' j' [H|H] ? ?; [apply HA; auto|lia].
      + intros j A1 [_ Hj] [HL1 HA1]. cbn [Nat.add] in Hj.
        assert (Hpos : l + j * p < p * p) by nia.
        rewrite vset_ok by lia. cbn [bind].
        rewrite acc_cell with (pos := l + j * p)
          (g := fun i => cmul (nth (i - 1 - l) y c0) (nth (i - 1 - j) y c0)).
        * eexists. split; [reflexivity|]. rewrite !upd_length. split; [exact HL1|].
          intros l' j' H Hl' Hj'. rewrite nth_upd, upd_length.
          destruct (Nat.eqb_spec (l' + j' * p) (l + j * p)) as [Eq|Ne].
          -- assert (j' = j) by (clear - Eq Hl Hl'; nia). subst j'. assert (l' = l) by lia. subst l'.
             destruct (Nat.ltb_spec (l + j * p) (length A1)); [|lia]. cbn [andb].
             rewrite nth_upd_eq by lia. unfold gram. replace (2 * n - n) with n by lia. ring.
          -- cbn [andb]. rewrite nth_upd_neq by exact Ne. apply HA1; auto.
             destruct H as [H|[H1 H2]]; [left; exact H|]. right. split; [exact H1|].
             assert (j' <> j) by (intros ->; apply Ne; rewrite H1; reflexivity). lia.
        * lia.
        * rewrite upd_length. lia.
        * intros i A' Hi HL'. rewrite upd_length in HL'.
          rewrite (@vget_ok _ A' _ c0) by lia. cbn [bind].
          rewrite !sub1_ok by lia. reflexivity.
      + exists A2. split; [exact E2|]. destruct H2 as [H2 H3]. split; [exact H2|].
        intros l' j Hl' Hl'' Hj. apply H3; auto. cbn [Nat.add]. lia.
    - exists A. split; [exact E|]. destruct H as [H1 H2]. split; [exact H1|].
      intros l j Hl Hj. apply H2; cbn [Nat.add]; auto.
  Qed.

  Lemma computeB_ok (y : list F) p n : p <= n -> length y = 2 * n ->
    exists B, computeB F y p n = Ok B /\ length B = p /\
      forall l, l < p -> nth l B c0 =
        suml (fun i => cmul (nth (i - 1 - l) y c0) (nth i y c0)) (seq n n).
  Proof.
    intros Hp Hy. unfold computeB.
    loopM (fun l B => length B = p /\ forall l', l' < l -> nth l' B c0 =
        suml (fun i => cmul (nth (i - 1 - l') y c0) (nth i y c0)) (seq n n)) as B E H.
    - split; [apply repeat_length|]. intros; lia.
    - intros l B [_ Hl] [HL HB]. cbn [Nat.add] in Hl.
      rewrite vset_ok by lia. cbn [bind].
      rewrite acc_cell with (pos := l) (g := fun i => cmul (nth (i - 1 - l) y c0) (nth i y c0)).
      + eexists. split; [reflexivity|]. rewrite !upd_length. split; [exact HL|].
        intros l' Hl'. rewrite nth_upd, upd_length.
        destruct (Nat.eqb_spec l' l) as [->|Ne].
        * destruct (Nat.ltb_spec l (length B)); [|lia]. cbn [andb].
          rewrite nth_upd_eq by lia. replace (2 * n - n) with n by lia. ring.
        * cbn [andb]. rewrite nth_upd_neq by exact Ne. apply HB. lia.
      + lia.
      + rewrite upd_length. lia.
      + intros i B' Hi HL'. rewrite upd_length in HL'.
        rewrite (@vget_ok _ B' _ c0) by lia. cbn [bind].
        rewrite sub1_ok by lia. cbn [bind]. rewrite (@vget_ok _ y _ c0) by lia. reflexivity.
    - exists B. split; [exact E|]. destruct H as [H1 H2]. split; [exact H1|]. exact H2.
  Qed.

  (** The normal equations. *)
  Lemma ctor_ok solve (y : list F) p n : solver_ok F p solve ->
    1 <= p <= n -> length y = 2 * n -> determined F y n p ->
    exists d, ctor F solve y p = Ok (y, d) /\ length d = p /\
      forall l, l < p ->
        sumn p (fun j => cmul (gram F y n l j) (nth j d c0)) =
        suml (fun i => cmul (nth (i - 1 - l) y c0) (nth i y c0)) (seq n n).
  Proof.
    intros Hs Hp Hy [X HX]. unfold ctor, refit.
    assert (O : Nat.odd (length y) = false).
    { rewrite Hy. rewrite Nat.odd_mul. reflexivity. }
    rewrite O. replace (length y / 2) with n.
    2:{ rewrite Hy, Nat.mul_comm, Nat.div_mul by lia. reflexivity. }
    destruct (computeA_ok y p n) as [A [EA [LA HA]]]; [lia|exact Hy|].
    destruct (computeB_ok y p n) as [B [EB [LB HB]]]; [lia|exact Hy|].
    rewrite EA. cbn [bind]. rewrite EB. cbn [bind]. unfold computeD.
    destruct (Nat.ltb_spec 0 p); [|lia]. cbn [bind].
    destruct (Hs A B LA LB) as [L S].
    { exists X. intros l j Hl Hj. rewrite <- (HX l j Hl Hj). apply sumn_ext.
      intros k Hk. rewrite HA by auto. reflexivity. }
    eexists. split; [reflexivity|]. split; [exact L|].
    intros l Hl. rewrite <- HB by exact Hl. rewrite <- S by exact Hl. unfold mat_vec.
    apply sumn_ext. intros j Hj. rewrite HA by auto. reflexivity.
  Qed.

  (** Residuals are orthogonal to the lagged data. *)
  Lemma normal_orthogonal (y : list F) n p d l :
    length d = p -> 
    sumn p (fun j => cmul (gram F y n l j) (nth j d c0)) =
        suml (fun i => cmul (nth (i - 1 - l) y c0) (nth i y c0)) (seq n n) ->
    suml (fun i => cmul (nth (i - 1 - l) y c0) (csub (nth i y c0) (forecast F d y i))) (seq n n) = c0.
  Proof.
    intros L H.
    rewrite suml_ext with (g := fun i => cadd (cmul (nth (i - 1 - l) y c0) (nth i y c0))
       (copp (cmul (nth (i - 1 - l) y c0) (forecast F d y i))));
      [|intros i; cbv beta; ring].
    rewrite suml_add, suml_opp, <- H.
    match goal with |- cadd ?u (copp ?v) = _ => assert (E : u = v) end.
    { unfold forecast. rewrite L. unfold gram, sumn.
      rewrite suml_ext with (g := fun j => suml (fun i => cmul (cmul (nth (i - 1 - l) y c0) (nth (i - 1 - j) y c0)) (nth j d c0)) (seq n n))
        by (intros; rewrite suml_mul_r; reflexivity).
      rewrite suml_exchange. apply suml_ext. intros i. rewrite <- suml_mul_l.
      apply suml_ext. intros j. ring. }
    rewrite E. ring.
  Qed.

  Lemma forecast_sub (d c y : list F) i : length c = length d ->
    csub (forecast F c y i) (forecast F d y i) =
    sumn (length d) (fun j => cmul (csub (nth j c c0) (nth j d c0)) (nth (i - 1 - j) y c0)).
  Proof.
    intros L. unfold forecast. rewrite L.
    transitivity (sumn (length d) (fun j => cadd (cmul (nth j c c0) (nth (i - 1 - j) y c0))
        (copp (cmul (nth j d c0) (nth (i - 1 - j) y c0))))).
    - rewrite sumn_add. unfold sumn. rewrite suml_opp. ring.
    - apply sumn_ext. intros k _. ring.
  Qed.

  (** Least squares. *)
  Lemma least_squares (y : list F) n d c : length c = length d ->
    (forall l, l < length d ->
      suml (fun i => cmul (nth (i - 1 - l) y c0) (csub (nth i y c0) (forecast F d y i))) (seq n n) = c0) ->
    error2 F c y n = cadd (error2 F d y n)
      (suml (fun i => cmul (csub (forecast F c y i) (forecast F d y i))
                           (csub (forecast F c y i) (forecast F d y i))) (seq n n)).
  Proof.
    intros L H. unfold error2.
    set (r := fun i => csub (nth i y c0) (forecast F d y i)).
    set (e := fun i => csub (forecast F c y i) (forecast F d y i)).
    assert (Z : suml (fun i => cmul (r i) (e i)) (seq n n) = c0).
    { rewrite suml_ext with (g := fun i => suml (fun j =>
         cmul (csub (nth j c c0) (nth j d c0)) (cmul (nth (i - 1 - j) y c0) (r i))) (seq 0 (length d))).
      2:{ intros i. unfold e. rewrite forecast_sub by exact L. unfold sumn.
          rewrite <- suml_mul_l. apply suml_ext. intros j. ring. }
      rewrite suml_exchange. apply suml_zero_in. intros j Hj. apply in_seq in Hj.
      rewrite suml_mul_l. unfold r. rewrite H by lia. ring. }
    transitivity (suml (fun i => cadd (cadd (cmul (r i) (r i)) (cmul (e i) (e i)))
       (cadd (copp (cmul (r i) (e i))) (copp (cmul (r i) (e i))))) (seq n n)).
    { apply suml_ext. intros i. unfold r, e. ring. }
    rewrite !suml_add, suml_opp, Z. fold r e. unfold r, e. ring.
  Qed.

  (** Data that obey a recurrence give it back. *)
  Lemma recurrence_found (y : list F) n p c d :
    determined F y n p -> length c = p -> length d = p -> obeys F c y n ->
    (forall l, l < p ->
      suml (fun i => cmul (nth (i - 1 - l) y c0) (csub (nth i y c0) (forecast F d y i))) (seq n n) = c0) ->
    d = c.
  Proof.
    intros [X HX] Lc Ld Ob H.
    assert (Z : forall l, l < p -> sumn p (fun j => cmul (gram F y n l j) (csub (nth j c c0) (nth j d c0))) = c0).
    { intros l Hl. etransitivity; [|exact (H l Hl)].
      transitivity (suml (fun i => suml (fun j =>
         cmul (cmul (nth (i - 1 - l) y c0) (nth (i - 1 - j) y c0)) (csub (nth j c c0) (nth j d c0))) (seq 0 p))
         (seq n n)).
      2:{ apply suml_ext_in. intros i Hi. apply in_seq in Hi. rewrite (Ob i) by lia. symmetry. rewrite forecast_sub by congruence. rewrite Ld. unfold sumn. rewrite <- suml_mul_l.
          apply suml_ext. intros j. ring. }
      rewrite suml_exchange. unfold sumn. apply suml_ext. intros j. rewrite suml_mul_r. reflexivity. }
    assert (D : forall l, l < p -> csub (nth l c c0) (nth l d c0) = c0).
    { intros l Hl.
      rewrite <- (sumn_delta F p (fun j => csub (nth j c c0) (nth j d c0)) l Hl).
      transitivity (sumn p (fun j => sumn p (fun k => cmul (cmul (X l k) (gram F y n k j)) (csub (nth j c c0) (nth j d c0))))).
      - apply sumn_ext. intros j Hj. rewrite sumn_mul_r, HX by auto. unfold delta.
        rewrite (Nat.eqb_sym l j). destruct (j =? l); ring.
      - rewrite sumn_exchange. apply sumn_zero. intros k Hk.
        rewrite sumn_ext with (g := fun j => cmul (X l k) (cmul (gram F y n k j) (csub (nth j c c0) (nth j d c0))))
          by (intros; ring).
        rewrite sumn_mul_l, Z by exact Hk. ring. }
    apply list_eq_nth with (d := c0); [congruence|]. intros l Hl. rewrite Ld in Hl.
    specialize (D l Hl).
    transitivity (csub (nth l c c0) (csub (nth l c c0) (nth l d c0))); [ring|]. rewrite D. ring.
  Qed.

  (** ---------- prediction ---------- *)

  Lemma next_ok (d nd y : list F) i : length d <= length nd -> length d <= i -> i <= length y ->
    next F d nd y i = Ok (sumn (length d) (fun j => cmul (nth j nd c0) (nth (i - 1 - j) y c0))).
  Proof.
    intros H1 H2 H3. unfold next.
    loopM (fun j s => s = sumn j (fun j => cmul (nth j nd c0) (nth (i - 1 - j) y c0))) as s E H.
    - reflexivity.
    - intros j s [_ Hj] ->. cbn [Nat.add] in Hj. rewrite (@vget_ok _ nd _ c0) by lia. cbn [bind].
      rewrite sub1_ok by lia. cbn [bind]. eexists. split; [reflexivity|]. rewrite sumn_S. reflexivity.
    - cbn [Nat.add] in H. rewrite E, H. reflexivity.
  Qed.

  Lemma forecast_ext (d y z : list F) i : (0 < length d -> 0 < i) ->
    (forall k, k < i -> nth k y c0 = nth k z c0) -> forecast F d y i = forecast F d z i.
  Proof.
    intros H0 H. unfold forecast. apply sumn_ext. intros j Hj. rewrite H by lia. reflexivity.
  Qed.

  Lemma predict_ok (y d : list F) q : length d <= length y ->
    exists y', predict F y d q = Ok y' /\ continues F d y y' q.
  Proof.
    intros Hd. unfold predict.
    loopR (fun i z => length z = i /\ firstn (length y) z = y /\
       forall t, length y <= t < i -> nth t z c0 = forecast F d z t) as z E H.
    - lia.
    - split; [reflexivity|]. split; [apply firstn_all|]. intros; lia.
    - intros i z Hi [HL [HF HR]]. rewrite next_ok by lia. cbn [bind].
      eexists. split; [reflexivity|]. rewrite app_length. cbn [length].
      split; [lia|]. split.
      + rewrite firstn_app. replace (length y - length z) with 0 by lia.
        cbn [firstn]. rewrite app_nil_r. exact HF.
      + intros t Ht. rewrite (forecast_ext d _ z).
        * destruct (Nat.eq_dec t i) as [->|Ne].
          -- rewrite app_nth2 by lia. replace (i - length z) with 0 by lia. reflexivity.
          -- rewrite app_nth1 by lia. apply HR. lia.
        * lia.
        * intros k Hk. apply app_nth1. lia.
    - exists z. split; [exact E|]. destruct H as [H1 [H2 H3]]. split; [exact H1|]. split; auto.
  Qed.

  Lemma continues_unique (d y y1 y2 : list F) q : length d <= length y ->
    continues F d y y1 q -> continues F d y y2 q -> y1 = y2.
  Proof.
    intros Hd [L1 [F1 R1]] [L2 [F2 R2]].
    assert (K : forall k i, i < k -> i < length y + q -> nth i y1 c0 = nth i y2 c0).
    { induction k as [|k IH]; intros i Hi Hb; [lia|].
      destruct (Nat.lt_ge_cases i (length y)) as [Hlt|Hge].
      - rewrite <- (firstn_skipn (length y) y1), <- (firstn_skipn (length y) y2), F1, F2.
        rewrite !app_nth1 by exact Hlt. reflexivity.
      - rewrite R1, R2 by lia. apply forecast_ext; [lia|]. intros j Hj. apply IH; lia. }
    apply list_eq_nth with (d := c0); [congruence|]. intros i Hi. apply (K (S i)); lia.
  Qed.

  (** The filling loop of predict2. *)
  Lemma predict2_loop (y d nd : list F) q : length d = length nd -> length d <= length y ->
    exists y', forR (length y) (length y + q) (fun i y =>
        do s <- next F d nd y i ;; vset y i s) (vresize y (length y + q) c0) = Ok y' /\
      continues F nd y y' q.
  Proof.
    intros Hn Hd.
    loopR (fun i z => length z = length y + q /\ firstn (length y) z = y /\
       forall t, length y <= t < i -> nth t z c0 = forecast F nd z t) as z E H.
    - lia.
    - rewrite vresize_length. split; [reflexivity|]. split; [|intros; lia].
      unfold vresize. rewrite firstn_app, firstn_firstn.
      replace (Nat.min (length y) (length y + q)) with (length y) by lia.
      rewrite firstn_all. replace (length y - length (firstn (length y + q) y)) with 0.
      + cbn [firstn]. rewrite app_nil_r. reflexivity.
      + rewrite firstn_length. lia.
    - intros i z Hi [HL [HF HR]]. rewrite next_ok by lia. cbn [bind].
      rewrite vset_ok by lia. eexists. split; [reflexivity|]. rewrite upd_length. split; [exact HL|].
      split.
      + transitivity (firstn (length y) z); [|exact HF]. apply list_eq_nth with (d := c0).
        * rewrite !firstn_length, upd_length. reflexivity.
        * intros k Hk. rewrite firstn_length, upd_length in Hk.
          assert (NF : forall (l : list F) a k, k < a -> nth k (firstn a l) c0 = nth k l c0).
          { clear. intros l a k. revert l a. induction k as [|k IH]; intros [|x l] [|a] H; simpl; try lia; auto.
            apply IH. lia. }
          rewrite !NF by lia. apply nth_upd_neq. lia.
      + intros t Ht. rewrite (forecast_ext nd _ z).
        * rewrite nth_upd. destruct (Nat.eqb_spec t i) as [->|Ne].
          -- destruct (Nat.ltb_spec i (length z)); [|lia]. cbn [andb]. unfold forecast.
             rewrite Hn. reflexivity.
          -- cbn [andb]. apply HR. lia.
        * lia.
        * intros k Hk. apply nth_upd_neq. lia.
    - exists z. split; [exact E|]. destruct H as [H1 [H2 H3]]. split; [exact H1|]. split; auto.
  Qed.

  Lemma char_poly_ok (d : list F) :
    char_poly F d (length d) = Ok (map copp (rev d) ++ [c1]).
  Proof.
    unfold char_poly. rewrite vset_ok by (rewrite repeat_length; lia). cbn [bind].
    rewrite forM_fill with (g := fun j => copp (nth (length d - 1 - j) d c0)).
    - f_equal. apply f_equal2.
      + apply list_eq_nth with (d := c0).
        * rewrite !map_length, seq_length, rev_length. reflexivity.
        * intros k Hk. rewrite map_length, seq_length in Hk.
          transitivity (copp (nth (length d - 1 - k) d c0)).
          -- rewrite (nth_indep _ c0 (copp (nth (length d - 1 - 0) d c0))) by (rewrite map_length, seq_length; lia).
             rewrite (map_nth (fun j => copp (nth (length d - 1 - j) d c0))).
             rewrite seq_nth by lia. reflexivity.
          -- rewrite (nth_indep (map copp (rev d)) c0 (copp c0)) by (rewrite map_length, rev_length; lia).
             rewrite map_nth, rev_nth by lia. do 2 f_equal. lia.
      + apply list_eq_nth with (d := c0).
        * rewrite skipn_length, upd_length, repeat_length. cbn [length]. lia.
        * intros k Hk. rewrite skipn_length, upd_length, repeat_length in Hk.
          assert (k = 0) by lia. subst k.
          rewrite (@skipn_nth _ _ _ c0) by (rewrite upd_length, repeat_length; lia). cbn [nth].
          apply nth_upd_eq. rewrite repeat_length. lia.
    - rewrite upd_length, repeat_length. lia.
    - intros i u Hi Hu _. rewrite (@vget_ok _ d _ c0) by lia. reflexivity.
  Qed.
End Fit.

Section Roots.
  Variable K : cring.
  Add Ring Kk : (c_ring K).

  Lemma times_linear_from_length prev r (c : list K) : length (times_linear_from K prev r c) = S (length c).
  Proof. revert prev; induction c as [|a c IH]; intros prev; simpl; auto. Qed.

  Lemma times_linear_from_nth prev r (c : list K) i :
    nth i (times_linear_from K prev r c) c0 =
    csub (match i with 0 => prev | S i' => nth i' c c0 end) (cmul r (nth i c c0)).
  Proof.
    revert prev i; induction c as [|a c IH]; intros prev [|i]; cbn [times_linear_from nth].
    - ring.
    - destruct i; cbn [nth]; ring.
    - reflexivity.
    - rewrite IH. destruct i; reflexivity.
  Qed.

  Lemma eval_times_linear_from prev r (c : list K) x :
    eval K (times_linear_from K prev r c) x = cadd prev (cmul (csub x r) (eval K c x)).
  Proof.
    revert prev; induction c as [|a c IH]; intros prev; cbn [times_linear_from eval]; [ring|].
    rewrite IH. ring.
  Qed.

  Lemma eval_monic_from (roots c : list K) x :
    eval K (fold_left (fun c r => times_linear K r c) roots c) x = cmul (product_at K roots x) (eval K c x).
  Proof.
    revert c; induction roots as [|r roots IH]; intros c; cbn [fold_left product_at]; [ring|].
    rewrite IH. unfold times_linear. rewrite eval_times_linear_from. ring.
  Qed.

  Lemma monic_snoc (roots : list K) r : monic K (roots ++ [r]) = times_linear K r (monic K roots).
  Proof. unfold monic. rewrite fold_left_app. reflexivity. Qed.

  Lemma monic_length (roots : list K) : length (monic K roots) = S (length roots).
  Proof.
    induction roots as [|r roots IH] using rev_ind; [reflexivity|].
    rewrite monic_snoc. unfold times_linear. rewrite times_linear_from_length, IH, app_length. simpl. lia.
  Qed.

  Lemma monic_top (roots : list K) : nth (length roots) (monic K roots) c0 = c1.
  Proof.
    induction roots as [|r roots IH] using rev_ind; [reflexivity|].
    rewrite monic_snoc, app_length. cbn [length]. unfold times_linear.
    rewrite times_linear_from_nth. rewrite Nat.add_1_r. cbv iota. rewrite IH.
    rewrite (nth_overflow _ _ (n := S (length roots))) by (rewrite monic_length; lia). ring.
  Qed.

  (** The in-place multiplication builds the product. *)
  Lemma from_roots_ok (roots : list K) : roots <> [] ->
    from_roots K (length roots) roots = Ok (monic K roots).
  Proof.
    intros Hne. set (p := length roots). assert (Hp : 1 <= p) by (destruct roots; [contradiction|unfold p; simpl; lia]).
    unfold from_roots. rewrite (@vget_ok _ roots _ c0) by (fold p; lia). cbn [bind].
    rewrite vset_ok by (rewrite repeat_length; lia). cbn [bind].
    rewrite vset_ok by (rewrite upd_length, repeat_length; lia). cbn [bind].
    loopR (fun j ab => length ab = p + 1 /\
       forall i, nth i ab c0 = nth i (monic K (firstn j roots)) c0) as ab E H.
    - exact Hp.
    - rewrite !upd_length, repeat_length. split; [reflexivity|].
      intros i. rewrite (@firstn_S_nth _ _ _ c0) by (fold p; lia). cbn [firstn app].
      unfold monic, times_linear. cbn [fold_left times_linear_from].
      rewrite !nth_upd, !upd_length, repeat_length.
      destruct (Nat.ltb_spec 1 (p + 1)); [|lia]. destruct (Nat.ltb_spec 0 (p + 1)); [|lia].
      destruct i as [|[|i]]; cbn [Nat.eqb andb nth]; [ring|reflexivity|].
      rewrite nth_repeat. destruct i; reflexivity.
    - intros j ab Hj [HL HA].
      set (P := monic K (firstn j roots)) in *.
      assert (LF : length (firstn j roots) = j) by (rewrite firstn_length; fold p; lia).
      assert (LP : length P = S j) by (unfold P; rewrite monic_length, LF; reflexivity).
      assert (TP : nth j P c0 = c1) by (unfold P; rewrite <- LF at 1; apply monic_top).
      rewrite (@vget_ok _ roots _ c0) by (fold p; lia). cbn [bind].
      set (r := nth j roots c0).
      rewrite vset_ok by lia. cbn [bind].
      set (ab1 := upd ab (j + 1) c1).
      assert (L1 : length ab1 = p + 1) by (unfold ab1; rewrite upd_length; exact HL).
      loopM (fun t u => length u = p + 1 /\ forall i,
         nth i u c0 = if (j - t <? i) && (i <=? j) then csub (nth (i - 1) ab1 c0) (cmul r (nth i ab1 c0))
                      else nth i ab1 c0) as u E1 H1.
      + split; [exact L1|]. intros i. destruct (Nat.ltb_spec (j - 0) i); destruct (Nat.leb_spec i j); cbn [andb]; try reflexivity. lia.
      + intros t u [_ Ht] [HLu HU]. cbn [Nat.add] in Ht.
        rewrite (@vget_ok _ u _ c0) by lia. cbn [bind].
        rewrite (@vget_ok _ u _ c0) by lia. cbn [bind].
        rewrite vset_ok by lia. eexists. split; [reflexivity|]. rewrite upd_length. split; [exact HLu|].
        intros i. rewrite nth_upd. destruct (Nat.eqb_spec i (j - t)) as [->|Ne].
        * destruct (Nat.ltb_spec (j - t) (length u)); [|lia]. cbn [andb].
          destruct (Nat.ltb_spec (j - S t) (j - t)); [|lia].
          destruct (Nat.leb_spec (j - t) j); [|lia]. cbn [andb].
          rewrite !HU.
          destruct (Nat.ltb_spec (j - t) (j - t - 1)); [lia|].
          destruct (Nat.ltb_spec (j - t) (j - t)); [lia|]. cbn [andb]. reflexivity.
        * cbn [andb]. rewrite HU.
          destruct (Nat.ltb_spec (j - t) i); destruct (Nat.ltb_spec (j - S t) i); try lia; reflexivity.
      + destruct H1 as [LU HU]. cbn [Nat.add] in HU. rewrite E1. cbn [bind].
        rewrite (@vget_ok _ u _ c0) by lia. cbn [bind].
        rewrite vset_ok by lia. eexists. split; [reflexivity|]. rewrite upd_length. split; [exact LU|].
        intros i. rewrite (@firstn_S_nth _ _ _ c0) by (fold p; lia). rewrite monic_snoc. fold P. fold r.
        unfold times_linear. rewrite times_linear_from_nth.
        rewrite nth_upd. destruct (Nat.ltb_spec 0 (length u)); [|lia].
        assert (A1 : forall i, i <> j + 1 -> nth i ab1 c0 = nth i P c0).
        { intros k Hk. unfold ab1. rewrite nth_upd_neq by exact Hk. apply HA. }
        destruct i as [|i]; cbn [Nat.eqb andb].
        * rewrite HU. destruct (Nat.ltb_spec (j - j) 0); [lia|]. cbn [andb]. rewrite A1 by lia. ring.
        * rewrite HU. destruct (Nat.ltb_spec (j - j) (S i)); [|lia].
          destruct (Nat.leb_spec (S i) j); cbn [andb].
          -- rewrite !A1 by lia. replace (S i - 1) with i by lia. reflexivity.
          -- destruct (Nat.eq_dec i j) as [->|Ne].
             ++ unfold ab1. rewrite Nat.add_1_r, nth_upd_eq by lia. rewrite TP.
                rewrite (nth_overflow P) by lia. ring.
             ++ rewrite A1 by lia. rewrite !(nth_overflow P) by lia. ring.
    - rewrite E. f_equal. destruct H as [HL H].
      replace (firstn p roots) with roots in H by (symmetry; apply firstn_all).
      apply list_eq_nth with (d := c0); [rewrite monic_length; fold p; lia|]. intros i _. apply H.
  Qed.
End Roots.

Section Real.
  Variables F K : cring.
  Variable re : K -> F.

  Lemma new_d_ok p (ab : list K) : p <= length ab ->
    exists nd, new_d F K re p ab = Ok nd /\ length nd = p /\
      forall j, j < p -> nth j nd c0 = copp (re (nth (p - 1 - j) ab c0)).
  Proof.
    intros H. unfold new_d.
    loopM (fun j nd => length nd = p /\
      forall i, i < p -> p - 1 - i < j -> nth i nd c0 = copp (re (nth (p - 1 - i) ab c0))) as nd E HH.
    - split; [apply repeat_length|]. intros; lia.
    - intros j nd [_ Hj] [HL HN]. cbn [Nat.add] in Hj.
      rewrite (@vget_ok _ ab _ c0) by lia. cbn [bind].
      rewrite vset_ok by lia. eexists. split; [reflexivity|]. rewrite upd_length. split; [exact HL|].
      intros i Hi Hij. rewrite nth_upd. destruct (Nat.eqb_spec i (p - 1 - j)) as [->|Ne].
      + destruct (Nat.ltb_spec (p - 1 - j) (length nd)); [|lia]. cbn [andb].
        do 3 f_equal. lia.
      + cbn [andb]. apply HN; lia.
    - exists nd. destruct HH as [H1 H2]. split; [exact E|]. split; [exact H1|].
      intros j Hj. apply H2; cbn [Nat.add]; lia.
  Qed.
End Real.
