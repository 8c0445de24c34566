From Verif Require Import Prelude Sort_Model Sort_Spec Sort_Proofs Parallel_Model Parallel_Spec.

(** ---------- default balancer ---------- *)

Lemma lbDefault_ctor_ok ntasks nthreads :
  0 < nthreads ->
  exists bs, lbDefault_ctor ntasks nthreads = Ok bs /\
    ntasks <= Nat.min nthreads ntasks * bs /\ ntasks <= nthreads * bs /\
    bs = (ntasks + nthreads - 1) / nthreads.
Proof.
  intros H. unfold lbDefault_ctor.
  destruct (Nat.eqb_spec nthreads 0); [lia|].
  destruct (Nat.ltb_spec ntasks nthreads) as [Hlt|Hge]; cbn [andb].
  - destruct (Nat.ltb_spec 0 ntasks) as [Hp|Hz].
    + assert (E : (0 <? ntasks) = true) by (apply Nat.ltb_lt; lia). rewrite E.
      rewrite Nat.mod_same by lia. cbn [Nat.eqb negb]. exists 1. split; [reflexivity|].
      split; [lia|]. split; [lia|].
      apply (Nat.div_unique _ _ _ (ntasks - 1)); lia.
    + assert (ntasks = 0) by lia. subst.
      assert (E : (0 <? nthreads) = true) by (apply Nat.ltb_lt; lia). rewrite E.
      rewrite Nat.mod_small, Nat.div_small by lia. cbn [Nat.eqb negb].
      exists 0. split; [reflexivity|]. split; [lia|]. split; [lia|].
      symmetry. apply Nat.div_small. lia.
  - assert (E : (0 <? nthreads) = true) by (apply Nat.ltb_lt; lia). rewrite E.
    pose proof (Nat.div_mod ntasks nthreads ltac:(lia)) as D.
    pose proof (Nat.mod_upper_bound ntasks nthreads ltac:(lia)) as U.
    replace (Nat.min nthreads ntasks) with nthreads by lia.
    destruct (Nat.eqb_spec (ntasks mod nthreads) 0) as [Hm|Hm]; cbn [negb].
    + exists (ntasks / nthreads). split; [reflexivity|]. split; [lia|]. split; [lia|].
      apply (Nat.div_unique _ _ _ (nthreads - 1)); lia.
    + exists (ntasks / nthreads + 1). split; [reflexivity|]. split; [nia|]. split; [nia|].
      apply (Nat.div_unique _ _ _ (ntasks mod nthreads - 1)); nia.
Qed.

(** The calls of thread t with the default balancer: the slice of the range. *)
Lemma wrapper_loop_default bs start stop t n p :
  wrapper_loop (lbDefault bs) start stop t n p =
  Ok (seq (p + t * bs + start) (Nat.min n (stop - (p + t * bs + start)))).
Proof.
  revert p. induction n as [|n IH]; intros p; cbn [wrapper_loop].
  - reflexivity.
  - cbn [lbDefault lb_taskNumber bind].
    destruct (Nat.leb_spec stop (p + t * bs + start)) as [H|H].
    + replace (stop - (p + t * bs + start)) with 0 by lia. reflexivity.
    + rewrite IH. cbn [bind].
      replace (Nat.min (S n) (stop - (p + t * bs + start)))
        with (S (Nat.min n (stop - (S p + t * bs + start)))) by lia.
      cbn [seq]. f_equal.
Qed.

Lemma wrapper_default bs start stop t :
  wrapper (lbDefault bs) start stop t =
  Ok (seq (t * bs + start) (Nat.min bs (stop - (t * bs + start)))).
Proof. unfold wrapper. cbn [lbDefault lb_blockSize bind]. apply wrapper_loop_default. Qed.

Lemma all_threads_default bs start stop n t :
  exists ths, all_threads (lbDefault bs) start stop n t = Ok ths /\
    length ths = n /\
    concat ths = seq (t * bs + start) (Nat.min (n * bs) (stop - (t * bs + start))).
Proof.
  revert t. induction n as [|n IH]; intros t; cbn [all_threads].
  - exists []. split; [reflexivity|]. split; reflexivity.
  - rewrite wrapper_default. cbn [bind]. destruct (IH (S t)) as [ths [H1 [H2 H3]]].
    rewrite H1. cbn [bind]. eexists. split; [reflexivity|]. split; [simpl; lia|].
    cbn [concat]. rewrite H3.
    destruct (Nat.le_gt_cases (stop - (t * bs + start)) bs) as [Hle|Hgt].
    + replace (stop - (S t * bs + start)) with 0 by nia. rewrite Nat.min_0_r. cbn [seq].
      rewrite app_nil_r. f_equal. nia.
    + replace (Nat.min bs (stop - (t * bs + start))) with bs by lia.
      replace (S t * bs + start) with (t * bs + start + bs) by nia.
      rewrite <- seq_app. f_equal. nia.
Qed.

Lemma parallelFor_ok start stop nthreads : 0 < nthreads -> start <= stop ->
  exists ths, parallelFor start stop nthreads = Ok ths /\ length ths = nthreads /\
    concat ths = seq start (stop - start).
Proof.
  intros H Hle. unfold parallelFor.
  destruct (lbDefault_ctor_ok (stop - start) nthreads H) as [bs [E [_ [E2 _]]]].
  rewrite E. cbn [bind].
  destruct (all_threads_default bs start stop nthreads 0) as [ths [H1 [H2 H3]]].
  exists ths. split; [exact H1|]. split; [exact H2|]. rewrite H3. cbn [Nat.mul Nat.add].
  f_equal. lia.
Qed.

Lemma loopCreate_ok ntasks nthreads : 0 < nthreads ->
  exists ths, loopCreate ntasks nthreads = Ok ths /\
    length ths = Nat.min nthreads ntasks /\
    concat ths = seq 0 ntasks.
Proof.
  intros H. unfold loopCreate.
  destruct (lbDefault_ctor_ok ntasks nthreads H) as [bs [E [E1 _]]].
  rewrite E. cbn [bind].
  destruct (all_threads_default bs 0 ntasks (Nat.min nthreads ntasks) 0) as [ths [H1 [H2 H3]]].
  exists ths. split; [exact H1|]. split; [exact H2|]. rewrite H3. cbn [Nat.mul Nat.add].
  f_equal. lia.
Qed.

(** Cover, stated directly on blockSize/taskNumber. *)
Lemma map_add_seq k n : map (fun p => p + k) (seq 0 n) = seq k n.
Proof.
  induction n as [|n IH]; [reflexivity|]. rewrite !seq_S, map_app, IH. cbn [map Nat.add].
  rewrite (Nat.add_comm n k). reflexivity.
Qed.

Lemma flat_map_blocks bs n t :
  flat_map (fun t => map (fun p => p + t * bs) (seq 0 bs)) (seq t n) = seq (t * bs) (n * bs).
Proof.
  revert t. induction n as [|n IH]; intros t; cbn [seq flat_map]; [reflexivity|].
  rewrite IH. cbn [Nat.mul]. rewrite seq_app. f_equal.
  - apply map_add_seq.
  - f_equal. cbn [Nat.mul]. lia.
Qed.

Lemma filter_lt_seq n m : n <= m -> filter (fun i => i <? n) (seq 0 m) = seq 0 n.
Proof.
  intros H. replace m with (n + (m - n)) by lia. rewrite seq_app, filter_app.
  assert (F1 : filter (fun i => i <? n) (seq 0 n) = seq 0 n).
  { assert (G : forall l, (forall x, In x l -> x < n) -> filter (fun i => i <? n) l = l).
    { induction l as [|a l IH]; simpl; intros Hx; auto.
      assert (a < n) by auto. apply Nat.ltb_lt in H0. rewrite H0. f_equal. auto. }
    apply G. intros x Hx. apply in_seq in Hx. lia. }
  assert (F2 : filter (fun i => i <? n) (seq (0 + n) (m - n)) = []).
  { assert (G : forall l, (forall x, In x l -> n <= x) -> filter (fun i => i <? n) l = []).
    { induction l as [|a l IH]; simpl; intros Hx; auto.
      assert (n <= a) by auto. apply Nat.ltb_ge in H0. rewrite H0. auto. }
    apply G. intros x Hx. apply in_seq in Hx. lia. }
  rewrite F1, F2. apply app_nil_r.
Qed.

Lemma lbDefault_cover ntasks nthreads : 0 < nthreads ->
  exists bs, lbDefault_ctor ntasks nthreads = Ok bs /\
    (forall m, m = nthreads \/ m = Nat.min nthreads ntasks ->
     filter (fun i => i <? ntasks)
       (flat_map (fun t => map (fun p => p + t * bs) (seq 0 bs)) (seq 0 m)) = seq 0 ntasks) /\
    bs = (ntasks + nthreads - 1) / nthreads.
Proof.
  intros H. destruct (lbDefault_ctor_ok ntasks nthreads H) as [bs [E [E1 [E2 E3]]]].
  exists bs. split; [exact E|]. split; [|exact E3]. intros m Hm. rewrite flat_map_blocks.
  cbn [Nat.mul]. apply filter_lt_seq. destruct Hm as [-> | ->]; assumption.
Qed.

Lemma mapM_ok {A B} (f : A -> res B) g l : (forall a, f a = Ok (g a)) -> mapM f l = Ok (map g l).
Proof. intros H. induction l as [|a l IH]; cbn [mapM map]; [reflexivity|]. rewrite H, IH. reflexivity. Qed.

Lemma lbDefault_handed_out ntasks nthreads : 0 < nthreads ->
  exists bs, lbDefault_ctor ntasks nthreads = Ok bs /\
    bs = (ntasks + nthreads - 1) / nthreads /\
    forall m, m = nthreads \/ m = Nat.min nthreads ntasks ->
    exists lists, handed_out (lb_blockSize (lbDefault bs)) (lb_taskNumber (lbDefault bs)) m = Ok lists /\
      filter (fun i => i <? ntasks) (concat lists) = seq 0 ntasks /\ length lists = m.
Proof.
  intros H. destruct (lbDefault_cover ntasks nthreads H) as [bs [E [C B]]].
  exists bs. split; [exact E|]. split; [exact B|]. intros m Hm.
  exists (map (fun t => map (fun p => p + t * bs) (seq 0 bs)) (seq 0 m)). split; [|split].
  - unfold handed_out. apply mapM_ok. intros t. cbn [lbDefault lb_blockSize lb_taskNumber bind].
    apply mapM_ok. reflexivity.
  - rewrite <- flat_map_concat_map. apply C, Hm.
  - rewrite map_length, seq_length. reflexivity.
Qed.

(** ---------- interleavings ---------- *)

Lemma interleaving_perm {A} (ths : list (list A)) tr :
  interleaving ths tr -> Permutation tr (concat ths).
Proof.
  induction 1 as [ths H|before x th after tr H IH].
  - replace (concat ths) with (@nil A); [constructor|].
    induction H as [|t l E Hl IHl]; simpl; auto. subst. exact IHl.
  - rewrite concat_app in *. cbn [concat app] in *. rewrite IH. apply Permutation_middle.
Qed.

Lemma interleaving_filter {A} (p : A -> bool) (ths : list (list A)) tr :
  interleaving ths tr -> interleaving (map (filter p) ths) (filter p tr).
Proof.
  induction 1 as [ths H|before x th after tr H IH].
  - simpl. constructor. apply Forall_map. eapply Forall_impl; [|exact H].
    intros a ->. reflexivity.
  - rewrite map_app in *. cbn [map filter] in *. destruct (p x).
    + constructor. exact IH.
    + exact IH.
Qed.

(** If only one thread has steps, the trace is that thread. *)
Lemma interleaving_single {A} (ths : list (list A)) tr :
  interleaving ths tr ->
  forall before th after, ths = before ++ th :: after ->
  Forall (fun l => l = []) before -> Forall (fun l => l = []) after -> tr = th.
Proof.
  induction 1 as [ths H|before x th after tr H IH]; intros b' t' a' E Hb Ha.
  - subst. apply Forall_app in H. destruct H as [_ H]. inversion H; subst. reflexivity.
  - assert (G : before = b' /\ x :: th = t' /\ after = a').
    { revert b' Hb E. induction before as [|y before IHb]; intros b' Hb E.
      - destruct b' as [|z b'].
        + simpl in E. inversion E; subst; auto.
        + simpl in E. inversion E; subst. inversion Hb; discriminate.
      - destruct b' as [|z b'].
        + simpl in E. inversion E; subst. apply Forall_app in Ha. destruct Ha as [_ Ha].
          inversion Ha; discriminate.
        + simpl in E. inversion E; subst. inversion Hb; subst.
          assert (G : before = b' /\ x :: th = t' /\ after = a').
          { (* the hypothesis on the tail *)
            clear -H2 Ha H4.
            revert b' H4 H2. induction before as [|y before IHb]; intros b' Hb E.
            - destruct b' as [|z b']; simpl in E; inversion E; subst; auto.
              inversion Hb; discriminate.
            - destruct b' as [|w b']; simpl in E; inversion E; subst.
              + apply Forall_app in Ha. destruct Ha as [_ Ha]. inversion Ha; discriminate.
              + inversion Hb; subst. destruct (IHb b') as [-> [-> ->]]; auto. }
          destruct G as [-> [-> ->]]. auto. }
    destruct G as [-> [<- ->]]. f_equal. eapply IH; [reflexivity|assumption|assumption].
Qed.

(** ---------- commuting steps ---------- *)

Section Commute.
  Variable S : Type.
  Variable body : nat -> nat -> list (action S).
  Hypothesis NI : no_interference body.

  (** A step that belongs to the body of its label. *)
  Definition genuine (p : nat * action S) : Prop := exists t, In (snd p) (body (fst p) t).

  Lemma run_app (l1 l2 : list (nat * action S)) s : run (l1 ++ l2) s = run l2 (run l1 s).
  Proof. unfold run. apply fold_left_app. Qed.

  Lemma run_move_front i a tr s :
    genuine (i, a) -> Forall genuine tr -> Forall (fun p => fst p <> i) tr ->
    run (tr ++ [(i, a)]) s = run ((i, a) :: tr) s.
  Proof.
    intros [t Ht] HG HF. revert s. induction tr as [|[j b] tr IH]; intros s; [reflexivity|].
    inversion HG as [|? ? [u Hu] HG']; subst. inversion HF as [|? ? Hne HF']; subst.
    cbn [app]. change (run ((j, b) :: (tr ++ [(i, a)])) s) with (run (tr ++ [(i, a)]) (b s)).
    rewrite IH by assumption. unfold run. cbn [fold_left snd].
    f_equal. simpl in *. apply (NI i j t u); auto.
  Qed.

  Lemma run_split_label i tr s :
    Forall genuine tr ->
    run tr s = run (filter (fun p => fst p =? i) tr ++ filter (fun p => negb (fst p =? i)) tr) s.
  Proof.
    induction tr as [|[j b] tr IH] using rev_ind; intros HG; [reflexivity|].
    apply Forall_app in HG. destruct HG as [HG1 HG2]. inversion HG2 as [|? ? G _]; subst.
    rewrite run_app, IH by assumption. rewrite !filter_app. cbn [filter fst].
    destruct (Nat.eqb_spec j i) as [->|Hne]; cbn [negb].
    - rewrite app_nil_r, <- app_assoc. rewrite run_app, run_app.
      rewrite <- run_app. rewrite run_move_front.
      + cbn [app]. reflexivity.
      + exact G.
      + clear -HG1. induction HG1 as [|x l Hx Hl IH]; simpl; [constructor|].
        destruct (negb (fst x =? i)); auto.
      + apply Forall_forall. intros x Hx. apply filter_In in Hx. destruct Hx as [_ Hx].
        destruct (Nat.eqb_spec (fst x) i); [discriminate|assumption].
    - rewrite app_nil_r. rewrite !run_app. reflexivity.
  Qed.

  (** Sort the trace by tasks, in any order that contains all labels. *)
  Lemma run_by_tasks order : NoDup order -> forall tr s,
    Forall genuine tr -> Forall (fun p => In (fst p) order) tr ->
    run tr s = run (flat_map (fun i => filter (fun p => fst p =? i) tr) order) s.
  Proof.
    induction order as [|i order IH]; intros ND tr s HG HI.
    - destruct tr as [|x tr]; [reflexivity|]. inversion HI; subst. contradiction.
    - inversion ND as [|? ? Hni ND']; subst.
      rewrite (run_split_label i) by assumption. cbn [flat_map]. rewrite !run_app.
      rewrite (IH ND').
      + f_equal. clear -Hni. induction order as [|j order IHo]; [reflexivity|].
        cbn [flat_map]. rewrite IHo by (intros H; apply Hni; right; exact H). f_equal.
        assert (Hji : j <> i) by (intros ->; apply Hni; left; reflexivity). clear -Hji.
        induction tr as [|[k b] tr IH]; [reflexivity|]. cbn [filter fst].
        destruct (Nat.eqb_spec k i) as [->|Hki]; cbn [negb filter fst].
        * destruct (Nat.eqb_spec i j); [congruence|]. exact IH.
        * destruct (Nat.eqb_spec k j); [|exact IH]. f_equal. exact IH.
      + apply Forall_forall. intros x Hx. apply filter_In in Hx.
        rewrite Forall_forall in HG. apply HG, Hx.
      + apply Forall_forall. intros x Hx. apply filter_In in Hx. destruct Hx as [Hx Hn].
        rewrite Forall_forall in HI. specialize (HI x Hx). destruct HI as [HI|HI]; auto.
        cbv beta in Hn. rewrite HI, Nat.eqb_refl in Hn. discriminate.
  Qed.

  (** Steps of a label in the threads' programs. *)
  Lemma filter_steps_in t calls i :
    NoDup calls -> In i calls ->
    filter (fun p => fst p =? i) (steps body t calls) = map (fun a => (i, a)) (body i t).
  Proof.
    unfold steps. induction calls as [|j calls IH]; intros ND Hin; [contradiction|].
    inversion ND as [|? ? Hni ND']; subst. cbn [flat_map]. rewrite filter_app.
    assert (FA : forall k (l : list (action S)), filter (fun p => fst p =? i) (map (fun a => (k, a)) l)
               = if k =? i then map (fun a => (k, a)) l else []).
    { intros k l. induction l as [|a l IHl]; cbn [map filter fst].
      - destruct (k =? i); reflexivity.
      - rewrite IHl. destruct (k =? i); reflexivity. }
    rewrite FA. destruct (Nat.eqb_spec j i) as [->|Hne].
    - assert (Z : filter (fun p => fst p =? i)
                (flat_map (fun k => map (fun a => (k, a)) (body k t)) calls) = []).
      { clear -Hni FA. induction calls as [|k calls IH]; [reflexivity|]. cbn [flat_map].
        rewrite filter_app, FA. destruct (Nat.eqb_spec k i) as [->|]; [exfalso; apply Hni; left; reflexivity|].
        apply IH. intros H. apply Hni. right. exact H. }
      rewrite Z, app_nil_r. reflexivity.
    - cbn [app]. apply IH; [assumption|]. destruct Hin; [congruence|assumption].
  Qed.

  Lemma filter_steps_notin t calls i :
    ~ In i calls -> filter (fun p => fst p =? i) (steps body t calls) = [].
  Proof.
    unfold steps. induction calls as [|k calls IH]; intros Hni; [reflexivity|]. cbn [flat_map].
    rewrite filter_app. rewrite IH by (intros H; apply Hni; right; exact H). rewrite app_nil_r.
    assert (k <> i) by (intros ->; apply Hni; left; reflexivity).
    induction (body k t) as [|a l IHl]; [reflexivity|]. cbn [map filter fst].
    destruct (Nat.eqb_spec k i); [congruence|exact IHl].
  Qed.

  Lemma programs_genuine t ths : Forall (Forall genuine) (programs body t ths).
  Proof.
    revert t. induction ths as [|calls ths IH]; intros t; cbn [programs]; constructor; auto.
    apply Forall_forall. intros p Hp. unfold steps in Hp. apply in_flat_map in Hp.
    destruct Hp as [i [_ Hp]]. apply in_map_iff in Hp. destruct Hp as [a [<- Ha]].
    exists t. exact Ha.
  Qed.

  Lemma programs_labels t ths :
    Forall (Forall (fun p => In (fst p) (concat ths))) (programs body t ths).
  Proof.
    revert t. induction ths as [|calls ths IH]; intros t; cbn [programs]; constructor.
    - apply Forall_forall. intros p Hp. unfold steps in Hp. apply in_flat_map in Hp.
      destruct Hp as [i [Hi Hp]]. apply in_map_iff in Hp. destruct Hp as [a [<- Ha]].
      cbn [concat]. apply in_app_iff. left. exact Hi.
    - eapply Forall_impl; [|apply IH]. intros l Hl. eapply Forall_impl; [|exact Hl].
      intros p Hp. cbn [concat]. apply in_app_iff. right. exact Hp.
  Qed.

  Lemma Forall_concat {A} (P : A -> Prop) ls : Forall (Forall P) ls -> Forall P (concat ls).
  Proof. induction 1; simpl; [constructor|]. apply Forall_app; auto. Qed.

  Lemma filter_programs_notin i ths t :
    ~ In i (concat ths) ->
    Forall (fun l => l = []) (map (filter (fun p => fst p =? i)) (programs body t ths)).
  Proof.
    revert t. induction ths as [|calls ths IH]; intros t Hni; cbn [programs map]; constructor.
    - apply filter_steps_notin. intros H. apply Hni. cbn [concat]. apply in_app_iff. auto.
    - apply IH. intros H. apply Hni. cbn [concat]. apply in_app_iff. auto.
  Qed.

  Lemma filter_programs i ths t :
    NoDup (concat ths) -> In i (concat ths) ->
    exists before u after,
      map (filter (fun p => fst p =? i)) (programs body t ths)
        = before ++ map (fun a => (i, a)) (body i u) :: after /\
      t <= u < t + length ths /\
      Forall (fun l => l = []) before /\ Forall (fun l => l = []) after.
  Proof.
    revert t. induction ths as [|calls ths IH]; intros t ND Hin; [contradiction|].
    cbn [concat] in ND, Hin. cbn [programs map].
    assert (ND1 : NoDup calls).
    { clear -ND. induction calls as [|a l IH]; [constructor|]. inversion ND; subst. constructor.
      - intros H. apply H1. apply in_app_iff. auto.
      - apply IH. assumption. }
    assert (ND2 : NoDup (concat ths)).
    { clear -ND. induction calls as [|a l IH]; [exact ND|]. inversion ND; subst. auto. }
    assert (DJ : forall x, In x calls -> ~ In x (concat ths)).
    { clear -ND. induction calls as [|a l IH]; intros x Hx; [contradiction|].
      inversion ND; subst. destruct Hx as [->|Hx].
      - intros H. apply H1. apply in_app_iff. auto.
      - apply IH; assumption. }
    apply in_app_iff in Hin. destruct (in_dec Nat.eq_dec i calls) as [Hc|Hc].
    - exists [], t, (map (filter (fun p => fst p =? i)) (programs body (Datatypes.S t) ths)).
      rewrite (filter_steps_in t calls i ND1 Hc). split; [reflexivity|]. split; [simpl; lia|].
      split; [constructor|]. apply filter_programs_notin. apply DJ, Hc.
    - destruct Hin as [Hin|Hin]; [contradiction|].
      destruct (IH (Datatypes.S t) ND2 Hin) as [b [u [a [E [Hu [Hb Ha]]]]]].
      exists ([] :: b), u, a. rewrite E. rewrite (filter_steps_notin t calls i Hc).
      split; [reflexivity|]. split; [simpl; lia|]. split; [constructor; auto|exact Ha].
  Qed.

  Hypothesis thread_blind : forall i t u, body i t = body i u.

  Lemma interleaving_serial ths tr s order :
    NoDup (concat ths) -> Permutation order (concat ths) ->
    interleaving (programs body 0 ths) tr ->
    run tr s = serial (fun i => body i 0) order s.
  Proof.
    intros ND HP HI.
    pose proof (interleaving_perm _ _ HI) as HPm.
    assert (NDo : NoDup order) by (eapply Permutation_NoDup; [symmetry; exact HP|exact ND]).
    rewrite (run_by_tasks order NDo).
    - assert (HF : forall i, In i order -> filter (fun p => fst p =? i) tr = map (fun a => (i, a)) (body i 0)).
      { intros i Hi. assert (Hic : In i (concat ths)) by (eapply Permutation_in; eauto).
        destruct (filter_programs i ths 0 ND Hic) as [b [u [a [E [_ [Hb Ha]]]]]].
        rewrite (thread_blind i 0 u).
        eapply interleaving_single; [apply (interleaving_filter (fun p => fst p =? i) _ _ HI)|exact E|exact Hb|exact Ha]. }
      clear -HF. unfold serial. revert s. induction order as [|i order IH]; intros s; [reflexivity|].
      cbn [flat_map fold_left]. rewrite run_app. rewrite IH by (intros; apply HF; right; assumption).
      f_equal. rewrite HF by (left; reflexivity).
      generalize (body i 0). clear. intros l. revert s. induction l as [|a l IH]; intros s; [reflexivity|].
      cbn [map]. unfold run in *. cbn [fold_left snd]. apply IH.
    - apply Forall_forall. intros p Hp. apply (Permutation_in p HPm) in Hp.
      pose proof (Forall_concat _ _ (programs_genuine 0 ths)) as G. rewrite Forall_forall in G. auto.
    - apply Forall_forall. intros p Hp. apply (Permutation_in p HPm) in Hp.
      pose proof (Forall_concat _ _ (programs_labels 0 ths)) as G. rewrite Forall_forall in G.
      eapply Permutation_in; [symmetry; exact HP|]. apply G. exact Hp.
  Qed.
End Commute.

(** ---------- calls as atomic events ---------- *)

(** The calls themselves as events (index, thread). *)
Fixpoint call_events (t : nat) (ths : list (list nat)) : list (list (nat * nat)) :=
  match ths with
  | [] => []
  | calls :: ths' => map (fun i => (i, t)) calls :: call_events (S t) ths'
  end.

Lemma call_events_fst t ths : map fst (concat (call_events t ths)) = concat ths.
Proof.
  revert t. induction ths as [|c ths IH]; intros t; cbn [call_events concat map]; [reflexivity|].
  rewrite map_app, IH, map_map. cbn [fst]. rewrite map_id. reflexivity.
Qed.

Lemma call_events_snd t ths :
  Forall (fun p => t <= snd p < t + length ths) (concat (call_events t ths)).
Proof.
  revert t. induction ths as [|c ths IH]; intros t; cbn [call_events concat]; [constructor|].
  apply Forall_app. split.
  - apply Forall_map. apply Forall_forall. intros i _. simpl. lia.
  - eapply Forall_impl; [|apply IH]. intros p Hp. simpl in *. lia.
Qed.

Lemma schedule_once ths tr :
  interleaving (call_events 0 ths) tr ->
  Permutation (map fst tr) (concat ths) /\ Forall (fun p => snd p < length ths) tr.
Proof.
  intros H. pose proof (interleaving_perm _ _ H) as HP. split.
  - rewrite <- (call_events_fst 0 ths). apply Permutation_map. exact HP.
  - eapply Permutation_Forall; [symmetry; exact HP|].
    eapply Forall_impl; [|apply call_events_snd]. intros p Hp. simpl in Hp. lia.
Qed.

(** ---------- weighted balancer ---------- *)

Lemma min_index_from_spec l k best bestk :
  let r := min_index_from l k best bestk in
  (r = bestk /\ Forall (fun a => best <= a) l) \/
  (k <= r < k + length l /\ nth (r - k) l 0 <= best /\ Forall (fun a => nth (r - k) l 0 <= a) l).
Proof.
  revert k best bestk. induction l as [|a l IH]; intros k best bestk; cbn [min_index_from].
  - left. split; [reflexivity|constructor].
  - destruct (Nat.ltb_spec a best) as [H|H].
    + right. destruct (IH (S k) a k) as [[E F]|[R [L F]]].
      * cbv zeta in *. rewrite E. rewrite Nat.sub_diag. cbn [length nth].
        split; [lia|]. split; [lia|]. constructor; [lia|exact F].
      * cbv zeta in *. set (r := min_index_from l (S k) a k) in *.
        replace (r - k) with (S (r - S k)) by lia. cbn [length nth].
        split; [lia|]. split; [lia|]. constructor; [lia|exact F].
    + destruct (IH (S k) best bestk) as [[E F]|[R [L F]]].
      * left. cbv zeta in *. rewrite E. split; [reflexivity|]. constructor; assumption.
      * right. cbv zeta in *. set (r := min_index_from l (S k) best bestk) in *.
        replace (r - k) with (S (r - S k)) by lia. cbn [length nth].
        split; [lia|]. split; [lia|]. constructor; [lia|exact F].
Qed.

Lemma min_index_spec l : l <> [] ->
  min_index l < length l /\ Forall (fun a => nth (min_index l) l 0 <= a) l.
Proof.
  destruct l as [|a l]; [congruence|]. intros _. unfold min_index.
  destruct (min_index_from_spec l 1 a 0) as [[E F]|[R [L F]]]; cbv zeta in *.
  - rewrite E. cbn [length nth]. split; [lia|]. constructor; [lia|exact F].
  - set (r := min_index_from l 1 a 0) in *. replace r with (S (r - 1)) by lia. cbn [length nth].
    split; [lia|]. constructor; assumption.
Qed.

Definition sum_list (l : list nat) : nat := fold_right Nat.add 0 l.

Lemma sum_list_app a b : sum_list (a ++ b) = sum_list a + sum_list b.
Proof. unfold sum_list. induction a; simpl; lia. Qed.

Lemma sum_list_perm a b : Permutation a b -> sum_list a = sum_list b.
Proof. unfold sum_list. induction 1; simpl; lia. Qed.

Lemma sum_list_upd l i x : i < length l -> sum_list (upd l i x) + nth i l 0 = sum_list l + x.
Proof.
  revert i. induction l as [|a l IH]; intros [|i] H; simpl in *; try lia.
  specialize (IH i ltac:(lia)). unfold sum_list in *. lia.
Qed.

Lemma sum_list_ge_min l m : Forall (fun a => m <= a) l -> length l * m <= sum_list l.
Proof. induction 1; simpl; lia. Qed.

Lemma concat_upd_perm (tn : list (list nat)) i x :
  i < length tn ->
  Permutation (concat (upd tn i (nth i tn [] ++ [x]))) (x :: concat tn).
Proof.
  revert i. induction tn as [|l tn IH]; intros [|i] H; cbn [length] in H; try lia.
  - cbn [upd nth concat]. rewrite <- app_assoc. cbn [app]. symmetry. apply Permutation_middle.
  - cbn [upd nth concat]. rewrite IH by lia. symmetry. apply Permutation_middle.
Qed.

(** Work of a thread. *)
Definition load (weights : list nat) (tasks : list nat) : nat :=
  sum_list (map (fun i => nth i weights 0) tasks).

Definition max_list (l : list nat) : nat := fold_right Nat.max 0 l.
Lemma max_list_nth l i : nth i l 0 <= max_list l.
Proof. revert i; induction l as [|a l IH]; intros [|i]; simpl; try lia. specialize (IH i). unfold max_list in *. lia. Qed.

Section WeightsProofs.
  Variable srt : list (nat * nat) -> list (nat * nat).
  Hypothesis Hsrt : stdsort_ok Nat.ltb srt.

  Lemma lbWeights_ctor_ok weights nthreads :
    0 < nthreads ->
    let ntasks := length weights in
    let m := if (ntasks <? nthreads) && (0 <? ntasks) then ntasks else nthreads in
    exists tn wl,
      lbWeights_ctor srt weights nthreads = Ok (tn, wl) /\
      length tn = nthreads /\ length wl = m /\
      Permutation (concat tn) (seq 0 ntasks) /\
      (forall t, m <= t -> nth t tn [] = []) /\
      (forall t, t < m -> nth t wl 0 = load weights (nth t tn [])) /\
      (forall t, t < m -> m * nth t wl 0 <= sum_list weights + (m - 1) * max_list weights).
  Proof.
    intros Hn ntasks m.
    assert (Hm : 0 < m /\ m <= nthreads).
    { unfold m. destruct (Nat.ltb_spec ntasks nthreads); destruct (Nat.ltb_spec 0 ntasks); simpl; lia. }
    unfold lbWeights_ctor. fold ntasks. fold m.
    destruct (sort_correct nat Nat.ltb srt Hsrt weights (repeat 0 ntasks)) as [x' [ip [E [Lx [_ [HP _]]]]]];
      [rewrite repeat_length; reflexivity|].
    rewrite E. cbn [bind].
    assert (Lip : length ip = ntasks).
    { rewrite <- (Permutation_length HP), seq_length. reflexivity. }
    (* suffix of iperm already distributed *)
    set (sfx i := skipn (ntasks - i) ip).
    set (P := fun (i : nat) (s : list (list nat) * list nat) =>
      let '(tn, wl) := s in
      length tn = nthreads /\ length wl = m /\
      Permutation (concat tn) (sfx i) /\
      (forall t, m <= t -> nth t tn [] = []) /\
      (forall t, t < m -> nth t wl 0 = load weights (nth t tn [])) /\
      sum_list wl = load weights (sfx i) /\
      (forall t, t < m -> m * nth t wl 0 <= sum_list wl + (m - 1) * max_list weights)).
    match goal with |- context [forM ntasks 0 ?f ?s] =>
      destruct (forM_inv P ntasks f s (i := 0)) as [[tn wl] [H1 H2]] end.
    - unfold P, sfx. rewrite Nat.sub_0_r, <- Lip, skipn_all. rewrite !repeat_length.
      repeat split; auto.
      + clear. induction nthreads; simpl; auto.
      + intros t _. apply nth_repeat_same.
      + intros t Ht. rewrite nth_repeat_same, nth_repeat_in by lia. reflexivity.
      + clear. unfold load. simpl. induction m; simpl; auto.
      + intros t Ht. rewrite nth_repeat_same. rewrite Nat.mul_0_r. apply Nat.le_0_l.
    - intros j [tn wl] [_ Hj] (L1 & L2 & HPm & HZ & HL & HS & HB). simpl in Hj.
      cbv beta iota zeta.
      set (ii := ntasks - 1 - j). set (th := min_index wl).
      destruct (min_index_spec wl) as [Hth Hmin].
      { destruct wl; [simpl in L2; lia|discriminate]. }
      fold th in Hth, Hmin.
      rewrite (vget_ok ip 0) by lia. cbn [bind].
      set (x := nth ii ip 0).
      assert (Hx : x < ntasks).
      { assert (I : In x (seq 0 ntasks)).
        { apply (Permutation_in _ (Permutation_sym HP)). apply nth_In. lia. }
        apply in_seq in I. lia. }
      rewrite (vget_ok tn []) by lia. cbn [bind].
      rewrite vset_ok by lia. cbn [bind].
      rewrite (vget_ok wl 0) by lia. cbn [bind].
      rewrite (vget_ok weights 0) by (fold ntasks; lia). cbn [bind].
      rewrite vset_ok by lia. cbn [bind].
      eexists. split; [reflexivity|]. unfold P.
      rewrite !upd_length.
      assert (SF : sfx (S j) = x :: sfx j).
      { unfold sfx. replace (ntasks - S j) with ii by (unfold ii; lia).
        rewrite (skipn_nth ip 0) by lia. fold x. f_equal. f_equal. unfold ii. lia. }
      pose proof (sum_list_upd wl th (nth th wl 0 + nth x weights 0) ltac:(lia)) as SU.
      assert (SU' : sum_list (upd wl th (nth th wl 0 + nth x weights 0)) = sum_list wl + nth x weights 0) by lia.
      split; [exact L1|]. split; [exact L2|].
      split; [|split; [|split; [|split]]].
      + rewrite concat_upd_perm by lia. rewrite SF. constructor. exact HPm.
      + intros t Ht. rewrite nth_upd_neq by lia. apply HZ. exact Ht.
      + intros t Ht. destruct (Nat.eq_dec t th) as [->|Hne].
        * rewrite !nth_upd_eq by lia. unfold load. rewrite map_app, sum_list_app. cbn [map].
          unfold load in HL. rewrite (HL th) by lia. change (sum_list [nth x weights 0]) with (nth x weights 0 + 0). lia.
        * rewrite !nth_upd_neq by lia. apply HL. exact Ht.
      + rewrite SU', SF, HS. unfold load. cbn [map]. change (sum_list (?a :: ?l)) with (a + sum_list l). lia.
      + intros t Ht. rewrite SU'. destruct (Nat.eq_dec t th) as [->|Hne].
        * rewrite nth_upd_eq by lia.
          pose proof (sum_list_ge_min wl (nth th wl 0) Hmin) as G. rewrite L2 in G.
          pose proof (max_list_nth weights x) as W. nia.
        * rewrite nth_upd_neq by lia. pose proof (HB t Ht). lia.
    - exists tn, wl. split; [exact H1|].
      destruct H2 as (L1 & L2 & HPm & HZ & HL & HS & HB). unfold sfx in *.
      replace (ntasks - (0 + ntasks)) with 0 in * by lia. cbn [skipn] in *.
      split; [exact L1|]. split; [exact L2|].
      split; [rewrite HPm; symmetry; exact HP|]. split; [exact HZ|]. split; [exact HL|].
      assert (ES : sum_list wl = sum_list weights).
      { rewrite HS. unfold load. rewrite <- (sum_list_perm (map (fun i => nth i weights 0) (seq 0 ntasks))).
        - unfold ntasks. rewrite map_nth_seq. reflexivity.
        - apply Permutation_map. exact HP. }
      intros t Ht. rewrite <- ES. apply HB. exact Ht.
  Qed.

  Lemma wrapper_loop_weights tn l t stop n p :
    nth_error tn t = Some l -> p + n = length l -> Forall (fun i => i < stop) l ->
    wrapper_loop (lbWeights tn) 0 stop t n p = Ok (skipn p l).
  Proof.
    intros Ht. revert p. induction n as [|n IH]; intros p Hp HF; cbn [wrapper_loop].
    - rewrite skipn_all2 by lia. reflexivity.
    - cbn [lbWeights lb_taskNumber]. rewrite (vget_some _ _ Ht). cbn [bind].
      rewrite (vget_ok l 0) by lia. cbn [bind]. rewrite Nat.add_0_r.
      assert (Hlt : nth p l 0 < stop).
      { rewrite Forall_forall in HF. apply HF. apply nth_In. lia. }
      destruct (Nat.leb_spec stop (nth p l 0)); [lia|].
      rewrite IH by (auto; lia). cbn [bind]. rewrite (skipn_nth l 0 (n := p)) by lia. reflexivity.
  Qed.

  Lemma all_threads_weights tn stop n t :
    Forall (Forall (fun i => i < stop)) tn -> t + n <= length tn ->
    all_threads (lbWeights tn) 0 stop n t = Ok (firstn n (skipn t tn)).
  Proof.
    intros HF. revert t. induction n as [|n IH]; intros t Ht; cbn [all_threads].
    - reflexivity.
    - assert (E : nth_error tn t = Some (nth t tn [])) by (apply nth_error_nth'; lia).
      unfold wrapper. cbn [lbWeights lb_blockSize]. rewrite (vget_some _ _ E). cbn [bind].
      fold (lbWeights tn). rewrite (wrapper_loop_weights tn (nth t tn []) t stop _ 0 E).
      2: lia.
      2:{ rewrite Forall_forall in HF. apply HF. apply nth_In. lia. }
      cbn [skipn bind]. rewrite IH by lia. cbn [bind].
      rewrite (skipn_nth tn [] (n := t)) by lia. reflexivity.
  Qed.

  Lemma loopCreate_weights_ok weights nthreads :
    0 < nthreads ->
    exists ths, loopCreate_weights srt (length weights) weights nthreads = Ok ths /\
      length ths = Nat.min nthreads (length weights) /\
      Permutation (concat ths) (seq 0 (length weights)) /\
      forall t, t < length ths ->
        length ths * load weights (nth t ths []) <= sum_list weights + (length ths - 1) * max_list weights.
  Proof.
    intros Hn. destruct (lbWeights_ctor_ok weights nthreads Hn) as [tn [wl [E [L1 [L2 [HP [HZ [HL HB]]]]]]]].
    unfold loopCreate_weights. rewrite E. cbn [bind].
    set (ntasks := length weights) in *.
    set (m := if (ntasks <? nthreads) && (0 <? ntasks) then ntasks else nthreads) in *.
    assert (HF : Forall (Forall (fun i => i < ntasks)) tn).
    { apply Forall_forall. intros l Hl. apply Forall_forall. intros i Hi.
      assert (I : In i (concat tn)) by (apply in_concat; eauto).
      apply (Permutation_in _ HP) in I. apply in_seq in I. lia. }
    rewrite all_threads_weights by (auto; lia).
    eexists. split; [reflexivity|]. cbn [skipn].
    assert (Hcat : concat (firstn (Nat.min nthreads ntasks) tn) = concat tn).
    { rewrite <- (firstn_skipn (Nat.min nthreads ntasks) tn) at 2. rewrite concat_app.
      replace (concat (skipn (Nat.min nthreads ntasks) tn)) with (@nil nat); [now rewrite app_nil_r|].
      symmetry. destruct (Nat.eq_dec ntasks 0) as [Z|NZ].
      - rewrite Z, Nat.min_0_r. cbn [skipn]. apply Permutation_nil. symmetry. rewrite HP, Z. reflexivity.
      - assert (Hm : m = Nat.min nthreads ntasks).
        { unfold m. destruct (Nat.ltb_spec ntasks nthreads); destruct (Nat.ltb_spec 0 ntasks); simpl; lia. }
        rewrite <- Hm.
        assert (G : forall (ls : list (list nat)) k, (forall t, k <= t -> nth t ls [] = []) -> concat (skipn k ls) = []).
        { clear. induction ls as [|l ls IH]; intros [|k] H; cbn [skipn]; auto.
          - cbn [concat]. specialize (H 0 ltac:(lia)) as H0. cbn [nth] in H0. rewrite H0. cbn [app].
            apply (IH 0). intros t Ht. apply (H (S t)). lia.
          - apply IH. intros t Ht. apply (H (S t)). lia. }
        apply G. exact HZ. }
    assert (Lf : length (firstn (Nat.min nthreads ntasks) tn) = Nat.min nthreads ntasks).
    { rewrite firstn_length. lia. }
    split; [exact Lf|]. split; [rewrite Hcat; exact HP|].
    intros t Ht. rewrite Lf in *.
    assert (Hm : m = Nat.min nthreads ntasks).
    { unfold m. destruct (Nat.ltb_spec ntasks nthreads); destruct (Nat.ltb_spec 0 ntasks); simpl; lia. }
    rewrite <- Hm in *.
    replace (nth t (firstn m tn) []) with (nth t tn []).
    - rewrite <- HL by lia. apply HB. lia.
    - rewrite <- (firstn_skipn m tn) at 1. apply app_nth1. lia.
  Qed.
End WeightsProofs.
