(** Theorems about the record of a run (C122). *)
From Coq Require Import ZArith Ascii String.
From Verif Require Import Prelude Ring Str_Model Str_Proofs Text_Model Ng_Model Ng_Spec Ng_Proofs Ng_Store Ng_Props Ngs_Props Rid_Model Rid_Spec Rid_Props Appi_Model Appi_Spec.
Import List.

Section P.
  Variable R : cring.
  (** the steps an activity is made of *)
  Fixpoint steps (n id : str) (over : bool) (h : list (act R)) : list (step R) :=
    match h with
    | [] => []
    | Other s :: h' => s :: steps n id over h'
    | Finish :: h' => steps n id true h'
    | Record label t :: h' =>
      (if over then [SWrite (label ++ lit "/UnixTimeEnd") KInt t]
       else [SGroup label; SWrite (label ++ lit "/Name") KStr n; SWrite (label ++ lit "/RunId") KStr id; SWrite (label ++ lit "/UnixTimeStart") KInt t]) ++ steps n id over h'
    end.
  Lemma do_steps_app f l1 l2 : do_steps R f (l1 ++ l2) = do f <- do_steps R f l1 ;; do_steps R f l2.
  Proof. revert f. induction l1 as [|s l1 IH]; intros f; [reflexivity|]. cbn [do_steps app]. destruct (do_step R f s); cbn [bind]; auto. Qed.
  Lemma do_acts_steps h : forall a f, do_acts R a f h = do f <- do_steps R f (steps (a_name a) (a_runId a) (a_final a) h) ;;
     Ok (mkapp (a_name a) (a_runId a) (a_final a || existsb (fun x => match x with Finish => true | _ => false end) h), f).
  Proof.
    induction h as [|x h IH]; intros a f; [cbn; rewrite Bool.orb_false_r; destruct a; reflexivity|].
    destruct x as [s|label t|]; cbn [do_acts steps existsb].
    - cbn [do_steps]. destruct (do_step R f s) as [g| | |]; cbn [bind]; auto.
    - rewrite do_steps_app. unfold app_write. destruct (a_final a) eqn:E; cbn [negb].
      + cbn [do_steps do_step wr bind]. rewrite IH, E. reflexivity.
      + cbn [do_steps do_step]. destruct (createGroup R f label) as [g| | |]; cbn [bind]; auto. cbn [wr bind write_string].
        rewrite IH, E. reflexivity.
    - rewrite IH. cbn [app_finalize a_name a_runId a_final]. rewrite Bool.orb_true_r. reflexivity.
  Qed.

  Lemma sset_other (st : store R) n m e : m <> n -> sset R st n e m = st m.
  Proof. intros H. unfold sset. destruct (str_eqb m n) eqn:E; [|reflexivity]. apply str_eqb_eq in E. contradiction. Qed.
  Lemma sset_same (st : store R) n e : sset R st n e n = Some e.
  Proof. unfold sset. assert (str_eqb n n = true) as -> by (apply str_eqb_eq; reflexivity). reflexivity. Qed.
  Lemma child_ne (a : str) (w : string) : w <> EmptyString -> a ++ lit w <> a.
  Proof. intros H E. apply (f_equal (@List.length ascii)) in E. rewrite app_length in E. destruct w; [contradiction|]. cbn in E. lia. Qed.
  Lemma child_ne2 (a : str) (v w : str) : v <> w -> a ++ v <> a ++ w.
  Proof. intros H E. apply app_inv_head in E. contradiction. Qed.
  Lemma good_lit label w c : good_name label -> w = String "/" c -> c <> EmptyString -> c <> "."%string -> ~ In slash (lit c) ->
    nth 0 (rev (lit c)) "l"%char <> "l"%char -> good_name (label ++ lit w).
  Proof.
    intros G -> N D S L. change (lit (String "/" c)) with (slash :: lit c).
    apply good_child; auto.
    - destruct c; [contradiction|discriminate].
    - intros E. apply D. destruct c as [|x [|y c]]; inversion E. reflexivity.
    - intros p E. apply (f_equal (@rev ascii)) in E. rewrite !rev_app_distr in E. cbn [rev] in E. apply (f_equal (fun l => nth 0 l "l"%char)) in E.
      destruct (rev (lit c)) as [|x r] eqn:Er; [apply (f_equal (@List.length ascii)) in Er; rewrite rev_length in Er; destruct c; [contradiction|discriminate]|].
      cbn in E. cbn in L. apply L. rewrite E. reflexivity.
  Qed.
  Ltac gl := eapply good_lit; [eassumption|reflexivity|discriminate|discriminate|cbv; intuition discriminate|cbv; discriminate].
  Lemma inside_lit (st : store R) label w c : st label = Some EGroup -> w = String "/" c -> ~ In slash (lit c) -> inside R st (label ++ lit w).
  Proof. intros H -> S. right. exists label, (lit c). auto. Qed.

  Lemma proper_steps n id h : n <> [] -> id <> [] -> forall over st, proper_acts R n id over st h -> propers R st (steps n id over h).
  Proof.
    intros Nn Ni. induction h as [|x h IH]; intros over st P; [exact I|]. destruct x as [s|label t|]; cbn [steps proper_acts] in *.
    - split; [apply P|]. apply IH, P.
    - destruct over.
      + destruct P as (G & L & E & P). cbn [app propers]. split; [|apply IH; exact P]. cbn [proper storable]. split; [gl|]. split; [exact E|]. split; [|exact I].
        eapply inside_lit; [exact L|reflexivity|cbv; intuition discriminate].
      + destruct P as (G & L & Is & E & P). cbn [app propers want_step]. split; [split; [|split]; assumption|].
        split; [split; [gl|split; [rewrite sset_other by (apply child_ne; discriminate); apply E; cbn; auto|split; [|exact Nn]]]|].
        { eapply inside_lit; [apply sset_same|reflexivity|cbv; intuition discriminate]. }
        split; [split; [gl|split; [rewrite !sset_other by (try (apply child_ne2; discriminate); apply child_ne; discriminate); apply E; cbn; auto|split; [|exact Ni]]]|].
        { eapply inside_lit; [rewrite sset_other by (intros Q; symmetry in Q; revert Q; apply child_ne; discriminate); apply sset_same|reflexivity|cbv; intuition discriminate]. }
        split; [split; [gl|split; [rewrite !sset_other by (try (apply child_ne2; discriminate); apply child_ne; discriminate); apply E; cbn; auto|split; [|exact I]]]|].
        { eapply inside_lit; [rewrite !sset_other by (intros Q; symmetry in Q; revert Q; apply child_ne; discriminate); apply sset_same|reflexivity|cbv; intuition discriminate]. }
        apply IH. exact P.
    - apply IH, P.
  Qed.

  Lemma want_keep n e : forall l st, propers R st l -> st n = Some e -> (forall m k x, In (SOverwrite m k x) l -> m <> n) -> want_steps R st l n = Some e.
  Proof.
    induction l as [|s l IH]; intros st P E H; [exact E|]. destruct P as [P1 P]. cbn [want_steps fold_left]. apply (IH (want_step R st s)); auto.
    - destruct s as [g|m k x|m k x]; cbn [want_step proper] in *.
      + destruct P1 as (_ & N & _). rewrite sset_other; [exact E|]. intros <-. congruence.
      + destruct P1 as (_ & N & _). rewrite sset_other; [exact E|]. intros <-. congruence.
      + rewrite sset_other; [exact E|]. intros <-. apply (H n k x); [left; reflexivity|reflexivity].
    - intros m k x I. apply (H m k x). right. exact I.
  Qed.
  Lemma want_none n : forall l st, (forall s, In s l -> step_name R s <> n) -> want_steps R st l n = st n.
  Proof.
    induction l as [|s l IH]; intros st H; [reflexivity|]. cbn [want_steps fold_left]. change (want_steps R (want_step R st s) l n = st n).
    rewrite IH by (intros x I; apply H; right; exact I). pose proof (H s (or_introl eq_refl)) as N.
    destruct s as [g|m k x|m k x]; cbn [want_step step_name] in *; apply sset_other; congruence.
  Qed.
  Lemma overs_others n id h : forall over m k x, In (SOverwrite m k x) (steps n id over h) -> In (Other (SOverwrite m k x)) h.
  Proof.
    induction h as [|a h IH]; intros over m k x I; [destruct I|]. destruct a as [s|label t|]; cbn [steps] in I.
    - destruct I as [->|I]; [left; reflexivity|right; eauto].
    - right. apply in_app_iff in I. destruct I as [I|I]; [|eauto]. destruct over; repeat (destruct I as [I|I]; [discriminate I|]); destruct I.
    - right. eauto.
  Qed.
  Lemma propers_app l1 l2 st : propers R st (l1 ++ l2) -> propers R st l1 /\ propers R (want_steps R st l1) l2.
  Proof. revert st. induction l1 as [|s l1 IH]; intros st P; [split; [exact I|exact P]|]. destruct P as [P1 P]. apply IH in P. cbn [propers]. tauto. Qed.
  Lemma steps_app n id h1 h2 : forall over, exists o, steps n id over (h1 ++ h2) = steps n id over h1 ++ steps n id o h2 /\ (o = true <-> over = true \/ In Finish h1).
  Proof.
    induction h1 as [|a h1 IH]; intros over; [exists over; split; [reflexivity|intuition]|]. destruct a as [s|label t|]; cbn [app steps].
    - destruct (IH over) as (o & E & H). exists o. rewrite E. split; [reflexivity|]. rewrite H. cbn [In]. intuition discriminate.
    - destruct (IH over) as (o & E & H). exists o. rewrite E, app_assoc. split; [reflexivity|]. rewrite H. cbn [In]. intuition discriminate.
    - destruct (IH true) as (o & E & H). exists o. rewrite E. split; [reflexivity|]. rewrite H. cbn [In]. intuition.
  Qed.
  Lemma want_group n : forall l st, propers R st l -> st n = Some EGroup -> want_steps R st l n = Some EGroup.
  Proof.
    induction l as [|s l IH]; intros st P E; [exact E|]. destruct P as [P1 P]. cbn [want_steps fold_left]. apply (IH (want_step R st s)); auto.
    destruct s as [g|m k x|m k x]; cbn [want_step proper] in *; rewrite sset_other; try exact E; intros <-; [destruct P1 as (_ & N & _); congruence..|].
    destruct P1 as ((x0 & N) & _). congruence.
  Qed.
  Lemma steps_names n id h : forall over s, In s (steps n id over h) -> In (Other s) h \/
    (exists l t, In (Record l t) h /\ In (step_name R s) [l; l ++ lit "/Name"; l ++ lit "/RunId"; l ++ lit "/UnixTimeStart"]) \/
    (exists h1 l t h2, h = h1 ++ Record l t :: h2 /\ (over = true \/ In Finish h1) /\ step_name R s = l ++ lit "/UnixTimeEnd").
  Proof.
    induction h as [|a h IH]; intros over s I; [destruct I|].
    assert (J : forall o, In s (steps n id o h) -> (o = true -> over = true \/ a = Finish) -> In (Other s) (a :: h) \/
      (exists l t, In (Record l t) (a :: h) /\ In (step_name R s) [l; l ++ lit "/Name"; l ++ lit "/RunId"; l ++ lit "/UnixTimeStart"]) \/
      (exists h1 l t h2, a :: h = h1 ++ Record l t :: h2 /\ (over = true \/ In Finish h1) /\ step_name R s = l ++ lit "/UnixTimeEnd")).
    { intros o I' Ho. destruct (IH o s I') as [Q|[(l & t & Q1 & Q2)|(h1 & l & t & h2 & Q1 & Q2 & Q3)]].
      - left. right. exact Q.
      - right. left. exists l, t. split; [right; exact Q1|exact Q2].
      - right. right. exists (a :: h1), l, t, h2. split; [rewrite Q1; reflexivity|]. split; [|exact Q3].
        destruct Q2 as [Q2|Q2]; [destruct (Ho Q2) as [K|K]; [left; exact K|right; left; exact K]|right; right; exact Q2]. }
    destruct a as [s'|label t|]; cbn [steps] in I.
    - destruct I as [->|I]; [left; left; reflexivity|]. apply (J over); auto.
    - apply in_app_iff in I. destruct I as [I|I]; [|apply (J over); auto]. destruct over.
      + right. right. exists [], label, t, h. destruct I as [<-|[]]. auto.
      + right. left. exists label, t. split; [left; reflexivity|]. cbn [In]. destruct I as [<-|[<-|[<-|[<-|[]]]]]; cbn [step_name]; auto.
    - apply (J true); auto.
  Qed.
End P.
Lemma tail_ne (a b : str) (v w : string) : firstn 2 (rev (lit v)) <> firstn 2 (rev (lit w)) -> (2 <= List.length (lit v))%nat -> (2 <= List.length (lit w))%nat -> a ++ lit v <> b ++ lit w.
Proof.
  intros N Hv Hw E. apply N. apply (f_equal (fun l => firstn 2 (rev l))) in E. rewrite !rev_app_distr, !firstn_app, !rev_length in E.
  replace (2 - List.length (lit v))%nat with 0%nat in E by lia. replace (2 - List.length (lit w))%nat with 0%nat in E by lia. cbn [firstn] in E. rewrite !app_nil_r in E. exact E.
Qed.

Lemma app_new_ok name p usec a : (p < 2 ^ 32)%N -> app_new name p usec = Ok a -> a_runId a <> [] /\ a_final a = false /\ a_name a = name.
Proof.
  intros Hp. unfold app_new. destruct (C93_run_id p usec Hp) as (id & y & E & _ & n & u & v & Ei & _). rewrite E. cbn [bind]. intros Ea.
  apply Ok_inj in Ea. subst a. cbn [a_runId a_final a_name]. rewrite Ei. split; [|auto]. destruct n; discriminate.
Qed.

(** Whatever else the program does with its file, after it is closed the file has, under every label, the name of the program,
    the identifier of the run and the time of the first record; if a record was written after the end of the run, the time of
    that one; and if there was none, no time of the end. *)
Theorem C122_record : forall (R : cring) name p usec a (h : list (act R)),
  app_new name p usec = Ok a -> (p < 2 ^ 32)%N -> name <> [] -> proper_acts R name (a_runId a) false (empty_store R) h -> apart R h ->
  exists s f0 a' f s' disk s'' g,
    ser_new R None TRUNC = Ok s /\ se_file R s = Some f0 /\ do_acts R a f0 h = Ok (a', f) /\
    ser_close R (mkser R (Some f) (se_h5mode R s) (se_mode R s)) = Ok (s', disk) /\ ser_new R (Some disk) RDONLY = Ok s'' /\ se_file R s'' = Some g /\
    forall label t h1 h2, h = h1 ++ Record label t :: h2 ->
      (~ In Finish h1 ->
        read_string R g (label ++ lit "/Name") = Ok name /\ read_string R g (label ++ lit "/RunId") = Ok (a_runId a) /\
        read_int R g (label ++ lit "/UnixTimeStart") = Ok t /\
        ((forall h3 h4 t', h2 = h3 ++ Record label t' :: h4 -> ~ In Finish h3) -> (forall l' t', In (Record l' t') h -> l' <> label ++ lit "/UnixTimeEnd") ->
         read_int R g (label ++ lit "/UnixTimeEnd") = Throw)) /\
      (In Finish h1 -> read_int R g (label ++ lit "/UnixTimeEnd") = Ok t).
Proof.
  intros R name p usec a h Ea Hp Nn P A.
  destruct (app_new_ok _ _ _ _ Hp Ea) as (Ni & Fa & Na). clear Ea Hp.
  set (id := a_runId a) in *. pose proof (proper_steps R name id h Nn Ni false _ P) as PS.
  destruct (C49_history_partial R (steps R name id false h) PS) as (s & f0 & f & s' & disk & s'' & g & E1 & E2 & E3 & E4 & E5 & E6 & E7).
  exists s, f0. eexists. exists f, s', disk, s'', g. split; [exact E1|]. split; [exact E2|]. split.
  { rewrite do_acts_steps, Fa, Na. fold id. rewrite E3. reflexivity. }
  split; [exact E4|]. split; [exact E5|]. split; [exact E6|]. intros label t h1 h2 Eh.
  assert (Ov : forall r m k x, In (SOverwrite m k x) (steps R name id false h) -> m <> label ++ lit "/" ++ r).
  { intros r m k x I. apply overs_others in I. apply (A _ label t r) in I; [exact I|]. rewrite Eh. apply in_or_app. right. left. reflexivity. }
  destruct (steps_app R name id h1 (Record label t :: h2) false) as (o & Es & Ho). rewrite <- Eh in Es.
  assert (K : forall w k x, In (SWrite (label ++ lit (String "/" w)) k x) (steps R name id o [Record label t]) ->
     want_steps R (empty_store R) (steps R name id false h) (label ++ lit (String "/" w)) = Some (EVal k x)).
  { intros w k x I. assert (IS : In (SWrite (label ++ lit (String "/" w)) k x) (steps R name id false h)).
    { rewrite Es. apply in_or_app. right. cbn [steps] in *. rewrite app_nil_r in I. apply in_or_app. left. exact I. }
    apply in_split in IS. destruct IS as (l1 & l2 & El). rewrite El in *. apply propers_app in PS. destruct PS as [_ [_ PS]].
    unfold want_steps. rewrite fold_left_app. cbn [fold_left].
    apply (want_keep R _ _ l2 _ PS); [apply sset_same|]. intros m k' x' I'. apply (Ov (lit w) m k' x'). apply in_or_app. right. right. exact I'. }
  split.
  - intros NF. assert (o = false) as ->. { destruct o; [|reflexivity]. destruct (proj1 Ho eq_refl) as [Q|Q]; [discriminate Q|contradiction]. }
    split; [|split; [|split]].
    + apply (proj1 (E7 g (or_intror eq_refl) (label ++ lit "/Name")) KStr name []). apply K. cbn; auto.
    + apply (proj1 (E7 g (or_intror eq_refl) (label ++ lit "/RunId")) KStr id []). apply K. cbn; auto.
    + apply (proj1 (E7 g (or_intror eq_refl) (label ++ lit "/UnixTimeStart")) KInt t 0%Z). apply K. cbn; auto.
    + intros NE NL.
      assert (IG : In (SGroup label) (steps R name id false h)). { rewrite Es. apply in_or_app. right. left. reflexivity. }
      assert (GG : good_name label /\ want_steps R (empty_store R) (steps R name id false h) label = Some EGroup).
      { apply in_split in IG. destruct IG as (l1 & l2 & El). rewrite El in *. apply propers_app in PS. destruct PS as [_ [PG PS]].
        split; [apply PG|]. unfold want_steps. rewrite fold_left_app. apply (want_group R label l2 _ PS). apply sset_same. }
      destruct GG as [G GG].
      apply (proj2 (proj2 (E7 g (or_intror eq_refl) (label ++ lit "/UnixTimeEnd")))) with (k := KInt) (old := 0%Z).
      * rewrite want_none; [reflexivity|]. intros x Ix. destruct (steps_names R name id h false x Ix) as [Q|[(l' & t' & Q1 & Q2)|(k1 & l' & t' & k2 & Q1 & Q2 & Q3)]].
        -- apply (A x label t (lit "UnixTimeEnd")); [exact Q|]. rewrite Eh. apply in_or_app. right. left. reflexivity.
        -- cbn [In] in Q2. pose proof (NL l' t' Q1) as NL'. clear - Q2 NL'. destruct Q2 as [<-|[<-|[<-|[<-|[]]]]]; [exact NL'| | |].
           ++ apply (tail_ne l' label "/Name" "/UnixTimeEnd"); [discriminate|vm_compute; lia|vm_compute; lia].
           ++ apply (tail_ne l' label "/RunId" "/UnixTimeEnd"); [discriminate|vm_compute; lia|vm_compute; lia].
           ++ apply (tail_ne l' label "/UnixTimeStart" "/UnixTimeEnd"); [discriminate|vm_compute; lia|vm_compute; lia].
        -- rewrite Q3. intros Q. apply app_inv_tail in Q. subst l'. destruct Q2 as [Q2|Q2]; [discriminate Q2|].
           rewrite Eh in Q1. apply app_eq_app in Q1. destruct Q1 as (l & [[Ea' Eb]|[Ea' Eb]]).
           ++ apply NF. rewrite Ea'. apply in_or_app. left. exact Q2.
           ++ destruct l as [|y l]; [rewrite app_nil_r in Ea'; subst k1; contradiction|]. inversion Eb as [[Ey Eh2]]. subst y.
              apply (NE l k2 t' Eh2). rewrite Ea' in Q2. apply in_app_iff in Q2. destruct Q2 as [Q2|[Q2|Q2]]; [contradiction|discriminate Q2|exact Q2].
      * eapply good_lit; [exact G|reflexivity|discriminate|discriminate|cbv; intuition discriminate|cbv; discriminate].
      * eapply inside_lit; [exact GG|reflexivity|cbv; intuition discriminate].
  - intros FI. assert (o = true) as ->. { apply Ho. right. exact FI. }
    apply (proj1 (E7 g (or_intror eq_refl) (label ++ lit "/UnixTimeEnd")) KInt t 0%Z). apply K. cbn; auto.
Qed.
Print Assumptions C122_record.

(** The record of a run that has not ended cannot be written twice under a label. *)
Theorem C122_twice : forall (R : cring) a f label t, a_final a = false -> f (full label) <> None -> app_write R a f label t = Throw.
Proof. intros R a f label t Fa H. unfold app_write, createGroup, h5_create. rewrite Fa. cbn [negb]. destruct (f (full label)); [reflexivity|contradiction]. Qed.
Print Assumptions C122_twice.

(** The claim that a record that cannot be written is refused is false: after the end of the run it is lost without an error if
    there was no record before, and if it was written before, the earlier time stays. *)
Theorem C122_end_refuted : forall (R : cring) a f label t, a_final a = true -> good_name label ->
  (f (full label) <> Some Group \/ exists t0, f (full (label ++ lit "/UnixTimeEnd")) = Some (Data [CI t0])) ->
  app_write R a f label t = Ok f.
Proof.
  intros R a f label t Fa G H. unfold app_write. rewrite Fa. cbn [negb]. unfold write_num, internalWrite, h5_create.
  change (sub label "UnixTimeEnd") with (label ++ lit "/UnixTimeEnd"). destruct H as [H|(t0 & H)]; [|rewrite H; reflexivity].
  destruct (f (full (label ++ lit "/UnixTimeEnd"))); [reflexivity|].
  assert (E : parent (full (label ++ lit "/UnixTimeEnd")) = Some (full label)).
  { assert (N : label <> []). { intros ->. destruct G as [(l & Nl & Hl & El) _]. destruct l as [|c [|c' l]]; [contradiction|destruct (Hl c (or_introl eq_refl)) as [Q _]; cbn in El; congruence|].
      cbn in El. destruct c; discriminate El. }
    destruct label as [|c label]; [contradiction|]. apply (parent_child (full (c :: label)) (lit "UnixTimeEnd")). cbv; intuition discriminate. }
  unfold parent_ok. rewrite E. destruct (f (full label)) as [[|]|]; try reflexivity. contradiction.
Qed.
Print Assumptions C122_end_refuted.

(** A run with an identifier, a record, another write, the end, and a second record *)
Definition ex_acts : list (act Zring) := [Record (lit "App") 100; Other (SWrite (lit "Energy") KInt (-7)%Z); Finish; Record (lit "App") 160]%Z.
Example C122_nonvacuous : exists a, app_new (lit "dmrg") 1234 567 = Ok a /\ proper_acts Zring (lit "dmrg") (a_runId a) false (empty_store Zring) ex_acts /\ apart Zring ex_acts.
Proof.
  destruct (C93_run_id 1234 567 ltac:(reflexivity)) as (id & y & E & _). exists (mkapp (lit "dmrg") id false). split; [unfold app_new; rewrite E; reflexivity|].
  cbn [a_runId]. clear E. split.
  - unfold ex_acts. cbn [proper_acts]. split; [good [lit "App"]|]. split; [reflexivity|]. split; [top|]. split; [intros w _; reflexivity|].
    split; [split; [good [lit "Energy"]|split; [reflexivity|split; [top|exact I]]]|]. split; [good [lit "App"]|]. split; [reflexivity|]. split; [reflexivity|exact I].
  - intros s label t r I1 I2 E. destruct I1 as [I1|[I1|[I1|[I1|[]]]]]; inversion I1; subst s. destruct I2 as [I2|[I2|[I2|[I2|[]]]]]; inversion I2; subst label; discriminate E.
Qed.
