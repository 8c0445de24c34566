From Coq Require Import Ascii String.
From Verif Require Import Prelude Ring Str_Model Str_Spec Str_Proofs Text_Model Text_Spec Text_Proofs Ast_Model Ast_Spec Ast_Proofs Pred_Model Pred_Spec Pred_Proofs Input_Proofs Canon_Model Canon_Spec.
Import List.

(** ** Replacing pi *)
Lemma join_glue d x y q w : forall u, join d (u ++ [x]) ++ q ++ join d (y :: w) = join d (u ++ (x ++ q ++ y) :: w).
Proof.
  induction u as [|v u IH].
  - cbn [app]. change (join d [x]) with x. destruct w as [|z w]; [reflexivity|]. rewrite (join_cons d y), (join_cons d (x ++ q ++ y)) by discriminate. rewrite <- !app_assoc. auto.
  - change ((v :: u) ++ [x]) with (v :: (u ++ [x])). change ((v :: u) ++ (x ++ q ++ y) :: w) with (v :: (u ++ (x ++ q ++ y) :: w)).
    rewrite !(join_cons d v) by (destruct u; discriminate). rewrite <- IH. rewrite <- app_assoc. auto.
Qed.
Lemma occ_join2 d p : p <> [] -> ~ In d p -> forall ts a b, join d ts = a ++ p ++ b ->
  exists u t w a' b', ts = u ++ t :: w /\ t = a' ++ p ++ b' /\ a = join d (u ++ [a']) /\ b = join d (b' :: w).
Proof.
  intros Hp Hd. induction ts as [|t ts IH]; intros a b E.
  - cbn in E. destruct a, p; discriminate || congruence.
  - destruct ts as [|t' ts].
    + cbn [join] in E. exists [], t, [], a, b. repeat split; auto.
    + rewrite join_cons in E by discriminate. apply app_eq_app in E. destruct E as [l [[E1 E2]|[E1 E2]]].
      * apply app_eq_app in E2. destruct E2 as [l2 [[E3 E4]|[E3 E4]]].
        -- destruct l2 as [|x l2].
           ++ rewrite app_nil_r in E3. subst l. cbn [app] in E4. subst b. exists [], t, (t' :: ts), a, []. rewrite app_nil_r. repeat split; auto.
           ++ injection E4 as E4 _. subst x. exfalso. apply Hd. rewrite E3. apply in_or_app. right. left. auto.
        -- subst l. exists [], t, (t' :: ts), a, l2. split; [auto|]. split; [auto|]. split; [auto|]. rewrite E4. rewrite (join_cons d l2) by discriminate. auto.
      * destruct l as [|x l].
        -- cbn [app] in E2. destruct p as [|y p]; [congruence|]. injection E2 as E2 _. subst y. exfalso. apply Hd. left; auto.
        -- injection E2 as <- E2. destruct (IH l b E2) as (u & t0 & w & a' & b' & F1 & F2 & F3 & F4).
           exists (t :: u), t0, w, a', b'. split; [rewrite F1; auto|]. split; [auto|]. split; [|auto]. subst a.
           change ((t :: u) ++ [a']) with (t :: (u ++ [a'])). rewrite (join_cons d t) by (destruct u; discriminate). rewrite F3. auto.
Qed.
Lemma replaced_join d name val : name <> [] -> ~ In d name -> forall s r, replaced name val s r ->
  forall toks, s = join d toks -> (forall t, In t toks -> contains name t -> name = t) -> r = join d (map (subst1 name val) toks).
Proof.
  intros Hn Hd s r H. induction H as [s Hs|p s r Hl H IH]; intros toks E Ht.
  - rewrite E. f_equal. rewrite <- (map_id toks) at 1. apply map_ext_in. intros t Hi. unfold subst1. destruct (str_eqb t name) eqn:E1; auto.
    apply str_eqb_eq in E1. subst t. exfalso. apply in_split in Hi. destruct Hi as (u & w & ->).
    apply (Hs (List.length (join d (u ++ [[]])))). exists (join d (u ++ [[]])), (join d ([] :: w)). split; auto. rewrite E, join_glue. cbn [app]. rewrite app_nil_r. auto.
  - destruct (occ_join2 d name Hn Hd toks p s (eq_sym E)) as (u & t & w & a' & b' & F1 & F2 & F3 & F4).
    assert (Et : name = t) by (apply Ht; [rewrite F1; apply in_or_app; right; left; auto|rewrite F2; apply contains_mid]).
    assert (Hab : a' = [] /\ b' = []).
    { assert (L : List.length t = List.length name) by congruence. rewrite F2, !app_length in L. destruct a', b'; auto; cbn in L; lia. }
    destruct Hab as [-> ->]. rewrite (IH ([] :: w)); auto.
    + cbn [map]. assert (E0 : subst1 name val [] = []) by (unfold subst1; destruct (str_eqb [] name) eqn:E1; auto; apply str_eqb_eq in E1; congruence).
      rewrite E0, F3, join_glue. cbn [app]. rewrite app_nil_r. rewrite F1, <- Et, map_app. cbn [map].
      assert (Es : subst1 name val name = val) by (unfold subst1; rewrite str_eqb_refl; auto). rewrite Es. do 2 f_equal.
      rewrite <- (map_id u) at 1. apply map_ext_in. intros x Hx. unfold subst1. destruct (str_eqb x name) eqn:E1; auto. exfalso.
      apply str_eqb_eq in E1. subst x. apply in_split in Hx. destruct Hx as (u1 & u2 & ->).
      assert (Hle : List.length p <= List.length (join d (u1 ++ [[]]))).
      { apply Hl. exists (join d (u1 ++ [[]])), (join d ([] :: u2 ++ t :: w)). split; auto. rewrite E, F1, join_glue. cbn [app]. rewrite app_nil_r, <- app_assoc. auto. }
      rewrite F3 in Hle. rewrite <- app_assoc in Hle. cbn [app] in Hle.
      replace name with ([] ++ name ++ []) in Hle at 1 by (cbn [app]; apply app_nil_r). rewrite <- join_glue, !app_length in Hle. destruct name; [congruence|]. cbn [List.length] in Hle. lia.
    + intros x Hx Hc. destruct Hx as [<-|Hx]; [|apply Ht; auto; rewrite F1; apply in_or_app; right; right; auto].
      exfalso. destruct Hc as (j & a & b & Hc & _). destruct a, name; discriminate || congruence.
Qed.

(** ** The scan *)
Lemma eqb_no c l : ~ In c l -> forall x, In x l -> Ascii.eqb c x = false.
Proof. intros H x Hx. apply Ascii.eqb_neq. intros ->. contradiction. Qed.
Lemma scan_plain s : (forall c, In c s -> ~ In c (lit "()-")) -> forall rest i prev main ats,
  exists p', qc_scan (s ++ rest) i [] false prev main ats = qc_scan rest (i + List.length s) [] false p' (main ++ s) ats.
Proof.
  induction s as [|c s IH]; intros H rest i prev main ats.
  - exists prev. cbn [app List.length]. rewrite app_nil_r, Nat.add_0_r. auto.
  - assert (Hc := eqb_no c (lit "()-") (H c (or_introl eq_refl))). cbn [app qc_scan].
    rewrite (Hc "-"%char), (Hc "("%char), (Hc ")"%char) by (cbn; tauto). cbn [andb].
    destruct (IH (fun x Hx => H x (or_intror Hx)) rest (S i) c (main ++ [c]) ats) as (p' & E). exists p'. rewrite E. cbn [List.length]. rewrite <- app_assoc. cbn [app]. rewrite Nat.add_succ_r. auto.
Qed.
Lemma scan_in s : (forall c, In c s -> ~ In c (lit "()-")) -> forall rest i temp prev main ats,
  exists p', qc_scan (s ++ rest) i temp true prev main ats = qc_scan rest (i + List.length s) (temp ++ s) true p' main ats.
Proof.
  induction s as [|c s IH]; intros H rest i temp prev main ats.
  - exists prev. cbn [app List.length]. rewrite app_nil_r, Nat.add_0_r. auto.
  - assert (Hc := eqb_no c (lit "()-") (H c (or_introl eq_refl))). cbn [app qc_scan].
    rewrite (Hc "-"%char), (Hc "("%char), (Hc ")"%char) by (cbn; tauto). cbn [andb].
    destruct (IH (fun x Hx => H x (or_intror Hx)) rest (S i) (temp ++ [c]) c main ats) as (p' & E). exists p'. rewrite E. cbn [List.length]. rewrite <- app_assoc. cbn [app]. rewrite Nat.add_succ_r. auto.
Qed.
(** A first minus sign *)
Lemma scan_minus rest i temp isopen prev main ats : (i = 0 \/ prev = "("%char \/ prev = "+"%char) ->
  qc_scan ("-"%char :: rest) i temp isopen prev main ats =
  (if isopen then qc_scan rest (S i) (temp ++ lit "-") true "-"%char main ats else qc_scan rest (S i) temp false "-"%char (main ++ lit "-") ats).
Proof.
  intros H. cbn [qc_scan]. change (Ascii.eqb "-" "-") with true. change (Ascii.eqb "-" "(") with false. change (Ascii.eqb "-" ")") with false.
  destruct H as [-> |[-> | ->]]; [cbn [Nat.ltb Nat.leb andb]|change (Ascii.eqb "(" "(") with true; cbn [negb andb]; rewrite Bool.andb_false_r; cbn [andb]|change (Ascii.eqb "+" "+") with true; cbn [negb]; rewrite Bool.andb_false_r]; destruct isopen; reflexivity.
Qed.
(** What a factor becomes *)
Definition factor_main (k : nat) (f : factor) : str := match f with FPar _ => lit "@" ++ print_nat k ++ lit "@" | _ => factor_text f end.
Definition factor_pars (f : factor) : list tree := match f with FPar t => [t] | _ => [] end.
Definition factor_scan (first : bool) (f : factor) : Prop :=
  match f with
  | FPar t => (forall c, In c (word_text t) -> ~ In c (lit "()")) /\ par_text (word_text t)
  | _ => (forall c, In c (factor_text f) -> ~ In c (lit "()-")) \/
         (first = true /\ exists s, factor_text f = "-"%char :: s /\ forall c, In c s -> ~ In c (lit "()-"))
  end.
Lemma scan_factor first f : factor_scan first f -> forall rest i prev main ats, (first = true -> i = 0 \/ prev = "("%char \/ prev = "+"%char) ->
  exists p', qc_scan (factor_text f ++ rest) i [] false prev main ats =
    qc_scan rest (i + List.length (factor_text f)) [] false p' (main ++ factor_main (List.length ats) f) (ats ++ map word_text (factor_pars f)).
Proof.
  intros H rest i prev main ats Hf.
  assert (P : forall f', factor_main (List.length ats) f' = factor_text f' -> factor_pars f' = [] ->
    (forall c, In c (factor_text f') -> ~ In c (lit "()-")) \/ (first = true /\ exists s, factor_text f' = "-"%char :: s /\ forall c, In c s -> ~ In c (lit "()-")) ->
    exists p', qc_scan (factor_text f' ++ rest) i [] false prev main ats =
      qc_scan rest (i + List.length (factor_text f')) [] false p' (main ++ factor_main (List.length ats) f') (ats ++ map word_text (factor_pars f'))).
  { intros f' -> -> [H1|(H1 & s & E & Hs)]; cbn [map]; rewrite app_nil_r.
    - apply scan_plain. auto.
    - rewrite E. cbn [app]. rewrite scan_minus by auto. destruct (scan_plain s Hs rest (S i) "-"%char (main ++ lit "-") ats) as (p' & E'). exists p'. rewrite E'.
      cbn [List.length]. rewrite <- app_assoc. rewrite Nat.add_succ_r. auto. }
  destruct f as [s|s|t|s]; [apply P; auto|apply P; auto| |apply P; auto]. clear P.
  destruct H as [H1 H2]. cbn [factor_text factor_main factor_pars map].
  change (lit "(" ++ word_text t ++ lit ")") with ("("%char :: (word_text t ++ lit ")")). cbn [app]. rewrite <- app_assoc.
  cbn [qc_scan]. change (Ascii.eqb "(" "-") with false. change (Ascii.eqb "(" "(") with true. cbn [andb].
  assert (E : exists p', qc_scan (word_text t ++ lit ")" ++ rest) (S i) [] true "("%char main ats = qc_scan (lit ")" ++ rest) (S i + List.length (word_text t)) (word_text t) true p' main ats).
  { unfold par_text in H2. destruct (word_text t) as [|c w]; [exists "("%char; cbn [app List.length]; rewrite Nat.add_0_r; auto|]. cbn [tl] in H2.
    destruct (Ascii.eqb_spec c "-"%char) as [-> |Hc].
    - cbn [app]. rewrite scan_minus by auto. destruct (scan_in w) with (rest := lit ")" ++ rest) (i := S (S i)) (temp := [] ++ lit "-") (prev := "-"%char) (main := main) (ats := ats) as (p' & E).
      + intros x Hx Hin. cbn in Hin. destruct Hin as [<-|[<-|[<-|[]]]]; [apply (H1 "("%char); [right; auto|cbn; tauto]|apply (H1 ")"%char); [right; auto|cbn; tauto]|auto].
      + exists p'. rewrite E. cbn [List.length]. rewrite !Nat.add_succ_r. auto.
    - apply (scan_in (c :: w)). intros x Hx Hin. cbn in Hin. destruct Hin as [<-|[<-|[<-|[]]]]; [apply (H1 "("%char); [auto|cbn; tauto]|apply (H1 ")"%char); [auto|cbn; tauto]|].
      destruct Hx as [Hx|Hx]; [congruence|auto]. }
  destruct E as (p' & E). rewrite E. cbn [app lit list_ascii_of_string qc_scan]. change (Ascii.eqb ")" "-") with false. change (Ascii.eqb ")" "(") with false. change (Ascii.eqb ")" ")") with true. cbn [andb].
  exists ")"%char. cbn [List.length]. rewrite app_length. cbn [List.length]. f_equal. lia.
Qed.

Fixpoint mains (k : nat) (fs : list factor) : list str :=
  match fs with [] => [] | f :: fs => factor_main k f :: mains (k + List.length (factor_pars f)) fs end.
Definition pars (fs : list factor) : list tree := flat_map factor_pars fs.
Fixpoint tmains (k : nat) (ts : list (list factor)) : list (list str) :=
  match ts with [] => [] | t :: ts => mains k t :: tmains (k + List.length (pars t)) ts end.
Fixpoint term_scan (first : bool) (fs : list factor) : Prop := match fs with [] => True | f :: fs => factor_scan first f /\ term_scan false fs end.

Lemma mains_nonempty k fs : fs <> [] -> mains k fs <> [].
Proof. destruct fs; [congruence|discriminate]. Qed.
Lemma tmains_nonempty k fs : fs <> [] -> tmains k fs <> [].
Proof. destruct fs; [congruence|discriminate]. Qed.
Lemma scan_char c rest i p main ats : ~ In c (lit "()-") -> qc_scan (c :: rest) i [] false p main ats = qc_scan rest (S i) [] false c (main ++ [c]) ats.
Proof.
  intros H. assert (Hc := eqb_no c (lit "()-") H). cbn [qc_scan]. rewrite (Hc "-"%char), (Hc "("%char), (Hc ")"%char) by (cbn; tauto). reflexivity.
Qed.
Lemma scan_term : forall fs first, fs <> [] -> term_scan first fs -> forall rest i prev main ats, (first = true -> i = 0 \/ prev = "("%char \/ prev = "+"%char) ->
  exists j p', qc_scan (term_text fs ++ rest) i [] false prev main ats =
    qc_scan rest j [] false p' (main ++ join "*" (mains (List.length ats) fs)) (ats ++ map word_text (pars fs)).
Proof.
  induction fs as [|f fs IH]; intros first Hn H rest i prev main ats Hf; [congruence|]. destruct H as [H1 H2]. unfold term_text. cbn [map mains pars flat_map].
  destruct fs as [|f' fs].
  - cbn [map join mains pars flat_map]. rewrite app_nil_r. destruct (scan_factor first f H1 rest i prev main ats Hf) as (p' & E). rewrite E. eauto.
  - rewrite !join_cons by discriminate. destruct (scan_factor first f H1 ("*"%char :: (term_text (f' :: fs) ++ rest)) i prev main ats Hf) as (p' & E).
    rewrite <- app_assoc. cbn [app]. unfold term_text in E |- *. rewrite E. rewrite scan_char by (cbn; intuition discriminate).
    destruct (IH false ltac:(discriminate) H2 rest (S (i + List.length (factor_text f))) "*"%char ((main ++ factor_main (List.length ats) f) ++ ["*"%char]) (ats ++ map word_text (factor_pars f))) as (j & p2 & E2); [discriminate|].
    unfold term_text in E2. rewrite E2. exists j, p2. rewrite app_length, map_length. rewrite <- !app_assoc. rewrite map_app. auto.
Qed.
Lemma scan_expr : forall ts, ts <> [] -> (forall t, In t ts -> t <> [] /\ term_scan true t) -> forall i prev main ats, i = 0 \/ prev = "("%char \/ prev = "+"%char ->
  qc_scan (expr_text ts) i [] false prev main ats =
    Ok (main ++ join "+" (map (join "*") (tmains (List.length ats) ts)), ats ++ map word_text (flat_map pars ts)).
Proof.
  induction ts as [|t ts IH]; intros Hn H i prev main ats Hp; [congruence|]. destruct (H t (or_introl eq_refl)) as [H1 H2]. unfold expr_text. cbn [map tmains flat_map].
  destruct ts as [|t' ts].
  - cbn [map join tmains flat_map]. rewrite app_nil_r. destruct (scan_term t true H1 H2 [] i prev main ats) as (j & p' & E); auto. rewrite app_nil_r in E. rewrite E. reflexivity.
  - rewrite !join_cons by discriminate. destruct (scan_term t true H1 H2 ("+"%char :: expr_text (t' :: ts)) i prev main ats) as (j & p' & E); auto.
    cbn [app]. unfold expr_text in E |- *. rewrite E. rewrite scan_char by (cbn; intuition discriminate).
    specialize (IH ltac:(discriminate) (fun x Hx => H x (or_intror Hx)) (S j) "+"%char ((main ++ join "*" (mains (List.length ats) t)) ++ ["+"%char]) (ats ++ map word_text (pars t))).
    unfold expr_text in IH. rewrite IH by auto. rewrite app_length, map_length. rewrite <- !app_assoc, map_app. auto.
Qed.

(** ** Evaluation *)
Lemma join_contains name d t toks : In t toks -> contains name t -> contains name (join d toks).
Proof.
  intros Hi (j & a & b & E & _). apply in_split in Hi. destruct Hi as (u & w & ->). exists (List.length (join d (u ++ [a]))), (join d (u ++ [a])), (join d (b :: w)). split; auto.
  rewrite join_glue. rewrite E. auto.
Qed.

Lemma num_chars first s c : num_text first s -> In c s -> is_digit c \/ c = "."%char \/ c = "-"%char.
Proof.
  intros [[H _]|(_ & s' & -> & [H _])] Hc; [apply H in Hc; tauto|]. destruct Hc as [<-|Hc]; auto. apply H in Hc. tauto.
Qed.
Lemma num_digit first s : num_text first s -> exists c, In c s /\ is_digit c.
Proof. intros [[_ H]|(_ & s' & -> & [_ (c & Hc & Hd)])]; auto. exists c. split; [right; auto|auto]. Qed.
Lemma num_nonempty first s : num_text first s -> s <> [].
Proof. intros H ->. destruct (num_digit _ _ H) as (c & [] & _). Qed.
Lemma num_in first s c : num_text first s -> In c s -> In c (map ascii_of_nat (seq 48 10) ++ lit ".-").
Proof. intros H Hc. apply in_or_app. destruct (num_chars _ _ _ H Hc) as [Hd|[-> | ->]]; [left; auto|right; left; auto|right; right; left; auto]. Qed.
Lemma num_float first s : num_text first s -> isAfloat s = true.
Proof.
  intros H. apply isAfloat_spec. split; [eapply num_digit; eauto|]. intros c Hc. destruct (num_chars _ _ _ H Hc) as [Hd|[-> | ->]]; auto; right; cbn; tauto.
Qed.
Lemma num_scan first s : num_text first s ->
  (forall c, In c s -> ~ In c (lit "()-")) \/ (first = true /\ exists s', s = "-"%char :: s' /\ forall c, In c s' -> ~ In c (lit "()-")).
Proof.
  assert (P : forall s, plain_num s -> forall c, In c s -> ~ In c (lit "()-")).
  { intros s0 [H _] c Hc. apply H in Hc. destruct Hc as [Hc| ->]; [|cbn; intuition discriminate]. unfold is_digit in Hc. cbn in Hc. intros Hx. cbn in Hx. intuition (subst; discriminate). }
  intros [H|(-> & s' & -> & H)]; [left; apply P; auto|]. right. split; auto. exists s'. split; [auto|apply P; auto].
Qed.
Lemma isReal_num first s : num_text first s -> isRealScalar s = Ok true.
Proof.
  intros H. unfold isRealScalar. destruct (Nat.eqb_spec (List.length s) 0) as [E|]; [destruct s; [|discriminate]; exfalso; eapply num_nonempty; eauto|].
  f_equal. apply forallb_forall. intros c Hc. destruct (num_chars _ _ _ H Hc) as [Hd|[-> | ->]]; [|reflexivity|reflexivity]. apply isdigit_In in Hd. rewrite Hd. rewrite !Bool.orb_true_r. auto.
Qed.
(** A text with some other character is not a number. *)
Lemma isReal_other s c : In c s -> ~ is_digit c -> ~ In c (lit ".-+") -> isRealScalar s = Ok false.
Proof.
  intros Hc Hd Hx. unfold isRealScalar. destruct (Nat.eqb_spec (List.length s) 0) as [E|]; [destruct s; [contradiction|discriminate]|].
  f_equal. apply Bool.not_true_iff_false. rewrite forallb_forall. intros H. specialize (H c Hc). rewrite !Bool.orb_true_iff in H. rewrite !Ascii.eqb_eq in H. rewrite isdigit_In in H.
  cbn in Hx. intuition.
Qed.
Lemma substr_0 s n : substr s 0 (Some n) = Ok (firstn n s).
Proof. unfold substr. destruct (Nat.ltb_spec (List.length s) 0); [lia|]. auto. Qed.
Lemma not_digit c : In c (lit "@i+*()-.") -> ~ is_digit c.
Proof. intros H Hd. unfold is_digit in Hd. cbn in H, Hd. intuition (subst; discriminate). Qed.

Section Eval.
  Variable R : cring.
  Add Ring Rr : (c_ring R).
  Variable A : arith R.
  Variable value : str -> R.
  Variable im : option R.
  Variable pi_text : str.
  Hypothesis HA : forall s, real_text s -> a_input A s = Ok (value s).
  Hypothesis Hpi : real_text pi_text.
  Let psem := vmeaning A value [lit "pi"] [value pi_text].
  Let arithm := simpleArithmetics R A pi_text.

  Lemma pmeaning l vs v : psem l vs v -> meaning A value (subst1 (lit "pi") pi_text l) vs v.
  Proof.
    intros H. inversion H; subst; unfold subst1.
    - destruct i as [|i]; [|destruct i; discriminate]. cbn [nth_error] in *. injection H0 as <-. injection H1 as <-. rewrite str_eqb_refl. apply m_num. auto.
    - destruct (str_eqb l (lit "pi")) eqn:E; auto. apply str_eqb_eq in E. subst l. exfalso. apply H0. left. auto.
  Qed.
  Lemma arith_ok t v : denotes psem t v -> (Z.of_nat (tsize t) < 18446744073709551616)%Z -> names_apart [lit "pi"] t ->
    exists f0, forall fuel, f0 <= fuel -> arithm fuel (word_text t) = Ok v.
  Proof.
    intros Hv Hs Ha. set (sb := subst1 (lit "pi") pi_text).
    exists (S (List.length (word_text t)) + S (List.length (join ":" (level_order (relabel sb t))))). intros fuel Hf.
    assert (Hd : denotes (meaning A value) (relabel sb t) v) by (eapply relabel_denotes; [apply pmeaning|exact Hv]).
    unfold arithm, simpleArithmetics.
    destruct (replaceAll_spec fuel (word_text t) (lit "pi") pi_text) as (r & E & Hr); [lia|discriminate|]. rewrite E. cbn [bind].
    assert (Er : r = join ":" (map sb (level_order t))).
    { refine (replaced_join ":" (lit "pi") pi_text _ _ _ _ Hr (level_order t) eq_refl _); [discriminate|cbn; intuition discriminate|].
      intros l Hl Hc. apply Ha; auto. left. auto. }
    rewrite Er, <- relabel_order. change (lit ":") with [":"%char]. rewrite join_split.
    - cbn [bind]. rewrite <- (app_nil_r (level_order (relabel sb t))). apply (ast_eval_ok _ (meaning A value)); auto.
      + apply find_meaning; auto.
      + rewrite relabel_size. auto.
    - intros l Hl. apply order_in in Hl. destruct Hl as (x & Hx & <-). destruct (N_denotes (relabel sb t) (meaning A value) v Hd x Hx) as (w & Hw).
      inversion Hw; subst. cbn [label]. destruct (meaning_chars _ _ _ _ _ H0) as (M1 & M2 & _). split; auto. intros Hc. apply (M2 _ Hc). left. auto.
    - lia.
  Qed.
  Lemma par_chars t v c : denotes psem t v -> In c (word_text t) -> ~ In c (lit "()").
  Proof.
    intros Hd Hc Hx. apply join_in in Hc. destruct Hc as [-> |(l & Hl & Hc)]; [cbn in Hx; intuition discriminate|].
    apply order_in in Hl. destruct Hl as (x & Hx' & <-). destruct (N_denotes t psem v Hd x Hx') as (w & Hw). inversion Hw as [l c' vs w' Hcs Hs]; subst. cbn [label] in Hc.
    inversion Hs as [i l' v' E1 E2|l' vs' v' Hn Hm]; subst.
    - destruct i as [|i]; [|destruct i; discriminate]. injection E1 as <-. cbn in Hc, Hx. intuition (subst; discriminate).
    - inversion Hm; subst; try (cbn in Hc, Hx; intuition (subst; discriminate)). destruct H as [H _]. apply H in Hc. apply digit_chars in Hc. cbn in Hc, Hx. intuition (subst; discriminate).
  Qed.

  Lemma scalar_scan b f r : scalar R A value im pi_text b f r -> factor_scan b f.
  Proof.
    intros H. inversion H; subst; cbn [factor_scan factor_text].
    - apply num_scan. auto.
    - left. intros c Hc. cbn in Hc |- *. intuition (subst; discriminate).
    - destruct (num_scan _ _ H1) as [N|(-> & s' & -> & N)].
      + left. intros c Hc. apply in_app_or in Hc. destruct Hc as [Hc|Hc]; auto. cbn in Hc |- *. intuition (subst; discriminate).
      + right. split; auto. exists (s' ++ lit "i"). split; auto. intros c Hc. apply in_app_or in Hc. destruct Hc as [Hc|Hc]; auto. cbn in Hc |- *. intuition (subst; discriminate).
    - split; auto. intros c. eapply par_chars; eauto.
  Qed.
  Lemma item_scan b s : item_name s -> factor_scan b (FItem s).
  Proof. intros (_ & H & _). left. intros c Hc Hx. apply (H c Hc). cbn in Hx |- *. intuition. Qed.
  (** Texts without separators *)
  Definition clean (s : str) : Prop := s <> [] /\ forall c, In c s -> ~ In c (lit "+*").
  Lemma num_clean b s : num_text b s -> clean s.
  Proof.
    intros H. split; [eapply num_nonempty; eauto|]. intros c Hc Hx. apply (num_in _ _ _ H) in Hc. cbn in Hc, Hx. intuition (subst; discriminate).
  Qed.
  Lemma scalar_clean b f r k : scalar R A value im pi_text b f r -> clean (factor_main k f).
  Proof.
    intros H. inversion H; subst; cbn [factor_main factor_text].
    - eapply num_clean; eauto.
    - split; [discriminate|]. intros c Hc. cbn in Hc |- *. intuition (subst; discriminate).
    - destruct (num_clean _ _ H1) as [N1 N2]. split; [destruct s; discriminate|]. intros c Hc. apply in_app_or in Hc. destruct Hc as [Hc|Hc]; auto. cbn in Hc |- *. intuition (subst; discriminate).
    - split; [discriminate|]. intros c Hc Hx. apply in_app_or in Hc. destruct Hc as [Hc|Hc]; [cbn in Hc, Hx; intuition (subst; discriminate)|]. apply in_app_or in Hc.
      destruct Hc as [Hc|Hc]; [|cbn in Hc, Hx; intuition (subst; discriminate)]. destruct (pnat_digits k) as (_ & D & _). apply D in Hc. unfold is_digit in Hc. cbn in Hc, Hx. intuition (subst; discriminate).
  Qed.
  Lemma item_clean s : item_name s -> clean s.
  Proof.
    intros (_ & H & p & c & q & -> & _). split; [destruct p; discriminate|]. intros x Hx Hin. apply (H x Hx). cbn in Hin |- *. intuition.
  Qed.

  Variable X : Type.
  Variable item : str -> res X.
  Variable isEmpty : X -> bool.
  Variable metaEqual : X -> X -> bool.
  Variable xadd xmul : X -> X -> X.
  Variable xscale : R -> X -> X.
  Variable Good : X -> Prop.
  Hypothesis Gitem : forall s x, item s = Ok x -> Good x.
  Hypothesis Gmul : forall x y, Good x -> Good y -> Good (xmul x y).
  Hypothesis Gscale : forall r x, Good x -> Good (xscale r x).
  Hypothesis Gadd : forall x y, Good x -> Good y -> Good (xadd x y).
  Hypothesis Gempty : forall x, Good x -> isEmpty x = false.
  Hypothesis Gmeta : forall x y, Good x -> Good y -> metaEqual x y = true.
  Let proc := procFactor R value im item isEmpty metaEqual xmul.

  Lemma scalar_eval b f r q k prev fac : scalar R A value im pi_text b f r ->
    (forall t, f = FPar t -> nth_error (q_cached R q) k = Some r) ->
    proc q (factor_main k f) prev fac = Ok (prev, (fac * r)%C).
  Proof.
    intros H Hk. unfold proc, procFactor. inversion H as [s Hs|i Hi|s i Hi Hs|t v Hd Hsz Ha Hp]; subst f r; cbn [factor_main factor_text].
    - rewrite (isReal_num b s Hs). cbn [bind]. unfold cn_atof. rewrite (num_float b s Hs). reflexivity.
    - change (isRealScalar ([] ++ lit "i")) with (Ok false). cbn [bind]. change (isPureComplex ([] ++ lit "i")) with (Ok true). cbn [bind].
      unfold pureComplex. rewrite Hi. cbn. f_equal. f_equal. ring.
    - assert (E1 : isRealScalar (s ++ lit "i") = Ok false).
      { apply isReal_other with "i"%char; [apply in_or_app; right; left; auto|apply not_digit; cbn; tauto|cbn; intuition discriminate]. }
      assert (E2 : isPureComplex (s ++ lit "i") = Ok true).
      { unfold isPureComplex. destruct (str_eqb (s ++ lit "i") (lit "i")) eqn:E; auto. rewrite app_length. cbn [List.length lit list_ascii_of_string].
        pose proof (num_nonempty _ _ Hs) as Hn. assert (L : 1 <= List.length s) by (destruct s; [congruence|cbn; lia]).
        destruct (Nat.ltb_spec (List.length s + 1) 2); [lia|]. rewrite substr_0. cbn [bind]. replace (List.length s + 1 - 1) with (List.length s) by lia.
        rewrite firstn_app, firstn_all, Nat.sub_diag. cbn [firstn]. rewrite app_nil_r. eapply isReal_num; eauto. }
      rewrite E1. cbn [bind]. rewrite E2. cbn [bind]. unfold pureComplex. rewrite Hi.
      assert (L : forall u acc, ~ In "i"%char u -> forall w, forL (u ++ w) (fun c '(isImag, buffer) =>
          if Ascii.eqb c "i"%char then if isImag : bool then Throw else Ok (true, buffer) else Ok (isImag, buffer ++ [c])) (false, acc) =
        forL w (fun c '(isImag, buffer) =>
          if Ascii.eqb c "i"%char then if isImag : bool then Throw else Ok (true, buffer) else Ok (isImag, buffer ++ [c])) (false, acc ++ u)).
      { induction u as [|c u IH]; intros acc Hu w; cbn [app forL]; [rewrite app_nil_r; auto|]. destruct (Ascii.eqb_spec c "i"%char) as [-> |]; [exfalso; apply Hu; left; auto|].
        cbn [bind]. rewrite IH by (intros Hx; apply Hu; right; auto). rewrite <- app_assoc. auto. }
      rewrite L.
      + cbn [forL lit list_ascii_of_string app]. change (Ascii.eqb "i" "i") with true. cbn [bind andb].
        destruct (str_eqb s []) eqn:E; [apply str_eqb_eq in E; exfalso; eapply num_nonempty; eauto|]. unfold cn_atof. rewrite (num_float b s Hs). reflexivity.
      + intros Hx. apply (num_in _ _ _ Hs) in Hx. cbn in Hx. intuition discriminate.
    - set (s := lit "@" ++ print_nat k ++ lit "@"). destruct (pnat_digits k) as (P1 & P2 & _).
      assert (E1 : isRealScalar s = Ok false).
      { apply isReal_other with "@"%char; [left; auto|apply not_digit; cbn; tauto|cbn; intuition discriminate]. }
      assert (Ls : List.length s = S (S (List.length (print_nat k)))) by (unfold s; rewrite !app_length; cbn [List.length lit list_ascii_of_string]; lia).
      assert (Lp : 1 <= List.length (print_nat k)) by (destruct (print_nat k); [congruence|cbn; lia]).
      assert (E2 : isPureComplex s = Ok false).
      { unfold isPureComplex. change (str_eqb s (lit "i")) with false. cbv iota. rewrite Ls. destruct (Nat.ltb_spec (S (S (List.length (print_nat k)))) 2); [lia|]. rewrite substr_0. cbn [bind].
        apply isReal_other with "@"%char; [unfold s; cbn [app lit list_ascii_of_string]; replace (S (S (List.length (print_nat k))) - 1) with (S (List.length (print_nat k))) by lia; left; auto|apply not_digit; cbn; tauto|cbn; intuition discriminate]. }
      rewrite E1. cbn [bind]. rewrite E2. cbn [bind].
      assert (E3 : scalarIndex R q s = Ok (Some k)).
      { unfold scalarIndex. rewrite Ls. destruct (Nat.ltb_spec (S (S (List.length (print_nat k)))) 3); [lia|]. change (nth 0 s "000"%char) with "@"%char.
        replace (nth (S (S (List.length (print_nat k))) - 1) s "000"%char) with "@"%char.
        2:{ unfold s. replace (S (S (List.length (print_nat k))) - 1) with (List.length (lit "@" ++ print_nat k)) by (rewrite app_length; cbn [List.length lit list_ascii_of_string]; lia).
            rewrite app_assoc, app_nth2 by lia. rewrite Nat.sub_diag. reflexivity. }
        change (Ascii.eqb "@" "@") with true. cbn [negb orb]. unfold substr. rewrite Ls. destruct (Nat.ltb_spec (S (S (List.length (print_nat k)))) 1); [lia|]. cbn [bind].
        assert (Es : firstn (S (S (List.length (print_nat k))) - 2) (skipn 1 s) = print_nat k).
        { unfold s. cbn [lit list_ascii_of_string app skipn]. replace (S (S (List.length (print_nat k))) - 2) with (List.length (print_nat k)) by lia. rewrite firstn_app, firstn_all, Nat.sub_diag. cbn [firstn]. apply app_nil_r. }
        rewrite Es. pose proof (print_nat_atoi k) as Ea. rewrite c_str_id in Ea by apply print_nat_at. rewrite Ea. cbn [bind].
        destruct (Z.ltb_spec (Z.of_nat k) 0); [lia|]. assert (Hl : k < List.length (q_cached R q)) by (apply nth_error_Some; rewrite (Hk t eq_refl); discriminate).
        destruct (Z.leb_spec (Z.of_nat (List.length (q_cached R q))) (Z.of_nat k)); [lia|]. rewrite Nat2Z.id. auto. }
      rewrite E3. cbn [bind]. unfold vget. rewrite (Hk t eq_refl). reflexivity.
  Qed.
  Lemma item_eval s x q prev fac : item_name s -> item s = Ok x -> isEmpty prev = true \/ Good prev ->
    proc q s prev fac = Ok (if isEmpty prev then x else xmul prev x, fac).
  Proof.
    intros (Hi & Hc & p & c & q' & Es & Hd & Hp & Hq) Hx Hpr. unfold proc, procFactor.
    assert (Hnc : ~ In c (lit ".-+")).
    { intros Hin. cbn in Hin. destruct Hin as [<-|[<-|[<-|[]]]]; [congruence|apply (Hc "-"%char); [rewrite Es; apply in_or_app; right; left; auto|cbn; tauto]|apply (Hc "+"%char); [rewrite Es; apply in_or_app; right; left; auto|cbn; tauto]]. }
    assert (E1 : isRealScalar s = Ok false) by (apply isReal_other with c; auto; rewrite Es; apply in_or_app; right; left; auto).
    rewrite E1. cbn [bind].
    assert (E2 : isPureComplex s = Ok false).
    { unfold isPureComplex. destruct (str_eqb s (lit "i")) eqn:E; [apply str_eqb_eq in E; congruence|]. destruct (Nat.ltb_spec (List.length s) 2) as [|L]; auto. rewrite substr_0. cbn [bind].
      apply isReal_other with c; auto. destruct Hq as [Hq| ->].
      - destruct (exists_last Hq) as (q2 & y & ->). rewrite Es. replace (p ++ c :: q2 ++ [y]) with ((p ++ c :: q2) ++ [y]) by (rewrite <- app_assoc; auto).
        rewrite app_length. cbn [List.length]. replace (List.length (p ++ c :: q2) + 1 - 1) with (List.length (p ++ c :: q2)) by lia. rewrite firstn_app, firstn_all, Nat.sub_diag. cbn [firstn]. rewrite app_nil_r.
        apply in_or_app. right. left. auto.
      - rewrite Es in L |- *. cbn [app List.length] in L |- *. destruct q' as [|y q']; [cbn in L; lia|]. cbn [List.length Nat.sub firstn]. left. auto. }
    rewrite E2. cbn [bind].
    assert (E3 : scalarIndex R q s = Ok None).
    { unfold scalarIndex. destruct (List.length s <? 3); auto. destruct s as [|a s]; [destruct p; discriminate|]. cbn [nth].
      destruct (Ascii.eqb_spec a "@"%char) as [-> |]; [exfalso; apply (Hc "@"%char); [left; auto|cbn; tauto]|]. reflexivity. }
    rewrite E3. cbn [bind]. rewrite Hx. cbn [bind]. destruct (isEmpty prev) eqn:Ep; auto. destruct Hpr as [|Hg]; [discriminate|].
    rewrite Gmeta by eauto. reflexivity.
  Qed.

  Definition stepx (prev x : X) : X := if isEmpty prev then x else xmul prev x.
  Definition SA (t : tree) (v : R) : Prop := exists f0, forall fuel, f0 <= fuel -> arithm fuel (word_text t) = Ok v.
  Lemma term_eval b fs p xs : term_means R A value im pi_text item b fs p xs ->
    term_scan b fs /\ (forall k s, In s (mains k fs) -> clean s) /\
    exists vs, Forall2 SA (pars fs) vs /\
    forall q pre post prev fac, q_cached R q = pre ++ vs ++ post -> isEmpty prev = true \/ Good prev ->
      forL (mains (List.length pre) fs) (fun t '(prev, factor) => proc q t prev factor) (prev, fac) = Ok (fold_left stepx xs prev, (fac * p)%C).
  Proof.
    induction 1 as [b|b f r fs p xs Hs H IH|b s x fs p xs Hn Hx H IH].
    - split; [exact I|]. split; [intros k s []|]. exists []. split; [constructor|]. intros q pre post prev fac _ _. cbn. f_equal. f_equal. ring.
    - destruct IH as (I1 & I2 & vs & I3 & I4). split; [split; [eapply scalar_scan; eauto|auto]|].
      split; [intros k s [<-|Hin]; [eapply scalar_clean; eauto|eapply I2; eauto]|].
      assert (V : exists v0, Forall2 SA (factor_pars f) v0 /\ forall t, f = FPar t -> v0 = [r]).
      { inversion Hs; subst; cbn [factor_pars]; try (exists []; split; [constructor|intros; discriminate]).
        exists [r]. split; [|auto]. constructor; [|constructor]. apply arith_ok; auto. }
      destruct V as (v0 & V1 & V2). exists (v0 ++ vs). split; [unfold pars; cbn [flat_map]; apply Forall2_app; auto|].
      intros q pre post prev fac Hq Hp. cbn [mains forL]. rewrite (scalar_eval b f r q (List.length pre) prev fac Hs).
      + cbn [bind]. assert (Lv : List.length (factor_pars f) = List.length v0) by (clear - V1; induction V1; cbn; auto). rewrite Lv.
        rewrite <- app_length. rewrite (I4 q (pre ++ v0) post); auto.
        * f_equal. f_equal. ring.
        * rewrite Hq, <- !app_assoc. auto.
      + intros t Ef. rewrite (V2 t Ef) in Hq. rewrite Hq. cbn [app]. rewrite nth_error_app2, Nat.sub_diag by lia. reflexivity.
    - destruct IH as (I1 & I2 & vs & I3 & I4). split; [split; [apply item_scan; auto|auto]|].
      split; [intros k s' [<-|Hin]; [apply item_clean; auto|eapply I2; eauto]|]. exists vs. split; [exact I3|].
      intros q pre post prev fac Hq Hp. cbn [mains forL factor_main factor_text]. rewrite (item_eval s x); auto. cbn [bind factor_pars List.length]. rewrite Nat.add_0_r.
      rewrite (I4 q pre post); auto. right. destruct (isEmpty prev) eqn:E; [eauto|]. destruct Hp as [|Hp]; [discriminate|]. eauto.
  Qed.

  (** The value of a term *)
  Definition term_value (fs : list factor) (x : X) : Prop :=
    exists p x0 xs, term_means R A value im pi_text item true fs p (x0 :: xs) /\ x = xscale p (fold_left xmul xs x0).
  Lemma fold_step xs : forall x0, Good x0 -> (forall x, In x xs -> Good x) -> fold_left stepx xs x0 = fold_left xmul xs x0 /\ Good (fold_left xmul xs x0).
  Proof.
    induction xs as [|x xs IH]; intros x0 H0 H; cbn [fold_left]; [auto|]. unfold stepx at 2. rewrite Gempty by auto. apply IH; [apply Gmul; auto; apply H; left; auto|intros; apply H; right; auto].
  Qed.
  Lemma means_good b fs p xs : term_means R A value im pi_text item b fs p xs -> forall x, In x xs -> Good x.
  Proof. induction 1; intros y Hy; [contradiction|auto|]. destruct Hy as [<-|Hy]; eauto. Qed.

  Definition terms_eval (ts : list (list factor)) (tvs : list X) : Prop :=
    (forall t, In t ts -> t <> [] /\ term_scan true t) /\ Forall Good tvs /\ List.length tvs = List.length ts /\
    (forall k s, In s (tmains k ts) -> s <> [] /\ forall m, In m s -> clean m) /\
    exists vs, Forall2 SA (flat_map pars ts) vs /\
    forall q pre post empty k, q_cached R q = pre ++ vs ++ post -> isEmpty empty = true -> k < List.length ts ->
      exists x, nth_error tvs k = Some x /\
      (do (prev, factor) <- forL (nth k (tmains (List.length pre) ts) []) (fun t '(prev, factor) => proc q t prev factor) (empty, c1 : R) ;;
       if isEmpty prev then Ok None else Ok (Some (xscale factor prev))) = Ok (Some x).
  Lemma terms_ok ts tvs : Forall2 term_value ts tvs -> terms_eval ts tvs.
  Proof.
    induction 1 as [|t x ts tvs (p & x0 & xs & Hm & ->) H IH].
    - split; [intros t []|]. split; [constructor|]. split; [auto|]. split; [intros k s []|]. exists []. split; [constructor|]. intros q pre post empty k _ _ Hk. cbn in Hk. lia.
    - destruct IH as (I1 & I2 & I3 & I4 & vs & I5 & I6). destruct (term_eval _ _ _ _ Hm) as (T1 & T2 & v0 & T3 & T4).
      assert (Ht : t <> []) by (intros ->; inversion Hm).
      pose proof (means_good _ _ _ _ Hm) as Hg.
      destruct (fold_step xs x0) as [F1 F2]; [apply Hg; left; auto|intros; apply Hg; right; auto|].
      split; [intros u [<-|Hu]; auto|]. split; [constructor; auto|]. split; [cbn; auto|].
      split; [intros k s [<-|Hin]; [split; [apply mains_nonempty; auto|intros m Hin; eapply T2; eauto]|eapply I4; eauto]|].
      exists (v0 ++ vs). split; [cbn [flat_map]; apply Forall2_app; auto|].
      intros q pre post empty k Hq He Hk. destruct k as [|k]; cbn [nth_error nth tmains].
      + eexists. split; [reflexivity|]. rewrite (T4 q pre (vs ++ post)); auto; [|rewrite Hq, <- !app_assoc; auto]. cbn [bind fold_left]. unfold stepx at 2 4. rewrite He. rewrite F1. rewrite Gempty by auto.
        do 2 f_equal. f_equal. ring.
      + assert (Lv : List.length (pars t) = List.length v0) by (clear - T3; induction T3; cbn; auto). rewrite Lv. rewrite <- app_length.
        apply (I6 q (pre ++ v0) post empty k); auto; [rewrite Hq, <- !app_assoc; auto|cbn in Hk; lia].
  Qed.

  Lemma tmains_length : forall ts k, List.length (tmains k ts) = List.length ts.
  Proof. induction ts; intros k; cbn; auto. Qed.
  Lemma SA_uniform ts vs : Forall2 SA ts vs -> exists f0, forall fuel, f0 <= fuel -> forall acc,
    forL (map word_text ts) (fun a l => do v <- arithm fuel a ;; Ok (l ++ [v])) acc = Ok (acc ++ vs).
  Proof.
    induction 1 as [|t v ts vs (f1 & F1) H (f2 & F2)].
    - exists 0. intros fuel _ acc. cbn. rewrite app_nil_r. auto.
    - exists (f1 + f2). intros fuel Hf acc. cbn [map forL]. rewrite F1 by lia. cbn [bind]. rewrite F2 by lia. rewrite <- app_assoc. auto.
  Qed.

  Lemma canonical_ok ts tvs x0 res0 empty : Forall2 term_value ts (x0 :: tvs) -> isEmpty empty = true -> (forall x, Good x -> metaEqual x res0 = true) ->
    exists f0, forall fuel, f0 <= fuel ->
    canonical R A value im pi_text item isEmpty metaEqual xadd xmul xscale fuel (expr_text ts) res0 empty = Ok (true, fold_left xadd tvs x0).
  Proof.
    intros H He Hm. destruct (terms_ok _ _ H) as (I1 & I2 & I3 & I4 & vs & I5 & I6). destruct (SA_uniform _ _ I5) as (f0 & F0).
    set (main := join "+" (map (join "*") (tmains 0 ts))).
    exists (f0 + S (List.length main)). intros fuel Hf. unfold canonical, quasiCanonical.
    assert (Hts : ts <> []) by (intros ->; inversion H).
    rewrite (scan_expr ts Hts I1 0) by auto. cbn [app List.length bind]. fold main.
    assert (E1 : str_split fuel [] main (lit "+") = Ok (map (join "*") (tmains 0 ts))).
    { change (lit "+") with ["+"%char]. apply join_split; [|fold main; lia]. intros t Ht. apply in_map_iff in Ht. destruct Ht as (s & <- & Hs). destruct (I4 _ _ Hs) as [S1 S2]. split.
      - apply join_nonempty; auto. intros m Hin. apply S2. auto.
      - intros Hc. apply join_in in Hc. destruct Hc as [Hc|(m & Hin & Hc)]; [discriminate|]. destruct (S2 m Hin) as [_ S3]. apply (S3 _ Hc). cbn. tauto. }
    rewrite E1. cbn [bind]. rewrite (F0 fuel) by lia. cbn [app bind q_terms]. rewrite map_length, tmains_length.
    set (q := mkquasi R (map (join "*") (tmains 0 ts)) vs).
    set (body := fun (i : nat) (result : X) => _).
    assert (St : forall i r, i < List.length ts -> exists x, nth_error (x0 :: tvs) i = Some x /\ body i r = (if negb (metaEqual x r) then Throw else Ok (if i =? 0 then x else xadd r x))).
    { intros i r Hi. destruct (I6 q [] [] empty i) as (x & Ex & E); auto; [cbn [q_cached app]; rewrite app_nil_r; auto|]. exists x. split; auto. unfold body, procTerm. cbn [q_terms q].
      assert (Eg : vget (map (join "*") (tmains 0 ts)) i = Ok (join "*" (nth i (tmains 0 ts) []))).
      { rewrite (@vget_ok _ _ i (join "*" [])) by (rewrite map_length, tmains_length; auto). rewrite map_nth. auto. }
      rewrite Eg. cbn [bind].
      assert (Hin : In (nth i (tmains 0 ts) []) (tmains 0 ts)) by (apply nth_In; rewrite tmains_length; auto). destruct (I4 _ _ Hin) as [S1 S2].
      change (lit "*") with ["*"%char]. rewrite join_split.
      - cbn [bind]. cbn [List.length] in E. unfold proc in E. rewrite E. reflexivity.
      - intros m Hm'. destruct (S2 m Hm') as [C1 C2]. split; auto. intros Hc. apply (C2 _ Hc). cbn. tauto.
      - assert (List.length (join "*" (nth i (tmains 0 ts) [])) <= List.length main) by (apply join_len, in_map; auto). lia. }
    clearbody body.
    assert (L : forM (List.length ts) 0 body res0 = Ok (fold_left xadd tvs x0) /\ Good (fold_left xadd tvs x0)).
    { destruct ts as [|t ts]; [congruence|]. cbn [List.length] in *. cbn [forM]. destruct (St 0 res0) as (x & Ex & E); [lia|]. injection Ex as <-. rewrite E.
      inversion I2 as [|? ? G0 G1]; subst. rewrite Hm by auto. cbn [negb bind Nat.eqb].
      injection I3 as I3. rewrite <- I3.
      assert (K : forall tvs' k r, (forall i, i < List.length tvs' -> nth_error (x0 :: tvs) (S k + i) = nth_error tvs' i) -> S k + List.length tvs' <= S (List.length ts) -> Good r -> Forall Good tvs' ->
        forM (List.length tvs') (S k) body r = Ok (fold_left xadd tvs' r) /\ Good (fold_left xadd tvs' r)).
      { induction tvs' as [|y tvs' IH]; intros k r Hi Hk Hr Hg; cbn [List.length forM fold_left]; [auto|]. cbn [List.length] in Hk. destruct (St (S k) r) as (x & Ex & E'); [lia|].
        specialize (Hi 0 ltac:(cbn; lia)) as Hi0. rewrite Nat.add_0_r in Hi0. rewrite Hi0 in Ex. cbn [nth_error] in Ex. injection Ex as <-. inversion Hg; subst. rewrite E'. rewrite Gmeta by auto. cbn [negb bind Nat.eqb].
        apply IH; auto; [|lia]. intros i Hlt. specialize (Hi (S i) ltac:(cbn; lia)). replace (S (S k) + i) with (S k + S i) by lia. exact Hi. }
      apply (K tvs 0 x0); auto. rewrite I3. lia. }
    destruct L as [L G]. rewrite L. cbn [bind]. rewrite Gempty by auto. reflexivity.
  Qed.
End Eval.
