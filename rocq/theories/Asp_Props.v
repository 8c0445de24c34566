(** Theorems about reading a whole Ainur input (C91). *)
From Coq Require Import Ascii String.
From Verif Require Import Prelude Str_Model Str_Proofs Text_Model Ainur_Model Ainur_Spec Ainur_Proofs Ainur_Props Asp_Model Asp_Spec Asp_Proofs.
Import List.

Lemma new_prog load apply h txt tail first : h <> [] -> statements h txt -> (forall c, In c (txt ++ tail) -> legal_char c) ->
  p_statement tail = None -> first = ";"%char :: tail ->
  ainur_new load (txt ++ tail) = do st <- run apply as_new h ;; do _ <- check_rest first ;; initMacros load st.
Proof.
  intros N Hs L T ->. destruct (statements_prog h txt Hs) as (l & -> & Hl & Nr); [intros c Hc; apply L, in_or_app; auto|].
  unfold ainur_new. rewrite (proj2 (lexical_spec _) L). destruct h as [|e h]; [congruence|]. cbn [map] in Hl.
  rewrite (parse_prog _ _ _ tail Hl T). rewrite <- (acts_run apply (e :: h) Nr). reflexivity.
Qed.

(** Every input that is a sequence of statements, with blanks and comments between and inside them, is read as these
    statements, in their order; then the macros are replaced. *)
Theorem C91_statements : forall load apply h txt tail,
  h <> [] -> statements h txt -> skipped tail -> (forall c, In c (txt ++ tail) -> legal_char c) ->
  ainur_new load (txt ++ tail) = do st <- run apply as_new h ;; initMacros load st.
Proof.
  intros load apply h txt tail N Hs Ht L. rewrite (new_prog load apply h txt tail _ N Hs L (tail_none tail Ht) eq_refl).
  destruct (run apply as_new h); cbn [bind]; auto. rewrite (check_skipped tail Ht). reflexivity.
Qed.
Print Assumptions C91_statements.

(** So what the text says is what is read: in an input in which every name is declared once and before it is used,
    and in which there are no macros, each variable reads as the last value given to it, without quotes around it. *)
Theorem C91_read : forall load apply h txt tail,
  h <> [] -> statements h txt -> skipped tail -> (forall c, In c (txt ++ tail) -> legal_char c) ->
  legal h -> ~ declared h (lit "AinurFromFile") ->
  (forall k v, given h k = Some v -> exists b, (v = b \/ v = quoted b) /\ ~ In """"%char b /\ ~ In "!"%char b /\ ~ In backslash b) ->
  exists st, ainur_new load (txt ++ tail) = Ok st /\
    forall k v b, given h k = Some v -> (v = b \/ v = quoted b) -> ~ In """"%char b -> plain b -> ~ required h k ->
      exists st2, readValue (convert_text apply) st k = Ok (b, st2).
Proof.
  intros load apply h txt tail N Hs Ht L Lg Nd V.
  assert (Q : forall s b : str, s = quoted b -> ~ In """"%char s -> False) by (intros s b -> H; apply H; left; auto).
  assert (Qi : forall b b', quoted b = quoted b' -> b = b').
  { unfold quoted. intros b b' E. injection E as E. apply app_inj_tail in E. tauto. }
  set (unq := fun v : str => match v with c :: r => if Ascii.eqb c """" then removelast r else v | [] => [] end).
  assert (U : forall v b, (v = b \/ v = quoted b) -> ~ In """"%char b -> unq v = b).
  { intros v b [->| ->] Hq; unfold unq.
    - destruct b as [|c b]; [reflexivity|]. destruct (Ascii.eqb_spec c """") as [->|]; [exfalso; apply Hq; left; auto|reflexivity].
    - unfold quoted. rewrite Ascii.eqb_refl. apply removelast_last. }
  destruct (C68_macros_partial load apply h (fun k => match given h k with Some v => unq v | None => [] end) (fun _ => 0) Lg Nd) as (st & st' & E1 & E2 & R).
  { intros k v G. split; [lia|]. destruct (V k v G) as (b & Hb & Q1 & Q2 & Q3). exists b. repeat split; auto.
    rewrite G, (U v b Hb Q1). apply replaced_text. auto. }
  exists st'. split.
  - rewrite (C91_statements load apply h txt tail N Hs Ht L), E1. exact E2.
  - intros k v b G Hb Q1 P Nr. destruct (R k v G) as (st2 & E3).
    + rewrite G, (U v b Hb Q1). auto.
    + tauto.
    + rewrite G, (U v b Hb Q1) in E3. eauto.
Qed.
Print Assumptions C91_read.

(** A character that is not allowed anywhere in the input is an error. *)
Theorem C91_characters : forall load s c, In c s -> ~ legal_char c -> ainur_new load s = Throw.
Proof.
  intros load s c Hc N. unfold ainur_new. destruct (lexical s) eqn:E; [|reflexivity]. exfalso. apply N.
  apply (proj1 (lexical_spec s) E c Hc).
Qed.
Print Assumptions C91_characters.

(** Something else behind the statements is an error, if it is longer than one character and cannot be taken for
    the beginning of a statement. *)
Theorem C91_rest : forall load apply h txt w c d r,
  h <> [] -> statements h txt -> skipped w -> (forall c', In c' (txt ++ w ++ c :: d :: r) -> legal_char c') -> legal h ->
  ~ blank c -> c <> "#"%char -> ~ letter c -> ~ In c ["."%char; "!"%char; "_"%char] ->
  run apply as_new h <> Throw /\ ainur_new load (txt ++ w ++ c :: d :: r) = Throw.
Proof.
  intros load apply h txt w c d r N Hs Hw L Lg Nb Nh Nl Ni. destruct (run_legal apply h Lg) as (st & E & _).
  split; [rewrite E; discriminate|].
  assert (Sk : forall s, skip1 (c :: s) = None).
  { intros s. cbn [skip1]. destruct (Ascii.eqb_spec c "#"); [contradiction|]. destruct (isspace c) eqn:Es; [|reflexivity]. exfalso.
    assert (Lc : legal_char c) by (apply L; rewrite !in_app_iff; right; right; left; auto). apply legal_spec in Lc. apply Nb, blank_spec.
    clear -Es Lc. destruct c as [[] [] [] [] [] [] [] []]; try reflexivity; discriminate. }
  assert (T : tychar c = false /\ und c = false).
  { unfold tychar, und. destruct (aToZ c) eqn:A; [apply letter_spec in A; contradiction|]. cbn [orb].
    destruct (Ascii.eqb_spec c "."); [exfalso; apply Ni; left; auto|]. destruct (Ascii.eqb_spec c "!"); [exfalso; apply Ni; right; left; auto|].
    destruct (Ascii.eqb_spec c "_"); [exfalso; apply Ni; right; right; left; auto|]. auto. }
  destruct T as [T1 T2].
  rewrite (new_prog load apply h txt _ _ N Hs L (junk_none w c (d :: r) Hw (Sk _) T1 T2) eq_refl), E. cbn [bind].
  rewrite (check_junk w c d r Hw (Sk _) Nb). reflexivity.
Qed.
Print Assumptions C91_rest.

(** The claim that everything that is not a statement is an error is false: a single character behind the
    statements is ignored, whatever it is ... *)
Theorem C91_rest_refuted : forall load apply h txt w c,
  h <> [] -> statements h txt -> skipped w -> (forall c', In c' (txt ++ w ++ [c]) -> legal_char c') -> ~ blank c ->
  ainur_new load (txt ++ w ++ [c]) = do st <- run apply as_new h ;; initMacros load st.
Proof.
  intros load apply h txt w c N Hs Hw L Nb.
  assert (Sk : skip1 [c] = None).
  { cbn [skip1]. destruct (Ascii.eqb_spec c "#"); [reflexivity|]. destruct (isspace c) eqn:Es; [|reflexivity]. exfalso.
    assert (Lc : legal_char c) by (apply L; rewrite !in_app_iff; right; right; left; auto). apply legal_spec in Lc. apply Nb, blank_spec.
    clear -Es Lc. destruct c as [[] [] [] [] [] [] [] []]; try reflexivity; discriminate. }
  rewrite (new_prog load apply h txt _ _ N Hs L (single_none w c Hw Sk) eq_refl).
  destruct (run apply as_new h); cbn [bind]; auto. rewrite (check_single w c Hw Sk Nb). reflexivity.
Qed.
Print Assumptions C91_rest_refuted.

(** ... and so is an equal sign without a value. *)
Theorem C91_no_value_refuted : forall load apply,
  ainur_new load (lit "integer n=;") = do st <- run apply as_new [EDeclare (lit "integer") (lit "n") None] ;; initMacros load st.
Proof. intros load apply. reflexivity. Qed.
Print Assumptions C91_no_value_refuted.

(** The claim that the semicolon behind the last statement can be left out, or that this is an error, is false: what
    is read then lies behind the text. *)
Theorem C91_last_semicolon_refuted : forall load h txt,
  statements h (txt ++ [";"%char]) -> legal h -> (forall c, In c txt -> legal_char c) -> ainur_new load txt = UB.
Proof.
  intros load h txt Hs Lg L.
  assert (L' : forall c, In c (txt ++ [";"%char]) -> legal_char c).
  { intros c Hc. apply in_app_or in Hc. destruct Hc as [Hc|[<-|[]]]; auto. apply legal_spec. reflexivity. }
  destruct (statements_prog _ _ Hs L') as (l & El & Hl & Nr).
  destruct h as [|e0 h0] using rev_ind.
  { inversion Hs as [E|]; subst. destruct txt; discriminate. }
  clear IHh0. rewrite map_app in Hl. cbn [map] in Hl.
  apply Forall2_app_inv_l in Hl. destruct Hl as (l1 & l2 & H1 & H2 & ->). inversion H2 as [|x [w b] xs l3 [Hw Hb] H3]; subst.
  inversion H3; subst. cbn [fst snd] in *. clear H2 H3.
  assert (Ep : prog (l1 ++ [(w, b)]) = (prog l1 ++ w ++ b) ++ [";"%char]).
  { clear. induction l1 as [|[w0 b0] l1 IH]; cbn [app prog]; [rewrite app_assoc; reflexivity|]. rewrite IH, <- !app_assoc. reflexivity. }
  rewrite Ep in El. apply app_inj_tail in El. destruct El as [-> _].
  unfold ainur_new. rewrite (proj2 (lexical_spec _) L).
  rewrite (parse_open (map stmt_of h0) (stmt_of e0) l1 w b H1 Hw Hb).
  change [stmt_of e0] with (map stmt_of [e0]). rewrite <- map_app.
  rewrite (acts_run (fun _ _ => Throw) (h0 ++ [e0]) Nr). destruct (run_legal (fun _ _ => Throw) _ Lg) as (st & E & _). rewrite E. reflexivity.
Qed.
Print Assumptions C91_last_semicolon_refuted.

(** The claim that a value can be given to any declared name is false: a name that starts with letters, underscores
    and a letter is taken for a type and a name, so that a new variable is declared, and the old one stays as it is. *)
Theorem C91_underscore_refuted : forall load apply h txt l u c r v w w' w'' tail,
  statements h txt -> skipped w -> skipped w' -> skipped w'' -> skipped tail ->
  l <> [] -> (forall x, In x l -> letter x) -> u <> [] -> (forall x, In x u -> x = "_"%char) -> letter c -> (forall x, In x r -> key_char x) ->
  value_ok v ->
  let k := l ++ u ++ c :: r in
  let s := txt ++ w ++ k ++ w' ++ "="%char :: w'' ++ v ++ ";"%char :: tail in
  (forall x, In x s -> legal_char x) ->
  ainur_new load s = do st <- run apply as_new (h ++ [EDeclare l (u ++ c :: r) (Some v)]) ;; initMacros load st.
Proof.
  intros load apply h txt l u c r v w w' w'' tail Hs Hw Hw' Hw'' Ht N1 Hl N2 Hu Hc Hr Hv k s L.
  destruct (statements_prog h txt Hs) as (p & -> & Hp & Nr); [intros x Hx; apply L; unfold s; rewrite in_app_iff; auto|].
  assert (Hv' : forall x, In x v -> legal_char x).
  { intros x Hx. apply L. unfold s. rewrite !in_app_iff. cbn [In]. rewrite !in_app_iff. tauto. }
  set (b := l ++ [] ++ (u ++ c :: r) ++ w' ++ "="%char :: w'' ++ v).
  assert (Hb : reads_as (S3 l (u ++ c :: r) v) b).
  { apply reads_define0; auto; [split; auto|exists u, c, r; auto| |constructor].
    right. destruct u as [|x u]; [congruence|]. exists (u ++ c :: r). rewrite (Hu x) by (left; auto). reflexivity. }
  assert (Es : s = prog (p ++ [(w, b)]) ++ tail).
  { assert (Ep : prog (p ++ [(w, b)]) = (prog p ++ w ++ b) ++ [";"%char]).
    { clear. induction p as [|[w0 b0] p IH]; cbn [app prog]; [rewrite app_assoc; reflexivity|]. rewrite IH, <- !app_assoc. reflexivity. }
    rewrite Ep. unfold s, k, b. repeat (rewrite <- !app_assoc; cbn [app]). reflexivity. }
  unfold ainur_new. rewrite (proj2 (lexical_spec _) L), Es.
  assert (Ha : reads_all (map stmt_of (h ++ [EDeclare l (u ++ c :: r) (Some v)])) (p ++ [(w, b)])).
  { rewrite map_app. apply Forall2_app; [exact Hp|]. constructor; [auto|constructor]. }
  destruct (map stmt_of (h ++ [EDeclare l (u ++ c :: r) (Some v)])) as [|x xs] eqn:Ex.
  { destruct h; discriminate. }
  rewrite (parse_prog x xs _ tail Ha (tail_none tail Ht)). rewrite <- Ex.
  rewrite (acts_run apply).
  - destruct (run apply as_new _); cbn [bind]; auto. rewrite (check_skipped tail Ht). reflexivity.
  - intros k0 Hk0. apply in_app_or in Hk0. destruct Hk0 as [Hk0|[E|[]]]; [apply (Nr k0); auto|discriminate].
Qed.
Print Assumptions C91_underscore_refuted.

(** The claim that comments can be put anywhere is false: behind a value they belong to it; and the claim that an
    input may end with a comment is false if the line does not end. *)
Theorem C91_comment_refuted : forall load apply,
  ainur_new load (lit "string a=x # note " ++ [ascii_of_nat 10; ";"%char]) =
    (do st <- run apply as_new [EDeclare (lit "string") (lit "a") (Some (lit "x # note " ++ [ascii_of_nat 10]))] ;; initMacros load st) /\
  ainur_new load (lit "integer n=1; # note") = Throw.
Proof. intros load apply. split; reflexivity. Qed.
Print Assumptions C91_comment_refuted.

(** An input that meets the hypotheses. *)
Definition nl : str := [ascii_of_nat 10].
Definition in_txt : str :=
  lit "## a test" ++ nl ++ lit "integer! n; real max_U = 3.5;" ++ nl ++ lit "n # sites" ++ nl ++ lit "=12;" ++ nl ++
  lit "string  _name:0=""a b"";".
Definition in_h : history :=
  [EDeclare (lit "integer!") (lit "n") None; EDeclare (lit "real") (lit "max_U") (Some (lit "3.5")); EAssign (lit "n") (lit "12");
   EDeclare (lit "string") (lit "_name:0") (Some (lit """a b"""))].
Lemma blank_sp : blank " ". Proof. left. auto. Qed.
Lemma blank_nl : blank (ascii_of_nat 10). Proof. right. right. left. auto. Qed.
Lemma letters_b s : forallb aToZ s = true -> forall c, In c s -> letter c.
Proof. rewrite forallb_forall. intros H c Hc. apply letter_spec. auto. Qed.
Lemma key_chars_b s : forallb keychar s = true -> forall c, In c s -> key_char c.
Proof.
  rewrite forallb_forall. intros H c Hc. specialize (H c Hc). unfold keychar in H. unfold key_char.
  apply orb_true_iff in H. destruct H as [H|H]; [|apply Ascii.eqb_eq in H; auto].
  apply orb_true_iff in H. destruct H as [H|H]; [|apply Ascii.eqb_eq in H; auto].
  apply orb_true_iff in H. destruct H as [H|H]; [apply letter_spec in H; auto|apply digit_spec in H; auto].
Qed.
Lemma types_b s : s <> [] -> forallb tychar s = true -> type_ok s.
Proof.
  intros N H. split; auto. rewrite forallb_forall in H. intros c Hc. specialize (H c Hc). unfold tychar in H.
  apply orb_true_iff in H. destruct H as [H|H]; [|apply Ascii.eqb_eq in H; auto].
  apply orb_true_iff in H. destruct H as [H|H]; [apply letter_spec in H; auto|apply Ascii.eqb_eq in H; auto].
Qed.
Lemma value_b c s : forallb notsemi (c :: s) = true -> isEmptyChar c || Ascii.eqb c "#" = false -> value_ok (c :: s).
Proof.
  intros H1 H2. split.
  - intros Hin. rewrite forallb_forall in H1. specialize (H1 _ Hin). discriminate.
  - apply orb_false_iff in H2. destruct H2 as [H2 H3]. exists c, s. split; auto. split; [rewrite <- blank_spec, H2; discriminate|].
    intros ->. discriminate.
Qed.
Lemma in_statements : statements in_h in_txt.
Proof.
  assert (K : forall c r, aToZ c = true -> forallb keychar r = true -> key_ok (c :: r)).
  { intros c r H1 H2. exists [], c, r. split; [reflexivity|]. split; [intros x []|]. split; [apply letter_spec; auto|apply key_chars_b; auto]. }
  assert (Sp : skipped (lit " ")) by (constructor; [apply blank_sp|constructor]).
  assert (E : in_txt =
    (lit "## a test" ++ nl) ++ (lit "integer!" ++ lit " " ++ lit "n" ++ [] ++ [";"%char]) ++
    (lit " ") ++ (lit "real" ++ lit " " ++ lit "max_U" ++ lit " " ++ "="%char :: lit " " ++ lit "3.5" ++ [";"%char]) ++
    nl ++ (lit "n" ++ (lit " # sites" ++ nl) ++ "="%char :: [] ++ lit "12" ++ [";"%char]) ++
    nl ++ (lit "string" ++ lit "  " ++ lit "_name:0" ++ [] ++ "="%char :: [] ++ lit """a b""" ++ [";"%char]) ++ []) by reflexivity.
  rewrite E. unfold in_h.
  constructor; [apply (sk_comment (lit "# a test") (ascii_of_nat 10) []); [|left; auto|constructor]| |].
  { intros x Hx. vm_compute in Hx. intros [->| ->]; vm_compute in Hx; intuition discriminate. }
  { apply st_declare; auto; [apply types_b; [discriminate|reflexivity]|apply K; reflexivity|discriminate|constructor]. }
  constructor; [auto|apply st_define; auto; [apply types_b; [discriminate|reflexivity]|apply K; reflexivity|apply value_b; reflexivity|discriminate]|].
  constructor; [constructor; [apply blank_nl|constructor]|apply st_assign| ]; [apply K; reflexivity| |apply value_b; reflexivity| |constructor|].
  { intros (l & u & c & r & E1 & N1 & _ & N2 & _). destruct l as [|x [|y l]]; [congruence| |discriminate]. destruct u; [congruence|discriminate]. }
  { constructor; [apply blank_sp|]. apply (sk_comment (lit " sites") (ascii_of_nat 10) []); [|left; auto|constructor].
    intros x Hx. vm_compute in Hx. intros [->| ->]; vm_compute in Hx; intuition discriminate. }
  constructor; [constructor; [apply blank_nl|constructor]| |constructor].
  apply st_define; [apply types_b; [discriminate|reflexivity]| |apply value_b; reflexivity|discriminate| |constructor|constructor].
  - exists (lit "_"), "n"%char, (lit "ame:0"). split; [reflexivity|]. split; [intros x [<-|[]]; auto|]. split; [apply letter_spec; reflexivity|apply key_chars_b; reflexivity].
  - constructor; [apply blank_sp|]. exact Sp.
Qed.
Lemma in_legal : legal in_h.
Proof.
  intros a e b H. unfold in_h in H.
  assert (Nd : forall h k, forallb (fun e => match e with EDeclare _ k' _ => negb (str_eqb k' k) | _ => true end) h = true -> ~ declared h k).
  { intros h k H1 (d & v & K). rewrite forallb_forall in H1. specialize (H1 _ K). cbn in H1. rewrite (proj2 (str_eqb_eq _ _) eq_refl) in H1. discriminate. }
  destruct a as [|x a]; [injection H as <- <-; split; [apply Nd; reflexivity|discriminate]|].
  destruct a as [|x1 a]; [injection H as <- <- <-; split; [apply Nd; reflexivity|discriminate]|].
  destruct a as [|x2 a]; [injection H as <- <- <- <-; exists (lit "integer!"), None; left; reflexivity|].
  destruct a as [|x3 a]; [injection H as <- <- <- <- <-; split; [apply Nd; reflexivity|discriminate]|].
  exfalso. injection H as _ _ _ _ H. destruct a; discriminate.
Qed.
Example C91_nonvacuous :
  statements in_h in_txt /\ legal in_h /\ skipped (nl ++ lit "#end" ++ nl) /\
  (forall c, In c (in_txt ++ nl ++ lit "#end" ++ nl) -> legal_char c) /\
  given in_h (lit "max_U") = Some (lit "3.5") /\ given in_h (lit "_name:0") = Some (quoted (lit "a b")) /\
  snake (lit "max_U") /\
  exists st st2, ainur_new (fun _ => false) (in_txt ++ nl ++ lit "#end" ++ nl) = Ok st /\
    readValue (convert_text (fun _ _ => Throw)) st (lit "_name:0") = Ok (lit "a b", st2).
Proof.
  split; [apply in_statements|]. split; [apply in_legal|]. split.
  { constructor; [apply blank_nl|]. apply (sk_comment (lit "end") (ascii_of_nat 10) []); [|left; auto|constructor].
    intros x Hx. vm_compute in Hx. intros [->| ->]; vm_compute in Hx; intuition discriminate. }
  split; [apply lexical_spec; reflexivity|]. split; [reflexivity|]. split; [reflexivity|]. split.
  { exists (lit "max"), (lit "_"), "U"%char, []. split; [reflexivity|]. split; [discriminate|]. split; [apply letters_b; reflexivity|].
    split; [discriminate|]. split; [intros x [<-|[]]; auto|apply letter_spec; reflexivity]. }
  destruct (ainur_new (fun _ => false) (in_txt ++ nl ++ lit "#end" ++ nl)) as [st| | |] eqn:E; try (vm_compute in E; discriminate).
  exists st. vm_compute in E. apply Ok_inj in E. subst st. eexists. split; reflexivity.
Qed.
