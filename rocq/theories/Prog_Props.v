(** C96: progress lines.  C97: memory entries and elapsed times. *)
From Coq Require Import Ascii String QArith Lia.
From Verif Require Import Prelude Str_Model Prog_Model Prog_Spec Prog_Proofs.
Import List.
Local Open Scope nat_scope.

(** An indicator of the first thread of the first process prints the line
    "caller [time]: message", once, and changes neither the recorder's switch
    nor any file; the recorder gets nothing unless it is switched on. *)
Theorem C96_line : forall who s t1 t2 w,
  let w' := printline (newInd who 0 0) s t1 t2 w in
  scr w' = scr w ++ progress_line who t1 s /\
  active w' = active w /\ files w' = files w /\
  (active w = false -> log w' = log w).
Proof.
  intros who s t1 t2 w w'. unfold w'.
  rewrite (printline_speaks (newInd who 0 0)) by reflexivity. cbv zeta.
  destruct (active w); cbn; auto. repeat split; discriminate.
Qed.

(** Indicators of other threads or of other processes print nothing and record
    nothing; only [printMemoryUsage] while the recorder is on is not covered
    (C96_silent_refuted). *)
Theorem C96_silent_partial : forall who threadId r w,
  threadId <> 0 \/ r <> 0 ->
  let i := newInd who threadId r in
  (forall s t1 t2, printline i s t1 t2 w = w) /\
  (forall m t1 t2, printlineMsg i m t1 t2 w = (m, w)) /\
  (forall s t1 t2, print i s t1 t2 w = w) /\
  (forall vmSize vmPeak t1 t2 t3 t4,
     active w = false -> printMemoryUsage i vmSize vmPeak t1 t2 t3 t4 w = w).
Proof.
  intros who threadId r w H i.
  assert (S0 : speaks i = false).
  { unfold speaks, i, newInd. destruct (Nat.eqb_spec threadId 0) as [E|E]; cbn.
    - rewrite E. cbn. destruct (Nat.eqb_spec r 0); [lia|reflexivity].
    - destruct (Nat.eqb_spec threadId 0); [lia|reflexivity]. }
  split; [intros; apply printline_silent; assumption|].
  split; [intros; apply printlineMsg_silent; assumption|].
  split.
  { intros s t1 t2. unfold print. unfold speaks in S0.
    destruct (thread i =? 0); cbn [negb andb] in *; [|reflexivity]. rewrite S0. reflexivity. }
  intros vmSize vmPeak t1 t2 t3 t4 Ha. unfold printMemoryUsage.
  rewrite printlineMsg_silent by assumption. rewrite Ha. reflexivity.
Qed.

(** Witness that the claim fails for printMemoryUsage: another process's (or
    thread's) indicator puts its message into the record. *)
Theorem C96_silent_refuted :
  ~ (forall who threadId r vmSize vmPeak t w, threadId <> 0 \/ r <> 0 ->
       log (printMemoryUsage (newInd who threadId r) vmSize vmPeak t t t t w) = log w).
Proof.
  intros H. assert (K : 1 <> 0 \/ 0 <> 0) by (left; discriminate).
  specialize (H (lit "A") 1 0 (lit "8 kB") (lit "9 kB") (lit "1.000")
    (mkworld [] (mkfmt 6 false) ostr_empty (mkfmt 6 false) true []) K).
  vm_compute in H. discriminate H.
Qed.

(** print puts "caller [time]: text", without an end of line, on the screen and, if the recorder is
    on and its text has not been rewound, at the end of the record; if it is off the record stays. *)
Theorem C96_print : forall who s t1 t2 w,
  let w' := print (newInd who 0 0) s t1 t2 w in
  let said t := who ++ text " [" ++ t ++ text "]: " ++ s in
  scr w' = scr w ++ said t1 /\ active w' = active w /\ files w' = files w /\
  (active w = false -> log w' = log w) /\
  (active w = true -> opos (log w) = List.length (obuf (log w)) -> obuf (log w') = obuf (log w) ++ said t2).
Proof.
  intros who s t1 t2 w w' sd.
  assert (E : forall t, prefixText (newInd who 0 0) t ++ s = sd t).
  { intros t. unfold prefixText, sd. cbn [newInd negb Nat.eqb caller]. rewrite <- !app_assoc. reflexivity. }
  unfold w', print. cbn [newInd thread rank Nat.eqb negb]. cbv zeta.
  unfold prefixScr, prefixLog, logOut, setLog, scrOut. cbn [scr log active files scrfmt logfmt].
  destruct (active w) eqn:Ha; cbn [negb scr log active files]; rewrite ?Ha.
  - split; [rewrite <- app_assoc; f_equal; apply (E t1)|]. split; [reflexivity|]. split; [reflexivity|]. split; [discriminate|].
    intros _ Hp. destruct (log w) as [b k] eqn:El. cbn [obuf opos] in Hp. subst k.
    rewrite write_end, write_end. cbn [obuf]. rewrite <- app_assoc. f_equal. apply (E t2).
  - split; [rewrite <- app_assoc; f_equal; apply (E t1)|]. repeat split; auto; congruence.
Qed.
Print Assumptions C96_print.

(** A message put into a fresh stream is printed as one line. *)
Theorem C96_message : forall who m t1 t2 w,
  scr (snd (printlineMsg (newInd who 0 0) (ostr_write ostr_empty m) t1 t2 w)) =
  scr w ++ progress_line who t1 m.
Proof.
  intros who m t1 t2 w.
  destruct (printlineMsg_speaks (newInd who 0 0) (ostr_write ostr_empty m) t1 t2 w) as [_ E]; [reflexivity|].
  rewrite E, write_empty. cbn [obuf].
  exact (proj1 (C96_line who m t1 t2 w)).
Qed.

(** Messages put one after another into the same stream, each printed when it
    is complete, appear as these messages as long as none is shorter than the
    one before it. *)
Theorem C96_reused_partial : forall who ms t w,
  ascending 0 ms ->
  scr (reuse (newInd who 0 0) ostr_empty ms t w) = scr w ++ flat_map (progress_line who t) ms.
Proof. intros who ms t w H. exact (reuse_lines (newInd who 0 0) t ms eq_refl [] w H). Qed.

(** Without that restriction the claim is false: printing moves the stream's
    position to the start but keeps its characters, so a shorter message is
    printed with the end of the longer one behind it.  For any two messages the
    second line is the second message followed by what the first has beyond it. *)
Theorem C96_reused_refuted :
  (forall who m1 m2 t w,
     scr (reuse (newInd who 0 0) ostr_empty [m1; m2] t w) =
     scr w ++ progress_line who t m1 ++
       progress_line who t (m2 ++ skipn (List.length m2) m1)) /\
  ~ (forall who ms t w,
       scr (reuse (newInd who 0 0) ostr_empty ms t w) =
       scr w ++ flat_map (progress_line who t) ms).
Proof.
  assert (A : forall who m1 m2 t w,
     scr (reuse (newInd who 0 0) ostr_empty [m1; m2] t w) =
     scr w ++ progress_line who t m1 ++
       progress_line who t (m2 ++ skipn (List.length m2) m1)).
  { intros who m1 m2 t w. cbn [reuse]. rewrite write_empty.
    destruct (printlineMsg_speaks (newInd who 0 0) (mkostr m1 (List.length m1)) t t w eq_refl) as [E1 E2].
    destruct (printlineMsg (newInd who 0 0) (mkostr m1 (List.length m1)) t t w) as [m w1].
    cbn [fst snd obuf] in E1, E2. subst m w1.
    set (w1 := printline (newInd who 0 0) m1 t t w).
    destruct (printlineMsg_speaks (newInd who 0 0) (ostr_write (mkostr m1 0) m2) t t w1 eq_refl) as [_ E4].
    destruct (printlineMsg (newInd who 0 0) (ostr_write (mkostr m1 0) m2) t t w1) as [m' w2].
    cbn [fst snd] in E4. subst w2.
    rewrite (proj1 (C96_line who _ t t w1)). unfold w1.
    rewrite (proj1 (C96_line who m1 t t w)), <- app_assoc. reflexivity. }
  split; [exact A|]. intros H.
  specialize (H [] [lit "steps"; lit "x"] [] (mkworld [] (mkfmt 6 false) ostr_empty (mkfmt 6 false) false [])).
  vm_compute in H. discriminate H.
Qed.

(** The recorder: between switching it on and off, with any lines said by any
    indicators in between, the file named after the process gets exactly the
    lines said by the first thread of the first process, in order, with the
    times read when they were recorded; the screen gets the same lines. *)
Theorem C96_record : forall (cs : list said) p w,
  active w = false -> log w = ostr_empty ->
  let w' := updateBuffer p (fold_left say cs (updateBuffer p w)) in
  files w' = (text "buffer" ++ p ++ text ".txt", flat_map line2 cs ++ [newline]) :: files w /\
  scr w' = scr w ++ flat_map line1 cs /\
  active w' = false /\ log w' = ostr_empty.
Proof.
  intros cs p w Ha Hl w'.
  set (w1 := updateBuffer p w) in *.
  assert (A1 : active w1 = true) by (unfold w1, updateBuffer; rewrite Ha; cbn [active scr files log]; rewrite ?Ha; reflexivity).
  assert (L1 : log w1 = ostr_empty) by (unfold w1, updateBuffer; rewrite Ha; exact Hl).
  assert (F1 : files w1 = files w) by (unfold w1, updateBuffer; rewrite Ha; cbn [active scr files log]; rewrite ?Ha; reflexivity).
  assert (S1 : scr w1 = scr w) by (unfold w1, updateBuffer; rewrite Ha; cbn [active scr files log]; rewrite ?Ha; reflexivity).
  destruct (say_all cs w1 A1) as (I1 & I2 & I3 & I4 & I5).
  { unfold log_at_end. rewrite L1. reflexivity. }
  unfold w', updateBuffer. rewrite I2. cbn [active log files scr negb].
  rewrite I1, I3, I5, F1, L1, S1. repeat split.
Qed.

(** [line1], [line2] and [say] used above. *)
Theorem C96_record_said : forall who s t1 t2,
  line1 (newInd who 0 0, s, t1, t2) = progress_line who t1 s /\
  line2 (newInd who 0 0, s, t1, t2) = progress_line who t2 s /\
  (forall threadId r, threadId <> 0 \/ r <> 0 ->
     line1 (newInd who threadId r, s, t1, t2) = [] /\
     line2 (newInd who threadId r, s, t1, t2) = []).
Proof.
  intros who s t1 t2. split; [reflexivity|]. split; [reflexivity|].
  intros threadId r H. unfold line1, line2.
  assert (S0 : speaks (newInd who threadId r) = false).
  { unfold speaks, newInd. destruct (Nat.eqb_spec threadId 0) as [E|E]; cbn.
    - rewrite E. cbn. destruct (Nat.eqb_spec r 0); [lia|reflexivity].
    - destruct (Nat.eqb_spec threadId 0); [lia|reflexivity]. }
  rewrite S0. auto.
Qed.

(** With printMemoryUsage among what is said the claim is false: a line that
    was recorded before it is no longer in the file. *)
Theorem C96_record_refuted :
  exists who1 who2 s vmSize vmPeak t p w,
    active w = false /\ log w = ostr_empty /\
    let w1 := printline (newInd who1 0 0) s t t (updateBuffer p w) in
    let w2 := printMemoryUsage (newInd who2 0 0) vmSize vmPeak t t t t w1 in
    exists name content,
      files (updateBuffer p w2) = (name, content) :: files w /\
      forall pre post, content <> pre ++ progress_line who1 t s ++ post.
Proof.
  exists (lit "A"), (lit "LanczosSolver"), (lit "first"), (lit "8 kB"), (lit "9 kB"), (lit "1.000"),
    (lit "77"), (mkworld [] (mkfmt 6 false) ostr_empty (mkfmt 6 false) false []).
  split; [reflexivity|]. split; [reflexivity|]. cbv zeta.
  set (w2 := printMemoryUsage _ _ _ _ _ _ _ _).
  destruct (files (updateBuffer (lit "77") w2)) as [|[name content] fs] eqn:E.
  - vm_compute in E. discriminate.
  - exists name, content. split.
    + vm_compute in E. injection E as <- <- <-. reflexivity.
    + intros pre post. apply find_sub_none.
      vm_compute in E. injection E as <- <- <-. vm_compute. reflexivity.
Qed.

(** Printing puts the precision of the stream back. *)
Theorem C96_format_partial : forall i s t1 t2 w,
  prec (scrfmt (printline i s t1 t2 w)) = prec (scrfmt w) /\
  (fixedflag (scrfmt w) = true -> fixedflag (scrfmt (printline i s t1 t2 w)) = true).
Proof.
  intros i s t1 t2 w. destruct (speaks i) eqn:Hs.
  - rewrite printline_speaks by assumption. cbv zeta. destruct (active w); cbn; auto.
  - rewrite printline_silent by assumption. auto.
Qed.

(** It does not put the format back: after any line, numbers printed to the
    stream are in fixed notation. *)
Theorem C96_format_refuted :
  (forall who s t1 t2 w, fixedflag (scrfmt (printline (newInd who 0 0) s t1 t2 w)) = true) /\
  ~ (forall i s t1 t2 w, scrfmt (printline i s t1 t2 w) = scrfmt w).
Proof.
  assert (A : forall who s t1 t2 w, fixedflag (scrfmt (printline (newInd who 0 0) s t1 t2 w)) = true).
  { intros who s t1 t2 w. rewrite (printline_speaks (newInd who 0 0)) by reflexivity. cbv zeta.
    destruct (active w); reflexivity. }
  split; [exact A|]. intros H.
  specialize (A [] [] [] [] (mkworld [] (mkfmt 6 false) ostr_empty (mkfmt 6 false) false [])).
  rewrite H in A. discriminate A.
Qed.

(** A Profiling object prints one line when it is made and one when it ends:
    with the text of the first call of [end], however often [end] is called
    before the object goes away, and an empty text if it is not called. *)
Theorem C96_profile : forall who additional ends t1 t2 w,
  scr (profileLife (newInd who 0 0) additional ends t1 t2 w) =
  scr w ++ progress_line who t1 (text "starting clock " ++ additional) ++
    progress_line who t1 (text "stopping clock " ++ hd [] ends).
Proof.
  intros who additional ends t1 t2 w. rewrite profileLife_eq.
  rewrite (proj1 (C96_line who _ t1 t2 _)), (proj1 (C96_line who _ t1 t2 w)), <- app_assoc.
  destruct ends; reflexivity.
Qed.

Example C96_nonvacuous :
  exists w, active w = false /\ log w = ostr_empty /\
  ascending 0 [lit "a"; lit "bc"] /\
  files (updateBuffer (lit "5") (fold_left say
     [(newInd (lit "X") 0 0, lit "hi", lit "0.1", lit "0.2"); (newInd (lit "Y") 1 0, lit "no", [], [])]
     (updateBuffer (lit "5") w)))
  = [(lit "buffer5.txt", lit "X [0.2]: hi" ++ [newline; newline])].
Proof.
  exists (mkworld [] (mkfmt 6 false) ostr_empty (mkfmt 6 false) false []).
  repeat split; cbn; lia.
Qed.

(** ---------- C97 ---------- *)

(** Reading the status file: if no line has 40240 characters or more, and there
    are no NULs, the object holds the text of the file and a newline; a file
    that cannot be opened leaves the object as it is. *)
Theorem C97_update_partial : forall fuel data s,
  List.length (text_lines s) <= fuel ->
  ~ In (ascii_of_nat 0) s ->
  Forall (fun l => (N.of_nat (List.length l) < 40240)%N) (text_lines s) ->
  update fuel data (Some s) = Ok (s ++ [newline]) /\ update fuel data None = Ok data.
Proof.
  intros fuel data s Hf H0 Hl. split; [|reflexivity].
  unfold update. exact (update_loop_ok fuel [] s Hf H0 Hl).
Qed.

(** A file with a longer line is read for ever: no number of turns suffices. *)
Theorem C97_update_refuted : forall fuel data s,
  Exists (fun l => (40240 <= N.of_nat (List.length l))%N) (text_lines s) ->
  update fuel data (Some s) = OutOfFuel.
Proof. intros fuel data s H. exact (update_loop_long fuel [] s H). Qed.

(** [text_lines] used above: the lines, joined by newlines, are the text, and
    no line contains a newline. *)
Theorem C97_text_lines : forall s,
  Forall (fun l => ~ In newline l) (text_lines s) /\
  exists l ls, text_lines s = l :: ls /\
    s = l ++ flat_map (fun l => newline :: l) ls.
Proof.
  assert (A : forall n s, List.length s <= n -> Forall (fun l => ~ In newline l) (text_lines s) /\
  exists l ls, text_lines s = l :: ls /\
    s = l ++ flat_map (fun l => newline :: l) ls).
  { induction n as [|n IH]; intros s Hn.
    - destruct s; [|cbn in Hn; lia]. cbn. split; [constructor; auto|]. exists [], []. auto.
    - destruct (text_lines_cases s) as [[H1 H2]|(l & s' & H1 & H2 & H3)].
      + rewrite H2. split; [constructor; auto|]. exists s, []. rewrite app_nil_r. auto.
      + destruct (IH s') as [I1 (l' & ls' & I2 & I3)].
        { rewrite H2, app_length in Hn. cbn in Hn. lia. }
        rewrite H3. split; [constructor; assumption|].
        exists l, (text_lines s'). split; [reflexivity|]. rewrite I2. cbn.
        rewrite H2. rewrite I3 at 1. reflexivity. }
  intros s. exact (A (List.length s) s (le_n _)).
Qed.

(** An entry is the rest of the line behind the first place where the label
    occurs, without the blanks it starts with. *)
Theorem C97_entry_partial : forall data label pre post l e,
  first_occurrence label data pre post ->
  line_start post l -> without_leading_blanks l e ->
  e <> [] \/ l = [] ->
  findEntry data label = Ok e.
Proof.
  intros data label pre post l e [E Hm] Hl (b & El & Hb & He) Hne.
  unfold findEntry, str_find at 1. cbn [skipn].
  destruct (List.length data <? 0) eqn:H0; [apply Nat.ltb_lt in H0; lia|].
  destruct (find_sub label data) as [k|] eqn:F.
  2:{ exfalso. apply (find_sub_none _ _ pre post F). exact E. }
  apply find_sub_first in F. destruct F as (a & c & F1 & F2 & F3).
  assert (k = List.length pre).
  { apply Nat.le_antisymm; [eapply F3; exact E|]. rewrite <- F2. eapply Hm. exact F1. }
  clear a c F1 F2 F3. subst k. cbn [option_map]. rewrite Nat.add_0_l.
  cbv zeta. rewrite (line_len data pre label post l E Hl). cbn [bind].
  destruct (skip_blanks_spec l 0) as [(b' & c & e' & S1 & S2 & S3 & S4)|[S1 S2]].
  - replace (if 0 <? skip_blanks l 0 then skip_blanks l 0 - 1 else skip_blanks l 0)
      with (List.length b') by (rewrite S4; destruct (Nat.ltb_spec 0 (0 + List.length b' + 1)); lia).
    assert (b = b' /\ e = c :: e') as [-> ->].
    { rewrite S1 in El. clear - El S2 S3 Hb He. revert b' S2 El.
      induction b as [|x b IH]; intros b' S2 El.
      - destruct b' as [|y b'].
        + cbn in El. auto.
        + exfalso. cbn in El. apply (He y (b' ++ c :: e')); [congruence|]. inversion S2; assumption.
      - destruct b' as [|y b'].
        + exfalso. cbn in El. injection El as -> _. inversion Hb; contradiction.
        + cbn in El. injection El as -> El. inversion Hb; inversion S2; subst.
          destruct (IH H2 b') as [-> ->]; auto. }
    unfold substr. destruct (Nat.ltb_spec (List.length l) (List.length b')) as [Hx|Hx].
    + rewrite El, app_length in Hx. lia.
    + f_equal. rewrite firstn_all2.
      * rewrite El, skipn_app, Nat.sub_diag, skipn_all2 by lia. reflexivity.
      * rewrite skipn_length. lia.
  - assert (Forall is_blank e).
    { rewrite El in S1. apply Forall_app in S1. tauto. }
    destruct e as [|c e].
    + destruct Hne as [Hne| ->]; [congruence|]. rewrite S2. reflexivity.
    + exfalso. apply (He c e eq_refl). inversion H; assumption.
Qed.

(** A label that does not occur gives "NOT_FOUND". *)
Theorem C97_absent : forall data label,
  (forall pre post, data <> pre ++ label ++ post) -> findEntry data label = Ok (text "NOT_FOUND").
Proof.
  intros data label H. unfold findEntry, str_find at 1.
  destruct (List.length data <? 0) eqn:H0; [apply Nat.ltb_lt in H0; lia|].
  cbn [skipn]. destruct (find_sub label data) as [k|] eqn:F; [|reflexivity].
  apply find_sub_first in F. destruct F as (a & c & F1 & _). exfalso. eapply H. exact F1.
Qed.

(** An entry of blanks only is not empty: the last blank is left. *)
Theorem C97_entry_refuted :
  ~ (forall data label pre post l e,
       first_occurrence label data pre post ->
       line_start post l -> without_leading_blanks l e ->
       findEntry data label = Ok e).
Proof.
  intros H.
  specialize (H (lit "Name:  ") (lit "Name:") [] (lit "  ") (lit "  ") []).
  assert (E : findEntry (lit "Name:  ") (lit "Name:") = Ok []).
  { apply H.
    - split; [reflexivity|]. cbn. intros; lia.
    - split; [|left; reflexivity]. cbn. intros [E|[E|[]]]; discriminate E.
    - exists (lit "  "). split; [reflexivity|]. split; [|discriminate].
      repeat constructor. }
  vm_compute in E. discriminate E.
Qed.

(** Elapsed times: a difference of times is a number of microseconds that is the
    difference, sums add up, and [millis] gives a millionth of it. *)
Theorem C97_time : forall a b,
  let us h := microseconds (seconds h) (useconds h) in
  us (time_sub a b) = (us a - us b)%Z /\
  us (time_add a b) = (us a + us b)%Z /\
  (millis a == inject_Z (us a) / inject_Z 1000000)%Q /\
  (millis (time_sub a b) == millis a - millis b)%Q /\
  (millis (time_add a b) == millis a + millis b)%Q.
Proof.
  intros [s1 u1] [s2 u2] us. unfold us, microseconds, seconds, useconds, time_sub, time_add, millis.
  cbn [tv_sec tv_usec].
  split; [lia|]. split; [lia|].
  unfold Zminus. rewrite ?inject_Z_plus, ?inject_Z_mult, ?inject_Z_opp.
  split; [field|]. split; field.
Qed.

(** So [millis] gives seconds, not milliseconds: it is a thousandth of the
    number of milliseconds. *)
Theorem C97_millis_refuted :
  ~ (forall s, (millis (mktime s 0) == inject_Z (1000 * s))%Q).
Proof. intros H. specialize (H 1%Z). vm_compute in H. discriminate H. Qed.

(** [seconds] of an elapsed time is not the number of whole seconds elapsed:
    the microseconds may be negative. *)
Theorem C97_seconds_refuted :
  ~ (forall a b,
       (0 <= useconds a < 1000000)%Z -> (0 <= useconds b < 1000000)%Z ->
       seconds (time_sub a b) =
       (microseconds (seconds (time_sub a b)) (useconds (time_sub a b)) / 1000000)%Z).
Proof.
  intros H. specialize (H (mktime 1 100000) (mktime 0 900000)).
  assert (E : seconds (time_sub (mktime 1 100000) (mktime 0 900000)) =
    (microseconds (seconds (time_sub (mktime 1 100000) (mktime 0 900000)))
                  (useconds (time_sub (mktime 1 100000) (mktime 0 900000))) / 1000000)%Z).
  { apply H; cbn; lia. }
  vm_compute in E. discriminate E.
Qed.

Example C97_nonvacuous :
  findEntry (lit "Name: x" ++ [newline] ++ lit "VmPeak:" ++ [tab] ++ lit " 42 kB" ++ [newline]) (lit "VmPeak:")
  = Ok (lit "42 kB") /\
  (exists s, Exists (fun l => (40240 <= N.of_nat (List.length l))%N) (text_lines s)) /\
  update 5 [] (Some (lit "a" ++ [newline] ++ lit "b")) = Ok (lit "a" ++ [newline] ++ lit "b" ++ [newline]).
Proof.
  split; [reflexivity|]. split; [|reflexivity].
  exists (repeat "a"%char (N.to_nat 40240)).
  assert (~ In newline (repeat "a"%char (N.to_nat 40240))) as Hn.
  { intros Hi. apply repeat_spec in Hi. discriminate Hi. }
  destruct (text_lines_cases (repeat "a"%char (N.to_nat 40240))) as [[_ E]|(l & s' & _ & E & _)].
  - rewrite E. constructor. rewrite repeat_length. lia.
  - exfalso. apply Hn. rewrite E. apply in_or_app. right. left. reflexivity.
Qed.

Print Assumptions C96_line.
Print Assumptions C96_silent_partial.
Print Assumptions C96_silent_refuted.
Print Assumptions C96_message.
Print Assumptions C96_reused_partial.
Print Assumptions C96_reused_refuted.
Print Assumptions C96_record.
Print Assumptions C96_record_said.
Print Assumptions C96_record_refuted.
Print Assumptions C96_format_partial.
Print Assumptions C96_format_refuted.
Print Assumptions C96_profile.
Print Assumptions C97_update_partial.
Print Assumptions C97_update_refuted.
Print Assumptions C97_text_lines.
Print Assumptions C97_entry_partial.
Print Assumptions C97_absent.
Print Assumptions C97_entry_refuted.
Print Assumptions C97_time.
Print Assumptions C97_millis_refuted.
Print Assumptions C97_seconds_refuted.
