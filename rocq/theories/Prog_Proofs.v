From Coq Require Import Ascii String QArith Lia.
From Verif Require Import Prelude Str_Model Prog_Model Prog_Spec.
Import List.
Local Open Scope nat_scope.

Lemma lit_app a b : lit (a ++ b) = lit a ++ lit b.
Proof. induction a; cbn; [reflexivity|]. f_equal. exact IHa. Qed.

Lemma line_eq i t s : (prefixText i t ++ s) ++ nl = progress_line (caller i) t s.
Proof.
  unfold prefixText, progress_line, nl, newline, text.
  change (list_ascii_of_string) with lit.
  rewrite <- !app_assoc. reflexivity.
Qed.

Lemma write_empty t : ostr_write ostr_empty t = mkostr t (List.length t).
Proof.
  unfold ostr_write; cbn. rewrite skipn_nil, app_nil_r. reflexivity.
Qed.

Lemma write_end b t : ostr_write (mkostr b (List.length b)) t = mkostr (b ++ t) (List.length (b ++ t)).
Proof.
  unfold ostr_write; cbn. rewrite firstn_all, skipn_all2 by lia.
  rewrite app_nil_r, app_length. reflexivity.
Qed.

Lemma write_over b t : List.length b <= List.length t -> ostr_write (mkostr b 0) t = mkostr t (List.length t).
Proof.
  intros H. unfold ostr_write; cbn. rewrite skipn_all2 by lia. rewrite app_nil_r. reflexivity.
Qed.

(** Speaking: the indicator of the first thread of the first process. *)
Definition speaks (i : ind) : bool := (thread i =? 0) && (rank i =? 0).

Lemma printline_speaks i s t1 t2 w :
  speaks i = true ->
  printline i s t1 t2 w =
  (let w1 := mkworld (scr w ++ progress_line (caller i) t1 s) (prefixFmt (scrfmt w))
               (log w) (logfmt w) (active w) (files w) in
   if active w then
     mkworld (scr w1) (scrfmt w1)
       (ostr_write (ostr_write (ostr_write (log w) (prefixText i t2)) s) nl)
       (prefixFmt (logfmt w)) (active w) (files w)
   else w1).
Proof.
  unfold speaks. intros H. apply andb_prop in H. destruct H as [H1 H2].
  unfold printline. rewrite H1, H2. cbv zeta.
  rewrite <- line_eq. unfold prefixScr, prefixLog, logOut, setLog, scrOut. cbn [negb active scr scrfmt log logfmt files].
  rewrite <- !app_assoc. destruct (active w); reflexivity.
Qed.

Lemma printline_silent i s t1 t2 w : speaks i = false -> printline i s t1 t2 w = w.
Proof.
  unfold speaks, printline. destruct (thread i =? 0); cbn; [|reflexivity].
  intros ->. reflexivity.
Qed.

(** The log while it is written at its end. *)
Definition log_at_end (w : world) : Prop := opos (log w) = List.length (obuf (log w)).

Lemma log_eta w : log_at_end w -> log w = mkostr (obuf (log w)) (List.length (obuf (log w))).
Proof. unfold log_at_end. destruct (log w) as [b p]; cbn. intros ->. reflexivity. Qed.

Lemma printline_log i s t1 t2 w :
  speaks i = true -> active w = true -> log_at_end w ->
  log (printline i s t1 t2 w) =
    mkostr (obuf (log w) ++ progress_line (caller i) t2 s)
           (List.length (obuf (log w) ++ progress_line (caller i) t2 s)).
Proof.
  intros Hs Ha Hl. rewrite printline_speaks by assumption. cbv zeta. rewrite Ha. cbn.
  rewrite (log_eta w Hl), !write_end. cbn.
  rewrite <- line_eq, <- !app_assoc. reflexivity.
Qed.

(** One line said by an indicator. *)
Definition said : Type := (ind * list ascii * list ascii * list ascii)%type.

Definition say (w : world) (c : said) : world :=
  let '(i, s, t1, t2) := c in printline i s t1 t2 w.

Definition line1 (c : said) : list ascii :=
  let '(i, s, t1, t2) := c in if speaks i then progress_line (caller i) t1 s else [].
Definition line2 (c : said) : list ascii :=
  let '(i, s, t1, t2) := c in if speaks i then progress_line (caller i) t2 s else [].

Lemma say_all cs : forall w,
  active w = true -> log_at_end w ->
  let w' := fold_left say cs w in
  scr w' = scr w ++ flat_map line1 cs /\ active w' = true /\ files w' = files w /\
  log_at_end w' /\ obuf (log w') = obuf (log w) ++ flat_map line2 cs.
Proof.
  induction cs as [|[[[i s] t1] t2] cs IH]; intros w Ha Hl; cbn.
  - rewrite !app_nil_r. auto.
  - destruct (speaks i) eqn:Hs.
    + pose proof (printline_speaks i s t1 t2 w Hs) as E. cbv zeta in E. rewrite Ha in E. cbn in E.
      pose proof (printline_log i s t1 t2 w Hs Ha Hl) as EL.
      specialize (IH (printline i s t1 t2 w)).
      destruct IH as (I1 & I2 & I3 & I4 & I5).
      { rewrite E. reflexivity. }
      { unfold log_at_end. rewrite EL. reflexivity. }
      rewrite I1, I3, I5, EL. split; [rewrite E; cbn; rewrite <- app_assoc; reflexivity|].
      split; [assumption|]. split; [rewrite E; reflexivity|]. split; [assumption|].
      cbn. rewrite <- app_assoc. reflexivity.
    + rewrite printline_silent by assumption. cbn. apply IH; assumption.
Qed.

(** Messages written one after another to the same stream. *)
Fixpoint reuse (i : ind) (m : ostr) (ms : list (list ascii)) (t : list ascii) (w : world) : world :=
  match ms with
  | [] => w
  | x :: ms' => let '(m, w) := printlineMsg i (ostr_write m x) t t w in reuse i m ms' t w
  end.

Lemma printlineMsg_speaks i m t1 t2 w :
  speaks i = true ->
  fst (printlineMsg i m t1 t2 w) = mkostr (obuf m) 0 /\
  snd (printlineMsg i m t1 t2 w) = printline i (obuf m) t1 t2 w.
Proof.
  unfold speaks. intros H. apply andb_prop in H. destruct H as [H1 H2].
  unfold printlineMsg, printline. rewrite H1, H2. cbn. destruct (active w); cbn; auto.
Qed.

Lemma printlineMsg_silent i m t1 t2 w :
  speaks i = false -> printlineMsg i m t1 t2 w = (m, w).
Proof.
  unfold speaks, printlineMsg. destruct (thread i =? 0); cbn; [|reflexivity].
  intros ->. reflexivity.
Qed.

Fixpoint ascending (n : nat) (ms : list (list ascii)) : Prop :=
  match ms with
  | [] => True
  | x :: ms' => n <= List.length x /\ ascending (List.length x) ms'
  end.

Lemma reuse_lines i t ms : speaks i = true -> forall b w,
  ascending (List.length b) ms ->
  scr (reuse i (mkostr b 0) ms t w) = scr w ++ flat_map (progress_line (caller i) t) ms.
Proof.
  intros Hs. induction ms as [|x ms IH]; intros b w H; cbn [reuse flat_map].
  - rewrite app_nil_r. reflexivity.
  - destruct H as [H1 H2]. rewrite write_over by assumption.
    destruct (printlineMsg_speaks i (mkostr x (List.length x)) t t w Hs) as [E1 E2].
    destruct (printlineMsg i (mkostr x (List.length x)) t t w) as [m w'].
    cbn in E1, E2. subst m w'. rewrite IH by assumption.
    rewrite printline_speaks by assumption. cbv zeta.
    destruct (active w); cbn; rewrite <- app_assoc; reflexivity.
Qed.

(** Ending a profile. *)
Lemma killIt_dead i m t1 t2 w : killIt i m t1 t2 (true, w) = (true, w).
Proof. reflexivity. Qed.

Lemma kill_all_dead i ms t1 t2 w :
  fold_left (fun dw m => killIt i m t1 t2 dw) ms (true, w) = (true, w).
Proof. induction ms; [reflexivity|]. cbn [fold_left]. rewrite killIt_dead. exact IHms. Qed.

Lemma profileLife_eq i a ends t1 t2 w :
  profileLife i a ends t1 t2 w =
  printline i (lit "stopping clock " ++ match ends with [] => [] | m :: _ => m end) t1 t2
    (printline i (lit "starting clock " ++ a) t1 t2 w).
Proof.
  assert (H : forall m w, snd (printlineMsg i m t1 t2 w) = printline i (obuf m) t1 t2 w).
  { intros m w0. destruct (speaks i) eqn:Hs.
    - apply printlineMsg_speaks. assumption.
    - rewrite printlineMsg_silent, printline_silent by assumption. reflexivity. }
  unfold profileLife, newProfiling.
  rewrite !write_empty, write_end, H. cbn [obuf].
  assert (K : forall m w0, killIt i m t1 t2 (false, w0) =
                (true, printline i (lit "stopping clock " ++ m) t1 t2 w0)).
  { intros m w0. unfold killIt. rewrite write_empty, write_end, H. reflexivity. }
  destruct ends as [|m ms]; cbn [fold_left].
  - rewrite K. cbn [snd]. reflexivity.
  - rewrite K, kill_all_dead, killIt_dead. reflexivity.
Qed.

(** ---------- MemoryUsage ---------- *)

Definition nlc : ascii := ascii_of_nat 10.

Lemma getline_loop_line l : forall s room acc,
  ~ In nlc l -> (N.of_nat (List.length l) <= room)%N ->
  getline_loop room acc (l ++ nlc :: s) = (acc ++ l, mkifs s false false).
Proof.
  induction l as [|c l IH]; intros s room acc Hn Hr; cbn [app getline_loop].
  - change (Ascii.eqb nlc (ascii_of_nat 10)) with true. cbn. rewrite app_nil_r. reflexivity.
  - destruct (Ascii.eqb_spec c (ascii_of_nat 10)) as [->|_].
    + exfalso. apply Hn. left. reflexivity.
    + cbn [List.length] in Hr. destruct (N.eqb_spec room 0) as [->|_]; [lia|].
      rewrite IH; [rewrite <- app_assoc; reflexivity| |lia].
      intros Hi. apply Hn. right. exact Hi.
Qed.

Lemma getline_loop_last l : forall room acc,
  ~ In nlc l -> (N.of_nat (List.length l) <= room)%N ->
  fst (getline_loop room acc l) = acc ++ l /\ eofbit (snd (getline_loop room acc l)) = true.
Proof.
  induction l as [|c l IH]; intros room acc Hn Hr; cbn [getline_loop].
  - rewrite app_nil_r. auto.
  - destruct (Ascii.eqb_spec c (ascii_of_nat 10)) as [->|_].
    + exfalso. apply Hn. left. reflexivity.
    + cbn [List.length] in Hr. destruct (N.eqb_spec room 0) as [->|_]; [lia|].
      destruct (IH (room - 1)%N (acc ++ [c])) as [E1 E2]; [|lia|].
      { intros Hi. apply Hn. right. exact Hi. }
      rewrite E1, E2, <- app_assoc. auto.
Qed.

Lemma getline_loop_long l : forall s room acc,
  ~ In nlc l -> (room < N.of_nat (List.length l))%N ->
  let f := snd (getline_loop room acc (l ++ s)) in eofbit f = false /\ failbit f = true.
Proof.
  induction l as [|c l IH]; intros s room acc Hn Hr; cbn [app getline_loop].
  - cbn in Hr. lia.
  - destruct (Ascii.eqb_spec c (ascii_of_nat 10)) as [->|_].
    + exfalso. apply Hn. left. reflexivity.
    + cbn [List.length] in Hr. destruct (N.eqb_spec room 0) as [->|Hn0]; [auto|].
      apply IH; [|lia]. intros Hi. apply Hn. right. exact Hi.
Qed.

Lemma cstr_id s : ~ In (ascii_of_nat 0) s -> cstr s = s.
Proof.
  induction s as [|c s IH]; intros H; [reflexivity|]. cbn [cstr].
  destruct (Ascii.eqb_spec c (ascii_of_nat 0)) as [->|_].
  - exfalso. apply H. left. reflexivity.
  - rewrite IH; [reflexivity|]. intros Hi. apply H. right. exact Hi.
Qed.

Lemma text_lines_nonempty s : text_lines s <> [].
Proof.
  destruct s as [|c s]; cbn [text_lines]; [discriminate|]. destruct (Ascii.eqb c newline); [discriminate|].
  destruct (text_lines s); discriminate.
Qed.

(** A text is one line, or a line, a newline and a text of fewer lines. *)
Lemma text_lines_cases s :
  (~ In newline s /\ text_lines s = [s]) \/
  (exists l s', ~ In newline l /\ s = l ++ newline :: s' /\ text_lines s = l :: text_lines s').
Proof.
  induction s as [|c s IH].
  - left. auto.
  - cbn [text_lines]. destruct (Ascii.eqb_spec c newline) as [->|Hc].
    + right. exists [], s. auto.
    + destruct IH as [[H1 H2]|(l & s' & H1 & H2 & H3)].
      * left. rewrite H2. split; [|reflexivity]. intros [E|E]; [congruence|auto].
      * right. exists (c :: l), s'. rewrite H3. split.
        { intros [E|E]; [congruence|auto]. }
        split; [rewrite H2; reflexivity|reflexivity].
Qed.

Lemma not_in_app_l {A} (x : A) a b : ~ In x (a ++ b) -> ~ In x a.
Proof. intros H Hi. apply H, in_or_app. auto. Qed.
Lemma not_in_app_r {A} (x : A) a b : ~ In x (a ++ b) -> ~ In x b.
Proof. intros H Hi. apply H, in_or_app. auto. Qed.

Lemma update_loop_ok fuel : forall data s,
  List.length (text_lines s) <= fuel ->
  ~ In (ascii_of_nat 0) s ->
  Forall (fun l => (N.of_nat (List.length l) < MY_MAX_LINE)%N) (text_lines s) ->
  update_loop fuel data (mkifs s false false) = Ok (data ++ s ++ nl).
Proof.
  induction fuel as [|fuel IH]; intros data s Hf H0 Hl.
  - pose proof (text_lines_nonempty s). destruct (text_lines s); [congruence|cbn in Hf; lia].
  - cbn [update_loop eofbit]. unfold getline. cbn [eofbit failbit orb rest].
    destruct (text_lines_cases s) as [[H1 H2]|(l & s' & H1 & H2 & H3)].
    + rewrite H2 in Hl. inversion Hl as [|? ? Hl1 _]; subst.
      destruct (getline_loop_last s (MY_MAX_LINE - 1) [] H1) as [E1 E2]; [unfold MY_MAX_LINE in *; lia|].
      destruct (getline_loop (MY_MAX_LINE - 1) [] s) as [tmp f]. cbn in E1, E2. subst tmp.
      rewrite cstr_id by assumption.
      destruct fuel; cbn [update_loop]; rewrite E2; reflexivity.
    + rewrite H3 in Hl, Hf. inversion Hl as [|? ? Hl1 Hl2]; subst.
      change newline with nlc in *.
      rewrite getline_loop_line; [|assumption|unfold MY_MAX_LINE in *; lia].
      cbn [app]. apply not_in_app_l in H0 as H0l. apply not_in_app_r in H0 as H0r.
      rewrite cstr_id by assumption. rewrite IH.
      * rewrite <- !app_assoc. reflexivity.
      * cbn in Hf. lia.
      * intros Hi. apply H0r. right. exact Hi.
      * assumption.
Qed.

Lemma update_loop_failed fuel : forall data f,
  eofbit f = false -> failbit f = true -> update_loop fuel data f = OutOfFuel.
Proof.
  induction fuel as [|fuel IH]; intros data f He Hf; cbn [update_loop]; rewrite He; [reflexivity|].
  unfold getline. rewrite He, Hf. cbn [orb]. apply IH; reflexivity.
Qed.

Lemma update_loop_long fuel : forall data s,
  Exists (fun l => (MY_MAX_LINE <= N.of_nat (List.length l))%N) (text_lines s) ->
  update_loop fuel data (mkifs s false false) = OutOfFuel.
Proof.
  induction fuel as [|fuel IH]; intros data s H.
  - reflexivity.
  - cbn [update_loop eofbit]. unfold getline. cbn [eofbit failbit orb rest].
    destruct (text_lines_cases s) as [[H1 H2]|(l & s' & H1 & H2 & H3)].
    + rewrite H2 in H. inversion H as [? ? Hx|? ? Hx]; subst; [|inversion Hx].
      destruct (getline_loop_long s [] (MY_MAX_LINE - 1) [] H1) as [E1 E2]; [unfold MY_MAX_LINE in *; lia|].
      rewrite app_nil_r in E1, E2.
      destruct (getline_loop (MY_MAX_LINE - 1) [] s) as [tmp f]. cbn in E1, E2.
      apply update_loop_failed; assumption.
    + rewrite H3 in H. subst s. change newline with nlc in *.
      destruct (N.lt_ge_cases (N.of_nat (List.length l)) MY_MAX_LINE) as [Hl|Hl].
      * rewrite getline_loop_line; [|assumption|unfold MY_MAX_LINE in *; lia].
        apply IH. inversion H as [? ? Hx|? ? Hx]; subst; [lia|exact Hx].
      * destruct (getline_loop_long l (nlc :: s') (MY_MAX_LINE - 1) [] H1) as [E1 E2]; [unfold MY_MAX_LINE in *; lia|].
        destruct (getline_loop (MY_MAX_LINE - 1) [] (l ++ nlc :: s')) as [tmp f]. cbn in E1, E2.
        apply update_loop_failed; assumption.
Qed.

(** str_find *)
Lemma prefixb_spec p : forall s, prefixb p s = true <-> exists t, s = p ++ t.
Proof.
  induction p as [|x p IH]; intros s; cbn.
  - split; eauto.
  - destruct s as [|y s].
    + split; [discriminate|intros [t E]; discriminate].
    + rewrite andb_true_iff, Ascii.eqb_eq, IH. split.
      * intros [-> [t ->]]. eauto.
      * intros [t E]. injection E as -> ->. eauto.
Qed.

Lemma find_sub_first p : forall s k, find_sub p s = Some k ->
  exists pre post, s = pre ++ p ++ post /\ List.length pre = k /\
  (forall pre' post', s = pre' ++ p ++ post' -> k <= List.length pre').
Proof.
  induction s as [|c s IH]; intros k H; cbn [find_sub] in H.
  - destruct (prefixb p []) eqn:E; [|discriminate]. injection H as <-.
    apply prefixb_spec in E. destruct E as [t E]. exists [], t. repeat split; auto. intros; lia.
  - destruct (prefixb p (c :: s)) eqn:E.
    + injection H as <-. apply prefixb_spec in E. destruct E as [t E]. exists [], t.
      repeat split; auto. intros; lia.
    + destruct (find_sub p s) as [j|] eqn:F; [|discriminate]. injection H as <-.
      destruct (IH _ eq_refl) as (pre & post & -> & H2 & H3).
      exists (c :: pre), post. split; [reflexivity|]. split; [cbn; lia|].
      intros pre' post' Ep. destruct pre' as [|c' pre'].
      * exfalso. enough (true = false) by discriminate. rewrite <- E. symmetry.
        apply prefixb_spec. exists post'. exact Ep.
      * injection Ep as <- Ep. cbn. apply le_n_S. eapply H3. exact Ep.
Qed.

Lemma find_sub_none p : forall s pre post, find_sub p s = None -> s <> pre ++ p ++ post.
Proof.
  induction s as [|c s IH]; intros pre post H E; cbn [find_sub] in H.
  - destruct (prefixb p []) eqn:F; [discriminate|].
    destruct pre; [|discriminate]. enough (true = false) by discriminate. rewrite <- F. symmetry.
    apply prefixb_spec. exists post. exact E.
  - destruct (prefixb p (c :: s)) eqn:F; [discriminate|].
    destruct (find_sub p s) eqn:G; [discriminate|].
    destruct pre as [|c' pre].
    + enough (true = false) by discriminate. rewrite <- F. symmetry.
      apply prefixb_spec. exists post. exact E.
    + injection E as <- E. eapply IH; eauto.
Qed.

Lemma skip_blanks_spec s : forall x,
  (exists b c e, s = b ++ c :: e /\ Forall is_blank b /\ ~ is_blank c /\
                 skip_blanks s x = x + List.length b + 1) \/
  (Forall is_blank s /\ skip_blanks s x = x + List.length s).
Proof.
  induction s as [|c s IH]; intros x; cbn [skip_blanks].
  - right. split; [constructor|cbn; lia].
  - assert (B : (Ascii.eqb c " "%char || Ascii.eqb c (ascii_of_nat 9)) = true <-> is_blank c).
    { rewrite orb_true_iff, !Ascii.eqb_eq. reflexivity. }
    destruct (Ascii.eqb c " "%char || Ascii.eqb c (ascii_of_nat 9)) eqn:E.
    + destruct (IH (S x)) as [(b & c' & e & H1 & H2 & H3 & H4)|[H1 H2]].
      * left. exists (c :: b), c', e. subst s. split; [reflexivity|].
        split; [constructor; [apply B; reflexivity|assumption]|]. split; [assumption|].
        rewrite H4. cbn. lia.
      * right. split; [constructor; [apply B; reflexivity|assumption]|]. rewrite H2. cbn. lia.
    + left. exists [], c, s. split; [reflexivity|]. split; [constructor|].
      split; [intros Hb; apply B in Hb; discriminate|]. cbn. lia.
Qed.

Lemma line_len data pre label post l :
  data = pre ++ label ++ post ->
  line_start post l ->
  let x := List.length pre + List.length label in
  substr data x (Some (match str_find data nl x with Some y => y - x | None => List.length data - x end))
  = Ok l.
Proof.
  intros E [Hn Hl] x.
  assert (Ex : data = (pre ++ label) ++ post) by (rewrite E, app_assoc; reflexivity).
  assert (Lx : x = List.length (pre ++ label)) by (unfold x; rewrite app_length; reflexivity).
  assert (Sk : skipn x data = post).
  { rewrite Ex, Lx, skipn_app, skipn_all2, Nat.sub_diag by lia. reflexivity. }
  assert (Ld : List.length data = x + List.length post) by (rewrite Ex, app_length, <- Lx; reflexivity).
  unfold substr, str_find. destruct (Nat.ltb_spec (List.length data) x); [lia|].
  rewrite Sk. f_equal.
  destruct Hl as [->|[q ->]].
  - destruct (find_sub nl l) as [k|] eqn:F.
    + exfalso. apply find_sub_first in F. destruct F as (a & b & -> & _). apply Hn.
      apply in_or_app. right. left. reflexivity.
    + cbn [option_map]. rewrite firstn_all2 by lia. reflexivity.
  - destruct (find_sub nl (l ++ newline :: q)) as [k|] eqn:F.
    + apply find_sub_first in F. destruct F as (a & b & F1 & F2 & F3).
      cbn [option_map]. assert (k = List.length l).
      { assert (k <= List.length l) by (apply (F3 l q); reflexivity).
        destruct (Nat.eq_dec k (List.length l)) as [|Hk]; [assumption|exfalso].
        apply Hn. assert (nth_error (l ++ newline :: q) k = Some newline).
        { rewrite F1, nth_error_app2 by lia. rewrite F2, Nat.sub_diag. reflexivity. }
        rewrite nth_error_app1 in H1 by lia. apply nth_error_In in H1. exact H1. }
      subst k. replace (x + _ - x) with (List.length l) by lia.
      rewrite firstn_app, firstn_all, Nat.sub_diag. cbn. rewrite app_nil_r. reflexivity.
    + exfalso. apply (find_sub_none _ _ l q F). reflexivity.
Qed.
