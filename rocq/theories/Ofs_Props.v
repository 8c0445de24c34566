(** Theorems about files that are written (C108) and the redirected standard output (C109). *)
From Coq Require Import Ascii String.
From Verif Require Import Prelude Str_Model Str_Proofs Ofs_Model Ofs_Spec Ofs_Proofs.
Import List.

(** Whatever is done with the object that returns: once it is gone, the files are as if every text had been on the disk at
    once, and until then what is on the disk is the beginning of that, whenever the buffer was handed over. *)
Theorem C108_files : forall can d fn ops w0 w, real_names fn ops ->
  out_file can d 0 fn = Done w0 -> run can w0 ops = Done w ->
  let goal := direct None d (AOpen fn true :: flat_map asked ops) in
  (forall n, out_end w n = goal n) /\ (forall n, exists rest, goal n = w_disk w n ++ rest).
Proof.
  intros can d fn ops w0 w [N1 N2] E0 E. cbv zeta. pose proof (R_new can d fn w0 N1 E0) as HR.
  destruct (run_direct can ops w0 _ _ w HR N2 E) as (cur & D & HR' & HD). destruct (R_end w cur D HR') as [G1 G2].
  assert (Q : forall n, D n = direct None d (AOpen fn true :: flat_map asked ops) n) by (intros n; rewrite HD; cbn [direct]; apply direct_ext; reflexivity).
  split; intros n; [rewrite G1; apply Q|]. destruct (G2 n) as (t & Ht). exists t. rewrite <- Q. exact Ht.
Qed.
Print Assumptions C108_files.

(** Nothing is refused if files are opened one after the other, closed before the next, and can be opened. *)
Theorem C108_returns : forall can d fn ops, real_names fn ops -> proper can None (AOpen fn true :: flat_map asked ops) ->
  exists w0 w, out_file can d 0 fn = Done w0 /\ run can w0 ops = Done w.
Proof.
  intros can d fn ops [N1 N2] [Hc Hp]. assert (E : exists w0, out_file can d 0 fn = Done w0).
  { unfold out_file, ofs_open. cbn [Nat.eqb negb ofs_new s_buf b_file]. rewrite Hc. eexists; reflexivity. }
  destruct E as (w0 & E). destruct (run_proper can ops w0 _ _ (R_new can d fn w0 N1 E) N2 Hp) as (w & Hw). eauto.
Qed.
Print Assumptions C108_returns.
(** A file that cannot be opened is refused. *)
Theorem C108_refused : forall can d fn, can fn = false -> exists w, out_file can d 0 fn = Refused w.
Proof. intros can d fn H. unfold out_file, ofs_open. cbn [Nat.eqb negb ofs_new s_buf b_file]. rewrite H. eexists; reflexivity. Qed.
Print Assumptions C108_refused.

(** The processes other than the first write nothing and create no file, as long as no number is written and the
    file is not closed... *)
Theorem C108_ranks_partial : forall can d rank fn ops, rank <> 0 ->
  (forall p, In p ops -> p <> OClose /\ forall label x, p <> ONumber label x) ->
  exists w0 w, out_file can d rank fn = Done w0 /\ run can w0 ops = Done w /\ w_disk w = d /\ out_end w = d.
Proof.
  intros can d rank fn ops Hr H. unfold out_file. destruct (Nat.eqb_spec rank 0) as [|_]; [lia|]. cbn [negb].
  exists (mkworld d (mkout rank fn Null)), (mkworld d (mkout rank fn Null)). split; [reflexivity|]. split.
  - induction ops as [|p ops IH]; [reflexivity|]. cbn [run].
    assert (E : step can (mkworld d (mkout rank fn Null)) p = Done (mkworld d (mkout rank fn Null))).
    { destruct (H p (or_introl eq_refl)) as [H1 H2]. apply Nat.eqb_neq in Hr. unfold step. cbn [w_out o_rank o_sink]. rewrite Hr. cbn [negb].
      destruct p; try congruence; try reflexivity. }
    rewrite E. apply IH. intros q Hq. apply H. right. auto.
  - split; [reflexivity|]. unfold out_end. cbn [w_out o_rank]. apply Nat.eqb_neq in Hr. rewrite Hr. reflexivity.
Qed.
Print Assumptions C108_ranks_partial.
(** ... these two go through a null pointer. *)
Theorem C108_ranks_refuted : forall can d rank fn w label x, rank <> 0 -> fn <> lit "OSTREAM" -> out_file can d rank fn = Done w ->
  step can w (ONumber label x) = Undefined /\ step can w OClose = Undefined.
Proof.
  intros can d rank fn w label x Hr Hn E. unfold out_file in E. apply Nat.eqb_neq in Hr. rewrite Hr in E. injection E as <-. split; [reflexivity|].
  unfold step. cbn [w_out o_name o_sink]. destruct (eqb_spec fn ostream_name); [contradiction|reflexivity].
Qed.
Print Assumptions C108_ranks_refuted.

Definition only_text (p : op) : Prop := match p with OLine _ | ONumber _ _ | OPut _ => True | _ => False end.
Lemma lost can l : (forall p, In p l -> only_text p) -> forall d name f, s_fail f = true ->
  run can (mkworld d (mkout 0 name (Own f))) l = Done (mkworld d (mkout 0 name (Own f))).
Proof.
  intros H d name f Hf. induction l as [|p l IH]; [reflexivity|]. cbn [run].
  assert (E : step can (mkworld d (mkout 0 name (Own f))) p = Done (mkworld d (mkout 0 name (Own f)))).
  { specialize (H p (or_introl eq_refl)). destruct p; try contradiction; unfold step, o_put, ofs_put; cbn [w_out o_rank o_sink Nat.eqb negb w_disk o_name]; rewrite Hf; reflexivity. }
  rewrite E. apply IH. intros q Hq. apply H. right. auto.
Qed.
(** An attempt to open another file while one is open is refused; but from then on all lines and numbers are lost, without
    an error. *)
Theorem C108_reopen_refuted : forall can d fn n trunc w l, fn <> lit "OSTREAM" -> out_file can d 0 fn = Done w -> (forall p, In p l -> only_text p) ->
  exists w', step can w (OOpen n trunc) = Refused w' /\ run can w' l = Done w' /\
    (n <> lit "OSTREAM" -> forall m, out_end w' m = if str_eqb m fn then [] else d m).
Proof.
  intros can d fn n trunc w l Hn E Hl. unfold out_file, ofs_open in E. cbn [Nat.eqb negb ofs_new s_buf b_file] in E. destruct (can fn); [|discriminate].
  cbn [s_fail] in E. injection E as <-. unfold step. cbn [w_out o_rank o_name o_sink Nat.eqb negb]. destruct (eqb_spec fn ostream_name); [contradiction|].
  unfold ofs_open. cbn [s_buf b_file s_fail]. eexists. split; [reflexivity|]. split; [apply lost; auto|]. intros Nn m.
  unfold out_end. cbn [w_out o_rank o_name o_sink Nat.eqb negb w_disk]. destruct (eqb_spec n ostream_name); [contradiction|].
  unfold ofs_close, b_sync. cbn [s_buf b_file snd b_pend]. unfold put_file. rewrite str_eqb_refl. destruct (str_eqb m fn); reflexivity.
Qed.
Print Assumptions C108_reopen_refuted.
(** Lines written after close are lost without an error. *)
Theorem C108_closed_refuted : forall can d fn w l, fn <> lit "OSTREAM" -> out_file can d 0 fn = Done w -> (forall p, In p l -> only_text p) ->
  exists w', run can w (OClose :: l) = Done w' /\ forall m, w_disk w' m = if str_eqb m fn then [] else d m.
Proof.
  intros can d fn w l Hn E Hl. unfold out_file, ofs_open in E. cbn [Nat.eqb negb ofs_new s_buf b_file] in E. destruct (can fn); [|discriminate].
  cbn [s_fail] in E. injection E as <-. cbn [run]. unfold step at 1. cbn [w_out o_rank o_name o_sink Nat.eqb negb]. destruct (eqb_spec fn ostream_name); [contradiction|].
  unfold ofs_close, b_sync. cbn [s_buf b_file b_pend s_fail w_disk].
  destruct l as [|p l].
  - eexists. split; [reflexivity|]. intros m. cbn [w_disk]. unfold put_file. rewrite str_eqb_refl. destruct (str_eqb m fn); reflexivity.
  - cbn [run]. assert (X : forall dd, step can (mkworld dd (mkout 0 fn (Own (mkofs (mkfbuf None []) false)))) p = Done (mkworld dd (mkout 0 fn (Own (mkofs (mkfbuf None []) true))))).
    { intros dd. specialize (Hl p (or_introl eq_refl)). destruct p; try contradiction; reflexivity. }
    rewrite X, lost by (auto; intros q Hq; apply Hl; right; auto). eexists. split; [reflexivity|]. intros m. cbn [w_disk]. unfold put_file. rewrite str_eqb_refl. destruct (str_eqb m fn); reflexivity.
Qed.
Print Assumptions C108_closed_refuted.
(** A file that is called OSTREAM is taken for a stream of somebody else: it is not closed, and what is still in the buffer
    at the end is lost. *)
Theorem C108_name_refuted : forall can d l w, can (lit "OSTREAM") = true -> (forall p, In p l -> only_text p) ->
  out_file can d 0 (lit "OSTREAM") = Done w -> exists w', run can w l = Done w' /\ out_end w' (lit "OSTREAM") = [].
Proof.
  intros can d l w Hc Hl E. unfold out_file, ofs_open in E. cbn [Nat.eqb negb ofs_new s_buf b_file] in E. rewrite Hc in E. cbn [s_fail] in E. injection E as <-.
  cut (forall pend, exists w', run can (mkworld (put_file d (lit "OSTREAM") []) (mkout 0 (lit "OSTREAM") (Own (mkofs (mkfbuf (Some (lit "OSTREAM")) pend) false)))) l = Done w' /\ out_end w' (lit "OSTREAM") = []); [auto|].
  induction l as [|p l IH]; intros pend.
  - eexists. split; [reflexivity|]. unfold out_end. cbn [w_out o_rank o_name Nat.eqb negb]. unfold ostream_name. rewrite str_eqb_refl. cbn [w_disk]. unfold put_file. rewrite str_eqb_refl. reflexivity.
  - cbn [run]. assert (X : exists pend', step can (mkworld (put_file d (lit "OSTREAM") []) (mkout 0 (lit "OSTREAM") (Own (mkofs (mkfbuf (Some (lit "OSTREAM")) pend) false)))) p =
      Done (mkworld (put_file d (lit "OSTREAM") []) (mkout 0 (lit "OSTREAM") (Own (mkofs (mkfbuf (Some (lit "OSTREAM")) pend') false))))).
    { specialize (Hl p (or_introl eq_refl)). destruct p; try contradiction; eexists; reflexivity. }
    destruct X as (pend' & ->). apply IH. intros q Hq. apply Hl. right. auto.
Qed.
Print Assumptions C108_name_refuted.
(** An object without a file cannot be written to. *)
Theorem C108_no_file_refuted : forall can d s, step can (out_default d) (OLine s) = Undefined.
Proof. reflexivity. Qed.
Print Assumptions C108_no_file_refuted.

(** The texts that are asked for *)
Definition texts (l : list op) : str := flat_map (fun p => flat_map (fun a => match a with AText s => s | _ => [] end) (asked p)) l.
(** What is written to an object of a stream of somebody else goes to that stream, at once and in order, and no file is
    changed; opening and closing are refused and change nothing. *)
Theorem C108_stream : forall can d ops, (forall p, In p ops -> p <> OClose /\ forall n trunc, p <> OOpen n trunc) ->
  exists w, run can (out_os d) ops = Done w /\ o_sink (w_out w) = Ext (texts ops) /\ w_disk w = d /\ out_end w = d /\
    step can w OClose = Refused w /\ forall n trunc, step can w (OOpen n trunc) = Refused w.
Proof.
  intros can d ops H. exists (mkworld d (mkout 0 ostream_name (Ext (texts ops)))). split; [|repeat split; reflexivity]. unfold out_os.
  change (texts ops) with ([] ++ texts ops). generalize (@nil ascii) as t. revert H. induction ops as [|p ops IH]; intros H t.
  - cbn [run]. unfold texts. cbn [flat_map]. rewrite app_nil_r. reflexivity.
  - cbn [run]. destruct (H p (or_introl eq_refl)) as [H1 H2].
    assert (E : step can (mkworld d (mkout 0 ostream_name (Ext t))) p = Done (mkworld d (mkout 0 ostream_name (Ext (t ++ texts [p]))))).
    { destruct p as [n trunc| |s|label x|label x|s|k]; try (exfalso; eapply H2; reflexivity); try (exfalso; apply H1; reflexivity);
        unfold texts; cbn [flat_map asked]; rewrite ?app_nil_r; reflexivity. }
    rewrite E, IH by (intros q Hq; apply H; right; exact Hq). unfold texts. cbn [flat_map]. rewrite app_nil_r, <- app_assoc. reflexivity.
Qed.
Print Assumptions C108_stream.
(** An object without a file can open one later, and is then like one that was made with it, or continues the file. *)
Theorem C108_later : forall can d fn trunc ops, real_names fn ops ->
  (can fn = true <-> exists w0, step can (out_default d) (OOpen fn trunc) = Done w0) /\
  forall w0 w, step can (out_default d) (OOpen fn trunc) = Done w0 -> run can w0 ops = Done w ->
  let goal := direct None d (AOpen fn trunc :: flat_map asked ops) in
  (forall n, out_end w n = goal n) /\ (forall n, exists rest, goal n = w_disk w n ++ rest).
Proof.
  intros can d fn trunc ops [N1 N2].
  assert (S0 : step can (out_default d) (OOpen fn trunc) =
    if can fn then Done (mkworld (if trunc then put_file d fn [] else d) (mkout 0 fn (Own (mkofs (mkfbuf (Some fn) []) false))))
    else Refused (mkworld d (mkout 0 fn (Own (mkofs (mkfbuf None []) true))))).
  { unfold step, out_default, ofs_open. cbn [w_out o_rank o_name o_sink Nat.eqb negb w_disk]. replace (str_eqb [] ostream_name) with false by reflexivity.
    cbn [ofs_new s_buf b_file]. destruct (can fn); reflexivity. }
  rewrite S0. split; [destruct (can fn); split; try congruence; [intros _; eexists; reflexivity|intros (w0 & E); discriminate E]|].
  intros w0 w E0 E. cbv zeta. destruct (can fn); [|discriminate E0]. injection E0 as <-.
  assert (HR : R (mkworld (if trunc then put_file d fn [] else d) (mkout 0 fn (Own (mkofs (mkfbuf (Some fn) []) false)))) (Some fn) (fun m => if str_eqb m fn then (if trunc then [] else d fn) else d m)).
  { split; [reflexivity|]. split; [exact N1|]. eexists. split; [reflexivity|]. cbn [s_buf s_fail b_file w_disk]. split; [reflexivity|]. split; [reflexivity|].
    intros m. unfold full. cbn [b_file b_pend]. unfold put_file. destruct (eqb_spec m fn) as [->|]; destruct trunc; rewrite ?str_eqb_refl, ?app_nil_r; try reflexivity.
    destruct (eqb_spec m fn); [contradiction|reflexivity]. }
  destruct (run_direct can ops _ _ _ w HR N2 E) as (cur & D & HR' & HD). destruct (R_end w cur D HR') as [G1 G2].
  assert (Q : forall n, D n = direct None d (AOpen fn trunc :: flat_map asked ops) n) by (intros n; rewrite HD; reflexivity).
  split; intros n; [rewrite G1; apply Q|]. destruct (G2 n) as (t & Ht). exists t. rewrite <- Q. exact Ht.
Qed.
Print Assumptions C108_later.

(** Two files after each other, the first one continued later *)
Example C108_nonvacuous :
  let can := fun _ : str => true in let a := lit "a.txt" in let b := lit "b.txt" in
  let ops := [OLine (lit "one"); ODrain 2; ONumber (lit "n") (lit "3"); OClose; OOpen b true; OPut (lit "x"); OClose; OOpen a false; OThing (lit "V") (lit "1 2")] in
  real_names a ops /\ proper can None (AOpen a true :: flat_map asked ops) /\
  direct None (fun _ => lit "old") (AOpen a true :: flat_map asked ops) a = lit "one" ++ newline ++ lit "n=3" ++ newline ++ lit "V" ++ newline ++ lit "1 2" ++ newline /\
  direct None (fun _ => lit "old") (AOpen a true :: flat_map asked ops) b = lit "x" /\
  direct None (fun _ => lit "old") (AOpen a true :: flat_map asked ops) (lit "c") = lit "old".
Proof.
  cbv zeta. split.
  - split; [discriminate|]. intros n trunc H. cbn [In] in H. repeat (destruct H as [H|H]; [try discriminate; injection H as <- _; discriminate|]). destruct H.
  - split; [cbn; auto 10|]. repeat split; vm_compute; reflexivity.
Qed.

(** What is written before the first redirection that can be done goes to the terminal, all that is written afterwards to
    the file; when the program ends, it is all there, and the standard output is the terminal again. No other file
    changes. *)
Theorem C109_redirect : forall can d name pre label trunc unbuffered post,
  no_redirect can pre -> can label = true ->
  let w := r_run can (r_start d name) (pre ++ ERedirect label trunc unbuffered :: post) in
  r_term w = said pre /\ r_redirected w = true /\
  r_term (r_exit w) = said pre /\ r_disk (r_exit w) label = (if trunc then [] else d label) ++ said post /\
  (forall n, n <> label -> r_disk (r_exit w) n = d n /\ r_disk w n = d n) /\
  forall s, r_term (r_write s (r_exit w)) = said pre ++ s.
Proof.
  intros can d name pre label trunc unb post Hn Hc. cbv zeta. unfold r_run. rewrite fold_left_app. cbn [fold_left r_step].
  fold (r_run can (r_start d name) pre).
  destruct (phase1 can pre (r_start d name)) as (Q1 & Q2 & Q3 & _); [repeat split|auto|].
  set (w1 := r_run can (r_start d name) pre) in *. cbn [r_start r_disk r_term app] in Q2, Q3.
  destruct (redirect_ok can w1 label trunc unb Q1 Hc) as (_ & R2 & R3 & _ & R5). set (w2 := snd (doIt can label trunc unb w1)) in *.
  fold (r_run can w2 post). destruct (phase2 can label unb post w2 R2) as (S1 & S2 & _ & S4). set (w3 := r_run can w2 post) in *.
  destruct (exit2 label unb w3 S1) as (T1 & T2 & T3).
  assert (Et : r_term w3 = said pre) by congruence. split; [auto|]. split; [apply S1|]. split; [congruence|].
  assert (F : forall m, r_disk (r_exit w3) m = (if str_eqb m label then if trunc then [] else d label else d m) ++ (if str_eqb m label then said post else [])).
  { intros m. rewrite T3, S4, (proj2 (R5 m)), (proj1 (R5 m)), Q2. reflexivity. }
  split; [rewrite F, str_eqb_refl; reflexivity|]. split.
  - intros n Nn. destruct (eqb_spec n label) as [|]; [contradiction|]. split.
    + rewrite F. destruct (eqb_spec n label); [contradiction|]. apply app_nil_r.
    + pose proof (S4 n) as X. rewrite (proj2 (R5 n)), (proj1 (R5 n)), Q2 in X. destruct (eqb_spec n label); [contradiction|]. rewrite app_nil_r in X. rewrite <- X.
      destruct S1 as (_ & Sb & _). unfold full. rewrite Sb. unfold put_file. destruct (eqb_spec n label); [contradiction|reflexivity].
  - intros s. unfold r_write. rewrite T1. cbn [r_term]. rewrite T2, Et. reflexivity.
Qed.
Print Assumptions C109_redirect.
(** If the program is killed at any moment, the file has the beginning of what was written, and all of it if the output is
    unbuffered. *)
Theorem C109_killed : forall can d name pre label trunc unbuffered post,
  no_redirect can pre -> can label = true ->
  let w := r_run can (r_start d name) (pre ++ ERedirect label trunc unbuffered :: post) in
  exists here rest, r_disk w label = (if trunc then [] else d label) ++ here /\ said post = here ++ rest /\ (unbuffered = true -> rest = []).
Proof.
  intros can d name pre label trunc unb post Hn Hc. cbv zeta. unfold r_run. rewrite fold_left_app. cbn [fold_left r_step].
  fold (r_run can (r_start d name) pre).
  destruct (phase1 can pre (r_start d name)) as (Q1 & Q2 & Q3 & _); [repeat split|auto|].
  set (w1 := r_run can (r_start d name) pre) in *. cbn [r_start r_disk r_term app] in Q2, Q3.
  destruct (redirect_ok can w1 label trunc unb Q1 Hc) as (_ & R2 & R3 & _ & R5). set (w2 := snd (doIt can label trunc unb w1)) in *.
  fold (r_run can w2 post).
  assert (G : forall l, exists here, r_disk (r_run can w2 l) label = (if trunc then [] else d label) ++ here /\ said l = here ++ b_pend (s_buf (r_stream (r_run can w2 l)))).
  { intros l. induction l as [|e l IH] using rev_ind.
    - exists []. cbn [r_run fold_left said flat_map]. rewrite app_nil_r, (proj1 (R5 label)), str_eqb_refl, Q2. split; [reflexivity|].
      unfold w2, doIt, ofs_open. destruct Q1 as (_ & Qb & _). rewrite Qb, Hc. reflexivity.
    - unfold r_run in *. rewrite fold_left_app. cbn [fold_left]. destruct IH as (here & I1 & I2). destruct (phase2 can label unb l w2 R2) as (S1 & _). unfold r_run in S1.
      set (w3 := fold_left (r_step can) l w2) in *. destruct S1 as (H1 & H2 & H3 & H4 & H5 & H6 & H7).
      assert (Sa : said (l ++ [e]) = here ++ b_pend (s_buf (r_stream w3)) ++ match e with EWrite s => s | _ => [] end).
      { unfold said in *. rewrite flat_map_app. cbn [flat_map]. rewrite app_nil_r, I2, app_assoc. reflexivity. }
      rewrite Sa. destruct e as [s|lab tr u|k]; cbn [r_step].
      + unfold r_write. rewrite H1, H2. destruct (r_unit w3).
        * exists (here ++ b_pend (s_buf (r_stream w3)) ++ s). unfold b_sync. cbn. unfold put_file. rewrite str_eqb_refl, I1, !app_nil_r, <- !app_assoc. auto.
        * exists here. cbn. auto.
      + exists here. unfold doIt, ofs_open. rewrite H2. cbn. rewrite app_nil_r. auto.
      + exists (here ++ firstn k (b_pend (s_buf (r_stream w3)))). unfold b_drain. rewrite H2. cbn. unfold put_file. rewrite str_eqb_refl, I1, app_nil_r, <- !app_assoc, firstn_skipn. auto. }
  destruct (G post) as (here & G1 & G2). exists here, (b_pend (s_buf (r_stream (r_run can w2 post)))). split; [exact G1|]. split; [exact G2|].
  destruct (phase2 can label unb post w2 R2) as ((_ & _ & _ & _ & _ & _ & S1) & _). exact S1.
Qed.
Print Assumptions C109_killed.
(** Without one, nothing changes. *)
Theorem C109_none : forall can d name l, no_redirect can l ->
  let w := r_run can (r_start d name) l in r_term w = said l /\ r_disk (r_exit w) = d /\ r_redirected w = false /\ r_err w = [].
Proof.
  intros can d name l Hn. cbv zeta. destruct (phase1 can l (r_start d name)) as (Q1 & Q2 & Q3 & Q4 & _); [repeat split|auto|]. split; [exact Q3|].
  destruct Q1 as (H1 & H2 & H3 & H4 & H5 & H6). unfold r_exit. rewrite H5. auto.
Qed.
Print Assumptions C109_none.
(** A redirection is done exactly if it is the first one whose file can be opened; it is then announced. *)
Theorem C109_once : forall can d name l label trunc unbuffered,
  let w := r_run can (r_start d name) l in
  (fst (doIt can label trunc unbuffered w) = true <-> r_redirected w = false /\ can label = true) /\
  (fst (doIt can label trunc unbuffered w) = true ->
   r_err (snd (doIt can label trunc unbuffered w)) = name ++ lit ": Standard output sent to " ++ label ++ newline).
Proof.
  intros can d name l label trunc unb. cbv zeta.
  assert (X : (no_redirect can l) \/ exists pre lab tr u post, l = pre ++ ERedirect lab tr u :: post /\ no_redirect can pre /\ can lab = true).
  { induction l as [|e l IH] using rev_ind; [left; intros ? ? ? []|]. destruct IH as [IH|(pre & lab & tr & u & post & -> & H1 & H2)].
    - destruct e as [s|lab tr u|k]; [| |].
      + left. intros x y z H. apply in_app_or in H. destruct H as [H|[H|[]]]; [eapply IH; eauto|discriminate].
      + destruct (can lab) eqn:E; [right; exists l, lab, tr, u, []; auto|]. left. intros x y z H. apply in_app_or in H. destruct H as [H|[H|[]]]; [eapply IH; eauto|congruence].
      + left. intros x y z H. apply in_app_or in H. destruct H as [H|[H|[]]]; [eapply IH; eauto|discriminate].
    - right. exists pre, lab, tr, u, (post ++ [e]). rewrite <- app_assoc. auto. }
  destruct X as [X|(pre & lab & tr & u & post & -> & H1 & H2)].
  - destruct (phase1 can l (r_start d name)) as (Q1 & Q2 & Q3 & Q4 & Q5); [repeat split|auto|]. set (w := r_run can (r_start d name) l) in *.
    destruct (can label) eqn:E.
    + destruct (redirect_ok can w label trunc unb Q1 E) as (G1 & _ & _ & G2 & _). destruct Q1 as (_ & _ & _ & Q1 & _).
      split; [split; auto|]. intros _. etransitivity; [exact G2|]. rewrite Q4, Q5. reflexivity.
    + destruct Q1 as (_ & Qb & _). unfold doIt, ofs_open. rewrite Qb, E. cbn [s_fail fst]. split; [split; [discriminate|intros [_ ?]; discriminate]|discriminate].
  - assert (P : exists lab0 u0, P2 lab0 u0 (r_run can (r_start d name) (pre ++ ERedirect lab tr u :: post))).
    { exists lab, u. unfold r_run. rewrite fold_left_app. cbn [fold_left r_step]. fold (r_run can (r_start d name) pre).
      destruct (phase1 can pre (r_start d name)) as (Q1 & _); [repeat split|auto|]. destruct (redirect_ok can _ lab tr u Q1 H2) as (_ & R2 & _).
      fold (r_run can (snd (doIt can lab tr u (r_run can (r_start d name) pre))) post). apply phase2. exact R2. }
    destruct P as (lab0 & u0 & (_ & Pb & _ & Pr & _)). unfold doIt, ofs_open. rewrite Pb. cbn [s_fail fst]. rewrite Pr. split; [split; [discriminate|intros [? _]; discriminate]|discriminate].
Qed.
Print Assumptions C109_once.

Example C109_nonvacuous :
  let can := fun n : str => negb (str_eqb n (lit "/no")) in
  let l := [EWrite (lit "a"); ERedirect (lit "/no") true false; EWrite (lit "b"); ERedirect (lit "log") false false; EWrite (lit "c"); EDrain 1; ERedirect (lit "x") true true; EWrite (lit "d")] in
  let w := r_run can (r_start (fun _ => lit "old") (lit "app")) l in
  r_term w = lit "ab" /\ r_disk w (lit "log") = lit "oldc" /\ r_disk (r_exit w) (lit "log") = lit "oldcd" /\ r_disk (r_exit w) (lit "x") = lit "old".
Proof. repeat split. Qed.
