(** Proofs about files that are written. *)
From Coq Require Import Ascii String.
From Verif Require Import Prelude Str_Model Str_Proofs Ofs_Model Ofs_Spec.
Import List.

Lemma eqb_spec a b : reflect (a = b) (str_eqb a b).
Proof. destruct (str_eqb a b) eqn:E; constructor; [apply str_eqb_eq; auto|]. intros H. apply str_eqb_eq in H. congruence. Qed.
Lemma direct_ext l : forall cur (d d' : str -> str) n, (forall m, d m = d' m) -> direct cur d l n = direct cur d' l n.
Proof.
  induction l as [|a l IH]; intros cur d d' n H; [apply H|]. destruct a as [m trunc|s|]; cbn [direct]; apply IH; auto.
  - intros k. rewrite !H. reflexivity.
  - destruct cur; [|auto]. intros k. rewrite !H. reflexivity.
Qed.

(** What the files would be if the buffer was on the disk *)
Definition full (b : fbuf) (d : disk) : disk := match b_file b with Some n => put_file d n (d n ++ b_pend b) | None => d end.
Lemma full_sync b d m : full (fst (b_sync b d)) (snd (b_sync b d)) m = full b d m /\ snd (b_sync b d) m = full b d m.
Proof.
  unfold full, b_sync. destruct (b_file b) as [n|] eqn:E; cbn [fst snd b_file b_pend]; [|rewrite E; auto].
  split; [|reflexivity]. unfold put_file. rewrite str_eqb_refl, app_nil_r. destruct (str_eqb m n); reflexivity.
Qed.
Lemma full_drain k b d m : full (fst (b_drain k b d)) (snd (b_drain k b d)) m = full b d m /\ b_file (fst (b_drain k b d)) = b_file b.
Proof.
  unfold full, b_drain. destruct (b_file b) as [n|] eqn:E; cbn [fst snd b_file b_pend]; [|rewrite E; auto].
  split; [|reflexivity]. unfold put_file. rewrite str_eqb_refl, <- app_assoc, firstn_skipn. destruct (str_eqb m n); reflexivity.
Qed.
Lemma full_prefix b d m : exists t, full b d m = d m ++ t.
Proof.
  unfold full. destruct (b_file b) as [n|]; [|exists []; rewrite app_nil_r; auto]. unfold put_file.
  destruct (eqb_spec m n) as [->|]; [eexists; reflexivity|exists []; rewrite app_nil_r; auto].
Qed.

Section Out.
  Variable can : str -> bool.
  Definition R (w : world) (cur : option str) (D : disk) : Prop :=
    o_rank (w_out w) = 0 /\ o_name (w_out w) <> ostream_name /\
    exists f, o_sink (w_out w) = Own f /\ b_file (s_buf f) = cur /\ (cur <> None -> s_fail f = false) /\ forall m, D m = full (s_buf f) (w_disk w) m.

  Lemma R_put w cur D s w' : R w cur D -> o_put s w = Done w' ->
    R w' cur (match cur with None => D | Some n => fun m => if str_eqb m n then D n ++ s else D m end).
  Proof.
    intros (H1 & H2 & f & H3 & H4 & H5 & H6) E. unfold o_put in E. rewrite H3 in E. injection E as <-. split; [auto|]. split; [auto|].
    cbn [w_out w_disk o_sink]. eexists. split; [reflexivity|]. unfold ofs_put. destruct cur as [n|].
    - rewrite (H5 ltac:(discriminate)), H4. cbn [s_buf s_fail b_file b_pend]. repeat split; auto. intros m. rewrite !H6. unfold full. rewrite H4. cbn [b_file b_pend].
      unfold put_file. rewrite str_eqb_refl. destruct (str_eqb m n); [rewrite app_assoc; reflexivity|reflexivity].
    - rewrite H4. destruct (s_fail f); cbn [s_buf]; (split; [exact H4|]); (split; [congruence|]); exact H6.
  Qed.
  Lemma not_os w : o_name (w_out w) <> ostream_name -> str_eqb (o_name (w_out w)) ostream_name = false.
  Proof. intros H. destruct (eqb_spec (o_name (w_out w)) ostream_name); congruence. Qed.

  Lemma run_direct l : forall w cur D w', R w cur D -> (forall n trunc, In (OOpen n trunc) l -> n <> ostream_name) ->
    run can w l = Done w' -> exists cur' D', R w' cur' D' /\ forall m, D' m = direct cur D (flat_map asked l) m.
  Proof.
    induction l as [|p l IH]; intros w cur D w' HR Hn E.
    { injection E as <-. exists cur, D. auto. }
    cbn [run] in E. destruct (step can w p) as [w1| |] eqn:Es; try discriminate.
    assert (Hl : forall n trunc, In (OOpen n trunc) l -> n <> ostream_name) by (intros; eapply Hn; right; eauto).
    assert (T : forall s, asked p = [AText s] -> o_put s w = Done w1 ->
      exists cur' D', R w' cur' D' /\ forall m, D' m = direct cur D (flat_map asked (p :: l)) m).
    { intros s Ha Ep. destruct (IH w1 _ _ w' (R_put _ _ _ _ _ HR Ep) Hl E) as (cur' & D' & H1 & H2). exists cur', D'. split; [auto|].
      cbn [flat_map]. rewrite Ha. exact H2. }
    pose proof HR as (H1 & H2 & f & H3 & H4 & H5 & H6).
    unfold step in Es. rewrite H1 in Es. cbn [Nat.eqb negb] in Es. rewrite (not_os w H2), ?H3 in Es.
    destruct p as [n trunc| |s|label x|label x|s|k].
    - unfold ofs_open in Es. rewrite H4 in Es. destruct cur as [c|]; [discriminate|]. destruct (can n); [|discriminate]. cbn [s_fail] in Es. injection Es as <-.
      cbn [flat_map asked app direct]. apply (IH _ (Some n) (fun m => if str_eqb m n then (if trunc then [] else D n) else D m)) in E; auto.
      split; [auto|]. split; [cbn; apply (Hn n trunc); left; auto|]. cbn [w_out w_disk o_sink]. eexists. split; [reflexivity|]. cbn [s_buf s_fail b_file b_pend]. repeat split; auto.
      intros m. unfold full. cbn [b_file b_pend]. unfold put_file. rewrite app_nil_r.
      assert (X : forall k, D k = w_disk w k) by (intros k; rewrite H6; unfold full; rewrite H4; reflexivity). rewrite !X.
      destruct trunc; [rewrite str_eqb_refl|]; destruct (eqb_spec m n) as [->|]; auto.
    - unfold ofs_close in Es. rewrite H4 in Es. cbn [flat_map asked app direct].
      assert (X : exists f1 d1, Done (mkworld d1 (mkout 0 (o_name (w_out w)) (Own f1))) = Done w1 /\ b_file (s_buf f1) = None /\ forall m, D m = full (s_buf f1) d1 m).
      { destruct cur as [c|].
        - pose proof (full_sync (s_buf f) (w_disk w)) as Fs. destruct (b_sync (s_buf f) (w_disk w)) as [b1 d1]. exists (mkofs (mkfbuf None []) (s_fail f)), d1. split; [exact Es|]. split; [reflexivity|].
          intros m. rewrite H6. destruct (Fs m) as [_ Q]. rewrite <- Q. reflexivity.
        - exists (mkofs (s_buf f) true), (w_disk w). split; [exact Es|]. split; [exact H4|]. exact H6. }
      destruct X as (f1 & d1 & X1 & X2 & X3). injection X1 as <-. apply (IH _ None D) in E; auto.
      split; [auto|]. split; [auto|]. exists f1. repeat split; auto. congruence.
    - apply (T _ eq_refl Es).
    - apply (T _ eq_refl Es).
    - destruct (s_fail f); [discriminate|]. apply (T _ eq_refl Es).
    - apply (T _ eq_refl Es).
    - pose proof (full_drain k (s_buf f) (w_disk w)) as Fd. destruct (b_drain k (s_buf f) (w_disk w)) as [b1 d1]. cbn [fst snd] in Fd. injection Es as <-.
      cbn [flat_map asked app]. apply (IH _ cur D) in E; auto. split; [auto|]. split; [auto|]. cbn [w_out w_disk o_sink]. eexists. split; [reflexivity|].
      cbn [s_buf s_fail]. split; [rewrite (proj2 (Fd [])); exact H4|]. split; [exact H5|]. intros m. rewrite (proj1 (Fd m)). apply H6.
  Qed.

  Lemma R_new d fn w : fn <> ostream_name -> out_file can d 0 fn = Done w -> R w (Some fn) (put_file d fn []).
  Proof.
    intros N E. unfold out_file, ofs_open in E. cbn [Nat.eqb negb ofs_new s_buf b_file] in E. destruct (can fn); [|discriminate]. cbn [s_fail] in E. injection E as <-.
    split; [reflexivity|]. split; [exact N|]. eexists. split; [reflexivity|]. cbn [s_buf s_fail b_file w_disk]. repeat split; auto.
    intros m. unfold full, put_file. cbn [b_file b_pend]. rewrite str_eqb_refl. destruct (str_eqb m fn); reflexivity.
  Qed.
  Lemma R_end w cur D : R w cur D -> (forall m, out_end w m = D m) /\ forall m, exists t, D m = w_disk w m ++ t.
  Proof.
    intros (H1 & H2 & f & H3 & H4 & H5 & H6). split; intros m.
    - unfold out_end. rewrite H1. cbn [Nat.eqb negb]. rewrite (not_os w H2), H3. unfold ofs_close. rewrite H4. rewrite H6.
      destruct cur as [c|]; cbn [snd].
      + pose proof (full_sync (s_buf f) (w_disk w) m) as [_ Q]. destruct (b_sync (s_buf f) (w_disk w)). exact Q.
      + unfold full. rewrite H4. reflexivity.
    - destruct (full_prefix (s_buf f) (w_disk w) m) as (t & Ht). exists t. rewrite H6. exact Ht.
  Qed.

  Lemma run_proper l : forall w cur D, R w cur D -> (forall n trunc, In (OOpen n trunc) l -> n <> ostream_name) ->
    proper can cur (flat_map asked l) -> exists w', run can w l = Done w'.
  Proof.
    induction l as [|p l IH]; intros w cur D HR Hn Hp; [eexists; reflexivity|]. cbn [run].
    assert (Hl : forall n trunc, In (OOpen n trunc) l -> n <> ostream_name) by (intros; eapply Hn; right; eauto).
    pose proof HR as (H1 & H2 & f & H3 & H4 & H5 & H6).
    assert (T : exists w1, step can w p = Done w1 /\ exists cur1, proper can cur1 (flat_map asked l) /\ exists D1, R w1 cur1 D1).
    { assert (P : exists w1, step can w p = Done w1 /\ exists cur1, proper can cur1 (flat_map asked l) /\ forall w2, run can w [p] = Done w2 -> exists D1, R w2 cur1 D1).
      { assert (Q : exists w1, step can w p = Done w1).
        { unfold step. rewrite H1. cbn [Nat.eqb negb]. rewrite (not_os w H2), ?H3. destruct p as [n trunc| |s|label x|label x|s|k]; cbn [flat_map asked app proper] in Hp.
          - destruct cur; [destruct Hp|]. unfold ofs_open. rewrite H4. rewrite (proj1 Hp). cbn [s_fail]. eexists; reflexivity.
          - destruct (ofs_close f (w_disk w)). eexists; reflexivity.
          - unfold o_put. rewrite H3. eexists; reflexivity.
          - unfold o_put. rewrite H3. eexists; reflexivity.
          - destruct cur; [|destruct Hp]. rewrite (H5 ltac:(discriminate)). unfold o_put. rewrite H3. eexists; reflexivity.
          - unfold o_put. rewrite H3. eexists; reflexivity.
          - destruct (b_drain k (s_buf f) (w_disk w)). eexists; reflexivity. }
        destruct Q as (w1 & Q). exists w1. split; [exact Q|].
        exists (match p with OOpen n _ => Some n | OClose => None | _ => cur end). split.
        { destruct p as [n trunc| |s|label x|label x|s|k]; cbn [flat_map asked app proper] in Hp; destruct cur; try contradiction; auto; apply Hp. }
        intros w2 E2. destruct p as [n trunc| |s|label x|label x|s|k].
        - assert (HH : forall m tr, In (OOpen m tr) [OOpen n trunc] -> m <> ostream_name) by (intros m tr [X|[]]; injection X as <- <-; apply (Hn n trunc); left; auto).
          cbn [flat_map asked app proper] in Hp. destruct cur; [destruct Hp|].
          cbn [run] in E2. unfold step in E2. rewrite H1 in E2. cbn [Nat.eqb negb] in E2. rewrite (not_os w H2), H3 in E2. unfold ofs_open in E2. rewrite H4, (proj1 Hp) in E2. cbn [s_fail] in E2. injection E2 as <-.
          eexists. split; [auto|]. split; [cbn; apply (HH n trunc); left; auto|]. cbn [w_out o_sink]. eexists. split; [reflexivity|]. cbn [s_buf s_fail b_file]. repeat split; auto.
        - destruct (run_direct [OClose] w cur D w2 HR ltac:(intros ? ? [X|[]]; discriminate) E2) as (cur' & D' & HR' & _).
          exists D'. cbn [run] in E2. unfold step in E2. rewrite (not_os w H2), H3 in E2.
          assert (F : b_file (s_buf (fst (ofs_close f (w_disk w)))) = None) by (unfold ofs_close; rewrite H4; destruct cur; [destruct (b_sync _ _); reflexivity|exact H4]).
          destruct (ofs_close f (w_disk w)) as [f1 d1]. injection E2 as <-. cbn [fst] in F. destruct HR' as (G1 & G2 & f2 & G3 & G4 & G5 & G6). injection G3 as <-.
          split; [auto|]. split; [auto|]. exists f1. split; [auto|]. split; [auto|]. split; [congruence|exact G6].
        - cbn [run step] in E2. rewrite H1 in E2. cbn [Nat.eqb negb] in E2. destruct (o_put _ w) eqn:Ep; try discriminate. injection E2 as <-. eexists. apply (R_put _ _ _ _ _ HR Ep).
        - cbn [run step] in E2. destruct (o_put _ w) eqn:Ep; try discriminate. injection E2 as <-. eexists. apply (R_put _ _ _ _ _ HR Ep).
        - cbn [run step] in E2. rewrite H1, H3 in E2. cbn [Nat.eqb negb] in E2. destruct (s_fail f); [discriminate|]. destruct (o_put _ w) eqn:Ep; try discriminate. injection E2 as <-. eexists. apply (R_put _ _ _ _ _ HR Ep).
        - cbn [run step] in E2. rewrite H1 in E2. cbn [Nat.eqb negb] in E2. destruct (o_put _ w) eqn:Ep; try discriminate. injection E2 as <-. eexists. apply (R_put _ _ _ _ _ HR Ep).
        - pose proof (full_drain k (s_buf f) (w_disk w)) as Fd. cbn [run step] in E2. rewrite H3 in E2. destruct (b_drain k (s_buf f) (w_disk w)) as [b1 d1]. cbn [fst snd] in Fd. injection E2 as <-.
          exists D. split; [auto|]. split; [auto|]. eexists. split; [reflexivity|]. cbn [s_buf s_fail w_disk]. split; [rewrite (proj2 (Fd [])); exact H4|]. split; [exact H5|].
          intros m. rewrite (proj1 (Fd m)). apply H6. }
      destruct P as (w1 & P1 & cur1 & P2 & P3). exists w1. split; [auto|]. exists cur1. split; [auto|]. apply P3. cbn [run]. rewrite P1. reflexivity. }
    destruct T as (w1 & T1 & cur1 & T2 & D1 & T3). rewrite T1. apply (IH w1 cur1 D1); auto.
  Qed.
End Out.

Section Redirect.
  Variable can : str -> bool.
  Definition P1 (w : rworld) : Prop :=
    r_cout w = Terminal /\ b_file (s_buf (r_stream w)) = None /\ r_saved w = None /\ r_redirected w = false /\ r_atexit w = 0 /\ r_unit w = false.
  Lemma phase1 l : forall w, P1 w -> no_redirect can l ->
    P1 (r_run can w l) /\ r_disk (r_run can w l) = r_disk w /\ r_term (r_run can w l) = r_term w ++ said l /\ r_err (r_run can w l) = r_err w /\ r_name2 (r_run can w l) = r_name2 w.
  Proof.
    induction l as [|e l IH]; intros w HP Hn; [cbn; rewrite app_nil_r; auto|].
    assert (Hl : no_redirect can l) by (intros x y z H; eapply Hn; right; eauto).
    assert (X : P1 (r_step can w e) /\ r_disk (r_step can w e) = r_disk w /\ r_term (r_step can w e) = r_term w ++ said [e] /\ r_err (r_step can w e) = r_err w /\ r_name2 (r_step can w e) = r_name2 w).
    { destruct HP as (H1 & H2 & H3 & H4 & H5 & H6). unfold said. destruct e as [s|label trunc unb|k]; cbn [r_step flat_map app].
      - unfold r_write. rewrite H1. cbn. rewrite app_nil_r. unfold P1. cbn. auto 10.
      - unfold doIt, ofs_open. rewrite H2, (Hn label trunc unb) by (left; auto). cbn. rewrite app_nil_r. unfold P1. cbn. auto 10.
      - unfold b_drain. rewrite H2. cbn. rewrite app_nil_r. unfold P1. cbn. auto 10. }
    destruct X as (X1 & X2 & X3 & X4 & X5). destruct (IH _ X1 Hl) as (Y1 & Y2 & Y3 & Y4 & Y5).
    change (r_run can w (e :: l)) with (r_run can (r_step can w e) l). split; [auto|]. split; [congruence|]. split; [|split; congruence].
    rewrite Y3, X3, <- app_assoc. f_equal. unfold said. cbn [flat_map]. rewrite app_nil_r. reflexivity.
  Qed.

  Definition P2 (lab : str) (unb : bool) (w : rworld) : Prop :=
    r_cout w = ToFile /\ b_file (s_buf (r_stream w)) = Some lab /\ r_saved w = Some Terminal /\ r_redirected w = true /\ r_atexit w = 1 /\ r_unit w = unb /\
    (unb = true -> b_pend (s_buf (r_stream w)) = []).
  Lemma phase2 lab unb l : forall w, P2 lab unb w ->
    P2 lab unb (r_run can w l) /\ r_term (r_run can w l) = r_term w /\ r_err (r_run can w l) = r_err w /\
    forall m, full (s_buf (r_stream (r_run can w l))) (r_disk (r_run can w l)) m =
      full (s_buf (r_stream w)) (r_disk w) m ++ (if str_eqb m lab then said l else []).
  Proof.
    induction l as [|e l IH]; intros w HP; [cbn; repeat split; try apply HP; intros; destruct (str_eqb _ _); rewrite app_nil_r; auto|].
    assert (X : P2 lab unb (r_step can w e) /\ r_term (r_step can w e) = r_term w /\ r_err (r_step can w e) = r_err w /\
      forall m, full (s_buf (r_stream (r_step can w e))) (r_disk (r_step can w e)) m = full (s_buf (r_stream w)) (r_disk w) m ++ (if str_eqb m lab then said [e] else [])).
    { destruct HP as (H1 & H2 & H3 & H4 & H5 & H6 & H7). unfold said. destruct e as [s|label trunc u|k]; cbn [r_step flat_map app].
      - rewrite app_nil_r. unfold r_write. rewrite H1, H2. set (b := mkfbuf (Some lab) (b_pend (s_buf (r_stream w)) ++ s)).
        assert (F : forall m, full b (r_disk w) m = full (s_buf (r_stream w)) (r_disk w) m ++ (if str_eqb m lab then s else [])).
        { intros m. unfold full, b. rewrite H2. cbn [b_file b_pend]. unfold put_file. destruct (str_eqb m lab); [rewrite app_assoc|rewrite app_nil_r]; reflexivity. }
        destruct (r_unit w) eqn:U.
        + pose proof (full_sync b (r_disk w)) as Fs. assert (Q : b_sync b (r_disk w) = (mkfbuf (Some lab) [], snd (b_sync b (r_disk w)))) by reflexivity.
          rewrite Q in *. cbn [fst snd] in Fs. unfold P2. cbn. split; [split; [auto|]; split; [auto|]; split; [auto|]; split; [auto|]; split; [auto|]; split; [congruence|auto]|].
          split; [auto|]. split; [auto|]. intros m. rewrite <- F. apply Fs.
        + unfold P2. cbn. split; [|auto]. split; [auto|]; split; [auto|]; split; [auto|]; split; [auto|]; split; [auto|]; split; [congruence|]. intros ->. congruence.
      - unfold doIt, ofs_open. rewrite H2. cbn. unfold P2. cbn. split; [auto 10|]. split; [auto|]. split; [auto|]. intros m. destruct (str_eqb m lab); rewrite app_nil_r; reflexivity.
      - pose proof (full_drain k (s_buf (r_stream w)) (r_disk w)) as Fd. 
        assert (G : b_pend (s_buf (r_stream w)) = [] -> b_pend (fst (b_drain k (s_buf (r_stream w)) (r_disk w))) = []) by (unfold b_drain; rewrite H2; cbn [fst b_pend]; intros ->; apply skipn_nil).
        destruct (b_drain k (s_buf (r_stream w)) (r_disk w)) as [b1 d1]. cbn [fst snd] in Fd, G. unfold P2. cbn.
        split; [split; [auto|]; split; [rewrite (proj2 (Fd [])); auto|]; auto 10|]. split; [auto|]. split; [auto|]. intros m. rewrite (proj1 (Fd m)). destruct (str_eqb m lab); rewrite app_nil_r; reflexivity. }
    destruct X as (X1 & X2 & X3 & X4). destruct (IH _ X1) as (Y1 & Y2 & Y3 & Y4).
    change (r_run can w (e :: l)) with (r_run can (r_step can w e) l). split; [auto|]. split; [congruence|]. split; [congruence|].
    intros m. rewrite Y4, X4, <- app_assoc. f_equal. unfold said. cbn [flat_map]. destruct (str_eqb m lab); rewrite ?app_nil_r; reflexivity.
  Qed.
  Lemma redirect_ok w lab trunc unb : P1 w -> can lab = true ->
    let w' := snd (doIt can lab trunc unb w) in
    fst (doIt can lab trunc unb w) = true /\ P2 lab unb w' /\ r_term w' = r_term w /\
    r_err w' = r_err w ++ r_name2 w ++ lit ": Standard output sent to " ++ lab ++ nl /\
    forall m, r_disk w' m = (if str_eqb m lab then if trunc then [] else r_disk w lab else r_disk w m) /\ full (s_buf (r_stream w')) (r_disk w') m = r_disk w' m.
  Proof.
    intros (H1 & H2 & H3 & H4 & H5 & H6) Hc. unfold doIt, ofs_open. rewrite H2, Hc. cbn. split; [auto|]. split.
    { unfold P2. cbn. rewrite H1, H5, H6. rewrite orb_false_r. auto 10. }
    split; [auto|]. split; [auto|]. intros m. unfold full. cbn [b_file b_pend]. unfold put_file. rewrite app_nil_r. split.
    - destruct trunc; destruct (eqb_spec m lab) as [->|N]; unfold put_file; rewrite ?str_eqb_refl; auto.
    - destruct (eqb_spec m lab) as [->|]; auto.
  Qed.
  Lemma exit2 lab unb w : P2 lab unb w -> let w' := r_exit w in
    r_cout w' = Terminal /\ r_term w' = r_term w /\ forall m, r_disk w' m = full (s_buf (r_stream w)) (r_disk w) m.
  Proof.
    intros (H1 & H2 & H3 & H4 & H5 & H6 & H7). unfold r_exit. rewrite H5. cbn [Nat.iter nat_rect]. unfold restore. rewrite H3. unfold ofs_close. rewrite H2.
    pose proof (full_sync (s_buf (r_stream w)) (r_disk w)) as Fs. destruct (b_sync (s_buf (r_stream w)) (r_disk w)) as [b1 d1]. cbn. split; [auto|]. split; [auto|]. intros m. apply Fs.
  Qed.
End Redirect.
