(** Proofs about messages that carry matrices. *)
From Verif Require Import Prelude Ring Dense_Model Crs_Model Mpi_Model Mpi_Spec Mpi_Proofs Mpi_Props Mpim_Model.

Section Objects.
  Variable R : cring.
  Notation datum := (datum R).

  Lemma sizes_map v : sizes R (map DN v) = Some v.
  Proof. induction v as [|n v IH]; [reflexivity|]. cbn. rewrite IH. reflexivity. Qed.
  Lemma elements_map v : elements R (map DV v) = Some v.
  Proof. induction v as [|n v IH]; [reflexivity|]. cbn. rewrite IH. reflexivity. Qed.

  Lemma rcv_size old n s t : rruns (recv_size R old s t) (map (pair s) (enc_number (DN n : datum) t)) n.
  Proof. unfold recv_size. rewrite <- (app_nil_r (map (pair s) _)). eapply rruns_bind; [apply rcv_number|]. constructor. Qed.
  Lemma rcv_sizes old v s t : rruns (recv_sizes R old s t) (map (pair s) (enc_vector (map DN v : list datum) t)) v.
  Proof. unfold recv_sizes. rewrite <- (app_nil_r (map (pair s) _)). eapply rruns_bind; [apply rcv_vector|]. rewrite sizes_map. constructor. Qed.
  Lemma rcv_elements old v s t : rruns (recv_elements R old s t) (map (pair s) (enc_vector (map DV v : list datum) t)) v.
  Proof. unfold recv_elements. rewrite <- (app_nil_r (map (pair s) _)). eapply rruns_bind; [apply rcv_vector|]. rewrite elements_map. constructor. Qed.

  Definition enc_matrix (m : mat R) (t : nat) : list (nat * msg datum) :=
    enc_number (DN (m_nrow m)) t ++ enc_number (DN (m_ncol m)) (t + 1) ++ enc_vector (map DV (m_data m)) (t + 2).
  Definition enc_crs (m : crs R) (t : nat) : list (nat * msg datum) :=
    enc_number (DN (c_nrow m)) t ++ enc_number (DN (c_ncol m)) (t + 1) ++ enc_vector (map DN (c_rowptr m)) (t + 2) ++
    enc_vector (map DN (c_colind m)) (t + 3) ++ enc_vector (map DV (c_values m)) (t + 4).
  Lemma snd_matrix m d t : sruns d (send_matrix R m d t) (enc_matrix m t) tt.
  Proof. unfold send_matrix, enc_matrix. repeat (eapply sruns_bind; [apply snd_number|]). apply snd_vector. Qed.
  Lemma rcv_matrix old m s t : rruns (recv_matrix R old s t) (map (pair s) (enc_matrix m t)) m.
  Proof.
    unfold recv_matrix, enc_matrix. rewrite !map_app. repeat (eapply rruns_bind; [apply rcv_size|]).
    rewrite <- (app_nil_r (map (pair s) (enc_vector _ _))). eapply rruns_bind; [apply rcv_elements|]. destruct m. constructor.
  Qed.
  Lemma snd_crs m d t : sruns d (send_crs R m d t) (enc_crs m t) tt.
  Proof. unfold send_crs, enc_crs. repeat (eapply sruns_bind; [apply snd_number || apply snd_vector|]). apply snd_vector. Qed.
  Lemma rcv_crs old m s t : rruns (recv_crs R old s t) (map (pair s) (enc_crs m t)) m.
  Proof.
    unfold recv_crs, enc_crs. rewrite !map_app. do 2 (eapply rruns_bind; [apply rcv_size|]). do 2 (eapply rruns_bind; [apply rcv_sizes|]).
    rewrite <- (app_nil_r (map (pair s) (enc_vector (map DV _) _))). eapply rruns_bind; [apply rcv_elements|]. destruct m. constructor.
  Qed.

  (** ** Broadcasts *)
  Lemma bcast_number_ok {T} root (vs : list T) v : nth_error vs root = Some v -> bcast_number root vs = Ok (repeat v (length vs)).
  Proof. intros E. unfold bcast_number, vget. rewrite E. cbn [bind]. rewrite map_const_repeat. reflexivity. Qed.
  Lemma bcast_sizes_ok root (vs : list (list nat)) v : nth_error vs root = Some v -> bcast_sizes root vs = Ok (repeat v (length vs)).
  Proof.
    intros E. assert (Hr : root < length vs) by (apply nth_error_Some; congruence).
    unfold bcast_sizes, bcast_number. assert (E1 : nth_error (map (@length nat) vs) root = Some (length v)) by (rewrite nth_error_map, E; auto).
    unfold vget at 1. rewrite E1. cbn [bind]. rewrite map_const_repeat, map_length. cbv zeta.
    set (ws := map _ _).
    assert (Hw : forall i w, nth_error vs i = Some w -> nth_error ws i = Some (if Nat.eqb (length v) (length w) then w else vresize w (length v) 0)).
    { unfold ws. clear. induction vs as [|w0 vs IH]; intros i w E; [destruct i; discriminate|]. destruct i as [|i]; [injection E as ->; reflexivity|]. apply (IH i). exact E. }
    assert (Lw : length ws = length vs) by (unfold ws; rewrite map_length, combine_length, repeat_length; lia).
    unfold vget. rewrite (Hw _ _ E), Nat.eqb_refl. cbn [bind].
    assert (F : forallb (fun w => Nat.eqb (length w) (length v)) ws = true).
    { apply forallb_forall. intros w Hin. apply In_nth_error in Hin. destruct Hin as (i & Ei).
      assert (Hi : i < length vs) by (rewrite <- Lw; apply nth_error_Some; congruence).
      destruct (nth_error vs i) as [u|] eqn:Eu; [|apply nth_error_None in Eu; lia]. rewrite (Hw _ _ Eu) in Ei. injection Ei as <-.
      destruct (Nat.eqb_spec (length v) (length u)); apply Nat.eqb_eq; [auto|apply vresize_length]. }
    rewrite F. rewrite map_const_repeat, Lw. reflexivity.
  Qed.
  Lemma bcast_elements_ok cpx root (vs : list (list R)) v : nth_error vs root = Some v ->
    (cpx = true -> forall w, In w vs -> length w = length v) -> bcast_elements R cpx root vs = Ok (repeat v (length vs)).
  Proof. intros E H. destruct cpx; unfold bcast_elements; [apply C95_complex|apply C95_bcast]; auto. Qed.

  Lemma combine_repeat {A B} (a : A) (b : B) n : combine (repeat a n) (repeat b n) = repeat (a, b) n.
  Proof. induction n; cbn; congruence. Qed.
  Lemma map_repeat' {A B} (f : A -> B) a n : map f (repeat a n) = repeat (f a) n.
  Proof. induction n; cbn; congruence. Qed.

  Lemma bcast_matrix_ok cpx root (ms : list (mat R)) m : nth_error ms root = Some m ->
    (cpx = true -> forall w, In w ms -> length (m_data w) = length (m_data m)) ->
    bcast_matrix R cpx root ms = Ok (repeat m (length ms)).
  Proof.
    intros E H. unfold bcast_matrix.
    assert (G : forall {T} (f : mat R -> T), nth_error (map f ms) root = Some (f m)) by (intros; rewrite nth_error_map, E; auto).
    rewrite (bcast_number_ok _ _ _ (G _ m_nrow)), (bcast_number_ok _ _ _ (G _ m_ncol)). cbn [bind].
    rewrite (bcast_elements_ok _ _ _ _ (G _ m_data)).
    - cbn [bind]. rewrite !map_length, !combine_repeat, map_repeat'. destruct m. reflexivity.
    - intros C w Hin. apply in_map_iff in Hin. destruct Hin as (u & <- & Hu). auto.
  Qed.
  Lemma bcast_crs_ok cpx (ms : list (crs R)) m : nth_error ms 0 = Some m ->
    (cpx = true -> forall w, In w ms -> length (c_values w) = length (c_values m)) ->
    bcast_crs R cpx ms = Ok (repeat m (length ms)).
  Proof.
    intros E H. unfold bcast_crs.
    assert (G : forall {T} (f : crs R -> T), nth_error (map f ms) 0 = Some (f m)) by (intros; rewrite nth_error_map, E; auto).
    rewrite (bcast_sizes_ok _ _ _ (G _ c_rowptr)), (bcast_sizes_ok _ _ _ (G _ c_colind)). cbn [bind].
    rewrite (bcast_elements_ok _ _ _ _ (G _ c_values)).
    - cbn [bind]. rewrite (bcast_number_ok _ _ _ (G _ c_nrow)), (bcast_number_ok _ _ _ (G _ c_ncol)). cbn [bind].
      rewrite !map_length, !combine_repeat, map_repeat'. destruct m. reflexivity.
    - intros C w Hin. apply in_map_iff in Hin. destruct Hin as (u & <- & Hu). auto.
  Qed.

  Lemma bcast_matrix_ub root (ms : list (mat R)) m w : nth_error ms root = Some m -> In w ms ->
    length (m_data w) <> length (m_data m) -> bcast_matrix R true root ms = UB.
  Proof.
    intros E Hin Hl. unfold bcast_matrix.
    assert (G : forall {T} (f : mat R -> T), nth_error (map f ms) root = Some (f m)) by (intros; rewrite nth_error_map, E; auto).
    rewrite (bcast_number_ok _ _ _ (G _ m_nrow)), (bcast_number_ok _ _ _ (G _ m_ncol)). cbn [bind].
    unfold bcast_elements. rewrite (C95_complex_refuted _ _ _ _ (m_data w) (G _ m_data)); auto. apply in_map; auto.
  Qed.
  Lemma bcast_crs_ub (ms : list (crs R)) m w : nth_error ms 0 = Some m -> In w ms ->
    length (c_values w) <> length (c_values m) -> bcast_crs R true ms = UB.
  Proof.
    intros E Hin Hl. unfold bcast_crs.
    assert (G : forall {T} (f : crs R -> T), nth_error (map f ms) 0 = Some (f m)) by (intros; rewrite nth_error_map, E; auto).
    rewrite (bcast_sizes_ok _ _ _ (G _ c_rowptr)), (bcast_sizes_ok _ _ _ (G _ c_colind)). cbn [bind].
    unfold bcast_elements. rewrite (C95_complex_refuted _ _ _ _ (c_values w) (G _ c_values)); auto. apply in_map; auto.
  Qed.

  Lemma bcast_matrices_ok cpx root (vs : list (list (mat R))) v : nth_error vs root = Some v ->
    (forall w, In w vs -> length w = length v) ->
    (cpx = true -> forall w i a b, In w vs -> nth_error w i = Some a -> nth_error v i = Some b -> length (m_data a) = length (m_data b)) ->
    bcast_matrices R cpx root vs = Ok (repeat v (length vs)).
  Proof.
    intros E Hw Hc. assert (Hr : root < length vs) by (apply nth_error_Some; congruence).
    unfold bcast_matrices. unfold vget at 1. rewrite E. cbn [bind].
    assert (F : forallb (fun w => Nat.eqb (length w) (length v)) vs = true) by (apply forallb_forall; intros; apply Nat.eqb_eq; auto).
    rewrite F. set (d := mkmat 0 0 []).
    loopM (fun i us => length us = length vs /\ (forall w, In w us -> length w = length v) /\
      (forall r w j, nth_error us r = Some w -> j < length v -> (r = root \/ j < i) -> nth_error w j = nth_error v j) /\
      (forall r w j w0, nth_error us r = Some w -> nth_error vs r = Some w0 -> i <= j -> nth_error w j = nth_error w0 j)) as us Eus H.
    - split; [auto|]. split; [auto|]. split; [intros r w j Er Hj [->|]; [congruence|lia]|]. intros; congruence.
    - intros i us Hi (L & Hu & Hj & Hold).
      destruct (nth_error us root) as [u|] eqn:Eu; [|apply nth_error_None in Eu; lia].
      assert (Euv : u = v).
      { apply nth_error_ext_len with (n := length v); [apply Hu; eapply nth_error_In; eauto|auto|]. intros j Hj'. apply (Hj root); auto. }
      subst u.
      rewrite (bcast_matrix_ok cpx root (map (fun w => nth i w d) us) (nth i v d)).
      2:{ rewrite nth_error_map, Eu; auto. }
      2:{ intros C w Hin. apply in_map_iff in Hin. destruct Hin as (w' & <- & Hin'). apply In_nth_error in Hin'. destruct Hin' as (r & Er).
          assert (r < length vs) by (rewrite <- L; apply nth_error_Some; congruence).
          destruct (nth_error vs r) as [w0|] eqn:E0; [|apply nth_error_None in E0; lia].
          pose proof (Hold r w' i w0 Er E0 (le_n i)) as Q.
          assert (length w0 = length v) by (apply Hw; eapply nth_error_In; eauto).
          assert (length w' = length v) by (apply Hu; eapply nth_error_In; eauto).
          apply (Hc C w0 i); [eapply nth_error_In; eauto| |apply nth_error_nth'; lia].
          rewrite <- Q. apply nth_error_nth'. lia. }
      cbn [bind]. rewrite (map_length (fun w => nth i w d) us). eexists. split; [reflexivity|].
      set (us' := map (fun '(w, row) => upd w i row) _).
      assert (Hus : forall r w, nth_error us r = Some w -> nth_error us' r = Some (upd w i (nth i v d))).
      { unfold us'. clearbody d. clear. induction us as [|w0 us IH]; intros r w Er; [destruct r; discriminate|]. destruct r as [|r]; [injection Er as ->; reflexivity|]. apply (IH r). exact Er. }
      assert (L' : length us' = length us) by (unfold us'; rewrite map_length, combine_length, repeat_length; lia).
      assert (Inv : forall r w, nth_error us' r = Some w -> exists w0, nth_error us r = Some w0 /\ w = upd w0 i (nth i v d)).
      { intros r w Er. assert (r < length us) by (rewrite <- L'; apply nth_error_Some; congruence).
        destruct (nth_error us r) as [w0|] eqn:E0; [|apply nth_error_None in E0; lia]. rewrite (Hus _ _ E0) in Er. injection Er as <-. eauto. }
      split; [lia|]. split; [|split].
      + intros w Hin. apply In_nth_error in Hin. destruct Hin as (r & Er). destruct (Inv _ _ Er) as (w0 & E0 & ->). rewrite upd_length. apply Hu. eapply nth_error_In; eauto.
      + intros r w j Er Hjv Hd. destruct (Inv _ _ Er) as (w0 & E0 & ->).
        assert (L0 : length w0 = length v) by (apply Hu; eapply nth_error_In; eauto).
        destruct (Nat.eq_dec j i) as [->|Nj].
        * rewrite nth_error_upd_eq by lia. symmetry. apply nth_error_nth'. lia.
        * rewrite nth_error_upd_neq by auto. apply (Hj r); auto. lia.
      + intros r w j w0 Er E0 Hij. destruct (Inv _ _ Er) as (w1 & E1 & ->). rewrite nth_error_upd_neq by lia. apply (Hold r); auto. lia.
    - destruct H as (L & Hu & Hj & _). rewrite Eus. f_equal. apply nth_error_ext_len with (n := length vs); [auto|apply repeat_length|].
      intros r Hr'. destruct (nth_error us r) as [w|] eqn:Er; [|apply nth_error_None in Er; lia].
      rewrite nth_error_repeat by auto. f_equal. apply nth_error_ext_len with (n := length v); [apply Hu; eapply nth_error_In; eauto|auto|].
      intros j Hjv. apply (Hj r); auto.
  Qed.
End Objects.
