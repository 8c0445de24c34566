(** Theorems about messages between processes (C94, C95). *)
From Coq Require Import ZArith.
From Verif Require Import Prelude Ring Mpi_Model Mpi_Spec Mpi_Proofs.

(** ** C94: pointByPointGather *)
Section Codes.
  Context {D : Type}.
  Definition enc_number (x : D) (t : nat) : list (nat * msg D) := [(t, MData [x])].
  Definition enc_pair (x : D * D) (t : nat) : list (nat * msg D) := [(t, MData [fst x]); (2 * t, MData [snd x])].
  Definition enc_vector (x : list D) (t : nat) : list (nat * msg D) := [(t, MSize (length x)); (t, MData x)].
  Lemma snd_number x d t : sruns d (send_number x d t) (enc_number x t) tt.
  Proof. repeat constructor. Qed.
  Lemma rcv_number old x s t : rruns (recv_number old s t) (map (pair s) (enc_number x t)) x.
  Proof. repeat constructor. Qed.
  Lemma snd_pair x d t : sruns d (send_pair x d t) (enc_pair x t) tt.
  Proof. repeat constructor. Qed.
  Lemma rcv_pair old x s t : rruns (recv_pair old s t) (map (pair s) (enc_pair x t)) x.
  Proof. destruct x. repeat constructor. Qed.
  Lemma snd_vector x d t : sruns d (send_vector x d t) (enc_vector x t) tt.
  Proof. repeat constructor. Qed.
  Lemma rcv_vector dflt old x s t : rruns (recv_vector dflt old s t) (map (pair s) (enc_vector x t)) x.
  Proof.
    unfold recv_vector, enc_vector. cbn [map]. constructor. constructor.
    assert (L : length (if Nat.eqb (length old) (length x) then old else vresize old (length x) dflt) = length x)
      by (destruct (Nat.eqb_spec (length old) (length x)); [auto|apply vresize_length]).
    rewrite L, Nat.ltb_irrefl, skipn_all2, app_nil_r by lia. constructor.
  Qed.
End Codes.

(** A vector of numbers: process 0 gets, at each place, what the owner of the place has; the others keep their vectors.
    However the messages are buffered and the processes scheduled, they do not block, they all end, and no message is
    left. *)
Theorem C94_numbers : forall D (vs : list (list D)) n into, vs <> [] -> (forall v, In v vs -> length v = n) ->
  exists bound, always_ends (start (programs (fun r p => pointByPointGather send_number recv_number (fun a => a) into r p 0) vs)) bound
    (fun rs => exists v, gathered vs n v /\ rs = v :: tl vs).
Proof. intros. apply (gather_ok _ _ _ enc_number); auto using snd_number, rcv_number. Qed.
(** A vector of pairs *)
Theorem C94_pairs : forall D (vs : list (list (D * D))) n into, vs <> [] -> (forall v, In v vs -> length v = n) ->
  exists bound, always_ends (start (programs (fun r p => pointByPointGather send_pair recv_pair (fun a => a) into r p 0) vs)) bound
    (fun rs => exists v, gathered vs n v /\ rs = v :: tl vs).
Proof. intros. apply (gather_ok _ _ _ enc_pair); auto using snd_pair, rcv_pair. Qed.
(** A vector of vectors, of any sizes *)
Theorem C94_vectors : forall D (dflt : D) (vs : list (list (list D))) n into, vs <> [] -> (forall v, In v vs -> length v = n) ->
  exists bound, always_ends (start (programs (fun r p => pointByPointGather send_vector (recv_vector dflt) (fun a => a) into r p 0) vs)) bound
    (fun rs => exists v, gathered vs n v /\ rs = v :: tl vs).
Proof. intros. apply (gather_ok _ _ _ enc_vector); auto using snd_vector, rcv_vector. Qed.
Print Assumptions C94_vectors.

(** The processes that receive are told by [root], but all send to process 0: with another root, the processes never
    end. *)
Theorem C94_root_refuted : forall D (vs : list (list D)) n root, 0 < n -> 0 < root < length vs -> (forall v, In v vs -> length v = n) ->
  never_ends (start (programs (fun r p => pointByPointGather send_number recv_number (fun a => a) (fun x => x) r p root) vs)).
Proof.
  intros D vs n root Hn Hr Hv.
  assert (EW : forall s, s < length vs -> nth_error vs s = Some (nth s vs [])) by (intros; apply nth_error_nth'; auto).
  assert (HW : forall s, s < length vs -> length (nth s vs []) = n) by (intros; apply Hv, nth_In; auto).
  pose proof (block_bound n (length vs) ltac:(lia)) as Hb.
  apply (stuck root 0 (fun q => exists l a, sruns 0 q l a)).
  - lia.
  - intros d t m k (l & a & H). inversion H; subst. split; [lia|]. eauto.
  - intros s t k (l & a & H). inversion H.
  - cbn [start procs]. rewrite (programs_nth _ _ _ _ (EW root ltac:(lia))). unfold pointByPointGather.
    rewrite Nat.eqb_refl. cbn [negb]. rewrite HW, block_eq by lia.
    destruct (length vs) as [|p]; [lia|]. cbn [gather_ranks]. destruct (Nat.eqb_spec 0 root); [lia|].
    destruct (block n (S p)) as [|b]; [nia|]. cbn [gather_recv]. rewrite HW by lia. cbn [Nat.mul Nat.add].
    destruct (Nat.leb_spec n 0); [lia|]. destruct (nth_error (nth root vs []) 0) as [x|] eqn:Ex.
    + cbn [pbind recv_number]. eauto.
    + apply nth_error_None in Ex. rewrite HW in Ex by lia. lia.
  - cbn [start procs]. rewrite (programs_nth _ _ _ _ (EW 0 ltac:(lia))). eexists. split; [reflexivity|]. unfold pointByPointGather.
    destruct (Nat.eqb_spec 0 root); [lia|]. cbn [negb]. do 2 eexists. eapply sruns_bind; [|constructor].
    apply (gather_send_ok send_number enc_number). apply snd_number.
  - reflexivity.
Qed.

(** With numbers and vectors, the messages go to the processes of COMM_WORLD whatever communicator is given: if process 1
    of all is not one of those that gather, they never end. [root] is the first process of a communicator of p. *)
Theorem C94_communicator_refuted : forall D (ps : list (proc D (list D))) root p v w, 2 <= p -> 2 <= length v -> root <> 1 ->
  nth_error ps root = Some (pointByPointGather send_number recv_number (fun a => a) (fun x => x) 0 p 0 v) ->
  nth_error ps 1 = Some (Ret w) ->
  never_ends (start ps).
Proof.
  intros D ps root p v w Hp Hv Nr Er E1. apply (stuck root 1 (fun q => q = Ret w)).
  - auto.
  - discriminate.
  - discriminate.
  - cbn [start procs]. rewrite Er. unfold pointByPointGather. cbn [Nat.eqb negb]. rewrite block_eq by lia.
    pose proof (block_bound (length v) p ltac:(lia)) as Hb.
    assert (Hb2 : block (length v) p < length v).
    { unfold block. apply Nat.div_lt_upper_bound; [lia|]. nia. }
    destruct p as [|[|p]]; [lia|lia|]. cbn [gather_ranks Nat.eqb]. set (b := block (length v) (S (S p))) in *. destruct b as [|b']; [nia|].
    cbn [gather_recv]. destruct (Nat.leb_spec (length v) (1 * S b' + 0)); [lia|].
    destruct (nth_error v (1 * S b' + 0)) as [x|] eqn:Ex; [|apply nth_error_None in Ex; lia]. cbn [pbind recv_number]. eauto.
  - cbn [start procs]. eauto.
  - reflexivity.
Qed.

(** Three processes gather seven numbers, in blocks of three; there is an execution that ends. *)
Example C94_nonvacuous :
  let vs := [[1; 2; 3; 0; 0; 0; 0]; [0; 0; 0; 4; 5; 6; 0]; [0; 0; 0; 0; 0; 0; 7]] in
  exists n c, steps n (start (programs (fun r p => pointByPointGather send_number recv_number (fun a => a) (fun x => x) r p 0) vs)) c /\
    ended c [[1; 2; 3; 4; 5; 6; 7]; [0; 0; 0; 4; 5; 6; 0]; [0; 0; 0; 0; 0; 0; 7]] /\ gathered vs 7 [1; 2; 3; 4; 5; 6; 7].
Proof.
  cbv zeta. do 2 eexists. split; [|split].
  - eapply steps_more. 1: eapply steps_more. 1: eapply steps_more. 1: eapply steps_more. 1: eapply steps_more. 1: apply steps_refl.
    + eapply step_buffer with (a := 2). reflexivity.
    + apply step_must. eapply must_meet with (a := 1) (b := 0); try reflexivity. discriminate.
    + apply step_must. eapply must_meet with (a := 1) (b := 0); try reflexivity. discriminate.
    + apply step_must. eapply must_meet with (a := 1) (b := 0); try reflexivity. discriminate.
    + apply step_must. eapply must_recv with (a := 2) (b := 0); reflexivity.
  - reflexivity.
  - split; [reflexivity|]. intros i Hi. do 7 (destruct i as [|i]; [eexists; split; reflexivity|]). lia.
Qed.

(** ** C95: operations of all processes *)
Lemma map_const_repeat {A B} (x : B) (l : list A) : map (fun _ => x) l = repeat x (length l).
Proof. induction l; cbn; congruence. Qed.
Lemma bcast_vector_ok (R : cring) root (vs : list (list R)) v : nth_error vs root = Some v -> bcast_vector R root vs = Ok (repeat v (length vs)).
Proof.
  intros E. assert (Hr : root < length vs) by (apply nth_error_Some; congruence).
  unfold bcast_vector, bcast_number. assert (E1 : nth_error (map (@length R) vs) root = Some (length v)) by (rewrite nth_error_map, E; auto).
  unfold vget at 1. rewrite E1. cbn [bind]. rewrite map_const_repeat, map_length.
  set (ws := map _ _).
  assert (Hw : forall i w, nth_error vs i = Some w -> nth_error ws i = Some (if Nat.eqb (length v) (length w) then w else vresize w (length v) c0)).
  { unfold ws. clear. induction vs as [|w0 vs IH]; intros i w E; [destruct i; discriminate|]. destruct i as [|i]; [injection E as ->; reflexivity|]. apply (IH i). exact E. }
  assert (Lw : length ws = length vs) by (unfold ws; rewrite map_length, combine_length, repeat_length; lia).
  unfold mpi_bcast, vget. rewrite (Hw _ _ E), Nat.eqb_refl. cbn [bind].
  assert (F : forallb (fun w => Nat.eqb (length w) (length v)) ws = true).
  { apply forallb_forall. intros w Hin. apply In_nth_error in Hin. destruct Hin as (i & Ei).
    assert (Hi : i < length vs) by (rewrite <- Lw; apply nth_error_Some; congruence).
    destruct (nth_error vs i) as [u|] eqn:Eu; [|apply nth_error_None in Eu; lia]. rewrite (Hw _ _ Eu) in Ei. injection Ei as <-.
    destruct (Nat.eqb_spec (length v) (length u)); apply Nat.eqb_eq; [auto|apply vresize_length]. }
  rewrite F. rewrite map_const_repeat, Lw. reflexivity.
Qed.
(** After the broadcast of a vector of numbers all processes have what the root had, whatever sizes their vectors had. *)
Theorem C95_bcast : forall (R : cring) root (vs : list (list R)) v, nth_error vs root = Some v ->
  bcast_vector R root vs = Ok (repeat v (length vs)).
Proof. exact bcast_vector_ok. Qed.

(** So it is for a pair of numbers, of whatever types. *)
Theorem C95_bcast_pair : forall T U root (vs : list (T * U)) v, nth_error vs root = Some v -> bcast_pair root vs = Ok (repeat v (length vs)).
Proof.
  intros T U root vs [t u] E. unfold bcast_pair, bcast_number, vget. rewrite !nth_error_map, E. cbn [option_map bind fst snd]. f_equal.
  clear E. induction vs as [|w vs IH]; [reflexivity|]. cbn [map combine length repeat]. f_equal. exact IH.
Qed.
Print Assumptions C95_bcast_pair.

(** ... and of a vector of vectors, if all processes have the same number of vectors, of whatever sizes. *)
Theorem C95_bcast_nested : forall (R : cring) root (vs : list (list (list R))) v, nth_error vs root = Some v ->
  (forall w, In w vs -> length w = length v) -> bcast_nested R root vs = Ok (repeat v (length vs)).
Proof.
  intros R root vs v E Hw. assert (Hr : root < length vs) by (apply nth_error_Some; congruence).
  unfold bcast_nested. unfold vget at 1. rewrite E. cbn [bind].
  assert (F : forallb (fun w => Nat.eqb (length w) (length v)) vs = true) by (apply forallb_forall; intros; apply Nat.eqb_eq; auto).
  rewrite F.
  loopM (fun i us => length us = length vs /\ (forall w, In w us -> length w = length v) /\
    (forall r w j, nth_error us r = Some w -> j < length v -> (r = root \/ j < i) -> nth_error w j = nth_error v j)) as us Eus H.
  - split; [auto|]. split; [auto|]. intros r w j Er Hj [->|]; [congruence|lia].
  - intros i us Hi (L & Hu & Hj).
    assert (Lr : root < length us) by lia.
    destruct (nth_error us root) as [u|] eqn:Eu; [|apply nth_error_None in Eu; lia].
    assert (Euv : u = v).
    { apply nth_error_ext_len with (n := length v); [apply Hu; eapply nth_error_In; eauto|auto|]. intros j Hj'. apply (Hj root); auto. }
    subst u.
    rewrite (bcast_vector_ok R root (map (fun w => nth i w []) us) (nth i v [])) by (rewrite nth_error_map, Eu; auto).
    cbn [bind]. rewrite (map_length (fun w => nth i w []) us). eexists. split; [reflexivity|].
    set (us' := map (fun '(w, row) => upd w i row) _).
    assert (Hus : forall r w, nth_error us r = Some w -> nth_error us' r = Some (upd w i (nth i v []))).
    { unfold us'. clear. induction us as [|w0 us IH]; intros r w Er; [destruct r; discriminate|]. destruct r as [|r]; [injection Er as ->; reflexivity|]. apply (IH r). exact Er. }
    assert (L' : length us' = length us) by (unfold us'; rewrite map_length, combine_length, repeat_length; lia).
    assert (Inv : forall r w, nth_error us' r = Some w -> exists w0, nth_error us r = Some w0 /\ w = upd w0 i (nth i v [])).
    { intros r w Er. assert (r < length us) by (rewrite <- L'; apply nth_error_Some; congruence).
      destruct (nth_error us r) as [w0|] eqn:E0; [|apply nth_error_None in E0; lia]. rewrite (Hus _ _ E0) in Er. injection Er as <-. eauto. }
    split; [lia|]. split.
    + intros w Hin. apply In_nth_error in Hin. destruct Hin as (r & Er). destruct (Inv _ _ Er) as (w0 & E0 & ->). rewrite upd_length. apply Hu. eapply nth_error_In; eauto.
    + intros r w j Er Hjv Hc. destruct (Inv _ _ Er) as (w0 & E0 & ->).
      assert (L0 : length w0 = length v) by (apply Hu; eapply nth_error_In; eauto).
      destruct (Nat.eq_dec j i) as [->|Nj].
      * rewrite nth_error_upd_eq by lia. symmetry. apply nth_error_nth'. lia.
      * rewrite nth_error_upd_neq by auto. apply (Hj r); auto. lia.
  - destruct H as (L & Hu & Hj). rewrite Eus. f_equal. apply nth_error_ext_len with (n := length vs); [auto|apply repeat_length|].
    intros r Hr'. destruct (nth_error us r) as [w|] eqn:Er; [|apply nth_error_None in Er; lia].
    rewrite nth_error_repeat by auto. f_equal. apply nth_error_ext_len with (n := length v); [apply Hu; eapply nth_error_In; eauto|auto|].
    intros j Hjv. apply (Hj r); auto.
Qed.
(** A vector of complex numbers is not resized: if another process has a vector of another size, anything may happen. *)
Theorem C95_complex_refuted : forall (R : cring) root (vs : list (list R)) v w, nth_error vs root = Some v ->
  In w vs -> length w <> length v -> bcast_complex R root vs = UB.
Proof.
  intros R root vs v w E Hin Hl. unfold bcast_complex, mpi_bcast, vget. rewrite E. cbn [bind].
  destruct (forallb _ vs) eqn:F; [|reflexivity]. rewrite forallb_forall in F. apply F in Hin. apply Nat.eqb_eq in Hin. lia.
Qed.
(** With equal sizes it is broadcast. *)
Theorem C95_complex : forall (R : cring) root (vs : list (list R)) v, nth_error vs root = Some v ->
  (forall w, In w vs -> length w = length v) -> bcast_complex R root vs = Ok (repeat v (length vs)).
Proof.
  intros R root vs v E Hw. unfold bcast_complex, mpi_bcast, vget. rewrite E. cbn [bind].
  rewrite (proj2 (forallb_forall _ _)) by (intros; apply Nat.eqb_eq; auto). rewrite map_const_repeat. reflexivity.
Qed.

(** reduce gives the root the sums, element by element, and leaves the vectors of the other processes. *)
Theorem C95_reduce : forall (R : cring) root (vs : list (list R)) n, root < length vs -> (forall v, In v vs -> length v = n) ->
  exists rs, reduce R root vs = Ok rs /\ length rs = length vs /\
    (forall r, r <> root -> nth_error rs r = nth_error vs r) /\
    exists w, nth_error rs root = Some w /\ length w = n /\ forall i, i < n -> nth i w c0 = suml (fun v => nth i v c0) vs.
Proof.
  intros R root vs n Hr Hn. unfold reduce, mpi_sum.
  assert (En : match vs with [] => 0 | v :: _ => length v end = n) by (destruct vs; [cbn in Hr; lia|apply Hn; left; auto]).
  rewrite En. rewrite (proj2 (forallb_forall _ _)) by (intros; apply Nat.eqb_eq; auto). cbn [bind]. set (w := map _ (seq 0 n)).
  eexists. split; [reflexivity|].
  assert (G : forall r v, nth_error vs r = Some v -> nth_error (map (fun '(r0, v) => if Nat.eqb r0 root then w else v) (combine (seq 0 (length vs)) vs)) r = Some (if Nat.eqb r root then w else v)).
  { clearbody w. clear. intros r v. assert (G : forall a, nth_error vs r = Some v -> nth_error (map (fun '(r0, v) => if Nat.eqb r0 root then w else v) (combine (seq a (length vs)) vs)) r = Some (if Nat.eqb (a + r) root then w else v)); [|apply (G 0)].
    revert r. induction vs as [|v0 vs IH]; intros r a E; [destruct r; discriminate|]. destruct r as [|r]; cbn [length seq combine map nth_error] in *.
    - rewrite Nat.add_0_r. injection E as ->; reflexivity.
    - replace (a + S r) with (S a + r) by lia. apply IH. auto. }
  assert (L : length (map (fun '(r0, v) => if Nat.eqb r0 root then w else v) (combine (seq 0 (length vs)) vs)) = length vs) by (rewrite map_length, combine_length, seq_length; lia).
  split; [exact L|]. split.
  - intros r Nr. destruct (nth_error vs r) as [v|] eqn:E.
    + rewrite (G _ _ E). destruct (Nat.eqb_spec r root); congruence.
    + apply nth_error_None. rewrite L. apply nth_error_None. auto.
  - destruct (nth_error vs root) as [v|] eqn:E; [|apply nth_error_None in E; lia]. rewrite (G _ _ E), Nat.eqb_refl. exists w. split; [auto|].
    split; [unfold w; rewrite map_length, seq_length; auto|]. intros i Hi. unfold w.
    rewrite nth_indep with (d' := (fun i => suml (fun v => nth i v c0) vs) 0) by (rewrite map_length, seq_length; auto).
    rewrite (map_nth (fun i => suml (fun v => nth i v c0) vs) (seq 0 n) 0 i), seq_nth by auto. reflexivity.
Qed.
(** allReduce gives all the sums. *)
Theorem C95_all_reduce : forall (R : cring) (vs : list (list R)) n, vs <> [] -> (forall v, In v vs -> length v = n) ->
  exists w, allReduce R vs = Ok (repeat w (length vs)) /\ length w = n /\ forall i, i < n -> nth i w c0 = suml (fun v => nth i v c0) vs.
Proof.
  intros R vs n Nv Hn. unfold allReduce, mpi_sum.
  assert (En : match vs with [] => 0 | v :: _ => length v end = n) by (destruct vs; [congruence|apply Hn; left; auto]).
  rewrite En. rewrite (proj2 (forallb_forall _ _)) by (intros; apply Nat.eqb_eq; auto). cbn [bind]. eexists. rewrite map_const_repeat. split; [reflexivity|].
  split; [rewrite map_length, seq_length; auto|]. intros i Hi.
  rewrite nth_indep with (d' := (fun i => suml (fun v => nth i v c0) vs) 0) by (rewrite map_length, seq_length; auto).
  rewrite (map_nth (fun i => suml (fun v => nth i v c0) vs) (seq 0 n) 0 i), seq_nth by auto. reflexivity.
Qed.
(** The sum of one number of each process arrives at all of them if it fits in an int. *)
Theorem C95_number_partial : forall (R : cring) (vs : list R) bytes, vs <> [] -> bytes <= 4 ->
  allReduce_number R bytes vs = Ok (repeat (suml (fun v => v) vs) (length vs)).
Proof.
  intros R vs bytes Nv Hb. unfold allReduce_number. rewrite (proj2 (Nat.leb_le _ _) Hb).
  assert (En : match map (fun x : R => [x]) vs with [] => 0 | v :: _ => length v end = 1) by (destruct vs; [congruence|reflexivity]).
  unfold mpi_sum. rewrite En. rewrite (proj2 (forallb_forall _ _)) by (intros x Hx; apply in_map_iff in Hx; destruct Hx as (y & <- & _); reflexivity).
  cbn [bind seq map nth]. rewrite map_const_repeat. do 2 f_equal.
  clear. induction vs as [|v vs IH]; [reflexivity|]. cbn [map suml nth]. rewrite IH. reflexivity.
Qed.
Print Assumptions C95_number_partial.
(** The sum of one number of each process is received in an int: for a number that takes more than four bytes, as a
    double does, this writes past it. *)
Theorem C95_number_refuted : forall (R : cring) (vs : list R), allReduce_number R 8 vs = UB.
Proof. reflexivity. Qed.
Print Assumptions C95_bcast_nested.
Print Assumptions C95_reduce.

(** Three processes with two vectors each, of different sizes *)
Example C95_nonvacuous :
  bcast_nested Zring 1 [[[1]; []]; [[4; 5]; [6; 7; 8]]; [[2; 3; 4]; [1]]]%Z = Ok (repeat [[4; 5]; [6; 7; 8]]%Z 3) /\
  reduce Zring 2 [[1; 2]; [10; 20]; [100; 200]]%Z = Ok [[1; 2]; [10; 20]; [111; 222]]%Z /\
  bcast_pair 1 [(3, true); (5, false); (0, true)] = Ok [(5, false); (5, false); (5, false)].
Proof. split; [|split]; reflexivity. Qed.
