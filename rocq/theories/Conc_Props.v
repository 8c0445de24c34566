(** C66: per-thread storage. *)
From Coq Require Import Ascii String.
From Verif Require Import Prelude Str_Model Str_Proofs Conc_Model.
Import List.

(** A call that configures the library. *)
Inductive call := New (n : nat) | Options (cs : csp) | Disable (label : str).
Definition do_call (b : build) (c : conc) (x : call) : conc * res unit :=
  match x with
  | New n => conc_new b c n
  | Options cs => setOptions b c cs
  | Disable l => (mpiDisable c l, Ok tt)
  end.

(** The states after a history of calls none of which throws. *)
Inductive reachable (b : build) : list call -> conc -> Prop :=
| r_start n c : conc_new b conc_static n = (c, Ok tt) -> reachable b [New n] c
| r_call h c x c' : reachable b h c -> do_call b c x = (c', Ok tt) -> reachable b (h ++ [x]) c'.

Lemma reachable_mode b h c : reachable b h c ->
  cc_mode c = (if b_pthreads b then 1 else 0) + (if b_mpi b then 2 else 0) /\ (b_pthreads b = false -> cs_npthreads (cc_params c) = 1 /\ cs_npthreads2 (cc_params c) = 1).
Proof.
  assert (N : forall n c0 c, conc_new b c0 n = (c, Ok tt) -> cc_mode c = (if b_pthreads b then 1 else 0) + (if b_mpi b then 2 else 0) /\ (b_pthreads b = false -> cs_npthreads (cc_params c) = 1 /\ cs_npthreads2 (cc_params c) = 1)).
  { intros n c0 c' E. unfold conc_new in E. destruct (b_pthreads b).
    - inversion E. subst. cbn. destruct (b_mpi b); split; auto; discriminate.
    - destruct (Nat.eqb_spec n 1) as [->|]; cbn [negb] in E; [|discriminate]. inversion E. subst. cbn. destruct (b_mpi b); auto. }
  intros H. induction H as [n c E|h c x c' H IH E]; [eauto|].
  destruct x as [n|cs|l]; cbn [do_call] in E; [eauto| |].
  - unfold setOptions in E. destruct (Nat.eqb_spec (cs_npthreads cs) 1), (Nat.eqb_spec (cs_npthreads2 cs) 1); cbn [andb] in E;
      (destruct (b_pthreads b) eqn:P; inversion E; subst; cbn; split; try apply IH; auto; discriminate).
  - inversion E. subst. unfold mpiDisable. destruct (negb (hasMpi c)); exact IH.
Qed.

(** After any history of successful calls, threads 0 .. n-1 (n the configured number of threads, at either level)
    get different storage places, all within the storage size for n threads. *)
Theorem C66_storage_partial : forall b h c n, reachable b h c ->
  n = cs_npthreads (cc_params c) \/ n = cs_npthreads2 (cc_params c) ->
  exists size, storageSize c n = Ok size /\
    (forall t, t < n -> exists i, storageIndex c t = Ok i /\ i < size) /\
    (forall t t' i, t < n -> t' < n -> storageIndex c t = Ok i -> storageIndex c t' = Ok i -> t = t').
Proof.
  intros b h c n H Hn. destruct (reachable_mode b h c H) as [M P]. unfold storageSize, storageIndex. rewrite M.
  destruct (b_pthreads b) eqn:Eb.
  - assert (Em : 1 + (if b_mpi b then 2 else 0) = 1 \/ 1 + (if b_mpi b then 2 else 0) = 3) by (destruct (b_mpi b); auto).
    destruct Em as [-> | ->]; exists n; (split; [reflexivity|]); (split; [eauto|]); intros t t' i _ _ E E'; inversion E; inversion E'; congruence.
  - assert (n = 1) as -> by (destruct (P eq_refl), Hn; congruence). cbn [Nat.add].
    destruct (b_mpi b); cbn [Nat.eqb]; exists 1; (split; [reflexivity|]); (split; [|intros; lia]); intros t Ht; assert (t = 0) by lia; subst; exists 0; auto.
Qed.
Print Assumptions C66_storage_partial.

(** A call to setOptions that is refused has changed the number of threads all the same: asking for the storage for
    the configured number of threads then violates an assertion, for every refused number of threads but 1. *)
Theorem C66_refused_options_refuted : forall c n n2, reachable (mkbuild false false) [New 1] c -> n <> 1 ->
  exists c', setOptions (mkbuild false false) c (mkcsp n n2) = (c', Throw) /\ cs_npthreads (cc_params c') = n /\ storageSize c' n = UB.
Proof.
  intros c n n2 H Hn. destruct (reachable_mode _ _ _ H) as [M _]. cbn in M. unfold setOptions. cbn [cs_npthreads cs_npthreads2 b_pthreads].
  destruct (Nat.eqb_spec n 1); [contradiction|]. cbn [andb]. eexists. split; [reflexivity|]. split; [reflexivity|].
  unfold storageSize. cbn [cc_mode]. rewrite M. destruct (Nat.eqb_spec n 1); [contradiction|reflexivity].
Qed.
Print Assumptions C66_refused_options_refuted.

(** Without threads compiled in, asking for any other number than one is refused. *)
Theorem C66_no_threads : forall b c n cs, b_pthreads b = false ->
  (n <> 1 -> snd (conc_new b c n) = Throw) /\ ((cs_npthreads cs <> 1 \/ cs_npthreads2 cs <> 1) -> snd (setOptions b c cs) = Throw).
Proof.
  intros b c n cs E. unfold conc_new, setOptions. rewrite E. split.
  - intros H. destruct (Nat.eqb_spec n 1); [contradiction|reflexivity].
  - intros H. destruct (Nat.eqb_spec (cs_npthreads cs) 1), (Nat.eqb_spec (cs_npthreads2 cs) 1); cbn; auto. exfalso. destruct H; auto.
Qed.
Print Assumptions C66_no_threads.

(** Disabling MPI for some labels, with MPI but without threads: a loop with a disabled label is done whole by the process,
    one with another label keeps its share. *)
Theorem C66_mpi_disabled : forall h c label rank block total, reachable (mkbuild false true) h c ->
  (In (Disable label) h -> isMpiDisabled c label = true /\ mpiDisableIfNeeded c rank block label total = Ok (0, total)) /\
  (~ In (Disable label) h -> isMpiDisabled c label = false /\ mpiDisableIfNeeded c rank block label total = Ok (rank, block)).
Proof.
  intros h c label rank block total H.
  assert (M : forall h c, reachable (mkbuild false true) h c -> hasMpi c = true /\ hasPthreads c = false).
  { intros h' c' H'. destruct (reachable_mode _ _ _ H') as [M _]. cbn in M. unfold hasMpi, hasPthreads. rewrite M. auto. }
  assert (D : In (Disable label) h <-> labelDisabled c label = true).
  { clear rank block total. induction H as [n c E|h c x c' H IH E].
    - split; [intros [K|[]]; discriminate|]. unfold conc_new in E. cbn in E. destruct (n =? 1); cbn in E; inversion E; subst; discriminate.
    - rewrite in_app_iff, IH. destruct x as [n|cs|l]; cbn [do_call] in E.
      + assert (Ed : cc_disabled c' = cc_disabled c) by (unfold conc_new in E; cbn in E; destruct (n =? 1); cbn in E; inversion E; subst; reflexivity).
        unfold labelDisabled. rewrite Ed. split; [intros [K|[K|[]]]; [exact K|discriminate]|auto].
      + assert (Ed : cc_disabled c' = cc_disabled c) by (unfold setOptions in E; cbn in E; destruct (_ && _); inversion E; subst; reflexivity).
        unfold labelDisabled. rewrite Ed. split; [intros [K|[K|[]]]; [exact K|discriminate]|auto].
      + inversion E. subst. unfold mpiDisable. rewrite (proj1 (M h c H)). cbn [negb]. unfold labelDisabled. cbn [cc_disabled]. rewrite existsb_app, orb_true_iff. cbn [existsb].
        split; (intros [K|K]; [left; exact K|right]).
        * destruct K as [K|[]]. inversion K. subst. rewrite str_eqb_refl. reflexivity.
        * apply orb_true_iff in K. destruct K as [K|K]; [|discriminate]. apply str_eqb_eq in K. subst. left. reflexivity. }
  destruct (M h c H) as [M1 M2]. unfold isMpiDisabled, mpiDisableIfNeeded. rewrite M1, M2. cbn [negb]. split; intros K.
  - apply D in K. rewrite K. auto.
  - destruct (labelDisabled c label) eqn:E; [exfalso; apply K, D; auto|auto].
Qed.
Print Assumptions C66_mpi_disabled.

(** Without MPI nothing is disabled, whatever was asked before: every loop keeps its share. *)
Theorem C66_without_mpi : forall b h c label rank block total, reachable b h c -> b_mpi b = false ->
  isMpiDisabled c label = false /\ mpiDisableIfNeeded c rank block label total = Ok (rank, block) /\ do_call b c (Disable label) = (c, Ok tt).
Proof.
  intros b h c label rank block total H E. destruct (reachable_mode b h c H) as [M _]. rewrite E in M.
  assert (Hm : hasMpi c = false) by (unfold hasMpi; rewrite M; destruct (b_pthreads b); reflexivity).
  unfold isMpiDisabled, mpiDisableIfNeeded. cbn [do_call]. unfold mpiDisable. rewrite Hm. auto.
Qed.
Print Assumptions C66_without_mpi.

(** With MPI and without threads there is one storage place, whatever the number of threads asked for. *)
Theorem C66_mpi_storage : forall h c n t, reachable (mkbuild false true) h c -> storageSize c n = Ok 1 /\ storageIndex c t = Ok 0.
Proof. intros h c n t H. destruct (reachable_mode _ _ _ H) as [M _]. cbn in M. unfold storageSize, storageIndex. rewrite M. auto. Qed.
Print Assumptions C66_mpi_storage.

Example C66_nonvacuous : exists c, reachable (mkbuild true true) [New 4; Options (mkcsp 8 2)] c /\ storageSize c 8 = Ok 8 /\ storageIndex c 7 = Ok 7.
Proof.
  eexists. split; [|split].
  - eapply (r_call (mkbuild true true) [New 4]); [eapply r_start; reflexivity|reflexivity].
  - reflexivity.
  - reflexivity.
Qed.
