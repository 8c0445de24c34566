(** C101: the threads of a parallel loop. *)
From Coq Require Import NArith.
From Verif Require Import Prelude Thr_Model Thr_Spec Thr_Proofs.

(** There are as many threads as asked for, but not more than tasks. If affinities are set, the threads for which the
    system accepts it get one processor each, of those of the process and in order, until none is left; the others, and
    all threads if affinities are not set, have no processors of their own. No stack size may be asked for. *)
Theorem C101_threads_partial : forall nthreads ntasks setAffinities os succeeds, (forall s, os = Some s -> length s = MAX_CPUS) ->
  exists attrs, loopCreate nthreads ntasks setAffinities 0 os succeeds = Ok attrs /\ length attrs = Nat.min nthreads ntasks /\
    forall j, j < length attrs ->
      match (if setAffinities && succeeds j then nth_error (processors (getPidAffinity os)) (given succeeds j) else None) with
      | None => nth j attrs Raw = Init None None
      | Some c => exists s, nth j attrs Raw = Init None (Some s) /\ only c s
      end.
Proof. exact loopCreate_ok. Qed.
Print Assumptions C101_threads_partial.

(** So no two threads are given the same processor. *)
Theorem C101_distinct : forall nthreads ntasks setAffinities os succeeds attrs i j c si sj, (forall s, os = Some s -> length s = MAX_CPUS) ->
  loopCreate nthreads ntasks setAffinities 0 os succeeds = Ok attrs ->
  nth_error attrs i = Some (Init None (Some si)) -> nth_error attrs j = Some (Init None (Some sj)) -> CPU_ISSET c si = true -> CPU_ISSET c sj = true -> i = j.
Proof.
  intros nt nk sA os su attrs i j c si sj L E Hi Hj Ci Cj. destruct (loopCreate_ok nt nk sA os su L) as (attrs' & E' & _ & H). rewrite E in E'. apply Ok_inj in E'. subst attrs'.
  assert (G : forall k sk, nth_error attrs k = Some (Init None (Some sk)) -> CPU_ISSET c sk = true -> su k = true /\ nth_error (processors (getPidAffinity os)) (given su k) = Some c).
  { intros k sk Hk Ck. assert (Lk : k < length attrs) by (apply nth_error_Some; congruence). specialize (H k Lk). unfold expected in H. apply (nth_error_nth _ _ Raw) in Hk. rewrite Hk in H.
    destruct (sA && su k)%bool eqn:B; [|discriminate]. apply andb_prop in B. destruct B as [_ B]. split; auto.
    destruct (nth_error (processors (getPidAffinity os)) (given su k)) as [c'|]; [|discriminate]. destruct H as (s & Hs & _ & Ho). injection Hs as <-.
    apply Ho in Ck. subst. auto. }
  destruct (G i si Hi Ci) as [Si Gi]. destruct (G j sj Hj Cj) as [Sj Gj].
  assert (Eg : given su i = given su j).
  { assert (Nd : NoDup (processors (getPidAffinity os))) by (apply NoDup_filter, seq_NoDup).
    rewrite NoDup_nth_error in Nd. apply Nd; [apply nth_error_Some; congruence|congruence]. }
  assert (Mono : forall a b, a < b -> su a = true -> given su a < given su b).
  { intros a b Hab Sa. unfold given. replace b with (a + S (b - a - 1)) by lia. rewrite seq_app, filter_app, app_length. cbn [Nat.add seq filter]. rewrite Sa. cbn [length]. lia. }
  destruct (lt_eq_lt_dec i j) as [[Hl|Hl]|Hl]; auto; exfalso.
  - pose proof (Mono i j Hl Si). lia.
  - pose proof (Mono j i Hl Sj). lia.
Qed.
Print Assumptions C101_distinct.

(** Asking for a stack size is an error: it is set before the attributes of the thread are initialized. *)
Theorem C101_stack_refuted : forall nthreads ntasks setAffinities stackSize os succeeds, 0 < nthreads -> 0 < ntasks -> (0 < stackSize)%N ->
  loopCreate nthreads ntasks setAffinities stackSize os succeeds = UB.
Proof.
  intros nt nk sA st os su Hn Hk Hs. unfold loopCreate. destruct (Nat.min nt nk) as [|n] eqn:E; [lia|]. cbn [forM].
  apply N.ltb_lt in Hs. rewrite Hs. reflexivity.
Qed.
Print Assumptions C101_stack_refuted.

(** Three threads on processors 1 and 3, where the first call to set affinities fails *)
Definition two_cpus : cpuset := CPU_SET 3 (CPU_SET 1 CPU_ZERO).
Definition not_first (j : nat) : bool := 0 <? j.
Example C101_nonvacuous : length two_cpus = MAX_CPUS /\ processors two_cpus = [1; 3] /\
  loopCreate 4 3 true 0 (Some two_cpus) not_first =
    Ok [Init None None; Init None (Some (CPU_SET 1 CPU_ZERO)); Init None (Some (CPU_SET 3 CPU_ZERO))].
Proof. vm_compute. auto. Qed.
