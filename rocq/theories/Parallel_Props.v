(** C04, C05, C06: load balancers and parallel loops. *)
From Verif Require Import Prelude Sort_Model Sort_Spec Sort_Proofs
  Parallel_Model Parallel_Spec Parallel_Proofs.

(** C04. With any positive number of threads the constructor succeeds with
    blocks of ceil(ntasks/nthreads), and collecting taskNumber(t,p) over all
    threads t < m and all p < blockSize(t), then dropping the numbers that are not
    tasks, gives 0,1,...,ntasks-1, each once and in order; both when all
    nthreads threads are started and when only min(nthreads,ntasks) are. *)
Theorem C04_lbDefault_cover : forall ntasks nthreads, 0 < nthreads ->
  exists bs, lbDefault_ctor ntasks nthreads = Ok bs /\
    bs = (ntasks + nthreads - 1) / nthreads /\
    forall m, m = nthreads \/ m = Nat.min nthreads ntasks ->
    exists lists, handed_out (lb_blockSize (lbDefault bs)) (lb_taskNumber (lbDefault bs)) m = Ok lists /\
      filter (fun i => i <? ntasks) (concat lists) = seq 0 ntasks /\ length lists = m.
Proof. exact lbDefault_handed_out. Qed.
Print Assumptions C04_lbDefault_cover.

Example C04_nonvacuous :
  lbDefault_ctor 10 4 = Ok 3 /\ lbDefault_ctor 8 4 = Ok 2 /\ lbDefault_ctor 3 5 = Ok 1 /\
  lbDefault_ctor 0 5 = Ok 0 /\
  lbDefault_ctor 7 0 = UB (* no threads: division by zero *).
Proof. repeat split. Qed.

(** C05. For every std::sort meeting its contract, all weights and any positive
    number of threads: the constructor succeeds; every task is on exactly one
    thread's list; threads that are not started (number >= m, where m is the
    number of threads, at most the number of tasks) get nothing; and no thread's
    load exceeds the average by more than (m-1)/m of the largest weight. *)
Theorem C05_lbWeights : forall srt, stdsort_ok Nat.ltb srt ->
  forall weights nthreads, 0 < nthreads ->
  let ntasks := length weights in
  let m := if (ntasks <? nthreads) && (0 <? ntasks) then ntasks else nthreads in
  exists tn wl,
    lbWeights_ctor srt weights nthreads = Ok (tn, wl) /\
    length tn = nthreads /\ length wl = m /\
    Permutation (concat tn) (seq 0 ntasks) /\
    (forall t, m <= t -> nth t tn [] = []) /\
    (forall t, t < m -> nth t wl 0 = load weights (nth t tn [])) /\
    (forall t, t < m -> m * nth t wl 0 <= sum_list weights + (m - 1) * max_list weights).
Proof. exact lbWeights_ctor_ok. Qed.
Print Assumptions C05_lbWeights.

Example C05_nonvacuous :
  stdsort_ok Nat.ltb (isort Nat.ltb) /\
  lbWeights_ctor (isort Nat.ltb) [3; 9; 2; 7; 5] 2 = Ok ([[1; 0; 2]; [3; 4]], [14; 12]) /\
  lbWeights_ctor (isort Nat.ltb) [4; 4] 3 = Ok ([[1]; [0]; []], [4; 4]).
Proof. split; [exact isort_ok|]. split; reflexivity. Qed.

(** C06. parallelFor over [start,stop) with any positive number of threads:
    under every schedule the lambda is called for every index exactly once, by
    a thread number below the number of threads. *)
Theorem C06_parallelFor_exactly_once : forall start stop nthreads,
  0 < nthreads -> start <= stop ->
  exists ths, parallelFor start stop nthreads = Ok ths /\ length ths = nthreads /\
    forall tr, interleaving (call_events 0 ths) tr ->
      Permutation (map fst tr) (seq start (stop - start)) /\
      Forall (fun e => snd e < nthreads) tr.
Proof.
  intros start stop nthreads H Hle.
  destruct (parallelFor_ok start stop nthreads H Hle) as [ths [E [L C]]].
  exists ths. split; [exact E|]. split; [exact L|]. intros tr Htr.
  rewrite <- C, <- L. exact (schedule_once ths tr Htr).
Qed.
Print Assumptions C06_parallelFor_exactly_once.

Theorem C06_loopCreate_exactly_once : forall ntasks nthreads,
  0 < nthreads ->
  exists ths, loopCreate ntasks nthreads = Ok ths /\ length ths = Nat.min nthreads ntasks /\
    forall tr, interleaving (call_events 0 ths) tr ->
      Permutation (map fst tr) (seq 0 ntasks) /\
      Forall (fun e => snd e < Nat.min nthreads ntasks) tr.
Proof.
  intros ntasks nthreads H.
  destruct (loopCreate_ok ntasks nthreads H) as [ths [E [L C]]].
  exists ths. split; [exact E|]. split; [exact L|]. intros tr Htr.
  rewrite <- C, <- L. exact (schedule_once ths tr Htr).
Qed.
Print Assumptions C06_loopCreate_exactly_once.

Theorem C06_loopCreate_weights_exactly_once : forall srt, stdsort_ok Nat.ltb srt ->
  forall weights nthreads, 0 < nthreads ->
  exists ths, loopCreate_weights srt (length weights) weights nthreads = Ok ths /\
    length ths = Nat.min nthreads (length weights) /\
    (forall t, t < length ths ->
       length ths * load weights (nth t ths []) <=
       sum_list weights + (length ths - 1) * max_list weights) /\
    forall tr, interleaving (call_events 0 ths) tr ->
      Permutation (map fst tr) (seq 0 (length weights)) /\
      Forall (fun e => snd e < Nat.min nthreads (length weights)) tr.
Proof.
  intros srt Hs weights nthreads H.
  destruct (loopCreate_weights_ok srt Hs weights nthreads H) as [ths [E [L [C B]]]].
  exists ths. split; [exact E|]. split; [exact L|]. split; [exact B|]. intros tr Htr.
  destruct (schedule_once ths tr Htr) as [P F]. rewrite L in F.
  split; [exact (Permutation_trans P C)|exact F].
Qed.
Print Assumptions C06_loopCreate_weights_exactly_once.

(** Schedule independence: let the lambda for index i be any list of atomic
    actions on a shared state, let actions of different indices commute and
    let the actions not depend on the thread number. Then every interleaving of
    the threads at the granularity of single actions ends in the state of the
    serial loop. *)
Theorem C06_parallelFor_schedule_independent :
  forall (S : Type) (body : nat -> nat -> list (action S)),
  no_interference body -> (forall i t u, body i t = body i u) ->
  forall start stop nthreads, 0 < nthreads -> start <= stop ->
  exists ths, parallelFor start stop nthreads = Ok ths /\
    forall tr s, interleaving (programs body 0 ths) tr ->
      run tr s = serial (fun i => body i 0) (seq start (stop - start)) s.
Proof.
  intros S body NI TB start stop nthreads H Hle.
  destruct (parallelFor_ok start stop nthreads H Hle) as [ths [E [L C]]].
  exists ths. split; [exact E|]. intros tr s Htr.
  apply (interleaving_serial S body NI TB ths tr s); [| |exact Htr].
  - rewrite C. apply seq_NoDup.
  - rewrite C. reflexivity.
Qed.
Print Assumptions C06_parallelFor_schedule_independent.

Theorem C06_loopCreate_weights_schedule_independent :
  forall (S : Type) (body : nat -> nat -> list (action S)),
  no_interference body -> (forall i t u, body i t = body i u) ->
  forall srt, stdsort_ok Nat.ltb srt ->
  forall weights nthreads, 0 < nthreads ->
  exists ths, loopCreate_weights srt (length weights) weights nthreads = Ok ths /\
    forall tr s, interleaving (programs body 0 ths) tr ->
      run tr s = serial (fun i => body i 0) (seq 0 (length weights)) s.
Proof.
  intros S body NI TB srt Hs weights nthreads H.
  destruct (loopCreate_weights_ok srt Hs weights nthreads H) as [ths [E [L [C B]]]].
  exists ths. split; [exact E|]. intros tr s Htr.
  apply (interleaving_serial S body NI TB ths tr s); [| |exact Htr].
  - exact (Permutation_NoDup (Permutation_sym C) (seq_NoDup _ _)).
  - exact (Permutation_sym C).
Qed.
Print Assumptions C06_loopCreate_weights_schedule_independent.

(** The serial back ends: one thread or an exception. *)
Theorem C06_serial : forall start stop npthreads,
  parallelFor_serial start stop npthreads =
    (if npthreads =? 1 then Ok [seq start (stop - start)] else Throw) /\
  loopCreate_serial stop npthreads = (if npthreads =? 1 then Ok [seq 0 stop] else Throw).
Proof. intros. unfold parallelFor_serial, loopCreate_serial. destruct (npthreads =? 1); auto. Qed.
Print Assumptions C06_serial.

(** Concrete instances: 5 indices on 2 threads, a schedule, and a body (two
    atomic increments of a per-index cell) that satisfies the hypotheses. *)
Example C06_nonvacuous :
  parallelFor 10 15 2 = Ok [[10; 11; 12]; [13; 14]] /\
  interleaving (call_events 0 [[10; 11; 12]; [13; 14]])
    [(13, 1); (10, 0); (11, 0); (14, 1); (12, 0)].
Proof.
  split; [reflexivity|]. cbn [call_events map].
  apply (il_step [[(10, 0); (11, 0); (12, 0)]] (13, 1) [(14, 1)] []).
  apply (il_step [] (10, 0) [(11, 0); (12, 0)] [[(14, 1)]]).
  apply (il_step [] (11, 0) [(12, 0)] [[(14, 1)]]).
  apply (il_step [[(12, 0)]] (14, 1) [] []).
  apply (il_step [] (12, 0) [] [[]]).
  apply il_done. repeat constructor.
Qed.

(** Bodies meeting the hypotheses exist: every index adds twice to one shared
    counter. *)
Example C06_body_nonvacuous :
  let body := fun (i t : nat) => [(fun s => s + i); (fun s : nat => s + 1)] in
  no_interference body /\ (forall i t u, body i t = body i u) /\
  serial (fun i => body i 0) [1; 2; 3] 0 = 9.
Proof.
  cbv zeta. split; [|split; reflexivity].
  intros i j t u a b _ Ha Hb s. simpl in Ha, Hb.
  destruct Ha as [<-|[<-|[]]]; destruct Hb as [<-|[<-|[]]]; lia.
Qed.
