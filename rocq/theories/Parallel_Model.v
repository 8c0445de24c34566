(** Model of src/LoadBalancerDefault.h, src/LoadBalancerMpi.h,
    src/LoadBalancerWeights.h, src/Parallelizer2Pthread.h, src/PthreadsNg.h,
    src/NoPthreadsNg.h, src/Parallelizer2Serial.h, src/InterNodeSerial.h,
    src/InterNodeMpi.h.

    Numbers are [nat]; the 64-bit wrap of the products and sums of task numbers
    is not modelled (all of them are assumed to fit). *)
From Verif Require Import Prelude Sort_Model.

(** src/LoadBalancerDefault.h:14-25 (same text in src/LoadBalancerMpi.h:14-25):
    the constructor, returning [blockSize_]. Division by zero threads is UB. *)
Definition lbDefault_ctor (ntasks nthreads : nat) : res nat :=
  if nthreads =? 0 then UB
  else
    let blockSize := ntasks / nthreads in
    let '(nthreads, blockSize) :=
      if (ntasks <? nthreads) && (0 <? ntasks) then (ntasks, 1) else (nthreads, blockSize) in
    guard (0 <? nthreads) ;;
    if negb (ntasks mod nthreads =? 0) then Ok (blockSize + 1) else Ok blockSize.

(** What the thread functions use of a balancer: [blockSize(threadNum)] and
    [taskNumber(threadNum, p)]. *)
Record balancer := {
  lb_blockSize : nat -> res nat;
  lb_taskNumber : nat -> nat -> res nat
}.

(** src/LoadBalancerDefault.h:27-32. *)
Definition lbDefault (blockSize : nat) : balancer :=
  {| lb_blockSize := fun _ => Ok blockSize;
     lb_taskNumber := fun threadNum p => Ok (p + threadNum * blockSize) |}.

(** [std::min_element(w.begin(), w.end()) - w.begin()]: index of the first
    smallest element, [w.size()] (here 0) when empty. *)
Fixpoint min_index_from (l : list nat) (k best bestk : nat) : nat :=
  match l with
  | [] => bestk
  | a :: l' => if a <? best then min_index_from l' (S k) a k
               else min_index_from l' (S k) best bestk
  end.
(** src/LoadBalancerWeights.h:70-74 [findThreadWithLightestWork]. *)
Definition min_index (l : list nat) : nat :=
  match l with
  | [] => 0
  | a :: l' => min_index_from l' 1 a 0
  end.

Section Weights.
  Variable stdsort : list (nat * nat) -> list (nat * nat).

  (** src/LoadBalancerWeights.h:20-53: the constructor, returning
      [taskNumber_] (and the final [workLoad], which the code drops). *)
  Definition lbWeights_ctor (weights : list nat) (nthreads : nat) : res (list (list nat) * list nat) :=
    let taskNumber := repeat (@nil nat) nthreads in
    let ntasks := length weights in
    let nthreads := if (ntasks <? nthreads) && (0 <? ntasks) then ntasks else nthreads in
    let workLoad := repeat 0 nthreads in
    do (_, iperm) <- sort stdsort weights (repeat 0 ntasks) 0 ;;
    forM ntasks 0 (fun iii '(taskNumber, workLoad) =>
      let ii := ntasks - 1 - iii in
      let thread := min_index workLoad in
      do ip <- vget iperm ii ;;
      do tl <- vget taskNumber thread ;;
      do taskNumber <- vset taskNumber thread (tl ++ [ip]) ;;
      do wl <- vget workLoad thread ;;
      do w <- vget weights ip ;;
      do workLoad <- vset workLoad thread (wl + w) ;;
      Ok (taskNumber, workLoad)) (taskNumber, workLoad).

  (** src/LoadBalancerWeights.h:14-18: all weights equal to 1. *)
  Definition lbWeights_ctor1 (ntasks nthreads : nat) : res (list (list nat) * list nat) :=
    lbWeights_ctor (repeat 1 ntasks) nthreads.
End Weights.

(** src/LoadBalancerWeights.h:55-66. *)
Definition lbWeights (taskNumber : list (list nat)) : balancer :=
  {| lb_blockSize := fun t => do l <- vget taskNumber t ;; Ok (length l);
     lb_taskNumber := fun t p => do l <- vget taskNumber t ;; vget l p |}.

(** src/Parallelizer2Pthread.h:67-72 [thread_function_wrapper2] and
    src/InterNodeMpi.h:59-64; with [start] = 0 also src/PthreadsNg.h:148-153
    [thread_function_wrapper]: the indices for which thread [t] calls the
    lambda, in order. [n] is the number of remaining iterations. *)
Fixpoint wrapper_loop (lb : balancer) (start stop t n p : nat) : res (list nat) :=
  match n with
  | 0 => Ok []
  | S n' =>
    do k <- lb_taskNumber lb t p ;;
    if stop <=? k + start then Ok []
    else do rest <- wrapper_loop lb start stop t n' (S p) ;; Ok (k + start :: rest)
  end.

Definition wrapper (lb : balancer) (start stop t : nat) : res (list nat) :=
  do bs <- lb_blockSize lb t ;;
  wrapper_loop lb start stop t bs 0.

(** The calls of all threads 0 .. nthreads-1, one list per thread. *)
Fixpoint all_threads (lb : balancer) (start stop n t : nat) : res (list (list nat)) :=
  match n with
  | 0 => Ok []
  | S n' => do l <- wrapper lb start stop t ;;
            do ls <- all_threads lb start stop n' (S t) ;; Ok (l :: ls)
  end.

(** src/Parallelizer2Pthread.h:101-177 [parallelFor(start, end, lambda)] with the
    default balancer: [nthreads_] threads. Also src/InterNodeMpi.h:35-67 with the
    MPI ranks in the role of the threads. *)
Definition parallelFor (start stop nthreads : nat) : res (list (list nat)) :=
  do bs <- lbDefault_ctor (stop - start) nthreads ;;
  all_threads (lbDefault bs) start stop nthreads 0.

(** src/PthreadsNg.h:185-191 and 204-285 [loopCreate(pfh)] with the default
    balancer: [min(nthreads_, ntasks)] threads. *)
Definition loopCreate (ntasks nthreads : nat) : res (list (list nat)) :=
  do bs <- lbDefault_ctor ntasks nthreads ;;
  all_threads (lbDefault bs) 0 ntasks (Nat.min nthreads ntasks) 0.

(** src/PthreadsNg.h:194-201 and 204-285 [loopCreate(pfh, weights)] with the
    weighted balancer. *)
Definition loopCreate_weights (stdsort : list (nat * nat) -> list (nat * nat))
    (ntasks : nat) (weights : list nat) (nthreads : nat) : res (list (list nat)) :=
  do (taskNumber, _) <- lbWeights_ctor stdsort weights nthreads ;;
  all_threads (lbWeights taskNumber) 0 ntasks (Nat.min nthreads ntasks) 0.

(** src/Parallelizer2Serial.h:13-25: one thread only, constructor throws
    otherwise. *)
Definition parallelFor_serial (start stop npthreads : nat) : res (list (list nat)) :=
  if negb (npthreads =? 1) then Throw else Ok [seq start (stop - start)].

(** src/NoPthreadsNg.h:94-134. *)
Definition loopCreate_serial (ntasks npthreads : nat) : res (list (list nat)) :=
  if negb (npthreads =? 1) then Throw else Ok [seq 0 ntasks].
