(** Model of how PthreadsNg creates its threads (src/PthreadsNg.h): their number, stack size and processors. What the
    threads do is modelled in Parallel_Model. *)
From Coq Require Import NArith.
From Verif Require Import Prelude.

(** cpu_set_t: 1024 bits; CPU_ZERO, CPU_SET, CPU_CLR, CPU_ISSET, CPU_COUNT *)
Definition MAX_CPUS : nat := 1024.
Definition cpuset := list bool.
Definition CPU_ZERO : cpuset := repeat false MAX_CPUS.
Definition CPU_SET (c : nat) (s : cpuset) : cpuset := upd s c true.
Definition CPU_CLR (c : nat) (s : cpuset) : cpuset := upd s c false.
Definition CPU_ISSET (c : nat) (s : cpuset) : bool := nth c s false.
Definition CPU_COUNT (s : cpuset) : nat := length (filter (fun b : bool => b) s).

(** pthread_attr_t: memory that is not initialized, or a stack size and processors, if set. POSIX leaves all calls but
    pthread_attr_init undefined on the former. *)
Inductive attr := Raw | Init (stack : option N) (cpus : option cpuset).
Definition attr_init (a : attr) : attr := Init None None.
Definition attr_setstacksize (a : attr) (n : N) : res attr :=
  match a with Raw => UB | Init _ c => Ok (Init (Some n) c) end.
Definition attr_setaffinity (a : attr) (s : cpuset) : res attr :=
  match a with Raw => UB | Init n _ => Ok (Init n (Some s)) end.

(** getPidAffinity: src/PthreadsNg.h:297-307; [os] is what sched_getaffinity gives, if it does *)
Definition getPidAffinity (os : option cpuset) : cpuset :=
  match os with Some s => s | None => CPU_ZERO end.

(** getOneCpuFromSet: src/PthreadsNg.h:330-345; None stands for -1 *)
Fixpoint first_cpu (n i : nat) (s : cpuset) : option nat :=
  match n with
  | 0 => None
  | S n' => if CPU_ISSET i s then Some i else first_cpu n' (i + 1) s
  end.
Definition getOneCpuFromSet (s : cpuset) : option nat :=
  if CPU_COUNT s =? 0 then None else first_cpu MAX_CPUS 0 s.

(** setAffinity: src/PthreadsNg.h:309-328; [ok] tells if pthread_attr_setaffinity_np succeeds *)
Definition setAffinity (a : attr) (s : cpuset) (ok : bool) : res (attr * cpuset) :=
  match getOneCpuFromSet s with
  | None => Ok (a, s)
  | Some chosenCpu =>
    let mynewset := CPU_SET chosenCpu CPU_ZERO in
    do a' <- attr_setaffinity a mynewset ;;
    if negb ok then Ok (a, s) else Ok (a', CPU_CLR chosenCpu s)
  end.

(** loopCreate: src/PthreadsNg.h:203-285, the attributes with which pthread_create is called, thread by thread. [succeeds j]
    tells if pthread_attr_setaffinity_np succeeds for thread j. Messages and sched_setaffinity, which sets what the
    process has already, are left out. *)
Definition loopCreate (nthreads ntasks : nat) (setAffinities : bool) (stackSize : N) (os : option cpuset) (succeeds : nat -> bool)
    : res (list attr) :=
  let actualThreads := Nat.min nthreads ntasks in
  let set := if setAffinities then getPidAffinity os else CPU_ZERO in
  do (attrs, _) <- forM actualThreads 0 (fun j (st : list attr * cpuset) =>
    let '(attrs, set) := st in
    let a := Raw in
    do a <- (if (0 <? stackSize)%N then attr_setstacksize a stackSize else Ok a) ;;
    let a := attr_init a in
    do (a, set) <- (if setAffinities then setAffinity a set (succeeds j) else Ok (a, set)) ;;
    Ok (attrs ++ [a], set)) ([], set) ;;
  Ok attrs.
