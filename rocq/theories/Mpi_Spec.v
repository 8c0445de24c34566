(** Gathering and combining what several processes have. *)
From Verif Require Import Prelude Ring Mpi_Model.

(** The vector of n elements is divided into blocks of n/p elements, rounded up; the r-th block belongs to process r. *)
Definition block (n p : nat) : nat := (n + p - 1) / p.
Definition owner (n p i : nat) : nat := i / block n p.
(** v has, at each place, what the owner of the place has there. [vs] are the vectors of the processes. *)
Definition gathered {E} (vs : list (list E)) (n : nat) (v : list E) : Prop :=
  length v = n /\ forall i, i < n -> exists w, nth_error vs (owner n (length vs) i) = Some w /\ nth_error v i = nth_error w i.

(** All processes ended, with these results. *)
Definition ended {D A} (c : config D A) (rs : list A) : Prop := procs c = map Ret rs.
(** However MPI buffers the messages and whatever process goes first: from c, after any number of steps, all processes
    have ended or there is a step that does not need buffers; there are no more than [bound] steps; and when all
    processes have ended, their results satisfy P and no message is left. *)
Definition always_ends {D A} (c : config D A) (bound : nat) (P : list A -> Prop) : Prop :=
  forall n c', steps n c c' ->
    n <= bound /\
    ((exists rs, ended c' rs) \/ exists c'', must c' c'') /\
    (forall rs, ended c' rs -> P rs /\ forall a b, chan c' a b = []).
Definition never_ends {D A} (c : config D A) : Prop := forall n c' rs, steps n c c' -> ~ ended c' rs.
(** What the processes of a communicator of [length vs] processes do, process r having the r-th vector *)
Definition programs {D E A} (gather : nat -> nat -> list E -> proc D A) (vs : list (list E)) : list (proc D A) :=
  map (fun '(r, v) => gather r (length vs) v) (combine (seq 0 (length vs)) vs).
