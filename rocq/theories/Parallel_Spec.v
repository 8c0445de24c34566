(** Schedules: interleavings of threads. *)
From Verif Require Import Prelude.

(** [interleaving ths tr]: the trace [tr] can be obtained by running the
    threads [ths] (one list of steps each) concurrently, one atomic step of one
    thread at a time, until all of them are finished. *)
Inductive interleaving {A : Type} : list (list A) -> list A -> Prop :=
| il_done : forall ths, Forall (fun th => th = []) ths -> interleaving ths []
| il_step : forall before x th after tr,
    interleaving (before ++ th :: after) tr ->
    interleaving (before ++ (x :: th) :: after) (x :: tr).

(** Everything a balancer hands out to threads 0..m-1, thread by thread. *)
Fixpoint mapM {A B} (f : A -> res B) (l : list A) : res (list B) :=
  match l with
  | [] => Ok []
  | a :: l' => do b <- f a ;; do bs <- mapM f l' ;; Ok (b :: bs)
  end.
Definition handed_out (blockSize : nat -> res nat) (taskNumber : nat -> nat -> res nat) (m : nat)
  : res (list (list nat)) :=
  mapM (fun t => do bs <- blockSize t ;; mapM (taskNumber t) (seq 0 bs)) (seq 0 m).

(** A lambda called for index [i] by thread [t] performs a list of atomic
    actions on the shared state. Each step of a thread carries the index it
    works for. *)
Definition action (S : Type) := S -> S.
Definition steps {S} (body : nat -> nat -> list (action S)) (t : nat) (calls : list nat)
  : list (nat * action S) :=
  flat_map (fun i => map (fun a => (i, a)) (body i t)) calls.

(** The threads' programs, thread numbers counted from [t]. *)
Fixpoint programs {S} (body : nat -> nat -> list (action S)) (t : nat) (ths : list (list nat))
  : list (list (nat * action S)) :=
  match ths with
  | [] => []
  | calls :: ths' => steps body t calls :: programs body (Datatypes.S t) ths'
  end.

(** Execution of a trace from a state. *)
Definition run {S} (tr : list (nat * action S)) (s : S) : S :=
  fold_left (fun s p => snd p s) tr s.

(** The serial loop. *)
Definition serial {S} (body : nat -> list (action S)) (order : list nat) (s : S) : S :=
  fold_left (fun s i => fold_left (fun s a => a s) (body i) s) order s.

(** Calls for different indices do not interfere. *)
Definition no_interference {S} (body : nat -> nat -> list (action S)) : Prop :=
  forall i j t u a b, i <> j -> In a (body i t) -> In b (body j u) ->
  forall s, a (b s) = b (a s).
