(** Model of the messages between processes: src/MpiYes.h. *)
From Verif Require Import Prelude Ring.

(** ** Processes that send and receive *)
Section Processes.
  Context {D : Type}.
  (** A message is a number of elements or the elements themselves. *)
  Inductive msg := MSize (n : nat) | MData (l : list D).
  (** What a process does: it ends with a result, sends a message to a process and goes on, waits for a message with a tag
      from a process and goes on with it, or is aborted by MPI (checkError: src/MpiYes.cpp:98-110). *)
  Inductive proc (A : Type) :=
  | Ret (a : A)
  | Snd (dest tag : nat) (m : msg) (k : proc A)
  | Rcv (source tag : nat) (k : msg -> proc A)
  | Err.
  Arguments Ret {A}. Arguments Snd {A}. Arguments Rcv {A}. Arguments Err {A}.
  Fixpoint pbind {A B} (p : proc A) (f : A -> proc B) : proc B :=
    match p with
    | Ret a => f a
    | Snd d t m k => Snd d t m (pbind k f)
    | Rcv s t k => Rcv s t (fun m => pbind (k m) f)
    | Err => Err
    end.

  (** send and recv of a number: src/MpiYes.h:171-179, 117-126 *)
  Definition send_number (x : D) (dest tag : nat) : proc unit := Snd dest tag (MData [x]) (Ret tt).
  Definition recv_number (old : D) (source tag : nat) : proc D :=
    Rcv source tag (fun m => match m with MData [x] => Ret x | _ => Err end).
  (** ... of a pair: src/MpiYes.h:181-186, 128-133 *)
  Definition send_pair (p : D * D) (dest tag : nat) : proc unit :=
    pbind (send_number (fst p) dest tag) (fun _ => send_number (snd p) dest (2 * tag)).
  Definition recv_pair (old : D * D) (source tag : nat) : proc (D * D) :=
    pbind (recv_number (fst old) source tag) (fun x => pbind (recv_number (snd old) source (2 * tag)) (fun y => Ret (x, y))).
  (** ... of a vector: src/MpiYes.h:188-216, 135-169. The size is sent as an int and received as the lower half of a
      SizeType whose upper half is zero. MPI_Recv of more elements than there is room for is an error; of fewer, the
      rest of the vector stays. *)
  Definition send_vector (v : list D) (dest tag : nat) : proc unit :=
    Snd dest tag (MSize (length v)) (Snd dest tag (MData v) (Ret tt)).
  Definition recv_vector (dflt : D) (v : list D) (source tag : nat) : proc (list D) :=
    Rcv source tag (fun m =>
      match m with
      | MSize total =>
        let v := if Nat.eqb (length v) total then v else vresize v total dflt in
        Rcv source tag (fun m =>
          match m with
          | MData l => if Nat.ltb (length v) (length l) then Err else Ret (l ++ skipn (length l) v)
          | _ => Err
          end)
      | _ => Err
      end).

  (** ** pointByPointGather: src/MpiYes.h:218-253 (numbers and vectors, with a fresh value to receive into), 290-320
      (pairs, received in place). [addr] gives the process that has a rank in the communicator that is used for the
      messages: that is COMM_WORLD in the first version, whatever [mpiComm] is. *)
  Section Gather.
    Context {E : Type}.
    Variable snd_elem : E -> nat -> nat -> proc unit.
    Variable rcv_elem : E -> nat -> nat -> proc E.
    Variable addr : nat -> nat.
    (** What is received into: a fresh value or the element *)
    Variable into : E -> E.

    Fixpoint gather_send (n p : nat) (mpiRank blockSize : nat) (v : list E) : proc unit :=
      match n with
      | 0 => Ret tt
      | S n =>
        let taskNumber := mpiRank * blockSize + p in
        if Nat.leb (length v) taskNumber then Ret tt
        else match nth_error v taskNumber with
             | None => Err
             | Some x => pbind (snd_elem x (addr 0) taskNumber) (fun _ => gather_send n (S p) mpiRank blockSize v)
             end
      end.
    Fixpoint gather_recv (n p : nat) (r blockSize : nat) (v : list E) : proc (list E) :=
      match n with
      | 0 => Ret v
      | S n =>
        let taskNumber := r * blockSize + p in
        if Nat.leb (length v) taskNumber then Ret v
        else match nth_error v taskNumber with
             | None => Err
             | Some old => pbind (rcv_elem (into old) (addr r) taskNumber) (fun value => gather_recv n (S p) r blockSize (upd v taskNumber value))
             end
      end.
    Fixpoint gather_ranks (n r : nat) (root blockSize : nat) (v : list E) : proc (list E) :=
      match n with
      | 0 => Ret v
      | S n =>
        if Nat.eqb r root then gather_ranks n (S r) root blockSize v
        else pbind (gather_recv blockSize 0 r blockSize v) (fun v => gather_ranks n (S r) root blockSize v)
      end.
    Definition pointByPointGather (mpiRank nprocs root : nat) (v : list E) : proc (list E) :=
      let blockSize := if Nat.eqb (length v mod nprocs) 0 then length v / nprocs else S (length v / nprocs) in
      if negb (Nat.eqb mpiRank root) then pbind (gather_send blockSize 0 mpiRank blockSize v) (fun _ => Ret v)
      else gather_ranks nprocs 0 root blockSize v.
  End Gather.

  (** ** Executions *)
  (** The processes, and the messages sent from one process to another that were not received yet, in their order *)
  Record config (A : Type) := mkcfg { procs : list (proc A); chan : nat -> nat -> list (nat * msg) }.
  Arguments mkcfg {A}. Arguments procs {A}. Arguments chan {A}.
  Fixpoint take_tag (tag : nat) (c : list (nat * msg)) : option (msg * list (nat * msg)) :=
    match c with
    | [] => None
    | (t, m) :: c => if Nat.eqb t tag then Some (m, c) else match take_tag tag c with Some (m', c') => Some (m', (t, m) :: c') | None => None end
    end.
  Definition set_chan (ch : nat -> nat -> list (nat * msg)) (a b : nat) (c : list (nat * msg)) : nat -> nat -> list (nat * msg) :=
    fun x y => if Nat.eqb x a && Nat.eqb y b then c else ch x y.
  (** The rules of MPI: a send may be buffered; a receive gets the oldest message with its tag from its source; a send
      that is not buffered waits for the receive it belongs to. *)
  Inductive must {A} : config A -> config A -> Prop :=
  | must_recv c a b tag k m rest : nth_error (procs c) b = Some (Rcv a tag k) -> take_tag tag (chan c a b) = Some (m, rest) ->
      must c (mkcfg (upd (procs c) b (k m)) (set_chan (chan c) a b rest))
  | must_meet c a b tag m k k' : a <> b -> nth_error (procs c) a = Some (Snd b tag m k) -> nth_error (procs c) b = Some (Rcv a tag k') ->
      take_tag tag (chan c a b) = None -> must c (mkcfg (upd (upd (procs c) a k) b (k' m)) (chan c)).
  Inductive step {A} : config A -> config A -> Prop :=
  | step_must c c' : must c c' -> step c c'
  | step_buffer c a b tag m k : nth_error (procs c) a = Some (Snd b tag m k) ->
      step c (mkcfg (upd (procs c) a k) (set_chan (chan c) a b (chan c a b ++ [(tag, m)]))).
  Inductive steps {A} : nat -> config A -> config A -> Prop :=
  | steps_refl c : steps 0 c c
  | steps_more n c c' c'' : steps n c c' -> step c' c'' -> steps (S n) c c''.
  Definition start {A} (ps : list (proc A)) : config A := mkcfg ps (fun _ _ => []).
End Processes.
Arguments msg : clear implicits.
Arguments proc : clear implicits.
Arguments config : clear implicits.
Arguments Ret {D A}. Arguments Snd {D A}. Arguments Rcv {D A}. Arguments Err {D A}.
Arguments mkcfg {D A}. Arguments procs {D A}. Arguments chan {D A}.

(** ** Operations of all processes together: the argument is what each process has, in the order of the ranks.
    MPI wants the same count from all; anything else is undefined. *)
Section Collective.
  Variable R : cring.

  (** MPI_Bcast of vectors *)
  Definition mpi_bcast (root : nat) (vs : list (list R)) : res (list (list R)) :=
    do v <- vget vs root ;;
    guard (forallb (fun w => Nat.eqb (length w) (length v)) vs) ;;
    Ok (map (fun _ => v) vs).
  (** bcast of a number: src/MpiYes.h:344-351 *)
  Definition bcast_number {T} (root : nat) (vs : list T) : res (list T) :=
    do v <- vget vs root ;; Ok (map (fun _ => v) vs).
  (** bcast of a pair of numbers: src/MpiYes.h:379-393, one broadcast of copies of the first numbers and one of the second *)
  Definition bcast_pair {T U} (root : nat) (vs : list (T * U)) : res (list (T * U)) :=
    do t1 <- bcast_number root (map fst vs) ;;
    do t2 <- bcast_number root (map snd vs) ;;
    Ok (combine t1 t2).
  (** bcast of a vector of numbers: src/MpiYes.h:353-366 *)
  Definition bcast_vector (root : nat) (vs : list (list R)) : res (list (list R)) :=
    do totals <- bcast_number root (map (@length R) vs) ;;
    mpi_bcast root (map (fun '(total, v) => if Nat.eqb total (length v) then v else vresize v total c0) (combine totals vs)).
  (** bcast of a vector of complex numbers, which are twice as many reals: src/MpiYes.h:368-377 *)
  Definition bcast_complex (root : nat) (vs : list (list R)) : res (list (list R)) := mpi_bcast root vs.

  (** bcast of a vector of vectors: src/MpiYes.h:322-342, one broadcast of the size and one of the elements for each
      vector a process has. If the processes have different numbers of vectors, they do not all take part in the last
      ones. *)
  Definition bcast_nested (root : nat) (vs : list (list (list R))) : res (list (list (list R))) :=
    do v <- vget vs root ;;
    guard (forallb (fun w => Nat.eqb (length w) (length v)) vs) ;;
    forM (length v) 0 (fun i vs =>
      do rows <- bcast_vector root (map (fun w => nth i w []) vs) ;;
      Ok (map (fun '(w, row) => upd w i row) (combine vs rows))) vs.

  (** MPI_Reduce and MPI_Allreduce with the sum *)
  Definition mpi_sum (vs : list (list R)) : res (list R) :=
    let n := match vs with [] => 0 | v :: _ => length v end in
    guard (forallb (fun w => Nat.eqb (length w) n) vs) ;;
    Ok (map (fun i => suml (fun v => nth i v c0) vs) (seq 0 n)).
  (** reduce: src/MpiYes.h:406-438 *)
  Definition reduce (root : nat) (vs : list (list R)) : res (list (list R)) :=
    do w <- mpi_sum vs ;; Ok (map (fun '(r, v) => if Nat.eqb r root then w else v) (combine (seq 0 (length vs)) vs)).
  (** allReduce of vectors: src/MpiYes.h:440-464 *)
  Definition allReduce (vs : list (list R)) : res (list (list R)) :=
    do w <- mpi_sum vs ;; Ok (map (fun _ => w) vs).
  (** allReduce of a number that takes [bytes] bytes: src/MpiYes.h:466-475. The result is written to an int, which has 4. *)
  Definition allReduce_number (bytes : nat) (vs : list R) : res (list R) :=
    guard (Nat.leb bytes 4) ;;
    do w <- mpi_sum (map (fun x => [x]) vs) ;; Ok (map (fun _ => nth 0 w c0) vs).
End Collective.
