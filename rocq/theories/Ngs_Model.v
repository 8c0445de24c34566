(** Model of the parts of src/Io/IoNgSerializer.h that store stacks and pairs of a number and an object. Files and names are
    those of Ng_Model.v. A stack is a list with its top first. *)
From Coq Require Import ZArith Ascii String.
From Verif Require Import Prelude Str_Model Text_Model Ng_Model.
Import List ListNotations.

Section Ngs.
  Variable F : Type.
  Context {T : Type}.

  (** The loop of the write of a stack: src/Io/IoNgSerializer.h:213-217. [wr f name t] is t.write(name, *this). *)
  Fixpoint pop_loop (wr : file F -> str -> T -> res (file F)) (f : file F) (name : str) (i : nat) (what : list T) : res (file F * list T) :=
    match what with
    | [] => Ok (f, [])
    | t :: r => do f <- wr f (subn name i) t ;; pop_loop wr f name (S i) r
    end.

  (** write of a stack: src/Io/IoNgSerializer.h:206-218, with overwriteNotSupported, 601-606. The result is the file and what is
      left of the stack. *)
  Definition write_stack (wr : file F -> str -> T -> res (file F)) (f : file F) (name : str) (what : list T) (m : wmode) : res (file F * list T) :=
    match m with
    | ALLOW_OVERWRITE => Throw
    | NO_OVERWRITE =>
      do f <- createGroup F f name ;;
      let f := fst (write_num F f (sub name "Size") (CI (Z.of_nat (List.length what))) NO_OVERWRITE) in
      pop_loop wr f name 0 what
    end.

  (** read of a stack: src/Io/IoNgSerializer.h:493-503. [rd f name t] is t.read(name, *this), and [dflt] a new t. *)
  Definition read_stack (dflt : T) (rd : file F -> str -> T -> res T) (f : file F) (name : str) (what : list T) : res (list T) :=
    do x <- read_int F f (sub name "Size") ;;
    let x := Z.to_nat x in
    forM x 0 (fun i what => do t <- rd f (subn name (x - i - 1)) dflt ;; Ok (t :: what)) what.

  (** write of a pair of a number and an object: src/Io/IoNgSerializer.h:195-202 *)
  Definition write_pairof (wr : file F -> str -> T -> res (file F)) (f : file F) (name2 : str) (a : Z) (b : T) (m : wmode) : res (file F) :=
    match m with
    | ALLOW_OVERWRITE => Throw
    | NO_OVERWRITE =>
      do f <- createGroup F f name2 ;;
      let f := fst (write_num F f (sub name2 "0") (CI a) NO_OVERWRITE) in
      wr f (sub name2 "1") b
    end.

  (** read of a pair of a number and an object: src/Io/IoNgSerializer.h:406-411 *)
  Definition read_pairof (rd : file F -> str -> T -> res T) (f : file F) (name : str) (what : Z * T) : res (Z * T) :=
    do a <- read_int F f (sub name "0") ;;
    do b <- rd f (sub name "1") (snd what) ;;
    Ok (a, b).
End Ngs.
