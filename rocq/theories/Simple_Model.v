(** Model of src/Io/IoSimple.h, on one process (rank 0). A file is its text. It is
    assumed that nobody else changes the file while it is open. *)
From Coq Require Import Ascii String.
From Verif Require Import Prelude Str_Model Text_Model.
Import List.
Local Open Scope Z_scope.

(** std::ifstream: the file, what is still to be read, eofbit and failbit. *)
Record fin := mkfin { f_file : str; f_buf : str; f_eof : bool; f_fail : bool }.
Definition f_good (f : fin) : bool := negb (f_eof f) && negb (f_fail f).

(** In(fn) for a file that can be opened: src/Io/IoSimple.h:257-265. close and open of the same file, which
    clears the flags: 318-319, 392-393 *)
Definition f_open (file : str) : fin := mkfin file file false false.
(** rewind: src/Io/IoSimple.h:430-435 *)
Definition rewind (f : fin) : fin := mkfin (f_file f) (f_file f) false false.

Definition is_nil {A} (l : list A) : bool := match l with [] => true | _ => false end.

(** fin_ >> temp, for a string. When the stream is not good, failbit is set and temp is kept. *)
Definition get_token (f : fin) (temp : str) : str * fin :=
  if f_good f then
    match skipws (f_buf f) with
    | [] => (temp, mkfin (f_file f) [] true true)
    | b => let '(w, b2) := span (fun c => negb (isspace c)) b in (w, mkfin (f_file f) b2 (is_nil b2) false)
    end
  else (temp, mkfin (f_file f) (f_buf f) (f_eof f) true).

(** fin_ >> x, for other types: [rd] is the operator of Text_Model, which has no eofbit. *)
Definition get_by {X} (rd : istream -> X -> res (X * istream)) (f : fin) (old : X) : res (X * fin) :=
  do (x, s) <- rd (mkis (f_buf f) (negb (f_good f))) old ;;
  Ok (x, mkfin (f_file f) (is_buf s) (f_eof f || is_nil (is_buf s)) (is_fail s)).

Definition LAST_INSTANCE : Z := -1.

Section Readline.
  Context {X : Type}.
  Variable rd : istream -> X -> X * istream.

  (** The loop of readline: src/Io/IoSimple.h:297-312 *)
  Fixpoint readline_loop (fuel : nat) (s : str) (level : Z) (f : fin) (temp : str) (x : X) (foundOnce : bool) (counter : Z)
      : res (fin * X * bool * bool * Z) :=
    match fuel with
    | O => OutOfFuel
    | S fuel =>
      if f_eof f then Ok (f, x, false, foundOnce, counter) else
      let '(temp, f) := get_token f temp in
      if f_eof f then Ok (f, x, false, foundOnce, counter) else
      if prefixb s temp then
        let '(x, _) := rd (mkis (skipn (List.length s) temp) false) x in
        if (0 <=? level) && (counter =? level) then Ok (f, x, true, true, counter)
        else readline_loop fuel s level f temp x true (counter + 1)
      else readline_loop fuel s level f temp x foundOnce counter
    end.
  Definition readline_once (f : fin) (x : X) (s : str) (level : Z) : res (X * Z * fin) :=
    if negb (f_good f) then Throw else
    do (f, x, found, foundOnce, counter) <- readline_loop (S (List.length (f_buf f))) s level f [] x false 0 ;;
    if negb foundOnce || (negb found && negb (level =? LAST_INSTANCE)) then Throw
    else Ok (x, counter, f).

  (** readline: src/Io/IoSimple.h:286-326. The call inside it has a level >= 0, because something was found. *)
  Definition readline (f : fin) (x : X) (s : str) (level : Z) : res (X * Z * fin) :=
    do (x, counter, f) <- readline_once f x s level ;;
    if level =? LAST_INSTANCE then
      do (x, _, f) <- readline_once (f_open (f_file f)) x s (counter - 1) ;;
      Ok (x, counter, f)
    else Ok (x, counter, f).
End Readline.

Definition NOTFOUND : str := lit "NOTFOUND".

(** The loop of advance: src/Io/IoSimple.h:375-388 *)
Fixpoint advance_loop (fuel : nat) (s : str) (level : Z) (f : fin) (temp tempSaved : str) (counter : Z)
    : res (fin * str * bool * Z) :=
  match fuel with
  | O => OutOfFuel
  | S fuel =>
    if f_eof f then Ok (f, tempSaved, false, counter) else
    let '(temp, f) := get_token f temp in
    if f_eof f || negb (f_good f) then Ok (f, tempSaved, false, counter) else
    if prefixb s temp then
      if (0 <=? level) && (counter =? level) then Ok (f, temp, true, counter)
      else advance_loop fuel s level f temp temp (counter + 1)
    else advance_loop fuel s level f temp tempSaved counter
  end.

(** advance: src/Io/IoSimple.h:365-411. [advance_pos] is the call inside it, at a level >= 0. *)
Definition advance_pos (f : fin) (s : str) (level : Z) : res (str * Z * fin) :=
  do (f, tempSaved, found, counter) <- advance_loop (S (List.length (f_buf f))) s level f NOTFOUND NOTFOUND 0 ;;
  if negb found && str_eqb tempSaved NOTFOUND then Throw else Ok (tempSaved, counter, f).
Definition advance (f : fin) (s : str) (level : Z) : res (str * Z * fin) :=
  do (f, tempSaved, found, counter) <- advance_loop (S (List.length (f_buf f))) s level f NOTFOUND NOTFOUND 0 ;;
  if (level =? LAST_INSTANCE) && negb (str_eqb tempSaved NOTFOUND) then
    let f := f_open (f_file f) in
    if 1 <? counter then
      do (_, _, f) <- advance_pos f s (counter - 2) ;; Ok (tempSaved, counter, f)
    else Ok (tempSaved, counter, f)
  else if negb found && str_eqb tempSaved NOTFOUND then Throw
  else Ok (tempSaved, counter, f).

(** count: src/Io/IoSimple.h:413-428. [n] is how many of the 1000 rounds are left. *)
Fixpoint count_loop (n : nat) (s : str) (f : fin) (i : Z) : res (Z * fin) :=
  match n with
  | O => Throw
  | S n =>
    match advance f s 0 with
    | Ok (_, _, f') => count_loop n s f' (i + 1)
    | Throw => Ok (i, rewind f)
    | UB => UB
    | OutOfFuel => OutOfFuel
    end
  end.
Definition count (f : fin) (s : str) : res (Z * fin) := count_loop 1000 s f 0.

Section Read.
  Context {T : Type}.
  Variable dflt : T.
  Variable junk : T.     (* the variable tmp before it is read *)
  Variable rd : istream -> T -> res (T * istream).

  (** read of a vector: src/Io/IoSimple.h:328-345. xsize has no value before; resize to a negative size throws. *)
  Definition read_vector (xjunk : Z) (f : fin) (x : list T) (s : str) (level : Z) : res (list T * (str * Z) * fin) :=
    do (tempSaved, counter, f) <- advance f s level ;;
    do (xsize, f) <- get_by (lift_rd rd_int) f xjunk ;;
    if xsize =? 0 then Ok (x, (tempSaved, counter), f) else
    if xsize <? 0 then Throw else
    do (x, f) <- forM (Z.to_nat xsize) 0
      (fun i '(x, f) => do (tmp, f) <- get_by rd f junk ;; do x <- vset x i tmp ;; Ok (x, f)) (vresize x (Z.to_nat xsize) dflt, f) ;;
    Ok (x, (tempSaved, counter), f).
End Read.

(** read of a matrix or of a stack: src/Io/IoSimple.h:347-363 *)
Definition read_by {X} (rd : istream -> X -> res (X * istream)) (f : fin) (x : X) (s : str) (level : Z) : res (X * fin) :=
  do (_, _, f) <- advance f s level ;;
  get_by rd f x.

(** Out::write: src/Io/IoSimple.h:202-216; [x] is what operator<< writes. *)
Definition write_scalar (out : str) (x label : str) : str := out ++ label ++ lit "=" ++ x ++ nl.
Definition write_other (out : str) (x label : str) : str := out ++ label ++ nl ++ x ++ nl.
