(** Model of stringToComplex, src/Complex.h:115-142, with the formatted input of a double and of a char from a
    std::stringstream. A double is an exact rational number: rounding and overflow are not modelled. *)
From Coq Require Import Ascii String QArith.
From Verif Require Import Prelude Str_Model Opspec_Model.
Import List.

(** std::isspace in the C locale *)
Definition isspace (c : ascii) : bool := let n := N_of_ascii c in ((9 <=? n) && (n <=? 13) || (n =? 32))%N.
Fixpoint skipws (s : str) : str := match s with c :: s' => if isspace c then skipws s' else s | [] => [] end.

(** The stream: the characters not yet read while it is good, [None] once it has failed or reached its end. *)
Definition stream := option str.

Fixpoint take_digits (s : str) : str * str :=
  match s with
  | c :: s' => if isdigit c then let '(d, r) := take_digits s' in (c :: d, r) else ([], s)
  | [] => ([], [])
  end.

(** An optional sign: true for minus. *)
Definition take_sign (s : str) : bool * str :=
  match s with
  | c :: s' => if Ascii.eqb c "-" then (true, s') else if Ascii.eqb c "+" then (false, s') else (false, s)
  | [] => (false, [])
  end.

Definition signed (neg : bool) (z : Z) : Z := if neg then (- z)%Z else z.

(** Text of a floating point number at the start of [s], as accumulated by std::num_get and converted by
    std::strtod: sign, digits, point, digits, e, sign, digits; a number without digits, or an e without digits
    after it, fails (None). The second result is what follows the accumulated text. *)
Definition get_double (s : str) : option Q * str :=
  let '(neg, s) := take_sign s in
  let '(a, s) := take_digits s in
  let '(b, s) := match s with c :: s' => if Ascii.eqb c "." then take_digits s' else ([], s) | [] => ([], []) end in
  match a ++ b with
  | [] => (None, s)
  | _ =>
    let m := signed neg (atoi_digits (a ++ b) 0) in
    let k := Z.of_nat (List.length b) in
    let mk e := Some (inject_Z m * Qpower (inject_Z 10) (e - k)) in
    match s with
    | c :: s' =>
      if Ascii.eqb c "e" || Ascii.eqb c "E" then
        let '(eneg, s') := take_sign s' in
        let '(d, s') := take_digits s' in
        match d with [] => (None, s') | _ => (mk (signed eneg (atoi_digits d 0)), s') end
      else (mk 0%Z, s)
    | [] => (mk 0%Z, [])
    end
  end.

(** operator>> into a double that holds [x]: on a stream that is not good, or has only white space left, [x] is
    kept; text that is not a number stores zero and makes the stream fail; a number that reaches the end of the
    text leaves the stream not good. *)
Definition in_double (st : stream) (x : Q) : Q * stream :=
  match st with
  | None => (x, None)
  | Some s =>
    match skipws s with
    | [] => (x, None)
    | s =>
      match get_double s with
      | (None, _) => (0, None)
      | (Some v, []) => (v, None)
      | (Some v, r) => (v, Some r)
      end
    end
  end.

(** operator>> into a char. *)
Definition in_char (st : stream) (x : ascii) : ascii * stream :=
  match st with
  | None => (x, None)
  | Some s => match skipws s with [] => (x, None) | c :: r => (c, Some r) end
  end.

(** str.find(c); npos + 1 is 0. *)
Definition find_chr (c : ascii) (s : str) : option nat := find_idx (Ascii.eqb c) s.
Definition after_chr (c : ascii) (s : str) : nat := match find_chr c s with Some i => i + 1 | None => 0 end.
Definition is_some {A} (o : option A) : bool := match o with Some _ => true | None => false end.
(** str.back(): undefined on an empty string *)
Definition str_back (s : str) : res ascii := match s with [] => UB | _ => vget s (List.length s - 1) end.

(** stringToComplex: src/Complex.h:115-142 *)
Definition stringToComplex (s : str) : res (Q * Q) :=
  let st := Some s in
  if is_some (find_chr "+" s) || is_some (find_chr "-" s) then
    let '(real, st) := in_double st 0 in
    let '(dummy, st) := in_char st (ascii_of_nat 0) in
    let '(imag, st) := in_double st 0 in
    do b <- str_back s ;;
    let imag := if negb (Ascii.eqb b "i") then 0 else imag in
    do c <- str_at s (after_chr "+" s) ;;
    let imag := if Ascii.eqb c "-" then Qopp imag else imag in
    Ok (real, imag)
  else if is_some (find_chr "i" s) then
    let '(imag, st) := in_double st 0 in
    do b <- str_back s ;;
    let imag := if negb (Ascii.eqb b "i") then 0 else imag in
    Ok (0, imag)
  else
    let '(real, st) := in_double st 0 in
    Ok (real, 0).
