(** Model of reading a whole Ainur input: src/Ainur/AinurLexical.h, src/Ainur/AinurSpirit1.cpp and
    src/Ainur/AinurSpirit.h. The boost::spirit parser is written out by hand, rule by rule; a rule without a skipper
    skips before it starts and not inside (an implicit lexeme). *)
From Coq Require Import Ascii String.
From Verif Require Import Prelude Str_Model Text_Model Ainur_Model.
Import List.

(** isWhitespace, isEOL, isEmptyChar: src/Ainur/AinurLexical.h:27-30, 50-52 *)
Definition isWhitespace (c : ascii) : bool := Ascii.eqb c " " || Nat.eqb (nat_of_ascii c) 9.
Definition isEOL (c : ascii) : bool := Nat.eqb (nat_of_ascii c) 10 || Nat.eqb (nat_of_ascii c) 13.
Definition isEmptyChar (c : ascii) : bool := isWhitespace c || isEOL c.
(** allowedChar: src/Ainur/AinurLexical.h:43-48 *)
Definition allowedChar (c : ascii) : bool :=
  if isWhitespace c || isEOL c then true
  else if Nat.ltb (nat_of_ascii c) 33 || Nat.ltb 126 (nat_of_ascii c) || Nat.eqb (nat_of_ascii c) 96 then false else true.
(** The constructor of AinurLexical throws if it meets a char that is not allowed: src/Ainur/AinurLexical.h:16-25 *)
Definition lexical (s : str) : bool := forallb allowedChar s.
(** allEmpty: src/Ainur/AinurSpirit.h:86-95 *)
Definition allEmpty (s : str) : bool := forallb isEmptyChar s.

(** The longest run of characters that satisfy p, and what follows *)
Fixpoint span (p : ascii -> bool) (s : str) : str * str :=
  match s with
  | [] => ([], [])
  | c :: r => if p c then let '(a, b) := span p r in (c :: a, b) else ([], s)
  end.

(** *(qi::char_ - qi::eol) >> qi::eol: what follows, or failure if there is no end of line *)
Fixpoint to_eol (s : str) : option str :=
  match s with
  | [] => None
  | c :: r =>
    if Nat.eqb (nat_of_ascii c) 13 then
      Some (match r with d :: r' => if Nat.eqb (nat_of_ascii d) 10 then r' else r | [] => r end)
    else if Nat.eqb (nat_of_ascii c) 10 then Some r
    else to_eol r
  end.
(** AINUR_COMMENTS, once: src/Ainur/AinurSpirit1.cpp:49-50 *)
Definition skip1 (s : str) : option str :=
  match s with
  | [] => None
  | c :: r => if Ascii.eqb c "#" then to_eol r else if isspace c then Some r else None
  end.
(** The skipper: as often as possible; [fuel] bounds how often, and the length of the text is enough *)
Fixpoint skip_loop (fuel : nat) (s : str) : str :=
  match fuel with
  | 0 => s
  | S fuel => match skip1 s with None => s | Some r => skip_loop fuel r end
  end.
Definition skip_over (s : str) : str := skip_loop (List.length s) s.

(** aToZ: src/Ainur/AinurSpirit1.cpp:70 *)
Definition aToZ (c : ascii) : bool :=
  let n := nat_of_ascii c in (Nat.leb 97 n && Nat.leb n 122) || (Nat.leb 65 n && Nat.leb n 90).
Definition zeroToNine (c : ascii) : bool := let n := nat_of_ascii c in Nat.leb 48 n && Nat.leb n 57.
(** typeQualifier: src/Ainur/AinurSpirit1.cpp:73 *)
Definition p_type (s : str) : option (str * str) :=
  match span (fun c => aToZ c || Ascii.eqb c "." || Ascii.eqb c "!") (skip_over s) with
  | ([], _) => None
  | (t, r) => Some (t, r)
  end.
(** keywords: src/Ainur/AinurSpirit1.cpp:74 *)
Definition p_key (s : str) : option (str * str) :=
  let '(u, s) := span (fun c => Ascii.eqb c "_") (skip_over s) in
  let '(l, s) := span aToZ s in
  match l with
  | [] => None
  | _ :: _ =>
    let '(r, s) := span (fun c => aToZ c || zeroToNine c || Ascii.eqb c ":" || Ascii.eqb c "_") s in
    Some (u ++ l ++ r, s)
  end.
(** A literal character *)
Definition p_char (c : ascii) (s : str) : option str :=
  match skip_over s with
  | x :: r => if Ascii.eqb x c then Some r else None
  | [] => None
  end.
(** value: src/Ainur/AinurSpirit1.cpp:69 *)
Definition p_value (s : str) : option (str * str) :=
  match span (fun c => negb (Ascii.eqb c ";")) (skip_over s) with
  | ([], _) => None
  | (t, r) => Some (t, r)
  end.

(** What a statement asks for: src/Ainur/AinurSpirit1.cpp:13-38; assign, declare with two arguments and with three *)
Inductive stmt := S1 (k v : str) | S2 (t k : str) | S3 (t k v : str).
(** statement1, statement2, statement3: src/Ainur/AinurSpirit1.cpp:75-77 *)
Definition p_eq_value (s : str) : option (str * str) :=
  match p_char "=" s with None => None | Some s => p_value s end.
Definition p_statement1 (s : str) : option (stmt * str) :=
  match p_key s with
  | None => None
  | Some (k, s) => match p_eq_value s with None => None | Some (v, s) => Some (S1 k v, s) end
  end.
Definition p_statement2 (s : str) : option (stmt * str) :=
  match p_type s with
  | None => None
  | Some (t, s) => match p_key s with None => None | Some (k, s) => Some (S2 t k, s) end
  end.
Definition p_statement3 (s : str) : option (stmt * str) :=
  match p_type s with
  | None => None
  | Some (t, s) =>
    match p_key s with
    | None => None
    | Some (k, s) => match p_eq_value s with None => None | Some (v, s) => Some (S3 t k v, s) end
    end
  end.
(** statement: src/Ainur/AinurSpirit1.cpp:82 *)
Definition p_statement (s : str) : option (stmt * str) :=
  match p_statement3 s with
  | Some x => Some x
  | None => match p_statement2 s with Some x => Some x | None => p_statement1 s end
  end.
(** statement % ";": src/Ainur/AinurSpirit1.cpp:86. If after a semicolon there is no statement, the semicolon is not
    consumed. [fuel] bounds the number of statements; the length of the text is enough. *)
Fixpoint p_more_statements (fuel : nat) (s : str) : list stmt * str :=
  match fuel with
  | 0 => ([], s)
  | S fuel =>
    match p_char ";" s with
    | None => ([], s)
    | Some r =>
      match p_statement r with
      | None => ([], s)
      | Some (x, r) => let '(l, r) := p_more_statements fuel r in (x :: l, r)
      end
    end
  end.
(** phrase_parse: the statements, and where [first] is afterwards; if nothing matches, it is not moved, otherwise the
    skipper is called once more at the end *)
Definition phrase_parse (s : str) : list stmt * str :=
  match p_statement s with
  | None => ([], s)
  | Some (x, r) => let '(l, r) := p_more_statements (List.length r) r in (x :: l, skip_over r)
  end.

(** What is left after the statements: src/Ainur/AinurSpirit1.cpp:88-98. Moving behind the end of the text is
    undefined; computing first + 1 at the end is not counted as such. *)
Definition check_rest (first : str) : res unit :=
  match first with
  | [] => UB
  | _ :: first =>
    if allEmpty first then Ok tt
    else
      let first := skip_over first in
      if negb (Nat.eqb (List.length first) 1) && negb (allEmpty first) then Throw else Ok tt
  end.

(** Action::operator() and Action3::operator(): src/Ainur/AinurSpirit1.cpp:13-38. They are called during the parsing,
    on which they have no influence, and before what is left is looked at. *)
Definition act (st : astate) (x : stmt) : res astate :=
  match x with
  | S1 k v => as_assign st k v
  | S2 t k => as_declare0 st t k
  | S3 t k v => as_declare st t k v
  end.

(** The constructor of Ainur: src/Ainur/AinurSpirit1.cpp:40-102; [load] as in Ainur_Model.v *)
Definition ainur_new (load : str -> bool) (s : str) : res astate :=
  if lexical s then
    let '(l, first) := phrase_parse s in
    do st <- forL l (fun x st => act st x) as_new ;;
    do _ <- check_rest first ;;
    initMacros load st
  else Throw.
