(** Model of the std::string operations used by the library, of
    src/PsimagLite.cpp and of src/Options.h.
    A String is a list of characters ([ascii] = 8-bit char); [String::npos] is
    [None]. *)
From Coq Require Import Ascii String.
From Verif Require Import Prelude.
Import List.

Notation str := (list ascii).

(** A C++ string literal. *)
Definition lit (s : string) : str := list_ascii_of_string s.

Definition mem_chr (c : ascii) (d : str) : bool := existsb (Ascii.eqb c) d.

Fixpoint str_eqb (a b : str) : bool :=
  match a, b with
  | [], [] => true
  | x :: a', y :: b' => Ascii.eqb x y && str_eqb a' b'
  | _, _ => false
  end.

(** Index of the first element that satisfies [f]. *)
Fixpoint find_idx {A} (f : A -> bool) (l : list A) : option nat :=
  match l with
  | [] => None
  | x :: l' => if f x then Some 0 else option_map S (find_idx f l')
  end.

(** std::string::find_first_of / find_first_not_of (pos may be npos). *)
Definition find_first_of (s d : str) (pos : option nat) : option nat :=
  match pos with
  | None => None
  | Some p => option_map (Nat.add p) (find_idx (fun c => mem_chr c d) (skipn p s))
  end.
Definition find_first_not_of (s d : str) (pos : option nat) : option nat :=
  match pos with
  | None => None
  | Some p => option_map (Nat.add p) (find_idx (fun c => negb (mem_chr c d)) (skipn p s))
  end.

(** std::string::substr(pos, count); [count = None] stands for a count that is
    at least the length of the string (npos, or npos - pos). *)
Definition substr (s : str) (pos : nat) (count : option nat) : res str :=
  if length s <? pos then Throw
  else Ok (match count with
           | None => skipn pos s
           | Some c => firstn c (skipn pos s)
           end).

Fixpoint prefixb (p s : str) : bool :=
  match p, s with
  | [], _ => true
  | _ :: _, [] => false
  | x :: p', y :: s' => Ascii.eqb x y && prefixb p' s'
  end.

Fixpoint find_sub (p s : str) : option nat :=
  if prefixb p s then Some 0
  else match s with
       | [] => None
       | _ :: s' => option_map S (find_sub p s')
       end.

(** std::string::find(p, start). *)
Definition str_find (s p : str) (start : nat) : option nat :=
  if length s <? start then None
  else option_map (Nat.add start) (find_sub p (skipn start s)).

(** std::string::replace(pos, len, to). *)
Definition str_replace (s : str) (pos len : nat) (to : str) : res str :=
  if length s <? pos then Throw
  else Ok (firstn pos s ++ to ++ skipn (pos + len) s).

(** ---------- src/PsimagLite.cpp ---------- *)

(** src/PsimagLite.cpp:48-55: the while loop of [split]. *)
Fixpoint split_loop (fuel : nat) (tokens : list str) (s d : str)
    (lastPos pos : option nat) : res (list str) :=
  match fuel with
  | 0 => OutOfFuel
  | S fuel' =>
    match pos, lastPos with
    | None, None => Ok tokens
    | _, None => Throw (* substr(npos, ...) *)
    | _, Some l =>
      do t <- substr s l (match pos with Some p => Some (p - l) | None => None end) ;;
      let tokens := tokens ++ [t] in
      let lastPos := find_first_not_of s d pos in
      let pos := find_first_of s d lastPos in
      split_loop fuel' tokens s d lastPos pos
    end
  end.

(** src/PsimagLite.cpp:41-56 [split]; [fuel] bounds the number of iterations. *)
Definition str_split (fuel : nat) (tokens : list str) (s d : str) : res (list str) :=
  let lastPos := find_first_not_of s d (Some 0) in
  let pos := find_first_of s d lastPos in
  split_loop fuel tokens s d lastPos pos.

(** src/PsimagLite.cpp:126-130: the while loop of [replaceAll]. *)
Fixpoint replaceAll_loop (fuel : nat) (s from to : str) (start_pos : nat) : res str :=
  match fuel with
  | 0 => OutOfFuel
  | S fuel' =>
    match str_find s from start_pos with
    | None => Ok s
    | Some start_pos =>
      do s <- str_replace s start_pos (length from) to ;;
      replaceAll_loop fuel' s from to (start_pos + length to)
    end
  end.

(** src/PsimagLite.cpp:119-131 [replaceAll]. *)
Definition replaceAll (fuel : nat) (s from to : str) : res str :=
  match from with
  | [] => Ok s
  | _ :: _ => replaceAll_loop fuel s from to 0
  end.

(** src/PsimagLite.cpp:5-12 [integerDivision]; division by zero is undefined. *)
Definition integerDivision (a b : N) : res N :=
  if (b =? 0)%N then UB
  else if negb (a mod b =? 0)%N then Throw
  else Ok (a / b)%N.

(** src/PsimagLite.cpp:30-39 [log2Integer]. *)
Fixpoint log2Integer_loop (fuel : nat) (x count : N) : res N :=
  match fuel with
  | 0 => OutOfFuel
  | S fuel' => if (0 <? x)%N then log2Integer_loop fuel' (N.shiftr x 1) (count + 1) else Ok count
  end.
Definition log2Integer (fuel : nat) (x : N) : res N := log2Integer_loop fuel x 0.

(** isdigit(3) in the C locale. *)
Definition isdigit (c : ascii) : bool :=
  (48 <=? N_of_ascii c)%N && (N_of_ascii c <=? 57)%N.

(** src/PsimagLite.cpp:80-90 [isAnInteger]. *)
Fixpoint isAnInteger_loop (s : str) : bool :=
  match s with
  | [] => true
  | c :: s' => if isdigit c then isAnInteger_loop s' else false
  end.
Definition isAnInteger (s : str) : bool := isAnInteger_loop s && (0 <? length s).

(** src/PsimagLite.cpp:92-108 [isAfloat]. *)
Fixpoint isAfloat_loop (s : str) (hasDigit : bool) : bool :=
  match s with
  | [] => hasDigit
  | c :: s' =>
    if isdigit c then isAfloat_loop s' true
    else if (Ascii.eqb c "-" || Ascii.eqb c "+" || Ascii.eqb c "e" || Ascii.eqb c "E" || Ascii.eqb c ".")%char
    then isAfloat_loop s' hasDigit
    else false
  end.
Definition isAfloat (s : str) : bool := isAfloat_loop s false.

(** std::atoi without the leading-white-space rule (no white space gets
    through the check of [atoi]); overflow is not modelled. *)
Fixpoint atoi_digits (s : str) (acc : Z) : Z :=
  match s with
  | [] => acc
  | c :: s' => if isdigit c then atoi_digits s' (10 * acc + (Z.of_N (N_of_ascii c) - 48))%Z else acc
  end.
Definition std_atoi (s : str) : Z :=
  match s with
  | c :: s' =>
    if Ascii.eqb c "-" then (- atoi_digits s' 0)%Z
    else if Ascii.eqb c "+" then atoi_digits s' 0
    else atoi_digits s 0
  | [] => 0%Z
  end.

(** src/PsimagLite.cpp:66-78 [atoi]. *)
Fixpoint atoi_check (s : str) : bool :=
  match s with
  | [] => true
  | c :: s' => if isdigit c then atoi_check s'
               else if (Ascii.eqb c "-" || Ascii.eqb c "+")%char then atoi_check s'
               else false
  end.
Definition atoi (s : str) : res Z :=
  if atoi_check s then Ok (std_atoi s) else Throw.

(** src/PsimagLite.cpp:58-64 [basename]: the part after the last separator
    ([MatchPathSeparator], src/PsimagLite.h, is '/' on POSIX). The reverse
    search is written as a forward recursion that remembers the part after the
    last separator seen. *)
Fixpoint basename_loop (s acc : str) : str :=
  match s with
  | [] => acc
  | c :: s' => if Ascii.eqb c "/" then acc else basename_loop s' (c :: acc)
  end.
Definition basename (path : str) : str := basename_loop (rev path) [].

(** ---------- src/Options.h ---------- *)

(** src/Options.h:102-104. *)
Inductive opt_mode := DISABLED | PERMISSIVE | STRICT.

(** src/Options.h:117-131: the checking loop; the warning of the permissive mode
    goes to stderr and is not modelled. *)
Fixpoint options_check (registered : list str) (mode : opt_mode) (l : list str) : res unit :=
  match l with
  | [] => Ok tt
  | o :: l' =>
    if existsb (str_eqb o) registered then options_check registered mode l'
    else match mode with
         | STRICT => Throw
         | _ => options_check registered mode l'
         end
  end.

(** src/Options.h:112-132 [Writeable::set] and 144-147, the constructor of
    [Readable]: the result is [optsThatAreSet_]. *)
Definition options_set (fuel : nat) (registered : list str) (mode : opt_mode) (opts : str) : res (list str) :=
  match mode with
  | DISABLED => Ok []
  | _ =>
    do l <- str_split fuel [] opts (lit ",") ;;
    do _ <- options_check registered mode l ;;
    Ok l
  end.

(** src/Options.h:149-156 [isSet]. *)
Definition isSet (optsThatAreSet : list str) (o : str) : bool :=
  existsb (str_eqb o) optsThatAreSet.
