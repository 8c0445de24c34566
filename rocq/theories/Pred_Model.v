(** Model of src/PredicateSimple.h, src/PredicateAnd.h and src/PredicateAwesome.h. *)
From Coq Require Import Ascii String.
From Verif Require Import Prelude Str_Model Ast_Model.
Import List.

(** ops_: src/PredicateSimple.cpp:4-12 *)
Definition pred_ops : list str := map lit ["=="; "!="; "<="; ">="; ">"; "<"; "%%"]%string.
(** operatorLength: src/PredicateSimple.h:104-112 *)
Definition operatorLength (op : str) : nat := if existsb (str_eqb op) pred_ops then List.length op else 0.

(** The loop of the constructor: src/PredicateSimple.h:35-52, for the [k] positions from [i] on *)
Fixpoint find_op (k i : nat) (pred : str) : res (option (nat * nat)) :=
  match k with
  | O => Ok None
  | S k =>
    do m2 <- substr pred i (Some 2) ;;
    if operatorLength m2 =? 2 then Ok (Some (i, 2)) else
    do m1 <- substr pred i (Some 1) ;;
    if operatorLength m1 =? 1 then Ok (Some (i, 1)) else
    find_op k (S i) pred
  end.
(** The constructor: src/PredicateSimple.h:23-61 *)
Definition pred_simple (pred : str) : res (str * str * str) :=
  let n := List.length pred in
  if n <? 3 then Throw else
  do f <- find_op (n - 1) 0 pred ;;
  match f with
  | None => Throw
  | Some (location, length) =>
    do lhs <- substr pred 0 (Some location) ;;
    do op <- substr pred location (Some length) ;;
    do rhs <- substr pred (location + length) (Some (n - location - length)) ;;
    if str_eqb lhs [] || str_eqb rhs [] then Throw else Ok (lhs, op, rhs)
  end.

(** PredicateAnd, the constructor: src/PredicateAnd.h:24-32. [fuel] is for [split]. *)
Definition pred_and (fuel : nat) (pred : str) : res (list (str * str * str)) :=
  do tokens <- str_split fuel [] pred (lit "&") ;;
  forL tokens (fun tok v => do p <- pred_simple tok ;; Ok (v ++ [p])) [].

(** PredicateAwesome, the constructor without a spec: src/PredicateAwesome.h:66-90, and with the default
    separators *)
Definition pred_awesome (fuel : nat) (pred : str) : res (list (list (str * str * str))) :=
  if str_eqb pred [] then Ok [] else
  do tokens <- str_split fuel [] pred (lit ",") ;;
  forL tokens (fun tok v =>
    match tok with
    | c :: _ => if Ascii.eqb c "@"%char then Throw else do p <- pred_and fuel tok ;; Ok (v ++ [p])
    | [] => do p <- pred_and fuel tok ;; Ok (v ++ [p])
    end) [].

(** replaceVariable: src/PredicateSimple.h:143-161; [fuel] bounds the passes of the while loop. *)
Fixpoint replaceVariable (fuel : nat) (hs name valString : str) : res str :=
  match fuel with
  | O => OutOfFuel
  | S fuel =>
    match str_find hs name 0 with
    | None => Ok hs
    | Some index =>
      do part1 <- (if index =? 0 then Ok [] else substr hs 0 (Some index)) ;;
      do part2 <- substr hs (index + List.length name) (Some (List.length hs - List.length name - index)) ;;
      replaceVariable fuel (part1 ++ valString ++ part2) name valString
    end
  end.

(** What is used of the type T of the values besides the arithmetic: comparisons, the conversion to
    SizeType, and ttos *)
Record cmps (V : Type) := mkcmps { c_eq : V -> V -> bool; c_lt : V -> V -> bool; c_le : V -> V -> bool; c_size : V -> res Z; c_ttos : V -> str }.
Arguments c_eq {V} c. Arguments c_lt {V} c. Arguments c_le {V} c. Arguments c_size {V} c. Arguments c_ttos {V} c.

Section Pred.
  Context {V : Type}.
  Variable A : arith V.
  Variable C : cmps V.

  (** replaceVariables: src/PredicateSimple.h:130-141 *)
  Definition replaceVariables (fuel : nat) (hs : str) (names : list str) (vals : list V) : res str :=
    guard (List.length names =? List.length vals) ;;
    forM (List.length names) 0 (fun i buffer =>
      do name <- vget names i ;; do val <- vget vals i ;; replaceVariable fuel buffer name (c_ttos C val)) hs.

  (** getValue: src/PredicateSimple.h:114-128, with the default separator *)
  Definition getValue (fuel : nat) (hs : str) (names : list str) (vals : list V) : res V :=
    do numericHs <- replaceVariables fuel hs names vals ;;
    do tokens <- str_split fuel [] numericHs (lit ":") ;;
    ast_eval (findNodeFromCode A) tokens.

  (** compareOnOp and divisibleBy: src/PredicateSimple.h:75-102 *)
  Definition compareOnOp (lv : V) (op : str) (rv : V) : res bool :=
    if str_eqb op (lit "==") then Ok (c_eq C lv rv)
    else if str_eqb op (lit "!=") then Ok (negb (c_eq C lv rv))
    else if str_eqb op (lit "<") then Ok (c_lt C lv rv)
    else if str_eqb op (lit ">") then Ok (c_lt C rv lv)
    else if str_eqb op (lit "<=") then Ok (c_le C lv rv)
    else if str_eqb op (lit ">=") then Ok (c_le C rv lv)
    else if str_eqb op (lit "%%") then
      do a <- c_size C lv ;; do b <- c_size C rv ;;
      guard (negb (b =? 0)%Z) ;; Ok (a mod b =? 0)%Z
    else Throw.

  (** isTrue: src/PredicateSimple.h:63-70 *)
  Definition simple_isTrue (fuel : nat) (p : str * str * str) (names : list str) (vals : list V) : res bool :=
    let '(lhs, op, rhs) := p in
    do lv <- getValue fuel lhs names vals ;;
    do rv <- getValue fuel rhs names vals ;;
    compareOnOp lv op rv.

  (** isTrue of PredicateAnd, for any number of names: src/PredicateAnd.h:34-79. The values are taken to
      have the same type. *)
  Fixpoint and_isTrue (fuel : nat) (ps : list (str * str * str)) (names : list str) (vals : list V) : res bool :=
    match ps with
    | [] => Ok true
    | p :: ps => do b <- simple_isTrue fuel p names vals ;; if b then and_isTrue fuel ps names vals else Ok false
    end.

  (** isTrue of PredicateAwesome: src/PredicateAwesome.h:92-136 *)
  Fixpoint or_isTrue (fuel : nat) (ps : list (list (str * str * str))) (names : list str) (vals : list V) : res bool :=
    match ps with
    | [] => Ok false
    | p :: ps => do b <- and_isTrue fuel p names vals ;; if b then Ok true else or_isTrue fuel ps names vals
    end.

  (** Making a predicate from its text and asking whether it is true *)
  Definition predicate (fuel : nat) (pred : str) (names : list str) (vals : list V) : res bool :=
    do ps <- pred_awesome fuel pred ;; or_isTrue fuel ps names vals.
End Pred.
