(** Vectors, matrices and complex numbers as text. *)
From Coq Require Import Ascii String.
From Verif Require Import Prelude Str_Model.
Import List.

(** White space: tab, line feed, vertical tab, form feed, carriage return, space *)
Definition blank (c : ascii) : Prop := In (nat_of_ascii c) [9; 10; 11; 12; 13; 32].
(** The text without its white space *)
Inductive unspaced : str -> str -> Prop :=
| us_nil : unspaced [] []
| us_blank c s t : blank c -> unspaced s t -> unspaced (c :: s) t
| us_char c s t : ~ blank c -> unspaced s t -> unspaced (c :: s) (c :: t).

(** a,b,c *)
Fixpoint commas (l : list str) : str :=
  match l with
  | [] => []
  | [x] => x
  | x :: l => x ++ ","%char :: commas l
  end.
Definition bracketed (s : str) : str := "["%char :: s ++ ["]"%char].
(** [a,b,c] and [[a,b],[c,d]] *)
Definition row_text (l : list str) : str := bracketed (commas l).
Definition matrix_text (m : list (list str)) : str := bracketed (commas (map row_text m)).

(** What may stand between the commas *)
Definition element (x : str) : Prop := x <> [] /\ forall c, In c x -> ~ blank c /\ c <> ","%char /\ c <> "["%char /\ c <> "]"%char.
Definition row (l : list str) : Prop := l <> [] /\ Forall element l.

(** The value is the text of a vector with elements [l]. Text after the closing bracket is ignored. *)
Definition vector_value (value : str) (l : list str) : Prop :=
  row l /\ exists rest, unspaced value (row_text l ++ rest).
(** The value is the text of a matrix. *)
Definition matrix_value (value : str) (m : list (list str)) : Prop :=
  Forall row m /\ exists rest, unspaced value (matrix_text m ++ rest).

(** An element that is not a function of Ainur: it does not start with a parenthesis *)
Definition no_call (x : str) : Prop := forall c s, x = c :: s -> c <> "("%char.
(** [x, ...] and [x, ...xN] *)
Definition ellipsis : str := lit "...".
Definition with_count (n : str) : str := lit "...x" ++ n.
Definition listed (l : list str) : Prop := forall x y, l = [x; y] -> y <> ellipsis /\ forall n, n <> [] -> y <> with_count n.
