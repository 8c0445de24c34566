(** Layouts of matrices that are printed. *)
From Coq Require Import Ascii String.
From Verif Require Import Prelude Ring Str_Model.
Import List.

Definition endl : str := [ascii_of_nat 10].
(** The parts with the separator between them *)
Fixpoint join (sep : str) (l : list str) : str :=
  match l with [] => [] | [x] => x | x :: l => x ++ sep ++ join sep l end.
(** f 0, f 1, ... up to f (n-1), one after the other *)
Definition all (n : nat) (f : nat -> str) : str := List.concat (map f (seq 0 n)).
Definition row_of {T} (n : nat) (f : nat -> T) : list T := map f (seq 0 n).

(** What mathematica reads *)
Definition math_text (r c : nat) (show : nat -> nat -> str) : str :=
  lit "m:={" ++ join (lit "," ++ endl) (row_of r (fun i => lit "{" ++ join (lit ",") (row_of c (show i)) ++ lit "}")) ++ lit "}" ++ endl.
(** A text that has none of the characters of the layout *)
Definition plain (s : str) : Prop :=
  s <> [] /\ ~ In ","%char s /\ ~ In "{"%char s /\ ~ In "}"%char s /\ ~ In (ascii_of_nat 10) s.

(** Letters for numbers: nothing, a letter, or minus a letter *)
Inductive mark := Zero | Plus (k : nat) | Minus (k : nat).
Definition capital (k : nat) : str := [nth k (lit "ABCDEFGHIJKLMNOPQRSTUVWXYZ") " "%char].
Definition mark_text (m : mark) : str :=
  match m with Zero => lit " 0 " | Plus k => lit " " ++ capital k ++ lit " " | Minus k => lit "-" ++ capital k ++ lit " " end.
Definition letters_text (size : str) (r c : nat) (marks : nat -> nat -> mark) (values : list str) : str :=
  size ++ endl ++ all r (fun i => all c (fun j => mark_text (marks i j)) ++ endl) ++
  lit "---------------------------" ++ endl ++
  all (List.length values) (fun k => capital k ++ lit "=" ++ nth k values [] ++ lit " ") ++ endl.
(** The number that a mark stands for *)
Definition meaning {K : cring} (values : list K) (m : mark) (x : K) : Prop :=
  match m with
  | Zero => x = c0
  | Plus k => nth_error values k = Some x
  | Minus k => exists y, nth_error values k = Some y /\ x = copp y
  end.
