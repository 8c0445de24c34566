(** Tables in a text: words end with a blank and rows with a newline. *)
From Coq Require Import Ascii.
From Verif Require Import Prelude Str_Model.
Import List.

(** The rows of a text, when the last row began with [row] and its last word with [w] *)
Fixpoint rows_from (w : str) (row : list str) (s : str) : list (list str) :=
  match s with
  | [] => []
  | c :: s =>
    if Ascii.eqb c " " then rows_from [] (row ++ [w]) s
    else if Ascii.eqb c (ascii_of_nat 10) then row :: rows_from [] [] s
    else rows_from (w ++ [c]) row s
  end.
Definition rows (s : str) : list (list str) := rows_from [] [] s.

(** A word: no blank and no newline *)
Definition word (s : str) : Prop := ~ In " "%char s /\ ~ In (ascii_of_nat 10) s.

(** All orbitals of all sites in order, site by site *)
Definition places (L : nat) (orb : nat -> nat) : list (nat * nat) := flat_map (fun i => map (fun d => (i, d)) (seq 0 (orb i))) (seq 0 L).
