(** What progress lines and memory entries should be, without the model's
    helpers. *)
From Coq Require Import Ascii String QArith.
From Verif Require Import Prelude.
Import List.
Local Open Scope nat_scope.

Definition text (s : string) : list ascii := list_ascii_of_string s.
Definition newline : ascii := ascii_of_nat 10.
Definition tab : ascii := ascii_of_nat 9.

(** The line "who [time]: message". *)
Definition progress_line (who time message : list ascii) : list ascii :=
  who ++ text " [" ++ time ++ text "]: " ++ message ++ [newline].

(** [s] is [pre], then [p], then [post], and [p] does not occur earlier. *)
Definition first_occurrence (p s pre post : list ascii) : Prop :=
  s = pre ++ p ++ post /\
  (forall pre' post', s = pre' ++ p ++ post' -> List.length pre <= List.length pre').

(** [l] is the rest of the line at the start of [s]. *)
Definition line_start (s l : list ascii) : Prop :=
  ~ In newline l /\ (s = l \/ exists post, s = l ++ newline :: post).

Definition is_blank (c : ascii) : Prop := c = " "%char \/ c = tab.

(** [e] is [l] without the blanks it starts with. *)
Definition without_leading_blanks (l e : list ascii) : Prop :=
  exists b, l = b ++ e /\ Forall is_blank b /\ (forall c e', e = c :: e' -> ~ is_blank c).

(** A time of [sec] seconds and [usec] microseconds, in microseconds. *)
Definition microseconds (sec usec : Z) : Z := (1000000 * sec + usec)%Z.

(** The lines of a text, that is its parts between newlines. *)
Fixpoint text_lines (s : list ascii) : list (list ascii) :=
  match s with
  | [] => [[]]
  | c :: s' =>
    if Ascii.eqb c newline then [] :: text_lines s'
    else match text_lines s' with
         | [] => [[c]]
         | l :: ls => (c :: l) :: ls
         end
  end.
