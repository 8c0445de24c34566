(** What an Ainur input looks like. *)
From Coq Require Import Ascii String.
From Verif Require Import Prelude Str_Model Ainur_Spec.
Import List.

Definition blank (c : ascii) : Prop := In c [" "%char; ascii_of_nat 9; ascii_of_nat 10; ascii_of_nat 13].
Definition line_end (c : ascii) : Prop := c = ascii_of_nat 10 \/ c = ascii_of_nat 13.
(** Characters an input may have *)
Definition legal_char (c : ascii) : Prop := blank c \/ (33 <= nat_of_ascii c <= 126 /\ c <> "`"%char).

(** Blanks and comments; a comment ends with its line. *)
Inductive skipped : str -> Prop :=
| sk_nil : skipped []
| sk_blank c w : blank c -> skipped w -> skipped (c :: w)
| sk_comment t c w : (forall x, In x t -> ~ line_end x) -> line_end c -> skipped w -> skipped ("#"%char :: t ++ c :: w).

Definition letter (c : ascii) : Prop :=
  In c (list_ascii_of_string "abcdefghijklmnopqrstuvwxyzABCDEFGHIJKLMNOPQRSTUVWXYZ").
Definition digit (c : ascii) : Prop := In c (list_ascii_of_string "0123456789").
(** A type, as in vector.real or integer! *)
Definition type_ok (t : str) : Prop := t <> [] /\ forall c, In c t -> letter c \/ c = "."%char \/ c = "!"%char.
(** A name: underscores, a letter, and then letters, digits, colons and underscores *)
Definition key_char (c : ascii) : Prop := letter c \/ digit c \/ c = ":"%char \/ c = "_"%char.
Definition key_ok (k : str) : Prop :=
  exists u c r, k = u ++ c :: r /\ (forall x, In x u -> x = "_"%char) /\ letter c /\ forall x, In x r -> key_char x.
(** A value goes up to the next semicolon, and does not start with a blank or a comment. *)
Definition value_ok (v : str) : Prop := ~ In ";"%char v /\ exists c r, v = c :: r /\ ~ blank c /\ c <> "#"%char.
(** A name that starts with letters, underscores and a letter, as in max_steps *)
Definition snake (k : str) : Prop :=
  exists l u c r, k = l ++ u ++ c :: r /\ l <> [] /\ (forall x, In x l -> letter x) /\
    u <> [] /\ (forall x, In x u -> x = "_"%char) /\ letter c.

(** The text of one statement, up to and with its semicolon. *)
Inductive statement : event -> str -> Prop :=
| st_declare t k w : type_ok t -> key_ok k -> w <> [] -> skipped w -> forall w', skipped w' ->
    statement (EDeclare t k None) (t ++ w ++ k ++ w' ++ [";"%char])
| st_define t k v w : type_ok t -> key_ok k -> value_ok v -> w <> [] -> skipped w ->
    forall w' w'', skipped w' -> skipped w'' ->
    statement (EDeclare t k (Some v)) (t ++ w ++ k ++ w' ++ "="%char :: w'' ++ v ++ [";"%char])
| st_assign k v : key_ok k -> ~ snake k -> value_ok v -> forall w' w'', skipped w' -> skipped w'' ->
    statement (EAssign k v) (k ++ w' ++ "="%char :: w'' ++ v ++ [";"%char]).

(** Statements, with blanks and comments before each of them *)
Inductive statements : history -> str -> Prop :=
| sts_nil : statements [] []
| sts_cons w e s h t : skipped w -> statement e s -> statements h t -> statements (e :: h) (w ++ s ++ t).
