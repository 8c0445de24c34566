(** What it means that text written can be read back. *)
From Coq Require Import Ascii String.
From Verif Require Import Prelude Str_Model Text_Model.
Import List.

(** Space, tab, newline, vertical tab, form feed, carriage return. *)
Definition is_space (c : ascii) : Prop := In c (map ascii_of_nat [32; 9; 10; 11; 12; 13]).
Definition spaces (s : str) : Prop := Forall is_space s.

(** What follows a token: nothing, or white space. *)
Definition ends_token (rest : str) : Prop := rest = [] \/ exists c r, rest = c :: r /\ is_space c.

(** For every value of [dom]: the text of the value, after any white space and
    before any text that ends a token, is read back as the value; what remains
    is the following text, perhaps after some white space. *)
Definition reads_back {T} (dom : T -> Prop) (pr : T -> str) (rd : istream -> T -> res (T * istream)) : Prop :=
  forall x old ws rest, dom x -> spaces ws -> ends_token rest ->
  exists ws', spaces ws' /\ rd (mkis (ws ++ pr x ++ rest) false) old = Ok (x, mkis (ws' ++ rest) false).
