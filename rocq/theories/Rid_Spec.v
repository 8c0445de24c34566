(** Run identifiers: a number and two digits that say how many binary digits of it are one. *)
From Coq Require Import Ascii String.
From Verif Require Import Prelude Str_Model Str_Spec BitManip_Spec.
Import List.

Definition numeral (s : str) : Prop := s <> [] /\ forall c, In c s -> is_digit c.
(** [id] is the number [y], written in decimal, followed by two decimal digits that give the number of ones of [y]. *)
Definition run_id (id : str) (y : N) : Prop :=
  exists n a b, id = n ++ [a; b] /\ numeral n /\ is_digit a /\ is_digit b /\ dec_val n = Z.of_N y /\
    Z.of_N (ones y) = (10 * digit_val a + digit_val b)%Z.
