(** Decimal numbers. *)
From Coq Require Import Ascii String QArith.
From Verif Require Import Prelude Str_Model Str_Spec Opspec_Spec.
Import List.

(** An exponent: nothing, or e or E, an optional sign and digits. *)
Inductive exp_text : str -> Z -> Prop :=
| et_none : exp_text [] 0
| et_plain c d : In c (lit "eE") -> digits d -> exp_text (c :: d) (dec_val d)
| et_plus c d : In c (lit "eE") -> digits d -> exp_text (c :: "+"%char :: d) (dec_val d)
| et_minus c d : In c (lit "eE") -> digits d -> exp_text (c :: "-"%char :: d) (- dec_val d).

(** An unsigned number: digits, maybe a point and more digits, maybe an exponent. *)
Inductive num_text : str -> Q -> Prop :=
| nt_int a x e : digits a -> exp_text x e -> num_text (a ++ x) (inject_Z (dec_val a) * Qpower (inject_Z 10) e)
| nt_frac a b x e : digits a -> (forall c, In c b -> is_digit c) -> exp_text x e ->
    num_text (a ++ "."%char :: b ++ x) ((inject_Z (dec_val a) + inject_Z (dec_val b) / inject_Z (10 ^ Z.of_nat (List.length b))) * Qpower (inject_Z 10) e).
