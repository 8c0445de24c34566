(** Expressions as trees of tokens. *)
From Coq Require Import Ascii String.
From Verif Require Import Prelude Str_Model Str_Spec Ast_Model.
Import List.

Inductive tree := T (label : str) (children : list tree).
Definition label (t : tree) : str := match t with T l _ => l end.
Definition children (t : tree) : list tree := match t with T _ c => c end.
(** Number of tokens, and how deep the tree is *)
Fixpoint tsize (t : tree) : nat := match t with T _ c => S (list_sum (map tsize c)) end.
Fixpoint theight (t : tree) : nat := match t with T _ c => S (list_max (map theight c)) end.

(** Level order: the labels of the roots, then those of their children, and so on, [h] levels deep. *)
Fixpoint levels (h : nat) (f : list tree) : list str :=
  match h with
  | O => []
  | S h => map label f ++ levels h (flat_map children f)
  end.
Definition level_order (t : tree) : list str := levels (theight t) [t].

(** [denotes sem t v]: the value of the tree is [v], when [sem l vs v] says that the token [l] applied to
    the values [vs] gives [v]. *)
Inductive denotes {V} (sem : str -> list V -> V -> Prop) : tree -> V -> Prop :=
| denotes_T l c vs v : denotes_all sem c vs -> sem l vs v -> denotes sem (T l c) v
with denotes_all {V} (sem : str -> list V -> V -> Prop) : list tree -> list V -> Prop :=
| denotes_nil : denotes_all sem [] []
| denotes_cons t c v vs : denotes sem t v -> denotes_all sem c vs -> denotes_all sem (t :: c) (v :: vs).
Scheme denotes_ind2 := Induction for denotes Sort Prop
with denotes_all_ind2 := Induction for denotes_all Sort Prop.

(** Texts of real numbers: digits, at least one, and the characters . + - e E *)
Definition real_text (s : str) : Prop :=
  (forall c, In c s -> is_digit c \/ In c (lit "-+eE.")) /\ (exists c, In c s /\ is_digit c).

(** What the tokens of arithmetic mean. The arithmetic is given by its operations; [value] is the value of
    the text of a number. *)
Inductive meaning {V} (A : arith V) (value : str -> V) : str -> list V -> V -> Prop :=
| m_plus x y : meaning A value (lit "+") [x; y] (a_add A x y)
| m_minus x y : meaning A value (lit "-") [x; y] (a_sub A x y)
| m_times x y : meaning A value (lit "*") [x; y] (a_mul A x y)
| m_div x y : a_small A y = false -> meaning A value (lit "/") [x; y] (a_div A x y)
| m_mod x y : meaning A value (lit "%") [x; y] (a_mod A x y)
| m_sin x : meaning A value (lit "sin") [x] (a_sin A x)
| m_cos x : meaning A value (lit "cos") [x] (a_cos A x)
| m_log x : meaning A value (lit "log") [x] (a_log A x)
| m_exp x : meaning A value (lit "exp") [x] (a_exp A x)
| m_then x y z : a_true A x = true -> meaning A value (lit "?") [x; y; z] y
| m_else x y z : a_true A x = false -> meaning A value (lit "?") [x; y; z] z
| m_num s : real_text s -> meaning A value s [] (value s).
