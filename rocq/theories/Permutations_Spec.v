(** Lexicographic order on lists of numbers of equal length. *)
From Verif Require Import Prelude.

Inductive lexlt : list nat -> list nat -> Prop :=
| lexlt_here : forall a b u v, a < b -> length u = length v -> lexlt (a :: u) (b :: v)
| lexlt_next : forall a u v, lexlt u v -> lexlt (a :: u) (a :: v).

(** [steps_to inc d l]: calling [inc] repeatedly from [d] visits the states
    [l] (starting with [d]) with result true each time, until the last one,
    where it returns false and changes nothing. *)
Inductive visits (inc : list nat -> res (bool * list nat)) : list nat -> list (list nat) -> Prop :=
| visits_last : forall d, inc d = Ok (false, d) -> visits inc d [d]
| visits_step : forall d d' l, inc d = Ok (true, d') -> visits inc d' l -> visits inc d (d :: l).
