(** Views of a vector, and names with an extension, without reference to the model. *)
From Coq Require Import ZArith Ascii.
From Verif Require Import Prelude Ring Str_Model.

(** The places of the vector that a view with [r] rows and [c] columns at [o] covers. *)
Definition covers (r c o p : nat) : Prop := o <= p < o + r * c.
(** [d'] is [d] with [x] at place [p]. *)
Definition only_at {A} (d d' : list A) (p : nat) (x : A) : Prop :=
  length d' = length d /\ nth_error d' p = Some x /\ forall q, q <> p -> nth_error d' q = nth_error d q.
(** A size of the program. *)
Definition fits (n : nat) : Prop := (Z.of_nat n < 2 ^ 64)%Z.
(** [s] is a name, a point and an extension without a point. *)
Definition with_extension (s name ext : str) : Prop := s = name ++ "."%char :: ext /\ ~ In "."%char ext.
