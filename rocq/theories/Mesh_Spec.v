(** A mesh of the square from -pi to pi. *)
From Coq Require Import ZArith Reals.

(** Point (a,b) of a mesh of [L] by [L] points: [a] steps along the first axis and [b] along the second. *)
Definition point (L a b : Z) : R * R := ((- PI + IZR a * (2 * PI / IZR L))%R, (- PI + IZR b * (2 * PI / IZR L))%R).
(** In the square, with the lower edges and without the upper ones *)
Definition in_square (p : R * R) : Prop := (- PI <= fst p < PI)%R /\ (- PI <= snd p < PI)%R.
