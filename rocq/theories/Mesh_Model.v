(** Model of src/Geometry/GeometryEx.h (without USE_MS_GEOMETRY): the mesh of points in momentum space.

    Real numbers are those of the standard library (no rounding); [sqrt] of a number of points is exact before it is cut to
    a whole number, as in double precision below 2^52. Sizes are [Z]; a failed assertion and a division by zero are [UB]. *)
From Coq Require Import ZArith Reals Ascii String.
From Verif Require Import Prelude Str_Model.
Import List ListNotations.
Local Open Scope Z_scope.

(** Conversion to an int of 32 bits *)
Definition as_int (z : Z) : Z := let m := z mod 4294967296 in if m <? 2147483648 then m else m - 4294967296.

(** The members: src/Geometry/GeometryEx.h:123-125 *)
Record mesh := mkmesh { e_length : Z; e_enabled : bool; e_step : R }.

(** GeometryEx(): src/Geometry/GeometryEx.h:17-22 *)
Definition mesh_default : mesh := mkmesh 0 false 0%R.

(** GeometryEx(io, meshPoints): src/Geometry/GeometryEx.h:24-41. [kind] is what readline gives for GeometryKind=,
    [kind0] what it gives for gt0:GeometryKind= ([None] if it throws). *)
Definition mesh_new (kind kind0 : option str) (meshPoints : Z) : res mesh :=
  let meshLength := Z.sqrt meshPoints in
  let meshStep := if 0 <? meshLength then (2 * PI / IZR meshLength)%R else 0%R in
  do s <- (match kind with Some s => Ok s | None => match kind0 with Some s => Ok s | None => Throw end end) ;;
  Ok (mkmesh meshLength (str_eqb s (lit "star")) meshStep).

(** getMeshVector: src/Geometry/GeometryEx.h:105-113. std::div cuts towards zero. [n] is the size of kvector, whose first two
    elements are the result; more than those are not changed. *)
Definition getMeshVector (g : mesh) (n : nat) (k : Z) : res (R * R) :=
  guard (e_enabled g) ;;
  let k1 := as_int k in
  let m := as_int (e_length g) in
  guard (negb (m =? 0)) ;;
  guard (2 <=? n)%nat ;;
  Ok ((- PI + IZR (Z.quot k1 m) * e_step g)%R, (- PI + IZR (Z.rem k1 m) * e_step g)%R).

(** sizeOfMesh: src/Geometry/GeometryEx.h:115-119 *)
Definition sizeOfMesh (g : mesh) : res Z :=
  guard (e_enabled g) ;; Ok ((e_length g * e_length g) mod 2 ^ 64).
