(** Model of src/RootFindingBisection.h over the real numbers: no rounding. [fabs] is the absolute value.
    The function is a pure function. *)
From Coq Require Import Reals.
From Verif Require Import Prelude.
Local Open Scope R_scope.

(** constructor: src/RootFindingBisection.h:23-34 *)
Definition bisect_new (f : R -> R) (a b : R) : res unit :=
  if Rle_dec 0 (f a * f b) then Throw else Ok tt.

(** sign: src/RootFindingBisection.h:73 *)
Definition bsign (x : R) : bool := if Rle_dec 0 x then true else false.

(** the while loop: src/RootFindingBisection.h:49-63; [n] is what remains of maxIter_; [seen] collects the
    points where the function is evaluated, the latest first *)
Fixpoint bisect_loop (f : R -> R) (tol : R) (n : nat) (a b fa : R) (seen : list R) : res R * list R :=
  match n with
  | 0%nat => (Throw, seen)
  | S n' =>
    let c := (a + b) / 2 in
    let tmp := f c in
    if Rlt_dec (Rabs tmp) tol then (Ok c, c :: seen)
    else if Bool.eqb (bsign tmp) (bsign fa) then bisect_loop f tol n' c b tmp (c :: seen)
    else bisect_loop f tol n' a c fa (c :: seen)
  end.

(** operator(): src/RootFindingBisection.h:36-69 *)
Definition bisect_run (f : R -> R) (a b : R) (maxIter : nat) (tol : R) : res R * list R :=
  bisect_loop f tol maxIter a b (f a) [a].

(** construct, then call *)
Definition bisect (f : R -> R) (a b : R) (maxIter : nat) (tol : R) : res R :=
  do _ <- bisect_new f a b ;; fst (bisect_run f a b maxIter tol).
