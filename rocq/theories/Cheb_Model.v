(** Model of src/ChebyshevFunction.h and src/ChebyshevFunctionExplicit.h.
    The order is an [int], here an integer; [OutOfFuel] is unbounded recursion. The number type is any
    commutative ring. *)
From Verif Require Import Prelude Ring.

Section Cheb.
  Variable R : cring.
  Local Open Scope cring_scope.

  (** an int literal converted to RealType *)
  Fixpoint cnum (n : nat) : R := match n with 0 => c0 | S n' => c1 + cnum n' end.

  (** ChebyshevFunction::operator(): src/ChebyshevFunction.h:40-56; [/] on int truncates *)
  Fixpoint cheb (fuel : nat) (m : Z) (x : R) : res R :=
    match fuel with
    | 0 => OutOfFuel
    | S fuel' =>
      if (m =? 0)%Z then Ok c1
      else if (m =? 1)%Z then Ok x
      else if Z.odd m then
        let p := Z.quot (m - 1) 2 in
        do u <- cheb fuel' p x ;;
        do v <- cheb fuel' (p + 1)%Z x ;;
        Ok (cnum 2 * u * v - x)
      else
        do tmp <- cheb fuel' (Z.quot m 2) x ;;
        Ok (cnum 2 * tmp * tmp - c1)
    end.

  (** ChebyshevFunctionExplicit::operator(): src/ChebyshevFunctionExplicit.h:40-78 *)
  Fixpoint chebExplicit (fuel : nat) (m : Z) (x : R) : res R :=
    match fuel with
    | 0 => OutOfFuel
    | S fuel' =>
      let x1 := x * x in
      let x2 := x1 * x1 in
      if (m =? 0)%Z then Ok c1
      else if (m =? 1)%Z then Ok x
      else if (m =? 2)%Z then Ok (cnum 2 * x1 - c1)
      else if (m =? 3)%Z then Ok (cnum 4 * x1 * x - cnum 3 * x)
      else if (m =? 4)%Z then Ok (cnum 8 * x1 * x1 - cnum 8 * x1 + c1)
      else if (m =? 5)%Z then Ok (cnum 16 * x1 * x1 * x - cnum 20 * x1 * x + cnum 5 * x)
      else if (m =? 6)%Z then Ok (cnum 32 * x2 * x1 - cnum 48 * x2 + cnum 18 * x1 - c1)
      else if (m =? 7)%Z then Ok (cnum 64 * x2 * x1 * x - cnum 112 * x2 * x + cnum 56 * x1 * x - cnum 7 * x)
      else if Z.odd m then
        let p := Z.quot (m - 1) 2 in
        do u <- chebExplicit fuel' p x ;;
        do v <- chebExplicit fuel' (p + 1)%Z x ;;
        Ok (cnum 2 * u * v - x)
      else
        do tmp <- chebExplicit fuel' (Z.quot m 2) x ;;
        Ok (cnum 2 * tmp * tmp - c1)
    end.
End Cheb.
