(** Model of the vector arithmetic of src/Vector.h (namespace std, lines 84-433,
    and PsimagLite::sum / indexOrMinusOne, lines 520-539).

    The expression [v <= a + t*b] of the code builds a closure holding
    references to its operands and runs one loop when assigned. An operand may
    be the assigned vector itself, so operands are modelled by [src]. *)
From Verif Require Import Prelude Ring.

Section Vec.
  Variable R : cring.
  Local Open Scope cring_scope.

  (** An operand of a closure: a reference to the assigned vector, or to
      another one (ClosureOperator::r1, r2; src/Vector.h:119-132). *)
  Inductive src := Self | Other (w : list R).

  (** What the reference sees while the assigned vector holds [v]. *)
  Definition deref (s : src) (v : list R) : list R :=
    match s with Self => v | Other w => w end.

  (** operator*(vector, vector): src/Vector.h:84-94 *)
  Definition vec_mul (v w : list R) : res R :=
    if negb (length v =? length w)%nat then Throw else
    forM (length v) 0
      (fun i result =>
         do a <- vget v i ;; do b <- vget w i ;; Ok (result + a * cconj b)) c0.

  (** scalarProduct: src/Vector.h:422-433 *)
  Definition scalarProduct (v1 v2 : list R) : res R :=
    if negb (length v1 =? length v2)%nat then Throw else
    forM (length v1) 0
      (fun i result =>
         do a <- vget v1 i ;; do b <- vget v2 i ;; Ok (result + cconj a * b)) c0.

  (** operator*(vector<vector>, vector): src/Vector.h:96-107. The inner loop
      tests [i < v2.size()] instead of [j < v2.size()]: since [i] does not
      change in it, the loop never ends by its test. It is modelled with a fuel,
      which is only there to make the function total. *)
  Fixpoint vecvec_inner (fuel : nat) (v1 : list (list R)) (v2 : list R) (i j : nat) (acc : R)
    : res R :=
    match fuel with
    | 0%nat => OutOfFuel
    | S fuel' =>
        if (i <? length v2)%nat then
          do row <- vget v1 i ;; do a <- vget row j ;; do b <- vget v2 j ;;
          vecvec_inner fuel' v1 v2 i (S j) (acc + a * b)
        else Ok acc
    end.

  Definition vecvec_mul (fuel : nat) (v1 : list (list R)) (v2 : list R) : res (list R) :=
    forM (length v2) 0
      (fun i v3 => do x <- vecvec_inner fuel v1 v2 i 0 c0 ;; vset v3 i x)
      (repeat c0 (length v2)).

  (** The loop [for (i = 0; i < v.size(); i++) v[i] = body(i)] shared by all
      the closure assignments below; the body reads the current [v]. *)
  Definition each (body : nat -> list R -> res R) (v : list R) : res (list R) :=
    forM (length v) 0 (fun i u => do x <- body i u ;; vset u i x) v.

  (** v <= t * w : src/Vector.h:165-174 *)
  Definition assign_scale (v : list R) (t : R) (w : src) : res (list R) :=
    let v := deref w v in
    each (fun i u => do x <- vget u i ;; Ok (x * t)) v.

  (** v <= t1 * (t2 * w) : src/Vector.h:176-190 *)
  Definition assign_scale2 (v : list R) (t1 t2 : R) (w : src) : res (list R) :=
    let v := deref w v in
    let tmp := t1 * t2 in
    each (fun i u => do x <- vget u i ;; Ok (x * tmp)) v.

  (** v <= a + b : src/Vector.h:216-223 *)
  Definition assign_plus (v : list R) (a b : src) : res (list R) :=
    let v := vresize v (length (deref a v)) c0 in
    each (fun i u => do x <- vget (deref a u) i ;; do y <- vget (deref b u) i ;;
                     Ok (x + y)) v.

  (** v <= a + t * b : src/Vector.h:225-236 *)
  Definition assign_axpy (v : list R) (a : src) (t : R) (b : src) : res (list R) :=
    let v := vresize v (length (deref a v)) c0 in
    each (fun i u => do x <- vget (deref a u) i ;; do y <- vget (deref b u) i ;;
                     Ok (x + t * y)) v.

  (** v <= t * a + b : src/Vector.h:238-249 *)
  Definition assign_axpy' (v : list R) (t : R) (a b : src) : res (list R) :=
    let v := vresize v (length (deref b v)) c0 in
    each (fun i u => do x <- vget (deref a u) i ;; do y <- vget (deref b u) i ;;
                     Ok (t * x + y)) v.

  (** v <= t * (a + b) : src/Vector.h:251-261 *)
  Definition assign_scale_plus (v : list R) (t : R) (a b : src) : res (list R) :=
    let v := vresize v (length (deref b v)) c0 in
    each (fun i u => do x <- vget (deref a u) i ;; do y <- vget (deref b u) i ;;
                     Ok (t * (x + y))) v.

  (** v <= m4*k4 + m3*k3 + m2*k2 + m1*k1 : src/Vector.h:263-288 *)
  Definition assign_comb4 (v : list R) (m4 : R) (k4 : src) (m3 : R) (k3 : src)
                          (m2 : R) (k2 : src) (m1 : R) (k1 : src) : res (list R) :=
    let v := vresize v (length (deref k1 v)) c0 in
    each (fun i u => do x1 <- vget (deref k1 u) i ;; do x2 <- vget (deref k2 u) i ;;
                     do x3 <- vget (deref k3 u) i ;; do x4 <- vget (deref k4 u) i ;;
                     Ok (m1 * x1 + m2 * x2 + m3 * x3 + m4 * x4)) v.

  (** v <= a - b : src/Vector.h:307-314 *)
  Definition assign_minus (v : list R) (a b : src) : res (list R) :=
    let v := vresize v (length (deref a v)) c0 in
    each (fun i u => do x <- vget (deref a u) i ;; do y <- vget (deref b u) i ;;
                     Ok (x - y)) v.

  (** v <= a - t * b : src/Vector.h:316-327 *)
  Definition assign_maxpy (v : list R) (a : src) (t : R) (b : src) : res (list R) :=
    let v := vresize v (length (deref a v)) c0 in
    each (fun i u => do x <- vget (deref a u) i ;; do y <- vget (deref b u) i ;;
                     Ok (x - t * y)) v.

  (** v <= t * (a - b) : src/Vector.h:329-339 *)
  Definition assign_scale_minus (v : list R) (t : R) (a b : src) : res (list R) :=
    let v := vresize v (length (deref b v)) c0 in
    each (fun i u => do x <- vget (deref a u) i ;; do y <- vget (deref b u) i ;;
                     Ok (t * (x - y))) v.

  (** v <= k1 - m2*k2 + m3*k3 : src/Vector.h:341-361 *)
  Definition assign_comb3 (v : list R) (k1 : src) (m2 : R) (k2 : src) (m3 : R) (k3 : src)
    : res (list R) :=
    let v := vresize v (length (deref k1 v)) c0 in
    each (fun i u => do x1 <- vget (deref k1 u) i ;; do x2 <- vget (deref k2 u) i ;;
                     do x3 <- vget (deref k3 u) i ;;
                     Ok (x1 - m2 * x2 + m3 * x3)) v.

  (** v += w : src/Vector.h:363-371 (the loop runs over the size of [w]) *)
  Definition plus_eq (v : list R) (w : src) : res (list R) :=
    forM (length (deref w v)) 0
      (fun i u => do x <- vget u i ;; do y <- vget (deref w u) i ;; vset u i (x + y)) v.

  (** v += t * w : src/Vector.h:373-381 (the loop runs over the size of [v]) *)
  Definition plus_eq_scaled (v : list R) (t : R) (w : src) : res (list R) :=
    each (fun i u => do x <- vget u i ;; do y <- vget (deref w u) i ;; Ok (x + t * y)) v.

  (** v -= w : src/Vector.h:383-391 *)
  Definition minus_eq (v : list R) (w : src) : res (list R) :=
    forM (length (deref w v)) 0
      (fun i u => do x <- vget u i ;; do y <- vget (deref w u) i ;; vset u i (x - y)) v.

  (** v -= t * w : src/Vector.h:393-401 *)
  Definition minus_eq_scaled (v : list R) (t : R) (w : src) : res (list R) :=
    each (fun i u => do x <- vget u i ;; do y <- vget (deref w u) i ;; Ok (x - t * y)) v.

  (** v *= t : src/Vector.h:403-410 *)
  Definition times_eq (v : list R) (t : R) : res (list R) :=
    each (fun i u => do x <- vget u i ;; Ok (x * t)) v.

  (** sum(v) : src/Vector.h:529-539 *)
  Definition vec_sum (v : list R) : res R :=
    forM (length v) 0 (fun i tmp => do x <- vget v i ;; Ok (tmp + x)) c0.

  (** indexOrMinusOne : src/Vector.h:520-527; [None] stands for -1.
      [std::find] is a left-to-right search for the first equal element. *)
  Fixpoint indexOrMinusOne (v : list R) (x : R) : option nat :=
    match v with
    | [] => None
    | a :: v' => if ceqb a x then Some 0%nat else option_map S (indexOrMinusOne v' x)
    end.
End Vec.
Arguments Self {R}.
Arguments Other {R} w.
Arguments deref {R} s v.
