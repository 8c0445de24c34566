(** Model of src/MersenneTwister.{h,cpp} and src/RandomForTests.h.
    An [unsigned] is an [N] below 2^32, an [int] a [Z] in [-2^31, 2^31). *)
From Verif Require Import Prelude.
Local Open Scope N_scope.

(** src/MersenneTwister.h:24-27. *)
Definition N_ : nat := 624.
Definition keepLast32BitMask : N := 4294967295.
Record mt := { mt_index : nat; mt_state : list N }.

Definition wrap32 (x : N) : N := x mod 2 ^ 32.

(** src/MersenneTwister.cpp:23-31 [seed]. The old contents of [state_] do not
    matter: every word is overwritten. *)
Definition mt_seed (s : N) : res mt :=
  do state <- vset (repeat 0 N_) 0 s ;;
  do state <- forR 1 N_ (fun i state =>
      do p <- vget state (i - 1) ;;
      let tmp := N.lxor p (N.shiftr p 30) in
      vset state i (N.land keepLast32BitMask (wrap32 (1812433253 * wrap32 (tmp + N.of_nat i))))) state ;;
  Ok {| mt_index := 0; mt_state := state |}.

(** src/MersenneTwister.cpp:33-41 [generate]: in place. *)
Definition mt_generate (state : list N) : res (list N) :=
  forM N_ 0 (fun i state =>
    do a <- vget state i ;;
    do b <- vget state ((i + 1) mod N_)%nat ;;
    let y := wrap32 (N.land a 0x80000000 + N.land b 0x7fffffff) in
    do c <- vget state ((i + 397) mod N_)%nat ;;
    do state <- vset state i (N.lxor c (N.shiftr y 1)) ;;
    if negb (y mod 2 =? 0) then
      do d <- vget state i ;;
      vset state i (N.lxor d 2567483615)
    else Ok state) state.

(** src/MersenneTwister.cpp:49-52: the tempering of [random]. *)
Definition temper (y : N) : N :=
  let y := N.lxor y (N.shiftr y 11) in
  let y := N.lxor y (N.land (wrap32 (N.shiftl y 7)) 2636928640) in
  let y := N.lxor y (N.land (wrap32 (N.shiftl y 15)) 4022730752) in
  N.lxor y (N.shiftr y 18).

(** src/MersenneTwister.cpp:43-57 [random]. *)
Definition mt_random (g : mt) : res (N * mt) :=
  do state <- (if (mt_index g =? 0)%nat then mt_generate (mt_state g) else Ok (mt_state g)) ;;
  do y <- vget state (mt_index g) ;;
  Ok (temper y, {| mt_index := (mt_index g + 1) mod N_; mt_state := state |}).

(** [n] calls of [random]: the outputs and the final generator. *)
Fixpoint mt_stream (n : nat) (g : mt) : res (list N * mt) :=
  match n with
  | O => Ok ([], g)
  | S n' => do (y, g) <- mt_random g ;;
            do (ys, g) <- mt_stream n' g ;;
            Ok (y :: ys, g)
  end.

(** src/MersenneTwister.cpp:11-21: the constructor with a rank. The conversions
    unsigned -> int -> unsigned of [news] cancel. [rank <= 1] (also negative)
    makes no further call. *)
Definition mt_ctor_rank (s : N) (rank : Z) : res mt :=
  do g <- mt_seed s ;;
  do (news, g) <- mt_random g ;;
  do (news, _) <- forR 1 (Z.to_nat rank) (fun _ '(_, g) => mt_random g) (news, g) ;;
  mt_seed news.

(** ---------- src/RandomForTests.h ---------- *)
Local Open Scope Z_scope.

(** An int operation: out of range is undefined behaviour. *)
Definition int_ok (x : Z) : bool := (- 2 ^ 31 <=? x) && (x <? 2 ^ 31).
Definition int_op (x : Z) : res Z := if int_ok x then Ok x else UB.

(** src/RandomForTests.h:49-57 [operator()]: the new [next_]. C++ [%] and [/]
    truncate towards zero. The returned value is [next_/2147483647.0]. *)
Definition rft_next (next : Z) : res Z :=
  do a <- int_op (16807 * Z.rem next 127773) ;;
  do b <- int_op (2836 * Z.quot next 127773) ;;
  do next <- int_op (a - b) ;;
  do next <- (if next <=? 0 then int_op (next + 2147483647) else Ok next) ;;
  Ok (if 2147483647 <=? next then 1 else next).

(** [n] calls. *)
Fixpoint rft_iter (n : nat) (x : Z) : res Z :=
  match n with
  | O => Ok x
  | S n' => do y <- rft_next x ;; rft_iter n' y
  end.
