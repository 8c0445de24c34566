(** Model of run identifiers: src/ApplicationInfo.h and the program that checks them, examples/checkRunId.cpp. *)
From Coq Require Import Ascii String.
From Verif Require Import Prelude Str_Model Text_Model Random_Model BitManip_Model.
Import List.

(** The number std::strtol reads: white space, a sign, digits *)
Definition strtol (s : str) : Z :=
  match skipws s with
  | [] => 0%Z
  | c :: r => if Ascii.eqb c "-" then (- atoi_digits r 0)%Z else if Ascii.eqb c "+" then atoi_digits r 0 else atoi_digits (c :: r) 0
  end.
(** std::atol; out of range (which ISO C leaves undefined) the GNU library gives the closest long. *)
Definition atol (s : str) : Z := Z.max (- 2 ^ 63) (Z.min (2 ^ 63 - 1) (strtol s)).
(** A long that becomes an unsigned long *)
Definition to_ulong (z : Z) : N := Z.to_N (z mod 2 ^ 64).
Definition print_N (n : N) : str := print_Z (Z.of_N n).

(** runIdInternal: src/ApplicationInfo.h:204-225; [p] is the process number, an unsigned int, and [tt] the
    microseconds of the clock. [tt ^ random()] is a long that becomes an unsigned int. *)
Definition runIdInternal (p tt : N) : res str :=
  do mt <- mt_seed (wrap32 (tt + p)) ;;
  do (r, mt) <- mt_random mt ;;
  let msg := print_N (wrap32 (N.lxor tt r)) in
  do (r, mt) <- mt_random mt ;;
  let msg := msg ++ print_N (N.lxor p r) in
  let y := to_ulong (atol msg) in
  do (r, mt) <- mt_random mt ;;
  let y := N.lxor y r in
  do x <- countKernighan y ;;
  Ok (print_N y ++ (if (x <? 10)%N then lit "0" else []) ++ print_N x).

(** checkRunId: examples/checkRunId.cpp:11-33; std::atoi of two characters is their strtol *)
Definition checkRunId (id : str) : res bool :=
  let l := List.length id in
  if Nat.ltb l 3 then Ok false
  else
    let check := skipn (l - 2) id in
    let number := firstn (l - 2) id in
    do bits <- countKernighan (to_ulong (atol number)) ;;
    Ok (Z.of_N bits =? strtol check)%Z.
