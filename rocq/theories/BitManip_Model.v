(** Model of src/BitManip.h (bit counting on 64-bit words).
    A word is an [N]; [WordType] is [unsigned int long], 64 bits (line 8). *)
From Verif Require Import Prelude.
Local Open Scope N_scope.

(** src/BitManip.h:9-15 [countKernighan]: [for (; v; c++) v &= v - 1;]
    [fuel] bounds the number of iterations; running out of it is [OutOfFuel].
    [v - 1] is only evaluated for [v <> 0], so it does not wrap. *)
Fixpoint countKernighan_loop (fuel : nat) (v c : N) : res N :=
  match fuel with
  | O => OutOfFuel
  | S fuel' =>
    if v =? 0 then Ok c
    else countKernighan_loop fuel' (N.land v (v - 1)) (c + 1)
  end.

(** 64 iterations at most plus the final test. *)
Definition countKernighan (v : N) : res N := countKernighan_loop 65 v 0.

(** One line of src/BitManip.h:28-33: [b = (m & b) + (m & (b >> s))],
    with the 64-bit wrap of the addition written out. *)
Definition swar (m s b : N) : N :=
  (N.land m b + N.land m (N.shiftr b s)) mod 2 ^ 64.

(** src/BitManip.h:17-37 [count], the 64-bit branch (ULONG_MAX is not 32 bits). *)
Definition count (b : N) : N :=
  let b := swar 0x5555555555555555 1 b in
  let b := swar 0x3333333333333333 2 b in
  let b := swar 0x0f0f0f0f0f0f0f0f 4 b in
  let b := swar 0x00ff00ff00ff00ff 8 b in
  let b := swar 0x0000ffff0000ffff 16 b in
  let b := swar 0x00000000ffffffff 32 b in
  b.
