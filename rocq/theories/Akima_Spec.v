(** Akima's interpolation (J. ACM 17, 589, 1970), for n points (x i, s i), i < n. *)
From Coq Require Import Reals ZArith.
Local Open Scope R_scope.

Section Akima.
  Variable n : nat.
  Variables x s : nat -> R.
  Definition slope (i : nat) : R := (s (S i) - s i) / (x (S i) - x i).
  (** The slope of segment j, extrapolated linearly by two segments on each side: j = -2 ... n *)
  Definition ext_slope (j : Z) : R :=
    if (j <? 0)%Z then slope 0 + IZR j * (slope 1 - slope 0)
    else if (j <=? Z.of_nat n - 2)%Z then slope (Z.to_nat j)
    else slope (n - 2) + IZR (j - (Z.of_nat n - 2)) * (slope (n - 2) - slope (n - 3)).
  (** Akima's derivative at point i from the slopes of the two segments on each side *)
  Definition akima_slope (i : nat) : R :=
    let m j := ext_slope (Z.of_nat i + j) in
    let wl := Rabs (m 1%Z - m 0%Z) in
    let wr := Rabs (m (-1)%Z - m (-2)%Z) in
    if Req_EM_T (wl + wr) 0 then (m (-1)%Z + m 0%Z) / 2
    else (wl * m (-1)%Z + wr * m 0%Z) / (wl + wr).
End Akima.
