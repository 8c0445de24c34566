(** Model of src/Random48.h and of fillRandom of src/PsimagLite.h. The generator is drand48 of POSIX, whose state of 48 bits
    belongs to the program and not to an object. *)
From Coq Require Import ZArith Reals.
From Verif Require Import Prelude.
Import List.
Open Scope Z_scope.

(** srand48(seed): the state is the low 32 bits of the seed followed by 0x330E. *)
Definition srand48 (seed : Z) : Z := (seed mod 2 ^ 32) * 65536 + 13070.
(** drand48: the next state; the number is that state divided by 2^48, which is a double. *)
Definition next48 (x : Z) : Z := (25214903917 * x + 11) mod 2 ^ 48.
Definition number (x : Z) : R := (IZR x / IZR (2 ^ 48))%R.
(** [n] numbers, as states *)
Fixpoint draw (n : nat) (x : Z) : list Z * Z :=
  match n with
  | O => ([], x)
  | S n => let x := next48 x in let '(l, y) := draw n x in (x :: l, y)
  end.

(** A nonnegative integer rounded to 53 bits, ties to even *)
Definition round53 (y : Z) : Z :=
  let u := 2 ^ Z.max 0 (Z.log2 y - 52) in
  let q := y / u in
  let r := y mod u in
  if 2 * r <? u then q * u
  else if u <? 2 * r then (q + 1) * u
  else if Z.even q then q * u else (q + 1) * u.
(** static_cast<LongType>(10000.0 * drand48()): src/Random48.h:41; the product is rounded and has the unit 2^-48. *)
Definition to_seed (x : Z) : Z := round53 (10000 * x) / 2 ^ 48.

(** The object has only seed_: src/Random48.h:58. Random48(seed, rank, nprocs): src/Random48.h:36-44. The new state of the
    generator is the second component. *)
Definition rng_new (seed : Z) (rank nprocs : nat) : res (Z * Z) :=
  let x := srand48 seed in
  let '(l, x) := draw nprocs x in
  do s <- vget (map to_seed l) rank ;;
  Ok (s, srand48 s).
(** operator() and random: src/Random48.h:46-51; the first component is the state whose number is returned. *)
Definition rng_call (seed_ x : Z) : Z * Z := (next48 x, next48 x).
(** seed(): src/Random48.h:53 *)
Definition rng_seed (seed_ : Z) : Z := seed_.
(** seed(seed): src/Random48.h:55; the object and the state of the generator *)
Definition rng_set_seed (seed_ x new : Z) : Z * Z := (new, x).

(** What a program does with its objects: it makes one, draws from one, changes the seed of one *)
Inductive use := Make (seed : Z) (rank nprocs : nat) | Call (i : nat) | SetSeed (i : nat) (s : Z).
(** The objects, the state of the generator, the numbers drawn: by whom and the number *)
Record prog := mkprog { p_objs : list Z; p_state : Z; p_drawn : list (nat * Z) }.
Definition use_step (u : use) (p : prog) : res prog :=
  match u with
  | Make seed rank nprocs =>
    do r <- rng_new seed rank nprocs ;;
    let '(s, x) := r in Ok (mkprog (p_objs p ++ [s]) x (p_drawn p))
  | Call i =>
    do s <- vget (p_objs p) i ;;
    let '(y, x) := rng_call s (p_state p) in
    Ok (mkprog (p_objs p) x (p_drawn p ++ [(i, y)]))
  | SetSeed i new =>
    do s <- vget (p_objs p) i ;;
    let '(s, x) := rng_set_seed s (p_state p) new in
    do objs <- vset (p_objs p) i s ;;
    Ok (mkprog objs x (p_drawn p))
  end.
Definition use_run (l : list use) (p : prog) : res prog := forL l use_step p.

(** fillRandom(v): src/PsimagLite.h:38-57, for real numbers without rounding; a complex vector gets the same numbers with
    zero imaginary parts. [n] is v.size() and [t] is time(0). *)
Definition fillRandom (t : Z) (n : nat) : res (list R) :=
  if Nat.eqb n 0 then Throw
  else
    do r <- rng_new t 0 1 ;;
    let '(_, x) := r in
    let v := map (fun y => (number y - 1 / 2)%R) (fst (draw n x)) in
    let sum := fold_left (fun s y => (s + y * y)%R) v 0%R in
    let sum := (1 / sqrt sum)%R in
    Ok (map (fun y => (y * sum)%R) v).
