(** Model of src/SumDecomposition.h and src/PackIndices.h. *)
From Verif Require Import Prelude.

(** src/SumDecomposition.h:18-20. *)
Inductive SelEnum := SEL_ALL | SEL_SIZE | SEL_INDEX.

(** [size_] and [selection_] are C++ ints; overflow of [size_] is not modelled. *)
Record sdstate := { sd_stored : list (list nat) (* data_ *); sd_size : nat (* size_ *) }.

(** src/SumDecomposition.h:46-64 [reentrant1_]. [data] is passed by reference,
    so it is threaded through. [fuel] bounds the recursion depth. *)
Fixpoint reentrant1 (sum_ : nat) (sel : SelEnum) (selection : Z) (fuel : nat)
    (data : list nat) (n x : nat) (st : sdstate) : res (list nat * sdstate) :=
  match fuel with
  | 0 => OutOfFuel
  | S fuel' =>
    if length data <=? x then
      if negb (fold_left Nat.add data 0 =? sum_) then Ok (data, st)
      else
        let b1 := match sel with SEL_ALL => true | _ => false end in
        let b2 := match sel with
                  | SEL_INDEX => (selection =? Z.of_nat (sd_size st))%Z
                  | _ => false end in
        let stored := if b1 || b2 then sd_stored st ++ [data] else sd_stored st in
        Ok (data, {| sd_stored := stored; sd_size := sd_size st + 1 |})
    else
      forM (n + 1) 0 (fun i '(data, st) =>
        do data <- vset data x i ;;
        reentrant1 sum_ sel selection fuel' data (n - i) (x + 1) st) (data, st)
  end.

(** src/SumDecomposition.h:22-30: the constructor. *)
Definition sd_ctor (total sum : nat) (sel : SelEnum) (selection : Z) : res sdstate :=
  do (_, st) <- reentrant1 sum sel selection (total + 1) (repeat 0 total) sum 0
                  {| sd_stored := []; sd_size := 0 |} ;;
  Ok st.

(** src/SumDecomposition.h:36-42 [operator()]. *)
Definition sd_at (st : sdstate) (i : nat) : res (list nat) :=
  if i <? length (sd_stored st) then vget (sd_stored st) i else Throw.

(** Conversion of a 64-bit [SizeType] to [long] and back. *)
Definition to_long (x : Z) : Z := if (x <? 2 ^ 63)%Z then x else (x - 2 ^ 64)%Z.
Definition to_size (x : Z) : Z := (x mod 2 ^ 64)%Z.

(** src/PackIndices.h:95-103 [unpack]: [std::ldiv(ind, n_)] on longs, which
    truncates towards zero. Zero divisor and LONG_MIN / -1 are undefined. *)
Definition unpack (n ind : Z) : res (Z * Z) :=
  let a := to_long ind in
  let b := to_long n in
  if (b =? 0)%Z then UB
  else if ((a =? - 2 ^ 63) && (b =? -1))%Z then UB
  else Ok (to_size (Z.rem a b), to_size (Z.quot a b)).

(** src/PackIndices.h:105-109 [pack]; [x0 + n_ * x1] does not wrap when it is a
    valid index. *)
Definition pack (n x0 x1 : Z) (permutationInverse : list Z) : res Z :=
  vget permutationInverse (Z.to_nat (x0 + n * x1)).
