(** What "tokens", "non-overlapping occurrences" etc. mean. *)
From Coq Require Import Ascii.
From Verif Require Import Prelude.

(** [runs isD s ts]: [ts] are the maximal non-empty delimiter-free runs of [s],
    in order. *)
Inductive runs {A} (isD : A -> Prop) : list A -> list (list A) -> Prop :=
| runs_end : runs isD [] []
| runs_delim : forall c s ts, isD c -> runs isD s ts -> runs isD (c :: s) ts
| runs_token : forall t s ts,
    t <> [] -> (forall c, In c t -> ~ isD c) ->
    (s = [] \/ exists c s', s = c :: s' /\ isD c) ->
    runs isD s ts -> runs isD (t ++ s) (t :: ts).

(** [pat] occurs in [s] at position [i]. *)
Definition occurs_at {A} (pat s : list A) (i : nat) : Prop :=
  exists a b, s = a ++ pat ++ b /\ length a = i.

(** [replaced from to s r]: [r] is [s] with the leftmost occurrence of [from]
    replaced by [to], then the leftmost one in what follows it, and so on. *)
Inductive replaced {A} (from to : list A) : list A -> list A -> Prop :=
| replaced_none : forall s, (forall i, ~ occurs_at from s i) -> replaced from to s s
| replaced_one : forall p s r,
    (forall i, occurs_at from (p ++ from ++ s) i -> length p <= i) ->
    replaced from to s r ->
    replaced from to (p ++ from ++ s) (p ++ to ++ r).

(** Value of a string of decimal digits. *)
Definition is_digit (c : ascii) : Prop :=
  In c (map ascii_of_nat (seq 48 10)).
Definition digit_val (c : ascii) : Z := (Z.of_nat (nat_of_ascii c) - 48)%Z.
Fixpoint dec_val (s : list ascii) : Z :=
  match s with
  | [] => 0
  | c :: s' => digit_val c * 10 ^ Z.of_nat (length s') + dec_val s'
  end%Z.
