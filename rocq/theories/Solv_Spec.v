(** Which value a parameter gets. *)
From Coq Require Import Ascii String.
From Verif Require Import Prelude Str_Model Str_Spec Text_Model Input_Spec.
Import List.

(** A text that no whole number can be read from: some character is neither a digit nor a sign. *)
Definition not_whole (s : str) : Prop := exists c, In c s /\ ~ is_digit c /\ c <> "+"%char /\ c <> "-"%char.

(** [ok v x]: the text v stands for the value x; [bad v]: v stands for no value.
    The parameter named prefix..postfix gets x for the index ind (if it is not negative): the value of the largest index
    up to ind that has one; if there is none, that of the name without index; if there is none either, the default. *)
Section Picks.
  Variables (f : list item) (V : Type) (ok : str -> V -> Prop) (bad : str -> Prop).
  (** The file gives the label the value x. *)
  Definition has (l : str) (x : V) : Prop := exists v t, texts f l = v :: t /\ ok v x.
  (** The file does not have the label, or gives it a text that stands for no value. *)
  Definition lacks (l : str) : Prop := forall v t, texts f l = v :: t -> bad v.
  Definition picks (prefix : str) (ind : Z) (postfix : str) (default x : V) : Prop :=
    let indexed (j : nat) := prefix ++ print_nat j ++ postfix in
    (exists j, (Z.of_nat j <= ind)%Z /\ has (indexed j) x /\ forall k, j < k -> (Z.of_nat k <= ind)%Z -> lacks (indexed k)) \/
    ((forall k, (Z.of_nat k <= ind)%Z -> lacks (indexed k)) /\ has (prefix ++ postfix) x) \/
    ((forall k, (Z.of_nat k <= ind)%Z -> lacks (indexed k)) /\ lacks (prefix ++ postfix) /\ x = default).
End Picks.

(** Each label is given once at most. *)
Definition once (f : list item) : Prop := forall l, List.length (texts f l) <= 1.
(** What passes for a number with or without a fraction: digits, at least one, and the characters - + e E and the dot *)
Definition real_like (s : str) : Prop :=
  (exists c, In c s /\ is_digit c) /\ forall c, In c s -> is_digit c \/ In c (list_ascii_of_string "-+eE.").
