(** Contract of [std::sort] and meaning of "sorted". *)
From Verif Require Import Prelude.
Set Implicit Arguments.

Section SortSpec.
  Variable K : Type.
  Variable ltk : K -> K -> bool.

  (** No later element is smaller than an earlier one. *)
  Definition ascending (l : list K) : Prop :=
    StronglySorted (fun a b => ltk b a = false) l.

  (** The contract of [std::sort]: the result is a rearrangement of the
      argument in ascending order of the keys; nothing is said about the
      relative order of elements with equal keys (it is not stable). *)
  Definition stdsort_ok (srt : list (K * nat) -> list (K * nat)) : Prop :=
    forall l, Permutation l (srt l) /\ ascending (map fst (srt l)).
End SortSpec.

Definition nat_ascending := ascending Nat.ltb.
