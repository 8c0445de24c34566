(** Model of src/Sort.h. *)
From Verif Require Import Prelude.
Set Implicit Arguments.

Section Sort.
  (** [FieldType] with its [operator<]. *)
  Variable K : Type.
  Variable ltk : K -> K -> bool.

  (** [std::sort] on vectors of [PairType]: an arbitrary function; what is
      assumed about it is in Sort_Spec.v. *)
  Variable stdsort : list (K * nat) -> list (K * nat).

  (** src/Sort.h:36-57 [Sort::sort]. Arguments: x, iperm, smallSize. The
      assert of line 44 is a guard. The default [onep] fills [p] (line 47). *)
  Definition sort (x : list K) (iperm : list nat) (smallSize : nat) : res (list K * list nat) :=
    let n := length x in
    if n =? 0 then Ok (x, iperm)
    else
      let n := if smallSize =? 0 then n else smallSize in
      guard (n =? length iperm) ;;
      do x0 <- vget x 0 ;;
      do p <- forM n 0 (fun i p => do xi <- vget x i ;; vset p i (xi, i)) (repeat (x0, 0) n) ;;
      let p := stdsort p in
      forM n 0 (fun i '(x, iperm) =>
                  do pi <- vget p i ;;
                  do x <- vset x i (fst pi) ;;
                  do iperm <- vset iperm i (snd pi) ;;
                  Ok (x, iperm)) (x, iperm).
End Sort.
