(** What reductions over processes should give. *)
From Coq Require Import ZArith.
From Verif Require Import Prelude Ring Dense_Model.
Import List.
Local Open Scope Z_scope.

(** numbers an unsigned long holds *)
Definition ulong (x : Z) : Prop := 0 <= x < 2 ^ 64.
(** What the processes have at the place i *)
Definition column {D} (d : D) (vs : list (list D)) (i : nat) : list D := map (fun v => nth i v d) vs.
Definition zsum (l : list Z) : Z := fold_right Z.add 0 l.
Definition zprod (l : list Z) : Z := fold_right Z.mul 1 l.
Definition is_max (m : Z) (l : list Z) : Prop := In m l /\ forall x, In x l -> x <= m.
Definition is_min (m : Z) (l : list Z) : Prop := In m l /\ forall x, In x l -> m <= x.
(** All processes have [n] numbers, and each ends with [w], which has at the place i what [good] says of the numbers at the place i. *)
Definition reduced {D} (d : D) (good : list D -> D -> Prop) (n : nat) (vs ws : list (list D)) : Prop :=
  exists w, ws = repeat w (length vs) /\ length w = n /\ forall i, (i < n)%nat -> good (column d vs i) (nth i w d).
