(** Model of the directions of bonds of src/Geometry/LadderBath.h; those of src/Geometry/KTwoNiFFour.h, its signs and its
    orbitals are in Geo_Model.v. *)
From Verif Require Import Prelude Geo_Model.
From Coq Require Import ZArith.
Local Open Scope Z_scope.

(** calcDir: src/Geometry/LadderBath.h:158-169, 260-265; DIRECTION_BATH = 2. getClusterSite returns -1 for both sites if
    both are in the cluster, from whose first site ladderize counts (284-289). *)
Definition lb_calcDir (g : ladderbath) (i1 i2 : Z) : res Z :=
  do c1 <- lb_getClusterSite g i1 ;;
  do c2 <- lb_getClusterSite g i2 ;;
  match c1, c2 with
  | None, None => ladder_calcDir (lb_ladder g) (i1 - lb_first g) (i2 - lb_first g)
  | _, _ => Ok 2
  end.
