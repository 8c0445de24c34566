(** Model of maxConnections of the lattices, of the terms and of the geometry.
    Sums do not overflow; the rest is as in Geo_Model. *)
From Verif Require Import Prelude Geo_Model.
From Coq Require Import ZArith.
Local Open Scope Z_scope.

(** LongChain::maxConnections: src/Geometry/LongChain.h:125-128 *)
Definition chain_maxConnections (g : chain) : Z := if ch_per g then ch_L g else 1.

(** Ladder::maxConnections: src/Geometry/Ladder.h:140-143 *)
Definition ladder_maxConnections (g : ladder) : Z := if la_px g then la_L g else la_leg g + 1.

(** LadderX::maxConnections: src/Geometry/LadderX.h:109 *)
Definition ladderx_maxConnections (g : ladder) : Z := la_leg g + 1.

(** LadderBath::maxConnections: src/Geometry/LadderBath.h:221 *)
Definition lb_maxConnections (g : ladderbath) : Z := lb_cluster g + 1.

(** KTwoNiFFour::maxConnections: src/Geometry/KTwoNiFFour.h:243 *)
Definition k2_maxConnections : Z := 6.

(** Star::maxConnections: src/Geometry/Star.h:100 *)
Definition star_maxConnections (linSize : Z) : Z := w64 (linSize - 1).

(** Honeycomb::maxConnections: src/Geometry/Honeycomb.h:116-120 *)
Definition ho_maxConnections (g : honey) : Z := ho_ly g + 1.

(** GeometryTerm::maxConnections: src/Geometry/GeometryTerm.h:375-378. [None] is a
    term without a lattice. *)
Definition term_maxConnections (base : option Z) : Z :=
  match base with Some m => m | None => 0 end.

(** Geometry::maxConnections(): src/Geometry/Geometry.h:276-283 *)
Definition geometry_maxConnections (terms : list (option Z)) : Z :=
  fold_left (fun result t => if result <? term_maxConnections t then term_maxConnections t else result)
    terms 0.

(** Geometry::maxConnections(termId): src/Geometry/Geometry.h:271-274 *)
Definition geometry_maxConnectionsOf (terms : list (option Z)) (termId : nat) : res Z :=
  do t <- vget terms termId ;; Ok (term_maxConnections t).
