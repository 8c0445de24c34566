(** Couplings when the sites between system and environment are not there yet: Geometry, GeometryTerm, and fringe and
    getSubstituteSite of the lattices. Those of the chain and of the ladder are in Geo_Model. *)
From Verif Require Import Prelude Geo_Model.
From Coq Require Import ZArith.
Local Open Scope Z_scope.

(** What GeometryTerm uses of its lattice, and its couplings operator()(i1, edof1, i2, edof2) and connected(i1, i2):
    src/Geometry/GeometryTerm.h:317-325, 363-367. [tm_val] has one orbital per site. *)
Record gterm (T : Type) := mkgterm {
  tm_fringe : Z -> Z -> Z -> res bool; tm_subst : Z -> Z -> Z -> res Z; tm_val : Z -> Z -> res T; tm_conn : Z -> Z -> res bool }.
Arguments mkgterm {T}. Arguments tm_fringe {T}. Arguments tm_subst {T}. Arguments tm_val {T}. Arguments tm_conn {T}.

Section Terms.
  Context {T : Type}.
  (** bothFringe: src/Geometry/GeometryTerm.h:331, 354 *)
  Definition bothFringe (t : gterm T) (smax emin i1 i2 : Z) : res bool :=
    do a <- tm_fringe t i1 smax emin ;; if a : bool then tm_fringe t i2 smax emin else Ok false.
  (** GeometryTerm::operator() with smax and emin: src/Geometry/GeometryTerm.h:327-347 *)
  Definition term_value (t : gterm T) (smax emin i1 i2 : Z) : res T :=
    do b <- bothFringe t smax emin i1 i2 ;;
    do (siteNew1, siteNew2) <- (if b : bool then
        let '(s1, s2) := if i2 <? i1 then (i2, i1) else (i1, i2) in
        do s2 <- tm_subst t smax emin s2 ;; Ok (s1, s2)
      else Ok (i1, i2)) ;;
    tm_val t siteNew1 siteNew2.
  (** GeometryTerm::connected with smax and emin: src/Geometry/GeometryTerm.h:349-361 *)
  Definition term_connected (t : gterm T) (smax emin i1 i2 : Z) : res bool :=
    if i1 =? i2 then Ok false else
    do b <- bothFringe t smax emin i1 i2 ;;
    if negb b then tm_conn t i1 i2 else Ok true.
  (** Geometry::operator() with smax and emin: src/Geometry/Geometry.h:174-180 *)
  Definition geo_value (terms : list (gterm T)) (smax emin i1 i2 : Z) (term : nat) : res T :=
    do t <- vget terms term ;;
    if w64 (smax + 1) =? emin then tm_val t i1 i2 else term_value t smax emin i1 i2.
  (** Geometry::connected: src/Geometry/Geometry.h:187-200 *)
  Definition geo_connected (terms : list (gterm T)) (smax emin i1 i2 : Z) : res bool :=
    if w64 (smax + 1) =? emin then
      forL terms (fun t (b : bool) => do c <- tm_conn t i1 i2 ;; Ok (b || c)) false
    else
      forL terms (fun t (b : bool) => do c <- term_connected t smax emin i1 i2 ;; Ok (b || c)) false.

  (** The chain and the ladder *)
  Definition chain_term (g : chain) (val : Z -> Z -> res T) : gterm T :=
    mkgterm (fun i s e => Ok (chain_fringe g i s e)) (chain_getSubstituteSite g) val (fun i j => Ok (chain_connected g i j)).
  Definition ladder_term (g : ladder) (val : Z -> Z -> res T) : gterm T :=
    mkgterm (fun i s e => Ok (ladder_fringe g i s e)) (ladder_getSubstituteSite g) val (fun i j => Ok (ladder_connected g i j)).

  (** LadderX, fringe and getSubstituteSite: src/Geometry/LadderX.h:172-181, 202-205 *)
  Definition ladderx_fringe (i smax emin : Z) : bool :=
    let a := (i <? emin) && (w64 (smax - 1) <=? i) in
    let b := (smax <? i) && (i <=? w64 (emin + 1)) in
    if Z.odd smax then a || b else
    let a := (i <? emin) && (w64 (smax - 2) <=? i) in
    let b := (smax <? i) && (i <=? w64 (emin + 2)) in
    a || b.
  Definition ladderx_getSubstituteSite (smax emin siteNew2 : Z) : res Z := Ok (w64 (smax + siteNew2 - emin + 1)).
  Definition ladderx_term (g : ladder) (val : Z -> Z -> res T) : gterm T :=
    mkgterm (fun i s e => Ok (ladderx_fringe i s e)) ladderx_getSubstituteSite val (fun i j => Ok (ladderx_connected g i j)).

  (** Star, fringe and getSubstituteSite: src/Geometry/Star.h:126-135 *)
  Definition star_fringe (i smax emin : Z) : bool := i =? emin.
  Definition star_getSubstituteSite (smax emin siteNew2 : Z) : res Z := Ok siteNew2.
  Definition star_term (val : Z -> Z -> res T) : gterm T :=
    mkgterm (fun i s e => Ok (star_fringe i s e)) star_getSubstituteSite val (fun i j => Ok (star_connected i j)).

  (** LadderBath, fringe, fringeInCluster and getSubstituteSite: src/Geometry/LadderBath.h:171-177, 199-217, 268-275 *)
  Definition lb_fringe (g : ladderbath) (i smax emin : Z) : res bool :=
    do c <- lb_getClusterSite g i ;;
    match c with
    | Some _ => Ok false
    | None => Ok (ladder_fringe (lb_ladder g) (w64 (i - lb_first g)) (w64 (smax - lb_first g)) (w64 (emin - lb_first g)))
    end.
  Definition lb_getSubstituteSite (g : ladderbath) (smax emin siteNew : Z) : res Z :=
    do c1 <- lb_getClusterSite g siteNew ;;
    match c1 with
    | None =>
        do siteSubs <- ladder_getSubstituteSite (lb_ladder g) (w64 (smax - lb_first g)) (w64 (emin - lb_first g)) (w64 (siteNew - lb_first g)) ;;
        Ok (w64 (siteSubs + lb_first g))
    | Some _ => Throw
    end.
  Definition lb_term (g : ladderbath) (val : Z -> Z -> res T) : gterm T :=
    mkgterm (lb_fringe g) (lb_getSubstituteSite g) val (lb_connected g).

  (** KTwoNiFFour, fringe and getSubstituteSite: src/Geometry/KTwoNiFFour.h:199-215, 225-241, 328-380 *)
  Definition k2_fringe (i smax emin : Z) : bool :=
    let r := smax mod 4 in
    if r =? 0 then (i =? smax) || (i =? emin)
    else if r =? 1 then
      let b1 := (i =? smax) || (i =? w64 (smax - 1)) in
      let b2 := (i =? emin) || (i =? w64 (emin + 1)) || (i =? w64 (emin + 2)) in
      b1 || b2
    else if r =? 2 then (i =? w64 (smax - 2)) || (i =? w64 (emin + 2))
    else (i =? emin) || (i =? smax) || (i =? w64 (smax - 1)) || (i =? w64 (smax - 2)).
  Definition k2_getSubstituteSite (smax emin i : Z) : res Z :=
    let r := smax mod 4 in
    if r =? 0 then Ok (w64 (smax + 3))
    else if r =? 1 then
      if i =? emin then Ok (w64 (smax + 3))
      else if i =? w64 (emin + 1) then Ok (w64 (smax + 2))
      else if i =? w64 (emin + 2) then Ok (w64 (smax + 4))
      else UB
    else if r =? 2 then guard (i =? w64 (emin + 2)) ;; Ok (w64 (smax + 1))
    else guard (i =? emin) ;; Ok (w64 (smax + 1)).
  Definition k2_term (val : Z -> Z -> res T) : gterm T :=
    mkgterm (fun i s e => Ok (k2_fringe i s e)) k2_getSubstituteSite val k2_connected.

  (** Honeycomb, getSubstituteSite: src/Geometry/Honeycomb.h:171-175 *)
  Definition ho_term (g : honey) (val : Z -> Z -> res T) : gterm T :=
    mkgterm (ho_fringe g) (fun _ _ _ => Throw) val (ho_connected g).

  (** LongRange, connected, fringe and getSubstituteSite: src/Geometry/LongRange.h:180, 185-194 *)
  Definition longrange_getSubstituteSite (L smax emin siteNew2 : Z) : res Z :=
    guard (emin <=? siteNew2) ;;
    let tmp := w64 (siteNew2 - emin + smax + 1) in
    guard (tmp <? L) ;;
    Ok tmp.
  Definition longrange_term (L : Z) (val : Z -> Z -> res T) : gterm T :=
    mkgterm (fun _ _ _ => Ok true) (longrange_getSubstituteSite L) val (fun i j => Ok (longrange_connected i j)).
End Terms.
