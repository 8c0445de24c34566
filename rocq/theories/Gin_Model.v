(** Model of building a geometry from an input file: the constructors of src/Geometry/Geometry.h, GeometryEx.h,
    GeometryTerm.h, GeometryDirection.h, LongChain.h, Ladder.h and Star.h, reading from an input file that is not in the
    Ainur format as in Input_Model and Inc_Model, where the prefixes that the constructors set have no effect and
    version() is 2 (src/InputNg.h:631, 642-645). [std_atof] is the standard function, so that numbers are of a ring. *)
From Coq Require Import Ascii String.
From Verif Require Import Prelude Ring Str_Model Text_Model Dense_Model Geo_Model Input_Model Inc_Model.
Import List.

(** try { io.readline(x, label) } catch (std::exception&) {} with an int x: src/Geometry/LongChain.h:103-119,
    src/Geometry/Ladder.h:105-130. Nothing is removed from what is to be read when it throws. *)
Definition try_long (r : rst) (label : str) : res (option Z * rst) :=
  match readline_long r label with
  | Ok (n, r') => Ok (Some n, r')
  | Throw => Ok (None, r)
  | UB => UB
  | OutOfFuel => OutOfFuel
  end.
(** the same with a SizeType: src/Geometry/GeometryTerm.h:168-174 *)
Definition try_size (r : rst) (label : str) : res (option Z * rst) :=
  match readline_size r label with
  | Ok (n, r') => Ok (Some n, r')
  | Throw => Ok (None, r)
  | UB => UB
  | OutOfFuel => OutOfFuel
  end.

(** What GeometryTerm uses of a GeometryBase: src/Geometry/GeometryBase.h:92-133. index, matrixRank and signChange are
    those of the base class, which the lattices below inherit. *)
Record glat := mkglat {
  gl_dirs : nat;
  gl_size : nat -> res Z;
  gl_conn : nat -> nat -> res bool;
  gl_dir : nat -> nat -> res nat;
  gl_handle : nat -> nat -> res nat
}.
Definition zn (f : Z -> Z -> res Z) (i j : nat) : res nat := do k <- f (Z.of_nat i) (Z.of_nat j) ;; Ok (Z.to_nat k).

(** LongChain: src/Geometry/LongChain.h:98-158 *)
Definition read_chain (linSize : Z) (r : rst) : res (glat * rst) :=
  do (px, r) <- try_long r (lit "IsPeriodicX=") ;;
  do (d, r) <- try_long r (lit "LongChainDistance=") ;;
  let g := chain_new linSize px d in
  Ok (mkglat 1 (fun _ => Ok (chain_getVectorSize g)) (fun i j => Ok (chain_connected g (Z.of_nat i) (Z.of_nat j)))
    (fun _ _ => Ok 0) (zn (fun i j => Ok (chain_handle g i j))), r).
(** Ladder: src/Geometry/Ladder.h:95-220; [garbage] is what isPeriodicY_ holds when nothing sets it. The exception thrown
    for two legs with IsPeriodicY is caught by the handler below it, which does nothing for two legs. *)
Definition read_ladder (garbage : bool) (linSize : Z) (r : rst) : res (glat * rst) :=
  do (leg, r) <- readline_size r (lit "LadderLeg=") ;;
  do (px, r) <- try_long r (lit "IsPeriodicX=") ;;
  do (py, r) <- try_long r (lit "IsPeriodicY=") ;;
  do g <- ladder_new linSize leg px py garbage ;;
  Ok (mkglat 2 (fun d => ladder_getVectorSize g (Z.of_nat d)) (fun i j => Ok (ladder_connected g (Z.of_nat i) (Z.of_nat j)))
    (zn (ladder_calcDir g)) (zn (ladder_handle g)), r).
(** Star: src/Geometry/Star.h:95-124 *)
Definition read_star (linSize : Z) (r : rst) : res (glat * rst) :=
  Ok (mkglat 1 (fun d => star_getVectorSize linSize (Z.of_nat d)) (fun i j => Ok (star_connected (Z.of_nat i) (Z.of_nat j)))
    (fun _ _ => Ok 0) (zn (fun i j => Ok (star_handle i j))), r).

Section Gin.
  Variable R : cring.
  Variable std_atof : str -> R.

  (** GeometryTerm: src/Geometry/GeometryTerm.h:509-514 *)
  Record gterm := mkgterm { gt_orbitals : nat; gt_lat : glat; gt_options : str; gt_directions : list (gdir R); gt_cached : mat R }.

  (** GeometryDirection: src/Geometry/GeometryDirection.h:122-168, 257-262, for SPECIFIC *)
  Definition read_direction (lat : glat) (constantValues : bool) (orbitals dirId : nat) (r : rst) : res (gdir R * rst) :=
    do n <- (if constantValues then Ok 1%Z else gl_size lat dirId) ;;
    if 1 <? orbitals then
      let n := if (n =? 0)%Z then 1%Z else n in
      do (ms, r) <- forM (Z.to_nat n) 0 (fun _ (st : list (mat R) * rst) =>
        let '(ms, r) := st in
        do (m, r) <- read_matrix R std_atof r (lit "Connectors") (mat_new R 0 0) ;;
        if negb (orbitals =? m_nrow m) || negb (orbitals =? m_ncol m) then Throw else
        Ok (ms ++ [m], r)) ([], r) ;;
      Ok (mkgdir orbitals constantValues false [] ms (mat_new R 0 0), r)
    else
      do (numbers, r) <- read_reals R std_atof r (lit "Connectors") [] ;;
      if negb (Z.of_nat (List.length numbers) =? n)%Z then Throw else
      Ok (mkgdir orbitals constantValues false numbers [] (mat_new R 0 0), r).

  (** the kinds of lattice that are not modelled here: ladderx, ladderbath, ktwoniffour, LongRange, General, Honeycomb and
      those that begin with Super; for them [other] stands for the rest of the constructor *)
  Variable other : str -> nat -> str -> Z -> rst -> res (gterm * rst).
  Variable garbage : bool.
  Definition other_kind (s : str) : bool :=
    str_eqb s (lit "ladderx") || str_eqb s (lit "ladderbath") || str_eqb s (lit "ktwoniffour") || str_eqb s (lit "LongRange") ||
    str_eqb s (lit "General") || str_eqb s (lit "Honeycomb") || str_eqb (firstn 5 s) (lit "Super").

  (** GeometryTerm, from the lattice on: src/Geometry/GeometryTerm.h:236-263, with cacheValues, 461-492 *)
  Definition finish_term (linSize : Z) (orbitals : nat) (gOptions : str) (lat : glat) (r : rst) : res (gterm * rst) :=
    let constantValues := match find_sub (lit "ConstantValues") gOptions with Some _ => true | None => false end in
    do (dirs, r) <- forM (gl_dirs lat) 0 (fun i (st : list (gdir R) * rst) =>
      let '(dirs, r) := st in
      do (d, r) <- read_direction lat constantValues orbitals i r ;;
      Ok (dirs ++ [d], r)) ([], r) ;;
    match readline r (lit "GeometryValueModifier=") true false with
    | Ok _ => Throw
    | UB => UB
    | OutOfFuel => OutOfFuel
    | Throw =>
      do m <- gt_cacheValues R (Z.to_nat linSize) orbitals (Z.to_nat linSize * orbitals) (base_index orbitals) (gl_conn lat) (gl_dir lat)
        (fun dir i e1 j e2 => do d <- vget dirs dir ;; gdir_value R (gl_handle lat) (fun _ _ => Ok c1) d i e1 j e2) ;;
      Ok (mkgterm orbitals lat gOptions dirs m, r)
    end.

  (** GeometryTerm: src/Geometry/GeometryTerm.h:154-263 *)
  Definition read_term (linSize : Z) (r : rst) : res (gterm * rst) :=
    do (x, r) <- try_size r (lit "DegreesOfFreedom=") ;;
    let orbitals := match x with Some x => Z.to_nat x | None => 1 end in
    if orbitals =? 0 then Throw else
    do (s, r) <- readline r (lit "GeometryKind=") true false ;;
    do (gOptions, r) <- readline r (lit "GeometryOptions=") true false ;;
    if str_eqb s (lit "chain") || str_eqb s (lit "longchain") then
      do (lat, r) <- read_chain linSize r ;; finish_term linSize orbitals gOptions lat r
    else if str_eqb s (lit "chainEx") then Throw
    else if str_eqb s (lit "ladder") then
      do (lat, r) <- read_ladder garbage linSize r ;; finish_term linSize orbitals gOptions lat r
    else if str_eqb s (lit "star") then
      do (lat, r) <- read_star linSize r ;; finish_term linSize orbitals gOptions lat r
    else if other_kind s then other s orbitals gOptions linSize r
    else Throw.

  (** Geometry: src/Geometry/Geometry.h:109-134, 338-339, with enabled_ of GeometryEx, src/Geometry/GeometryEx.h:24-41 *)
  Record geometry := mkgeometry { ge_enabled : bool; ge_sites : Z; ge_terms : list gterm }.
  Definition read_geometry (r : rst) : res (geometry * rst) :=
    do (s, r) <- (match readline r (lit "GeometryKind=") false false with
                  | Throw => readline r (lit "gt0:GeometryKind=") false false
                  | x => x
                  end) ;;
    do (x, r) <- readline_long r (lit "TotalNumberOfSites=") ;;
    if (x <? 0)%Z then Throw else
    do (n, r) <- readline_long r (lit "NumberOfTerms=") ;;
    if (n <? 0)%Z then Throw else
    do (terms, r) <- forM (Z.to_nat n) 0 (fun _ (st : list gterm * rst) =>
      let '(terms, r) := st in
      do (t, r) <- read_term x r ;;
      Ok (terms ++ [t], r)) ([], r) ;;
    Ok (mkgeometry (str_eqb s (lit "star")) x terms, r).

  (** operator()(i1, edof1, i2, edof2, term): src/Geometry/Geometry.h:180-183, and that of the term,
      src/Geometry/GeometryTerm.h:317-324 *)
  Definition geometry_value (g : geometry) (i1 e1 i2 e2 term : nat) : res R :=
    do t <- vget (ge_terms g) term ;;
    gt_value R (base_index (gt_orbitals t)) (gt_cached t) i1 e1 i2 e2.
End Gin.
Arguments gt_orbitals {R} _.
Arguments gt_lat {R} _.
Arguments gt_cached {R} _.
Arguments ge_sites {R} _.
Arguments ge_terms {R} _.
