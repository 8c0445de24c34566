(** Model of the lattices of src/Geometry. Sites and sizes are SizeType, here
    non-negative [Z]; subtraction wraps around at 2^64 ([w64]), while sums and
    products are taken not to overflow. Failed asserts and divisions by zero are
    [UB]. The reading of the options from the input is replaced by arguments. *)
From Verif Require Import Prelude Ring Vec_Model Dense_Model.
From Coq Require Import ZArith.
Local Open Scope Z_scope.

Definition w64 (z : Z) : Z := z mod 18446744073709551616.

(** neighbors: src/Geometry/GeometryBase.h:157-166 *)
Definition neighbors (i1 i2 : Z) (periodic : bool) (period : Z) : bool :=
  let imin := if i1 <? i2 then i1 else i2 in
  let imax := if i2 <? i1 then i1 else i2 in
  let b := (imax - imin =? 1) in
  if negb periodic then b else b || (imax - imin =? period).

(** The subtracting loops of translate: src/Geometry/LongChain.h:197-200,
    src/Geometry/Ladder.h:290-296. A loop that does not end is [OutOfFuel]. *)
Fixpoint sub_loop (fuel : nat) (c l : Z) : res Z :=
  match fuel with
  | O => OutOfFuel
  | S f => if l <=? c then sub_loop f (c - l) l else Ok c
  end.

(** ------------------------------------------------------------------ *)
(** LongChain: src/Geometry/LongChain.h:212-216 *)
Record chain := mkchain { ch_L : Z; ch_per : bool; ch_d : Z }.

(** ctor: src/Geometry/LongChain.h:98-123. [isPeriodicX] and [distance] are the
    values of the labels, if given. The RuntimeError made when linSize <=
    distance is not thrown. *)
Definition chain_new (linSize : Z) (isPeriodicX distance : option Z) : chain :=
  mkchain linSize
    (match isPeriodicX with Some x => 0 <? x | None => false end)
    (match distance with Some x => w64 x | None => 1 end).

(** handle: src/Geometry/LongChain.h:132-135 *)
Definition chain_handle (g : chain) (i j : Z) : Z := if i <? j then i else j.

(** getVectorSize: src/Geometry/LongChain.h:137-142 *)
Definition chain_getVectorSize (g : chain) : Z :=
  w64 (ch_L g - ch_d g + (if ch_per g then 1 else 0)).

(** connected: src/Geometry/LongChain.h:144-155 *)
Definition chain_connected (g : chain) (i1 i2 : Z) : bool :=
  if i1 =? i2 then false else
  let imin := if i1 <? i2 then i1 else i2 in
  let imax := if i2 <? i1 then i1 else i2 in
  let b := (imax - imin =? ch_d g) in
  if negb (ch_per g) then b else b || (imax - imin =? w64 (ch_L g - ch_d g)).

(** fringe: src/Geometry/LongChain.h:160-169 *)
Definition chain_fringe (g : chain) (i smax emin : Z) : bool :=
  let emin2 := smax + 1 in
  if i <=? smax then
    let iPlus := i + ch_d g in
    (iPlus <? ch_L g) && (emin2 <=? iPlus)
  else (ch_d g <=? i) && (i - ch_d g <? emin).

(** getSubstituteSite: src/Geometry/LongChain.h:172-178 *)
Definition chain_getSubstituteSite (g : chain) (smax emin siteNew2 : Z) : res Z :=
  guard (emin <=? siteNew2) ;;
  let tmp := siteNew2 - emin + smax + 1 in
  guard (tmp <? ch_L g) ;;
  Ok tmp.

(** findReflection: src/Geometry/LongChain.h:182-185 *)
Definition chain_findReflection (g : chain) (site : Z) : Z := w64 (ch_L g - site - 1).

(** translate: src/Geometry/LongChain.h:193-201 *)
Definition chain_translate (g : chain) (site dir amount : Z) : res Z :=
  guard (dir =? 0) ;;
  sub_loop (S (Z.to_nat (site + amount))) (site + amount) (ch_L g).

(** ------------------------------------------------------------------ *)
(** Ladder: src/Geometry/Ladder.h:298-301 *)
Record ladder := mkladder { la_L : Z; la_leg : Z; la_px : bool; la_py : bool }.

(** ctor: src/Geometry/Ladder.h:96-138. [px], [py] are the values of IsPeriodicX=
    and IsPeriodicY= if given; [garbage] is what isPeriodicY_ holds when nothing
    sets it. *)
Definition ladder_new (linSize leg : Z) (px py : option Z) (garbage : bool) : res ladder :=
  let perX := match px with Some x => 0 <? x | None => false end in
  do perY <- match py with
             | Some x => Ok (0 <? x)
             | None => if 2 <? leg then Throw else Ok garbage
             end ;;
  let perY := if leg =? 2 then false else perY in
  guard (negb (leg =? 0)) ;;
  if negb (linSize mod leg =? 0) then Throw else Ok (mkladder linSize leg perX perY).

(** getVectorSize: src/Geometry/Ladder.h:147-156; DIRECTION_X = 0, DIRECTION_Y = 1 *)
Definition ladder_getVectorSize (g : ladder) (dirId : Z) : res Z :=
  if dirId =? 0 then Ok (if la_px g then la_L g else w64 (la_L g - la_leg g))
  else if dirId =? 1 then Ok (if la_py g then la_L g else w64 (la_L g - la_L g / la_leg g))
  else Throw.

(** connected: src/Geometry/Ladder.h:158-171 *)
Definition ladder_connected (g : ladder) (i1 i2 : Z) : bool :=
  if i1 =? i2 then false else
  let c1 := i1 / la_leg g in
  let c2 := i2 / la_leg g in
  let r1 := i1 mod la_leg g in
  let r2 := i2 mod la_leg g in
  if c1 =? c2 then neighbors r1 r2 (la_py g) (w64 (la_leg g - 1))
  else if r1 =? r2 then neighbors c1 c2 (la_px g) (w64 (la_L g / la_leg g - 1))
  else false.

(** sameColumn, sameRow: src/Geometry/Ladder.h:232-248 *)
Definition ladder_sameColumn (g : ladder) (i1 i2 : Z) : bool := i1 / la_leg g =? i2 / la_leg g.
Definition ladder_sameRow (g : ladder) (i1 i2 : Z) : bool := i1 mod la_leg g =? i2 mod la_leg g.

(** calcDir: src/Geometry/Ladder.h:173-177 *)
Definition ladder_calcDir (g : ladder) (i1 i2 : Z) : res Z :=
  guard (ladder_connected g i1 i2) ;;
  Ok (if ladder_sameColumn g i1 i2 then 1 else 0).

(** fringe: src/Geometry/Ladder.h:179-192 *)
Definition ladder_fringe (g : ladder) (i smax emin : Z) : bool :=
  let c := smax mod la_leg g in
  let r := 2 + 2 * c in
  let r := if la_leg g / 2 <=? c then w64 (r - la_leg g) else r in
  let r := if smax + 1 =? emin then la_leg g else r in
  let a := (i <? emin) && (w64 (smax - r + 1) <=? i) in
  let b := (smax <? i) && (i <=? w64 (emin + r - 1)) in
  a || b.

(** getSubstituteSite: src/Geometry/Ladder.h:195-206 *)
Definition ladder_getSubstituteSite (g : ladder) (smax emin siteEnv : Z) : res Z :=
  if smax + 1 =? emin then Ok siteEnv else
  let c := smax mod la_leg g in
  let s := w64 (emin / la_leg g - smax / la_leg g) in
  guard (0 <? s) ;;
  let s := if la_leg g / 2 <=? c then s - 1 else s in
  Ok (w64 (siteEnv - s * la_leg g)).

(** handle: src/Geometry/Ladder.h:208-230 *)
Definition ladder_handle (g : ladder) (i1 i2 : Z) : res Z :=
  do dir <- ladder_calcDir g i1 i2 ;;
  let imin := if i1 <? i2 then i1 else i2 in
  let imax := if i1 <? i2 then i2 else i1 in
  let y := imin / la_leg g in
  if dir =? 0 then
    if negb (la_px g) then Ok imin
    else Ok (if (imin <? la_leg g) && (imax =? w64 (imin + la_L g - la_leg g)) then imax else imin)
  else
    if negb (la_py g) then Ok (imin - y)
    else Ok (if (imin mod la_leg g =? 0) && (imax =? imin + la_leg g - 1) then imax else imin).

(** translate, translateInternal: src/Geometry/Ladder.h:260-273, 290-296 *)
Definition ladder_translate (g : ladder) (site dir amount : Z) : res Z :=
  guard (dir <? 2) ;;
  let x := site / la_leg g in
  let y := site mod la_leg g in
  let lx := la_L g / la_leg g in
  do (x, y) <- (if dir =? 0 then
                  do x' <- sub_loop (S (Z.to_nat (x + amount))) (x + amount) lx ;; Ok (x', y)
                else
                  do y' <- sub_loop (S (Z.to_nat (y + amount))) (y + amount) (la_leg g) ;; Ok (x, y')) ;;
  let ind := y + x * la_leg g in
  guard (ind <? la_L g) ;;
  Ok ind.

(** findReflection: src/Geometry/Ladder.h:275-283 *)
Definition ladder_findReflection (g : ladder) (site : Z) : res Z :=
  let x := site / la_leg g in
  let y := site mod la_leg g in
  let lx := la_L g / la_leg g in
  let ind := y + w64 (lx - x - 1) * la_leg g in
  guard (ind <? la_L g) ;;
  Ok ind.

(** ------------------------------------------------------------------ *)
(** LadderX: src/Geometry/LadderX.h:216-219. It is the ladder it owns.
    DIRECTION_XPY = 2, DIRECTION_XMY = 3. *)
(** getVectorSize: src/Geometry/LadderX.h:123-133 *)
Definition ladderx_getVectorSize (g : ladder) (dirId : Z) : res Z :=
  if (dirId =? 2) || (dirId =? 3) then Ok (w64 (la_L g - la_leg g))
  else ladder_getVectorSize g dirId.

(** connected: src/Geometry/LadderX.h:135-157 *)
Definition ladderx_connected (g : ladder) (i1 i2 : Z) : bool :=
  if i1 =? i2 then false else
  if ladder_connected g i1 i2 then true else
  let lx := la_L g / la_leg g in
  let c1 := i1 / la_leg g in
  let c2 := i2 / la_leg g in
  let r1 := i1 mod la_leg g in
  let r2 := i2 mod la_leg g in
  if c1 =? c2 then neighbors r1 r2 (la_py g) (la_leg g)
  else if r1 =? r2 then neighbors c1 c2 false 0
  else neighbors r1 r2 (la_py g) (la_leg g) && neighbors c1 c2 (la_py g) lx.

(** calcDir: src/Geometry/LadderX.h:160-170 *)
Definition ladderx_calcDir (g : ladder) (i1 i2 : Z) : Z :=
  if ladder_sameColumn g i1 i2 then 1
  else if ladder_sameRow g i1 i2 then 0
  else let imin := if i1 <? i2 then i1 else i2 in
       if Z.odd imin then 2 else 3.

(** handle: src/Geometry/LadderX.h:184-199 *)
Definition ladderx_handle (g : ladder) (i1 i2 : Z) : res Z :=
  let dir := ladderx_calcDir g i1 i2 in
  let imin := if i1 <? i2 then i1 else i2 in
  if dir =? 0 then Ok imin
  else if dir =? 1 then Ok (imin - imin / la_leg g)
  else if dir =? 2 then Ok (w64 (imin - 1) / la_leg g)
  else if dir =? 3 then Ok (imin / la_leg g)
  else Throw.

(** ------------------------------------------------------------------ *)
(** Star: src/Geometry/Star.h:157-158 (its number of sites) *)
(** handle: src/Geometry/Star.h:104-107 *)
Definition star_handle (i j : Z) : Z := w64 (if i <? j then j - 1 else i - 1).
(** getVectorSize: src/Geometry/Star.h:109-114 *)
Definition star_getVectorSize (L : Z) (dirId : Z) : res Z :=
  if negb (dirId =? 0) then Throw else Ok (w64 (L - 1)).
(** connected: src/Geometry/Star.h:116-121; CENTER = 1 *)
Definition star_connected (i1 i2 : Z) : bool :=
  if i1 =? i2 then false else (i1 =? 1) || (i2 =? 1).

(** LongRange::connected: src/Geometry/LongRange.h:180 *)
Definition longrange_connected (i1 i2 : Z) : bool := true.

(** ------------------------------------------------------------------ *)
(** LadderBath: src/Geometry/LadderBath.h:291-294 *)
Record ladderbath := mklb { lb_L : Z; lb_b : Z; lb_ladder : ladder }.

(** clusterSize_, computed in the ctor: src/Geometry/LadderBath.h:102-110 *)
Definition ladderbath_new (linSize bathSitesPerSite leg : Z) (px py : option Z) (garbage : bool) :
    res ladderbath :=
  do l <- ladder_new (linSize / (1 + bathSitesPerSite)) leg px py garbage ;;
  Ok (mklb linSize bathSitesPerSite l).
Definition lb_cluster (g : ladderbath) : Z := la_L (lb_ladder g).
Definition lb_first (g : ladderbath) : Z := (lb_cluster g / 2) * lb_b g.

(** getVectorSize: src/Geometry/LadderBath.h:130-135; DIRECTION_BATH = 2 *)
Definition lb_getVectorSize (g : ladderbath) (dirId : Z) : res Z :=
  if dirId =? 2 then Ok (lb_b g * lb_cluster g) else ladder_getVectorSize (lb_ladder g) dirId.

(** getClusterSite: src/Geometry/LadderBath.h:233-250. The pair (-1,-1) is [None].
    The conversions to int are taken to be exact. *)
Definition lb_getClusterSite (g : ladderbath) (i : Z) : res (option (Z * Z)) :=
  let firstClusterSite := lb_first g in
  let lastP1ClusterSite := firstClusterSite + lb_cluster g in
  if (firstClusterSite <=? i) && (i <? lastP1ClusterSite) then Ok None else
  let middle := lb_L g / 2 in
  let cs := lb_cluster g / 2 in
  guard (negb (cs =? 0)) ;;
  if i <? middle then Ok (Some (i mod cs + firstClusterSite, i / cs)) else
  let iprime := w64 (i - lastP1ClusterSite) in
  let offset := lastP1ClusterSite - cs in
  Ok (Some (iprime mod cs + offset, iprime / cs)).

(** connected: src/Geometry/LadderBath.h:137-156, 254-258, 284-289 *)
Definition lb_connected (g : ladderbath) (i1 i2 : Z) : res bool :=
  if i1 =? i2 then Ok false else
  do c1 <- lb_getClusterSite g i1 ;;
  do c2 <- lb_getClusterSite g i2 ;;
  match c1, c2 with
  | None, None => Ok (ladder_connected (lb_ladder g) (i1 - lb_first g) (i2 - lb_first g))
  | Some _, Some _ => Ok false
  | None, Some (c, _) => Ok (c =? i1)
  | Some (c, _), None => Ok (c =? i2)
  end.

(** handle: src/Geometry/LadderBath.h:180-196, 278-282 *)
Definition lb_handle (g : ladderbath) (i1 i2 : Z) : res Z :=
  do c1 <- lb_getClusterSite g i1 ;;
  do c2 <- lb_getClusterSite g i2 ;;
  match c1, c2 with
  | None, None => ladder_handle (lb_ladder g) (i1 - lb_first g) (i2 - lb_first g)
  | Some (c, b), _ => Ok (w64 ((c - lb_first g) * lb_b g + b))
  | None, Some (c, b) => Ok (w64 ((c - lb_first g) * lb_b g + b))
  end.

(** ------------------------------------------------------------------ *)
(** KTwoNiFFour. findTypeOfSite: src/Geometry/KTwoNiFFour.h:309-318. The first
    component tells TYPE_C, the second SUBTYPE_X. *)
Definition k2_type (site : Z) : bool * bool :=
  let r := (site + 1) mod 4 in
  if r =? 0 then (true, true) else (false, r =? 1).

(** connected: src/Geometry/KTwoNiFFour.h:132-167 *)
Definition k2_connected (i1 i2 : Z) : res bool :=
  if i1 =? i2 then Ok false else
  let '(t1, s1) := k2_type i1 in
  let '(t2, s2) := k2_type i2 in
  if eqb t1 t2 && t1 then Ok false
  else if eqb t1 t2 && negb t1 then
    if eqb s1 s2 then Ok false else
    let newi1 := if s1 then i1 else i2 in
    let newi2 := if s1 then i2 else i1 in
    if newi2 <? newi1 then
      guard (4 <=? newi1) ;;
      Ok ((newi1 - 2 =? newi2) || (newi1 - 3 =? newi2))
    else if w64 (newi2 - 1) =? newi1 then Ok true
    else Ok ((2 <=? newi2) && (newi2 - 2 =? newi1))
  else
    let newi1 := if negb t1 then i1 else i2 in
    let newi2 := if negb t1 then i2 else i1 in
    guard (3 <=? newi2) ;;
    Ok ((newi2 - 1 =? newi1) || (newi2 - 2 =? newi1) || (newi2 - 3 =? newi1) || (newi2 + 1 =? newi1)).

(** calcDir: src/Geometry/KTwoNiFFour.h:170-197; DIR_X, DIR_Y, DIR_XPY, DIR_XMY = 0, 1, 2, 3 *)
Definition k2_calcDir (i1 i2 : Z) : res Z :=
  let '(t1, s1) := k2_type i1 in
  let '(t2, s2) := k2_type i2 in
  if eqb t1 t2 && negb t1 then
    guard (negb (eqb s1 s2)) ;;
    let newi1 := if s1 then i1 else i2 in
    let newi2 := if s1 then i2 else i1 in
    if newi2 <? newi1 then
      guard (4 <=? newi1) ;;
      let distance := newi1 - newi2 in
      if distance =? 2 then Ok 2 else
      guard (distance =? 3) ;; Ok 3
    else
      let distance := newi2 - newi1 in
      if distance =? 1 then Ok 2 else
      guard (distance =? 2) ;; Ok 3
  else
    let newi1 := if negb t1 then i1 else i2 in
    Ok (if snd (k2_type newi1) then 0 else 1).

(** matrixRank: src/Geometry/KTwoNiFFour.h:250-263 *)
Definition k2_matrixRank (linSize : nat) : Z :=
  let '(no, nc) :=
    fold_left (fun '(no, nc) i => if fst (k2_type (Z.of_nat i)) then (no, nc + 1) else (no + 1, nc))
      (seq 0 linSize) (0, 0) in
  2 * no + nc.

(** index: src/Geometry/KTwoNiFFour.h:266-277 *)
Definition k2_index (linSize : Z) (i orb : Z) : res Z :=
  let type1 := fst (k2_type i) in
  if type1 && (0 <? orb) then Ok (-1)
  else if type1 || (orb =? 0) then Ok i
  else
    let tmp := (i + 1) / 4 in
    guard (tmp <=? linSize + i) ;;
    Ok (linSize + i - tmp).

(** orbitals: src/Geometry/KTwoNiFFour.h:300-304 *)
Definition k2_orbitals (orbs site : Z) : Z := if fst (k2_type site) then 1 else orbs.

(** isInverted, signChange: src/Geometry/KTwoNiFFour.h:279-298, 322-326 *)
Definition k2_isInverted (i : Z) : bool := (i + 4) mod 8 =? 0.
Definition k2_signChange (signChange_ : Z) (i1 i2 : Z) : res Z :=
  let newi1 := Z.min i1 i2 in
  let newi2 := Z.max i1 i2 in
  do sign1 <- (if negb (eqb (fst (k2_type newi1)) (fst (k2_type newi2))) then
                 let diff := newi2 - newi1 in
                 guard ((diff =? 1) || (diff =? 2) || (diff =? 3)) ;;
                 Ok (if diff <? 2 then -1 else 1)
               else Ok 1) ;;
  Ok (if k2_isInverted i1 || k2_isInverted i2 then signChange_ * sign1 else sign1).

(** ------------------------------------------------------------------ *)
(** Honeycomb: src/Geometry/Honeycomb.h:334-337. The conversions to int of
    getCoordinates are taken to be exact. *)
Record honey := mkhoney { ho_L : Z; ho_ly : Z; ho_py : bool; ho_px : bool }.

(** isMultipleOf3, isMultipleOf4, is4nPlus2: src/Geometry/Honeycomb.h:323-333 *)
Definition isMultipleOf3 (y : Z) : bool := y mod 3 =? 0.
Definition isMultipleOf4 (y : Z) : bool := y mod 4 =? 0.
Definition is4nPlus2 (y : Z) : bool := if y <? 2 then false else (y - 2) mod 4 =? 0.

(** isDirectionYsameCol, isDirectionXsameCol: src/Geometry/Honeycomb.h:295-311 *)
Definition ho_YsameCol (g : honey) (y1 y2 : Z) : res bool :=
  guard (y1 <? y2) ;;
  let dy := y2 - y1 in
  if (dy =? 1) && isMultipleOf4 y1 then Ok true
  else Ok (ho_py g && (dy + 1 =? ho_ly g) && isMultipleOf4 y2).
Definition ho_XsameCol (g : honey) (y1 y2 : Z) : res bool :=
  guard (y1 <? y2) ;;
  let dy := y2 - y1 in
  if (dy =? 1) && is4nPlus2 y1 then Ok true
  else Ok (ho_py g && (dy + 1 =? ho_ly g) && is4nPlus2 y2).

(** isDirectionZ: src/Geometry/Honeycomb.h:227-241 *)
Definition ho_isZ (g : honey) (x1 y1 x2 y2 : Z) : res bool :=
  if negb (x1 =? x2) then Ok false else
  guard (y1 <? y2) ;;
  let d := y2 - y1 in
  if (d =? 1) && Z.odd y1 then Ok true
  else if negb (ho_py g) then Ok false
  else Ok (d + 1 =? ho_ly g).

(** isDirectionY: src/Geometry/Honeycomb.h:244-267 *)
Definition ho_isY (g : honey) (x1 y1 x2 y2 : Z) : res bool :=
  if x1 =? x2 then ho_YsameCol g y1 y2 else
  let dy := w64 (y2 - y1) in
  if negb (dy =? 1) then Ok false else
  guard (x1 <? x2) ;;
  let dx := x2 - x1 in
  if (dx =? 1) && isMultipleOf3 y1 && (y2 <? y1) then Ok true
  else if negb (ho_px g) then Ok false
  else let lx := ho_L g / ho_ly g in
       if negb (dx + 1 =? lx) then Ok false
       else Ok (isMultipleOf3 y2 && (y1 <? y2)).

(** isDirectionX: src/Geometry/Honeycomb.h:270-293 *)
Definition ho_isX (g : honey) (x1 y1 x2 y2 : Z) : res bool :=
  if x1 =? x2 then ho_XsameCol g y1 y2 else
  let dy := w64 (y2 - y1) in
  if negb (dy =? 1) then Ok false else
  guard (x1 <? x2) ;;
  let dx := x2 - x1 in
  if (dx =? 1) && isMultipleOf4 y1 && (y1 <? y2) then Ok true
  else if negb (ho_px g) then Ok false
  else let lx := ho_L g / ho_ly g in
       if negb (dx + 1 =? lx) then Ok false
       else Ok (isMultipleOf4 y2 && (y2 <? y1)).

(** connectedInternal: src/Geometry/Honeycomb.h:189-217, 219-224. [None] is
    (false, DIR_X); DIR_X, DIR_Y, DIR_Z = 0, 1, 2. *)
Definition ho_conn (g : honey) (ii1 ii2 : Z) : res (option Z) :=
  if ii1 =? ii2 then Ok None else
  let i1 := if ii1 <? ii2 then ii1 else ii2 in
  let i2 := if ii1 <? ii2 then ii2 else ii1 in
  guard (negb (ho_ly g =? 0)) ;;
  let x1 := i1 / ho_ly g in let y1 := i1 mod ho_ly g in
  let x2 := i2 / ho_ly g in let y2 := i2 mod ho_ly g in
  do bx <- ho_isX g x1 y1 x2 y2 ;;
  if bx : bool then Ok (Some 0) else
  do by_ <- ho_isY g x1 y1 x2 y2 ;;
  if by_ : bool then Ok (Some 1) else
  do bz <- ho_isZ g x1 y1 x2 y2 ;;
  if bz : bool then Ok (Some 2) else Ok None.

(** connected: src/Geometry/Honeycomb.h:140-143 *)
Definition ho_connected (g : honey) (i1 i2 : Z) : res bool :=
  do c <- ho_conn g i1 i2 ;; Ok (match c with Some _ => true | None => false end).

(** isThereAneighbor, fringe: src/Geometry/Honeycomb.h:153-162, 313-321 *)
Definition ho_neighborIn (g : honey) (ind start end_ : Z) : res bool :=
  forM (Z.to_nat (end_ - start)) 0 (fun k (b : bool) =>
    if b then Ok true else ho_connected g ind (start + Z.of_nat k)) false.
Definition ho_fringe (g : honey) (i smax emin : Z) : res bool :=
  if i <=? smax then ho_neighborIn g i emin (ho_L g)
  else if emin <=? i then ho_neighborIn g i 0 smax
  else Ok false.

(** ------------------------------------------------------------------ *)
(** Geometry::connectionKind: src/Geometry/Geometry.h:158-172 *)
Inductive connkind := SYSTEM_SYSTEM | SYSTEM_ENVIRON | ENVIRON_SYSTEM | ENVIRON_ENVIRON.
Definition connectionKind (smax ind jnd : nat) : connkind :=
  let middle := S smax in
  if (ind <? middle)%nat && (middle <=? jnd)%nat then SYSTEM_ENVIRON
  else if (jnd <? middle)%nat && (middle <=? ind)%nat then ENVIRON_SYSTEM
  else if (ind <? middle)%nat then SYSTEM_SYSTEM else ENVIRON_ENVIRON.

(** Geometry::split: src/Geometry/Geometry.h:212-269, on vectors that are empty.
    Numbers are [nat] here. The wrapped value of linSize_ - sitesPerBlock, which
    needs linSize_ = 0, is [UB]: the assert on tmpV[j] then fails. *)
Local Open Scope nat_scope.
Fixpoint split_X (fuel i middle n : nat) (X : list (list nat)) : res (nat * list (list nat)) :=
  match fuel with
  | O => OutOfFuel
  | S f => if i <? middle then split_X f (i + n) middle n (X ++ [map (fun j => i + j) (seq 0 n)])
           else Ok (i, X)
  end.
Fixpoint split_Y (fuel i lastMiddle L middle n : nat) (allInSystem : bool) (X Y : list (list nat)) :
    res (nat * list (list nat) * list (list nat)) :=
  match fuel with
  | O => OutOfFuel
  | S f =>
      if i <? lastMiddle then
        let tmpV := map (fun j => (L - 1 - i - (n - 1 - j)) + (middle - n)) (seq 0 n) in
        let tmpV2 := map (fun j => (n - 1 - j) + i) (seq 0 n) in
        guard (forallb (fun v => v <? L) tmpV) ;;
        if allInSystem then split_Y f (i + n) lastMiddle L middle n allInSystem (X ++ [tmpV2]) Y
        else split_Y f (i + n) lastMiddle L middle n allInSystem X (Y ++ [tmpV])
      else Ok (i, X, Y)
  end.
Definition geo_split (L n : nat) (allInSystem : bool) :
    res (list nat * list (list nat) * list (list nat) * list nat) :=
  let middle := L / 2 + L mod 2 in
  guard (negb (n =? 0)) ;;
  let b1 := negb (L mod n =? 0) || (L / n <? 3) in
  let b2 := 1 <? n in
  if b1 && b2 then Throw else
  let Sy := seq 0 n in
  do (i, X) <- split_X (S L) n middle n [] ;;
  guard (n <=? L) ;;
  do (i, X, Y) <- split_Y (S L) i (L - n) L middle n allInSystem X [] ;;
  Ok (Sy, X, Y, seq i (L - i)).

(** ------------------------------------------------------------------ *)
(** Values of the connectors. *)
Section Values.
  Variable R : cring.
  Local Open Scope nat_scope.

  (** GeometryDirection: src/Geometry/GeometryDirection.h:262-266. [orbitals],
      [constantValues], GENERAL or not, the numbers, the matrices and the raw
      hoppings; [handle] and [signChange] are those of the lattice. *)
  Record gdir := mkgdir {
    gd_orbitals : nat; gd_constant : bool; gd_general : bool;
    gd_numbers : list R; gd_matrices : list (mat R); gd_raw : mat R
  }.

  (** operator(): src/Geometry/GeometryDirection.h:184-221. When ii < jj it calls
      itself with the two ends exchanged; [sgn] is the sign as a ring element. *)
  Definition gdir_matrix (handle : nat -> nat -> res nat) (sgn : nat -> nat -> res R)
      (g : gdir) (i e1 j e2 : nat) : res R :=
    do h <- (if gd_constant g then Ok 0 else handle i j) ;;
    do m <- vget (gd_matrices g) h ;;
    let b := (e1 <? m_nrow m) && (e2 <? m_ncol m) in
    guard (b || ((e2 <? m_nrow m) && (e1 <? m_ncol m))) ;;
    do tmp <- (if b then mget R m e1 e2 else mget R m e2 e1) ;;
    do s <- sgn i j ;;
    Ok (cmul tmp s).
  Definition gdir_value (handle : nat -> nat -> res nat) (sgn : nat -> nat -> res R)
      (g : gdir) (i e1 j e2 : nat) : res R :=
    let ii := e1 + i * gd_orbitals g in
    let jj := e2 + j * gd_orbitals g in
    if gd_general g then
      guard ((e1 <? gd_orbitals g) && (e2 <? gd_orbitals g)) ;;
      mget R (gd_raw g) ii jj
    else
      do h <- (if gd_constant g then Ok 0 else handle i j) ;;
      if negb (1 <? gd_orbitals g) then vget (gd_numbers g) h
      else if ii <? jj then
        do v <- gdir_matrix handle sgn g j e2 i e1 ;; Ok (cconj v)
      else gdir_matrix handle sgn g i e1 j e2.

  (** calcValue: src/Geometry/GeometryTerm.h:494-503. [value dir i1 e1 i2 e2] is
      directions_[dir](...) . *)
  Definition gt_calcValue (conn : nat -> nat -> res bool) (calcDir : nat -> nat -> res nat)
      (value : nat -> nat -> nat -> nat -> nat -> res R) (i1 e1 i2 e2 : nat) : res R :=
    do c <- conn i1 i2 ;;
    if negb c then Ok c0 else
    do dir <- calcDir i1 i2 ;;
    value dir i1 e1 i2 e2.

  (** cacheValues: src/Geometry/GeometryTerm.h:461-492, on an empty matrix.
      [index] gives -1 as [None]. *)
  Definition gt_cacheValues (linSize orbitals rank : nat) (index : nat -> nat -> res (option nat))
      (conn : nat -> nat -> res bool) (calcDir : nat -> nat -> res nat)
      (value : nat -> nat -> nat -> nat -> nat -> res R) : res (mat R) :=
    forM linSize 0 (fun i1 m => forM linSize 0 (fun i2 m =>
      do c <- conn i1 i2 ;;
      if negb c then Ok m else
      forM orbitals 0 (fun e1 m =>
        do k1 <- index i1 e1 ;;
        match k1 with None => Ok m | Some k1 =>
          forM orbitals 0 (fun e2 m =>
            do k2 <- index i2 e2 ;;
            match k2 with None => Ok m | Some k2 =>
              do v <- gt_calcValue conn calcDir value i1 e1 i2 e2 ;;
              mset R m k1 k2 v
            end) m
        end) m) m) (mat_new R rank rank).

  (** operator()(i1, edof1, i2, edof2): src/Geometry/GeometryTerm.h:317-324 *)
  Definition gt_value (index : nat -> nat -> res (option nat)) (m : mat R) (i1 e1 i2 e2 : nat) : res R :=
    do k1 <- index i1 e1 ;;
    do k2 <- index i2 e2 ;;
    match k1, k2 with
    | Some k1, Some k2 => mget R m k1 k2
    | _, _ => UB
    end.
End Values.
Arguments mkgdir {R} _ _ _ _ _ _.
Arguments gd_orbitals {R} _.
Arguments gd_constant {R} _.
Arguments gd_general {R} _.
Arguments gd_numbers {R} _.
Arguments gd_matrices {R} _.
Arguments gd_raw {R} _.

(** GeometryBase::index: src/Geometry/GeometryBase.h:131-135 *)
Definition base_index (orbitals i e : nat) : res (option nat) :=
  guard (e <? orbitals) ;; Ok (Some (e + i * orbitals)).

(** GeometryTerm::operator() and connected with a gap between system and
    environment: src/Geometry/GeometryTerm.h:327-361, for one orbital.
    [val] is operator()(i1, 0, i2, 0). *)
Local Open Scope Z_scope.
Definition gap_value {T} (fringe : Z -> Z -> Z -> bool) (subst : Z -> Z -> Z -> res Z)
    (val : Z -> Z -> res T) (smax emin i1 i2 : Z) : res T :=
  if fringe i1 smax emin && fringe i2 smax emin then
    let '(s1, s2) := if i2 <? i1 then (i2, i1) else (i1, i2) in
    do s2 <- subst smax emin s2 ;;
    val s1 s2
  else val i1 i2.
Definition gap_connected (fringe : Z -> Z -> Z -> bool) (conn : Z -> Z -> bool)
    (smax emin i1 i2 : Z) : bool :=
  if i1 =? i2 then false else
  if negb (fringe i1 smax emin && fringe i2 smax emin) then conn i1 i2 else true.

(** GeometryDca::kSum, kSustract when enabled: src/Geometry/GeometryDca.h:42-54 *)
Definition dca_kSum (k1 k2 : Z) : Z := Z.lxor k1 k2.
Definition dca_kSustract (k1 k2 : Z) : Z := Z.lxor k1 k2.
