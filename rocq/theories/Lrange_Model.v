(** Model of src/Geometry/LongRange.h: the matrix of connectors of a general
    geometry.  Numbers are Gaussian rationals (every finite complex<double> is
    one); sites, orbitals and sizes are unbounded naturals. *)
From Coq Require Import QArith Qcanon Ascii String.
From Verif Require Import Prelude Ring Dense_Model Str_Model Geo_Model.
Import List.
Local Open Scope nat_scope.

(** What the constructor finds in the input: each label with its value, [None]
    if reading it throws. *)
Record lrInput := mklri {
  in_entangler : option Qc;          (* "GeometryEntangler=" *)
  in_dofs : option nat;              (* "DegreesOfFreedom=" *)
  in_connectors : option (mat QGring);  (* "Connectors" *)
  in_maxConnections : option nat     (* "GeometryMaxConnections=" *)
}.

(** The members: src/Geometry/LongRange.h:346-349. *)
Record longRange := mklr {
  lr_linSize : nat; lr_dofs : nat; lr_maxConnections : nat; lr_matrix : mat QGring
}.

(** isInt64: src/Geometry/LongRange.h:335-344 *)
Definition isInt64 (d : Qc) : bool :=
  (Z.pos (Qden d) =? 1)%Z && (- 2 ^ 63 <=? Qnum d)%Z && (Qnum d <? 2 ^ 63)%Z.

(** complexToInteger: src/Geometry/LongRange.h:320-333; the conversion of a
    negative double to SizeType is undefined. *)
Definition complexToInteger (v : QGring) : res nat :=
  if negb (Qceqb (snd v) 0%Qc) then Throw
  else if negb (isInt64 (fst v)) then Throw
  else if (Qnum (fst v) <? 0)%Z then UB
  else Ok (Z.to_nat (Qnum (fst v))).

(** reinterpretMatrix: src/Geometry/LongRange.h:285-318 *)
Definition reinterpretMatrix (linSize dofs : nat) (values : mat QGring) : res (mat QGring) :=
  guard (0 <? linSize) ;;
  guard (0 <? dofs) ;;
  let n := linSize * dofs in
  let matrix := mat_new QGring n n in
  if 1 <? dofs then
    guard (m_ncol values =? 5) ;;
    forM (m_nrow values) 0 (fun i matrix =>
      do x0 <- mget QGring values i 0 ;; do site0 <- complexToInteger x0 ;;
      do x1 <- mget QGring values i 1 ;; do orb0 <- complexToInteger x1 ;;
      do x2 <- mget QGring values i 2 ;; do site1 <- complexToInteger x2 ;;
      do x3 <- mget QGring values i 3 ;; do orb1 <- complexToInteger x3 ;;
      do v <- mget QGring values i 4 ;;
      mset QGring matrix (orb0 + site0 * dofs) (orb1 + site1 * dofs) v) matrix
  else
    guard (m_ncol values =? 3) ;;
    forM (m_nrow values) 0 (fun i matrix =>
      do x0 <- mget QGring values i 0 ;; do site0 <- complexToInteger x0 ;;
      do x1 <- mget QGring values i 1 ;; do site1 <- complexToInteger x1 ;;
      do v <- mget QGring values i 2 ;;
      mset QGring matrix site0 site1 v) matrix.

(** setEntangler: src/Geometry/LongRange.h:227-233 *)
Definition setEntangler (m : mat QGring) (value : QGring) : res (mat QGring) :=
  let n := m_nrow m in
  forM n 0 (fun i m => forR (i + 1) n (fun j m => mset QGring m i j value) m) m.

(** hasDiagonal: src/Geometry/LongRange.h:260-271 *)
Definition hasDiagonal (m : mat QGring) : res bool :=
  let n := m_nrow m in
  if negb (n =? m_ncol m) then Ok true
  else forM n 0 (fun i b => if (b : bool) then Ok b else
                            do x <- mget QGring m i i ;; Ok (negb (ceqb x c0))) false.

(** hasLowerTriangle: src/Geometry/LongRange.h:273-283 *)
Definition hasLowerTriangle (m : mat QGring) : res bool :=
  forM (m_nrow m) 0 (fun i b => forM i 0 (fun j b => if (b : bool) then Ok b else
                            do x <- mget QGring m i j ;; Ok (negb (ceqb x c0))) b) false.

(** checkConnectors: src/Geometry/LongRange.h:235-258: the warnings printed. *)
Definition checkConnectors (m : mat QGring) (linSize : nat) : res (list str) :=
  let w := if negb (m_nrow m =? m_ncol m) then [lit "Connectors matrix isn't square"] else [] in
  guard (negb (linSize =? 0)) ;;
  let w := if negb (m_nrow m mod linSize =? 0)
           then w ++ [lit "Connectors matrix isn't divisible by number of sites"] else w in
  do b <- hasDiagonal m ;;
  let w := if b then w ++ [lit "Connectors matrix has non-zero diagonal value(s)"] else w in
  do b <- hasLowerTriangle m ;;
  let w := if b then w ++ [lit "Connectors matrix has non-zero(es) in lower triangle"] else w in
  Ok w.

(** What a failed read does. *)
Definition orThrow {A} (o : option A) : res A := match o with Some a => Ok a | None => Throw end.

(** The constructor: src/Geometry/LongRange.h:99-150.  It gives the object and
    the warnings. *)
Definition newLongRange (linSize : nat) (goptions : str) (io : lrInput) : res (longRange * list str) :=
  do dofs <- orThrow (in_dofs io) ;;
  do m <- (match in_entangler io with
           | Some e =>
             let n := dofs * linSize in
             setEntangler (mat_new QGring n n) (e, 0%Qc)
           | None => orThrow (in_connectors io)
           end) ;;
  if negb (str_eqb goptions (lit "ConstantValues") || str_eqb goptions (lit "compact")
           || str_eqb goptions (lit "none")) then Throw
  else
    do m <- (if str_eqb goptions (lit "compact") then reinterpretMatrix linSize dofs m
             else
               guard (negb (linSize =? 0)) ;;
               if negb (dofs =? m_nrow m / linSize) then Throw else Ok m) ;;
    do w <- checkConnectors m linSize ;;
    match in_maxConnections io with
    | Some x => Ok (mklr linSize dofs x m, w)
    | None => match in_entangler io with
              | None => Throw
              | Some _ => Ok (mklr linSize dofs 0 m, w)
              end
    end.

(** set: src/Geometry/LongRange.h:152-158 *)
Definition lr_set (g : longRange) (orbitals : nat) : res (mat QGring) :=
  if negb (orbitals =? lr_dofs g) then Throw else Ok (lr_matrix g).

(** maxConnections: src/Geometry/LongRange.h:160-164; the product with 0.25 is
    exact for fewer than 2^26 sites, and the conversion to SizeType drops the
    fraction. *)
Definition lr_maxConn (g : longRange) : nat :=
  if lr_maxConnections g =? 0 then lr_linSize g * lr_linSize g / 4 else lr_maxConnections g.

(** findReflection: src/Geometry/LongRange.h:198-201 *)
Definition lr_findReflection (g : longRange) (site : nat) : nat := lr_linSize g - site - 1.

(** The while loop of translate: src/Geometry/LongRange.h:214-215 *)
Fixpoint lr_translate_loop (fuel L site : nat) : res nat :=
  match fuel with
  | 0 => OutOfFuel
  | S fuel' => if L <=? site then lr_translate_loop fuel' L (site - L) else Ok site
  end.

(** translate: src/Geometry/LongRange.h:209-217 *)
Definition lr_translate (fuel : nat) (g : longRange) (site dir amount : nat) : res nat :=
  guard (dir =? 0) ;;
  lr_translate_loop fuel (lr_linSize g) (site + amount).

(** handle, connected, calcDir: src/Geometry/LongRange.h:168-171, 180, 183; what
    src/Geometry/GeometryTerm.h:461-503 computes from them and from the matrix
    [m] that set gave to the only direction (src/Geometry/GeometryDirection.h:171-221). *)
Definition term_matrix (L dofs : nat) (m : mat QGring) : res (mat QGring) :=
  gt_cacheValues QGring L dofs (L * dofs) (base_index dofs) (fun _ _ => Ok true) (fun _ _ => Ok 0)
    (fun _ => gdir_value QGring (fun i j => Ok (Nat.min i j)) (fun _ _ => Ok c1)
       (mkgdir dofs false true [] [] m)).

(** The value the geometry gives between two sites and orbitals: the term takes
    the matrix with set, caches it, and reads it. *)
Definition lr_value (g : longRange) (dofs s0 o0 s1 o1 : nat) : res QGring :=
  do m <- lr_set g dofs ;;
  do t <- term_matrix (lr_linSize g) dofs m ;;
  gt_value QGring (base_index dofs) t s0 o0 s1 o1.
