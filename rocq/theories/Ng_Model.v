(** Model of src/Io/IoNgSerializer.h and of the parts of src/Io/IoNg.h, src/Matrix.h
    and src/CrsMatrix.h that store values in files.
    The HDF5 library is not part of the code; it is modelled as follows. A file maps
    paths to groups and data sets; a data set is a list of numbers, integers ([CI])
    or floating point ([CF]). A path is used as it is written: "a//b" is not "a/b".
    Creating a group or data set fails if the path exists or its parent is no
    group, unlinking fails if the path does not exist and removes what is below it,
    opening a data set fails if there is none. Conversions between integers and
    floating point numbers are not modelled ([UB]), nor are the ranges of the
    number types. *)
From Coq Require Import Ascii String.
From Verif Require Import Prelude Ring Str_Model Text_Model Dense_Model Crs_Model.
Import List.

Section Ng.
  Variable F : Type.   (* floating point numbers *)

  Inductive cell := CI (z : Z) | CF (x : F).
  Inductive node := Group | Data (l : list cell).
  Definition file := str -> option node.

  Definition fset (f : file) (p : str) (n : node) : file := fun q => if str_eqb q p then Some n else f q.
  Definition funlink (f : file) (p : str) : file :=
    fun q => if str_eqb q p || prefixb (p ++ lit "/") q then None else f q.

  (** The path without its last component; [None] is the root. *)
  Fixpoint drop_last (r : str) : option str :=
    match r with
    | [] => None
    | c :: r' => if Ascii.eqb c "/" then Some (rev r') else drop_last r'
    end.
  Definition parent (p : str) : option str := drop_last (rev p).
  Definition parent_ok (f : file) (p : str) : bool :=
    match parent p with
    | None => true
    | Some q => match f q with Some Group => true | _ => false end
    end.

  Definition h5_create (f : file) (p : str) (n : node) : res file :=
    match f p with
    | Some _ => Throw
    | None => if parent_ok f p then Ok (fset f p n) else Throw
    end.
  Definition h5_unlink (f : file) (p : str) : res file :=
    match f p with Some _ => Ok (funlink f p) | None => Throw end.
  Definition h5_data (f : file) (p : str) : res (list cell) :=
    match f p with Some (Data l) => Ok l | _ => Throw end.

  (** "Def/" + name2; for an empty name2 this is the group Def. *)
  Definition full (name2 : str) : str :=
    match name2 with [] => lit "Def" | _ => lit "Def/" ++ name2 end.

  (** createGroup: src/Io/IoNgSerializer.h:122-125 *)
  Definition createGroup (f : file) (group : str) : res file := h5_create f (full group) Group.

  (** doesGroupExist: src/Io/IoNgSerializer.h:127-140 *)
  Definition doesGroupExist (f : file) (group : str) : bool :=
    match f (full group) with Some Group => true | _ => false end.

  Inductive wmode := NO_OVERWRITE | ALLOW_OVERWRITE.

  (** internalWrite: src/Io/IoNgSerializer.h:621-645; a failure to create the data set
      is printed and gives false. *)
  Definition internalWrite (f : file) (p : str) (l : list cell) : file * bool :=
    match h5_create f p (Data l) with Ok f' => (f', true) | _ => (f, false) end.

  (** overwrite<SomeType>(name, ptr, dims, ndims): src/Io/IoNgSerializer.h:608-619 *)
  Definition overwriteRaw (f : file) (p : str) (l : list cell) : file * bool :=
    let f := match h5_unlink f p with Ok f' => f' | _ => f end in
    internalWrite f p l.

  (** write of a number: src/Io/IoNgSerializer.h:144-157 *)
  Definition write_num (f : file) (name2 : str) (c : cell) (m : wmode) : file * bool :=
    match m with
    | ALLOW_OVERWRITE => overwriteRaw f (full name2) [c]
    | NO_OVERWRITE => (fst (internalWrite f (full name2) [c]), true)
    end.

  (** write of a string: src/Io/IoNgSerializer.h:159-167 *)
  Definition chars (s : str) : list cell := map (fun c => CI (Z.of_N (N_of_ascii c))) s.
  Definition write_string (f : file) (name2 : str) (what : str) (m : wmode) : res file :=
    match m with
    | ALLOW_OVERWRITE => Throw
    | NO_OVERWRITE => Ok (fst (internalWrite f (full name2) (chars what)))
    end.

  (** write of a bool: src/Io/IoNgSerializer.h:169-184 *)
  Definition write_bool (f : file) (name2 : str) (b : bool) (m : wmode) : file :=
    let c := CI (if b then 1 else 0)%Z in
    match m with
    | ALLOW_OVERWRITE => fst (overwriteRaw f (full name2) [c])
    | NO_OVERWRITE => fst (internalWrite f (full name2) [c])
    end.

  (** name + "/" + s *)
  Definition sub (name : str) (s : string) : str := name ++ lit "/" ++ lit s.
  Definition subn (name : str) (i : nat) : str := name ++ lit "/" ++ print_nat i.

  (** write of a pair of numbers: src/Io/IoNgSerializer.h:186-193 *)
  Definition write_pair (f : file) (name2 : str) (a b : cell) (m : wmode) : res file :=
    do f <- match m with ALLOW_OVERWRITE => Ok f | NO_OVERWRITE => createGroup f name2 end ;;
    let f := fst (write_num f (sub name2 "0") a m) in
    Ok (fst (write_num f (sub name2 "1") b m)).

  (** writeComplexOrReal: src/Io/IoNgSerializer.h:806-810 *)
  Definition tagname (name2 : str) : str := name2 ++ lit "ComplexOrReal".
  Definition writeComplexOrReal (f : file) (name2 : str) (content : ascii) : file :=
    fst (write_num f (tagname name2) (CI (Z.of_N (N_of_ascii content))) NO_OVERWRITE).

  (** write of a vector of numbers: src/Io/IoNgSerializer.h:225-243; [isFloat] when the
      element type is floating point. *)
  Definition write_vec (f : file) (name2 : str) (isFloat : bool) (what : list cell) (m : wmode) : file :=
    match what with
    | [] => f
    | _ =>
      let f := if isFloat then writeComplexOrReal f name2 "R" else f in
      match m with
      | ALLOW_OVERWRITE => fst (overwriteRaw f (full name2) what)
      | NO_OVERWRITE => fst (internalWrite f (full name2) what)
      end
    end.

  (** write of a vector of complex numbers: src/Io/IoNgSerializer.h:245-263. When
      overwriting, the path is name2 and not name. *)
  Definition flat2 (l : list (F * F)) : list cell := flat_map (fun p => [CF (fst p); CF (snd p)]) l.
  Definition write_cvec (f : file) (name2 : str) (what : list (F * F)) (m : wmode) : file :=
    match what with
    | [] => f
    | _ =>
      let f := writeComplexOrReal f name2 "C" in
      match m with
      | ALLOW_OVERWRITE => fst (overwriteRaw f name2 (flat2 what))
      | NO_OVERWRITE => fst (internalWrite f (full name2) (flat2 what))
      end
    end.

  (** write of a vector of vectors, src/Io/IoNgSerializer.h:265-280, and of a vector of
      objects with a mode, 303-313: [wr f name x m] writes one element. *)
  Definition write_vecof {T} (wr : file -> str -> T -> wmode -> res file)
      (f : file) (name2 : str) (what : list T) (m : wmode) : res file :=
    let n := List.length what in
    do f <- match m with ALLOW_OVERWRITE => Ok f | NO_OVERWRITE => createGroup f name2 end ;;
    let f := fst (write_num f (sub name2 "Size") (CI (Z.of_nat n)) m) in
    forM n 0 (fun i f => do x <- vget what i ;; wr f (subn name2 i) x m) f.

  (** overwrite of a vector of objects: src/Io/IoNgSerializer.h:325-349. [wr] and [owr] are
      the write and overwrite of an element; [rdsize] reads a SizeType. *)
  Definition overwrite_vecof {T} (rdsize : file -> str -> res Z)
      (wr owr : file -> str -> T -> res file) (f : file) (name2 : str) (what : list T) : res file :=
    let n := List.length what in
    do oldN <- rdsize f (sub name2 "Size") ;;
    let oldN := Z.to_nat oldN in
    let min := Nat.min oldN n in
    let f := fst (write_num f (sub name2 "Size") (CI (Z.of_nat n)) ALLOW_OVERWRITE) in
    do f <- forM min 0 (fun i f => do x <- vget what i ;; owr f (subn name2 i) x) f ;;
    if (n <=? oldN)%nat then Ok f else
    forR min n (fun i f => do x <- vget what i ;;
      match wr f (subn name2 i) x with
      | Throw => owr f (subn name2 i) x
      | r => r
      end) f.

  (** read of a number: src/Io/IoNgSerializer.h:377-384. A data set with several elements
      would be read over the end of the variable. *)
  Definition read_num (f : file) (name : str) : res cell :=
    do l <- h5_data f (full name) ;;
    match l with [c] => Ok c | _ => UB end.
  Definition read_int (f : file) (name : str) : res Z :=
    do c <- read_num f name ;;
    match c with CI z => Ok z | CF _ => UB end.
  Definition read_flt (f : file) (name : str) : res F :=
    do c <- read_num f name ;;
    match c with CF x => Ok x | CI _ => UB end.

  (** read of a bool: src/Io/IoNgSerializer.h:388-397 *)
  Definition read_bool (f : file) (name : str) : res bool :=
    do z <- read_int f name ;; Ok (Z.testbit z 0).

  (** read of a pair of numbers: src/Io/IoNgSerializer.h:399-404 *)
  Definition read_pair (f : file) (name : str) : res (Z * Z) :=
    do a <- read_int f (sub name "0") ;;
    do b <- read_int f (sub name "1") ;;
    Ok (a, b).

  (** getReadEnumOnDisk: src/Io/IoNgSerializer.h:812-825 *)
  Inductive readEnum := FLOATING | COMPLEX | OTHER.
  Definition readEnum_eqb (a b : readEnum) : bool :=
    match a, b with FLOATING, FLOATING | COMPLEX, COMPLEX | OTHER, OTHER => true | _, _ => false end.
  Definition getReadEnumOnDisk (f : file) (name2 : str) : res readEnum :=
    match read_int f (tagname name2) with
    | Throw => Ok OTHER
    | Ok t => Ok (if (t =? Z.of_N (N_of_ascii "C"))%Z then COMPLEX else FLOATING)
    | UB => UB
    | OutOfFuel => OutOfFuel
    end.

  (** readInternal: src/Io/IoNgSerializer.h:547-599: the numbers of the data set and whether
      each is to be made complex. [dest] is the kind of the target's elements. *)
  Definition readInternal (f : file) (name : str) (dest : readEnum) : res (list cell * bool) :=
    do l <- h5_data f (full name) ;;
    match l with
    | [] => Throw
    | _ =>
      do disk <- getReadEnumOnDisk f name ;;
      if readEnum_eqb disk dest then
        if readEnum_eqb dest COMPLEX && Nat.odd (List.length l) then Throw else Ok (l, false)
      else if readEnum_eqb disk FLOATING && readEnum_eqb dest COMPLEX then Ok (l, true)
      else Throw
    end.

  Fixpoint ints_of (l : list cell) : res (list Z) :=
    match l with
    | [] => Ok []
    | CI z :: l' => do r <- ints_of l' ;; Ok (z :: r)
    | CF _ :: _ => UB
    end.
  Fixpoint flts_of (l : list cell) : res (list F) :=
    match l with
    | [] => Ok []
    | CF x :: l' => do r <- flts_of l' ;; Ok (x :: r)
    | CI _ :: _ => UB
    end.
  Fixpoint pairs_of (l : list F) : list (F * F) :=
    match l with
    | a :: b :: l' => (a, b) :: pairs_of l'
    | _ => []
    end.

  (** reads of vectors of numbers: src/Io/IoNgSerializer.h:428-440, and of strings, 386.
      [f0] is the zero a real number has as imaginary part. *)
  Definition read_vec_int (f : file) (name : str) : res (list Z) :=
    do (l, _) <- readInternal f name OTHER ;; ints_of l.
  Definition read_string (f : file) (name : str) : res str :=
    do l <- read_vec_int f name ;; Ok (map (fun z => ascii_of_N (Z.to_N z)) l).
  Definition read_vec_flt (f : file) (name : str) : res (list F) :=
    do (l, _) <- readInternal f name FLOATING ;; flts_of l.
  Definition read_cvec (f0 : F) (f : file) (name : str) : res (list (F * F)) :=
    do (l, promote) <- readInternal f name COMPLEX ;;
    do l <- flts_of l ;;
    Ok (if promote : bool then map (fun x => (x, f0)) l else pairs_of l).

  (** reads of vectors of vectors, objects and pairs: src/Io/IoNgSerializer.h:442-502.
      [rd f name x] reads into an element that holds x. *)
  Definition read_vecof {T} (dflt : T) (rd : file -> str -> T -> res T)
      (f : file) (name : str) (what : list T) : res (list T) :=
    do size <- read_int f (sub name "Size") ;;
    let what := vresize what (Z.to_nat size) dflt in
    forM (Z.to_nat size) 0
      (fun i what => do old <- vget what i ;; do x <- rd f (subn name i) old ;; vset what i x) what.

  (** convertFromBoolean, encodeBooleanSize: src/Io/IoNgSerializer.h:699-733, 768-782. A byte
      is a [Z]; [mask] is an unsigned char. *)
  Fixpoint encode_loop (k i : nat) (x : list Z) (tmp : Z) : res (list Z) :=
    match k with
    | O => Ok x
    | S k' =>
      do x <- vset x i (tmp mod 256)%Z ;;
      let tmp := Z.shiftr tmp 8 in
      if (tmp =? 0)%Z then Ok x else encode_loop k' (S i) x tmp
    end.
  Definition encodeBooleanSize (x : list Z) (total : nat) : res (list Z) :=
    guard (4 <=? List.length x)%nat ;;
    do x <- forM 4 0 (fun i x => vset x i 0%Z) x ;;
    encode_loop 4 0 x (Z.of_nat total).
  Definition convertFromBoolean (src : list bool) : res (list Z) :=
    let total := List.length src in
    if (total =? 0)%nat then Ok (repeat 0%Z 4) else
    let c := repeat 0%Z (total / 8 + 5) in
    do c <- encodeBooleanSize c total ;;
    do (c, _, _, _) <- forM total 0
      (fun i '(c, mask, j, bytes) =>
         guard ((j <? List.length c)%nat && (0 <? mask)%Z) ;;
         do b <- vget src i ;;
         do cj <- vget c j ;;
         do c <- (if b : bool then vset c j (Z.lor cj mask) else Ok c) ;;
         let mask := ((mask * 2) mod 256)%Z in
         let bytes := if (0 <? i)%nat && ((i + 1) mod 8 =? 0)%nat then S bytes else bytes in
         if (bytes =? 1)%nat then Ok (c, 1%Z, S j, 0%nat) else Ok (c, mask, j, bytes))
      (c, 1%Z, 4%nat, 0%nat) ;;
    Ok c.

  (** convertToBoolean, decodeBooleanSize: src/Io/IoNgSerializer.h:735-766, 784-796 *)
  Definition decodeBooleanSize (x : list Z) : res Z :=
    guard (4 <=? List.length x)%nat ;;
    do (tmp, _) <- forM 4 0 (fun i '(tmp, level) => do b <- vget x i ;; Ok (tmp + b * level, level * 256)%Z) (0, 1)%Z ;;
    Ok tmp.
  Definition convertToBoolean (dest : list bool) (x : list Z) : res (list bool) :=
    do encodedSize <- decodeBooleanSize x ;;
    guard (encodedSize <=? 8 * Z.of_nat (List.length x))%Z ;;
    let n := Z.to_nat encodedSize in
    let dest := vresize dest n false in
    do (dest, _, _, _) <- forM n 0
      (fun i '(dest, mask, j, bytes) =>
         guard ((j <? List.length x)%nat && (0 <? mask)%Z) ;;
         do xj <- vget x j ;;
         do dest <- vset dest i (negb (Z.land xj mask =? 0)%Z) ;;
         let mask := ((mask * 2) mod 256)%Z in
         let bytes := if (0 <? i)%nat && ((i + 1) mod 8 =? 0)%nat then S bytes else bytes in
         if (bytes =? 1)%nat then Ok (dest, 1%Z, S j, 0%nat) else Ok (dest, mask, j, bytes))
      (dest, 1%Z, 4%nat, 0%nat) ;;
    Ok dest.

  (** write and read of a vector<bool>: src/Io/IoNgSerializer.h:219-223, 413-418 *)
  Definition write_bools (f : file) (name : str) (what : list bool) (m : wmode) : res file :=
    do c <- convertFromBoolean what ;;
    Ok (write_vec f name false (map CI c) m).
  Definition read_bools (f : file) (name : str) (what : list bool) : res (list bool) :=
    do x <- read_vec_int f name ;; convertToBoolean what x.

  (** writeCanary, readCanary: src/Io/IoNgSerializer.h:647-697. "/Def/Canary" is
      "Def/Canary". *)
  Definition canary : str := lit "Def/Canary".
  Definition writeCanary (f : file) : res file :=
    match f canary with
    | Some (Data l) => Ok (fset f canary (Data (match l with [] => [] | _ :: r => CI 170 :: r end)))
    | Some Group => Throw
    | None => h5_create f canary (Data [CI 170])
    end.
  Definition readCanary (f : file) : res unit :=
    do l <- h5_data f canary ;;
    match l with
    | [] => Throw
    | [CI z] => if (z =? 170)%Z then Ok tt else Throw
    | [CF _] => UB
    | _ => UB
    end.

  (** The serializer: src/Io/IoNgSerializer.h:836-838, with the file it has open; writing to
      a file opened read only fails. *)
  Inductive h5mode := TRUNC | RDONLY | RDWR.
  Record ser := mkser { se_file : option file; se_h5mode : h5mode; se_mode : h5mode }.
  Definition isRO (m : h5mode) : bool := match m with RDONLY => true | _ => false end.

  (** What opening gives: the file on disk, or an empty one. *)
  Definition h5_openFile (disk : option file) (m : h5mode) : res file :=
    match m with
    | TRUNC => Ok (fun _ => None)
    | _ => match disk with Some f => Ok f | None => Throw end
    end.

  (** ctor: src/Io/IoNgSerializer.h:34-75 *)
  Definition ser_new (disk : option file) (m : h5mode) : res ser :=
    do f <- h5_openFile disk m ;;
    do f <- match m with TRUNC => createGroup f [] | _ => Ok f end ;;
    do _ <- match m with RDONLY => readCanary f | _ => Ok tt end ;;
    Ok (mkser (Some f) m m).

  (** open: src/Io/IoNgSerializer.h:89-99. mode_ is not changed. *)
  Definition ser_open (s : ser) (disk : option file) (m : h5mode) : res ser :=
    match se_file s with
    | Some _ => Throw
    | None =>
      do f <- h5_openFile disk m ;;
      if isRO (se_mode s) then Ok (mkser (Some f) m (se_mode s))
      else if isRO m then Throw
      else do f <- writeCanary f ;; Ok (mkser (Some f) m (se_mode s))
    end.

  (** close, flush and the destructor: src/Io/IoNgSerializer.h:77-85, 101-117. They return what
      is then on disk. *)
  Definition ser_flush (s : ser) : res (ser * file) :=
    match se_file s with
    | None => UB
    | Some f =>
      if isRO (se_mode s) then Ok (s, f)
      else if isRO (se_h5mode s) then Throw
      else do f <- writeCanary f ;; Ok (mkser (Some f) (se_h5mode s) (se_mode s), f)
    end.
  Definition ser_close (s : ser) : res (ser * file) :=
    do (s, f) <- ser_flush s ;;
    Ok (mkser None (se_h5mode s) (se_mode s), f).

  (** In::readLastVectorEntry, Out::writeVectorEntry: src/Io/IoNg.h:265-275, 167-175,
      for numbers. *)
  Definition writeVectorEntry (f : file) (x : cell) (s : str) (counter : nat) : res file :=
    do f <- (if (counter =? 0)%nat then createGroup f s else Ok f) ;;
    let f := fst (write_num f (subn s counter) x NO_OVERWRITE) in
    Ok (fst (write_num f (sub s "Size") (CI (Z.of_nat (counter + 1)))
               (if (counter =? 0)%nat then NO_OVERWRITE else ALLOW_OVERWRITE))).
  Definition readLastVectorEntry (f : file) (s : str) : res Z :=
    do total <- read_int f (sub s "Size") ;;
    if (total <=? 0)%Z then Throw else read_int f (subn s (Z.to_nat (total - 1))).
End Ng.
Arguments CI {F} z.
Arguments CF {F} x.
Arguments Group {F}.
Arguments Data {F} l.

Section NgMat.
  Variable R : cring.

  (** Matrix::write, Matrix::overwrite, Matrix::read: src/Matrix.h:161-193, 152-159, for a
      floating point element type. *)
  Definition mat_overwrite (f : file R) (label : str) (m : mat R) : file R * bool :=
    let '(f, b) := write_num R f (sub label "nrow_") (CI (Z.of_nat (m_nrow m))) ALLOW_OVERWRITE in
    if negb b then (f, b) else
    let '(f, b) := write_num R f (sub label "ncol_") (CI (Z.of_nat (m_ncol m))) ALLOW_OVERWRITE in
    if negb b then (f, b) else
    if ((m_nrow m =? 0) || (m_ncol m =? 0))%nat then (f, b) else
    (write_vec R f (sub label "data_") true (map CF (m_data m)) ALLOW_OVERWRITE, true).
  Definition mat_write (f : file R) (label : str) (m : mat R) (wM : wmode) : res (file R) :=
    let '(f, flag) := match wM with ALLOW_OVERWRITE => mat_overwrite f label m | NO_OVERWRITE => (f, false) end in
    if flag : bool then Ok f else
    do f <- createGroup R f label ;;
    let f := fst (write_num R f (sub label "nrow_") (CI (Z.of_nat (m_nrow m))) NO_OVERWRITE) in
    let f := fst (write_num R f (sub label "ncol_") (CI (Z.of_nat (m_ncol m))) NO_OVERWRITE) in
    if ((m_nrow m =? 0) || (m_ncol m =? 0))%nat then Ok f else
    Ok (write_vec R f (sub label "data_") true (map CF (m_data m)) NO_OVERWRITE).
  Definition mat_readNg (f : file R) (label : str) (m : mat R) : res (mat R) :=
    do nrow <- read_int R f (sub label "nrow_") ;;
    do ncol <- read_int R f (sub label "ncol_") ;;
    let r := Z.to_nat nrow in
    let c := Z.to_nat ncol in
    if ((r =? 0) || (c =? 0))%nat then Ok (mkmat r c (m_data m)) else
    do d <- read_vec_flt R f (sub label "data_") ;;
    Ok (mkmat r c d).

  (** CrsMatrix::write, CrsMatrix::read: src/CrsMatrix.h:600-618, 624-636, with checkValidity and
      the assertions, and a floating point element type. *)
  Definition crs_write (f : file R) (label : str) (m : crs R) (mode : wmode) : res (file R) :=
    do _ <- (if (0 <? c_nrow m)%nat then checkValidity R m else Ok tt) ;;
    do f <- match mode with ALLOW_OVERWRITE => Ok f | NO_OVERWRITE => createGroup R f label end ;;
    let f := fst (write_num R f (sub label "nrow_") (CI (Z.of_nat (c_nrow m))) mode) in
    let f := fst (write_num R f (sub label "ncol_") (CI (Z.of_nat (c_ncol m))) mode) in
    if ((c_nrow m =? 0) || (c_ncol m =? 0))%nat then Ok f else
    let f := write_vec R f (sub label "rowptr_") false (map (fun n => CI (Z.of_nat n)) (c_rowptr m)) mode in
    guard (List.length (c_rowptr m) =? c_nrow m + 1)%nat ;;
    do last <- vget (c_rowptr m) (c_nrow m) ;;
    if (last =? 0)%nat then Ok f else
    let f := write_vec R f (sub label "colind_") false (map (fun n => CI (Z.of_nat n)) (c_colind m)) mode in
    Ok (write_vec R f (sub label "values_") true (map CF (c_values m)) mode).
  Definition crs_readNg (f : file R) (label : str) (m : crs R) : res (crs R) :=
    do nrow <- read_int R f (sub label "nrow_") ;;
    do ncol <- read_int R f (sub label "ncol_") ;;
    let r := Z.to_nat nrow in
    let c := Z.to_nat ncol in
    if ((r =? 0) || (c =? 0))%nat then Ok (mkcrs (c_rowptr m) (c_colind m) (c_values m) r c) else
    do rowptr <- read_vec_int R f (sub label "rowptr_") ;;
    let rowptr := map Z.to_nat rowptr in
    guard (List.length rowptr =? r + 1)%nat ;;
    do last <- vget rowptr r ;;
    if (last =? 0)%nat then Ok (mkcrs rowptr (c_colind m) (c_values m) r c) else
    do colind <- read_vec_int R f (sub label "colind_") ;;
    do values <- read_vec_flt R f (sub label "values_") ;;
    let m := mkcrs rowptr (map Z.to_nat colind) values r c in
    do _ <- checkValidity R m ;;
    Ok m.
End NgMat.
