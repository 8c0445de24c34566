(** Model of src/SparseVector.h, src/SparseRow.h and src/SparseRowCached.h.
    Indices are [nat]; the conversion of a negative [int] index passed to
    [add] to [SizeType] is not modelled. Failed asserts are [UB]. [srt] is
    std::sort inside src/Sort.h. *)
From Verif Require Import Prelude Ring Sort_Model Crs_Model.

(** src/SparseVector.h:367-371 *)
Record svec (R : cring) : Type := mksv {
  sv_values : list R;
  sv_indices : list nat;
  sv_size : nat;
  sv_sorted : bool
}.
Arguments mksv {R} _ _ _ _.
Arguments sv_values {R} _.
Arguments sv_indices {R} _.
Arguments sv_size {R} _.
Arguments sv_sorted {R} _.

Section Sparse.
  Variable R : cring.
  Local Open Scope cring_scope.
  Variable srt : list (nat * nat) -> list (nat * nat).

  (** SparseVector(v): src/SparseVector.h:98-109 *)
  Definition sv_of_dense (v : list R) : res (svec R) :=
    forM (length v) 0 (fun i s =>
      do x <- vget v i ;;
      if negb (ceqb x c0)
      then Ok (mksv (sv_values s ++ [x]) (sv_indices s ++ [i]) (sv_size s) (sv_sorted s))
      else Ok s) (mksv [] [] (length v) false).

  (** SparseVector(n): src/SparseVector.h:122-126 *)
  Definition sv_new (n : nat) : svec R := mksv [] [] n false.

  (** resize(x): src/SparseVector.h:128-133; [isSorted_] is not changed *)
  Definition sv_resize (s : svec R) (x : nat) : svec R := mksv [] [] x (sv_sorted s).

  (** clear(): src/SparseVector.h:328-333 *)
  Definition sv_clear (s : svec R) : svec R := mksv [] [] (sv_size s) false.

  (** fromChunk(v, offset, total): src/SparseVector.h:111-120 *)
  Definition sv_fromChunk (s : svec R) (v : list R) (offset total : nat) : res (svec R) :=
    forM (length v) 0 (fun i s =>
      do x <- vget v i ;;
      Ok (mksv (sv_values s ++ [x]) (sv_indices s ++ [(i + offset)%nat]) (sv_size s) (sv_sorted s)))
      (sv_resize s total).

  (** add(index, value): src/SparseVector.h:136-142; also the returned position *)
  Definition sv_add (s : svec R) (index : nat) (value : R) : nat * svec R :=
    let s := mksv (sv_values s ++ [value]) (sv_indices s ++ [index]) (sv_size s) false in
    ((length (sv_values s) - 1)%nat, s).

  (** findFirstLast(): src/SparseVector.h:341-346; dereferencing the end of an
      empty vector is [UB] *)
  Definition sv_findFirstLast (s : svec R) : res (nat * nat) :=
    match sv_indices s with
    | [] => UB
    | a :: l => Ok (fold_left Nat.min l a, fold_left Nat.max l a)
    end.

  (** toChunk(dest, i0, total, test): src/SparseVector.h:163-174 *)
  Definition sv_toChunk (s : svec R) (dest : list R) (i0 total : nat) (test : bool) : res (list R) :=
    do _ <- (if test then
               do (first, last) <- sv_findFirstLast s ;;
               if (first <? i0)%nat || (i0 + total <? last)%nat then Throw else Ok tt
             else Ok tt) ;;
    let dest := vresize dest total c0 in
    forM (length (sv_indices s)) 0 (fun i dest =>
      do ix <- vget (sv_indices s) i ;;
      guard (i0 <=? ix)%nat ;;
      do x <- vget (sv_values s) i ;;
      vset dest (ix - i0) x) dest.

  (** findPartition(parts): src/SparseVector.h:191-218. [parts] lists
      partition(0), partition(1), ...; partition() is its length. The loops stop
      at the first partition that fails the test. *)
  Fixpoint sv_part_loop (test : nat -> bool) (parts : list nat) (i ret : nat) : nat :=
    match parts with
    | [] => ret
    | p :: parts' => if test p then sv_part_loop test parts' (S i) i else ret
    end.

  Definition sv_findPartition (s : svec R) (parts : list nat) : res nat :=
    do (first, last) <- sv_findFirstLast s ;;
    let ret := sv_part_loop (fun p => p <=? first)%nat parts 0 0 in
    let ret2 := sv_part_loop (fun p => p <? last)%nat parts 0 1 in
    if negb (ret =? ret2)%nat then Throw else Ok ret.

  (** toChunk(dest, parts): src/SparseVector.h:176-189; the returned partition
      and the filled vector *)
  Definition sv_toChunk_parts (s : svec R) (dest : list R) (parts : list nat) : res (nat * list R) :=
    do part <- sv_findPartition s parts ;;
    do offset <- vget parts part ;;
    do next <- vget parts (part + 1) ;;
    guard (offset <=? next)%nat ;;
    let total := (next - offset)%nat in
    let dest := vresize dest total c0 in
    do dest <- forM total 0 (fun i dest => vset dest i c0) dest ;;
    do dest <- forM (length (sv_indices s)) 0 (fun i dest =>
      do ix <- vget (sv_indices s) i ;;
      guard (offset <=? ix)%nat ;;
      do x <- vget (sv_values s) i ;;
      vset dest (ix - offset) x) dest ;;
    Ok (part, dest).

  (** operator*=(val) and val * v: src/SparseVector.h:220-226, 381-388 *)
  Definition sv_scale (s : svec R) (val : R) : res (svec R) :=
    do vs <- forM (length (sv_values s)) 0 (fun i vs =>
      do x <- vget vs i ;; vset vs i (x * val)) (sv_values s) ;;
    Ok (mksv vs (sv_indices s) (sv_size s) (sv_sorted s)).

  (** operator-=(v): src/SparseVector.h:228-236 *)
  Definition sv_minus (s v : svec R) : res (svec R) :=
    do s <- forM (length (sv_values v)) 0 (fun i s =>
      do x <- vget (sv_values v) i ;;
      do ix <- vget (sv_indices v) i ;;
      Ok (mksv (sv_values s ++ [- x]) (sv_indices s ++ [ix]) (sv_size s) (sv_sorted s))) s ;;
    Ok (mksv (sv_values s) (sv_indices s) (sv_size s) false).

  (** operator==(v): src/SparseVector.h:238-250. [small x] is isAlmostZero(x, 1e-8);
      a [false] found in the loop is returned at once. *)
  Definition sv_eqb (small : R -> bool) (s v : svec R) : res bool :=
    guard (sv_sorted s) ;;
    guard (sv_sorted v) ;;
    forM (length (sv_values v)) 0 (fun i (ok : bool) =>
      if negb ok then Ok false else
      do a <- vget (sv_indices s) i ;;
      do b <- vget (sv_indices v) i ;;
      if negb (a =? b)%nat then Ok false else
      do x <- vget (sv_values s) i ;;
      do y <- vget (sv_values v) i ;;
      Ok (small (x - y))) true.

  (** scalarProduct(v): src/SparseVector.h:253-275. The inner loop starts at the
      current [j] and has [rem] = v.indices_.size() - j rounds left. *)
  Fixpoint sv_sp_inner (s v : svec R) (i index rem j : nat) (sum : R) : res (nat * R) :=
    match rem with
    | O => Ok (j, sum)
    | S rem' =>
        do vj <- vget (sv_indices v) j ;;
        if (vj <? index)%nat then sv_sp_inner s v i index rem' (S j) sum
        else if (index <? vj)%nat then Ok (j, sum)
        else
          do x <- vget (sv_values s) i ;;
          do y <- vget (sv_values v) j ;;
          sv_sp_inner s v i index rem' (S j) (sum + x * cconj y)
    end.

  Definition sv_scalarProduct (s v : svec R) : res R :=
    guard ((length (sv_indices s) =? 1)%nat || sv_sorted s) ;;
    guard ((length (sv_indices v) =? 1)%nat || sv_sorted v) ;;
    do (_, sum) <- forM (length (sv_indices s)) 0 (fun i '(j, sum) =>
      do index <- vget (sv_indices s) i ;;
      do (j, sum) <- sv_sp_inner s v i index (length (sv_indices v) - j) j sum ;;
      Ok ((if (0 <? j)%nat then j - 1 else j)%nat, sum)) (0%nat, c0) ;;
    Ok sum.

  (** isOne(): src/SparseVector.h:277-288. [small x] is isAlmostZero(x, 1e-4). *)
  Definition sv_isOne (small : R -> bool) (s : svec R) : res bool :=
    do (_, ok) <- forM (length (sv_indices s)) 0 (fun i '(x, ok) =>
      if negb ok then Ok (x, false) else
      do val <- vget (sv_values s) i ;;
      if small val then Ok (x, true) else
      let x := S x in
      Ok (x, negb (1 <? x)%nat)) (0%nat, true) ;;
    Ok ok.

  (** norm(v) before the square root: src/SparseVector.h:399-417 *)
  Definition sv_norm2 (s : svec R) : res R :=
    forM (length (sv_indices s)) 0 (fun i sum =>
      do x <- vget (sv_values s) i ;; Ok (sum + cconj x * x)) c0.

  (** sort(): src/SparseVector.h:290-326. [big x] is norm(x) > 1e-16. *)
  Definition sv_sort (big : R -> bool) (s : svec R) : res (svec R) :=
    if (length (sv_indices s) <? 2)%nat || sv_sorted s then Ok s else
    do (indices_, iperm) <- sort srt (sv_indices s) (repeat 0%nat (length (sv_indices s))) 0 ;;
    do values <- forM (length (sv_values s)) 0 (fun i values =>
      do ip <- vget iperm i ;; do x <- vget (sv_values s) ip ;; vset values i x)
      (repeat c0 (length iperm)) ;;
    do sum <- vget values 0 ;;
    do prevIndex <- vget indices_ 0 ;;
    do (values_, indices, sum, prevIndex) <-
      forR 1 (length indices_) (fun i '(values_, indices, sum, prevIndex) =>
        do ix <- vget indices_ i ;;
        do x <- vget values i ;;
        if negb (ix =? prevIndex)%nat then
          if big sum then Ok (values_ ++ [sum], indices ++ [prevIndex], x, ix)
          else Ok (values_, indices, x, ix)
        else Ok (values_, indices, sum + x, prevIndex)) ([], [], sum, prevIndex) ;;
    let '(values_, indices) :=
      if big sum then (values_ ++ [sum], indices ++ [prevIndex]) else (values_, indices) in
    Ok (mksv values_ indices (sv_size s) true).

  (** SparseRow: the added columns and values. src/SparseRow.h:157-158 *)
  Definition srow : Type := (list nat * list R)%type.
  Definition sr_empty : srow := ([], []).

  (** add: src/SparseRow.h:95-99 *)
  Definition sr_add (r : srow) (col : nat) (value : R) : srow :=
    (fst r ++ [col], snd r ++ [value]).

  (** matrixVectorProduct(y), finalize(y): src/SparseRow.h:101-107, 144-154 *)
  Definition sr_matrixVectorProduct (r : srow) (y : list R) : res R :=
    forM (length (fst r)) 0 (fun i sum =>
      do v <- vget (snd r) i ;; do c <- vget (fst r) i ;; do yc <- vget y c ;;
      Ok (sum + v * yc)) c0.

  Definition sr_finalize_vector (r : srow) (y : list R) : res R :=
    guard (length (fst r) =? length (snd r))%nat ;;
    if (length (fst r) =? 0)%nat then Ok c0 else sr_matrixVectorProduct r y.

  (** The merging loop shared by SparseRow::finalize (src/SparseRow.h:125-140)
      and SparseRowCached::finalize (src/SparseRowCached.h:146-161) over the
      first [n] of the sorted columns [cols]. [check] is the column test of the
      assert of SparseRow. *)
  Definition row_merge (check : nat -> bool) (n : nat) (cols : list nat) (values : list R)
      (iperm : list nat) (matrix : crs R) : res (nat * crs R) :=
    do prevCol <- vget cols 0 ;;
    do (matrix, counter, value, prevCol) <-
      forM n 0 (fun i '(matrix, counter, value, prevCol) =>
        do ci <- vget cols i ;;
        guard (check ci) ;;
        do ip <- vget iperm i ;;
        do x <- vget values ip ;;
        if (ci =? prevCol)%nat then Ok (matrix, counter, value + x, prevCol) else
        Ok (pushValue R (pushCol R matrix prevCol) value, S counter, x, ci))
        (matrix, 0%nat, c0, prevCol) ;;
    Ok (S counter, pushValue R (pushCol R matrix prevCol) value).

  (** finalize(matrix): src/SparseRow.h:114-142. Gives the count, the matrix and
      the row object, whose columns are left sorted while its values are not
      moved. *)
  Definition sr_finalize (r : srow) (matrix : crs R) : res (nat * crs R * srow) :=
    guard (length (fst r) =? length (snd r))%nat ;;
    if (length (fst r) =? 0)%nat then Ok (0%nat, matrix, r) else
    do (cols, iperm) <- sort srt (fst r) (repeat 0%nat (length (fst r))) 0 ;;
    do (counter, matrix) <-
      row_merge (fun c => c <? c_ncol matrix)%nat (length cols) cols (snd r) iperm matrix ;;
    Ok (counter, matrix, (cols, snd r)).

  (** SparseRowCached: src/SparseRowCached.h:168-170 *)
  Record srowc := mkrc { rc_cols : list nat; rc_values : list R; rc_counter : nat }.

  (** SparseRowCached(cacheSize): src/SparseRowCached.h:99-104 *)
  Definition rc_new (cacheSize : nat) : srowc :=
    mkrc (repeat 0%nat cacheSize) (repeat c0 cacheSize) 0.

  (** add: src/SparseRowCached.h:106-120 *)
  Definition rc_add (r : srowc) (col : nat) (value : R) : res srowc :=
    let cacheSize := length (rc_cols r) in
    let r := if (cacheSize <=? rc_counter r)%nat
             then mkrc (vresize (rc_cols r) (cacheSize * 2) 0%nat)
                       (vresize (rc_values r) (cacheSize * 2) c0) (rc_counter r)
             else r in
    do cols <- vset (rc_cols r) (rc_counter r) col ;;
    do values <- vset (rc_values r) (rc_counter r) value ;;
    Ok (mkrc cols values (S (rc_counter r))).

  (** matrixVectorProduct: src/SparseRowCached.h:122-129 *)
  Definition rc_matrixVectorProduct (r : srowc) (y : list R) : res (R * srowc) :=
    do sum <- forM (rc_counter r) 0 (fun i sum =>
      do v <- vget (rc_values r) i ;; do c <- vget (rc_cols r) i ;; do yc <- vget y c ;;
      Ok (sum + v * yc)) c0 ;;
    Ok (sum, mkrc (rc_cols r) (rc_values r) 0).

  (** finalize: src/SparseRowCached.h:136-164 *)
  Definition rc_finalize (r : srowc) (matrix : crs R) : res (nat * crs R * srowc) :=
    if (rc_counter r =? 0)%nat then Ok (0%nat, matrix, r) else
    do (cols, iperm) <- sort srt (rc_cols r) (repeat 0%nat (rc_counter r)) (rc_counter r) ;;
    do (counter, matrix) <- row_merge (fun _ => true) (rc_counter r) cols (rc_values r) iperm matrix ;;
    Ok (counter, matrix, mkrc cols (rc_values r) 0).
End Sparse.
Arguments mkrc {R} _ _ _.
Arguments rc_cols {R} _.
Arguments rc_values {R} _.
Arguments rc_counter {R} _.
