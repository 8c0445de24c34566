(** Model of src/MemResolv.h: copying an object and what it points to into one
    block of memory.  Addresses and bytes are integers; memory is a function from
    addresses to bytes.  Sizes and differences of addresses are unbounded
    integers; lengths of chunks are stored in 32 bits and pointers in 64. *)
From Coq Require Import ZArith List Bool.
From Verif Require Import Prelude.
Import ListNotations.
Local Open Scope Z_scope.

Definition memory := Z -> Z.

(** MemoryKindEnum: src/MemResolv.h:31-33 *)
Inductive kind := MEMORY_DATA | MEMORY_HEAPPTR | MEMORY_TEXTPTR.
Definition kind_eqb (a b : kind) : bool :=
  match a, b with
  | MEMORY_DATA, MEMORY_DATA | MEMORY_HEAPPTR, MEMORY_HEAPPTR | MEMORY_TEXTPTR, MEMORY_TEXTPTR => true
  | _, _ => false
  end.

(** MemoryPointer and its comparison: src/MemResolv.h:14-18,
    src/MemResolv.cpp:5-12 *)
Record chunk := mkchunk { ck_type : kind; ck_len : Z; ck_ptr : Z }.
Definition chunk_eqb (a b : chunk) : bool :=
  kind_eqb (ck_type a) (ck_type b) && (ck_len a =? ck_len b) && (ck_ptr a =? ck_ptr b).

(** The members: src/MemResolv.h:742-749; [mr_zeroes] is lenOfZeroes_ and the
    value that fills zeroes_; [mr_garbage] is each block with its address.
    rankVector_ is only read by finish (458-500), which nothing calls, and
    intoOffset_ is only changed there and when loading. *)
Record mresolv := mkmr {
  mr_intoOffset : Z; mr_refTextPtr : Z; mr_zeroes : Z * Z;
  mr_chunks : list chunk; mr_garbage : list (Z * list Z)
}.

(** The constructor from an object: src/MemResolv.h:40-47 *)
Definition mr_new : mresolv := mkmr 0 0 (0, 0) [] [].

(** updateZeroes: src/MemResolv.h:420-433; the value -128 is the byte 128. *)
Definition updateZeroes (z : Z * Z) (x value : Z) : Z * Z :=
  if fst z =? x then z else (x, value).

(** push: src/MemResolv.h:192-211; the length is an unsigned int. *)
Definition mr_push (r : mresolv) (type : kind) (length ptr : Z) : mresolv :=
  let mptr := mkchunk type (length mod 2 ^ 32) ptr in
  if existsb (chunk_eqb mptr) (mr_chunks r) then r
  else mkmr (mr_intoOffset r) (mr_refTextPtr r) (mr_zeroes r) (mr_chunks r ++ [mptr]) (mr_garbage r).

(** Reading [n] bytes at [a]. *)
Definition bytes_at (mem : memory) (a n : Z) : list Z :=
  map (fun k => mem (a + Z.of_nat k)) (seq 0 (Z.to_nat n)).

(** A long unsigned int in memory, least significant byte first (x86-64). *)
Fixpoint word_of (bytes : list Z) : Z :=
  match bytes with [] => 0 | b :: bs => b + 256 * word_of bs end.
Fixpoint bytes_of (n : nat) (value : Z) : list Z :=
  match n with O => [] | S n' => value mod 256 :: bytes_of n' (value / 256) end.
Definition word_at (mem : memory) (a : Z) : Z := word_of (bytes_at mem a 8).

(** findSizes: src/MemResolv.h:578-606: the loop, from the end of the chunk
    before, and the whole. *)
Fixpoint findSizes_loop (cs : list chunk) (endp total maxHole : Z) (offsets : list (Z * Z))
  : res (Z * Z * list (Z * Z)) :=
  match cs with
  | [] => Ok (total, maxHole, offsets)
  | c :: cs' =>
    let start2 := ck_ptr c in
    let end2 := start2 + ck_len c in
    if start2 <? endp then Throw
    else
      let srcHole := start2 - endp in
      let destHole := srcHole mod 8 in
      findSizes_loop cs' end2 (total + ck_len c + destHole)
        (if maxHole <? destHole then destHole else maxHole)
        (offsets ++ [(start2, destHole - srcHole)])
  end.
Definition findSizes (cs : list chunk) : res (Z * Z * list (Z * Z)) :=
  match cs with
  | [] => Ok (0, 1, [])
  | c :: cs' => findSizes_loop cs' (ck_ptr c + ck_len c) (ck_len c) 1 []
  end.

(** correctionForHoles: src/MemResolv.h:719-735 *)
Fixpoint correctionForHoles (value : Z) (offsets : list (Z * Z)) (c : Z) : Z :=
  match offsets with
  | [] => c
  | (start, off) :: offsets' =>
    if value <? start then c else correctionForHoles value offsets' (c + off)
  end.

(** One word of adjustPointer: src/MemResolv.h:702-715 *)
Definition adjust_word (bytes : list Z) (offset : Z) (offsets : list (Z * Z)) : list Z :=
  let value := word_of bytes in
  if value =? 0 then bytes
  else bytes_of 8 ((value + (correctionForHoles value offsets 0 + offset)) mod 2 ^ 64).

(** adjustPointer: src/MemResolv.h:694-717, on the bytes it changes *)
Fixpoint adjust_words (k : nat) (bytes : list Z) (offset : Z) (offsets : list (Z * Z)) : list Z :=
  match k with
  | O => []
  | S k' => adjust_word (firstn 8 bytes) offset offsets ++ adjust_words k' (skipn 8 bytes) offset offsets
  end.
Definition adjustPointer (bytes : list Z) (n offset : Z) (offsets : list (Z * Z)) : res (list Z) :=
  if (n <? 8) || negb (n mod 8 =? 0) then Throw
  else Ok (adjust_words (Z.to_nat (n / 8)) bytes offset offsets).

(** copyData: src/MemResolv.h:655-666: the bytes written *)
Definition copyData (mem : memory) (c : chunk) (offset : Z) (offsets : list (Z * Z)) : res (list Z) :=
  let bytes := bytes_at mem (ck_ptr c) (ck_len c) in
  match ck_type c with
  | MEMORY_HEAPPTR => adjustPointer bytes (ck_len c) offset offsets
  | _ => Ok bytes
  end.

(** The loop of deepCopy: src/MemResolv.h:623-647; [out] is what is written so
    far, its length is total2. *)
Fixpoint deepCopy_loop (mem : memory) (zeroes : Z * Z) (cs : list chunk) (endp total offset : Z)
    (offsets : list (Z * Z)) (out : list Z) : res (list Z) :=
  match cs with
  | [] => Ok out
  | c :: cs' =>
    if total <=? Z.of_nat (length out) then Throw
    else
      let start2 := ck_ptr c in
      let end2 := start2 + ck_len c in
      if start2 <? endp then Throw
      else
        let destHole := (start2 - endp) mod 8 in
        if fst zeroes <=? destHole then Throw
        else
          do b <- copyData mem c offset offsets ;;
          deepCopy_loop mem zeroes cs' end2 total offset offsets
            (out ++ repeat (snd zeroes) (Z.to_nat destHole) ++ b)
  end.

(** deepCopy: src/MemResolv.h:608-653: the contents of the new block at
    [newStart] *)
Definition deepCopy (mem : memory) (zeroes : Z * Z) (cs : list chunk) (newStart total : Z)
    (offsets : list (Z * Z)) : res (list Z) :=
  match cs with
  | [] => Ok []
  | c :: cs' =>
    let offset := newStart - ck_ptr c in
    do b <- copyData mem c offset offsets ;;
    do out <- deepCopy_loop mem zeroes cs' (ck_ptr c + ck_len c) total offset offsets b ;;
    let total2 := Z.of_nat (length out) in
    guard (total2 <=? total) ;;   (* past the end of the block *)
    if total2 <? total then
      guard (total - total2 <? fst zeroes) ;;
      Ok (out ++ repeat (snd zeroes) (Z.to_nat (total - total2)))
    else Ok out
  end.

(** dup: src/MemResolv.h:213-230; [newStart] is the address that new gives. *)
Definition mr_dup (mem : memory) (newStart : Z) (r : mresolv) : res (mresolv * Z) :=
  do (total, maxHole, offsets) <- findSizes (mr_chunks r) ;;
  let zeroes := updateZeroes (mr_zeroes r) (maxHole + 1) 128 in
  do block <- deepCopy mem zeroes (mr_chunks r) newStart total offsets ;;
  Ok (mkmr (mr_intoOffset r) (mr_refTextPtr r) zeroes (mr_chunks r) (mr_garbage r ++ [(newStart, block)]),
      newStart + mr_intoOffset r).

(** The memory once the block is there. *)
Definition with_block (mem : memory) (b : Z * list Z) : memory :=
  fun a => if (fst b <=? a) && (a <? fst b + Z.of_nat (length (snd b)))
           then nth (Z.to_nat (a - fst b)) (snd b) 0 else mem a.

(** saveChunkInfo and saveChunkData: src/MemResolv.h:502-563 *)
Definition saveChunkInfo (cs : list chunk) (offsets : list (Z * Z)) : list chunk :=
  map (fun c => mkchunk (ck_type c) (ck_len c)
         (if ck_ptr c =? 0 then 0 else (ck_ptr c + correctionForHoles (ck_ptr c) offsets 0) mod 2 ^ 64)) cs.
Fixpoint saveChunkData (mem : memory) (zeroes : Z * Z) (cs : list chunk) (prev : option Z)
    (offsets : list (Z * Z)) (out : list Z) : res (list Z) :=
  match cs with
  | [] => Ok out
  | c :: cs' =>
    do pad <- (match prev with
               | None => Ok []
               | Some endp =>
                 let destHole := (ck_ptr c - endp) mod 8 in
                 if fst zeroes <=? destHole then Throw
                 else Ok (repeat (snd zeroes) (Z.to_nat destHole))
               end) ;;
    do b <- copyData mem c 0 offsets ;;
    saveChunkData mem zeroes cs' (Some (ck_ptr c + ck_len c)) offsets (out ++ pad ++ b)
  end.

(** A file of chunks, field by field in the order of src/MemResolv.h:137-187.
    Simplified: the file is its fields, not their bytes, so only files that save
    wrote are read. *)
Record mfile := mkfile {
  mf_lenOfLabel : Z; mf_label : list Z; mf_ref : Z; mf_refText : Z; mf_into : Z;
  mf_chunks : list chunk; mf_len : Z; mf_data : list Z
}.

(** Labels are filled with zeros: src/MemResolv.h:55-59, 131-135 *)
Definition LABEL_LENGTH : nat := 128.
Definition padLabel (label : list Z) : list Z := label ++ repeat 0 (LABEL_LENGTH - length label).

(** save: src/MemResolv.h:127-188, the file it leaves *)
Definition mr_save (mem : memory) (r : mresolv) (label : list Z) : res mfile :=
  guard (negb (match mr_garbage r with [] => true | _ => false end)) ;;
  let label := padLabel label in
  if negb (Nat.eqb (length label) LABEL_LENGTH) then Throw
  else
    do (total, maxHole, offsets) <- findSizes (mr_chunks r) ;;
    do ref <- (match mr_chunks r with [] => UB | c :: _ => Ok (ck_ptr c) end) ;;
    let ref := if ref =? 0 then 0 else (ref + correctionForHoles ref offsets 0) mod 2 ^ 64 in
    let zeroes := updateZeroes (mr_zeroes r) (maxHole + 1) 128 in
    do data <- saveChunkData mem zeroes (mr_chunks r) None offsets [] ;;
    Ok (mkfile (Z.of_nat (length label)) label ref (mr_refTextPtr r) (mr_intoOffset r)
          (saveChunkInfo (mr_chunks r) offsets) total data).

(** stringEqual: src/MemResolv.h:435-448 *)
Fixpoint stringEqual_loop (a b : list Z) : bool :=
  match a, b with
  | x :: a', y :: b' =>
    if (x =? 0) && (y =? 0) then true else if negb (x =? y) then false else stringEqual_loop a' b'
  | _, _ => true
  end.
Definition stringEqual (a b : list Z) : bool :=
  if negb (Nat.eqb (length a) (length b)) then false else stringEqual_loop a b.

(** The constructor from a file: src/MemResolv.h:49-115; [newStart] is where the
    block is put; adjustPointers (668-692) does nothing. *)
Definition mr_load (f : mfile) (label : list Z) (newStart : Z) : res mresolv :=
  let label := padLabel label in
  if negb (mf_lenOfLabel f =? Z.of_nat LABEL_LENGTH) then Throw
  else if negb (mf_lenOfLabel f =? Z.of_nat (length label)) then Throw
  else if negb (stringEqual (mf_label f) label) then Throw
  else Ok (mkmr (mf_into f) (mf_refText f) (0, 0) (mf_chunks f)
             [(newStart, firstn (Z.to_nat (mf_len f)) (mf_data f))]).

(** get: src/MemResolv.h:190 *)
Definition mr_get (r : mresolv) : res Z :=
  match mr_garbage r with [] => UB | b :: _ => Ok (fst b + mr_intoOffset r) end.

(** memResolv of a fundamental type of [size] bytes at [c], followed by padding
    up to [x] bytes: src/MemResolv.h:232-246; it writes in the padding. *)
Definition mr_fundamental (mem : memory) (r : mresolv) (size c x : Z) : res (memory * mresolv * Z) :=
  guard (size <=? x) ;;
  let z := updateZeroes (mr_zeroes r) (x - size + 1) 0 in
  let mem' := fun a => if (c + size <=? a) && (a <? c + x) then snd z else mem a in
  let r := mkmr (mr_intoOffset r) (mr_refTextPtr r) z (mr_chunks r) (mr_garbage r) in
  Ok (mem', mr_push r MEMORY_DATA x c, x).

(** memResolv of a pair of fundamental types, of [size1] and [size2] bytes:
    src/MemResolv.h:285-313, with nothing after the pair *)
Definition mr_pair (mem : memory) (r : mresolv) (size1 size2 c : Z) : res (memory * mresolv * Z) :=
  do (mem1, r1, t1) <- mr_fundamental mem r size1 c size1 ;;
  do (mem2, r2, t2) <- mr_fundamental mem1 r1 size2 (c + 8) size2 ;;
  Ok (mem2, r2, t1 + t2).

(** memResolv of a vector of fundamental types of [size] bytes: begin, end and
    end of the reserve: src/MemResolv.h:315-339 *)
Definition mr_vector (mem : memory) (r : mresolv) (size v : Z) : mresolv :=
  let r := mr_push r MEMORY_HEAPPTR 24 v in
  let n := (word_at mem (v + 8) - word_at mem v) / size in
  let tmp := size * n in
  if tmp =? 0 then r else mr_push r MEMORY_DATA tmp (word_at mem v).

(** memResolv of a vector of such vectors: src/MemResolv.h:341-362 *)
Fixpoint mr_vectors_loop (k : nat) (mem : memory) (r : mresolv) (size v : Z) : mresolv :=
  match k with
  | O => r
  | S k' => mr_vectors_loop k' mem (mr_vector mem r size v) size (v + 24)
  end.
Definition mr_vectors (mem : memory) (r : mresolv) (size v : Z) : mresolv :=
  let r := mr_push r MEMORY_HEAPPTR 24 v in
  let n := (word_at mem (v + 8) - word_at mem v) / 24 in
  mr_vectors_loop (Z.to_nat n) mem r size (word_at mem v).
