(** Where the copy of an object lies. *)
From Coq Require Import ZArith List Bool.
From Verif Require Import Prelude Mres_Model.
Import ListNotations.
Local Open Scope Z_scope.

(** Chunks in order of address, none empty, none over the one before. *)
Fixpoint in_order (endp : Z) (cs : list chunk) : Prop :=
  match cs with
  | [] => True
  | c :: cs' => endp <= ck_ptr c /\ 0 < ck_len c /\ in_order (ck_ptr c + ck_len c) cs'
  end.

(** The chunks one after the other, from the position [pos] of the copy that
    stands for the address [endp]: of each gap as much is kept as preserves the
    position of addresses within words of eight bytes. *)
Fixpoint places (pos endp : Z) (cs : list chunk) : list (chunk * Z) :=
  match cs with
  | [] => []
  | c :: cs' =>
    let p := pos + (ck_ptr c - endp) mod 8 in
    (c, p) :: places (p + ck_len c) (ck_ptr c + ck_len c) cs'
  end.
Definition first_ptr (cs : list chunk) : Z := match cs with [] => 0 | c :: _ => ck_ptr c end.
Definition layout (cs : list chunk) : list (chunk * Z) := places 0 (first_ptr cs) cs.

(** The address [a], in one of the chunks or just past its end, is the address
    [b] of the copy at [dst]. *)
Definition moved (cs : list chunk) (dst a b : Z) : Prop :=
  exists c p, In (c, p) (layout cs) /\ ck_ptr c <= a <= ck_ptr c + ck_len c /\ b = dst + p + (a - ck_ptr c).

(** [a] is the address of a word of a chunk of pointers. *)
Definition pointer_at (cs : list chunk) (a : Z) : Prop :=
  exists c k, In c cs /\ ck_type c = MEMORY_HEAPPTR /\ 0 <= k /\ 8 * k < ck_len c /\ a = ck_ptr c + 8 * k.

(** [a] is in a chunk that is not of pointers. *)
Definition data_at (cs : list chunk) (a : Z) : Prop :=
  exists c, In c cs /\ ck_type c <> MEMORY_HEAPPTR /\ ck_ptr c <= a < ck_ptr c + ck_len c.

(** Memory holds bytes. *)
Definition bytes (mem : memory) : Prop := forall a, 0 <= mem a < 256.

(** The chunks are complete: chunks of pointers are words, and the pointers in
    them are null or point into a chunk or just past its end. *)
Definition complete (mem : memory) (cs : list chunk) : Prop :=
  (forall c, In c cs -> ck_type c = MEMORY_HEAPPTR -> ck_len c mod 8 = 0) /\
  (forall a, pointer_at cs a -> word_at mem a = 0 \/
     exists c, In c cs /\ ck_ptr c <= word_at mem a <= ck_ptr c + ck_len c).

(** Following pointers from [a]: add an offset, read the pointer there. *)
Fixpoint walk (mem : memory) (a : Z) (path : list Z) : Z :=
  match path with [] => a | o :: path' => walk mem (word_at mem (a + o)) path' end.

(** At each step the offset leads, within the chunk, to a pointer that is not null. *)
Fixpoint walkable (mem : memory) (cs : list chunk) (a : Z) (path : list Z) : Prop :=
  match path with
  | [] => True
  | o :: path' =>
    (exists c, In c cs /\ ck_ptr c <= a <= ck_ptr c + ck_len c /\ ck_ptr c <= a + o < ck_ptr c + ck_len c) /\
    pointer_at cs (a + o) /\ word_at mem (a + o) <> 0 /\ walkable mem cs (word_at mem (a + o)) path'
  end.

(** The size of the copy. *)
Definition layout_size (cs : list chunk) : Z :=
  fold_left (fun s cp => snd cp + ck_len (fst cp)) (layout cs) 0.
