(** Model of the configuration part of src/Concurrency.h. *)
From Coq Require Import Ascii String.
From Verif Require Import Prelude Str_Model.
Import List.

(** How the library was compiled and linked: -DUSE_PTHREADS, and MPI::hasMpi(). *)
Record build := mkbuild { b_pthreads : bool; b_mpi : bool }.

(** CodeSectionParams: src/CodeSectionParams.h:24-27; setAffinities and stackSize play no role here *)
Record csp := mkcsp { cs_npthreads : nat; cs_npthreads2 : nat }.

(** The static members mode, codeSectionParams and mpiDisabled_: src/Concurrency.h:97-98, src/Concurrency.cpp:5-7 *)
Record conc := mkconc { cc_mode : nat; cc_params : csp; cc_disabled : list str }.

(** Before any object is constructed: src/Concurrency.cpp:5-7 *)
Definition conc_static : conc := mkconc 0 (mkcsp 1 1) [].

(** storageSize: src/Concurrency.h:161-173; SERIAL, PTHREADS, MPI, PTHREADS_AND_MPI are 0, 1, 2, 3; assertions are checked *)
Definition storageSize (c : conc) (npthreads : nat) : res nat :=
  match cc_mode c with
  | 0 => guard (npthreads =? 1) ;; Ok npthreads
  | 1 | 3 => Ok npthreads
  | 2 => Ok 1
  | _ => Throw
  end.

(** storageIndex: src/Concurrency.h:175-187 *)
Definition storageIndex (c : conc) (threadNum : nat) : res nat :=
  match cc_mode c with
  | 0 => guard (threadNum =? 0) ;; Ok threadNum
  | 1 | 3 => Ok threadNum
  | 2 => Ok 0
  | _ => Throw
  end.

(** Constructor: src/Concurrency.h:189-212. The result is the static state it leaves and whether it throws; the
    floating point settings, the messages and MPI::init are not modelled. *)
Definition conc_new (b : build) (c : conc) (nthreads : nat) : conc * res unit :=
  let c := mkconc 0 (mkcsp nthreads 1) (cc_disabled c) in
  if b_pthreads b then
    let m := Nat.lor 0 1 in
    (mkconc (if b_mpi b then Nat.lor m 2 else m) (cc_params c) (cc_disabled c), Ok tt)
  else if negb (nthreads =? 1) then (c, Throw)
  else (mkconc (if b_mpi b then Nat.lor 0 2 else 0) (cc_params c) (cc_disabled c), Ok tt).

(** hasMpi, hasPthreads: src/Concurrency.h:231-233 *)
Definition hasMpi (c : conc) : bool := negb (Nat.land (cc_mode c) 2 =? 0).
Definition hasPthreads (c : conc) : bool := negb (Nat.land (cc_mode c) 1 =? 0).

(** setOptions: src/Concurrency.h:264-287; the parameters are stored before they are checked *)
Definition setOptions (b : build) (c : conc) (cs : csp) : conc * res unit :=
  let c := mkconc (cc_mode c) cs (cc_disabled c) in
  if (cs_npthreads cs =? 1) && (cs_npthreads2 cs =? 1) then (c, Ok tt)
  else if b_pthreads b then (c, Ok tt) else (c, Throw).

(** mpiDisable: src/Concurrency.h:235-240, with LabelDisabled::disable, src/LabelDisabled.h:13 *)
Definition mpiDisable (c : conc) (label : str) : conc :=
  if negb (hasMpi c) then c else mkconc (cc_mode c) (cc_params c) (cc_disabled c ++ [label]).

(** LabelDisabled::operator(): src/LabelDisabled.h:15-18 *)
Definition labelDisabled (c : conc) (label : str) : bool := existsb (fun x => str_eqb x label) (cc_disabled c).

(** mpiDisableIfNeeded: src/Concurrency.h:242-255; the rank and block size afterwards *)
Definition mpiDisableIfNeeded (c : conc) (mpiRank blockSize : nat) (label : str) (total : nat) : res (nat * nat) :=
  if negb (hasMpi c) then Ok (mpiRank, blockSize)
  else if negb (labelDisabled c label) then Ok (mpiRank, blockSize)
  else if negb (hasPthreads c) then Ok (0, total) else Throw.

(** isMpiDisabled: src/Concurrency.h:257-262 *)
Definition isMpiDisabled (c : conc) (label : str) : bool :=
  if negb (hasMpi c) then false else labelDisabled c label.
