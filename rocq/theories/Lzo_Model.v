(** Model of a Lanczos solver as an object that is used more than once: src/LanczosCore.h, src/LanczosVectors.h. As in
    [Lanczos_Model]; here with what the object keeps from one call to the next. *)
From Coq Require Import Reals.
From Verif Require Import Prelude Ring Cplx Tri_Model Lanczos_Model.
Local Open Scope nat_scope.

(** LanczosCore::steps_: src/LanczosCore.h:300, and LanczosVectors::data_: src/LanczosVectors.h:314, with the number of rows of
    the matrix and its columns; null is [None]. The members overlap_ and ysaved_ are set anew by every decomposition. *)
Record lzobj := mklzobj { lz_steps : nat; lz_data : option (nat * list vector) }.

(** the constructors: src/LanczosCore.h:120-132, src/LanczosVectors.h:114-131 *)
Definition lz_new (steps : nat) : lzobj := mklzobj steps None.

Section Lzo.
  (** as in [Lanczos_Model] *)
  Variable rows : nat.
  Variable mvp : vector -> vector -> vector.
  Variable stedc : nat -> list R -> list R -> option (list R).
  Variable tolerance : R.
  Variable minSteps : nat.
  Variable isReortho : bool.

  (** prepareMemory and dealWithStorageOfV: src/LanczosVectors.h:155-166, 268-285. The vectors that are there stay there. *)
  Definition lz_prepare (o : lzobj) (max_nstep : nat) : res (list vector) :=
    match lz_data o with
    | Some (r, d) => if negb (rows =? r) || negb (max_nstep =? length d) then Throw else Ok d
    | None => Ok (repeat (vec rows (fun _ => c0)) max_nstep)
    end.

  (** decomposition: src/LanczosCore.h:147-272. max_nstep is steps_ itself; the vectors are resized at the end
      (src/LanczosVectors.h:168-172). What the object is after a call that throws is not modelled. *)
  Definition lz_decomposition (excitedForStop : nat) (o : lzobj) (initVector : vector) : res (lzobj * (list vector * tri Rring)) :=
    if negb (length initVector =? rows) then Throw
    else
      let nrm := sum_re rows initVector initVector in
      guard (if Req_EM_T nrm 0 then false else true) ;;
      let V0 := scale rows (1 / sqrt nrm) initVector in
      let max_nstep := if rows <? lz_steps o then rows else lz_steps o in
      do ab <- tri_resize_val Rring (tri_new Rring) max_nstep 0%R ;;
      do data <- lz_prepare o max_nstep ;;
      do b <- vset (t_b ab) 0 0%R ;;
      do data <- vset data 0 V0 ;;
      let V1 := mvp (vec rows (fun _ => c0)) V0 in
      let atmp := sum_re rows V1 V0 in
      do a <- vset (t_a ab) 0 atmp ;;
      let V1 := vec rows (fun i => csub (at_ V1 i) (cmul (RtoC atmp) (at_ V0 i))) in
      let btmp := sqrt (sum_re rows V1 V1) in
      do b <- vset b 1 btmp ;;
      let V1 := if Rlt_dec 0 btmp then scale rows (1 / btmp) V1 else V1 in
      do data <- (if 1 <? max_nstep then vset data 1 V1 else Ok data) ;;
      do (j, data, a, b) <- lanczos_loop rows mvp stedc tolerance minSteps excitedForStop isReortho max_nstep (max_nstep - 1) 1 data V0 V1 a b
                              (repeat 0%R max_nstep) false ;;
      do (max_nstep, ab) <- (if j <? max_nstep then
          do ab <- tri_resize Rring (@mktri Rring a b) (j + 1) ;; Ok (j + 1, ab)
        else Ok (max_nstep, @mktri Rring a b)) ;;
      let data := vresize data max_nstep (vec rows (fun _ => c0)) in
      Ok (mklzobj max_nstep (Some (rows, data)), (data, ab)).

  (** calls of [lz_decomposition] one after the other, each with its excitedForStop and start vector *)
  Fixpoint lz_calls (o : lzobj) (calls : list (nat * vector)) : res (lzobj * list (list vector * tri Rring)) :=
    match calls with
    | [] => Ok (o, [])
    | (ex, init) :: calls =>
      do (o, r) <- lz_decomposition ex o init ;;
      do (o, rs) <- lz_calls o calls ;;
      Ok (o, r :: rs)
    end.
End Lzo.

(** lanczosVectorsSwap: src/LanczosCore.h:281-289, with Matrix::swap: src/Matrix.h:341-350. [V] is the matrix given, with its rows
    and columns; the result is the object and the matrix afterwards. *)
Definition lz_swap (o : lzobj) (V : nat * list vector) : res (lzobj * (nat * list vector)) :=
  match lz_data o with
  | None => Throw
  | Some d => Ok (mklzobj (lz_steps o) (Some V), d)
  end.
