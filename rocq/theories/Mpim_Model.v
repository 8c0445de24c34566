(** Model of the messages that carry matrices: src/Matrix.h, src/CrsMatrix.h, src/MpiYes.h. *)
From Verif Require Import Prelude Ring Dense_Model Crs_Model Mpi_Model.

Section Objects.
  Variable R : cring.

  (** What the messages are made of: numbers of type SizeType and elements of the matrices. MPI tells them apart by the
      type that is given with the message; a message of the wrong type is an error here. *)
  Inductive datum := DN (n : nat) | DV (x : R).
  Fixpoint sizes (l : list datum) : option (list nat) :=
    match l with
    | [] => Some []
    | DN n :: l => option_map (cons n) (sizes l)
    | DV _ :: _ => None
    end.
  Fixpoint elements (l : list datum) : option (list R) :=
    match l with
    | [] => Some []
    | DV x :: l => option_map (cons x) (elements l)
    | DN _ :: _ => None
    end.
  Definition oproc {A} (o : option A) : proc datum A := match o with Some a => Ret a | None => Err end.
  (** send and recv of a SizeType (src/MpiYes.h:171-179, 117-126), of a vector of them and of a vector of elements
      (188-216, 135-169) *)
  Definition send_size (n dest tag : nat) : proc datum unit := send_number (DN n) dest tag.
  Definition recv_size (old source tag : nat) : proc datum nat :=
    pbind (recv_number (DN old) source tag) (fun d => match d with DN n => Ret n | DV _ => Err end).
  Definition send_sizes (v : list nat) (dest tag : nat) : proc datum unit := send_vector (map DN v) dest tag.
  Definition recv_sizes (old : list nat) (source tag : nat) : proc datum (list nat) :=
    pbind (recv_vector (DN 0) (map DN old) source tag) (fun l => oproc (sizes l)).
  Definition send_elements (v : list R) (dest tag : nat) : proc datum unit := send_vector (map DV v) dest tag.
  Definition recv_elements (old : list R) (source tag : nat) : proc datum (list R) :=
    pbind (recv_vector (DV c0) (map DV old) source tag) (fun l => oproc (elements l)).

  (** Matrix::send, Matrix::recv: src/Matrix.h:371-383. The communicator is the one of the gathering processes. *)
  Definition send_matrix (m : mat R) (root tag : nat) : proc datum unit :=
    pbind (send_size (m_nrow m) root tag) (fun _ =>
    pbind (send_size (m_ncol m) root (tag + 1)) (fun _ =>
    send_elements (m_data m) root (tag + 2))).
  Definition recv_matrix (m : mat R) (root tag : nat) : proc datum (mat R) :=
    pbind (recv_size (m_nrow m) root tag) (fun nrow =>
    pbind (recv_size (m_ncol m) root (tag + 1)) (fun ncol =>
    pbind (recv_elements (m_data m) root (tag + 2)) (fun data =>
    Ret (mkmat nrow ncol data)))).

  (** CrsMatrix::send, CrsMatrix::recv: src/CrsMatrix.h:582-598 *)
  Definition send_crs (m : crs R) (root tag : nat) : proc datum unit :=
    pbind (send_size (c_nrow m) root tag) (fun _ =>
    pbind (send_size (c_ncol m) root (tag + 1)) (fun _ =>
    pbind (send_sizes (c_rowptr m) root (tag + 2)) (fun _ =>
    pbind (send_sizes (c_colind m) root (tag + 3)) (fun _ =>
    send_elements (c_values m) root (tag + 4))))).
  Definition recv_crs (m : crs R) (root tag : nat) : proc datum (crs R) :=
    pbind (recv_size (c_nrow m) root tag) (fun nrow =>
    pbind (recv_size (c_ncol m) root (tag + 1)) (fun ncol =>
    pbind (recv_sizes (c_rowptr m) root (tag + 2)) (fun rowptr =>
    pbind (recv_sizes (c_colind m) root (tag + 3)) (fun colind =>
    pbind (recv_elements (c_values m) root (tag + 4)) (fun values =>
    Ret (mkcrs rowptr colind values nrow ncol)))))).

  (** pointByPointGather of vectors of matrices, received in place: src/MpiYes.h:255-288 *)
  Definition gather_matrices (mpiRank nprocs root : nat) (v : list (mat R)) : proc datum (list (mat R)) :=
    pointByPointGather send_matrix recv_matrix (fun a => a) (fun x => x) mpiRank nprocs root v.
  Definition gather_crs (mpiRank nprocs root : nat) (v : list (crs R)) : proc datum (list (crs R)) :=
    pointByPointGather send_crs recv_crs (fun a => a) (fun x => x) mpiRank nprocs root v.

  (** ** Broadcasts: the argument is what each process has. [cpx] says that the elements are complex numbers, whose
      vectors are not resized (src/MpiYes.h:353-377). *)
  Definition bcast_elements (cpx : bool) (root : nat) (vs : list (list R)) : res (list (list R)) :=
    if cpx then bcast_complex R root vs else bcast_vector R root vs.
  (** Vectors of SizeType: src/MpiYes.h:353-366 *)
  Definition bcast_sizes (root : nat) (vs : list (list nat)) : res (list (list nat)) :=
    do totals <- bcast_number root (map (@length nat) vs) ;;
    let vs := map (fun '(total, v) => if Nat.eqb total (length v) then v else vresize v total 0) (combine totals vs) in
    do v <- vget vs root ;;
    guard (forallb (fun w => Nat.eqb (length w) (length v)) vs) ;;
    Ok (map (fun _ => v) vs).

  (** Matrix::bcast: src/Matrix.h:385-390 *)
  Definition bcast_matrix (cpx : bool) (root : nat) (ms : list (mat R)) : res (list (mat R)) :=
    do nrows <- bcast_number root (map m_nrow ms) ;;
    do ncols <- bcast_number root (map m_ncol ms) ;;
    do datas <- bcast_elements cpx root (map m_data ms) ;;
    Ok (map (fun '((nrow, ncol), data) => mkmat nrow ncol data) (combine (combine nrows ncols) datas)).
  (** bcast of a CrsMatrix, always from process 0: src/CrsMatrix.h:763-771 *)
  Definition bcast_crs (cpx : bool) (ms : list (crs R)) : res (list (crs R)) :=
    do rowptrs <- bcast_sizes 0 (map c_rowptr ms) ;;
    do colinds <- bcast_sizes 0 (map c_colind ms) ;;
    do values <- bcast_elements cpx 0 (map c_values ms) ;;
    do nrows <- bcast_number 0 (map c_nrow ms) ;;
    do ncols <- bcast_number 0 (map c_ncol ms) ;;
    Ok (map (fun '((rp, ci), (v, (r, c))) => mkcrs rp ci v r c)
            (combine (combine rowptrs colinds) (combine values (combine nrows ncols)))).

  (** bcast of a vector of matrices: src/MpiYes.h:395-404. If the processes have different numbers of matrices, they do
      not all take part in the last broadcasts. *)
  Definition bcast_matrices (cpx : bool) (root : nat) (vs : list (list (mat R))) : res (list (list (mat R))) :=
    do v <- vget vs root ;;
    guard (forallb (fun w => Nat.eqb (length w) (length v)) vs) ;;
    forM (length v) 0 (fun i vs =>
      do ms <- bcast_matrix cpx root (map (fun w => nth i w (mkmat 0 0 [])) vs) ;;
      Ok (map (fun '(w, m) => upd w i m) (combine vs ms))) vs.
End Objects.
Arguments DN {R}. Arguments DV {R}.
