(** Theorems about messages that carry matrices (C94, C95). *)
From Coq Require Import ZArith.
From Verif Require Import Prelude Ring Dense_Model Crs_Model Mpi_Model Mpi_Spec Mpi_Proofs Mpi_Props Mpim_Model Mpim_Proofs.

(** A vector of dense matrices, of any shapes: process 0 gets, at each place, the matrix of the owner of the place. The
    tags of one matrix overlap those of the next; still no part is taken for another. *)
Theorem C94_matrices : forall (R : cring) (vs : list (list (mat R))) n, vs <> [] -> (forall v, In v vs -> length v = n) ->
  exists bound, always_ends (start (programs (fun r p => gather_matrices R r p 0) vs)) bound
    (fun rs => exists v, gathered vs n v /\ rs = v :: tl vs).
Proof. intros. apply (gather_ok _ _ _ (enc_matrix R)); auto using snd_matrix, rcv_matrix. Qed.
(** A vector of sparse matrices, of any shapes and patterns *)
Theorem C94_sparse : forall (R : cring) (vs : list (list (crs R))) n, vs <> [] -> (forall v, In v vs -> length v = n) ->
  exists bound, always_ends (start (programs (fun r p => gather_crs R r p 0) vs)) bound
    (fun rs => exists v, gathered vs n v /\ rs = v :: tl vs).
Proof. intros. apply (gather_ok _ _ _ (enc_crs R)); auto using snd_crs, rcv_crs. Qed.
Print Assumptions C94_matrices.
Print Assumptions C94_sparse.

(** A matrix of real numbers is the same for all processes after a broadcast, whatever shapes they had. *)
Theorem C95_matrix : forall (R : cring) root (ms : list (mat R)) m, nth_error ms root = Some m ->
  bcast_matrix R false root ms = Ok (repeat m (length ms)).
Proof. intros. apply bcast_matrix_ok; [auto|discriminate]. Qed.
(** So is a sparse matrix, with what process 0 has. *)
Theorem C95_sparse : forall (R : cring) (ms : list (crs R)) m, nth_error ms 0 = Some m ->
  bcast_crs R false ms = Ok (repeat m (length ms)).
Proof. intros. apply bcast_crs_ok; [auto|discriminate]. Qed.
(** A vector of matrices of real numbers, if all processes have the same number of matrices, of whatever shapes *)
Theorem C95_matrices : forall (R : cring) root (vs : list (list (mat R))) v, nth_error vs root = Some v ->
  (forall w, In w vs -> length w = length v) -> bcast_matrices R false root vs = Ok (repeat v (length vs)).
Proof. intros. apply bcast_matrices_ok; auto. discriminate. Qed.
(** Matrices of complex numbers need the same number of elements for all processes... *)
Theorem C95_complex_matrix : forall (R : cring) root (ms : list (mat R)) m, nth_error ms root = Some m ->
  (forall w, In w ms -> length (m_data w) = length (m_data m)) -> bcast_matrix R true root ms = Ok (repeat m (length ms)).
Proof. intros. apply bcast_matrix_ok; auto. Qed.
(** ... with another size anything may happen: the matrix gets the new shape and keeps the old storage. *)
Theorem C95_complex_matrix_refuted : forall (R : cring) root (ms : list (mat R)) m w, nth_error ms root = Some m ->
  In w ms -> length (m_data w) <> length (m_data m) -> bcast_matrix R true root ms = UB.
Proof. intros. eapply bcast_matrix_ub; eauto. Qed.
(** A process that has an empty sparse matrix, to be filled by the broadcast, is such a case. *)
Theorem C95_complex_sparse_refuted : forall (R : cring) (ms : list (crs R)) m w, nth_error ms 0 = Some m ->
  In w ms -> length (c_values w) <> length (c_values m) -> bcast_crs R true ms = UB.
Proof. intros. eapply bcast_crs_ub; eauto. Qed.
Print Assumptions C95_matrices.
Print Assumptions C95_complex_sparse_refuted.

(** Two processes gather two matrices of different shapes; there is an execution that ends. *)
Example C94_matrices_nonvacuous :
  let a := mkmat 1 2 [5; 6]%Z : mat Zring in let b := mkmat 2 1 [7; 8]%Z : mat Zring in let o := mkmat 0 0 [] : mat Zring in
  let vs := [[a; o]; [o; b]] in
  exists n c, steps n (start (programs (fun r p => gather_matrices Zring r p 0) vs)) c /\ ended c [[a; b]; [o; b]] /\ gathered vs 2 [a; b].
Proof.
  cbv zeta. do 2 eexists. split; [|split].
  - eapply steps_more. 1: eapply steps_more. 1: eapply steps_more. 1: eapply steps_more. 1: eapply steps_more. 1: apply steps_refl.
    + eapply step_buffer with (a := 1). reflexivity.
    + apply step_must. eapply must_recv with (a := 1) (b := 0); reflexivity.
    + apply step_must. eapply must_meet with (a := 1) (b := 0); try reflexivity. discriminate.
    + apply step_must. eapply must_meet with (a := 1) (b := 0); try reflexivity. discriminate.
    + apply step_must. eapply must_meet with (a := 1) (b := 0); try reflexivity. discriminate.
  - reflexivity.
  - split; [reflexivity|]. intros i Hi. do 2 (destruct i as [|i]; [eexists; split; reflexivity|]). lia.
Qed.
Example C95_matrices_nonvacuous :
  bcast_matrices Zring false 1 [[mkmat 0 0 []; mkmat 1 1 [3]]; [mkmat 1 2 [5; 6]; mkmat 2 1 [7; 8]]]%Z =
    Ok (repeat [mkmat 1 2 [5; 6]; mkmat 2 1 [7; 8]] 2)%Z /\
  bcast_crs Zring false [mkcrs [0; 1; 1]%nat [2]%nat [4]%Z 2 3; crs_empty Zring] = Ok (repeat (mkcrs [0; 1; 1]%nat [2]%nat [4]%Z 2 3) 2) /\
  bcast_crs Zring true [mkcrs [0; 1; 1]%nat [2]%nat [4]%Z 2 3; crs_empty Zring] = UB.
Proof. repeat split. Qed.
