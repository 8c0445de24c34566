(** Matrices as mathematical objects: dimensions and an element function. *)
From Verif Require Import Prelude Ring Dense_Model.

Section Spec.
  Variable R : cring.

  (** The storage has exactly one place per element. *)
  Definition mat_wf (m : mat R) : Prop := length (m_data m) = m_nrow m * m_ncol m.

  (** Element (i,j) of a column-major matrix. *)
  Definition melem (m : mat R) (i j : nat) : R := nth (i + j * m_nrow m) (m_data m) c0.

  (** [m] is the [r] by [c] matrix with elements [f i j]. *)
  Definition is_mat (m : mat R) (r c : nat) (f : nat -> nat -> R) : Prop :=
    m_nrow m = r /\ m_ncol m = c /\ mat_wf m /\
    forall i j, i < r -> j < c -> melem m i j = f i j.

  (** Kronecker delta. *)
  Definition delta (i j : nat) : R := if i =? j then c1 else c0.
End Spec.
Arguments mat_wf {R} m.
Arguments melem {R} m i j.
Arguments is_mat {R} m r c f.
Arguments delta {R} i j.
