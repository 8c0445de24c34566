(** What a compressed-row-storage matrix is. *)
From Verif Require Import Prelude Ring Crs_Model.

Section Spec.
  Variable R : cring.

  (** Start of row [i] in the arrays. *)
  Definition rp (m : crs R) (i : nat) : nat := nth i (c_rowptr m) 0.

  (** The entries (column, value) stored for row [i]. *)
  Definition crs_row (m : crs R) (i : nat) : list (nat * R) :=
    map (fun k => (nth k (c_colind m) 0, nth k (c_values m) c0))
        (seq (rp m i) (rp m (S i) - rp m i)).

  (** Sum of the values a row stores for column [j]. *)
  Definition row_elem (row : list (nat * R)) (j : nat) : R :=
    suml (fun e => if fst e =? j then snd e else c0) row.

  (** The matrix element (i, j). *)
  Definition crs_elem (m : crs R) (i j : nat) : R := row_elem (crs_row m i) j.

  (** Well formed: as many row pointers as rows plus one (none at all is
      accepted for the default-constructed matrix, which has no rows), starting
      at 0, not decreasing, ending at the number of stored entries; as many
      columns as values; columns in range. *)
  Definition crs_wf (m : crs R) : Prop :=
    (length (c_rowptr m) = S (c_nrow m) \/ (c_nrow m = 0 /\ c_rowptr m = [])) /\
    rp m 0 = 0 /\
    (forall i, i < c_nrow m -> rp m i <= rp m (S i)) /\
    rp m (c_nrow m) = length (c_colind m) /\
    length (c_values m) = length (c_colind m) /\
    Forall (fun c => c < c_ncol m) (c_colind m).

  (** No row stores a column twice. *)
  Definition crs_nodup (m : crs R) : Prop :=
    forall i, i < c_nrow m -> NoDup (map fst (crs_row m i)).

  (** No stored value is zero. *)
  Definition crs_nozero (m : crs R) : Prop := Forall (fun v => v <> c0) (c_values m).

  (** The columns of every row are in increasing order. *)
  Definition crs_sorted (m : crs R) : Prop :=
    forall i, i < c_nrow m -> StronglySorted lt (map fst (crs_row m i)).

  (** [m] is a well formed [r] by [c] matrix with elements [f i j], with a full
      row pointer array. *)
  Definition is_crs (m : crs R) (r c : nat) (f : nat -> nat -> R) : Prop :=
    c_nrow m = r /\ c_ncol m = c /\ length (c_rowptr m) = S r /\ crs_wf m /\
    forall i j, i < r -> j < c -> crs_elem m i j = f i j.

  (** Element of a matrix extended with zeros. *)
  Definition pad_elem (m : crs R) (i j : nat) : R :=
    if (i <? c_nrow m) && (j <? c_ncol m) then crs_elem m i j else c0.

  (** [p] lists each of 0..n-1 once. *)
  Definition is_perm (p : list nat) (n : nat) : Prop := Permutation (seq 0 n) p.
End Spec.
Arguments rp {R} m i.
Arguments crs_row {R} m i.
Arguments row_elem {R} row j.
Arguments crs_elem {R} m i j.
Arguments crs_wf {R} m.
Arguments crs_nodup {R} m.
Arguments crs_nozero {R} m.
Arguments crs_sorted {R} m.
Arguments is_crs {R} m r c f.
Arguments pad_elem {R} m i j.
