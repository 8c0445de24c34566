(** What sparse vectors and rows represent: a list of (index, value) entries
    stands for the vector whose k-th element is the sum of the values listed
    for k ([row_elem] of Crs_Spec.v). *)
From Verif Require Import Prelude Ring Crs_Model Crs_Spec Sparse_Model.

Section Spec.
  Variable R : cring.

  (** The entries of a sparse vector. *)
  Definition sv_entries (s : svec R) : list (nat * R) := combine (sv_indices s) (sv_values s).
  Definition sv_elem (s : svec R) (k : nat) : R := row_elem (sv_entries s) k.

  (** One value per index. *)
  Definition sv_wf (s : svec R) : Prop := length (sv_indices s) = length (sv_values s).

  (** Normalised: marked as sorted, and strictly increasing indices. *)
  Definition sv_normal (s : svec R) : Prop :=
    sv_wf s /\ sv_sorted s = true /\ StronglySorted lt (sv_indices s).

  (** [out] is the list of the distinct columns of [added] in increasing order,
      each with the sum of its values. *)
  Definition is_merge (added out : list (nat * R)) : Prop :=
    StronglySorted lt (map fst out) /\
    (forall k, In k (map fst out) <-> In k (map fst added)) /\
    (forall k, row_elem out k = row_elem added k).

  (** The matrix with the entries [out] appended. *)
  Definition push_all (m : crs R) (out : list (nat * R)) : crs R :=
    mkcrs (c_rowptr m) (c_colind m ++ map fst out) (c_values m ++ map snd out) (c_nrow m) (c_ncol m).

  (** The pending entries of a cached row. *)
  Definition rc_entries (r : srowc R) : list (nat * R) :=
    combine (firstn (rc_counter r) (rc_cols r)) (firstn (rc_counter r) (rc_values r)).
  Definition rc_ok (r : srowc R) : Prop :=
    (0 < length (rc_cols r))%nat /\ length (rc_values r) = length (rc_cols r) /\
    (rc_counter r <= length (rc_cols r))%nat.
End Spec.
Arguments sv_entries {R} s.
Arguments sv_elem {R} s k.
Arguments sv_wf {R} s.
Arguments sv_normal {R} s.
Arguments is_merge {R} added out.
Arguments push_all {R} m out.
Arguments rc_entries {R} r.
Arguments rc_ok {R} r.
