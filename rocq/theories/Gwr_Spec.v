(** What a file has of a geometry that was written under a label. *)
From Coq Require Import ZArith Ascii String.
From Verif Require Import Prelude Ring Str_Model Text_Model Dense_Model Ng_Model Ng_Spec Gwr_Model.
Import List.

Section Spec.
  Variable R : cring.
  Variable f : file R.

  Definition item (label : str) (w : string) : str := label ++ lit "/" ++ lit w.
  Definition element (label : str) (i : nat) : str := label ++ lit "/" ++ print_nat i.

  Definition has_number (n : str) (x : nat) : Prop := read_int R f n = Ok (Z.of_nat x).
  (** A matrix without elements keeps its shape only. *)
  Definition has_matrix (n : str) (m : mat R) : Prop := forall old, exists m', mat_readNg R f n old = Ok m' /\
    m_nrow m' = m_nrow m /\ m_ncol m' = m_ncol m /\ (0 < m_nrow m -> 0 < m_ncol m -> m' = m)%nat.
  Definition has_objects {T} (has : str -> T -> Prop) (n : str) (l : list T) : Prop :=
    has_number (item n "Size") (List.length l) /\ forall i x, nth_error l i = Some x -> has (element n i) x.

  Definition has_direction (n : str) (d : gdir R) : Prop :=
    read_bool R f (item n "aux_/constantValues") = Ok (gd_const R d) /\
    has_number (item n "aux_/dirId") (gd_dirId R d) /\
    read_int R f (item n "aux_/edof") = Ok (match gd_idof R d with GENERAL => 0 | SPECIFIC => 1 end)%Z /\
    read_vec_flt R f (item n "dataNumbers_") = match gd_numbers R d with [] => Throw | _ => Ok (gd_numbers R d) end /\
    has_objects has_matrix (item n "dataMatrices_") (gd_matrices R d) /\
    has_matrix (item n "rawHoppings_") (gd_raw R d).
  Definition has_term (n : str) (t : gterm R) : Prop :=
    read_bool R f (item n "aux_/debug") = Ok (gt_debug R t) /\
    has_number (item n "aux_/termId") (gt_termId R t) /\
    has_number (item n "aux_/numberOfTerms") (gt_numberOfTerms R t) /\
    has_number (item n "aux_/linSize") (gt_linSize R t) /\
    has_number (item n "orbitals_") (gt_orbitals R t) /\
    read_string R f (item n "gOptions_") = Ok (gt_options R t) /\
    has_objects has_direction (item n "directions_") (gt_directions R t) /\
    has_matrix (item n "cachedValues_") (gt_cached R t).
  Definition has_geometry (n : str) (g : geom R) : Prop :=
    has_number (item n "linSize_") (ge_linSize R g) /\ has_objects has_term (item n "terms_") (ge_terms R g).

  (** The geometries covered: matrices have as many elements as their shape says, and options are not empty. *)
  Definition shaped (m : mat R) : Prop := List.length (m_data m) = (m_nrow m * m_ncol m)%nat.
  Definition good_direction (d : gdir R) : Prop := Forall shaped (gd_matrices R d) /\ shaped (gd_raw R d).
  Definition good_term (t : gterm R) : Prop := gt_options R t <> [] /\ Forall good_direction (gt_directions R t) /\ shaped (gt_cached R t).
  Definition good_geometry (g : geom R) : Prop := Forall good_term (ge_terms R g).

  (** The name is the label or in its group. *)
  Definition under (label n : str) : Prop := n = label \/ exists r, n = label ++ slash :: r.
End Spec.
