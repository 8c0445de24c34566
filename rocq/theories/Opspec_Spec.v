(** The grammar of operator and vector specifications. *)
From Coq Require Import Ascii String.
From Verif Require Import Prelude Str_Model Str_Spec.
Import List.

(** A non-empty string of decimal digits. *)
Definition digits (d : str) : Prop := d <> [] /\ forall c, In c d -> is_digit c.

(** An operator specification without the transposition mark: a label, or label?number. *)
Inductive op_body : str -> Z -> str -> Prop :=
| ob_plain l : ~ In "?"%char l -> op_body l 0 l
| ob_dof l d : ~ In "?"%char l -> digits d -> op_body (l ++ "?"%char :: d) (dec_val d) l.

(** The whole specification: a final ' means transposed. *)
Inductive op_text : str -> Z -> str -> bool -> Prop :=
| ot_plain s n l : (forall t, s <> t ++ ["'"%char]) -> op_body s n l -> op_text s n l false
| ot_transposed s n l : op_body s n l -> op_text (s ++ ["'"%char]) n l true.

(** What a vector specification denotes: an energy vector (sector, level), a numbered vector P, a reserved vector R. *)
Inductive vkind := VEnergy | VP | VR.
Inductive vec_text : str -> vkind -> Z -> Z -> Prop :=
| vt_gs : vec_text (lit "gs") VEnergy 0 0
| vt_time : vec_text (lit "time") VP 0 0
| vt_P d : digits d -> vec_text ("P"%char :: d) VP (dec_val d) 0
| vt_R d : digits d -> vec_text ("R"%char :: d) VR (dec_val d) 0
| vt_Q d : digits d -> vec_text ("Q"%char :: d) VEnergy (dec_val d) 0
| vt_X d : digits d -> vec_text ("X"%char :: d) VEnergy 0 (dec_val d)
| vt_QX d e : digits d -> digits e -> vec_text ("Q"%char :: d ++ "X"%char :: e) VEnergy (dec_val d) (dec_val e).
