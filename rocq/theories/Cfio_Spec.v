(** When a continued fraction can be stored in a file, and the text of an old file. *)
From Coq Require Import Ascii String.
From Verif Require Import Prelude Str_Model Text_Model Text_Spec Simple_Spec Cfio_Model.
Import List.
Local Open Scope Z_scope.

(** a word of a file *)
Definition token (w : str) : Prop := w <> [] /\ forall c, In c w -> ~ is_space c.

Section Spec.
  Variables (K W : Type) (prK : K -> str) (prW : W -> str).
  Variables (rdK : istream -> K -> K * istream) (rdW : istream -> W -> W * istream).
  Variables (domK : K -> Prop) (domW : W -> Prop).
  (** The numbers of these sets are printed as a word that does not begin with #, and read back. *)
  Definition exact_text : Prop :=
    reads_back domK prK (lift_rd rdK) /\ reads_back domW prW (lift_rd rdW) /\
    (forall x, domK x -> token (prK x) /\ ~ starts (lit "#") (prK x)) /\ (forall x, domW x -> token (prW x) /\ ~ starts (lit "#") (prW x)).
  (** All numbers of the fraction are in these sets, and int can hold the sign and the sizes. *)
  Definition storable (cf : cfs K W) : Prop :=
    Forall domK (s_a _ _ cf) /\ Forall domK (s_b _ _ cf) /\ Forall domK (s_eigs _ _ cf) /\ Forall domK (s_intensity _ _ cf) /\ domW (s_weight _ _ cf) /\ domK (s_Eg _ _ cf) /\
    -2147483648 <= s_isign _ _ cf < 2147483648 /\
    (forall l, In l [s_a _ _ cf; s_b _ _ cf; s_eigs _ _ cf; s_intensity _ _ cf] -> Z.of_nat (List.length l) < 2147483648).
  (** The eigenvalues and intensities are those of the tridiagonal matrix, if the weight is not zero. *)
  Definition consistent (isZero : W -> bool) (eigen : list K -> list K -> res (list K * list K)) (cf : cfs K W) : Prop :=
    isZero (s_weight _ _ cf) = false -> eigen (s_a _ _ cf) (s_b _ _ cf) = Ok (s_eigs _ _ cf, s_intensity _ _ cf).

  (** one word on each line *)
  Definition lines (l : list str) : str := flat_map (fun w => w ++ nl) l.
  (** a vector: its label, its size and its elements, and an empty line *)
  Definition vec_words (label : str) (v : list K) : list str := label :: print_nat (List.length v) :: map prK v.
  Definition vec_text (label : str) (v : list K) : str := lines (vec_words label v) ++ nl.
  (** a fraction as files had it before there was a kind of frequency *)
  Definition old_text (cf : cfs K W) : str :=
    vec_text (lit "#Avector") (s_a _ _ cf) ++ vec_text (lit "#Bvector") (s_b _ _ cf) ++
    lines [lit "#CFWeight=" ++ prW (s_weight _ _ cf); lit "#CFEnergy=" ++ prK (s_Eg _ _ cf); lit "#CFIsign=" ++ print_Z (s_isign _ _ cf)] ++
    vec_text (lit "#CFEigs") (s_eigs _ _ cf) ++ vec_text (lit "#CFIntensities") (s_intensity _ _ cf).
End Spec.
