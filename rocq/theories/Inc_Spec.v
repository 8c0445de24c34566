(** What texts of numbers mean, and what a map read from a file is. *)
From Coq Require Import Ascii String.
From Verif Require Import Prelude Ring Str_Model Str_Spec Text_Model Input_Spec.
Import List.

(** A text atof takes: the characters of numbers, with a digit. *)
Definition real_text (s : str) : Prop :=
  (forall c, In c s -> In c (list_ascii_of_string "0123456789.+-eE")) /\ exists c, In c s /\ is_digit c.

(** A number in the usual notation: sign, digits, dot and digits, exponent *)
Definition digits (s : str) : Prop := forall c, In c s -> is_digit c.
Definition a_sign (s : str) : Prop := s = [] \/ s = lit "+" \/ s = lit "-".
Definition decimal (s : str) : Prop :=
  exists sg i fr ex, s = sg ++ i ++ fr ++ ex /\ a_sign sg /\ i <> [] /\ digits i /\
    (fr = [] \/ exists d, fr = "."%char :: d /\ digits d) /\
    (ex = [] \/ exists c sg d, (c = "e"%char \/ c = "E"%char) /\ a_sign sg /\ d <> [] /\ digits d /\ ex = c :: sg ++ d).

Section Numbers.
  Context {T C : cring}.
  Variables (std_atof : str -> T) (mkC : T -> T -> C).
  (** "(a,b)" is a + ib, and "a" is a. *)
  Definition denotes (number : str -> Prop) (s : str) (z : C) : Prop :=
    (exists a b, s = lit "(" ++ a ++ lit "," ++ b ++ lit ")" /\ number a /\ number b /\ z = mkC (std_atof a) (std_atof b)) \/
    (number s /\ z = mkC (std_atof s) c0).
  (** [is >> u] reads a number in the usual notation up to a comma, a parenthesis or the end. *)
  Definition scans (scan : str -> option (T * str)) : Prop :=
    forall a rest, decimal a -> (rest = [] \/ exists c t, rest = c :: t /\ (c = ","%char \/ c = ")"%char)) ->
      scan (a ++ rest) = Some (std_atof a, rest).
End Numbers.

Definition lookup {T} (m : list (str * T)) (k : str) : option T :=
  option_map snd (find (fun e => str_eqb (fst e) k) m).
(** The labels "l[key]" *)
Definition entry (l k : str) : str := l ++ lit "[" ++ k ++ lit "]".
(** A label has [p] in it somewhere. *)
Definition contains (p s : str) : Prop := exists a b, s = a ++ p ++ b.
