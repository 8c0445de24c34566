(** Files as words. *)
From Coq Require Import Ascii String.
From Verif Require Import Prelude Str_Model Text_Model Text_Spec.
Import List.

(** [reads b l r]: the text [b] begins with the words [l], each with white space after it; [r] is what is left
    after the last of them. *)
Inductive reads : str -> list str -> str -> Prop :=
| reads_nil b : reads b [] b
| reads_cons gap w c b l r : spaces gap -> w <> [] -> (forall x, In x w -> ~ is_space x) -> is_space c -> reads (c :: b) l r ->
    reads (gap ++ w ++ c :: b) (w :: l) r.
(** [words b l]: the text [b] is the words [l], each with white space after it. *)
Definition words (b : str) (l : list str) : Prop := exists r, reads b l r /\ spaces r.

(** A word that starts with the label *)
Definition starts (s w : str) : Prop := exists t, w = s ++ t.
(** [occurs s l k i]: word [i] of [l] is the one that starts with [s] after [k] others that do. *)
Inductive occurs (s : str) : list str -> nat -> nat -> Prop :=
| occurs_here w l : starts s w -> occurs s (w :: l) 0 0
| occurs_next w l k i : starts s w -> occurs s l k i -> occurs s (w :: l) (S k) (S i)
| occurs_skip w l k i : ~ starts s w -> occurs s l k i -> occurs s (w :: l) k (S i).
(** How many words start with the label *)
Inductive number (s : str) : list str -> nat -> Prop :=
| number_nil : number s [] 0
| number_yes w l n : starts s w -> number s l n -> number s (w :: l) (S n)
| number_no w l n : ~ starts s w -> number s l n -> number s (w :: l) n.
