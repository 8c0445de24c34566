(** What the variables of an Ainur input hold. *)
From Coq Require Import Ascii String.
From Verif Require Import Prelude Str_Model Str_Spec.
Import List.

(** What can be done, in the order in which it is done. *)
Inductive event :=
| EDeclare (type k : str) (v : option str)   (* type k; or type k=v; *)
| EAssign (k v : str)                        (* k=v; *)
| ERead (k : str).                           (* the program asks for k *)
Definition history := list event.

Definition declared (h : history) (k : str) : Prop := exists d v, In (EDeclare d k v) h.
(** The last value given to k. *)
Fixpoint given (h : history) (k : str) : option str :=
  match h with
  | [] => None
  | e :: h =>
    match given h k with
    | Some v => Some v
    | None =>
      match e with
      | EDeclare _ k' (Some v) => if str_eqb k' k then Some v else None
      | EAssign k' v => if str_eqb k' k then Some v else None
      | _ => None
      end
    end
  end.
(** No value, or one that counts as none *)
Definition no_value (h : history) (k : str) : Prop :=
  match given h k with None => True | Some v => v = [] \/ v = [ascii_of_nat 0] end.
(** A value that is not a function of Ainur: it does not start with a parenthesis *)
Definition plain (v : str) : Prop := exists c s, v = c :: s /\ c <> "("%char /\ v <> [ascii_of_nat 0].
Definition quoted (s : str) : str := """"%char :: s ++ [""""%char].
(** The text a value stands for: quotes around it do not count. *)
Definition text_of (v t : str) : Prop := v = quoted t \/ (v = t /\ forall s, v <> quoted s).

(** e may come after h. *)
Definition allowed (h : history) (e : event) : Prop :=
  match e with
  | EDeclare d k _ => ~ declared h k /\ d <> []
  | EAssign k _ => declared h k
  | ERead k => declared h k /\ exists v, given h k = Some v /\ plain v
  end.
(** e is an error after h. *)
Definition wrong (h : history) (e : event) : Prop :=
  match e with
  | EDeclare d k _ => declared h k
  | EAssign k _ => ~ declared h k
  | ERead k => ~ declared h k \/ no_value h k
  end.
Definition legal (h : history) : Prop := forall a e b, h = a ++ e :: b -> allowed a e.

(** k must be read, because its type was given with an exclamation mark *)
Definition required (h : history) (k : str) : Prop := exists d v, In (EDeclare (d ++ ["!"%char]) k v) h /\ d <> [].

(** ** Macros *)
Definition name_char (c : ascii) : Prop :=
  In c (list_ascii_of_string "abcdefghijklmnopqrstuvwxyzABCDEFGHIJKLMNOPQRSTUVWXYZ0123456789_").
Definition backslash : ascii := "\"%char.
(** The macros of a value are replaced: [names n w]: the macro n stands for the text w. The character after the name of
    a macro, which ends the name, has to be there. *)
Inductive replaced (names : str -> str -> Prop) : str -> str -> Prop :=
| replaced_text s : ~ In backslash s -> replaced names s s
| replaced_macro s n w c rest rest' : ~ In backslash s -> (forall x, In x n -> name_char x) -> ~ name_char c -> c <> backslash ->
    names n w -> replaced names (c :: rest) rest' -> replaced names (s ++ backslash :: n ++ c :: rest) (s ++ w ++ rest').
(** No macro is left that can be replaced: after a backslash there are only name characters and other backslashes. *)
Definition settled (v : str) : Prop := forall a b c, v = a ++ backslash :: b -> In c b -> name_char c \/ c = backslash.
