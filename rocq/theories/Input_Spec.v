(** What an input file means. A file is a list of items: "label=value" lines, vectors,
    lines that stand for several labels, comments, and empty lines. *)
From Coq Require Import Ascii String.
From Verif Require Import Prelude Str_Model Str_Spec Text_Model.
Import List.

Definition newline : ascii := ascii_of_nat 10.
Definition blank (c : ascii) : Prop := c = " "%char \/ c = ascii_of_nat 9.
(** Characters with a meaning of their own, which tokens do not contain. *)
Definition special (c : ascii) : Prop := blank c \/ c = newline \/ c = "#"%char \/ c = ascii_of_nat 0.
(** Characters a number may start with: digits and :.+-(), *)
Definition numeric (c : ascii) : Prop := In c (list_ascii_of_string "0123456789:.+-(),").

Definition blanks (s : str) : Prop := forall c, In c s -> blank c.
(** What separates the numbers of a vector: blanks and newlines. *)
Definition gap (s : str) : Prop := s <> [] /\ forall c, In c s -> blank c \/ c = newline.

(** A label starts with a letter or some other character that is not numeric; it has no '=' or '@'. *)
Definition label_ok (l : str) : Prop :=
  (exists c s, l = c :: s /\ ~ numeric c /\ c <> "!"%char) /\
  forall c, In c l -> ~ special c /\ c <> "="%char /\ c <> "@"%char.
(** A value may have '=' in it, but not in the first place. *)
Definition value_ok (v : str) : Prop :=
  (exists c s, v = c :: s /\ c <> "="%char) /\ forall c, In c v -> ~ special c.
Definition number_ok (n : str) : Prop :=
  (exists c s, n = c :: s /\ numeric c) /\ forall c, In c n -> ~ special c /\ c <> "="%char.

Inductive item :=
| IText (l : str) (before : str) (v : str) (after : str) (remark : option str)
    (* l=v, with blanks before and after v and perhaps a remark that starts with '#' *)
| IVec (l : str) (ns : list (str * str)) (after : str)
    (* l, then numbers, each with the gap before it *)
| IMany (a b : str) (vs : list str)     (* !a$ib v0 v1 v2 ... *)
| IComment (before : str) (s : str)     (* # s *)
| IBlank (s : str).                     (* blanks only *)

Definition item_ok (x : item) : Prop :=
  match x with
  | IText l before v after remark =>
    label_ok l /\ blanks before /\ value_ok v /\ blanks after /\
    match remark with None => True | Some s => after <> [] /\ ~ In newline s end
  | IVec l ns after =>
    label_ok l /\ (2 <= List.length ns)%nat /\
    (forall p, In p ns -> gap (fst p) /\ number_ok (snd p)) /\ blanks after
  | IMany a b vs =>
    vs <> [] /\ (forall i, label_ok (a ++ print_nat i ++ b)) /\ ~ In "$"%char a /\ a <> [] /\
    forall v, In v vs -> value_ok v
  | IComment before s => blanks before /\ ~ In newline s
  | IBlank s => blanks s
  end.

(** The text of an item and of a file. *)
Fixpoint spaced (vs : list str) : str :=
  match vs with
  | [] => []
  | v :: vs' => " "%char :: v ++ spaced vs'
  end.
Definition render1 (x : item) : str :=
  match x with
  | IText l before v after remark =>
    l ++ lit "=" ++ before ++ v ++ after ++ match remark with None => [] | Some s => lit "#" ++ s end ++ [newline]
  | IVec l ns after => l ++ flat_map (fun p => fst p ++ snd p) ns ++ after ++ [newline]
  | IMany a b vs => lit "!" ++ a ++ lit "$i" ++ b ++ spaced vs ++ [newline]
  | IComment before s => before ++ lit "#" ++ s ++ [newline]
  | IBlank s => s ++ [newline]
  end.
Definition render (l : list item) : str := flat_map render1 l.

(** A comment does not follow a vector. *)
Fixpoint comments_ok (after_vec : bool) (l : list item) : Prop :=
  match l with
  | [] => True
  | IVec _ _ _ :: l' => comments_ok true l'
  | IComment _ _ :: l' => after_vec = false /\ comments_ok false l'
  | IBlank _ :: l' => comments_ok after_vec l'
  | _ :: l' => comments_ok false l'
  end.

(** The values of a label, in the order of the file. *)
Fixpoint many (a b : str) (i : nat) (vs : list str) : list (str * str) :=
  match vs with
  | [] => []
  | v :: vs' => (a ++ print_nat i ++ b, v) :: many a b (S i) vs'
  end.
Definition texts1 (x : item) : list (str * str) :=
  match x with
  | IText l _ v _ _ => [(l, v)]
  | IMany a b vs => many a b 0 vs
  | _ => []
  end.
Definition vecs1 (x : item) : list (str * list str) :=
  match x with IVec l ns _ => [(l, map snd ns)] | _ => [] end.
Definition values_of {V} (l : str) (e : list (str * V)) : list V :=
  map snd (filter (fun p => str_eqb l (fst p)) e).
Definition texts (f : list item) (l : str) : list str := values_of l (flat_map texts1 f).
Definition vecs (f : list item) (l : str) : list (list str) := values_of l (flat_map vecs1 f).

(** A label may be compared with others if what follows '@' is a number (digits, signs). *)
Definition comparable (l : str) : Prop :=
  forall a b, l = a ++ "@"%char :: b -> forall c, In c b -> In c (list_ascii_of_string "@0123456789+-").

(** The first number of a vector is how many follow. *)
Definition counted (ns : list str) : Prop :=
  exists k rest, ns = k :: rest /\ k = print_nat (List.length rest).

(** Reading: the values that are left of each label; a value that is not the last is read once. *)
Record rest := mkrest { left_t : str -> list str; left_v : str -> list (list str) }.
Definition take {V} (q : str -> list V) (l : str) : str -> list V :=
  fun l' => if str_eqb l l' then match q l with _ :: (_ :: _) => tl (q l) | _ => q l end else q l'.
Inductive request := AskText (l : str) | AskVec (l : str).
Inductive answer := AText (v : str) | AVec (v : list str).
Definition expect (q : rest) (a : request) : option (answer * rest) :=
  match a with
  | AskText l => match left_t q l with [] => None | v :: _ => Some (AText v, mkrest (take (left_t q) l) (left_v q)) end
  | AskVec l => match left_v q l with [] => None | v :: _ => Some (AVec (tl v), mkrest (left_t q) (take (left_v q) l)) end
  end.
(** What a series of requests gives, and what is left after it; [None] stands for an error. *)
Fixpoint expects (q : rest) (l : list request) : list (option answer) * rest :=
  match l with
  | [] => ([], q)
  | a :: l' => match expect q a with
               | None => let '(x, q') := expects q l' in (None :: x, q')
               | Some (v, q1) => let '(x, q') := expects q1 l' in (Some v :: x, q')
               end
  end.
Definition label_of (a : request) : str := match a with AskText l => l | AskVec l => l end.

(** The labels with values and the labels with vectors are not the same ones. *)
Definition separate (f : list item) : Prop := forall l, texts f l = [] \/ vecs f l = [].
Definition start (f : list item) : rest := mkrest (texts f) (vecs f).

(** A whole number as it is written, in decimal *)
Definition written (s : str) (n : Z) : Prop :=
  exists d, d <> [] /\ (forall c, In c d -> is_digit c) /\ ((s = d /\ n = dec_val d) \/ (s = "-"%char :: d /\ n = (- dec_val d)%Z)).
