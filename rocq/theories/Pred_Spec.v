(** What predicates mean. *)
From Coq Require Import Ascii String.
From Verif Require Import Prelude Str_Model Str_Spec Ast_Model Ast_Spec Pred_Model.
Import List.

(** [join d ts]: the texts [ts] one after another, separated by [d] *)
Fixpoint join (d : ascii) (ts : list str) : str :=
  match ts with
  | [] => []
  | [t] => t
  | t :: ts => t ++ d :: join d ts
  end.

(** A comparison: an expression, an operator and an expression. An item: comparisons that must all hold.
    A predicate: items of which one must hold. *)
Definition comparison : Type := tree * str * tree.
Definition word_text (t : tree) : str := join ":" (level_order t).
Definition cmp_text (c : comparison) : str := let '(l, op, r) := c in word_text l ++ op ++ word_text r.
Definition item_text (cs : list comparison) : str := join "&" (map cmp_text cs).
Definition pred_text (items : list (list comparison)) : str := join "," (map item_text items).

(** The meaning of the tokens when the variables [names] have the values [vals] *)
Inductive vmeaning {V} (A : arith V) (value : str -> V) (names : list str) (vals : list V) : str -> list V -> V -> Prop :=
| vm_var i l v : nth_error names i = Some l -> nth_error vals i = Some v -> vmeaning A value names vals l [] v
| vm_tok l vs v : ~ In l names -> meaning A value l vs v -> vmeaning A value names vals l vs v.

(** [op_true op x y]: the comparison holds *)
Definition op_true {V} (C : cmps V) (op : str) (x y : V) : Prop :=
  (op = lit "==" /\ c_eq C x y = true) \/ (op = lit "!=" /\ c_eq C x y = false) \/
  (op = lit "<" /\ c_lt C x y = true) \/ (op = lit ">" /\ c_lt C y x = true) \/
  (op = lit "<=" /\ c_le C x y = true) \/ (op = lit ">=" /\ c_le C y x = true) \/
  (op = lit "%%" /\ exists a b, c_size C x = Ok a /\ c_size C y = Ok b /\ (b | a)%Z).
(** [op_defined op x y]: the comparison makes sense *)
Definition op_defined {V} (C : cmps V) (op : str) (x y : V) : Prop :=
  In op (map lit ["=="; "!="; "<"; ">"; "<="; ">="]%string) \/
  (op = lit "%%" /\ exists a b, c_size C x = Ok a /\ c_size C y = Ok b /\ b <> 0%Z).

(** [contains p s]: the text [p] occurs in [s] *)
Definition contains (p s : str) : Prop := exists i, occurs_at p s i.

(** Names of variables and values that can be put in place of them: no name has a character that separates
    or compares, the names are distinct, and no value contains a name when it is written; reading a
    written value gives the value. *)
Record good_vars {V} (C : cmps V) (value : str -> V) (names : list str) (vals : list V) : Prop := {
  gv_length : List.length names = List.length vals;
  gv_chars : forall n c, In n names -> In c n -> ~ In c (lit ":,&=!<>%@");
  gv_nonempty : ~ In [] names;
  gv_distinct : NoDup names;
  gv_values : forall n v, In n names -> In v vals -> ~ contains n (c_ttos C v);
  gv_read : forall v, In v vals -> real_text (c_ttos C v) /\ value (c_ttos C v) = v }.
(** No name occurs in a longer token of the expression. *)
Definition names_apart (names : list str) (t : tree) : Prop :=
  forall n l, In n names -> In l (level_order t) -> contains n l -> n = l.
