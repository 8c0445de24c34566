(** What canonical expressions mean. *)
From Coq Require Import Ascii String.
From Verif Require Import Prelude Ring Str_Model Str_Spec Ast_Model Ast_Spec Pred_Spec.
Import List.

(** A factor: a number, a number times the imaginary unit, arithmetic in parentheses, or an item *)
Inductive factor := FNum (s : str) | FIm (s : str) | FPar (t : tree) | FItem (s : str).
Definition factor_text (f : factor) : str :=
  match f with
  | FNum s => s
  | FIm s => s ++ lit "i"
  | FPar t => lit "(" ++ word_text t ++ lit ")"
  | FItem s => s
  end.
Definition term_text (fs : list factor) : str := join "*" (map factor_text fs).
Definition expr_text (ts : list (list factor)) : str := join "+" (map term_text ts).

(** Numbers: digits and points, with a minus sign only when they come first in a term *)
Definition plain_num (s : str) : Prop := (forall c, In c s -> is_digit c \/ c = "."%char) /\ (exists c, In c s /\ is_digit c).
Definition num_text (first : bool) (s : str) : Prop := plain_num s \/ (first = true /\ exists s', s = "-"%char :: s' /\ plain_num s').
(** Names of items: some character other than a digit or a point comes before the last one, or the name is
    a single such character and not i. *)
Definition item_name (s : str) : Prop :=
  s <> lit "i" /\ (forall c, In c s -> ~ In c (lit "+*()-@")) /\
  exists p c q, s = p ++ c :: q /\ ~ is_digit c /\ c <> "."%char /\ (q <> [] \/ p = []).
(** In parentheses a minus sign may only come first. *)
Definition par_text (s : str) : Prop := ~ In "-"%char (tl s).

Section Meaning.
  Variable R : cring.
  Variable A : arith R.
  Variable value : str -> R.
  Variable im : option R.
  Variable pi_text : str.
  Context {X : Type}.
  Variable item : str -> res X.

  (** The value of a factor that is not an item *)
  Inductive scalar (first : bool) : factor -> R -> Prop :=
  | sc_num s : num_text first s -> scalar first (FNum s) (value s)
  | sc_i i : im = Some i -> scalar first (FIm []) i
  | sc_im s i : im = Some i -> num_text first s -> scalar first (FIm s) (i * value s)%C
  | sc_par t v : denotes (vmeaning A value [lit "pi"] [value pi_text]) t v -> (Z.of_nat (tsize t) < 2 ^ 64)%Z ->
      names_apart [lit "pi"] t -> par_text (word_text t) -> scalar first (FPar t) v.

  (** A term is the product of its scalars and of its items, in order. *)
  Inductive term_means : bool -> list factor -> R -> list X -> Prop :=
  | tm_nil b : term_means b [] c1 []
  | tm_scalar b f r fs p xs : scalar b f r -> term_means false fs p xs -> term_means b (f :: fs) (r * p)%C xs
  | tm_item b s x fs p xs : item_name s -> item s = Ok x -> term_means false fs p xs -> term_means b (FItem s :: fs) p (x :: xs).
End Meaning.
