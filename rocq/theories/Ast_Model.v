(** Model of src/AST. Values have a type [V]; the primitives find a node, which is its number of
    arguments and its function, from a token. *)
From Coq Require Import Ascii String.
From Verif Require Import Prelude Str_Model.
Import List.

(** A node: its number of arguments and what it computes: src/AST/Node.h:26-66 *)
Notation node V := (nat * (list V -> res V))%type.

Section Ast.
  Context {V : Type}.
  Variable find : str -> res (node V).

  (** The first loop of the constructor: src/AST/ExpressionForAST.h:43-56. [sum] is sumOfA, a SizeType. *)
  Fixpoint ast_read (vecStr : list str) (sum : Z) : res (list (node V)) :=
    match vecStr with
    | [] => Ok []
    | cStr :: vecStr' =>
      do n <- find cStr ;;
      let sum := ((sum + (Z.of_nat (fst n) - 1)) mod 18446744073709551616)%Z in
      if (sum =? 0)%Z then Ok [n] else
      do rest <- ast_read vecStr' sum ;; Ok (n :: rest)
    end.

  (** The second loop: src/AST/ExpressionForAST.h:58-71. The descendants of each tree, as indices. Sums of
      numbers of arguments are taken not to overflow. *)
  Fixpoint ast_link (total k : nat) (va : list nat) : list (list nat) :=
    match va with
    | [] => []
    | a :: va' => filter (fun j => j <? total) (seq (k + 1) a) :: ast_link total (k + a) va'
    end.

  (** Tree::exec: src/AST/Tree.h:47-74, of the tree with index [i]. *)
  Fixpoint ast_exec (fuel : nat) (nodes : list (node V)) (desc : list (list nat)) (i : nat) : res V :=
    match fuel with
    | O => OutOfFuel
    | S fuel =>
      do n <- vget nodes i ;;
      do ds <- vget desc i ;;
      do values <- forL ds (fun j values => do x <- ast_exec fuel nodes desc j ;; Ok (values ++ [x])) [] ;;
      snd n values
    end.

  (** The constructor and exec: src/AST/ExpressionForAST.h:36-72, 81-86 *)
  Definition ast_eval (vecStr : list str) : res V :=
    do nodes <- ast_read vecStr 1 ;;
    guard (0 <? List.length nodes) ;;
    let desc := ast_link (List.length nodes) 0 (map fst nodes) in
    ast_exec (List.length nodes) nodes desc 0.
End Ast.

(** What the primitives need to know about ValueType: its arithmetic, the test norm(x) < 1e-6 of
    DividedBy, Modulus::exec, the functions, the condition of TernaryOp, and the reading of a number. *)
Record arith (V : Type) := mkarith {
  a_add : V -> V -> V; a_sub : V -> V -> V; a_mul : V -> V -> V; a_div : V -> V -> V;
  a_small : V -> bool; a_mod : V -> V -> V;
  a_sin : V -> V; a_cos : V -> V; a_log : V -> V; a_exp : V -> V;
  a_true : V -> bool;
  a_input : str -> res V
}.
Arguments a_add {V} a. Arguments a_sub {V} a. Arguments a_mul {V} a. Arguments a_div {V} a.
Arguments a_small {V} a. Arguments a_mod {V} a. Arguments a_sin {V} a. Arguments a_cos {V} a.
Arguments a_log {V} a. Arguments a_exp {V} a. Arguments a_true {V} a. Arguments a_input {V} a.

Section Prims.
  Context {V : Type}.
  Variable A : arith V.

  (** Nodes with two, one and three arguments; assert(v.size() == ...) *)
  Definition node2 (f : V -> V -> V) : node V := (2, fun v => match v with [x; y] => Ok (f x y) | _ => UB end).
  Definition node1 (f : V -> V) : node V := (1, fun v => match v with [x] => Ok (f x) | _ => UB end).
  Definition node3 (f : V -> V -> V -> V) : node V := (3, fun v => match v with [x; y; z] => Ok (f x y z) | _ => UB end).
  (** Input: src/AST/Node.h:201-236 *)
  Definition node0 (x : V) : node V := (0, fun v => match v with [] => Ok x | _ => UB end).

  (** findNodeFromCode: src/AST/PlusMinusMultiplyDivide.h:45-77, 89-109; the nodes: src/AST/Node.h:69-153,
      src/AST/AdditionalFunctions.h:25-154 *)
  Definition findNodeFromCode (code : str) : res (node V) :=
    if str_eqb code (lit "+") then Ok (node2 (a_add A))
    else if str_eqb code (lit "-") then Ok (node2 (a_sub A))
    else if str_eqb code (lit "*") then Ok (node2 (a_mul A))
    else if str_eqb code (lit "/") then Ok (node2 (fun x y => if a_small A y then x else a_div A x y))
    else if str_eqb code (lit "%") then Ok (node2 (a_mod A))
    else if str_eqb code (lit "sin") then Ok (node1 (a_sin A))
    else if str_eqb code (lit "cos") then Ok (node1 (a_cos A))
    else if str_eqb code (lit "log") then Ok (node1 (a_log A))
    else if str_eqb code (lit "exp") then Ok (node1 (a_exp A))
    else if str_eqb code (lit "?") then Ok (node3 (fun x y z => if a_true A x then y else z))
    else do x <- a_input A code ;; Ok (node0 x).
End Prims.

(** setInputRealOrComplex for real numbers: src/AST/PlusMinusMultiplyDivide.h:120-127, with atof,
    src/PsimagLite.cpp:110-117. [std_atof] stands for std::atof. *)
Definition input_real {V} (std_atof : str -> V) (code : str) : res V :=
  if existsb (Ascii.eqb "i"%char) code then Throw
  else if isAfloat code then Ok (std_atof code) else Throw.
