(** Model of src/QuasiCanonical.h and src/CanonicalExpression.h, with the parts of src/CmplxOrReal.h they
    use. [R] is ComplexOrRealType: a commutative ring with the arithmetic of the primitives; [im] is the
    imaginary unit when it is complex. *)
From Coq Require Import Ascii String.
From Verif Require Import Prelude Ring Str_Model Text_Model Ast_Model.
Import List.

(** The loop of the constructor: src/QuasiCanonical.h:24-72. [i] is the position, [temp] is tempBuffer, [isopen]
    says that status is "open", [main] is mainBuffer_. *)
Fixpoint qc_scan (s : str) (i : nat) (temp : str) (isopen : bool) (prev : ascii) (main : str) (ats : list str) : res (str * list str) :=
  match s with
  | [] => if isopen then Throw else Ok (main, ats)
  | c :: s =>
    if Ascii.eqb c "-"%char && (0 <? i) && negb (Ascii.eqb prev "("%char) && negb (Ascii.eqb prev "+"%char) then Throw else
    if Ascii.eqb c "("%char then
      if isopen then Throw else qc_scan s (S i) temp true c main ats
    else if Ascii.eqb c ")"%char then
      if isopen then qc_scan s (S i) [] false c (main ++ lit "@" ++ print_nat (List.length ats) ++ lit "@") (ats ++ [temp])
      else Throw
    else if isopen then qc_scan s (S i) (temp ++ [c]) isopen c main ats
    else qc_scan s (S i) temp isopen c (main ++ [c]) ats
  end.

(** isRealScalar: src/QuasiCanonical.h:135-150 *)
Definition isRealScalar (termStr : str) : res bool :=
  if List.length termStr =? 0 then Throw
  else Ok (forallb (fun c => Ascii.eqb c "."%char || Ascii.eqb c "-"%char || Ascii.eqb c "+"%char || isdigit c) termStr).

(** isPureComplex: src/QuasiCanonical.h:113-123 *)
Definition isPureComplex (t : str) : res bool :=
  if str_eqb t (lit "i") then Ok true else
  let n := List.length t in
  if n <? 2 then Ok false else
  do tmp <- substr t 0 (Some (n - 1)) ;; isRealScalar tmp.

Section Canon.
  Variable R : cring.
  Variable A : arith R.
  (** [std_atof] stands for std::atof, [pi_text] for ttos(M_PI). *)
  Variable std_atof : str -> R.
  Variable im : option R.
  Variable pi_text : str.

  (** atof: src/PsimagLite.cpp:110-117 *)
  Definition cn_atof (s : str) : res R := if isAfloat s then Ok (std_atof s) else Throw.

  (** pureComplex: src/QuasiCanonical.h:125-133, with the constructor and value of CpmlxOrReal:
      src/CmplxOrReal.h:19-47 *)
  Definition pureComplex (t : str) : res R :=
    match im with
    | None => Throw
    | Some im =>
      do (isImag, buffer) <- forL t (fun c '(isImag, buffer) =>
        if Ascii.eqb c "i"%char then if isImag : bool then Throw else Ok (true, buffer)
        else Ok (isImag, buffer ++ [c])) (false, []) ;;
      do v <- (if isImag && str_eqb buffer [] then Ok (c1 : R) else cn_atof buffer) ;;
      Ok (if isImag then (im * v)%C else v)
    end.

  (** simpleArithmetics: src/QuasiCanonical.h:154-167 *)
  Definition simpleArithmetics (fuel : nat) (s : str) : res R :=
    do s <- replaceAll fuel s (lit "pi") pi_text ;;
    do ve <- str_split fuel [] s (lit ":") ;;
    ast_eval (findNodeFromCode A) ve.

  (** QuasiCanonical: terms_ and cachedValues_ (as many as ats_) *)
  Record quasi := mkquasi { q_terms : list str; q_cached : list R }.
  (** The constructor: src/QuasiCanonical.h:24-81 *)
  Definition quasiCanonical (fuel : nat) (s : str) : res quasi :=
    do (main, ats) <- qc_scan s 0 [] false "000"%char [] [] ;;
    do terms <- str_split fuel [] main (lit "+") ;;
    do cached <- forL ats (fun a l => do v <- simpleArithmetics fuel a ;; Ok (l ++ [v])) [] ;;
    Ok (mkquasi terms cached).

  (** scalarIndex: src/QuasiCanonical.h:91-104. The result -1 is None. *)
  Definition scalarIndex (q : quasi) (s : str) : res (option nat) :=
    let len := List.length s in
    if len <? 3 then Ok None else
    if negb (Ascii.eqb (nth 0 s "000"%char) "@"%char) || negb (Ascii.eqb (nth (len - 1) s "000"%char) "@"%char) then Ok None else
    do snumber <- substr s 1 (Some (len - 2)) ;;
    do number <- atoi snumber ;;
    if (number <? 0)%Z then Ok None else
    if (Z.of_nat (List.length (q_cached q)) <=? number)%Z then Ok None else Ok (Some (Z.to_nat number)).

  (** The results: [item] is ItemSpecType::operator(), and the operations of ResultType *)
  Context {X : Type}.
  Variable item : str -> res X.
  Variable isEmpty : X -> bool.
  Variable metaEqual : X -> X -> bool.
  Variable xadd xmul : X -> X -> X.
  Variable xscale : R -> X -> X.

  (** procCanonicalFactor: src/CanonicalExpression.h:151-188, with AssignAndDestroy, 8-47 *)
  Definition procFactor (q : quasi) (termStr : str) (prev : X) (factor : R) : res (X * R) :=
    do isCaScalar <- isRealScalar termStr ;;
    if isCaScalar then do f <- cn_atof termStr ;; Ok (prev, (factor * f)%C) else
    do isPureCmplx <- isPureComplex termStr ;;
    if isPureCmplx then do f <- pureComplex termStr ;; Ok (prev, (factor * f)%C) else
    do ind <- scalarIndex q termStr ;;
    match ind with
    | Some ind => do f <- vget (q_cached q) ind ;; Ok (prev, (factor * f)%C)
    | None =>
      do term <- item termStr ;;
      if isEmpty prev then Ok (term, factor) else
      if negb (metaEqual term prev) then Throw else Ok (xmul prev term, factor)
    end.

  (** procCanonicalTerm: src/CanonicalExpression.h:130-149. The result false is None. *)
  Definition procTerm (fuel : nat) (q : quasi) (ind : nat) (resultEmpty : X) : res (option X) :=
    do termCanonical <- vget (q_terms q) ind ;;
    do vecStr <- str_split fuel [] termCanonical (lit "*") ;;
    do (prev, factor) <- forL vecStr (fun t '(prev, factor) => procFactor q t prev factor) (resultEmpty, c1 : R) ;;
    if isEmpty prev then Ok None else Ok (Some (xscale factor prev)).

  (** operator(): src/CanonicalExpression.h:67-95; what it returns and the new [result] *)
  Definition canonical (fuel : nat) (expr : str) (result resultEmpty : X) : res (bool * X) :=
    do q <- quasiCanonical fuel expr ;;
    do result <- forM (List.length (q_terms q)) 0 (fun i result =>
      do t <- procTerm fuel q i resultEmpty ;;
      match t with
      | None => Ok result
      | Some t =>
        if negb (metaEqual t result) then Throw else
        Ok (if i =? 0 then t else xadd result t)
      end) result ;;
    Ok (negb (isEmpty result), result).
End Canon.
