(** Model of the constructor of src/ParametersForSolver.h that reads an input file through InputNg::Readable
    (Input_Model.v, input files that are not Ainur). *)
From Coq Require Import Ascii String.
From Verif Require Import Prelude Ring Str_Model Text_Model Input_Model.
Import List.

(** A reading function io.readline(t, label): the value and the state of the input afterwards, or an exception. An
    exception leaves the state and t as they were, because every readline of InputNg.h (652-774) throws before it
    stores anything. *)
Definition reader (V : Type) := rst -> str -> res (V * rst).

(** readline of a SizeType: src/InputNg.h:728-750; the conversion of a negative int to SizeType wraps around *)
Definition readline_size : reader Z := fun r label =>
  do (n, r) <- readline_int r label ;; Ok ((n mod 18446744073709551616)%Z, r).

(** readline of a real: src/InputNg.h:679-702; [std_atof] stands for std::atof *)
Definition readline_real (R : cring) (std_atof : str -> R) : reader R := fun r label =>
  do label2 <- label2label label ;;
  match findFirstValueForLabel label2 (r_ss r) with
  | None => Throw
  | Some it =>
    do (_, v) <- vget (r_ss r) it ;;
    do x <- atof R std_atof (c_str v) ;;
    do (m, rem) <- cleanLabelsIfNeeded label2 (r_ss r) it (r_rem r) false ;;
    Ok (x, mkrst m (r_sv r) rem)
  end.

(** readline of a String with the default arguments: src/InputNg.h:652 *)
Definition readline_text : reader str := fun r label => readline r label true false.

(** try { io.readline(t, label); return; } catch (std::exception&) { } and then [k] *)
Definition try_read {V} (rd : reader V) (r : rst) (label : str) (k : res (V * rst)) : res (V * rst) :=
  match rd r label with
  | Throw => k
  | x => x
  end.

Definition eqc : str := lit "=".

(** hare: src/ParametersForSolver.h:168-178 *)
Definition hare {V} (rd : reader V) (t : V) (prefix postfix : str) (r : rst) : res (V * rst) :=
  try_read rd r (prefix ++ postfix ++ eqc) (Ok (t, r)).

(** The loop of bunnie from i on, with [n] iterations left: src/ParametersForSolver.h:193-202 *)
Fixpoint bunnie_loop {V} (rd : reader V) (t : V) (prefix : str) (ind : nat) (postfix : str) (r : rst) (n i : nat) : res (V * rst) :=
  match n with
  | 0 => hare rd t prefix postfix r
  | S n =>
    let jnd := ind - i - 1 in
    try_read rd r (prefix ++ print_nat jnd ++ postfix ++ eqc) (bunnie_loop rd t prefix ind postfix r n (S i))
  end.

(** bunnie: src/ParametersForSolver.h:180-205 *)
Definition bunnie {V} (rd : reader V) (t : V) (prefix : str) (ind : nat) (postfix : str) (r : rst) : res (V * rst) :=
  try_read rd r (prefix ++ print_nat ind ++ postfix ++ eqc) (bunnie_loop rd t prefix ind postfix r ind 0).

(** rabbitHole: src/ParametersForSolver.h:157-166 *)
Definition rabbitHole {V} (rd : reader V) (t : V) (prefix : str) (ind : Z) (postfix : str) (r : rst) : res (V * rst) :=
  if (0 <=? ind)%Z then bunnie rd t prefix (Z.to_nat ind) postfix r else hare rd t prefix postfix r.

(** ParametersForSolver: src/ParametersForSolver.h:207-217; weight and isign are not read *)
Record pfs (R : cring) := mkpfs {
  p_steps : Z; p_minSteps : Z; p_tolerance : R; p_stepsForEnergyConvergence : Z; p_eigsForStop : Z;
  p_options : str; p_oneOverA : R; p_b : R; p_Eg : R; p_lotaMemory : bool }.

(** Constructor: src/ParametersForSolver.h:119-155; [eps0] stands for the default 1e-12 of the tolerance *)
Definition pfs_new (R : cring) (std_atof : str -> R) (eps0 : R) (r : rst) (prefix : str) (ind : Z) : res (pfs R * rst) :=
  do (steps, r) <- rabbitHole readline_size 200%Z prefix ind (lit "Steps") r ;;
  do (minSteps, r) <- rabbitHole readline_size 4%Z prefix ind (lit "MinSteps") r ;;
  do (tol, r) <- rabbitHole (readline_real R std_atof) eps0 prefix ind (lit "Eps") r ;;
  do (conv, r) <- rabbitHole readline_size 1000000%Z prefix ind (lit "StepsForEnergyConvergence") r ;;
  do (eigs, r) <- rabbitHole readline_size 1%Z prefix ind (lit "EigsForStop") r ;;
  do (opts, r) <- rabbitHole readline_text (lit "none") prefix ind (lit "Options") r ;;
  do (oneOverA, r) <- rabbitHole (readline_real R std_atof) c0 prefix ind (lit "OneOverA") r ;;
  do (b, r) <- rabbitHole (readline_real R std_atof) c0 prefix ind (lit "B") r ;;
  do (Eg, r) <- rabbitHole (readline_real R std_atof) c0 prefix ind (lit "Energy") r ;;
  do (x, r) <- rabbitHole readline_int 0%Z prefix ind (lit "NoSaveLanczosVectors") r ;;
  Ok (mkpfs R steps minSteps tol conv eigs opts oneOverA b Eg (negb (0 <? x)%Z), r).
