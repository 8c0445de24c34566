(** Model of src/InputNg.h for inputs that are not in the Ainur format.
    The type InputCheckType is a parameter of the class; its three functions are
    parameters here ([chk_label], [chk_text], [chk_vec]), without a state of their own. *)
From Coq Require Import Ascii String.
From Verif Require Import Prelude Ring Str_Model Text_Model Dense_Model.
Import List.

(** std::string::operator< : characters are compared as unsigned char. *)
Fixpoint str_ltb (a b : str) : bool :=
  match a, b with
  | _, [] => false
  | [], _ :: _ => true
  | x :: a', y :: b' =>
    if (N_of_ascii x <? N_of_ascii y)%N then true
    else if (N_of_ascii y <? N_of_ascii x)%N then false
    else str_ltb a' b'
  end.

Definition at_ : ascii := "@"%char.
Definition nlc : ascii := ascii_of_nat 10.
Definition tabc : ascii := ascii_of_nat 9.
Definition spc : ascii := " "%char.

(** std::string::c_str() as the source of another string: up to the first zero. *)
Fixpoint c_str (s : str) : str :=
  match s with
  | [] => []
  | c :: s' => if Ascii.eqb c zero then [] else c :: c_str s'
  end.

(** MyCompare::mysplit: src/InputNg.h:126-146. atoi is PsimagLite::atoi; the int becomes a SizeType. *)
Fixpoint mysplit_loop (x : str) (second : bool) (xfirst xsecond : str) : str * str :=
  match x with
  | [] => (xfirst, xsecond)
  | c :: x' =>
    if Ascii.eqb c at_ then mysplit_loop x' true xfirst xsecond
    else if second then mysplit_loop x' second xfirst (xsecond ++ [c])
    else mysplit_loop x' second (xfirst ++ [c]) xsecond
  end.
Definition mysplit (x : str) : res (str * Z) :=
  let '(xfirst, xsecond) := mysplit_loop x false [] [] in
  match xsecond with
  | [] => Ok (xfirst, 0%Z)
  | _ => do n <- atoi (c_str xsecond) ;; Ok (xfirst, (n mod 18446744073709551616)%Z)
  end.

(** MyCompare::operator(): src/InputNg.h:111-124 *)
Definition mycompare (x1 x2 : str) : res bool :=
  do (f1, s1) <- mysplit x1 ;;
  do (f2, s2) <- mysplit x2 ;;
  Ok (if (s1 =? 0)%Z && (s2 =? 0)%Z then str_ltb x1 x2
      else if (s1 =? 0)%Z then true
      else if (s2 =? 0)%Z then false
      else if negb (str_eqb f1 f2) then str_ltb x1 x2
      else (s1 <? s2)%Z).

(** std::map<String, V, MyCompare>: the list of its entries in order.
    [map_put m k v] is m[k] = v; the search is linear here. *)
Fixpoint map_put {V} (m : list (str * V)) (k : str) (v : V) : res (list (str * V)) :=
  match m with
  | [] => Ok [(k, v)]
  | (k', v') :: r =>
    do lt <- mycompare k' k ;;
    if lt : bool then do r <- map_put r k v ;; Ok ((k', v') :: r)
    else do gt <- mycompare k k' ;;
    if gt : bool then Ok ((k, v) :: m) else Ok ((k', v) :: r)
  end.

(** Writeable::readFile: src/InputNg.h:225-241. [fin.get(c)] leaves c alone at the end of the file. *)
Fixpoint readFile_loop (file : str) (c : ascii) (data : str) : str :=
  match file with
  | [] => data ++ [c]
  | x :: file' => readFile_loop file' x (data ++ [x])
  end.
Definition readFile (data : str) (file : option str) : res str :=
  match file with
  | None => Throw
  | Some file => Ok (readFile_loop file zero data)
  end.

(** splitIntoLines: src/InputNg.h:290-305 *)
Fixpoint split_lines (data buffer : str) (vlines : list str) : list str :=
  match data with
  | [] => vlines ++ [buffer]
  | c :: data' =>
    if Ascii.eqb c nlc then split_lines data' [] (vlines ++ [buffer])
    else split_lines data' (buffer ++ [c]) vlines
  end.
Definition splitIntoLines (data : str) : list str := split_lines data [] [].

(** The loops of replaceLine: up to the first character for which [stop]; what is left
    starts with that character. *)
Fixpoint until (stop : ascii -> bool) (line buf : str) : str * str :=
  match line with
  | [] => (buf, [])
  | c :: line' => if stop c then (buf, line) else until stop line' (buf ++ [c])
  end.

(** replaceLine: src/InputNg.h:314-366. An index over the end of the line gives an empty rest. *)
Definition replaceLine (ainurMode : bool) (line : str) : res str :=
  match line with
  | [] => Ok (line ++ [nlc])
  | c0 :: line1 =>
    if negb (Ascii.eqb c0 "!") then Ok (line ++ [nlc]) else
    let '(a, r) := until (fun c => Ascii.eqb c "$") line1 [] in
    match tl r with
    | [] => Throw
    | c :: r =>
      if negb (Ascii.eqb c "i") then Throw else
      let '(b, r) := until (fun c => Ascii.eqb c spc || Ascii.eqb c tabc) r [] in
      let rest := tl r in
      match rest with
      | [] => Throw
      | _ =>
        do tokens <- str_split (S (List.length rest)) [] rest (lit " ") ;;
        forM (List.length tokens) 0 (fun i newline =>
          do t <- vget tokens i ;;
          Ok (newline ++ a ++ print_nat i ++ b ++ lit "=" ++ t ++ (if ainurMode then lit ";" else []) ++ [nlc])) []
      end
    end
  end.

(** changeDataIfNeeded: src/InputNg.h:278-288 *)
Definition changeDataIfNeeded (ainurMode : bool) (data : str) : res str :=
  let vlines := splitIntoLines data in
  forM (List.length vlines) 0
    (fun i data => do thisline <- vget vlines i ;; do s <- replaceLine ainurMode thisline ;; Ok (data ++ s)) [].

(** src/InputNg.h:157-172 *)
Inductive ctype := WHITESPACE | ENDOFLINE | EQUALSIGN | ALPHA_CHAR | NUMERIC_CHAR | COMMENT.
Inductive pstate := IN_LABEL | IN_VALUE_OR_LABEL | IN_VALUE_TEXT | IN_VALUE_NUMERIC | IN_COMMENT.

(** findTypeOf: src/InputNg.h:472-489 *)
Definition findTypeOf (c : ascii) : ctype :=
  if Ascii.eqb c nlc then ENDOFLINE
  else if Ascii.eqb c spc || Ascii.eqb c tabc then WHITESPACE
  else if Ascii.eqb c "=" then EQUALSIGN
  else if (48 <=? N_of_ascii c)%N && (N_of_ascii c <=? 58)%N then NUMERIC_CHAR
  else if Ascii.eqb c "." || Ascii.eqb c "+" || Ascii.eqb c "-" then NUMERIC_CHAR
  else if Ascii.eqb c "(" || Ascii.eqb c ")" || Ascii.eqb c "," then NUMERIC_CHAR
  else if Ascii.eqb c "#" then COMMENT
  else ALPHA_CHAR.

(** findRootLabel: src/InputNg.h:1114-1124 *)
Definition findRootLabel (label : str) : str := fst (until (fun c => Ascii.eqb c at_) label []).

(** findLastOccurrence: src/InputNg.h:537-550 *)
Definition findLastOccurrence {V} (root1 : str) (m : list (str * V)) : Z :=
  fold_left (fun x e => if str_eqb root1 (findRootLabel (fst e)) then (x + 1)%Z else x) m (-1)%Z.

(** adjLabelForDuplicates: src/InputNg.h:522-535; also the new labelsForRemoval_. *)
Definition adjLabelForDuplicates {V} (label : str) (m : list (str * V)) (removal : list str) : str * list str :=
  let rootLabel := findRootLabel label in
  let x := findLastOccurrence rootLabel m in
  if (x <? 0)%Z then (label, removal)
  else (rootLabel ++ [at_] ++ print_Z (x + 1), removal ++ [rootLabel]).

(** The parts of Writeable that parseInternal changes: src/InputNg.h:567-579 *)
Record pst := mkpst {
  p_line : nat; p_state : pstate; p_num : list str; p_last : str;
  p_ss : list (str * str); p_sv : list (str * list str); p_rem : list str }.

Definition set_state (p : pst) (s : pstate) : pst :=
  mkpst (p_line p) s (p_num p) (p_last p) (p_ss p) (p_sv p) (p_rem p).

Section Check.
  Variable chk_label : str -> nat -> res unit.
  Variable chk_text : str -> str -> nat -> res unit.
  Variable chk_vec : str -> list str -> nat -> res bool.

  (** saveBuffer: src/InputNg.h:429-470; [eq] when whatchar is EQUALSIGN *)
  Definition saveBuffer (p : pst) (buffer : str) (eq : bool) : res pst :=
    match p_state p with
    | IN_LABEL =>
      do _ <- chk_label buffer (p_line p) ;;
      Ok (mkpst (p_line p) (if eq then IN_VALUE_TEXT else IN_VALUE_NUMERIC) (p_num p) buffer (p_ss p) (p_sv p) (p_rem p))
    | IN_VALUE_OR_LABEL => Ok p
    | IN_VALUE_TEXT =>
      let '(adjLabel, removal) := adjLabelForDuplicates (p_last p) (p_ss p) (p_rem p) in
      do ss <- map_put (p_ss p) adjLabel buffer ;;
      do _ <- chk_text adjLabel buffer (p_line p) ;;
      Ok (mkpst (p_line p) IN_LABEL (p_num p) (p_last p) ss (p_sv p) removal)
    | IN_VALUE_NUMERIC =>
      Ok (mkpst (p_line p) IN_VALUE_OR_LABEL (p_num p ++ [buffer]) (p_last p) (p_ss p) (p_sv p) (p_rem p))
    | IN_COMMENT => Ok p
    end.

  (** checkNumbers: src/InputNg.h:491-520 *)
  Definition checkNumbers (p : pst) : res pst :=
    match p_num p with
    | [] => Throw
    | [_] => Throw
    | n0 :: _ =>
      do adjExpected <- atoi (c_str n0) ;;
      do ok <- chk_vec (p_last p) (p_num p) (p_line p) ;;
      if negb ok && negb (Z.of_nat (List.length (p_num p)) mod 18446744073709551616 =? (adjExpected + 1) mod 18446744073709551616)%Z then Throw
      else
        let '(adjLabel, removal) := adjLabelForDuplicates (p_last p) (p_sv p) (p_rem p) in
        do sv <- map_put (p_sv p) adjLabel (p_num p) ;;
        Ok (mkpst (p_line p) (p_state p) (p_num p) (p_last p) (p_ss p) sv removal)
    end.

  (** One step of the loop of parseInternal: src/InputNg.h:371-424 *)
  Definition parse_char (pb : pst * str) (c : ascii) : res (pst * str) :=
    let '(p, buffer) := pb in
    let type := findTypeOf c in
    match p_state p, type with
    | IN_COMMENT, ENDOFLINE =>
      Ok (mkpst (S (p_line p)) IN_LABEL (p_num p) (p_last p) (p_ss p) (p_sv p) (p_rem p), buffer)
    | IN_COMMENT, _ => Ok (p, buffer)
    | _, ENDOFLINE =>
      let p := mkpst (S (p_line p)) (p_state p) (p_num p) (p_last p) (p_ss p) (p_sv p) (p_rem p) in
      match buffer with
      | [] => Ok (p, buffer)
      | _ => do p <- saveBuffer p buffer false ;; Ok (p, [])
      end
    | _, WHITESPACE =>
      match buffer with
      | [] => Ok (p, buffer)
      | _ => do p <- saveBuffer p buffer false ;; Ok (p, [])
      end
    | st, EQUALSIGN =>
      match buffer with
      | [] => Ok (p, buffer)
      | _ =>
        match st with
        | IN_VALUE_TEXT => Ok (p, buffer ++ [c])
        | _ => do p <- saveBuffer p buffer true ;; Ok (p, [])
        end
      end
    | _, COMMENT => Ok (set_state p IN_COMMENT, buffer)
    | IN_VALUE_OR_LABEL, ALPHA_CHAR =>
      do p <- checkNumbers p ;;
      Ok (mkpst (p_line p) IN_LABEL [] (p_last p) (p_ss p) (p_sv p) (p_rem p), buffer ++ [c])
    | IN_VALUE_OR_LABEL, _ => Ok (set_state p IN_VALUE_NUMERIC, buffer ++ [c])
    | _, _ => Ok (p, buffer ++ [c])
    end.

  Fixpoint parse_chars (pb : pst * str) (data : str) : res (pst * str) :=
    match data with
    | [] => Ok pb
    | c :: data' => do pb <- parse_char pb c ;; parse_chars pb data'
    end.

  (** parseInternal: src/InputNg.h:368-427 *)
  Definition p_init : pst := mkpst 0 IN_LABEL [] [] [] [] [].
  Definition parseInternal (data : str) : res pst :=
    do (p, _) <- parse_chars (p_init, []) data ;;
    match p_num p with
    | [] => Ok p
    | _ => checkNumbers p
    end.

  (** The constructors of Writeable, internal and changeAndParse: src/InputNg.h:178-206, 245-276;
      the Ainur format is not modelled. *)
  Definition isAinurText (data : str) : bool :=
    match data with
    | c1 :: c2 :: _ :: _ => Ascii.eqb c1 "#" && Ascii.eqb c2 "#"
    | _ => false
    end.
  Definition writeable_data (data : str) : res pst :=
    if isAinurText data then UB else
    do data <- changeDataIfNeeded false data ;;
    parseInternal data.
  Definition writeable_file (file : option str) : res pst :=
    do data <- readFile [] file ;;
    writeable_data data.
End Check.

(** Readable: the maps and labelsForRemoval_, src/InputNg.h:1096-1111 *)
Record rst := mkrst { r_ss : list (str * str); r_sv : list (str * list str); r_rem : list str }.
Definition readable (p : pst) : rst := mkrst (p_ss p) (p_sv p) (p_rem p).

(** label2label: src/InputNg.h:959-970 *)
Definition label2label (label : str) : res str :=
  match label with
  | [] => Throw
  | _ =>
    let len := List.length label in
    do c <- vget label (len - 1) ;;
    let len := if Ascii.eqb c "=" then (len - 1)%nat else len in
    Ok (firstn len label)
  end.

(** findFirstValueForLabel: src/InputNg.h:972-985; the position of the entry *)
Definition findFirstValueForLabel {V} (label : str) (m : list (str * V)) : option nat :=
  find_idx (fun e => str_eqb label (findRootLabel (fst e))) m.

Definition erase_at {A} (l : list A) (i : nat) : list A := firstn i l ++ skipn (S i) l.

(** cleanLabelsIfNeeded: src/InputNg.h:943-957. Erasing at end() is undefined. *)
Definition cleanLabelsIfNeeded {V} (label : str) (m : list (str * V)) (it : nat) (removal : list str) (forceRemoval : bool)
    : res (list (str * V) * list str) :=
  match find_idx (str_eqb label) removal with
  | Some it2 => Ok (erase_at m it, erase_at removal it2)
  | None => if forceRemoval then UB else Ok (m, removal)
  end.

(** readline into a String: src/InputNg.h:652-678 *)
Definition readline (r : rst) (label : str) (clean forceRemoval : bool) : res (str * rst) :=
  do label2 <- label2label label ;;
  match findFirstValueForLabel label2 (r_ss r) with
  | None => Throw
  | Some it =>
    do (_, v) <- vget (r_ss r) it ;;
    if clean then
      do (m, rem) <- cleanLabelsIfNeeded label2 (r_ss r) it (r_rem r) forceRemoval ;;
      Ok (c_str v, mkrst m (r_sv r) rem)
    else Ok (c_str v, r)
  end.

(** readline into an int: src/InputNg.h:752-774 (and 704-726 for long) *)
Definition readline_int (r : rst) (label : str) : res (Z * rst) :=
  do label2 <- label2label label ;;
  match findFirstValueForLabel label2 (r_ss r) with
  | None => Throw
  | Some it =>
    do (_, v) <- vget (r_ss r) it ;;
    do n <- atoi (c_str v) ;;
    do (m, rem) <- cleanLabelsIfNeeded label2 (r_ss r) it (r_rem r) false ;;
    Ok (n, mkrst m (r_sv r) rem)
  end.

(** read of a vector of strings: src/InputNg.h:792-815, with stringToComplexOrReal, 1031-1036 *)
Definition read_strings (r : rst) (label : str) (val : list str) : res (list str * rst) :=
  do label2 <- label2label label ;;
  match findFirstValueForLabel label2 (r_sv r) with
  | None => Throw
  | Some it =>
    do (_, v) <- vget (r_sv r) it ;;
    let len := List.length v in
    guard (1 <? len)%nat ;;
    do val <- forM (len - 1) 0 (fun i val => do s <- vget v (i + 1) ;; vset val i (c_str s)) (vresize val (len - 1) []) ;;
    do (m, rem) <- cleanLabelsIfNeeded label2 (r_sv r) it (r_rem r) false ;;
    Ok (val, mkrst (r_ss r) m rem)
  end.

(** stringToReal: src/InputNg.h:1038-1054; atof: src/PsimagLite.cpp:110-117. [std_atof] stands for
    std::atof. *)
Definition real_chr (c : ascii) : bool :=
  isdigit c || Ascii.eqb c "." || Ascii.eqb c "-" || Ascii.eqb c "+" || Ascii.eqb c "e" || Ascii.eqb c "E".

Section Reals.
  Variable R : cring.
  Variable std_atof : str -> R.

  Definition atof (s : str) : res R := if isAfloat s then Ok (std_atof s) else Throw.
  Definition stringToReal (s : str) : res R := if forallb real_chr s then atof (c_str s) else Throw.

  (** read of a vector of reals: src/InputNg.h:792-815, with stringToComplexOrReal, 1020-1029 *)
  Definition read_reals (r : rst) (label : str) (val : list R) : res (list R * rst) :=
    do label2 <- label2label label ;;
    match findFirstValueForLabel label2 (r_sv r) with
    | None => Throw
    | Some it =>
      do (_, v) <- vget (r_sv r) it ;;
      let len := List.length v in
      guard (1 <? len)%nat ;;
      do val <- forM (len - 1) 0 (fun i val => do s <- vget v (i + 1) ;; do x <- stringToReal (c_str s) ;; vset val i x)
                  (vresize val (len - 1) c0) ;;
      do (m, rem) <- cleanLabelsIfNeeded label2 (r_sv r) it (r_rem r) false ;;
      Ok (val, mkrst (r_ss r) m rem)
    end.

  (** read of a matrix: src/InputNg.h:817-858. The overflow of nrow*ncol is not modelled. *)
  Definition read_matrix (r : rst) (label : str) (m : mat R) : res (mat R * rst) :=
    do label2 <- label2label label ;;
    match findFirstValueForLabel label2 (r_sv r) with
    | None => Throw
    | Some it =>
      do (_, v) <- vget (r_sv r) it ;;
      do v0 <- vget v 0 ;; do n0 <- atoi (c_str v0) ;;
      do v1 <- vget v 1 ;; do n1 <- atoi (c_str v1) ;;
      if (List.length v <? 2)%nat || (n0 <=? 0)%Z || (n1 <=? 0)%Z then Throw else
      let nrow := Z.to_nat n0 in
      let ncol := Z.to_nat n1 in
      do m <- mat_resize R m nrow ncol ;;
      if (List.length v <? 2 + nrow * ncol)%nat then Throw else
      do (m, _) <- forM nrow 0 (fun i mk => forM ncol 0 (fun j '(m, k) =>
        do s <- vget v k ;;
        do x <- atof (c_str s) ;;
        do m <- mset R m i j x ;; Ok (m, S k)) mk) (m, 2%nat) ;;
      do (sv, rem) <- cleanLabelsIfNeeded label2 (r_sv r) it (r_rem r) false ;;
      Ok (m, mkrst (r_ss r) sv rem)
    end.
End Reals.
