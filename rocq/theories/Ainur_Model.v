(** Model of the variables and macros of Ainur input: src/Ainur/AinurState.h, src/Ainur/AinurMacros.hh and the
    conversions of src/Ainur/AinurConvert.hh to numbers and text. The parser (boost spirit) that calls declare and
    assign, and the conversions to vectors and matrices, are not modelled. *)
From Coq Require Import Ascii String.
From Verif Require Import Prelude Ring Str_Model Text_Model Input_Model.
Import List.

(** AinurVariable: src/Ainur/AinurConvert.hh:9-14 *)
Record avar := mkavar { av_key : str; av_value : str; av_type : str; av_opaque : str }.
(** AinurState: src/Ainur/AinurState.h:321-323; of ainurMacros_ the names in functionNameToIndex_, in the order in
    which they were added (src/Ainur/AinurMacros.hh:264-267) *)
Record astate := mkast { as_vars : list avar; as_used : list nat; as_funcs : list str }.
(** The constructor: src/Ainur/AinurState.h:38-46 *)
Definition as_new : astate := mkast [] [] [].
(** ZERO_CHAR_STRING_ once a state was constructed: src/Ainur/AinurState.h:45 *)
Definition zero_char_string : str := [ascii_of_nat 0].

(** storageIndexByName: src/Ainur/AinurState.h:196-205 *)
Definition storageIndexByName (vars : list avar) (key : str) : option nat := find_idx (fun v => str_eqb (av_key v) key) vars.

(** assign: src/Ainur/AinurState.h:48-60 *)
Definition as_assign (st : astate) (k v : str) : res astate :=
  match storageIndexByName (as_vars st) k with
  | None => Throw
  | Some x =>
    do a <- vget (as_vars st) x ;;
    Ok (mkast (upd (as_vars st) x (mkavar (av_key a) v (av_type a) (av_opaque a))) (as_used st) (as_funcs st))
  end.

(** declare: src/Ainur/AinurState.h:62-80; a type that ends in '!' is stored without it; an empty type fails the assertion *)
Definition as_declare (st : astate) (d key v : str) : res astate :=
  match storageIndexByName (as_vars st) key with
  | Some _ => Throw
  | None =>
    let last := List.length d in
    guard (Nat.ltb 0 last) ;;
    let bang := Nat.ltb 1 last && Ascii.eqb (nth (last - 1) d zero) "!" in
    let u := if bang then 0 else 1 in
    let d := if bang then firstn (last - 1) d else d in
    Ok (mkast (as_vars st ++ [mkavar key v d (lit "NORMAL")]) (as_used st ++ [u]) (as_funcs st))
  end.
(** declare without a value: src/Ainur/AinurState.h:82 *)
Definition as_declare0 (st : astate) (d k : str) : res astate := as_declare st d k zero_char_string.

(** isEmptyValue: src/Ainur/AinurState.h:207-210 *)
Definition isEmptyValue (s : str) : bool := Nat.eqb (List.length s) 0 || str_eqb s zero_char_string.

(** printUnused: src/Ainur/AinurState.h:93-118; the keys that are printed *)
Definition printUnused (st : astate) : res (list str) :=
  if existsb (fun u => Nat.eqb u 0) (as_used st) then
    if Nat.eqb (List.length (as_used st)) (List.length (as_vars st)) then
      Ok (map (fun p => av_key (fst p)) (filter (fun p => Nat.eqb (snd p) 0) (combine (as_vars st) (as_used st))))
    else Throw
  else Ok [].

(** ** Functions read from files *)
(** deleteEnclosing: src/Ainur/AinurMacros.hh:78-101 *)
Definition deleteEnclosing (content : str) (b e : ascii) : str :=
  match content with
  | [] => content
  | c :: _ =>
    let length := List.length content in
    let last := length - 1 in
    let '(start, total) := if Ascii.eqb c b then (1, length - 1) else (0, length) in
    let total := if Nat.ltb 0 last && Ascii.eqb (nth last content zero) e then total - 1 else total in
    firstn total (skipn start content)
  end.

(** The loop of getFunctionNameValue from [i] on: src/Ainur/AinurMacros.hh:236-240; line[line.size()] is the zero char *)
Fixpoint close_open (line : str) (n i : nat) : nat :=
  match n with
  | 0 => i
  | S n => if Ascii.eqb (nth i line zero) ")" && Ascii.eqb (nth (i + 1) line zero) "(" then i else close_open line n (S i)
  end.
(** getFunctionNameValue: src/Ainur/AinurMacros.hh:222-248 *)
Definition getFunctionNameValue (line : str) : str * str :=
  let length := List.length line in
  if Nat.ltb length 4 then (line, [])
  else
    let last := length - 1 in
    if negb (Ascii.eqb (nth 0 line zero) "(") || negb (Ascii.eqb (nth last line zero) ")") then (line, [])
    else
      let i := close_open line (length - 1) 1 in
      if Nat.eqb i length then (line, [])
      else (firstn (i + 1) line, firstn (length - i - 3) (skipn (i + 2) line)).

Definition ainur_from_file : str := lit "AinurFromFile".

Section Functions.
  (** The constructor of AinurFunction (src/Ainur/AinurMacros.hh:27-62, 122-148), which reads a file: does it succeed? *)
  Variable load : str -> bool.
  (** AinurFunction::operator() and std::to_string (src/Ainur/AinurMacros.hh:64-71, 213-214): what the function of
      a name gives for an argument *)
  Variable apply : str -> str -> res str.

  (** addAinurFromFile: src/Ainur/AinurMacros.hh:250-260 *)
  Definition addAinurFromFile (funcs : list str) (content : str) : res (str * list str) :=
    if existsb (str_eqb content) funcs then Ok (content, funcs)
    else if load content then Ok (content, funcs ++ [content]) else Throw.

  (** procNativeMacro: src/Ainur/AinurMacros.hh:173-186 *)
  Definition procNativeMacro (funcs : list str) (line : str) : res (str * list str) :=
    if str_eqb (firstn (List.length ainur_from_file) (skipn 1 line)) ainur_from_file then
      let start := List.length ainur_from_file + 1 in
      guard (Nat.ltb start (List.length line)) ;;
      addAinurFromFile funcs (skipn start line)
    else Throw.

  (** valueFromFunction: src/Ainur/AinurMacros.hh:188-215 *)
  Definition valueFromFunction (funcs : list str) (line : str) : res str :=
    let '(name, value) := getFunctionNameValue line in
    match value with
    | [] => Ok name
    | _ :: _ =>
      if negb (isAfloat value) then Ok line
      else if negb (existsb (str_eqb name) funcs) then Throw
      else
        let argument := deleteEnclosing value "(" ")" in
        if isAfloat argument then apply name argument else Throw
    end.

  (** ** Macros *)
  (** isValidCharForMacroName: src/Ainur/AinurState.h:298-305 *)
  Definition isValidCharForMacroName (c : ascii) : bool :=
    let n := nat_of_ascii c in
    (Nat.ltb 96 n && Nat.ltb n 123) || (Nat.ltb 64 n && Nat.ltb n 91) || (Nat.ltb 47 n && Nat.ltb n 58) || Ascii.eqb c "_".

  (** unquote: src/Ainur/AinurState.h:307-318 *)
  Definition unquote (s : str) : str :=
    match s with
    | [] => s
    | c :: t =>
      let s := if Ascii.eqb c """" then t else s in
      match s with
      | [] => s
      | _ :: _ => if Ascii.eqb (nth (List.length s - 1) s zero) """" then firstn (List.length s - 1) s else s
      end
    end.

  (** The loop of expandOneValue: src/Ainur/AinurState.h:265-292 *)
  Fixpoint expand_loop (vars : list avar) (value : str) (status : bool) (macroName retString : str) (has : bool) : res (bool * str) :=
    match value with
    | [] => Ok (has, unquote retString)
    | c :: value =>
      if Ascii.eqb c "\" then expand_loop vars value true macroName retString has
      else if negb status then expand_loop vars value status macroName (retString ++ [c]) has
      else if isValidCharForMacroName c then expand_loop vars value status (macroName ++ [c]) retString has
      else
        match storageIndexByName vars macroName with
        | None => Throw
        | Some x =>
          do a <- vget vars x ;;
          expand_loop vars value false [] (retString ++ unquote (av_value a) ++ [c]) true
        end
    end.
  (** expandOneValue: src/Ainur/AinurState.h:257-296 *)
  Definition expandOneValue (vars : list avar) (value : str) : res (bool * str) := expand_loop vars value false [] [] false.

  (** expandMacros: src/Ainur/AinurState.h:231-253 *)
  Definition expandMacros (st : astate) : res (bool * astate) :=
    forM (List.length (as_vars st)) 0 (fun i s =>
      let '(any, st) := s in
      do u <- vget (as_used st) i ;;
      if Nat.eqb u 0 then Ok (any, st)
      else
        do a <- vget (as_vars st) i ;;
        do (first, second) <- expandOneValue (as_vars st) (av_value a) ;;
        if negb first then Ok (any, st)
        else
          do (second, funcs) <- (match second with
                                 | "!"%char :: _ => procNativeMacro (as_funcs st) second
                                 | _ => Ok (second, as_funcs st)
                                 end) ;;
          Ok (true, mkast (upd (as_vars st) i (mkavar (av_key a) second (av_type a) (lit "MACRO"))) (as_used st) funcs)) (false, st).

  (** The loop of expandMacrosRecursively, with avoidInfCounter = [counter] and [n] calls left before it throws:
      src/Ainur/AinurState.h:220-229 *)
  Fixpoint expand_rec (n : nat) (st : astate) : res astate :=
    do (more, st) <- expandMacros st ;;
    if more then match n with 0 => Throw | S n => expand_rec n st end else Ok st.
  (** avoidInfCounter++ > 100 is false for 0, ..., 100 *)
  Definition expandMacrosRecursively (st : astate) : res astate := expand_rec 101 st.

  (** initMacros and installNativeMacros: src/Ainur/AinurState.h:84-91, 212-218, src/Ainur/AinurMacros.hh:158-163 *)
  Definition initMacros (st : astate) : res astate :=
    do st <- as_declare st (lit "function") ainur_from_file ("!"%char :: ainur_from_file) ;;
    expandMacrosRecursively st.

  (** ** Reading *)
  (** convert to text: src/Ainur/AinurConvert.hh:102-113 *)
  Definition convert_text (funcs : list str) (a : avar) : res str :=
    do label <- valueFromFunction funcs (av_value a) ;;
    let l := List.length label in
    Ok (if Nat.ltb 1 l && Ascii.eqb (nth 0 label zero) """" && Ascii.eqb (nth (l - 1) label zero) """"
        then firstn (l - 2) (skipn 1 label) else label).
  (** convert to an integer: src/Ainur/AinurConvert.hh:72-86 *)
  Definition convert_int (funcs : list str) (a : avar) : res Z :=
    do label <- valueFromFunction funcs (av_value a) ;; atoi (c_str label).
  (** convert to a real: src/Ainur/AinurConvert.hh:89-100; [std_atof] stands for std::atof *)
  Definition convert_real (R : cring) (std_atof : str -> R) (funcs : list str) (a : avar) : res R :=
    do label <- valueFromFunction funcs (av_value a) ;; atof R std_atof (c_str label).

  (** readValue: src/Ainur/AinurState.h:129-147 *)
  Definition readValue {T} (convert : list str -> avar -> res T) (st : astate) (label : str) : res (T * astate) :=
    match storageIndexByName (as_vars st) label with
    | None => Throw
    | Some x =>
      do a <- vget (as_vars st) x ;;
      if isEmptyValue (av_value a) then Throw
      else
        do t <- convert (as_funcs st) a ;;
        do u <- vget (as_used st) x ;;
        Ok (t, mkast (as_vars st) (upd (as_used st) x (S u)) (as_funcs st))
    end.

  (** setMap on an empty map, for the keys that are used: src/Ainur/AinurState.h:149-160; map[key] = value *)
  Definition setMap (st : astate) : res (list (str * str)) :=
    forM (List.length (as_vars st)) 0 (fun i m =>
      do u <- vget (as_used st) i ;;
      if Nat.eqb u 0 then Ok m
      else do a <- vget (as_vars st) i ;; Ok (m ++ [(av_key a, av_value a)])) [].
End Functions.
