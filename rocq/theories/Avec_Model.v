(** Model of the conversion of Ainur values to vectors, matrices and complex numbers:
    src/Ainur/AinurConvert1.cpp and src/Ainur/AinurComplex.hh. An exception leaves the vector or matrix partly
    changed; what it leaves is not modelled. *)
From Coq Require Import Ascii String.
From Verif Require Import Prelude Ring Str_Model Text_Model Input_Model Ainur_Model Strc_Model.
Import List.

(** ** The grammar (boost spirit, with qi::space as skipper, which skips white space before each character) *)
(** A literal character: the rest of the text, or failure *)
Definition p_lit (c : ascii) (s : str) : option str :=
  match skipws s with
  | x :: r => if Ascii.eqb x c then Some r else None
  | [] => None
  end.
(** char_(",[]"): src/Ainur/AinurConvert1.cpp:17 *)
Definition special (c : ascii) : bool := Ascii.eqb c "," || Ascii.eqb c "[" || Ascii.eqb c "]".
(** +~char_(",[]"): src/Ainur/AinurConvert1.cpp:17; at least one character *)
Fixpoint p_item_loop (s acc : str) : str * str :=
  match s with
  | [] => (acc, [])
  | c :: r => if isspace c then p_item_loop r acc else if special c then (acc, s) else p_item_loop r (acc ++ [c])
  end.
Definition p_item (s : str) : option (str * str) :=
  match p_item_loop s [] with
  | ([], _) => None
  | x => Some x
  end.
(** The list operator %: after the first element, as many times as possible a comma and an element. [fuel] bounds
    the number of elements; the length of the text is enough. *)
Fixpoint p_more {A} (p : str -> option (A * str)) (fuel : nat) (s : str) (acc : list A) : list A * str :=
  match fuel with
  | 0 => (acc, s)
  | S fuel =>
    match p_lit "," s with
    | None => (acc, s)
    | Some r => match p r with None => (acc, s) | Some (a, r) => p_more p fuel r (acc ++ [a]) end
    end
  end.
Definition p_list {A} (p : str -> option (A * str)) (s : str) : option (list A * str) :=
  match p s with
  | None => None
  | Some (a, r) => Some (p_more p (List.length r) r [a])
  end.
(** ruleRows: src/Ainur/AinurConvert1.cpp:11-19 *)
Definition p_row (s : str) : option (list str * str) :=
  match p_lit "[" s with
  | None => None
  | Some s =>
    match p_list p_item s with
    | None => None
    | Some (l, s) => match p_lit "]" s with None => None | Some s => Some (l, s) end
    end
  end.
(** full: src/Ainur/AinurConvert1.cpp:93; the unary minus is "optional" *)
Definition p_matrix (s : str) : option (list (list str) * str) :=
  match p_lit "[" s with
  | None => None
  | Some s =>
    let '(l, s) := match p_list p_row s with None => ([], s) | Some x => x end in
    match p_lit "]" s with None => None | Some s => Some (l, s) end
  end.

(** Matrix<T>: src/Matrix.h, nrow_, ncol_ and data_ *)
Record amat (T : Type) := mkam { am_nrow : nat; am_ncol : nat; am_data : list T }.
Arguments mkam {T} _ _ _. Arguments am_nrow {T} _. Arguments am_ncol {T} _. Arguments am_data {T} _.

Section Convert.
  (** AinurFunction::operator(), see Ainur_Model.v *)
  Variable apply : str -> str -> res str.
  Variable funcs : list str.
  Context {T : Type}.
  (** T() and AinurComplex::convert(t, str) *)
  Variable dflt : T.
  Variable conv : str -> res T.

  (** t_[i] = t_[0] for i = 1, ..., m - 1: src/Ainur/AinurConvert1.cpp:52-53, 65-66 *)
  Definition copy_first (m : nat) (t : list T) : res (list T) :=
    forR 1 m (fun i t => do x <- vget t 0 ;; vset t i x) t.

  (** Action: src/Ainur/AinurConvert1.cpp:42-75. The int atoi returns becomes a SizeType; a negative one is then
      larger than max_size() and resize throws. Running out of memory is not modelled. *)
  Definition av_action (t : list T) (attr : list str) : res (list T) :=
    let n := List.length attr in
    let a0 := nth 0 attr [] in
    let a1 := nth 1 attr [] in
    if Nat.eqb n 2 && str_eqb a1 (lit "...") then
      let m := List.length t in
      if Nat.eqb m 0 then Throw
      else
        do x <- conv a0 ;;
        do t <- vset t 0 x ;;
        copy_first m t
    else if Nat.eqb n 2 && Nat.ltb 4 (List.length a1) && str_eqb (firstn 4 a1) (lit "...x") then
      do mm <- atoi (skipn 4 a1) ;;
      if (mm <? 0)%Z then Throw
      else
        let mm := Z.to_nat mm in
        let t := vresize t mm dflt in
        guard (Nat.ltb 0 mm) ;;
        do x <- conv a0 ;;
        do t <- vset t 0 x ;;
        copy_first mm t
    else
      forM n 0 (fun i t =>
        do a <- vget attr i ;;
        do val <- valueFromFunction apply funcs a ;;
        do x <- conv val ;;
        vset t i x) (vresize t n dflt).

  (** convert to a vector: src/Ainur/AinurConvert1.cpp:107-135; what follows the closing bracket only gives a warning *)
  Definition convert_vector (t : list T) (value : str) : res (list T) :=
    match p_row value with
    | None => Throw
    | Some (attr, _) => av_action t attr
    end.

  (** resize: src/Matrix.h:292-301 *)
  Definition am_resize (t : amat T) (nrow ncol : nat) : res (amat T) :=
    if Nat.ltb 0 (am_nrow t) && negb (Nat.eqb (am_nrow t) nrow) then Throw
    else Ok (mkam nrow ncol (vresize (am_data t) (nrow * ncol) dflt)).
  (** operator(): src/Matrix.h:266-278 *)
  Definition am_get (t : amat T) (i j : nat) : res T :=
    guard (Nat.ltb i (am_nrow t) && Nat.ltb j (am_ncol t)) ;; vget (am_data t) (i + j * am_nrow t).
  Definition am_set (t : amat T) (i j : nat) (x : T) : res (amat T) :=
    guard (Nat.ltb i (am_nrow t) && Nat.ltb j (am_ncol t)) ;;
    do d <- vset (am_data t) (i + j * am_nrow t) x ;; Ok (mkam (am_nrow t) (am_ncol t) d).

  (** ActionMatrix: src/Ainur/AinurConvert1.cpp:21-38 *)
  Definition am_action (t : amat T) (attr : list (list str)) : res (amat T) :=
    let rows := List.length attr in
    if Nat.eqb rows 0 then Ok t
    else
      let cols := List.length (nth 0 attr []) in
      do t <- am_resize t rows cols ;;
      forM rows 0 (fun i t =>
        do row <- vget attr i ;;
        if negb (Nat.eqb (List.length row) cols) then Throw
        else
          forM cols 0 (fun j t =>
            do a <- vget row j ;;
            do val <- valueFromFunction apply funcs a ;;
            do x <- conv val ;;
            am_set t i j x) t) t.

  (** convert to a matrix: src/Ainur/AinurConvert1.cpp:79-105 *)
  Definition convert_matrix (t : amat T) (value : str) : res (amat T) :=
    match p_matrix value with
    | None => Throw
    | Some (attr, _) => am_action t attr
    end.
End Convert.

(** ** Complex numbers *)
Section Complex.
  Variable R : cring.
  (** std::atof *)
  Variable std_atof : str -> R.

  (** The loop of toComplex: src/Ainur/AinurComplex.hh:70-85; the state is flag, real1 and buffer *)
  Fixpoint tc_loop (s : str) (flag : bool) (real1 : R) (buffer : str) : res (bool * R * str) :=
    match s with
    | [] => Ok (flag, real1, buffer)
    | c :: s =>
      if Ascii.eqb c "i" then
        if flag then Throw
        else
          do real1 <- (match buffer with [] => Ok (c0 : R) | _ => atof R std_atof (c_str buffer) end) ;;
          tc_loop s true real1 []
      else tc_loop s flag real1 (buffer ++ [c])
    end.
  (** toComplex: src/Ainur/AinurComplex.hh:57-89; the real and imaginary parts *)
  Definition toComplex (s : str) : res (R * R) :=
    if str_eqb s (lit "i") then Ok (c0, c1)
    else if str_eqb s (lit "-i") then Ok (c0, copp c1)
    else
      do (flag, real1, buffer) <- tc_loop s false c0 [] ;;
      do x <- atof R std_atof (c_str buffer) ;;
      Ok (if flag then (real1, x) else (x, c0)).
End Complex.
