(** Model of the functions an Ainur input can read from a file: AinurFunction of src/Ainur/AinurMacros.hh. *)
From Coq Require Import Ascii String.
From Verif Require Import Prelude Str_Model Input_Model Ainur_Model.
Import List.

(** MAX_LINE: src/Ainur/AinurMacros.hh:23 *)
Definition MAX_LINE : nat := 2048.

(** What fin.getline(s, MAX_LINE) does to a stream that is good: the line, what is left, and the state afterwards.
    At most MAX_LINE - 1 characters are stored; if the line is longer, the stream fails. *)
Inductive sstate := SGood | SEof | SFail.
Fixpoint getline (room : nat) (s : str) : str * str * sstate :=
  match s with
  | [] => ([], [], SEof)
  | c :: r =>
    if Ascii.eqb c nlc then ([], r, SGood)
    else match room with
         | 0 => ([], s, SFail)
         | S room => let '(l, r, st) := getline room r in (c :: l, r, st)
         end
  end.

(** emptyLine: src/Ainur/AinurMacros.hh:118-126 *)
Fixpoint emptyLine (s : str) : bool :=
  match s with
  | [] => true
  | c :: s => if negb (Ascii.eqb c " ") || negb (Nat.eqb (nat_of_ascii c) 9) then false else emptyLine s
  end.

(** setSeparatorForSplit: src/Ainur/AinurMacros.hh:105-116; the result is stored and not used *)
Definition setSeparatorForSplit (separator : str) : res str :=
  if str_eqb separator (lit "space") then Ok (lit " ")
  else if str_eqb separator (lit "comma") then Ok (lit ",")
  else Throw.

(** An int that becomes a SizeType *)
Definition to_size (z : Z) : Z := if (z <? 0)%Z then (z + 2 ^ 64)%Z else z.

Section Afun.
  (** double, std::atof, == and std::to_string *)
  Context {D : Type}.
  Variable std_atof : str -> D.
  Variable deqb : D -> D -> bool.
  Variable to_string : D -> str.
  (** The content of the files that can be opened *)
  Variable files : str -> option str.

  (** tokens[column] with its check, for both columns: src/Ainur/AinurMacros.hh:139-144. PsimagLite::atof throws if
      its argument is no number. *)
  Definition line_pair (columnX columnY : Z) (tokens : list str) : res (D * D) :=
    let n := Z.of_nat (List.length tokens) in
    if (n <? columnX)%Z || (n <? columnY)%Z then Throw
    else
      do tx <- vget tokens (Z.to_nat columnX) ;;
      do vx <- (if isAfloat tx then Ok (std_atof tx) else Throw) ;;
      do ty <- vget tokens (Z.to_nat columnY) ;;
      do vy <- (if isAfloat ty then Ok (std_atof ty) else Throw) ;;
      Ok (vx, vy).

  (** One line: src/Ainur/AinurMacros.hh:134-146; split with its default delimiter *)
  Definition read_line (columnX columnY : Z) (s : str) (data : list (D * D)) : res (list (D * D)) :=
    if emptyLine s then Ok data
    else
      do tokens <- str_split (S (List.length s)) [] s (lit " ") ;;
      do p <- line_pair columnX columnY tokens ;;
      Ok (data ++ [p]).

  (** The loop of readData: src/Ainur/AinurMacros.hh:132-147. A stream that failed gives empty lines and never
      reaches its end. *)
  Fixpoint read_loop (fuel : nat) (columnX columnY : Z) (failed : bool) (rest : str) (data : list (D * D)) : res (list (D * D)) :=
    match fuel with
    | 0 => OutOfFuel
    | S fuel =>
      let '(s, rest, st) := if failed then ([], rest, SFail) else getline (MAX_LINE - 1) rest in
      do data <- read_line columnX columnY (c_str s) data ;;
      match st with
      | SEof => Ok data
      | SGood => read_loop fuel columnX columnY false rest data
      | SFail => read_loop fuel columnX columnY true rest data
      end
    end.

  (** The constructor of AinurFunction, with readData: src/Ainur/AinurMacros.hh:27-62, 128-147; the result is data_ *)
  Definition afun_new (fuel : nat) (args : str) : res (list (D * D)) :=
    let csl := deleteEnclosing args "(" ")" in
    do tokens <- str_split (S (List.length csl)) [] csl (lit ",") ;;
    match tokens with
    | [] => Throw
    | t0 :: more =>
      let filename := deleteEnclosing t0 """" """" in
      let separator := match more with [] => lit "space" | s :: _ => s end in
      do _ <- setSeparatorForSplit separator ;;
      do columnX <- (match more with _ :: x :: _ => atoi x | _ => Ok 0%Z end) ;;
      do columnY <- (match more with _ :: _ :: y :: _ => atoi y | _ => Ok 1%Z end) ;;
      match more with
      | _ :: _ :: _ :: _ :: _ => Throw
      | _ =>
        match files filename with
        | None => Throw
        | Some content => read_loop fuel (to_size columnX) (to_size columnY) false content []
        end
      end
    end.

  (** operator(): src/Ainur/AinurMacros.hh:64-71; if there is no such pair, the end of the vector is dereferenced *)
  Definition afun_call (data : list (D * D)) (x : D) : res D :=
    match find (fun p => deqb (fst p) x) data with
    | Some p => Ok (snd p)
    | None => UB
    end.

  (** What valueFromFunction does with the function of the given name, which was read when the name was defined:
      src/Ainur/AinurMacros.hh:209-214 *)
  Definition afun_value (fuel : nat) (name argument : str) : res str :=
    do data <- afun_new fuel name ;;
    do y <- afun_call data (std_atof argument) ;;
    Ok (to_string y).
End Afun.
