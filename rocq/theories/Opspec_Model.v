(** Model of src/OneOperatorSpec.h and src/GetBraOrKet.h. Numbers are exact: the
    overflow of std::atoi is not modelled (see Str_Model.v). *)
From Coq Require Import Ascii String.
From Verif Require Import Prelude Str_Model.
Import List.

(** std::string::operator[](i): the element at size() is the null character, beyond that it is undefined. *)
Definition str_at (s : str) (i : nat) : res ascii :=
  if i <? List.length s then vget s i
  else if i =? List.length s then Ok (ascii_of_nat 0) else UB.

(** OneOperatorSpec: src/OneOperatorSpec.h:107-109 *)
Record opspec := mkop { op_dof : Z; op_label : str; op_transpose : bool }.

(** The loop that looks for '?': src/OneOperatorSpec.h:25-29 *)
Fixpoint find_question (label : str) (i : nat) : nat :=
  match label with
  | [] => i
  | c :: label' => if Ascii.eqb c "?" then i else find_question label' (S i)
  end.

(** Constructor: src/OneOperatorSpec.h:10-44 *)
Definition oneop (label_ : str) : res opspec :=
  let label := label_ in
  let lastIndex := List.length label in
  let lastIndex := if 0 <? lastIndex then lastIndex - 1 else lastIndex in
  do c <- str_at label lastIndex ;;
  do (label, transpose) <- (if Ascii.eqb c "'" then (do l <- substr label 0 (Some lastIndex) ;; Ok (l, true)) else Ok (label, false)) ;;
  let label_ := label in
  let i := find_question label 0 in
  if i =? List.length label then Ok (mkop 0 label transpose)
  else if i + 1 =? List.length label then Throw
  else
    do label <- substr label_ 0 (Some i) ;;
    do numericString <- substr label_ (i + 1) (Some (List.length label_)) ;;
    if negb (isAnInteger numericString) then Throw
    else do dof <- atoi numericString ;; Ok (mkop dof label transpose).

(** The loop of extractSiteIfAny; -1 stands for none: src/OneOperatorSpec.h:64-76 *)
Fixpoint site_loop (cBegin cEnd : ascii) (name : str) (i firstIndex lastIndex : Z) : Z * Z :=
  match name with
  | [] => (firstIndex, lastIndex)
  | c :: name' =>
    if Ascii.eqb c cBegin then site_loop cBegin cEnd name' (i + 1) i lastIndex
    else if Ascii.eqb c cEnd then site_loop cBegin cEnd name' (i + 1) firstIndex i
    else site_loop cBegin cEnd name' (i + 1) firstIndex lastIndex
  end%Z.

(** A (possibly negative, then wrapped around to a huge) number as count argument of substr. *)
Definition as_count (z : Z) : option nat := if (z <? 0)%Z then None else Some (Z.to_nat z).

(** extractSiteIfAny: src/OneOperatorSpec.h:60-90; a [SiteSplit] is the triple of hasSiteString, root, siteString. *)
Definition extractSiteIfAny (cBegin cEnd : ascii) (name : str) : res (bool * str * str) :=
  let '(firstIndex, lastIndex) := site_loop cBegin cEnd name 0 (-1) (-1) in
  if (firstIndex <? 0)%Z && (lastIndex <? 0)%Z then Ok (false, name, [])
  else if ((firstIndex <? 0)%Z && (0 <=? lastIndex)%Z) || ((0 <=? firstIndex)%Z && (lastIndex <? 0)%Z) then Throw
  else
    do str1 <- substr name 0 (as_count firstIndex) ;;
    do str2 <- substr name (Z.to_nat (lastIndex + 1)) (as_count (Z.of_nat (List.length name) - lastIndex)) ;;
    do siteString <- substr name (Z.to_nat (firstIndex + 1)) (as_count (lastIndex - firstIndex - 1)) ;;
    Ok (true, str1 ++ str2, siteString).

(** isNonNegativeInteger: src/OneOperatorSpec.h:92-98 *)
Definition isNonNegativeInteger (s : str) : bool :=
  match s with
  | [] => false
  | _ => match find_idx (fun c => negb (isdigit c)) s with None => true | Some _ => false end
  end.

(** strToNumberOrFail: src/OneOperatorSpec.h:100-105 *)
Definition strToNumberOrFail (s : str) : res Z :=
  if negb (isNonNegativeInteger s) then Throw else atoi s.

(** Kind: src/GetBraOrKet.h:13-15 *)
Inductive kind := KE | KP | KR.

(** GetBraOrKet: src/GetBraOrKet.h:134-137 *)
Record braket := mkbk { bk_isKet : bool; bk_str : str; bk_kind : kind; bk_first : Z; bk_second : Z }.

(** The loop of getNumberFrom: src/GetBraOrKet.h:117-122; the number and the rest of the string. *)
Fixpoint number_loop (s number : str) : str * str :=
  match s with
  | [] => (number, [])
  | c :: s' => if (N_of_ascii c <? 48)%N || (57 <? N_of_ascii c)%N then (number, s) else number_loop s' (number ++ [c])
  end.

(** getNumberFrom: src/GetBraOrKet.h:113-132. The exception for an empty number (124-127) is constructed and
    dropped without being thrown. The second result is the string with the number removed. *)
Definition getNumberFrom (s : str) (start : nat) : res (Z * str) :=
  let '(number, rest) := number_loop (skipn start s) [] in
  do n <- atoi number ;; Ok (n, rest).

(** The end of getKind: src/GetBraOrKet.h:102-110 *)
Definition getKind_tail (s : str) (k : kind) (first : Z) : res (kind * Z * Z) :=
  if List.length s <? 2 then Ok (k, first, 0%Z)
  else
    do c <- str_at s 0 ;;
    if Ascii.eqb c "X" then (do (n, _) <- getNumberFrom s 1 ;; Ok (k, first, n)) else Throw.

(** getKind: src/GetBraOrKet.h:75-111, starting from Kind::E and the pair (0, 0); the result is the kind and the pair. *)
Definition getKind (s : str) : res (kind * Z * Z) :=
  if List.length s <? 2 then Throw
  else
    do c <- str_at s 0 ;;
    if Ascii.eqb c "P" then (do (n, s) <- getNumberFrom s 1 ;; getKind_tail s KP n)
    else if str_eqb s (lit "gs") then Ok (KE, 0, 0)%Z
    else if str_eqb s (lit "time") then Ok (KP, 0, 0)%Z
    else if Ascii.eqb c "Q" then (do (n, s) <- getNumberFrom s 1 ;; getKind_tail s KE n)
    else if Ascii.eqb c "R" then (do (n, _) <- getNumberFrom s 1 ;; Ok (KR, n, 0%Z))
    else getKind_tail s KE 0.

(** Constructor: src/GetBraOrKet.h:19-37; [&&] does not evaluate its right operand when the left one is false. *)
Definition getBraOrKet (s : str) : res braket :=
  let l := List.length s in
  if l <? 2 then Throw
  else
    let last := l - 1 in
    do c0 <- str_at s 0 ;;
    do b1 <- (if Ascii.eqb c0 "|" then (do c <- str_at s last ;; Ok (Ascii.eqb c ">" && (2 <? l))) else Ok false) ;;
    do t <- (if b1 then substr s 1 (Some (l - 2)) else Ok s) ;;
    do c0 <- str_at t 0 ;;
    do b2 <- (if Ascii.eqb c0 "<" then (do c <- str_at t last ;; Ok (Ascii.eqb c "|" && (2 <? l))) else Ok false) ;;
    do t <- (if b2 then substr s 1 (Some (l - 2)) else Ok t) ;;
    do (k, a, b) <- getKind t ;;
    Ok (mkbk (negb b2) t k a b).

(** checkIfPvector: src/GetBraOrKet.h:66-73 *)
Definition checkIfPvector (g : braket) (b : bool) : res unit :=
  let isP := match bk_kind g with KE => false | _ => true end in
  if eqb isP b then Ok tt else Throw.

(** levelIndex, sectorIndex, pIndex: src/GetBraOrKet.h:47-63 *)
Definition levelIndex (g : braket) : res Z := do _ <- checkIfPvector g false ;; Ok (bk_second g).
Definition sectorIndex (g : braket) : res Z := do _ <- checkIfPvector g false ;; Ok (bk_first g).
Definition pIndex (g : braket) : res Z := do _ <- checkIfPvector g true ;; Ok (bk_first g).
(** isPvector, isRvector: src/GetBraOrKet.h:43-45 *)
Definition isPvector (g : braket) : bool := match bk_kind g with KP => true | _ => false end.
Definition isRvector (g : braket) : bool := match bk_kind g with KR => true | _ => false end.
