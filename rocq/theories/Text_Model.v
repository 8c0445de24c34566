(** Model of formatted text input and output: the operator<< and operator>> of
    vectors, stacks, pairs, dense matrices and CRS matrices. Output is the text
    appended; an input stream is the text still to be read and its fail bit. *)
From Coq Require Import Ascii String.
From Verif Require Import Prelude Ring Dense_Model Crs_Model Str_Model.
Import List.
Local Open Scope Z_scope.

Record istream := mkis { is_buf : str; is_fail : bool }.

(** isspace(3) in the C locale. *)
Definition isspace (c : ascii) : bool :=
  (N_of_ascii c =? 32)%N || ((9 <=? N_of_ascii c)%N && (N_of_ascii c <=? 13)%N).

Fixpoint skipws (s : str) : str :=
  match s with
  | [] => []
  | c :: s' => if isspace c then skipws s' else s
  end.
Fixpoint span (f : ascii -> bool) (s : str) : str * str :=
  match s with
  | [] => ([], [])
  | c :: s' => if f c then let '(a, b) := span f s' in (c :: a, b) else ([], s)
  end.

(** std::ostream::operator<< of integers, in base ten. *)
Definition digit_chr (d : Z) : ascii := ascii_of_nat (Z.to_nat (48 + d)).
Fixpoint digits_loop (fuel : nat) (n : Z) : str :=
  match fuel with
  | O => []
  | S f => if n <? 10 then [digit_chr n] else digits_loop f (n / 10) ++ [digit_chr (n mod 10)]
  end.
Definition print_Z (n : Z) : str :=
  if n <? 0 then "-"%char :: digits_loop (S (Z.to_nat (Z.log2 (- n)))) (- n)
  else digits_loop (S (Z.to_nat (Z.log2 n))) n.
Definition print_nat (n : nat) : str := print_Z (Z.of_nat n).

(** std::istream::operator>> of integers, in base ten. [old] is the value of the
    variable before the call. If the stream has failed, or has nothing but white
    space, the variable keeps its value; if there is no number it becomes 0; if
    the number does not fit [conv] says what it becomes. *)
Definition rd_num (conv : bool -> Z -> Z * bool) (s : istream) (old : Z) : Z * istream :=
  if is_fail s then (old, s) else
  match skipws (is_buf s) with
  | [] => (old, mkis [] true)
  | c :: b' =>
    let b := c :: b' in
    let neg := Ascii.eqb c "-" in
    let b1 := if (Ascii.eqb c "-" || Ascii.eqb c "+")%char then b' else b in
    let '(ds, b2) := span isdigit b1 in
    match ds with
    | [] => (0, mkis b2 true)
    | _ => let '(x, bad) := conv neg (atoi_digits ds 0) in (x, mkis b2 bad)
    end
  end.

(** To an int, a SizeType, and an integer without bounds. *)
Definition conv_int (neg : bool) (v : Z) : Z * bool :=
  let x := if neg then - v else v in
  if x <? -2147483648 then (-2147483648, true)
  else if 2147483647 <? x then (2147483647, true) else (x, false).
Definition conv_size (neg : bool) (v : Z) : Z * bool :=
  if 18446744073709551615 <? v then (18446744073709551615, true)
  else ((if neg then - v else v) mod 18446744073709551616, false).
Definition conv_Z (neg : bool) (v : Z) : Z * bool := (if neg then - v else v, false).
Definition rd_int := rd_num conv_int.
Definition rd_size := rd_num conv_size.

(** std::istream::operator>> of a string: the characters up to white space. *)
Definition rd_str (s : istream) (old : str) : str * istream :=
  if is_fail s then (old, s) else
  match skipws (is_buf s) with
  | [] => (old, mkis [] true)
  | b => let '(w, b2) := span (fun c => negb (isspace c)) b in (w, mkis b2 false)
  end.

Definition nl : str := lit "
".
Definition sp : str := lit " ".

(** The operators for an element type: [pr] is what operator<< writes and [rd s old]
    is operator>> into a variable that holds [old]. *)
Section Elements.
  Context {T : Type}.
  Variable dflt : T.
  Variable pr : T -> str.
  Variable rd : istream -> T -> res (T * istream).

  (** operator<<(vector): src/Vector.h:436-443 *)
  Definition vec_write (v : list T) : str :=
    print_nat (List.length v) ++ nl ++ flat_map (fun x => pr x ++ nl) v.

  (** The loop of operator>>(vector): src/Vector.h:463-465 *)
  Definition read_loop (v : list T) (s : istream) : res (list T * istream) :=
    forM (List.length v) 0
      (fun i '(v, s) => do old <- vget v i ;; do (x, s) <- rd s old ;; do v <- vset v i x ;; Ok (v, s)) (v, s).

  (** operator>>(vector): src/Vector.h:455-467 *)
  Definition vec_read (s : istream) (v : list T) : res (list T * istream) :=
    let '(xsize, s) := rd_int s 0 in
    if xsize <? 0 then Throw else
    read_loop (vresize v (Z.to_nat xsize) dflt) s.

  (** operator<<(stack): src/Stack.h:112-124. A stack is the list of its elements,
      top first. *)
  Definition stack_write (st : list T) : str :=
    print_nat (List.length st) ++ nl ++ flat_map (fun x => pr x ++ nl) st.

  (** operator>>(stack): src/Stack.h:126-137. tmpVec.size() is converted to int; more
      than 2^31-1 elements cannot have been read. *)
  Definition stack_read (s : istream) (x : list T) : res (list T * istream) :=
    do (tmpVec, s) <- vec_read s [] ;;
    do x <- forL (rev (seq 0 (List.length tmpVec)))
              (fun i x => do e <- vget tmpVec i ;; Ok (e :: x)) x ;;
    Ok (x, s).
End Elements.

(** operator<<, operator>> of pair<SizeType, SizeType>: src/PsimagLite.cpp:14-26.
    The components are [Z] in the range of SizeType. *)
Definition pair_write (p : Z * Z) : str := print_Z (fst p) ++ sp ++ print_Z (snd p) ++ sp.
Definition pair_read (s : istream) (old : Z * Z) : res ((Z * Z) * istream) :=
  let '(a, s) := rd_size s (fst old) in
  let '(b, s) := rd_size s (snd old) in
  Ok ((a, b), s).

(** operator<<(vector<pair>): src/Vector.h:445-452 *)
Definition vecpair_write (v : list (Z * Z)) : str :=
  print_nat (List.length v) ++ nl ++ flat_map (fun p => print_Z (fst p) ++ sp ++ print_Z (snd p) ++ nl) v.

Definition lift_rd {T} (f : istream -> T -> T * istream) (s : istream) (old : T) : res (T * istream) := Ok (f s old).

Section Matrices.
  Variable R : cring.
  Variable pr : R -> str.
  Variable rd : istream -> R -> res (R * istream).

  (** operator<<(Matrix): src/Matrix.h:662-674 *)
  Definition mat_write (m : mat R) : res str :=
    forM (m_nrow m) 0
      (fun i os =>
         do os <- forM (m_ncol m) 0 (fun j os => do x <- mget R m i j ;; Ok (os ++ pr x ++ sp)) os ;;
         Ok (os ++ nl))
      (print_nat (m_nrow m) ++ sp ++ print_nat (m_ncol m) ++ nl).

  (** print(os, eps): src/Matrix.h:327-339; [small x] is norm(x) < eps. *)
  Definition mat_print (small : R -> bool) (m : mat R) : res str :=
    forM (m_nrow m) 0
      (fun i os =>
         do os <- forM (m_ncol m) 0
                    (fun j os => do x <- vget (m_data m) (i + j * m_nrow m)%nat ;;
                                 Ok (os ++ pr (if small x then c0 else x) ++ sp)) os ;;
         Ok (os ++ nl))
      (print_nat (m_nrow m) ++ sp ++ print_nat (m_ncol m) ++ nl).

  (** operator>>(Matrix): src/Matrix.h:777-798 *)
  Definition mat_read (s : istream) (A : mat R) : res (mat R * istream) :=
    let '(nrow, s) := rd_size s 0 in
    let '(ncol, s) := rd_size s 0 in
    if is_fail s then Throw else
    do A <- mat_resize R A (Z.to_nat nrow) (Z.to_nat ncol) ;;
    let cols := m_ncol A in
    forM (m_nrow A) 0 (fun j '(A, s) =>
      forM cols 0 (fun i '(A, s) =>
        do old <- mget R A j i ;; do (x, s) <- rd s old ;; do A <- mset R A j i x ;; Ok (A, s)) (A, s)) (A, s).

  (** Matrix(ifstream): src/Matrix.h:102-114. [g1], [g2] are what the members hold
      before they are read. *)
  Definition mat_from_file (g1 g2 : Z) (s : istream) : res (mat R * istream) :=
    let '(nrow, s) := rd_size s g1 in
    let '(ncol, s) := rd_size s g2 in
    if (nrow <=? 0) || (ncol <=? 0) then Throw else
    let r := Z.to_nat nrow in
    let c := Z.to_nat ncol in
    do (d, s) <- forM r 0 (fun i '(d, s) =>
      forM c 0 (fun j '(d, s) =>
        do old <- vget d (i + j * r)%nat ;; do (x, s) <- rd s old ;; do d <- vset d (i + j * r)%nat x ;; Ok (d, s)) (d, s))
      (repeat c0 (r * c), s) ;;
    Ok (mkmat r c d, s).

  (** operator<<(CrsMatrix): src/CrsMatrix.h:692-718, with nonZeros 396-413. *)
  Definition crs_write (m : crs R) : res str :=
    let n := c_nrow m in
    if (n =? 0)%nat then Ok (lit "0 0" ++ nl) else
    do t1 <- forM (S n) 0 (fun i os => do x <- vget (c_rowptr m) i ;; Ok (os ++ print_nat x ++ sp))
               (print_nat n ++ sp ++ print_nat (c_ncol m) ++ nl) ;;
    do last <- vget (c_rowptr m) n ;;
    guard ((List.length (c_rowptr m) =? S n)%nat && (last =? List.length (c_colind m))%nat
           && (last =? List.length (c_values m))%nat) ;;
    let nonzero := List.length (c_colind m) in
    do t2 <- forM nonzero 0 (fun i os => do x <- vget (c_colind m) i ;; Ok (os ++ print_nat x ++ sp))
               (t1 ++ nl ++ print_nat nonzero ++ nl) ;;
    do t3 <- forM nonzero 0 (fun i os => do x <- vget (c_values m) i ;; Ok (os ++ pr x ++ sp))
               (t2 ++ nl ++ print_nat nonzero ++ nl) ;;
    Ok (t3 ++ nl).

  (** Reading an int into a place of rowptr_ or colind_. The model has no negative
      entries: one makes the result [Throw] here, which says nothing about the code. *)
  Definition rd_int_nat (s : istream) (old : nat) : res (nat * istream) :=
    let '(x, s) := rd_int s (Z.of_nat old) in
    if x <? 0 then Throw else Ok (Z.to_nat x, s).

  (** operator>>(CrsMatrix): src/CrsMatrix.h:720-754. [g], [g'] are what the
      uninitialised n and nonzero hold. *)
  Definition crs_read (g g' : Z) (s : istream) (m : crs R) : res (crs R * istream) :=
    let '(n, s) := rd_int s g in
    if n <? 0 then Throw else
    let '(ncol, s) := rd_int s 0 in
    if (n =? 0) || (ncol =? 0) then Ok (m, s) else
    let ncol := ncol mod 18446744073709551616 in
    do (rowptr, s) <- read_loop rd_int_nat (repeat 0%nat (S (Z.to_nat n))) s ;;
    let '(nonzero, s) := rd_size s g' in
    do (colind, s) <- read_loop rd_int_nat (repeat 0%nat (Z.to_nat nonzero)) s ;;
    let '(nonzero, s) := rd_size s nonzero in
    do (values, s) <- read_loop rd (repeat c0 (Z.to_nat nonzero)) s ;;
    Ok (mkcrs rowptr colind values (Z.to_nat n) (Z.to_nat ncol), s).
End Matrices.
