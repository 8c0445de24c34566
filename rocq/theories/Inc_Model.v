(** Model of reading complex numbers, unsigned numbers and maps in src/InputNg.h, for inputs that are not in the Ainur
    format; it goes on from Input_Model. *)
From Coq Require Import Ascii String.
From Verif Require Import Prelude Ring Str_Model Text_Model Dense_Model Input_Model.
Import List.

(** std::atoi as it is: a number that is not an int is undefined. (Str_Model's [atoi] has no bounds.) *)
Definition atoi_int (s : str) : res Z :=
  do n <- atoi s ;;
  guard ((-2147483648 <=? n) && (n <=? 2147483647))%Z ;; Ok n.

(** readline into a long int: src/InputNg.h:704-726, and into an int, 752-774: the same code, atoi *)
Definition readline_long (r : rst) (label : str) : res (Z * rst) :=
  do label2 <- label2label label ;;
  match findFirstValueForLabel label2 (r_ss r) with
  | None => Throw
  | Some it =>
    do (_, v) <- vget (r_ss r) it ;;
    do n <- atoi_int (c_str v) ;;
    do (m, rem) <- cleanLabelsIfNeeded label2 (r_ss r) it (r_rem r) false ;;
    Ok (n, mkrst m (r_sv r) rem)
  end.
(** readline and read into a SizeType: src/InputNg.h:728-750, 776-790; the int becomes an unsigned number of 64 bits *)
Definition readline_size (r : rst) (label : str) : res (Z * rst) :=
  do label2 <- label2label label ;;
  match findFirstValueForLabel label2 (r_ss r) with
  | None => Throw
  | Some it =>
    do (_, v) <- vget (r_ss r) it ;;
    do n <- atoi_int (c_str v) ;;
    do (m, rem) <- cleanLabelsIfNeeded label2 (r_ss r) it (r_rem r) false ;;
    Ok ((n mod 18446744073709551616)%Z, mkrst m (r_sv r) rem)
  end.

(** extensionOf: src/InputNg.h:1071-1094. The loops write the part after the last dot backwards and turn it round. *)
Fixpoint ext_loop (s buffer : str) : option str :=
  match s with
  | [] => None
  | c :: s' => if Ascii.eqb c "." then Some buffer else ext_loop s' (buffer ++ [c])
  end.
Definition extensionOf (s : str) : str :=
  match ext_loop (rev s) [] with
  | None => []
  | Some buffer =>
    let l2 := List.length buffer in
    map (fun j => nth (l2 - j - 1) buffer zero) (seq 0 l2)
  end.

Section Numbers.
  (** [T] are the doubles; [std_atof] is std::atof, [scan] is [is >> u] for a double: the number and what is left of the
      stream, or failure. [mkC] is the complex number of two doubles. *)
  Variables (T : cring) (C : cring).
  Variable std_atof : str -> T.
  Variable scan : str -> option (T * str).
  Variable mkC : T -> T -> C.

  (** readline into a floating type: src/InputNg.h:677-702 *)
  Definition readline_real (r : rst) (label : str) : res (T * rst) :=
    do label2 <- label2label label ;;
    match findFirstValueForLabel label2 (r_ss r) with
    | None => Throw
    | Some it =>
      do (_, v) <- vget (r_ss r) it ;;
      do n <- atof T std_atof (c_str v) ;;
      do (m, rem) <- cleanLabelsIfNeeded label2 (r_ss r) it (r_rem r) false ;;
      Ok (n, mkrst m (r_sv r) rem)
    end.

  (** stringToComplexOrReal for complex numbers: src/InputNg.h:988-1018. [start] is one past the comma, or past the end. *)
  Definition stringToComplex (s : str) : res C :=
    match s with
    | ch :: s1 =>
      if negb (Ascii.eqb ch "(") then do x <- stringToReal T std_atof (c_str s) ;; Ok (mkC x c0)
      else
        let '(buffer, r) := until (fun c => Ascii.eqb c ",") s1 [] in
        do x <- stringToReal T std_atof buffer ;;
        let '(buffer, _) := until (fun c => Ascii.eqb c ")") (tl r) [] in
        do y <- stringToReal T std_atof buffer ;;
        Ok (mkC x y)
    | [] => do x <- stringToReal T std_atof [] ;; Ok (mkC x c0)
    end.

  (** read of a vector of complex numbers: src/InputNg.h:792-815 *)
  Definition read_complexes (r : rst) (label : str) (val : list C) : res (list C * rst) :=
    do label2 <- label2label label ;;
    match findFirstValueForLabel label2 (r_sv r) with
    | None => Throw
    | Some it =>
      do (_, v) <- vget (r_sv r) it ;;
      let len := List.length v in
      guard (1 <? len)%nat ;;
      do val <- forM (len - 1) 0 (fun i val => do s <- vget v (i + 1) ;; do x <- stringToComplex (c_str s) ;; vset val i x)
                  (vresize val (len - 1) c0) ;;
      do (m, rem) <- cleanLabelsIfNeeded label2 (r_sv r) it (r_rem r) false ;;
      Ok (val, mkrst (r_ss r) m rem)
    end.

  (** operator>> of libstdc++ for a complex number, as src/InputNg.h:890 calls it, on a stream with no blanks; when it
      fails it leaves the number as it was. *)
  Definition extract (old : C) (s : str) : C :=
    match s with
    | [] => old
    | c :: s1 =>
      if Ascii.eqb c "(" then
        match scan s1 with
        | Some (u, c1 :: s2) =>
          if Ascii.eqb c1 ")" then mkC u c0
          else if Ascii.eqb c1 "," then
            match scan s2 with
            | Some (v, c2 :: _) => if Ascii.eqb c2 ")" then mkC u v else old
            | _ => old
            end
          else old
        | _ => old
        end
      else match scan s with Some (u, _) => mkC u c0 | None => old end
    end.

  (** read of a matrix of complex numbers: src/InputNg.h:856-893. The overflow of nrow*ncol is not modelled. *)
  Definition read_cmatrix (r : rst) (label : str) (m : mat C) : res (mat C * rst) :=
    do label2 <- label2label label ;;
    match findFirstValueForLabel label2 (r_sv r) with
    | None => Throw
    | Some it =>
      do (_, v) <- vget (r_sv r) it ;;
      if (List.length v <? 2)%nat then Throw else
      do v0 <- vget v 0 ;; do n0 <- atoi_int (c_str v0) ;;
      if (n0 <=? 0)%Z then Throw else
      do v1 <- vget v 1 ;; do n1 <- atoi_int (c_str v1) ;;
      if (n1 <=? 0)%Z then Throw else
      let nrow := Z.to_nat n0 in
      let ncol := Z.to_nat n1 in
      do m <- mat_resize C m nrow ncol ;;
      if (List.length v <? 2 + nrow * ncol)%nat then Throw else
      do (m, _) <- forM nrow 0 (fun i mk => forM ncol 0 (fun j '(m, k) =>
        do s <- vget v k ;;
        do old <- mget C m i j ;;
        do m <- mset C m i j (extract old s) ;; Ok (m, S k)) mk) (m, 2%nat) ;;
      do (sv, rem) <- cleanLabelsIfNeeded label2 (r_sv r) it (r_rem r) false ;;
      Ok (m, mkrst (r_ss r) sv rem)
    end.

  (** val[key] = x for a map of strings; the order of its entries is left out *)
  Definition amap_set (m : list (str * T)) (k : str) (x : T) : list (str * T) :=
    (k, x) :: filter (fun e => negb (str_eqb (fst e) k)) m.

  (** read of a map: src/InputNg.h:895-926. Erasing at npos throws. *)
  Definition read_map (r : rst) (label : str) (val : list (str * T)) : res (list (str * T)) :=
    do label2 <- label2label label ;;
    forL (r_ss r) (fun e (val : list (str * T)) =>
      let mystr := fst e in
      match find_sub label2 mystr with
      | None => Ok val
      | Some _ =>
        if negb (existsb (fun c => Ascii.eqb c "[") mystr) then Ok val
        else if negb (existsb (fun c => Ascii.eqb c "]") mystr) then Throw
        else
          let mystr2 := skipn (List.length label2 + 1) mystr in
          match mystr2 with
          | [] => Throw
          | _ =>
            do x <- atof T std_atof (c_str (snd e)) ;;
            Ok (amap_set val (removelast mystr2) x)
          end
      end) val.
End Numbers.
