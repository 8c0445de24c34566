(** Model of the functions of src/Matrix.h and src/CrsMatrix.h that print a matrix for people or other programs. The numbers
    are those of a [cring]; [nrm] is PsimagLite::norm and [show] what operator<< prints for a number. *)
From Coq Require Import Ascii String Reals.
From Verif Require Import Prelude Ring Str_Model Text_Model Dense_Model Crs_Model.
Import List.
Local Open Scope nat_scope.

Section Print.
  Variable K : cring.
  Variable nrm : K -> Reals.Rdefinitions.R.
  Variable show : K -> str.
  Implicit Types (A : mat K).

  (** mathematicaPrint: src/Matrix.h:677-692 *)
  Definition mathematicaPrint A : res str :=
    do os <- forM (m_nrow A) 0 (fun i os =>
      do os <- forM (m_ncol A) 0 (fun j os =>
        do x <- mget K A i j ;;
        let os := os ++ show x in
        Ok (if j + 1 <? m_ncol A then os ++ lit "," else os)) (os ++ lit "{") ;;
      let os := os ++ lit "}" in
      Ok (if i + 1 <? m_nrow A then os ++ lit "," ++ nl else os)) (lit "m:={") ;;
    Ok (os ++ lit "}" ++ nl).

  (** norm(x) < 1e-6 *)
  Definition tiny (x : K) : bool := if Rlt_dec (nrm x) (1 / 1000000)%R then true else false.
  (** The first place in values for which a test holds, else values.size() *)
  Fixpoint first (f : K -> bool) (values : list K) : nat :=
    match values with [] => 0 | v :: values => if f v then 0 else S (first f values) end.
  (** char chark = k + 65 *)
  Definition chark (k : nat) : ascii := ascii_of_nat (k + 65).
  (** What was printed, the values with a letter, and whether the exception was thrown *)
  Record sym := mksym { y_os : str; y_values : list K; y_thrown : bool }.
  (** symbolicPrint: src/Matrix.h:694-751. After the exception nothing else is done. *)
  Definition symbolicPrint A : res sym :=
    let os := print_nat (m_nrow A) ++ sp ++ print_nat (m_ncol A) ++ nl in
    do y <- forM (m_nrow A) 0 (fun i y =>
      do y <- forM (m_ncol A) 0 (fun j y =>
        if y_thrown y then Ok y else
        do val <- mget K A i j ;;
        let os := y_os y in
        let values := y_values y in
        if tiny val then Ok (mksym (os ++ lit " 0 ") values false) else
        let k := first (fun v => tiny (csub v val)) values in
        let b1 := k =? List.length values in
        let k2 := first (fun v => tiny (cadd v val)) values in
        let b2 := k2 =? List.length values in
        if b1 then
          if b2 then
            let values := values ++ [val] in
            if 25 <? List.length values then Ok (mksym os values true)
            else Ok (mksym (os ++ sp ++ [chark k] ++ sp) values false)
          else Ok (mksym (os ++ lit "-" ++ [chark k2] ++ sp) values false)
        else Ok (mksym (os ++ sp ++ [chark k] ++ sp) values false)) y ;;
      if y_thrown y then Ok y else Ok (mksym (y_os y ++ nl) (y_values y) false)) (mksym os [] false) ;;
    if y_thrown y then Ok y else
    do os <- forM (List.length (y_values y)) 0 (fun i os =>
      do v <- vget (y_values y) i ;;
      Ok (os ++ [chark i] ++ lit "=" ++ show v ++ sp)) (y_os y ++ lit "---------------------------" ++ nl) ;;
    Ok (mksym (os ++ nl) (y_values y) false).

  (** printNonZero: src/Matrix.h:753-776 *)
  Definition printNonZero A : res str :=
    let os := lit "#size=" ++ print_nat (m_nrow A) ++ lit "x" ++ print_nat (m_ncol A) ++ nl in
    do os <- forM (m_nrow A) 0 (fun i os =>
      do (os, nonzero) <- forM (m_ncol A) 0 (fun j '(os, nonzero) =>
        do val <- mget K A i j ;;
        if negb (ceqb val c0) then Ok (os ++ show val ++ sp, S nonzero) else Ok (os, nonzero)) (os, 0) ;;
      Ok (if 0 <? nonzero then os ++ nl else os)) os ;;
    do os <- forM (m_nrow A) 0 (fun i os =>
      do val <- mget K A i i ;;
      Ok (if negb (ceqb val c0) then os ++ show val ++ sp else os)) (os ++ lit "#diagonal non-zero" ++ nl) ;;
    Ok (os ++ nl).

  (** Matrix::print: src/Matrix.h:326-339 *)
  Definition print_eps A (eps : Reals.Rdefinitions.R) : res str :=
    forM (m_nrow A) 0 (fun i os =>
      do os <- forM (m_ncol A) 0 (fun j os =>
        do val <- vget (m_data A) (i + j * m_nrow A) ;;
        let val := if Rlt_dec (nrm val) eps then c0 else val in
        Ok (os ++ show val ++ sp)) os ;;
      Ok (os ++ nl)) (print_nat (m_nrow A) ++ sp ++ print_nat (m_ncol A) ++ nl).

  (** printFullMatrix: src/CrsMatrix.h:1022-1042. What symbolicPrint printed before its exception stays. *)
  Definition printFullMatrix (s : crs K) (name : str) (how : nat) (eps : Reals.Rdefinitions.R) : res str :=
    do fullm <- crsMatrixToFullMatrix K (mat_new K (c_nrow s) (c_ncol s)) s ;;
    let os := lit "--------->   " ++ name ++ lit " rank=" ++ print_nat (c_nrow s) ++ lit "x" ++ print_nat (c_ncol s) ++ lit " <----------" ++ nl in
    do t1 <- (if how =? 1 then mathematicaPrint fullm else Ok []) ;;
    do t2 <- (if how =? 2 then do y <- symbolicPrint fullm ;; Ok (y_os y) else Ok []) ;;
    do t3 <- (if how =? 0 then print_eps fullm eps else Ok []) ;;
    Ok (os ++ t1 ++ t2 ++ t3).
End Print.
Arguments mksym {K}.
Arguments y_os {K}.
Arguments y_values {K}.
Arguments y_thrown {K}.
