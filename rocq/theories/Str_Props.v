(** C11 split, C12 replaceAll, C13 integer helpers, C62 Options. *)
From Coq Require Import Ascii String.
From Verif Require Import Prelude Str_Model Str_Spec Str_Proofs.
Import List.

(** C11. split appends the maximal delimiter-free runs; it terminates after at
    most [length s + 1] tests of the loop condition. *)
Theorem C11_split : forall fuel toks s d, length s < fuel ->
  exists ts, str_split fuel toks s d = Ok (toks ++ ts) /\ runs (fun c => In c d) s ts.
Proof. exact split_spec. Qed.
Print Assumptions C11_split.

(** ... and that specification determines the tokens. *)
Theorem C11_runs_unique : forall (A : Type) (isD : A -> Prop) s ts1 ts2,
  runs isD s ts1 -> runs isD s ts2 -> ts1 = ts2.
Proof. exact @runs_unique. Qed.
Print Assumptions C11_runs_unique.

Example C11_nonvacuous :
  str_split 9 [lit "x"] (lit ",ab,,c;d") (lit ",;") = Ok (map lit ["x"; "ab"; "c"; "d"]%string).
Proof. vm_compute. reflexivity. Qed.

(** C12. *)
Theorem C12_replaceAll : forall fuel s from to, length s < fuel -> from <> [] ->
  exists r, replaceAll fuel s from to = Ok r /\ replaced from to s r.
Proof. exact replaceAll_spec. Qed.
Print Assumptions C12_replaceAll.

Theorem C12_replaced_unique : forall (A : Type) (from to s : list A) r1 r2,
  replaced from to s r1 -> replaced from to s r2 -> r1 = r2.
Proof. exact @replaced_unique. Qed.
Print Assumptions C12_replaced_unique.

Example C12_nonvacuous :
  replaceAll 8 (lit "aaabxa") (lit "a") (lit "ya") = Ok (lit "yayayabxya") /\
  replaceAll 8 (lit "aaab") (lit "aa") (lit "") = Ok (lit "ab") /\
  replaceAll 8 (lit "abc") (lit "") (lit "z") = Ok (lit "abc").
Proof. vm_compute. repeat split. Qed.

(** C13. *)
Theorem C13_integerDivision : forall a b, b <> 0%N ->
  (forall q, integerDivision a b = Ok q <-> (a = b * q)%N) /\
  ((forall q, a <> b * q)%N -> integerDivision a b = Throw).
Proof. exact integerDivision_spec. Qed.
Print Assumptions C13_integerDivision.

(** log2Integer is the least number of binary digits. *)
Theorem C13_log2Integer : forall x, (x < 2 ^ 64)%N ->
  exists k, log2Integer 65 x = Ok k /\ (x < 2 ^ k)%N /\ (forall j, (x < 2 ^ j)%N -> (k <= j)%N).
Proof. exact log2Integer_spec. Qed.
Print Assumptions C13_log2Integer.

Theorem C13_isAnInteger : forall s,
  isAnInteger s = true <-> s <> [] /\ forall c, In c s -> is_digit c.
Proof. exact isAnInteger_spec. Qed.
Print Assumptions C13_isAnInteger.

Theorem C13_isAfloat : forall s, isAfloat s = true <->
  (exists c, In c s /\ is_digit c) /\ (forall c, In c s -> is_digit c \/ In c (lit "-+eE.")).
Proof. exact isAfloat_spec. Qed.
Print Assumptions C13_isAfloat.

Theorem C13_atoi_digits : forall s, s <> [] -> (forall c, In c s -> is_digit c) ->
  atoi s = Ok (dec_val s) /\ atoi ("-"%char :: s) = Ok (- dec_val s)%Z.
Proof. exact (fun s H K => conj (atoi_nat s H K) (atoi_neg s H K)). Qed.
Print Assumptions C13_atoi_digits.

Theorem C13_atoi_throws : forall s,
  atoi s = Throw <-> exists c, In c s /\ ~ is_digit c /\ ~ In c (lit "+-").
Proof. exact atoi_throws. Qed.
Print Assumptions C13_atoi_throws.

(** basename drops everything up to the last separator. *)
Theorem C13_basename : forall dir s, ~ In "/"%char s ->
  basename s = s /\ basename (dir ++ ["/"%char] ++ s) = s.
Proof. exact (fun dir s H => conj (basename_nosep s H) (basename_spec dir "/"%char s H)). Qed.
Print Assumptions C13_basename.

Example C13_nonvacuous :
  integerDivision 12 4 = Ok 3%N /\ integerDivision 13 4 = Throw /\ integerDivision 1 0 = UB /\
  log2Integer 65 5 = Ok 3%N /\ log2Integer 65 0 = Ok 0%N /\
  isAnInteger (lit "012") = true /\ isAnInteger (lit "-1") = false /\ isAnInteger [] = false /\
  isAfloat (lit "-1.5e3") = true /\ isAfloat (lit "e") = false /\
  atoi (lit "-120") = Ok (-120)%Z /\ atoi (lit "1-2") = Ok 1%Z /\ atoi (lit "1.2") = Throw /\
  basename (lit "/a/b.txt") = lit "b.txt".
Proof. vm_compute. repeat split. Qed.

(** C62. Options. *)
Theorem C62_strict : forall fuel registered opts ts,
  length opts < fuel -> runs (fun c => c = ","%char) opts ts ->
  ((forall o, In o ts -> In o registered) ->
     exists l, options_set fuel registered STRICT opts = Ok l /\ forall o, isSet l o = true <-> In o ts) /\
  ((exists o, In o ts /\ ~ In o registered) -> options_set fuel registered STRICT opts = Throw).
Proof. exact options_strict. Qed.
Print Assumptions C62_strict.

Theorem C62_permissive : forall fuel registered opts ts,
  length opts < fuel -> runs (fun c => c = ","%char) opts ts ->
  exists l, options_set fuel registered PERMISSIVE opts = Ok l /\ forall o, isSet l o = true <-> In o ts.
Proof. exact options_permissive. Qed.
Print Assumptions C62_permissive.

Theorem C62_disabled : forall fuel registered opts,
  exists l, options_set fuel registered DISABLED opts = Ok l /\ forall o, isSet l o = false.
Proof. exact options_disabled. Qed.
Print Assumptions C62_disabled.

Example C62_nonvacuous :
  options_set 9 (map lit ["a"; "bc"]%string) STRICT (lit "bc,a") = Ok (map lit ["bc"; "a"]%string) /\
  options_set 9 (map lit ["a"; "bc"]%string) STRICT (lit "bc,x") = Throw /\
  options_set 9 (map lit ["a"; "bc"]%string) PERMISSIVE (lit "bc,x") = Ok (map lit ["bc"; "x"]%string) /\
  runs (fun c => c = ","%char) (lit "bc,a") (map lit ["bc"; "a"]%string).
Proof.
  repeat split; try (vm_compute; reflexivity).
  apply (runs_token (fun c => c = ","%char) (lit "bc") (lit ",a")).
  - discriminate.
  - simpl; intuition congruence.
  - right. exists ","%char, (lit "a"). auto.
  - apply runs_delim; auto. apply (runs_token _ (lit "a") []); try discriminate; auto.
    + simpl; intuition congruence.
    + constructor.
Qed.
