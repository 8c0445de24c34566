(** C83: complex numbers written as text. *)
From Coq Require Import Ascii String QArith.
From Verif Require Import Prelude Str_Model Str_Spec Str_Proofs Opspec_Model Opspec_Spec Strc_Model Strc_Spec Strc_Proofs.
Import List.
Local Open Scope nat_scope.

(** The text [s] is read as x + iy. *)
Definition reads (s : str) (x y : Q) : Prop := exists u v, stringToComplex s = Ok (u, v) /\ u == x /\ v == y.

(** The forms that are read correctly. *)
Theorem C83_forms_partial : forall a x b y, num_text a x -> num_text b y ->
  reads (a ++ lit "+" ++ b ++ lit "i") x y /\
  reads (lit "-" ++ a ++ lit "+" ++ b ++ lit "i") (- x) y /\
  (~ In "+"%char (a ++ b) -> reads (lit "-" ++ a ++ lit "-" ++ b ++ lit "i") (- x) (- y)) /\
  reads a x 0 /\
  reads (lit "-" ++ a) (- x) 0 /\
  (~ In "+"%char b -> ~ In "-"%char b -> reads (b ++ lit "i") 0 y).
Proof.
  intros a x b y Ha Hb. unfold lit. cbn [list_ascii_of_string].
  destruct (num_head b y Hb) as (d & b' & Eb & Hd). split; [|split; [|split; [|split; [|split]]]].
  - destruct (two_parts false false a x "+" b y (a ++ ["+"%char] ++ b ++ ["i"%char]) Ha Hb) as (u & v & k & Eu & Ev & Ek & E); [cbn; auto|reflexivity|].
    destruct (after_plus_digit false a x d (b' ++ ["i"%char]) Ha Hd) as (k' & Hk' & Ek'). cbn [app] in Ek', Ek, E. rewrite Eb in Ek, E. cbn [app] in Ek, E. rewrite Ek' in Ek. inversion Ek. subst k'.
    unfold reads. cbn [app]. rewrite Eb. cbn [app]. rewrite E. eexists _, _. split; [reflexivity|]. split; [exact Eu|].
    destruct (Ascii.eqb_spec k "-") as [->|]; [apply isdigit_In in Hk'; discriminate|exact Ev].
  - destruct (two_parts true false a x "+" b y (["-"%char] ++ a ++ ["+"%char] ++ b ++ ["i"%char]) Ha Hb) as (u & v & k & Eu & Ev & Ek & E); [cbn; auto|reflexivity|].
    destruct (after_plus_digit true a x d (b' ++ ["i"%char]) Ha Hd) as (k' & Hk' & Ek'). cbn [app] in Ek', Ek, E. rewrite Eb in Ek, E. cbn [app] in Ek, E. rewrite Ek' in Ek. inversion Ek. subst k'.
    unfold reads. cbn [app]. rewrite Eb. cbn [app]. rewrite E. eexists _, _. split; [reflexivity|]. split; [exact Eu|].
    destruct (Ascii.eqb_spec k "-") as [->|]; [apply isdigit_In in Hk'; discriminate|exact Ev].
  - intros Np. destruct (two_parts true false a x "-" b y (["-"%char] ++ a ++ ["-"%char] ++ b ++ ["i"%char]) Ha Hb) as (u & v & k & Eu & Ev & Ek & E); [cbn; auto|reflexivity|].
    rewrite after_chr_none in Ek.
    + cbn [app] in Ek. inversion Ek. subst k. unfold reads. rewrite E. eexists _, _. split; [reflexivity|]. split; [exact Eu|].
      replace (Ascii.eqb "-" "-") with true by reflexivity. rewrite Ev. reflexivity.
    + cbn [app]. intros [K|K]; [discriminate|]. apply in_app_or in K. destruct K as [K|[K|K]]; [apply Np; apply in_or_app; auto|discriminate|].
      apply in_app_or in K. destruct K as [K|[K|[]]]; [apply Np; apply in_or_app; auto|discriminate].
  - destruct (one_real false a x a Ha eq_refl) as (u & v & E & Eu & Ev). exists u, v. auto.
  - destruct (one_real true a x (["-"%char] ++ a) Ha eq_refl) as (u & v & E & Eu & Ev). exists u, v. auto.
  - intros N1 N2. destruct (one_imag b y Hb N1 N2) as (v & E & Ev). exists 0%Q, v. split; [exact E|]. split; [reflexivity|exact Ev].
Qed.
Print Assumptions C83_forms_partial.

(** a-bi is read as a+bi, a+-bi as a+bi, and -bi as -b, for all numbers without a plus sign in the exponent. *)
Theorem C83_sign_refuted : forall a x b y, num_text a x -> num_text b y -> ~ In "+"%char (a ++ b) ->
  reads (a ++ lit "-" ++ b ++ lit "i") x y /\
  reads (a ++ lit "+-" ++ b ++ lit "i") x y /\
  reads (lit "-" ++ b ++ lit "i") (- y) 0.
Proof.
  intros a x b y Ha Hb Np. unfold lit. cbn [list_ascii_of_string].
  assert (Na : ~ In "+"%char a) by (intros K; apply Np; apply in_or_app; auto).
  destruct (num_head a x Ha) as (d & a' & Ea & Hd). split; [|split].
  - destruct (two_parts false false a x "-" b y (a ++ ["-"%char] ++ b ++ ["i"%char]) Ha Hb) as (u & v & k & Eu & Ev & Ek & E); [cbn; auto|reflexivity|].
    rewrite after_chr_none in Ek.
    + unfold reads. rewrite E. rewrite Ea in Ek. cbn in Ek. inversion Ek. subst k. eexists _, _. split; [reflexivity|]. split; [exact Eu|].
      destruct (Ascii.eqb_spec d "-") as [->|]; [apply isdigit_In in Hd; discriminate|exact Ev].
    + cbn [app]. intros K. apply in_app_or in K. destruct K as [K|[K|K]]; [auto|discriminate|]. apply in_app_or in K. destruct K as [K|[K|[]]]; [apply Np; apply in_or_app; auto|discriminate].
  - destruct (two_parts false true a x "+" b y (a ++ ["+"%char; "-"%char] ++ b ++ ["i"%char]) Ha Hb) as (u & v & k & Eu & Ev & Ek & E); [cbn; auto|reflexivity|].
    cbn [app] in *. rewrite after_chr_at in Ek by auto. inversion Ek. subst k. unfold reads. rewrite E. eexists _, _. split; [reflexivity|]. split; [exact Eu|].
    replace (Ascii.eqb "-" "-") with true by reflexivity. rewrite Ev. apply Qopp_involutive.
  - destruct (minus_imag b y Hb) as (u & v & E & Eu & Ev). exists u, v. auto.
Qed.
Print Assumptions C83_sign_refuted.

(** An imaginary unit without a number is dropped. *)
Theorem C83_unit_refuted : forall a x, num_text a x -> reads (lit "i") 0 0 /\ reads (a ++ lit "+i") x 0.
Proof.
  intros a x Ha. split; [exists 0%Q, 0%Q; repeat split; reflexivity|]. unfold lit. cbn [list_ascii_of_string].
  destruct (in_double_ok false a x (["+"%char; "i"%char]) 0 Ha) as (u & E1 & Eu); [right; eexists _, _; split; [reflexivity|]; cbn; auto|]. cbn [app] in E1.
  unfold reads, stringToComplex. rewrite E1. cbn [in_char skipws]. replace (isspace "+") with false by reflexivity.
  assert (E2 : in_double (Some ["i"%char]) 0 = (0%Q, None)) by reflexivity. rewrite E2.
  rewrite (proj2 (find_chr_In "+" (a ++ ["+"%char; "i"%char]))) by (apply in_or_app; right; left; auto). cbn [orb].
  pose proof (str_back_app (a ++ ["+"%char]) "i") as B. rewrite <- app_assoc in B. cbn [app] in B. rewrite B. cbn [bind].
  destruct (after_chr_ok "+" (a ++ ["+"%char; "i"%char])) as [c Ec]. rewrite Ec. cbn [bind].
  replace (negb (Ascii.eqb "i" "i")) with false by reflexivity.
  destruct (Ascii.eqb c "-"); eexists _, _; (split; [reflexivity|]); split; auto; reflexivity.
Qed.
Print Assumptions C83_unit_refuted.

Example C83_nonvacuous : num_text (lit "12.5e-1") ((inject_Z 12 + inject_Z 5 / inject_Z 10) * Qpower (inject_Z 10) (-1)) /\
  stringToComplex (lit "3.5+2e1i") = Ok (35 # 10, 20 # 1)%Q /\ stringToComplex (lit "3-2i") = Ok (3 # 1, 2 # 1)%Q.
Proof.
  assert (D : forall s, isAnInteger s = true -> digits s) by (intros s; apply isAnInteger_spec).
  split; [|split; reflexivity].
  apply (nt_frac (lit "12") (lit "5") (lit "e-1") (-1)).
  - apply D. reflexivity.
  - intros c [<-|[]]. apply isdigit_In. reflexivity.
  - apply (et_minus "e" (lit "1")); [cbn; auto|apply D; reflexivity].
Qed.
