From Coq Require Import Ascii String QArith Qpower Qfield.
From Verif Require Import Prelude Str_Model Str_Spec Str_Proofs Opspec_Model Opspec_Spec Opspec_Proofs Strc_Model Strc_Spec.
Import List.
Local Open Scope nat_scope.

Definition nodig (r : str) : Prop := forall c r', r = c :: r' -> ~ is_digit c.

Lemma take_digits_ok d r : (forall c, In c d -> is_digit c) -> nodig r -> take_digits (d ++ r) = (d, r).
Proof.
  intros Hd Hr. induction d as [|c d IH]; cbn [app].
  - destruct r as [|c r]; [reflexivity|]. cbn [take_digits]. destruct (isdigit c) eqn:E; [|reflexivity]. exfalso. apply (Hr c r eq_refl). apply isdigit_In. auto.
  - cbn [take_digits]. assert (E : isdigit c = true) by (apply isdigit_In, Hd; left; auto). rewrite E, IH; auto. intros; apply Hd; right; auto.
Qed.

Lemma dec_val_app a b : dec_val (a ++ b) = (dec_val a * 10 ^ Z.of_nat (List.length b) + dec_val b)%Z.
Proof.
  induction a as [|c a IH]; cbn [app dec_val]; [lia|]. rewrite IH, app_length, Nat2Z.inj_add, Z.pow_add_r by lia. ring.
Qed.

Lemma atoi_digits_0 d : (forall c, In c d -> is_digit c) -> atoi_digits d 0 = dec_val d.
Proof. intros H. rewrite atoi_digits_spec by auto. lia. Qed.

Lemma digit_not c x : is_digit c -> isdigit x = false -> Ascii.eqb c x = false.
Proof. intros H E. destruct (Ascii.eqb_spec c x) as [->|]; [apply isdigit_In in H; congruence|reflexivity]. Qed.

(** What may follow a number: the end, a sign or i. *)
Definition stops (r : str) : Prop := r = [] \/ exists c r', r = c :: r' /\ In c (lit "+-i").

Lemma stops_nodig r : stops r -> nodig r.
Proof. intros [->|(c & r' & -> & H)] c' r'' E; [discriminate|]. inversion E. subst. intros D. apply isdigit_In in D. destruct H as [<-|[<-|[<-|[]]]]; discriminate. Qed.

Lemma take_sign_digits (neg : bool) d r : digits d -> take_sign ((if neg then ["-"%char] else []) ++ d ++ r) = (neg, d ++ r).
Proof.
  intros [N D]. destruct neg; [reflexivity|]. destruct d as [|c d]; [congruence|]. cbn [app take_sign].
  assert (H : is_digit c) by (apply D; left; auto). rewrite !digit_not by auto. reflexivity.
Qed.

(** The end of the number. *)
Definition exp_part (s : str) (mk : Z -> option Q) : option Q * str :=
  match s with
  | c :: s' =>
    if Ascii.eqb c "e" || Ascii.eqb c "E" then
      let '(eneg, s') := take_sign s' in
      let '(d, s') := take_digits s' in
      match d with [] => (None, s') | _ => (mk (signed eneg (atoi_digits d 0)), s') end
    else (mk 0%Z, s)
  | [] => (mk 0%Z, [])
  end.

Lemma exp_part_ok x e mk r : exp_text x e -> stops r -> exp_part (x ++ r) mk = (mk e, r).
Proof.
  intros H Hr. pose proof (stops_nodig r Hr) as Nr. destruct H as [|c d Hc [N D]|c d Hc [N D]|c d Hc [N D]].
  - destruct Hr as [->|(c & r' & -> & Hc)]; [reflexivity|]. destruct Hc as [<-|[<-|[<-|[]]]]; reflexivity.
  - cbn [app exp_part]. replace (Ascii.eqb c "e" || Ascii.eqb c "E")%bool with true by (destruct Hc as [<-|[<-|[]]]; reflexivity).
    pose proof (take_sign_digits false d r (conj N D)) as E. cbn [app] in E. rewrite E, take_digits_ok by auto. rewrite atoi_digits_0 by auto. destruct d; [congruence|reflexivity].
  - cbn [app exp_part]. replace (Ascii.eqb c "e" || Ascii.eqb c "E")%bool with true by (destruct Hc as [<-|[<-|[]]]; reflexivity).
    cbn [take_sign]. replace (Ascii.eqb "+" "-") with false by reflexivity. replace (Ascii.eqb "+" "+") with true by reflexivity.
    rewrite take_digits_ok by auto. rewrite atoi_digits_0 by auto. destruct d; [congruence|reflexivity].
  - cbn [app exp_part]. replace (Ascii.eqb c "e" || Ascii.eqb c "E")%bool with true by (destruct Hc as [<-|[<-|[]]]; reflexivity).
    cbn [take_sign]. replace (Ascii.eqb "-" "-") with true by reflexivity.
    rewrite take_digits_ok by auto. rewrite atoi_digits_0 by auto. destruct d; [congruence|reflexivity].
Qed.

Lemma exp_head x e r : exp_text x e -> stops r -> nodig (x ++ r) /\ forall c s, x ++ r = c :: s -> Ascii.eqb c "." = false.
Proof.
  intros H Hr. pose proof (stops_nodig r Hr) as Nr. destruct H as [|c d Hc _|c d Hc _|c d Hc _]; cbn [app].
  - split; [auto|]. intros c s E. destruct Hr as [->|(c' & r' & -> & Hc)]; [discriminate|]. inversion E. subst. destruct Hc as [<-|[<-|[<-|[]]]]; reflexivity.
  - split; [intros c' s E K|intros c' s E]; inversion E; subst; destruct Hc as [<-|[<-|[]]]; try reflexivity; apply isdigit_In in K; discriminate.
  - split; [intros c' s E K|intros c' s E]; inversion E; subst; destruct Hc as [<-|[<-|[]]]; try reflexivity; apply isdigit_In in K; discriminate.
  - split; [intros c' s E K|intros c' s E]; inversion E; subst; destruct Hc as [<-|[<-|[]]]; try reflexivity; apply isdigit_In in K; discriminate.
Qed.

Lemma q_shift m k e : (0 <= k)%Z -> (inject_Z m * Qpower (inject_Z 10) (e - k) == inject_Z m / inject_Z (10 ^ k) * Qpower (inject_Z 10) e)%Q.
Proof.
  intros Hk. assert (N : ~ (inject_Z 10 == 0)%Q) by discriminate.
  replace (e - k)%Z with (e + - k)%Z by lia. rewrite Qpower_plus by exact N. rewrite Qpower_opp, Zpower_Qpower by lia. unfold Qdiv. ring.
Qed.

Lemma inject_signed neg z : (inject_Z (signed neg z) == if neg then - inject_Z z else inject_Z z)%Q.
Proof. destruct neg; cbn [signed]; [rewrite inject_Z_opp|]; reflexivity. Qed.

Lemma get_double_ok (neg : bool) t q r : num_text t q -> stops r ->
  exists v, get_double ((if neg then ["-"%char] else []) ++ t ++ r) = (Some v, r) /\ (v == if neg then - q else q)%Q.
Proof.
  intros H Hr. destruct H as [a x e Ha Hx|a b x e Ha Hb Hx].
  - unfold get_double. rewrite <- app_assoc, take_sign_digits by auto. destruct (exp_head x e r Hx Hr) as [H1 H2].
    rewrite take_digits_ok by (auto; apply Ha). 
    replace (match x ++ r with c :: s' => if Ascii.eqb c "." then take_digits s' else ([], x ++ r) | [] => ([], []) end) with (@nil ascii, x ++ r).
    2: { destruct (x ++ r) as [|c s] eqn:E; [reflexivity|]. rewrite (H2 c s eq_refl). reflexivity. }
    rewrite app_nil_r. destruct a as [|c0 a0] eqn:Ea; [destruct Ha; congruence|]. rewrite <- Ea in *.
    match goal with |- context [match x ++ r with [] => (?A, []) | _ => _ end] => idtac end.
    set (mk := fun e0 : Z => Some (inject_Z (signed neg (atoi_digits a 0)) * Qpower (inject_Z 10) (e0 - Z.of_nat (List.length (@nil ascii))))%Q).
    exists (inject_Z (signed neg (atoi_digits a 0)) * Qpower (inject_Z 10) (e - Z.of_nat (List.length (@nil ascii))))%Q. split.
    + exact (exp_part_ok x e mk r Hx Hr).
    + cbn [List.length Z.of_nat]. rewrite Z.sub_0_r, inject_signed, atoi_digits_0 by apply Ha. destruct neg; ring.
  - unfold get_double. rewrite <- app_assoc, take_sign_digits by auto. destruct (exp_head x e r Hx Hr) as [H1 H2].
    replace (("."%char :: b ++ x) ++ r) with ("."%char :: b ++ (x ++ r)) by (cbn; rewrite <- app_assoc; reflexivity).
    rewrite take_digits_ok by (try apply Ha; intros c s E; inversion E; subst; intros D; apply isdigit_In in D; discriminate).
    replace (Ascii.eqb "." ".") with true by reflexivity. rewrite take_digits_ok by auto.
    destruct (a ++ b) as [|c ab] eqn:Ea; [destruct Ha as [Ha _]; destruct a; [congruence|discriminate]|]. rewrite <- Ea in *.
    set (mk := fun e0 : Z => Some (inject_Z (signed neg (atoi_digits (a ++ b) 0)) * Qpower (inject_Z 10) (e0 - Z.of_nat (List.length b)))%Q).
    exists (inject_Z (signed neg (atoi_digits (a ++ b) 0)) * Qpower (inject_Z 10) (e - Z.of_nat (List.length b)))%Q. split.
    + exact (exp_part_ok x e mk r Hx Hr).
    + rewrite q_shift by lia. rewrite inject_signed, atoi_digits_0 by (intros y Hy; apply in_app_or in Hy; destruct Hy; auto; apply Ha; auto).
      rewrite dec_val_app, inject_Z_plus, inject_Z_mult.
      assert (P : ~ (inject_Z (10 ^ Z.of_nat (List.length b)) == 0)%Q).
      { intros K. change 0%Q with (inject_Z 0) in K. rewrite inject_Z_injective in K. pose proof (Z.pow_pos_nonneg 10 (Z.of_nat (List.length b)) ltac:(lia) ltac:(lia)). lia. }
      destruct neg; field; auto.
Qed.

Lemma num_head t q : num_text t q -> exists c t', t = c :: t' /\ is_digit c.
Proof. intros H. destruct H as [a x e [N D] _|a b x e [N D] _ _]; (destruct a as [|c a]; [congruence|]); eexists _, _; (split; [reflexivity|]); apply D; left; auto. Qed.

Lemma digit_nospace c : is_digit c -> isspace c = false.
Proof. intros H. destruct H as [<-|[<-|[<-|[<-|[<-|[<-|[<-|[<-|[<-|[<-|[]]]]]]]]]]]; reflexivity. Qed.

Lemma in_double_ok (neg : bool) t q r x : num_text t q -> stops r ->
  exists v, in_double (Some ((if neg then ["-"%char] else []) ++ t ++ r)) x = (v, match r with [] => None | _ => Some r end) /\ (v == if neg then - q else q)%Q.
Proof.
  intros H Hr. destruct (get_double_ok neg t q r H Hr) as (v & E & Ev). exists v. split; [|exact Ev]. unfold in_double.
  assert (Es : skipws ((if neg then ["-"%char] else []) ++ t ++ r) = (if neg then ["-"%char] else []) ++ t ++ r).
  { destruct neg; [reflexivity|]. destruct (num_head t q H) as (c & t' & -> & D). cbn [app skipws]. rewrite digit_nospace by auto. reflexivity. }
  rewrite Es. destruct ((if neg then ["-"%char] else []) ++ t ++ r) eqn:En.
  - destruct (num_head t q H) as (c & t' & -> & D). destruct neg; discriminate.
  - rewrite E. destruct r; reflexivity.
Qed.

Lemma find_chr_In c s : is_some (find_chr c s) = true <-> In c s.
Proof.
  unfold find_chr. destruct (find_idx (Ascii.eqb c) s) eqn:E; cbn [is_some].
  - apply find_idx_some in E. destruct E as (a & x & b & -> & _ & Hx & _). apply Ascii.eqb_eq in Hx. subst x. split; [|auto]. intros _. apply in_or_app. right. left. auto.
  - split; [discriminate|]. intros H. pose proof (find_idx_none _ _ E c H) as K. rewrite Ascii.eqb_refl in K. discriminate.
Qed.

Lemma find_chr_not c s : ~ In c s -> is_some (find_chr c s) = false.
Proof. intros H. destruct (is_some (find_chr c s)) eqn:E; [|reflexivity]. apply find_chr_In in E. contradiction. Qed.

Lemma after_chr_at c u x v : ~ In c u -> str_at (u ++ c :: x :: v) (after_chr c (u ++ c :: x :: v)) = Ok x.
Proof.
  intros H. unfold after_chr, find_chr. rewrite find_idx_app_some.
  - unfold str_at. rewrite app_length. cbn [List.length]. destruct (Nat.ltb_spec (List.length u + 1) (List.length u + S (S (List.length v)))); [|lia].
    rewrite (@vget_ok _ _ _ zero) by (rewrite app_length; cbn [List.length]; lia). rewrite app_nth2 by lia. replace (List.length u + 1 - List.length u) with 1 by lia. reflexivity.
  - apply Ascii.eqb_refl.
  - intros y Hy. destruct (Ascii.eqb_spec c y) as [->|]; [contradiction|reflexivity].
Qed.

Lemma after_chr_none c s : ~ In c s -> str_at s (after_chr c s) = str_at s 0.
Proof. intros H. apply find_chr_not in H. unfold after_chr. destruct (find_chr c s); [discriminate|reflexivity]. Qed.

Lemma after_chr_ok c s : exists x, str_at s (after_chr c s) = Ok x.
Proof.
  unfold after_chr. destruct (find_chr c s) as [i|] eqn:E.
  - apply find_idx_some in E. destruct E as (a & x & b & -> & <- & _ & _). unfold str_at. rewrite app_length. cbn [List.length].
    destruct (Nat.ltb_spec (List.length a + 1) (List.length a + S (List.length b))).
    + rewrite (@vget_ok _ _ _ zero) by (rewrite app_length; cbn [List.length]; lia). eauto.
    + destruct (Nat.eqb_spec (List.length a + 1) (List.length a + S (List.length b))); [eauto|lia].
  - destruct s; eexists; reflexivity.
Qed.

Lemma str_back_app s c : str_back (s ++ [c]) = Ok c.
Proof.
  unfold str_back. destruct (s ++ [c]) as [|x l] eqn:E; [destruct s; discriminate|]. rewrite <- E. rewrite app_length. cbn [List.length].
  rewrite (@vget_ok _ _ _ zero) by (rewrite app_length; cbn; lia). replace (List.length s + 1 - 1) with (List.length s) by lia. rewrite nth_middle. reflexivity.
Qed.

Lemma digit_char c x : is_digit c -> ~ is_digit x -> c <> x.
Proof. intros H1 H2 ->. contradiction. Qed.

(** Characters of a number. *)
Lemma exp_chars x e : exp_text x e -> forall c, In c x -> is_digit c \/ In c (lit "eE+-").
Proof.
  intros H. destruct H as [|k d Hk [N D]|k d Hk [N D]|k d Hk [N D]]; intros c Hc; cbn [In] in Hc.
  - contradiction.
  - destruct Hc as [<-|Hc]; [right; destruct Hk as [<-|[<-|[]]]; cbn; auto|auto].
  - destruct Hc as [<-|[<-|Hc]]; [right; destruct Hk as [<-|[<-|[]]]; cbn; auto|right; cbn; auto|auto].
  - destruct Hc as [<-|[<-|Hc]]; [right; destruct Hk as [<-|[<-|[]]]; cbn; auto|right; cbn; auto|auto].
Qed.
Lemma num_chars t q : num_text t q -> forall c, In c t -> is_digit c \/ In c (lit ".eE+-").
Proof.
  intros H. destruct H as [a x e [N D] Hx|a b x e [N D] Hb Hx]; intros c Hc; apply in_app_or in Hc.
  - destruct Hc as [Hc|Hc]; [auto|]. destruct (exp_chars x e Hx c Hc); [auto|right; right; auto].
  - destruct Hc as [Hc|[<-|Hc]]; [auto|right; left; auto|]. apply in_app_or in Hc. destruct Hc as [Hc|Hc]; [auto|]. destruct (exp_chars x e Hx c Hc); [auto|right; right; auto].
Qed.
Lemma num_no_i t q : num_text t q -> ~ In "i"%char t.
Proof. intros H K. destruct (num_chars t q H _ K) as [D|D]; [apply isdigit_In in D; discriminate|]. destruct D as [D|[D|[D|[D|[D|[]]]]]]; discriminate. Qed.

Lemma nodig_in s c : ~ is_digit c -> (forall x, In x s -> is_digit x) -> ~ In c s.
Proof. intros H D K. apply H. auto. Qed.

Lemma plus_nodigit : ~ is_digit "+"%char.
Proof. intros D. apply isdigit_In in D. discriminate. Qed.

(** A plus sign in a number is followed by a digit. *)
Lemma exp_plus x e : exp_text x e -> ~ In "+"%char x \/ exists u d v, x = u ++ "+"%char :: d :: v /\ ~ In "+"%char u /\ is_digit d.
Proof.
  intros H. destruct H as [|k d Hk [N D]|k d Hk [N D]|k d Hk [N D]].
  - left. intros [].
  - left. intros [K|K]; [destruct Hk as [<-|[<-|[]]]; discriminate|]. apply plus_nodigit. auto.
  - right. destruct d as [|c d]; [congruence|]. exists [k], c, d. split; [reflexivity|]. split; [|apply D; left; auto].
    intros [K|[]]. destruct Hk as [<-|[<-|[]]]; discriminate.
  - left. intros [K|[K|K]]; [destruct Hk as [<-|[<-|[]]]; discriminate|discriminate|]. apply plus_nodigit. auto.
Qed.
Lemma num_plus t q : num_text t q -> ~ In "+"%char t \/ exists u d v, t = u ++ "+"%char :: d :: v /\ ~ In "+"%char u /\ is_digit d.
Proof.
  intros H. destruct H as [a x e [N D] Hx|a b x e [N D] Hb Hx].
  - destruct (exp_plus x e Hx) as [K|(u & d & v & -> & K & Hd)].
    + left. intros J. apply in_app_or in J. destruct J as [J|J]; [apply plus_nodigit; auto|auto].
    + right. exists (a ++ u), d, v. rewrite app_assoc. split; [reflexivity|]. split; [|auto]. intros J. apply in_app_or in J. destruct J as [J|J]; [apply plus_nodigit; auto|auto].
  - destruct (exp_plus x e Hx) as [K|(u & d & v & -> & K & Hd)].
    + left. intros J. apply in_app_or in J. destruct J as [J|[J|J]]; [apply plus_nodigit; auto|discriminate|]. apply in_app_or in J. destruct J as [J|J]; [apply plus_nodigit; auto|auto].
    + right. exists (a ++ "."%char :: b ++ u), d, v. split; [rewrite <- app_assoc; cbn; rewrite <- app_assoc; reflexivity|]. split; [|auto].
      intros J. apply in_app_or in J. destruct J as [J|[J|J]]; [apply plus_nodigit; auto|discriminate|]. apply in_app_or in J. destruct J as [J|J]; [apply plus_nodigit; auto|auto].
Qed.

(** In sign-number-plus-rest, the first plus sign is followed by a digit if rest starts with a digit. *)
Lemma after_plus_digit (neg : bool) t q y r : num_text t q -> is_digit y ->
  exists d, is_digit d /\ str_at ((if neg then ["-"%char] else []) ++ t ++ "+"%char :: y :: r) (after_chr "+" ((if neg then ["-"%char] else []) ++ t ++ "+"%char :: y :: r)) = Ok d.
Proof.
  intros H Hy. destruct (num_plus t q H) as [K|(u & d & v & -> & K & Hd)].
  - exists y. split; [auto|]. rewrite app_assoc. apply after_chr_at. intros J. apply in_app_or in J. destruct J as [J|J]; [|auto]. destruct neg; [destruct J as [J|[]]; discriminate|destruct J].
  - exists d. split; [auto|]. replace ((if neg then ["-"%char] else []) ++ (u ++ "+"%char :: d :: v) ++ "+"%char :: y :: r) with (((if neg then ["-"%char] else []) ++ u) ++ "+"%char :: d :: v ++ "+"%char :: y :: r).
    2: { rewrite <- !app_assoc. reflexivity. }
    apply after_chr_at. intros J. apply in_app_or in J. destruct J as [J|J]; [|auto]. destruct neg; [destruct J as [J|[]]; discriminate|destruct J].
Qed.

(** Reading sign-number, a sign, sign-number, i. *)
Lemma two_parts (n1 n2 : bool) a x c b y s : num_text a x -> num_text b y -> In c (lit "+-") ->
  s = (if n1 then ["-"%char] else []) ++ a ++ c :: (if n2 then ["-"%char] else []) ++ b ++ ["i"%char] ->
  exists u v k, (u == if n1 then - x else x)%Q /\ (v == if n2 then - y else y)%Q /\ str_at s (after_chr "+" s) = Ok k /\
    stringToComplex s = Ok (u, if Ascii.eqb k "-" then (- v)%Q else v).
Proof.
  intros Ha Hb Hc Hs.
  destruct (in_double_ok n1 a x (c :: (if n2 then ["-"%char] else []) ++ b ++ ["i"%char]) 0 Ha) as (u & E1 & Eu).
  { right. eexists _, _. split; [reflexivity|]. destruct Hc as [<-|[<-|[]]]; cbn; auto. }
  destruct (in_double_ok n2 b y ["i"%char] 0 Hb) as (v & E2 & Ev); [right; eexists _, _; split; [reflexivity|]; cbn; auto|].
  destruct (after_chr_ok "+" s) as [k Ek]. exists u, v, k. split; [exact Eu|]. split; [exact Ev|]. split; [exact Ek|].
  unfold stringToComplex.
  replace (is_some (find_chr "+" s) || is_some (find_chr "-" s))%bool with true.
  2: { symmetry. apply orb_true_iff. destruct Hc as [<-|[<-|[]]]; [left|right]; apply find_chr_In; rewrite Hs; apply in_or_app; right; apply in_or_app; right; left; reflexivity. }
  rewrite Ek. rewrite Hs at 1. rewrite E1. cbn [in_char skipws]. replace (isspace c) with false by (destruct Hc as [<-|[<-|[]]]; reflexivity).
  rewrite E2. replace (str_back s) with (Ok "i"%char).
  - reflexivity.
  - rewrite Hs. replace ((if n1 then ["-"%char] else []) ++ a ++ c :: (if n2 then ["-"%char] else []) ++ b ++ ["i"%char]) with (((if n1 then ["-"%char] else []) ++ a ++ c :: (if n2 then ["-"%char] else []) ++ b) ++ ["i"%char]).
    + symmetry. apply str_back_app.
    + rewrite <- !app_assoc. cbn. rewrite <- !app_assoc. reflexivity.
Qed.

(** The last character of a number is not i. *)
Lemma num_back (neg : bool) t q : num_text t q -> exists c, str_back ((if neg then ["-"%char] else []) ++ t) = Ok c /\ Ascii.eqb c "i" = false.
Proof.
  intros H. destruct (num_head t q H) as (c & t' & Et & _). destruct (@exists_last _ t) as (u & k & E); [subst t; discriminate|].
  exists k. rewrite E, app_assoc. split; [apply str_back_app|]. destruct (Ascii.eqb_spec k "i") as [->|]; [|reflexivity]. exfalso. apply (num_no_i t q H). rewrite E. apply in_or_app. right. left. auto.
Qed.

Lemma one_real (neg : bool) a x s : num_text a x -> s = (if neg then ["-"%char] else []) ++ a ->
  exists u v, stringToComplex s = Ok (u, v) /\ (u == if neg then - x else x)%Q /\ (v == 0)%Q.
Proof.
  intros Ha Hs. destruct (in_double_ok neg a x [] 0 Ha) as (u & E1 & Eu); [left; reflexivity|]. rewrite app_nil_r, <- Hs in E1.
  destruct (num_back neg a x Ha) as (k & Ek & Nk). rewrite <- Hs in Ek. unfold stringToComplex. rewrite E1. cbn [in_char in_double]. rewrite Ek.
  destruct (is_some (find_chr "+" s) || is_some (find_chr "-" s))%bool.
  - cbn [bind]. rewrite Nk. cbn [negb]. destruct (after_chr_ok "+" s) as [c Ec]. rewrite Ec. cbn [bind]. destruct (Ascii.eqb c "-"); eexists _, _; (split; [reflexivity|]); split; auto; reflexivity.
  - rewrite find_chr_not; [eexists _, _; split; [reflexivity|]; split; auto; reflexivity|].
    rewrite Hs. intros J. apply in_app_or in J. destruct J as [J|J]; [|eapply num_no_i; eauto]. destruct neg; [destruct J as [J|[]]; discriminate|destruct J].
Qed.

Lemma one_imag b y : num_text b y -> ~ In "+"%char b -> ~ In "-"%char b ->
  exists v, stringToComplex (b ++ ["i"%char]) = Ok (0%Q, v) /\ (v == y)%Q.
Proof.
  intros Hb N1 N2. destruct (in_double_ok false b y ["i"%char] 0 Hb) as (v & E & Ev); [right; eexists _, _; split; [reflexivity|]; cbn; auto|].
  cbn [app] in E. exists v. split; [|exact Ev]. unfold stringToComplex. rewrite E, str_back_app.
  rewrite (find_chr_not "+"), (find_chr_not "-"); [|intros J; apply in_app_or in J; destruct J as [J|[J|[]]]; [auto|discriminate]..]. cbn [orb].
  rewrite (proj2 (find_chr_In "i" (b ++ ["i"%char]))) by (apply in_or_app; right; left; auto). reflexivity.
Qed.

Lemma minus_imag b y : num_text b y ->
  exists u v, stringToComplex ("-"%char :: b ++ ["i"%char]) = Ok (u, v) /\ (u == - y)%Q /\ (v == 0)%Q.
Proof.
  intros Hb. destruct (in_double_ok true b y ["i"%char] 0 Hb) as (u & E & Eu); [right; eexists _, _; split; [reflexivity|]; cbn; auto|].
  cbn [app] in E. unfold stringToComplex. rewrite E. cbn [in_char in_double skipws]. replace (isspace "i") with false by reflexivity.
  replace (is_some (find_chr "+" ("-"%char :: b ++ ["i"%char])) || is_some (find_chr "-" ("-"%char :: b ++ ["i"%char])))%bool with true.
  2: { symmetry. apply orb_true_iff. right. apply find_chr_In. left. auto. }
  pose proof (str_back_app ("-"%char :: b) "i") as B. cbn [app] in B. rewrite B. cbn [bind skipws].
  replace (negb (Ascii.eqb "i" "i")) with false by reflexivity.
  destruct (after_chr_ok "+" ("-"%char :: b ++ ["i"%char])) as [c Ec]. rewrite Ec. cbn [bind].
  destruct (Ascii.eqb c "-"); eexists _, _; (split; [reflexivity|]); split; auto; reflexivity.
Qed.
