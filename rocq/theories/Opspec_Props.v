(** C63: operator and vector specifications. *)
From Coq Require Import Ascii String.
From Verif Require Import Prelude Str_Model Str_Spec Str_Proofs Opspec_Model Opspec_Spec Opspec_Proofs.
Import List.

(** An operator specification is accepted exactly when it is in the grammar, with the denoted parts, and is
    rejected with an error otherwise. *)
Theorem C63_operator : forall s,
  (forall n l t, oneop s = Ok (mkop n l t) <-> op_text s n l t) /\
  ((forall n l t, ~ op_text s n l t) -> oneop s = Throw).
Proof.
  intros s. destruct (ends_dec s) as [[u ->]|N].
  - rewrite oneop_transposed.
    assert (U : forall n l t, op_text (u ++ ["'"%char]) n l t <-> t = true /\ op_body u n l).
    { intros n l t. split.
      - intros H. inversion H as [? ? ? K Hb|v ? ? Hb K]; subst; [exfalso; eapply K; reflexivity|].
        apply app_inj_tail in K. destruct K as [-> _]. auto.
      - intros [-> H]. constructor. auto. }
    destruct (oneop_body_spec u true) as [(n & l & Hb & E)|[Hn E]]; rewrite E.
    + split.
      * intros n' l' t'. rewrite U. split; [intros K; inversion K; subst; auto|]. intros [-> K].
        destruct (op_body_fun u n l Hb n' l' K) as [-> ->]. reflexivity.
      * intros K. exfalso. apply (K n l true). apply U. auto.
    + split; [|auto]. intros n l t. rewrite U. split; [discriminate|]. intros [_ K]. exfalso. eapply Hn; eauto.
  - rewrite oneop_plain by auto.
    assert (U : forall n l t, op_text s n l t <-> t = false /\ op_body s n l).
    { intros n l t. split.
      - intros H. inversion H as [? ? ? K Hb|v ? ? Hb K]; subst; [auto|exfalso; eapply N; reflexivity].
      - intros [-> H]. constructor; auto. }
    destruct (oneop_body_spec s false) as [(n & l & Hb & E)|[Hn E]]; rewrite E.
    + split.
      * intros n' l' t'. rewrite U. split; [intros K; inversion K; subst; auto|]. intros [-> K].
        destruct (op_body_fun s n l Hb n' l' K) as [-> ->]. reflexivity.
      * intros K. exfalso. apply (K n l false). apply U. auto.
    + split; [|auto]. intros n l t. rewrite U. split; [discriminate|]. intros [_ K]. exfalso. eapply Hn; eauto.
Qed.
Print Assumptions C63_operator.

(** name[site]: the parts are what is outside and inside the last pair of brackets; text without brackets has
    no site; text with only one kind of bracket is rejected. The brackets may be any two different characters. *)
Theorem C63_site_partial : forall cb ce, cb <> ce ->
  (forall a m b, ~ In cb m -> ~ In cb b -> ~ In ce b ->
     extractSiteIfAny cb ce (a ++ [cb] ++ m ++ [ce] ++ b) = Ok (true, a ++ b, m)) /\
  (forall s, ~ In cb s -> ~ In ce s -> extractSiteIfAny cb ce s = Ok (false, s, [])) /\
  (forall s, In cb s -> ~ In ce s -> extractSiteIfAny cb ce s = Throw) /\
  (forall s, ~ In cb s -> In ce s -> extractSiteIfAny cb ce s = Throw).
Proof.
  intros cb ce Hc. split; [intros; apply extract_ok; auto|]. split; [|split].
  - intros s H1 H2. unfold extractSiteIfAny. rewrite site_loop_none by auto. reflexivity.
  - intros s H1 H2. unfold extractSiteIfAny.
    pose proof (site_loop_b cb ce s H1 0 (-1) (-1) ltac:(lia)) as A. pose proof (site_loop_noe cb ce s Hc H2 0 (-1) (-1)) as B.
    destruct (site_loop cb ce s 0 (-1) (-1)) as [f l]. cbn [fst snd] in *. subst l.
    destruct (Z.ltb_spec f 0); [lia|]. destruct (Z.leb_spec 0 f); [reflexivity|lia].
  - intros s H1 H2. unfold extractSiteIfAny.
    pose proof (site_loop_e cb ce s Hc H2 0 (-1) (-1) ltac:(lia)) as A. pose proof (site_loop_nob cb ce s Hc H1 0 (-1) (-1)) as B.
    destruct (site_loop cb ce s 0 (-1) (-1)) as [f l]. cbn [fst snd] in *. subst f.
    destruct (Z.ltb_spec l 0); [lia|]. destruct (Z.leb_spec 0 l); [reflexivity|lia].
Qed.
Print Assumptions C63_site_partial.

(** A closing bracket before the opening one is accepted and part of the text is duplicated. *)
Theorem C63_site_refuted : extractSiteIfAny "[" "]" (lit "]a[") = Ok (true, lit "]aa[", []).
Proof. reflexivity. Qed.
Print Assumptions C63_site_refuted.

(** A site text is turned into a number exactly when it is a string of digits. *)
Theorem C63_site_number : forall s,
  (digits s -> strToNumberOrFail s = Ok (dec_val s)) /\ (~ digits s -> strToNumberOrFail s = Throw).
Proof.
  intros s. unfold strToNumberOrFail. split.
  - intros D. rewrite (proj2 (nonneg_int_spec s) D). cbn [negb]. apply atoi_dig. auto.
  - intros D. destruct (isNonNegativeInteger s) eqn:E; [exfalso; apply D; apply nonneg_int_spec; auto|reflexivity].
Qed.
Print Assumptions C63_site_number.

Definition kind_of (k : vkind) : kind := match k with VEnergy => KE | VP => KP | VR => KR end.

Lemma getKind_ok s k a b : vec_text s k a b -> getKind s = Ok (kind_of k, a, b).
Proof.
  intros H. destruct H as [| |d Hd|d Hd|d Hd|d Hd|d e Hd He]; try reflexivity.
  - destruct Hd as [N D]. unfold getKind. destruct (Nat.ltb_spec (List.length ("P"%char :: d)) 2); [destruct d; [congruence|cbn in *; lia]|].
    cbn [str_at List.length Nat.ltb Nat.leb vget nth_error bind]. unfold str_at. cbn [List.length Nat.ltb Nat.leb vget nth_error bind Ascii.eqb].
    replace ("P"%char :: d) with ("P"%char :: d ++ []) by (rewrite app_nil_r; reflexivity).
    replace (Ascii.eqb "P" "P") with true by reflexivity. rewrite getNumber_ok by (auto; discriminate). reflexivity.
  - destruct Hd as [N D]. unfold getKind. destruct (Nat.ltb_spec (List.length ("R"%char :: d)) 2); [destruct d; [congruence|cbn in *; lia]|].
    unfold str_at. cbn [List.length Nat.ltb Nat.leb vget nth_error bind].
    replace (Ascii.eqb "R" "P") with false by reflexivity. replace (Ascii.eqb "R" "Q") with false by reflexivity. replace (Ascii.eqb "R" "R") with true by reflexivity.
    destruct (str_eqb ("R"%char :: d) (lit "gs")) eqn:E; [apply str_eqb_eq in E; discriminate|]. clear E.
    destruct (str_eqb ("R"%char :: d) (lit "time")) eqn:E; [apply str_eqb_eq in E; discriminate|]. clear E.
    replace ("R"%char :: d) with ("R"%char :: d ++ []) by (rewrite app_nil_r; reflexivity).
    rewrite getNumber_ok by (auto; discriminate). reflexivity.
  - destruct Hd as [N D]. unfold getKind. destruct (Nat.ltb_spec (List.length ("Q"%char :: d)) 2); [destruct d; [congruence|cbn in *; lia]|].
    unfold str_at. cbn [List.length Nat.ltb Nat.leb vget nth_error bind].
    replace (Ascii.eqb "Q" "P") with false by reflexivity. replace (Ascii.eqb "Q" "Q") with true by reflexivity.
    destruct (str_eqb ("Q"%char :: d) (lit "gs")) eqn:E; [apply str_eqb_eq in E; discriminate|]. clear E.
    destruct (str_eqb ("Q"%char :: d) (lit "time")) eqn:E; [apply str_eqb_eq in E; discriminate|]. clear E.
    replace ("Q"%char :: d) with ("Q"%char :: d ++ []) by (rewrite app_nil_r; reflexivity).
    rewrite getNumber_ok by (auto; discriminate). reflexivity.
  - destruct Hd as [N D]. unfold getKind. destruct (Nat.ltb_spec (List.length ("X"%char :: d)) 2); [destruct d; [congruence|cbn in *; lia]|].
    unfold str_at. cbn [List.length Nat.ltb Nat.leb vget nth_error bind].
    replace (Ascii.eqb "X" "P") with false by reflexivity. replace (Ascii.eqb "X" "Q") with false by reflexivity. replace (Ascii.eqb "X" "R") with false by reflexivity.
    destruct (str_eqb ("X"%char :: d) (lit "gs")) eqn:E; [apply str_eqb_eq in E; discriminate|]. clear E.
    destruct (str_eqb ("X"%char :: d) (lit "time")) eqn:E; [apply str_eqb_eq in E; discriminate|]. clear E.
    unfold getKind_tail. destruct (Nat.ltb_spec (List.length ("X"%char :: d)) 2); [lia|]. unfold str_at. cbn [List.length Nat.ltb Nat.leb vget nth_error bind].
    replace (Ascii.eqb "X" "X") with true by reflexivity.
    replace ("X"%char :: d) with ("X"%char :: d ++ []) by (rewrite app_nil_r; reflexivity).
    rewrite getNumber_ok by (auto; discriminate). reflexivity.
  - destruct Hd as [N D], He as [N' D']. unfold getKind. destruct (Nat.ltb_spec (List.length ("Q"%char :: d ++ "X"%char :: e)) 2) as [L|_]; [cbn in L; rewrite app_length in L; cbn in L; lia|].
    unfold str_at. cbn [List.length Nat.ltb Nat.leb vget nth_error bind].
    replace (Ascii.eqb "Q" "P") with false by reflexivity. replace (Ascii.eqb "Q" "Q") with true by reflexivity.
    match goal with |- context [str_eqb ?s (lit "gs")] => destruct (str_eqb s (lit "gs")) eqn:E; [apply str_eqb_eq in E; discriminate|]; clear E end.
    match goal with |- context [str_eqb ?s (lit "time")] => destruct (str_eqb s (lit "time")) eqn:E; [apply str_eqb_eq in E; discriminate|]; clear E end.
    rewrite getNumber_ok; [|auto|intros c r K; inversion K; subst; intros Z; apply isdigit_In in Z; discriminate]. cbn [bind].
    unfold getKind_tail. destruct (Nat.ltb_spec (List.length ("X"%char :: e)) 2); [destruct e; [congruence|cbn in *; lia]|].
    unfold str_at. cbn [List.length Nat.ltb Nat.leb vget nth_error bind]. replace (Ascii.eqb "X" "X") with true by reflexivity.
    replace ("X"%char :: e) with ("X"%char :: e ++ []) by (rewrite app_nil_r; reflexivity).
    rewrite getNumber_ok by (auto; discriminate). reflexivity.
Qed.

Lemma vec_head s k a b : vec_text s k a b -> exists c s', s = c :: s' /\ c <> "|"%char /\ c <> "<"%char /\ s' <> [].
Proof.
  intros H. destruct H as [| |d [N _]|d [N _]|d [N _]|d [N _]|d e [N _] _]; eexists _, _; (split; [reflexivity|]); split; try discriminate; split; try discriminate; auto.
  destruct d; discriminate.
Qed.

Lemma str_at_0 c (s : str) : str_at (c :: s) 0 = Ok c.
Proof. reflexivity. Qed.
Lemma str_at_last (s : str) c : str_at (s ++ [c]) (List.length s) = Ok c.
Proof. unfold str_at. rewrite app_length. cbn [List.length]. destruct (Nat.ltb_spec (List.length s) (List.length s + 1)); [|lia]. rewrite (@vget_ok _ (s ++ [c]) _ zero) by (rewrite app_length; cbn; lia). rewrite nth_middle. reflexivity. Qed.

(** Every vector specification in the grammar is recognised, bare or as ket |..>, or as bra <..|. *)
Theorem C63_vector_partial : forall t k a b, vec_text t k a b ->
  getBraOrKet t = Ok (mkbk true t (kind_of k) a b) /\
  getBraOrKet (["|"%char] ++ t ++ [">"%char]) = Ok (mkbk true t (kind_of k) a b) /\
  getBraOrKet (["<"%char] ++ t ++ ["|"%char]) = Ok (mkbk false t (kind_of k) a b).
Proof.
  intros t k a b H. pose proof (getKind_ok t k a b H) as EK. destruct (vec_head t k a b H) as (c & s & -> & N1 & N2 & N3).
  split; [|split].
  - unfold getBraOrKet. destruct (Nat.ltb_spec (List.length (c :: s)) 2); [destruct s; [congruence|cbn in *; lia]|].
    rewrite str_at_0. cbn [bind]. destruct (Ascii.eqb_spec c "|"); [congruence|]. cbn [bind]. rewrite str_at_0. cbn [bind].
    destruct (Ascii.eqb_spec c "<"); [congruence|]. cbn [bind]. rewrite EK. reflexivity.
  - unfold getBraOrKet. cbn [app]. set (u := "|"%char :: c :: s ++ [">"%char]).
    assert (Lu : List.length u = List.length s + 3) by (unfold u; cbn [List.length]; rewrite app_length; cbn; lia). rewrite Lu.
    destruct (Nat.ltb_spec (List.length s + 3) 2); [lia|]. unfold u at 1. rewrite str_at_0. cbn [bind].
    replace (Ascii.eqb "|" "|") with true by reflexivity.
    replace (str_at u (List.length s + 3 - 1)) with (Ok ">"%char).
    2: { symmetry. replace (List.length s + 3 - 1) with (List.length ("|"%char :: c :: s)) by (cbn; lia). apply (str_at_last ("|"%char :: c :: s)). }
    cbn [bind]. replace (Ascii.eqb ">" ">") with true by reflexivity. destruct (Nat.ltb_spec 2 (List.length s + 3)); [|lia]. cbn [andb].
    assert (Es : substr u 1 (Some (List.length s + 3 - 2)) = Ok (c :: s)).
    { unfold substr. rewrite Lu. destruct (Nat.ltb_spec (List.length s + 3) 1); [lia|]. unfold u. cbn [skipn]. f_equal.
      replace (List.length s + 3 - 2) with (List.length (c :: s)) by (cbn; lia). apply (firstn_app_len (c :: s) [">"%char]). }
    rewrite Es. cbn [bind]. rewrite str_at_0. cbn [bind]. destruct (Ascii.eqb_spec c "<"); [congruence|]. cbn [bind]. rewrite EK. reflexivity.
  - unfold getBraOrKet. cbn [app]. set (u := "<"%char :: c :: s ++ ["|"%char]).
    assert (Lu : List.length u = List.length s + 3) by (unfold u; cbn [List.length]; rewrite app_length; cbn; lia). rewrite Lu.
    destruct (Nat.ltb_spec (List.length s + 3) 2); [lia|]. unfold u at 1. rewrite str_at_0. cbn [bind].
    replace (Ascii.eqb "<" "|") with false by reflexivity. cbn [bind]. unfold u at 1. rewrite str_at_0. cbn [bind].
    replace (Ascii.eqb "<" "<") with true by reflexivity.
    replace (str_at u (List.length s + 3 - 1)) with (Ok "|"%char).
    2: { symmetry. replace (List.length s + 3 - 1) with (List.length ("<"%char :: c :: s)) by (cbn; lia). apply (str_at_last ("<"%char :: c :: s)). }
    cbn [bind]. replace (Ascii.eqb "|" "|") with true by reflexivity. destruct (Nat.ltb_spec 2 (List.length s + 3)); [|lia]. cbn [andb].
    assert (Es : substr u 1 (Some (List.length s + 3 - 2)) = Ok (c :: s)).
    { unfold substr. rewrite Lu. destruct (Nat.ltb_spec (List.length s + 3) 1); [lia|]. unfold u. cbn [skipn]. f_equal.
      replace (List.length s + 3 - 2) with (List.length (c :: s)) by (cbn; lia). apply (firstn_app_len (c :: s) ["|"%char]). }
    rewrite Es. cbn [bind]. rewrite EK. reflexivity.
Qed.
Print Assumptions C63_vector_partial.

(** The numbers of a vector can be asked for only if its kind has them. *)
Theorem C63_vector_access : forall t k a b, vec_text t k a b ->
  forall g, getBraOrKet t = Ok g ->
  match k with
  | VEnergy => sectorIndex g = Ok a /\ levelIndex g = Ok b /\ pIndex g = Throw /\ isPvector g = false /\ isRvector g = false
  | VP => sectorIndex g = Throw /\ levelIndex g = Throw /\ pIndex g = Ok a /\ isPvector g = true /\ isRvector g = false
  | VR => sectorIndex g = Throw /\ levelIndex g = Throw /\ pIndex g = Ok a /\ isPvector g = false /\ isRvector g = true
  end.
Proof.
  intros t k a b H g E. destruct (C63_vector_partial t k a b H) as [E' _]. rewrite E' in E. inversion E. destruct k; cbn; auto.
Qed.
Print Assumptions C63_vector_access.

(** A bare specification that does not start with P, Q, R or X is rejected, unless it is gs or time; so is one where something
    of at least two characters other than X.. follows the number after P or Q. *)
Theorem C63_vector_rejected_partial : forall c s,
  (c <> "|"%char -> c <> "<"%char -> ~ In c (lit "PQRX") -> c :: s <> lit "gs" -> c :: s <> lit "time" -> getBraOrKet (c :: s) = Throw) /\
  (forall d x r, In c (lit "PQ") -> s = d ++ x :: r -> (forall y, In y d -> is_digit y) -> ~ is_digit x -> x <> "X"%char -> r <> [] -> getBraOrKet (c :: s) = Throw).
Proof.
  intros c s. split.
  - intros N1 N2 N3 N4 N5. unfold getBraOrKet. destruct s as [|y s]; [reflexivity|]. cbn [List.length]. replace (S (S (List.length s)) <? 2) with false by reflexivity.
    rewrite str_at_0. cbn [bind]. destruct (Ascii.eqb_spec c "|"); [congruence|]. cbn [bind]. rewrite str_at_0. cbn [bind].
    destruct (Ascii.eqb_spec c "<"); [congruence|]. cbn [bind]. unfold getKind. cbn [List.length]. replace (S (S (List.length s)) <? 2) with false by reflexivity.
    rewrite str_at_0. cbn [bind]. destruct (Ascii.eqb_spec c "P") as [->|_]; [exfalso; apply N3; cbn; auto|].
    destruct (str_eqb (c :: y :: s) (lit "gs")) eqn:E; [apply str_eqb_eq in E; congruence|]. clear E.
    destruct (str_eqb (c :: y :: s) (lit "time")) eqn:E; [apply str_eqb_eq in E; congruence|]. clear E.
    destruct (Ascii.eqb_spec c "Q") as [->|_]; [exfalso; apply N3; cbn; auto|]. destruct (Ascii.eqb_spec c "R") as [->|_]; [exfalso; apply N3; cbn; auto|].
    unfold getKind_tail. cbn [List.length]. replace (S (S (List.length s)) <? 2) with false by reflexivity. rewrite str_at_0. cbn [bind].
    destruct (Ascii.eqb_spec c "X") as [->|_]; [exfalso; apply N3; cbn; auto|]. reflexivity.
  - intros d x r Hc -> Hd Hx Nx Hr.
    assert (L : List.length (c :: d ++ x :: r) <? 2 = false) by (apply Nat.ltb_ge; cbn; rewrite app_length; cbn; lia).
    assert (T : forall k n, getKind_tail (x :: r) k n = Throw).
    { intros k n. unfold getKind_tail. destruct r as [|y r]; [congruence|]. cbn [List.length]. replace (S (S (List.length r)) <? 2) with false by reflexivity. rewrite str_at_0. cbn [bind].
      destruct (Ascii.eqb_spec x "X"); [congruence|reflexivity]. }
    unfold getBraOrKet. rewrite L, str_at_0. cbn [bind].
    assert (c = "P"%char \/ c = "Q"%char) as [-> | ->] by (destruct Hc as [<-|[<-|[]]]; auto).
    + replace (Ascii.eqb "P" "|") with false by reflexivity. cbn [bind]. rewrite str_at_0. cbn [bind]. replace (Ascii.eqb "P" "<") with false by reflexivity. cbn [bind].
      unfold getKind. rewrite L, str_at_0. cbn [bind]. replace (Ascii.eqb "P" "P") with true by reflexivity.
      rewrite getNumber_ok by (auto; intros ? ? K; inversion K; subst; auto). cbn [bind]. rewrite T. reflexivity.
    + replace (Ascii.eqb "Q" "|") with false by reflexivity. cbn [bind]. rewrite str_at_0. cbn [bind]. replace (Ascii.eqb "Q" "<") with false by reflexivity. cbn [bind].
      unfold getKind. rewrite L, str_at_0. cbn [bind]. replace (Ascii.eqb "Q" "P") with false by reflexivity. replace (Ascii.eqb "Q" "Q") with true by reflexivity.
      match goal with |- context [str_eqb ?s (lit "gs")] => destruct (str_eqb s (lit "gs")) eqn:E; [apply str_eqb_eq in E; discriminate|]; clear E end.
      match goal with |- context [str_eqb ?s (lit "time")] => destruct (str_eqb s (lit "time")) eqn:E; [apply str_eqb_eq in E; discriminate|]; clear E end.
      rewrite getNumber_ok by (auto; intros ? ? K; inversion K; subst; auto). cbn [bind]. rewrite T. reflexivity.
Qed.
Print Assumptions C63_vector_rejected_partial.

(** Malformed specifications that are accepted: a letter without a number, and text after the number; and one
    whose check reads beyond the end of the string. *)
Theorem C63_vector_refuted :
  (forall x, ~ is_digit x -> getBraOrKet ["P"%char; x] = Ok (mkbk true ["P"%char; x] KP 0 0)) /\
  (forall x r, ~ is_digit x -> getBraOrKet ("R"%char :: x :: r) = Ok (mkbk true ("R"%char :: x :: r) KR 0 0)) /\
  (forall d x r, digits d -> ~ is_digit x -> getBraOrKet ("X"%char :: d ++ x :: r) = Ok (mkbk true ("X"%char :: d ++ x :: r) KE 0 (dec_val d))) /\
  (forall t, getBraOrKet (["|"%char; "<"%char] ++ t ++ [">"%char]) = UB).
Proof.
  split; [|split; [|split]].
  - intros x Hx. unfold getBraOrKet. cbn [List.length Nat.ltb Nat.leb]. rewrite str_at_0. cbn [bind]. replace (Ascii.eqb "P" "|") with false by reflexivity. cbn [bind]. rewrite str_at_0. cbn [bind].
    replace (Ascii.eqb "P" "<") with false by reflexivity. cbn [bind]. unfold getKind. cbn [List.length Nat.ltb Nat.leb]. rewrite str_at_0. cbn [bind]. replace (Ascii.eqb "P" "P") with true by reflexivity.
    assert (G : getNumberFrom ["P"%char; x] 1 = Ok (0%Z, [x])) by (apply (getNumber_ok "P" [] [x]); [intros ? []|intros c r K; inversion K; subst; auto]).
    rewrite G. reflexivity.
  - intros x r Hx. unfold getBraOrKet. cbn [List.length]. replace (S (S (List.length r)) <? 2) with false by reflexivity. rewrite str_at_0. cbn [bind]. replace (Ascii.eqb "R" "|") with false by reflexivity. cbn [bind]. rewrite str_at_0. cbn [bind].
    replace (Ascii.eqb "R" "<") with false by reflexivity. cbn [bind]. unfold getKind. cbn [List.length]. replace (S (S (List.length r)) <? 2) with false by reflexivity. rewrite str_at_0. cbn [bind].
    replace (Ascii.eqb "R" "P") with false by reflexivity. replace (Ascii.eqb "R" "Q") with false by reflexivity. replace (Ascii.eqb "R" "R") with true by reflexivity.
    match goal with |- context [str_eqb ?s (lit "gs")] => destruct (str_eqb s (lit "gs")) eqn:E; [apply str_eqb_eq in E; discriminate|]; clear E end.
    match goal with |- context [str_eqb ?s (lit "time")] => destruct (str_eqb s (lit "time")) eqn:E; [apply str_eqb_eq in E; discriminate|]; clear E end.
    assert (G : getNumberFrom ("R"%char :: x :: r) 1 = Ok (0%Z, x :: r)) by (apply (getNumber_ok "R" [] (x :: r)); [intros ? []|intros c r' K; inversion K; subst; auto]).
    rewrite G. reflexivity.
  - intros d x r [N D] Hx.
    assert (L : List.length ("X"%char :: d ++ x :: r) <? 2 = false) by (apply Nat.ltb_ge; cbn; rewrite app_length; cbn; lia).
    unfold getBraOrKet. rewrite L, str_at_0. cbn [bind]. replace (Ascii.eqb "X" "|") with false by reflexivity. cbn [bind]. rewrite str_at_0. cbn [bind].
    replace (Ascii.eqb "X" "<") with false by reflexivity. cbn [bind]. unfold getKind. rewrite L, str_at_0. cbn [bind].
    replace (Ascii.eqb "X" "P") with false by reflexivity. replace (Ascii.eqb "X" "Q") with false by reflexivity. replace (Ascii.eqb "X" "R") with false by reflexivity.
    match goal with |- context [str_eqb ?s (lit "gs")] => destruct (str_eqb s (lit "gs")) eqn:E; [apply str_eqb_eq in E; discriminate|]; clear E end.
    match goal with |- context [str_eqb ?s (lit "time")] => destruct (str_eqb s (lit "time")) eqn:E; [apply str_eqb_eq in E; discriminate|]; clear E end.
    unfold getKind_tail. rewrite L, str_at_0. cbn [bind]. replace (Ascii.eqb "X" "X") with true by reflexivity.
    rewrite getNumber_ok by (auto; intros ? ? K; inversion K; subst; auto). reflexivity.
  - intros t. unfold getBraOrKet. cbn [app]. set (u := "|"%char :: "<"%char :: t ++ [">"%char]).
    assert (Lu : List.length u = List.length t + 3) by (unfold u; cbn [List.length]; rewrite app_length; cbn; lia). rewrite Lu.
    destruct (Nat.ltb_spec (List.length t + 3) 2); [lia|]. unfold u at 1. rewrite str_at_0. cbn [bind].
    replace (Ascii.eqb "|" "|") with true by reflexivity.
    replace (str_at u (List.length t + 3 - 1)) with (Ok ">"%char).
    2: { symmetry. replace (List.length t + 3 - 1) with (List.length ("|"%char :: "<"%char :: t)) by (cbn; lia). apply (str_at_last ("|"%char :: "<"%char :: t)). }
    cbn [bind]. replace (Ascii.eqb ">" ">") with true by reflexivity. destruct (Nat.ltb_spec 2 (List.length t + 3)); [|lia]. cbn [andb].
    assert (Es : substr u 1 (Some (List.length t + 3 - 2)) = Ok ("<"%char :: t)).
    { unfold substr. rewrite Lu. destruct (Nat.ltb_spec (List.length t + 3) 1); [lia|]. unfold u. cbn [skipn]. f_equal.
      replace (List.length t + 3 - 2) with (List.length ("<"%char :: t)) by (cbn; lia). apply (firstn_app_len ("<"%char :: t) [">"%char]). }
    rewrite Es. cbn [bind]. rewrite str_at_0. cbn [bind]. replace (Ascii.eqb "<" "<") with true by reflexivity.
    unfold str_at. cbn [List.length]. destruct (Nat.ltb_spec (List.length t + 3 - 1) (S (List.length t))); [lia|]. destruct (Nat.eqb_spec (List.length t + 3 - 1) (S (List.length t))); [lia|]. reflexivity.
Qed.
Print Assumptions C63_vector_refuted.

Example C63_nonvacuous :
  oneop (lit "c?12'") = Ok (mkop 12 (lit "c") true) /\ oneop (lit "n") = Ok (mkop 0 (lit "n") false) /\ oneop (lit "c?x") = Throw /\ oneop (lit "c?") = Throw /\
  op_text (lit "c?12'") 12 (lit "c") true /\
  extractSiteIfAny "[" "]" (lit "c[3]'") = Ok (true, lit "c'", lit "3") /\ strToNumberOrFail (lit "-3") = Throw /\
  vec_text (lit "Q12X34") VEnergy 12 34 /\ getBraOrKet (lit "<Q12X34|") = Ok (mkbk false (lit "Q12X34") KE 12 34).
Proof.
  assert (D : digits (lit "12")) by (split; [discriminate|]; intros c [<-|[<-|[]]]; apply isdigit_In; reflexivity).
  assert (D' : digits (lit "34")) by (split; [discriminate|]; intros c [<-|[<-|[]]]; apply isdigit_In; reflexivity).
  repeat split.
  - apply (ot_transposed (lit "c?12") 12 (lit "c")). apply (ob_dof (lit "c") (lit "12")); auto. intros [K|[]]. discriminate.
  - apply (vt_QX (lit "12") (lit "34")); auto.
Qed.
