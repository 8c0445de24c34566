From Coq Require Import Ascii String.
From Verif Require Import Prelude Str_Model Str_Spec Str_Proofs Opspec_Model Opspec_Spec.
Import List.

Lemma isAnInteger_digits s : isAnInteger s = true <-> digits s.
Proof. apply isAnInteger_spec. Qed.

Lemma atoi_dig s : digits s -> atoi s = Ok (dec_val s).
Proof. intros [H1 H2]. apply atoi_nat; auto. Qed.

Lemma find_question_spec l : forall i,
  (~ In "?"%char l /\ find_question l i = i + List.length l) \/
  (exists a b, l = a ++ "?"%char :: b /\ ~ In "?"%char a /\ find_question l i = i + List.length a).
Proof.
  induction l as [|c l IH]; intros i; cbn [find_question].
  - left. split; [intros []|simpl; lia].
  - destruct (Ascii.eqb_spec c "?") as [->|N].
    + right. exists [], l. split; [reflexivity|]. split; [intros []|simpl; lia].
    + destruct (IH (S i)) as [[H E]|(a & b & -> & H & E)].
      * left. split; [intros [?|?]; congruence|simpl; lia].
      * right. exists (c :: a), b. split; [reflexivity|]. split; [intros [?|?]; congruence|simpl; lia].
Qed.

Lemma split_unique (a b a' b' : str) : a ++ "?"%char :: b = a' ++ "?"%char :: b' -> ~ In "?"%char a -> ~ In "?"%char a' -> a = a' /\ b = b'.
Proof.
  revert a'. induction a as [|x a IH]; intros [|y a'] E H H'; cbn in E.
  - inversion E. auto.
  - inversion E. subst. exfalso. apply H'. left. auto.
  - inversion E. subst. exfalso. apply H. left. auto.
  - inversion E as [[E1 E2]]. subst. destruct (IH a' E2) as [-> ->]; auto; intros K; [apply H|apply H']; right; auto.
Qed.

Lemma op_body_fun s n l : op_body s n l -> forall n' l', op_body s n' l' -> n' = n /\ l' = l.
Proof.
  intros H. destruct H as [s Hs|s d Hs Hd]; intros n' l' K.
  - inversion K as [? A|u e A B C]; subst; [auto|]. exfalso. apply Hs. apply in_or_app. right. left. reflexivity.
  - inversion K as [v A B C|v e A B C]; subst.
    + exfalso. apply A. apply in_or_app. right. left. reflexivity.
    + apply split_unique in C; auto. destruct C; subst. auto.
Qed.

(** What the constructor does with the text without its mark. *)
Definition oneop_body (label_ : str) (transpose : bool) : res opspec :=
  let i := find_question label_ 0 in
  if i =? List.length label_ then Ok (mkop 0 label_ transpose)
  else if i + 1 =? List.length label_ then Throw
  else
    do label <- substr label_ 0 (Some i) ;;
    do numericString <- substr label_ (i + 1) (Some (List.length label_)) ;;
    if negb (isAnInteger numericString) then Throw
    else do dof <- atoi numericString ;; Ok (mkop dof label transpose).

Lemma oneop_plain s : (forall t, s <> t ++ ["'"%char]) -> oneop s = oneop_body s false.
Proof.
  intros H. unfold oneop. destruct s as [|c s]; [reflexivity|].
  replace (0 <? List.length (c :: s)) with true by reflexivity.
  destruct (@exists_last _ (c :: s)) as (t & x & E); [discriminate|]. rewrite E in *.
  rewrite app_length. cbn [List.length]. replace (List.length t + 1 - 1) with (List.length t) by lia.
  unfold str_at. rewrite app_length. cbn [List.length]. destruct (Nat.ltb_spec (List.length t) (List.length t + 1)); [|lia].
  rewrite (@vget_ok _ (t ++ [x]) _ zero) by (rewrite app_length; cbn; lia). rewrite nth_middle. cbn [bind].
  destruct (Ascii.eqb_spec x "'") as [->|N]; [exfalso; eapply H; reflexivity|]. cbn [bind]. unfold oneop_body. rewrite app_length. reflexivity.
Qed.

Lemma oneop_transposed s : oneop (s ++ ["'"%char]) = oneop_body s true.
Proof.
  unfold oneop. rewrite app_length. cbn [List.length]. replace (0 <? List.length s + 1) with true by (symmetry; apply Nat.ltb_lt; lia).
  replace (List.length s + 1 - 1) with (List.length s) by lia.
  unfold str_at. rewrite app_length. cbn [List.length]. destruct (Nat.ltb_spec (List.length s) (List.length s + 1)); [|lia].
  rewrite (@vget_ok _ (s ++ _) _ zero) by (rewrite app_length; cbn; lia). rewrite nth_middle. cbn [bind].
  replace (Ascii.eqb "'" "'") with true by reflexivity. unfold substr at 1. destruct (Nat.ltb_spec (List.length (s ++ ["'"%char])) 0); [lia|].
  cbn [bind skipn]. rewrite firstn_app_len. reflexivity.
Qed.

Lemma oneop_body_spec s t :
  (exists n l, op_body s n l /\ oneop_body s t = Ok (mkop n l t)) \/ ((forall n l, ~ op_body s n l) /\ oneop_body s t = Throw).
Proof.
  unfold oneop_body. destruct (find_question_spec s 0) as [[H E]|(a & b & -> & H & E)]; rewrite E; cbn [Nat.add].
  - left. rewrite Nat.eqb_refl. eexists _, _. split; [constructor; auto|reflexivity].
  - rewrite app_length. cbn [List.length]. destruct (Nat.eqb_spec (List.length a) (List.length a + S (List.length b))); [lia|].
    assert (U : forall n l, op_body (a ++ "?"%char :: b) n l -> digits b /\ n = dec_val b /\ l = a).
    { intros m l Hb. inversion Hb as [l' Hl E1 E2 E3|l' d Hl Hd E1 E2 E3].
      - subst. exfalso. apply Hl. apply in_or_app. right. left. auto.
      - subst. apply split_unique in E1; auto. destruct E1; subst; auto. }
    destruct (Nat.eqb_spec (List.length a + 1) (List.length a + S (List.length b))).
    + right. split; [|reflexivity]. intros m l Hb. destruct (U m l Hb) as [[N _] _]. destruct b; [congruence|cbn in *; lia].
    + unfold substr. rewrite app_length. cbn [List.length]. destruct (Nat.ltb_spec (List.length a + S (List.length b)) 0); [lia|].
      destruct (Nat.ltb_spec (List.length a + S (List.length b)) (List.length a + 1)); [lia|]. cbn [bind skipn].
      rewrite firstn_app_len. replace (skipn (List.length a + 1) (a ++ "?"%char :: b)) with b.
      2: { replace (a ++ "?"%char :: b) with ((a ++ ["?"%char]) ++ b) by (rewrite <- app_assoc; reflexivity). rewrite <- (skipn_app_len (a ++ ["?"%char]) b) at 1. rewrite app_length. reflexivity. }
      rewrite firstn_all2 by lia. destruct (isAnInteger b) eqn:D; cbn [negb].
      * apply isAnInteger_digits in D. rewrite atoi_dig by auto. cbn [bind]. left. eexists _, _. split; [constructor; auto|reflexivity].
      * right. split; [|reflexivity]. intros m l Hb. destruct (U m l Hb) as [K _]. apply isAnInteger_digits in K. congruence.
Qed.

Lemma ends_dec (s : str) : (exists t, s = t ++ ["'"%char]) \/ (forall t, s <> t ++ ["'"%char]).
Proof.
  destruct s as [|c s]; [right; intros [|? ?]; discriminate|].
  destruct (@exists_last _ (c :: s)) as (t & x & E); [discriminate|]. rewrite E.
  destruct (Ascii.eqb_spec x "'") as [->|N]; [left; eauto|]. right. intros u K. apply app_inj_tail in K. destruct K. congruence.
Qed.

(** *** Sites *)

Lemma site_loop_app cb ce u : forall v i f l, site_loop cb ce (u ++ v) i f l =
  let '(f', l') := site_loop cb ce u i f l in site_loop cb ce v (i + Z.of_nat (List.length u)) f' l'.
Proof.
  induction u as [|c u IH]; intros v i f l; cbn [app site_loop List.length].
  - rewrite Z.add_0_r. reflexivity.
  - replace (i + Z.of_nat (S (List.length u)))%Z with (i + 1 + Z.of_nat (List.length u))%Z by lia.
    destruct (Ascii.eqb c cb); [apply IH|]. destruct (Ascii.eqb c ce); apply IH.
Qed.

Lemma site_loop_none cb ce u : ~ In cb u -> ~ In ce u -> forall i f l, site_loop cb ce u i f l = (f, l).
Proof.
  induction u as [|c u IH]; intros H1 H2 i f l; cbn [site_loop]; [reflexivity|].
  destruct (Ascii.eqb_spec c cb) as [->|]; [exfalso; apply H1; left; auto|].
  destruct (Ascii.eqb_spec c ce) as [->|]; [exfalso; apply H2; left; auto|].
  apply IH; intros K; [apply H1|apply H2]; right; auto.
Qed.

Lemma site_loop_nob cb ce u : cb <> ce -> ~ In cb u -> forall i f l, fst (site_loop cb ce u i f l) = f.
Proof.
  intros Hc. induction u as [|c u IH]; intros H1 i f l; cbn [site_loop]; [reflexivity|].
  destruct (Ascii.eqb_spec c cb) as [->|]; [exfalso; apply H1; left; auto|].
  destruct (Ascii.eqb c ce); apply IH; intros K; apply H1; right; auto.
Qed.
Lemma site_loop_noe cb ce u : cb <> ce -> ~ In ce u -> forall i f l, snd (site_loop cb ce u i f l) = l.
Proof.
  intros Hc. induction u as [|c u IH]; intros H1 i f l; cbn [site_loop]; [reflexivity|].
  destruct (Ascii.eqb_spec c cb); [apply IH; intros K; apply H1; right; auto|].
  destruct (Ascii.eqb_spec c ce) as [->|]; [exfalso; apply H1; left; auto|]. apply IH; intros K; apply H1; right; auto.
Qed.
Lemma site_loop_nonneg cb ce u : forall i f l, (0 <= i)%Z -> ((0 <= f)%Z -> 0 <= fst (site_loop cb ce u i f l))%Z /\ ((0 <= l)%Z -> 0 <= snd (site_loop cb ce u i f l))%Z.
Proof.
  induction u as [|c u IH]; intros i f l Hi; cbn [site_loop]; [auto|].
  destruct (Ascii.eqb c cb); [|destruct (Ascii.eqb c ce)].
  - destruct (IH (i + 1)%Z i l ltac:(lia)). auto.
  - destruct (IH (i + 1)%Z f i ltac:(lia)). auto.
  - apply IH. lia.
Qed.
Lemma site_loop_b cb ce u : In cb u -> forall i f l, (0 <= i)%Z -> (0 <= fst (site_loop cb ce u i f l))%Z.
Proof.
  induction u as [|c u IH]; intros H i f l Hi; [destruct H|]. cbn [site_loop].
  destruct (Ascii.eqb_spec c cb) as [->|N].
  - apply (site_loop_nonneg cb ce u (i + 1) i l); lia.
  - destruct H as [H|H]; [congruence|]. destruct (Ascii.eqb c ce); apply IH; auto; lia.
Qed.
Lemma site_loop_e cb ce u : cb <> ce -> In ce u -> forall i f l, (0 <= i)%Z -> (0 <= snd (site_loop cb ce u i f l))%Z.
Proof.
  intros Hc. induction u as [|c u IH]; intros H i f l Hi; [destruct H|]. cbn [site_loop].
  destruct (Ascii.eqb_spec c cb) as [->|N].
  - destruct H as [H|H]; [congruence|]. apply IH; auto; lia.
  - destruct H as [->|H].
    + rewrite Ascii.eqb_refl. apply (site_loop_nonneg cb ce u (i + 1) f i); lia.
    + destruct (Ascii.eqb c ce); apply IH; auto; lia.
Qed.

Lemma extract_ok cb ce a m b : cb <> ce -> ~ In cb m -> ~ In cb b -> ~ In ce b ->
  extractSiteIfAny cb ce (a ++ cb :: m ++ ce :: b) = Ok (true, a ++ b, m).
Proof.
  intros Hc Hm Hb1 Hb2. unfold extractSiteIfAny.
  assert (E : site_loop cb ce (a ++ cb :: m ++ ce :: b) 0 (-1) (-1) = (Z.of_nat (List.length a), Z.of_nat (List.length a + 1 + List.length m))).
  { rewrite site_loop_app. destruct (site_loop cb ce a 0 (-1) (-1)) as [f l]. cbn [site_loop]. rewrite Ascii.eqb_refl.
    rewrite site_loop_app. pose proof (site_loop_nob cb ce m Hc Hm (0 + Z.of_nat (List.length a) + 1) (0 + Z.of_nat (List.length a)) l) as F.
    destruct (site_loop cb ce m _ _ l) as [f' l']. cbn [fst] in F. subst f'. cbn [site_loop].
    destruct (Ascii.eqb_spec ce cb); [congruence|]. rewrite Ascii.eqb_refl, site_loop_none by auto. f_equal; lia. }
  rewrite E. destruct (Z.ltb_spec (Z.of_nat (List.length a)) 0); [lia|]. destruct (Z.ltb_spec (Z.of_nat (List.length a + 1 + List.length m)) 0); [lia|].
  cbn [andb]. destruct (Z.leb_spec 0 (Z.of_nat (List.length a))); [|lia]. cbn [andb orb].
  unfold as_count. destruct (Z.ltb_spec (Z.of_nat (List.length a)) 0); [lia|].
  set (L := List.length (a ++ cb :: m ++ ce :: b)).
  assert (HL : L = List.length a + 1 + List.length m + 1 + List.length b) by (unfold L; rewrite app_length; cbn [List.length]; rewrite app_length; cbn [List.length]; lia).
  destruct (Z.ltb_spec (Z.of_nat L - Z.of_nat (List.length a + 1 + List.length m)) 0); [lia|].
  destruct (Z.ltb_spec (Z.of_nat (List.length a + 1 + List.length m) - Z.of_nat (List.length a) - 1) 0); [lia|].
  unfold substr. fold L. repeat match goal with |- context [L <? ?x] => destruct (Nat.ltb_spec L x); [lia|] end. cbn [bind skipn].
  replace (Z.to_nat (Z.of_nat (List.length a))) with (List.length a) by lia. rewrite firstn_app_len.
  replace (Z.to_nat (Z.of_nat (List.length a) + 1)) with (List.length (a ++ [cb])) by (rewrite app_length; cbn; lia).
  replace (Z.to_nat (Z.of_nat (List.length a + 1 + List.length m) + 1)) with (List.length (a ++ cb :: m ++ [ce])) by (rewrite app_length; cbn [List.length]; rewrite app_length; cbn; lia).
  replace (Z.to_nat (Z.of_nat (List.length a + 1 + List.length m) - Z.of_nat (List.length a) - 1)) with (List.length m) by lia.
  replace (skipn (List.length (a ++ [cb])) (a ++ cb :: m ++ ce :: b)) with (m ++ ce :: b).
  2: { replace (a ++ cb :: m ++ ce :: b) with ((a ++ [cb]) ++ m ++ ce :: b) by (rewrite <- app_assoc; reflexivity). symmetry. apply skipn_app_len. }
  replace (skipn (List.length (a ++ cb :: m ++ [ce])) (a ++ cb :: m ++ ce :: b)) with b.
  2: { replace (a ++ cb :: m ++ ce :: b) with ((a ++ cb :: m ++ [ce]) ++ b) by (rewrite <- app_assoc; cbn; rewrite <- app_assoc; reflexivity). symmetry. apply skipn_app_len. }
  rewrite firstn_app_len, firstn_all2 by lia. reflexivity.
Qed.

Lemma nonneg_int_spec s : isNonNegativeInteger s = true <-> digits s.
Proof.
  unfold isNonNegativeInteger, digits. destruct s as [|c s]; [split; [discriminate|intros [H _]; congruence]|].
  destruct (find_idx (fun c => negb (isdigit c)) (c :: s)) eqn:E.
  - split; [discriminate|]. intros [_ H]. apply find_idx_some in E. exfalso.
    destruct E as (a & x & b & Ex & _ & Hx & _). cbv beta in Hx.
    specialize (H x ltac:(rewrite Ex; apply in_or_app; right; left; auto)). apply isdigit_In in H. rewrite H in Hx. discriminate.
  - split; [|auto]. intros _. split; [discriminate|]. intros x Hx. apply isdigit_In. pose proof (find_idx_none _ _ E x Hx) as K. cbv beta in K. destruct (isdigit x); [reflexivity|discriminate].
Qed.

(** *** Vectors *)

Lemma digit_range c : is_digit c -> (N_of_ascii c <? 48)%N || (57 <? N_of_ascii c)%N = false.
Proof. intros H. apply isdigit_In in H. unfold isdigit in H. apply andb_true_iff in H. destruct H as [H1 H2]. apply N.leb_le in H1, H2. apply orb_false_iff. split; apply N.ltb_ge; lia. Qed.

Lemma number_loop_digits d rest : (forall c, In c d -> is_digit c) -> (forall c r, rest = c :: r -> ~ is_digit c) ->
  forall acc, number_loop (d ++ rest) acc = (acc ++ d, rest).
Proof.
  intros Hd Hr. induction d as [|c d IH]; intros acc.
  - rewrite app_nil_r. destruct rest as [|c r]; [reflexivity|]. cbn [app number_loop].
    destruct (_ || _) eqn:E; [reflexivity|]. exfalso. apply (Hr c r eq_refl). apply isdigit_In. unfold isdigit.
    apply orb_false_iff in E. destruct E as [E1 E2]. apply N.ltb_ge in E1, E2. apply andb_true_iff. split; apply N.leb_le; lia.
  - cbn [app number_loop]. rewrite digit_range by (apply Hd; left; auto). rewrite IH by (intros; apply Hd; right; auto). rewrite <- app_assoc. reflexivity.
Qed.

Lemma getNumber_ok c d rest : (forall c, In c d -> is_digit c) -> (forall c r, rest = c :: r -> ~ is_digit c) ->
  getNumberFrom (c :: d ++ rest) 1 = Ok (dec_val d, rest).
Proof.
  intros Hd Hr. unfold getNumberFrom. cbn [skipn]. rewrite number_loop_digits by auto. cbn [app].
  destruct d as [|x d]; [reflexivity|]. rewrite atoi_nat by (auto; discriminate). reflexivity.
Qed.

Lemma digits_split (s : str) : exists d rest, s = d ++ rest /\ (forall c, In c d -> is_digit c) /\ (forall c r, rest = c :: r -> ~ is_digit c).
Proof.
  induction s as [|c s IH].
  - exists [], []. repeat split; [intros ? []|discriminate].
  - destruct (isdigit c) eqn:E.
    + destruct IH as (d & r & -> & H1 & H2). exists (c :: d), r. split; [reflexivity|]. split; [|auto]. intros x [<-|Hx]; auto. apply isdigit_In. auto.
    + exists [], (c :: s). split; [reflexivity|]. split; [intros ? []|]. intros x r K. inversion K. subst. intros D. apply isdigit_In in D. congruence.
Qed.
