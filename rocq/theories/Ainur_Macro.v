From Coq Require Import Ascii String Permutation.
From Verif Require Import Prelude Ring Str_Model Str_Spec Str_Proofs Text_Model Input_Model Ainur_Model Ainur_Spec Ainur_Proofs.
Import List.

Lemma name_char_ok c : isValidCharForMacroName c = true <-> name_char c.
Proof. unfold name_char. destruct c as [[] [] [] [] [] [] [] []]; vm_compute; split; intros H; try reflexivity; try discriminate; intuition discriminate. Qed.
Lemma name_char_not c : isValidCharForMacroName c = false <-> ~ name_char c.
Proof. rewrite <- name_char_ok. destruct (isValidCharForMacroName c); intuition discriminate. Qed.
Lemma name_not_backslash c : name_char c -> c <> backslash.
Proof. intros H ->. apply name_char_ok in H. discriminate. Qed.

(** ** What is left when no macro is found *)
Lemma expand_true vars v : forall b m r u, expand_loop vars v b m r true <> Ok (false, u).
Proof.
  induction v as [|x v IH]; intros b m r u H; [discriminate|]. cbn [expand_loop] in H.
  destruct (Ascii.eqb x "\"); [exact (IH _ _ _ _ H)|]. destruct b; cbn [negb] in H; [|exact (IH _ _ _ _ H)]. destruct (isValidCharForMacroName x); [exact (IH _ _ _ _ H)|].
  destruct (storageIndexByName vars m); [|discriminate]. destruct (vget vars n); cbn [bind] in H; try discriminate. exact (IH _ _ _ _ H).
Qed.
Lemma expand_status vars v : forall m r has u, expand_loop vars v true m r has = Ok (false, u) ->
  forall c, In c v -> name_char c \/ c = backslash.
Proof.
  induction v as [|c v IH]; intros m r has u H x Hx; [destruct Hx|]. cbn [expand_loop negb] in H. destruct (Ascii.eqb_spec c "\") as [-> |N].
  - destruct Hx as [<-|Hx]; [auto|eauto].
  - destruct (isValidCharForMacroName c) eqn:V.
    + destruct Hx as [<-|Hx]; [left; apply name_char_ok; auto|eauto].
    + exfalso. destruct (storageIndexByName vars m); [|discriminate]. destruct (vget vars n) as [a| | |]; cbn [bind] in H; try discriminate.
      elim (expand_true _ _ _ _ _ _ H).
Qed.
Lemma expand_false vars v u : expandOneValue vars v = Ok (false, u) -> settled v.
Proof.
  unfold expandOneValue. generalize (@nil ascii) at 2. generalize (@nil ascii). intros m r H a b c E Hc. revert r H. subst v. induction a as [|x a IH]; intros r H.
  - cbn [app expand_loop] in H. replace (Ascii.eqb backslash "\") with true in H by reflexivity. eapply expand_status; eauto.
  - cbn [app expand_loop negb] in H. destruct (Ascii.eqb_spec x "\") as [-> |N]; [|eauto].
    pose proof (expand_status _ _ _ _ _ _ H) as K. apply K. apply in_or_app. right. right. auto.
Qed.

(** ** The replacement *)
Section Replace.
  Variable W : str -> str.
  Variable isvar : str -> Prop.

  (** [tm H h b w]: the macros of b stand for variables of rank less than h; replacing each variable n by W n gives w. *)
  Definition names (H : str -> nat) (h : nat) : str -> str -> Prop := fun n w => isvar n /\ H n < h /\ w = W n.
  Definition tm (H : str -> nat) (h : nat) := replaced (names H h).

  Lemma replaced_mono (N1 N2 : str -> str -> Prop) b w : (forall n v, N1 n v -> N2 n v) -> replaced N1 b w -> replaced N2 b w.
  Proof. intros S R. induction R; [constructor; auto|econstructor; eauto]. Qed.
  Lemma replaced_text_app N s b w : ~ In backslash s -> replaced N b w -> replaced N (s ++ b) (s ++ w).
  Proof.
    intros Ns R. destruct R as [s' H|s' n w c rest rest' A1 A2 A3 A4 A5 A6].
    - constructor. rewrite in_app_iff. tauto.
    - rewrite !app_assoc. rewrite <- (app_assoc s s'), <- (app_assoc (s ++ s') w). rewrite app_assoc. eapply replaced_macro; eauto. rewrite in_app_iff. tauto.
  Qed.
  Lemma replaced_app N b w b' w' : replaced N b w -> replaced N b' w' -> replaced N (b ++ b') (w ++ w').
  Proof.
    intros R R'. induction R as [s H|s n w c rest rest' A1 A2 A3 A4 A5 A6 IH].
    - apply replaced_text_app; auto.
    - rewrite <- !app_assoc. cbn [app]. rewrite <- app_assoc. cbn [app] in *. eapply replaced_macro; eauto.
  Qed.

  Definition noq (s : str) : Prop := ~ In """"%char s /\ ~ In "!"%char s.
  Lemma noq_app s t : noq (s ++ t) <-> noq s /\ noq t.
  Proof. clear. unfold noq. rewrite !in_app_iff. tauto. Qed.
  Lemma unquote_noq b : noq b -> unquote b = b.
  Proof.
    clear. intros [Q _]. destruct b as [|c b]; [reflexivity|]. unfold unquote. destruct (Ascii.eqb_spec c """") as [-> |N]; [elim Q; left; auto|].
    destruct (Ascii.eqb_spec (nth (List.length (c :: b) - 1) (c :: b) zero) """") as [E|E]; [|reflexivity]. elim Q. rewrite <- E. apply nth_In. cbn; lia.
  Qed.
  Lemma unquote_quoted b : unquote (quoted b) = b.
  Proof.
    clear. change (unquote (quoted b)) with (match b ++ [""""%char] with [] => b ++ [""""%char] | _ :: _ => if Ascii.eqb (nth (List.length (b ++ [""""%char]) - 1) (b ++ [""""%char]) zero) """"
      then firstn (List.length (b ++ [""""%char]) - 1) (b ++ [""""%char]) else b ++ [""""%char] end).
    destruct (b ++ [""""%char]) as [|c s] eqn:E; [destruct b; discriminate|].
    rewrite <- E. rewrite app_length. cbn [List.length]. replace (List.length b + 1 - 1) with (List.length b) by lia. rewrite app_nth2, Nat.sub_diag by lia. cbn [nth].
    replace (Ascii.eqb """" """") with true by reflexivity. rewrite firstn_app, Nat.sub_diag, firstn_all. cbn. apply app_nil_r.
  Qed.

  Variable H : str -> nat.
  Variable vars : list avar.
  (** The variables hold texts that stand for their W. *)
  Definition stands (a : avar) : Prop := exists b, (av_value a = b \/ av_value a = quoted b) /\ noq b /\ tm H (H (av_key a)) b (W (av_key a)).
  Hypothesis env : forall n, isvar n -> exists i a, storageIndexByName vars n = Some i /\ nth_error vars i = Some a /\ av_key a = n /\ stands a.

  Lemma loop_text s : ~ In backslash s -> forall v m r has, expand_loop vars (s ++ v) false m r has = expand_loop vars v false m (r ++ s) has.
  Proof.
    clear - vars. induction s as [|c s IH]; intros Ns v m r has; [rewrite app_nil_r; reflexivity|]. cbn [app expand_loop negb].
    destruct (Ascii.eqb_spec c "\") as [-> |N]; [elim Ns; left; auto|]. rewrite IH by (intros K; apply Ns; right; auto). rewrite <- app_assoc. reflexivity.
  Qed.
  Lemma loop_name n : (forall x, In x n -> name_char x) -> forall v m r has, expand_loop vars (n ++ v) true m r has = expand_loop vars v true (m ++ n) r has.
  Proof.
    clear - vars. induction n as [|c n IH]; intros Nn v m r has; [rewrite app_nil_r; reflexivity|]. cbn [app expand_loop negb].
    destruct (Ascii.eqb_spec c "\") as [-> |N]; [exfalso; apply (name_not_backslash "\"); [apply Nn; left; auto|reflexivity]|].
    rewrite (proj2 (name_char_ok c)) by (apply Nn; left; auto). rewrite IH by (intros x Hx; apply Nn; right; auto). rewrite <- app_assoc. reflexivity.
  Qed.

  Lemma loop_tm h b w : tm H h b w -> noq b -> forall s r has, exists u has',
    expand_loop vars (b ++ s) false [] r has = expand_loop vars s false [] (r ++ u) (has || has') /\
    tm H (pred h) u w /\ noq u /\ (has' = false -> u = b /\ b = w) /\ (h = 0 -> has' = false).
  Proof.
    intros T. induction T as [s0 N|s0 n w c rest rest' A1 A2 A3 A4 (V & Hr & Ew) A6 IH]; intros Q s r has.
    - exists s0, false. rewrite loop_text by auto. rewrite orb_false_r. split; auto. split; [constructor; auto|]. auto.
    - apply noq_app in Q. destruct Q as [Q1 Q2]. assert (Q3 : noq (c :: rest)).
      { destruct Q2 as [Qa Qb]. split; intros K; [apply Qa|apply Qb]; right; apply in_or_app; right; auto. }
      destruct (env n V) as (i & a & X & Ea & En & b0 & Eb & Qb & Tb).
      rewrite <- app_assoc. cbn [app]. rewrite <- app_assoc. cbn [app]. rewrite loop_text by auto. cbn [expand_loop]. replace (Ascii.eqb backslash "\") with true by reflexivity.
      rewrite loop_name by auto. cbn [app expand_loop negb]. destruct (Ascii.eqb_spec c "\") as [Ec|Ec]; [elim A4; auto|].
      rewrite (proj2 (name_char_not c) A3), X, (vget_nth _ _ _ Ea). cbn [bind].
      assert (Eu : unquote (av_value a) = b0) by (destruct Eb as [-> | ->]; [apply unquote_noq|apply unquote_quoted]; auto). rewrite Eu.
      destruct (IH Q3 s ((r ++ s0) ++ b0) true) as (u & has' & E1 & T1 & Qu & _ & _). cbn [app expand_loop negb] in E1.
      destruct (Ascii.eqb_spec c "\") as [Ec'|_]; [congruence|]. rewrite <- app_assoc in E1. rewrite <- app_assoc in E1. rewrite <- app_assoc. rewrite E1.
      exists (s0 ++ b0 ++ u), true. split.
      { rewrite orb_true_r. cbn [orb]. rewrite <- !app_assoc. reflexivity. }
      split.
      { apply replaced_text_app; auto. apply replaced_app; auto. rewrite Ew, <- En. unfold tm in Tb |- *. eapply replaced_mono; [|exact Tb].
        intros n' v' (V' & Hr' & E'). split; auto. split; auto. rewrite En in Hr'. lia. }
      split; [rewrite !noq_app; auto|]. split; [discriminate|]. intros ->. lia.
  Qed.

  Lemma expand_tm a : stands a -> exists u has, expandOneValue vars (av_value a) = Ok (has, u) /\
    (has = true -> noq u /\ tm H (pred (H (av_key a))) u (W (av_key a))) /\
    (has = false -> (exists b, (av_value a = b \/ av_value a = quoted b) /\ noq b /\ tm H (pred (H (av_key a))) b (W (av_key a))) /\
       (av_value a = W (av_key a) \/ av_value a = quoted (W (av_key a)))) /\ (H (av_key a) = 0 -> has = false).
  Proof.
    intros (b & E & Q & T). unfold expandOneValue. destruct E as [E|E].
    - destruct (loop_tm _ _ _ T Q [] [] false) as (u & has & E1 & T1 & Q1 & F1 & F2). rewrite app_nil_r in E1. rewrite E, E1. cbn [expand_loop app orb]. rewrite (unquote_noq u Q1).
      exists u, has. split; auto. split; auto. split; auto. intros K. destruct (F1 K) as [-> Ew]. split; [exists b|left]; auto.
    - destruct (loop_tm _ _ _ T Q [""""%char] [""""%char] false) as (u & has & E1 & T1 & Q1 & F1 & F2). rewrite E. unfold quoted at 1. cbn [expand_loop app negb].
      replace (Ascii.eqb """" "\") with false by reflexivity. rewrite E1. cbn [expand_loop app negb orb]. replace (Ascii.eqb """" "\") with false by reflexivity.
      change (""""%char :: u ++ [""""%char]) with (quoted u). rewrite unquote_quoted.
      exists u, has. split; auto. split; auto. split; auto. intros K. destruct (F1 K) as [-> Ew]. split; [exists b; auto|right; congruence].
  Qed.
End Replace.

(** ** Passes *)
Section Passes.
  Variable load : str -> bool.
  Variable W : str -> str.
  Variable isvar : str -> Prop.

  Record PInv (H : str -> nat) (keys : list str) (used : list nat) (st : astate) : Prop := {
    p_keys : map av_key (as_vars st) = keys;
    p_used : as_used st = used;
    p_var : forall n, isvar n -> In n keys;
    p_stands : forall i a, nth_error (as_vars st) i = Some a -> isvar (av_key a) -> stands W isvar H a;
    p_other : forall i a, nth_error (as_vars st) i = Some a -> ~ isvar (av_key a) -> ~ In backslash (av_value a);
    p_funcs : as_funcs st = [] }.

  Variable keys : list str.
  Variable used : list nat.
  Hypothesis ND : NoDup keys.
  Hypothesis len : List.length used = List.length keys.
  Hypothesis dec : forall k, isvar k \/ ~ isvar k.

  Lemma loop_plain vars v : ~ In backslash v -> expandOneValue vars v = Ok (false, unquote v).
  Proof. intros N. unfold expandOneValue. rewrite <- (app_nil_r v) at 1. rewrite loop_text by auto. reflexivity. Qed.

  Definition bounded (H : str -> nat) (lo hi : nat) (N : nat) : Prop :=
    forall j k u, nth_error keys j = Some k -> nth_error used j = Some u -> u <> 0 -> isvar k -> lo <= j < hi -> H k <= N.

  Definition lower (H : str -> nat) (k : str) : str -> nat := fun n => if str_eqb n k then pred (H n) else H n.
  Lemma lower_le H k n : lower H k n <= H n.
  Proof. unfold lower. destruct (str_eqb n k); lia. Qed.
  Lemma lower_at H k : lower H k k = pred (H k).
  Proof. unfold lower. rewrite (proj2 (str_eqb_eq _ _) eq_refl). auto. Qed.
  Lemma lower_tm H k h b w : tm W isvar H h b w -> tm W isvar (lower H k) h b w.
  Proof. apply replaced_mono. intros n v (V & L & E). split; auto. split; auto. pose proof (lower_le H k n). lia. Qed.

  Lemma lower_bounded H j k u N : nth_error keys j = Some k -> nth_error used j = Some u -> u <> 0 -> isvar k ->
    bounded H 0 j (pred N) -> bounded H j (List.length keys) N -> bounded (lower H k) 0 (S j) (pred N) /\ bounded (lower H k) (S j) (List.length keys) N.
  Proof.
    intros Ek Eu U V B1 B2. assert (Lj : j < List.length keys) by (apply nth_error_Some; congruence). split; intros i k' u' Ei Eu' U' V' L.
    - destruct (Nat.eq_dec i j) as [-> |Ni].
      + rewrite Ek in Ei. injection Ei as <-. rewrite lower_at. specialize (B2 j k u Ek Eu U V ltac:(lia)). lia.
      + pose proof (lower_le H k k'). specialize (B1 i k' u' Ei Eu' U' V' ltac:(lia)). lia.
    - pose proof (lower_le H k k'). specialize (B2 i k' u' Ei Eu' U' V' ltac:(lia)). lia.
  Qed.

  Lemma pass_ok H st N : PInv H keys used st -> bounded H 0 (List.length keys) N ->
    exists any st' H', expandMacros load st = Ok (any, st') /\ PInv H' keys used st' /\ bounded H' 0 (List.length keys) (pred N) /\ (N = 0 -> any = false) /\
      (any = false -> st' = st /\ forall i a u, nth_error (as_vars st) i = Some a -> nth_error used i = Some u -> u <> 0 -> isvar (av_key a) ->
        av_value a = W (av_key a) \/ av_value a = quoted (W (av_key a))).
  Proof.
    intros P B. unfold expandMacros.
    assert (L : List.length (as_vars st) = List.length keys) by (rewrite <- (p_keys _ _ _ _ P), map_length; auto). rewrite L.
    loopM (fun i (s : bool * astate) => exists H', PInv H' keys used (snd s) /\ bounded H' 0 i (pred N) /\ bounded H' i (List.length keys) N /\
      (N = 0 -> fst s = false) /\
      (fst s = false -> snd s = st /\ forall j a u, j < i -> nth_error (as_vars st) j = Some a -> nth_error used j = Some u -> u <> 0 -> isvar (av_key a) ->
        av_value a = W (av_key a) \/ av_value a = quoted (W (av_key a)))) as s E F.
    - exists H. split; auto. split; [intros j k u _ _ _ _ K; lia|]. split; auto. split; auto. cbn. intros _. split; auto. intros j a u K. lia.
    - intros j [any t] Lj (H' & P' & B1 & B2 & Z & S0). cbn [fst snd] in *.
      assert (Lv : List.length (as_vars t) = List.length keys) by (rewrite <- (p_keys _ _ _ _ P'), map_length; auto).
      destruct (nth_error used j) as [u|] eqn:U; [|apply nth_error_None in U; lia]. destruct (nth_error (as_vars t) j) as [a|] eqn:A; [|apply nth_error_None in A; lia].
      assert (Ek : nth_error keys j = Some (av_key a)) by (rewrite <- (p_keys _ _ _ _ P'); apply map_nth_error; auto).
      rewrite (p_used _ _ _ _ P'), (vget_nth _ _ _ U). cbn [bind]. destruct (Nat.eqb_spec u 0) as [-> |U0].
      { eexists. split; [reflexivity|]. exists H'. cbn [fst snd]. split; auto. split; [|split; [|split; auto]].
        - intros i k w Ei Ui W0 V Li. destruct (Nat.eq_dec i j) as [-> |Ni]; [congruence|]. eapply B1; eauto. lia.
        - intros i k w Ei Ui W0 V Li. eapply B2; eauto. lia.
        - intros K. destruct (S0 K) as [-> S1]. split; auto. intros i b w Li Eb Ub Wb Vb. destruct (Nat.eq_dec i j) as [-> |Ni]; [congruence|]. eapply S1; eauto. lia. }
      rewrite (vget_nth _ _ _ A). cbn [bind]. destruct (dec (av_key a)) as [V|V].
      + assert (Env : forall n, isvar n -> exists i a, storageIndexByName (as_vars t) n = Some i /\ nth_error (as_vars t) i = Some a /\ av_key a = n /\ stands W isvar H' a).
        { intros n Vn. pose proof (p_var _ _ _ _ P' n Vn) as K. rewrite <- (p_keys _ _ _ _ P') in K. destruct (index_in _ _ K) as [i X]. destruct (index_some _ _ _ X) as (b & Eb & Kb).
          exists i, b. split; auto. split; auto. split; auto. apply (p_stands _ _ _ _ P' i b Eb). congruence. }
        destruct (expand_tm W isvar H' (as_vars t) Env a (p_stands _ _ _ _ P' j a A V)) as (s & has & Ex & Tt & Tf & Tz). rewrite Ex. cbn [bind].
        destruct (lower_bounded H' j (av_key a) u N Ek U U0 V B1 B2) as [B1' B2'].
        assert (Low : forall i b, i <> j -> nth_error (as_vars t) i = Some b -> isvar (av_key b) -> stands W isvar (lower H' (av_key a)) b).
        { intros i b Ni Eb Vb. destruct (p_stands _ _ _ _ P' i b Eb Vb) as (x & Ex1 & Qx & Tx). exists x. split; auto. split; auto.
          assert (Nk : av_key b <> av_key a). { intros K. apply Ni. apply (proj1 (NoDup_nth_error _) ND i j). apply nth_error_Some. rewrite <- (p_keys _ _ _ _ P'), (map_nth_error av_key _ _ Eb). discriminate.
            rewrite Ek. rewrite <- (p_keys _ _ _ _ P'), (map_nth_error av_key _ _ Eb). congruence. }
          unfold lower at 2. destruct (str_eqb (av_key b) (av_key a)) eqn:K; [apply str_eqb_eq in K; congruence|]. apply lower_tm. auto. }
        destruct has; cbn [negb].
        * destruct (Tt eq_refl) as [Qs Ts].
          assert (Es : (match s with "!"%char :: _ => procNativeMacro load (as_funcs t) s | _ => Ok (s, as_funcs t) end) = Ok (s, as_funcs t)).
          { destruct s as [|c s]; [reflexivity|]. destruct Qs as [_ Qs]. destruct (ascii_dec c "!") as [-> |N1]; [elim Qs; left; auto|].
            destruct c as [[] [] [] [] [] [] [] []]; try reflexivity. elim N1. reflexivity. }
          rewrite Es. cbn [bind]. eexists. split; [reflexivity|]. exists (lower H' (av_key a)). cbn [fst snd]. split; [|split; [exact B1'|split; [exact B2'|split; [|discriminate]]]].
          -- assert (Lt : j < List.length (as_vars t)) by lia. constructor; cbn [as_vars as_used as_funcs].
             ++ rewrite map_upd. cbn [av_key]. rewrite upd_same; [apply (p_keys _ _ _ _ P')|]. apply map_nth_error. auto.
             ++ reflexivity.
             ++ apply (p_var _ _ _ _ P').
             ++ intros i b Eb Vb. rewrite nth_error_upd in Eb. destruct (Nat.eqb_spec j i) as [<-|Ni]; cbn [andb] in Eb.
                ** rewrite (proj2 (Nat.ltb_lt _ _) Lt) in Eb. injection Eb as <-. exists s. cbn [av_value av_key]. split; auto. split; auto. rewrite lower_at. apply lower_tm. auto.
                ** apply (Low i b); auto.
             ++ intros i b Eb Vb. rewrite nth_error_upd in Eb. destruct (Nat.eqb_spec j i) as [<-|Ni]; cbn [andb] in Eb.
                ** rewrite (proj2 (Nat.ltb_lt _ _) Lt) in Eb. injection Eb as <-. cbn [av_key] in Vb. contradiction.
                ** apply (p_other _ _ _ _ P' i b); auto.
             ++ apply (p_funcs _ _ _ _ P').
          -- intros N0. specialize (B2 j (av_key a) u Ek U U0 V ltac:(lia)). assert (H' (av_key a) = 0) by lia. specialize (Tz H0). discriminate.
        * destruct (Tf eq_refl) as [(b & Eb & Qb & Tb) Ef]. eexists. split; [reflexivity|]. exists (lower H' (av_key a)). cbn [fst snd]. split; [|split; [exact B1'|split; [exact B2'|split; [exact Z|]]]].
          -- constructor; try apply P'. intros i c Ec Vc. destruct (Nat.eq_dec i j) as [-> |Ni].
             ++ rewrite A in Ec. injection Ec as <-. exists b. split; auto. split; auto. rewrite lower_at. apply lower_tm. auto.
             ++ apply (Low i c); auto.
          -- intros K. destruct (S0 K) as [-> S1]. split; auto. intros i c w Li Ec Uc Wc Vc. destruct (Nat.eq_dec i j) as [-> |Ni]; [congruence|]. eapply S1; eauto. lia.
      + rewrite (loop_plain _ _ (p_other _ _ _ _ P' j a A V)). cbn [bind negb]. eexists. split; [reflexivity|]. exists H'. cbn [fst snd]. split; auto. split; [|split; [|split; auto]].
        * intros i k w Ei Ui W0 V' Li. destruct (Nat.eq_dec i j) as [-> |Ni]; [congruence|]. eapply B1; eauto. lia.
        * intros i k w Ei Ui W0 V' Li. eapply B2; eauto. lia.
        * intros K. destruct (S0 K) as [-> S1]. split; auto. intros i b w Li Eb Ub Wb Vb. destruct (Nat.eq_dec i j) as [-> |Ni]; [congruence|]. eapply S1; eauto. lia.
    - destruct F as (H' & P' & B1 & B2 & Z & S0). destruct s as [any st']. cbn [fst snd Nat.add] in *. exists any, st', H'. split; [exact E|]. split; auto. split; auto. split; auto.
      intros K. destruct (S0 K) as [-> S1]. split; auto. intros i a u Ea Ua U0 V. eapply S1; eauto. rewrite <- L. apply nth_error_Some. congruence.
  Qed.

  Lemma passes_ok n : forall H st, PInv H keys used st -> bounded H 0 (List.length keys) n ->
    exists st', expand_rec load n st = Ok st' /\ map av_key (as_vars st') = keys /\ as_used st' = used /\ as_funcs st' = [] /\
      forall i a u, nth_error (as_vars st') i = Some a -> nth_error used i = Some u -> u <> 0 -> isvar (av_key a) ->
        av_value a = W (av_key a) \/ av_value a = quoted (W (av_key a)).
  Proof.
    induction n as [|n IH]; intros H st P B; cbn [expand_rec]; destruct (pass_ok H st _ P B) as (any & st' & H' & E & P' & B' & Z & S0); rewrite E; cbn [bind].
    - rewrite (Z eq_refl). destruct (S0 (Z eq_refl)) as [-> S1]. exists st. split; auto. split; [apply (p_keys _ _ _ _ P)|]. split; [apply (p_used _ _ _ _ P)|]. split; [apply (p_funcs _ _ _ _ P)|]. exact S1.
    - destruct any.
      + cbn [pred] in B'. apply (IH H' st' P' B').
      + destruct (S0 eq_refl) as [-> S1]. exists st. split; auto. split; [apply (p_keys _ _ _ _ P)|]. split; [apply (p_used _ _ _ _ P)|]. split; [apply (p_funcs _ _ _ _ P)|]. exact S1.
  Qed.
End Passes.

Lemma forM_inv_ok {S : Type} (P : nat -> S -> Prop) n (f : nat -> S -> res S) : forall i s s', P i s ->
  (forall j t t', i <= j < i + n -> P j t -> f j t = Ok t' -> P (Datatypes.S j) t') -> forM n i f s = Ok s' -> P (i + n) s'.
Proof.
  induction n as [|n IH]; intros i s s' P0 St E; cbn [forM] in E.
  - apply Ok_inj in E. subst. rewrite Nat.add_0_r. auto.
  - destruct (f i s) as [t| | |] eqn:F; try discriminate. cbn [bind] in E. replace (i + Datatypes.S n) with (Datatypes.S i + n) by lia.
    apply (IH _ _ _ (St i s t ltac:(lia) P0 F)); auto. intros j u u' Lj. apply St. lia.
Qed.

Section Settled.
  Variable load : str -> bool.
  Lemma pass_settled st any st' : expandMacros load st = Ok (any, st') -> any = false ->
    st' = st /\ forall i a u, nth_error (as_vars st) i = Some a -> nth_error (as_used st) i = Some u -> u <> 0 -> settled (av_value a).
  Proof.
    intros E A. unfold expandMacros in E.
    apply (forM_inv_ok (fun i (s : bool * astate) => fst s = false -> snd s = st /\
      forall j a u, j < i -> nth_error (as_vars st) j = Some a -> nth_error (as_used st) j = Some u -> u <> 0 -> settled (av_value a))) in E.
    - destruct E as [E1 E2]. cbn [snd] in E1. split; auto. intros i a u Ha. apply (E2 i a u); auto. cbn. apply nth_error_Some. congruence.
    - intros _. split; auto. intros; lia.
    - intros j [b t] s Lj I F K. cbn [fst snd] in *. destruct (vget (as_used t) j) as [u| | |] eqn:U; try discriminate. cbn [bind] in F. destruct (Nat.eqb_spec u 0) as [-> |U0].
      + apply Ok_inj in F. subst s. cbn [fst snd] in *. destruct (I K) as [-> I2]. split; auto. intros i a w Li Ha Hu W0. destruct (Nat.eq_dec i j) as [-> |Ni]; [|apply (I2 i a w); auto; lia].
        unfold vget in U. rewrite Hu in U. congruence.
      + destruct (vget (as_vars t) j) as [a| | |] eqn:Va; try discriminate. cbn [bind] in F. destruct (expandOneValue (as_vars t) (av_value a)) as [[has s2]| | |] eqn:X; try discriminate. cbn [bind] in F.
        destruct has; cbn [negb] in F.
        * exfalso. match type of F with (do _ <- ?m ;; _) = _ => destruct m as [[q fs]| | |]; try discriminate end. cbn [bind] in F. apply Ok_inj in F. subst s. discriminate.
        * apply Ok_inj in F. subst s. cbn [fst snd] in *. destruct (I K) as [-> I2]. split; auto. intros i b' w Li Hb Hu W0. destruct (Nat.eq_dec i j) as [-> |Ni]; [|apply (I2 i b' w); auto; lia].
          unfold vget in Va. rewrite Hb in Va. apply Ok_inj in Va. subst b'. eapply expand_false; eauto.
    - exact A.
  Qed.
  Lemma rec_settled n : forall st st', expand_rec load n st = Ok st' ->
    forall i a u, nth_error (as_vars st') i = Some a -> nth_error (as_used st') i = Some u -> u <> 0 -> settled (av_value a).
  Proof.
    induction n as [|n IH]; intros st st' E; cbn [expand_rec] in E; destruct (expandMacros load st) as [[any t]| | |] eqn:X; try discriminate; cbn [bind] in E;
      destruct any; try discriminate; [|apply (IH _ _ E)|]; apply Ok_inj in E; subst t; destruct (pass_settled _ _ _ X eq_refl) as [-> F]; exact F.
  Qed.

  (** A variable that refers to itself *)
  Lemma self_pass k s c r ty op fs : ~ In backslash s -> ~ In backslash (c :: r) -> noq s -> noq (c :: r) -> (forall x, In x k -> name_char x) -> ~ name_char c ->
    let v := s ++ backslash :: k ++ c :: r in let nat_ := mkavar ainur_from_file ("!"%char :: ainur_from_file) (lit "function") (lit "NORMAL") in
    expandMacros load (mkast [mkavar k v ty op; nat_] [1; 1] fs) = Ok (true, mkast [mkavar k ((s ++ s) ++ backslash :: k ++ (c :: r) ++ c :: r) ty (lit "MACRO"); nat_] [1; 1] fs).
  Proof.
    intros Ns Nr Qs Qr Nk Nc v nat_. assert (Cb : c <> backslash) by (intros ->; apply Nr; left; auto).
    assert (Qk : noq k). { split; intros K; apply Nk, name_char_ok in K; discriminate. }
    assert (Qb : noq [backslash]) by (split; cbn; intuition discriminate).
    assert (Qv : noq v). { unfold v. change (backslash :: k ++ c :: r) with ([backslash] ++ k ++ c :: r). rewrite !noq_app. tauto. }
    set (w := (s ++ s) ++ backslash :: k ++ (c :: r) ++ c :: r).
    assert (Qw : noq w). { unfold w. change (backslash :: k ++ (c :: r) ++ c :: r) with ([backslash] ++ k ++ (c :: r) ++ c :: r). rewrite !noq_app. tauto. }
    assert (E : forall ty op, expandOneValue [mkavar k v ty op; nat_] v = Ok (true, w)).
    { intros ty' op'. unfold expandOneValue. set (vars := [mkavar k v ty' op'; nat_]). unfold v at 1. rewrite loop_text by auto. cbn [app expand_loop]. replace (Ascii.eqb backslash "\") with true by reflexivity.
      rewrite loop_name by auto. cbn [app expand_loop negb]. destruct (Ascii.eqb_spec c "\") as [Ec|_]; [elim Cb; auto|]. rewrite (proj2 (name_char_not c) Nc).
      unfold storageIndexByName. unfold vars at 1. cbn [find_idx av_key]. rewrite (proj2 (str_eqb_eq k k) eq_refl). cbn [vget vars nth_error bind av_value]. rewrite (unquote_noq v Qv).
      rewrite <- (app_nil_r r). rewrite loop_text by (intros K; apply Nr; right; auto). cbn [expand_loop]. replace ((s ++ v ++ [c]) ++ r) with w; [rewrite (unquote_noq w Qw); reflexivity|].
      unfold w, v. rewrite <- !app_assoc. cbn [app]. rewrite <- !app_assoc. reflexivity. }
    assert (En : forall vars, expandOneValue vars ("!"%char :: ainur_from_file) = Ok (false, "!"%char :: ainur_from_file)) by (intros; reflexivity).
    unfold expandMacros. cbn [as_vars List.length forM as_used vget nth_error bind Nat.eqb]. cbn [av_value]. rewrite E. cbn [bind negb].
    assert (Es : (match w with "!"%char :: _ => procNativeMacro load fs w | _ => Ok (w, fs) end) = Ok (w, fs)).
    { destruct w as [|x w']; [reflexivity|]. destruct Qw as [_ Qw]. destruct (ascii_dec x "!") as [-> |N1]; [elim Qw; left; auto|].
      destruct x as [[] [] [] [] [] [] [] []]; try reflexivity. elim N1. reflexivity. }
    cbn [as_funcs]. rewrite Es. cbn [bind upd as_vars as_used vget nth_error Nat.eqb]. unfold nat_ at 2. cbn [av_value]. rewrite En. cbn [bind negb]. reflexivity.
  Qed.
  Lemma self_rec n : forall k s c r ty op fs, ~ In backslash s -> ~ In backslash (c :: r) -> noq s -> noq (c :: r) -> (forall x, In x k -> name_char x) -> ~ name_char c ->
    expand_rec load n (mkast [mkavar k (s ++ backslash :: k ++ c :: r) ty op; mkavar ainur_from_file ("!"%char :: ainur_from_file) (lit "function") (lit "NORMAL")] [1; 1] fs) = Throw.
  Proof.
    induction n as [|n IH]; intros k s c r ty op fs Ns Nr Qs Qr Nk Nc; cbn [expand_rec]; rewrite self_pass by auto; cbn [bind]; [reflexivity|].
    apply (IH k (s ++ s) c (r ++ c :: r)); auto.
    - rewrite in_app_iff. tauto.
    - change (c :: r ++ c :: r) with ((c :: r) ++ c :: r). rewrite in_app_iff. tauto.
    - rewrite noq_app. tauto.
    - change (c :: r ++ c :: r) with ((c :: r) ++ c :: r). rewrite noq_app. tauto.
  Qed.
End Settled.
