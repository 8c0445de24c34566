From Coq Require Import Ascii String Permutation.
From Verif Require Import Prelude Ring Str_Model Str_Spec Str_Proofs Text_Model Input_Model Ainur_Model Ainur_Spec.
Import List.

(** ** Variables *)
Section State.
  Variable apply : str -> str -> res str.

  (** One event *)
  Definition step (st : astate) (e : event) : res astate :=
    match e with
    | EDeclare d k None => as_declare0 st d k
    | EDeclare d k (Some v) => as_declare st d k v
    | EAssign k v => as_assign st k v
    | ERead k => do (_, st) <- readValue (convert_text apply) st k ;; Ok st
    end.
  Fixpoint run (st : astate) (h : history) : res astate :=
    match h with
    | [] => Ok st
    | e :: h => do st <- step st e ;; run st h
    end.

  Lemma run_app h1 h2 : forall st, run st (h1 ++ h2) = do st <- run st h1 ;; run st h2.
  Proof. induction h1 as [|e h1 IH]; intros st; [reflexivity|]. cbn [app run]. destruct (step st e); cbn [bind]; auto. Qed.

  Definition held (h : history) (k : str) : str := match given h k with Some v => v | None => zero_char_string end.

  Record Inv (h : history) (st : astate) : Prop := {
    i_keys : forall k, declared h k <-> In k (map av_key (as_vars st));
    i_nodup : NoDup (map av_key (as_vars st));
    i_value : forall i a, nth_error (as_vars st) i = Some a -> av_value a = held h (av_key a);
    i_len : List.length (as_used st) = List.length (as_vars st);
    i_used : forall i a u, nth_error (as_vars st) i = Some a -> nth_error (as_used st) i = Some u ->
      (u = 0 <-> required h (av_key a) /\ ~ In (ERead (av_key a)) h);
    i_funcs : as_funcs st = [];
    i_given : forall k v, given h k = Some v -> declared h k;
    i_read : forall k, In (ERead k) h -> declared h k }.

  Lemma given_snoc h e k : given (h ++ [e]) k =
    match given [e] k with Some v => Some v | None => given h k end.
  Proof.
    induction h as [|x h IH]; [cbn [app]; destruct (given [e] k); auto|]. cbn [app given] in *. rewrite IH.
    destruct e as [d k' [v|]|k' v|k']; cbn [given]; try destruct (str_eqb k' k); auto.
  Qed.
  Lemma declared_snoc h e k : declared (h ++ [e]) k <-> declared h k \/ exists d v, e = EDeclare d k v.
  Proof.
    unfold declared. split.
    - intros (d & v & H). apply in_app_or in H. destruct H as [H|[H|[]]]; eauto.
    - intros [(d & v & H)|(d & v & ->)]; exists d, v; apply in_or_app; cbn; auto.
  Qed.
  Lemma required_snoc h e k : required (h ++ [e]) k <-> required h k \/ exists d v, e = EDeclare (d ++ ["!"%char]) k v /\ d <> [].
  Proof.
    unfold required. split.
    - intros (d & v & H & N). apply in_app_or in H. destruct H as [H|[H|[]]]; eauto 6.
    - intros [(d & v & H & N)|(d & v & -> & N)]; exists d, v; split; auto; apply in_or_app; cbn; auto.
  Qed.

  Lemma index_some vars k x : storageIndexByName vars k = Some x -> exists a, nth_error vars x = Some a /\ av_key a = k.
  Proof.
    clear apply. unfold storageIndexByName. intros H. apply find_idx_some in H. destruct H as (l & a & r & -> & <- & K & _).
    apply str_eqb_eq in K. exists a. split; auto. rewrite nth_error_app2, Nat.sub_diag by lia. reflexivity.
  Qed.
  Lemma index_in vars k : In k (map av_key vars) -> exists x, storageIndexByName vars k = Some x.
  Proof.
    unfold storageIndexByName. induction vars as [|a vars IH]; [intros []|]. cbn [map In find_idx]. intros H.
    destruct (str_eqb (av_key a) k) eqn:K; [eauto|]. destruct H as [H|H]; [subst k; rewrite (proj2 (str_eqb_eq _ _) eq_refl) in K; discriminate|].
    destruct (IH H) as [x ->]. cbn. eauto.
  Qed.
  Lemma index_none vars k : ~ In k (map av_key vars) -> storageIndexByName vars k = None.
  Proof.
    clear apply. unfold storageIndexByName. induction vars as [|a vars IH]; [auto|]. cbn [map In find_idx]. intros H.
    destruct (str_eqb (av_key a) k) eqn:K; [apply str_eqb_eq in K; tauto|]. rewrite IH by tauto. auto.
  Qed.
  Lemma index_at vars i a : NoDup (map av_key vars) -> nth_error vars i = Some a -> storageIndexByName vars (av_key a) = Some i.
  Proof.
    clear apply. intros N H. destruct (index_in vars (av_key a)) as [x X]. { apply in_map. eapply nth_error_In; eauto. }
    destruct (index_some _ _ _ X) as (b & B & E). rewrite X. f_equal. assert (L : x < List.length (map av_key vars)) by (rewrite map_length; apply nth_error_Some; congruence).
    apply (proj1 (NoDup_nth_error _) N x i L). rewrite (map_nth_error av_key _ _ H), (map_nth_error av_key _ _ B). congruence.
  Qed.
  Lemma vget_nth {A} (l : list A) i a : nth_error l i = Some a -> vget l i = Ok a.
  Proof. intros H. unfold vget. rewrite H. reflexivity. Qed.
  Lemma nth_error_upd {A} (l : list A) i a j : nth_error (upd l i a) j = if (Nat.eqb i j && Nat.ltb i (List.length l))%bool then Some a else nth_error l j.
  Proof.
    revert i j. induction l as [|x l IH]; intros i j.
    - replace (upd [] i a) with (@nil A) by (destruct i; reflexivity). rewrite andb_comm. destruct i; destruct (0 <? 0); cbn; auto.
    - destruct i as [|i], j as [|j]; cbn [upd nth_error]; auto; rewrite ?IH; reflexivity.
  Qed.
  Lemma map_upd {A B} (f : A -> B) l i a : map f (upd l i a) = upd (map f l) i (f a).
  Proof. revert i; induction l as [|x l IH]; intros [|i]; cbn; auto. f_equal. apply IH. Qed.
  Lemma upd_same {A} (l : list A) i a : nth_error l i = Some a -> upd l i a = l.
  Proof. revert i; induction l as [|x l IH]; intros [|i] H; cbn in *; try discriminate; try congruence. f_equal. auto. Qed.

  (** [readValue] on a value that is given *)
  Lemma quoted_strip v : (exists s, v = quoted s) \/ (forall s, v <> quoted s).
  Proof.
    destruct v as [|c v]; [right; intros; discriminate|]. destruct (ascii_dec c """") as [-> |N]; [|right; intros s E; injection E as E _; auto].
    destruct (list_eq_dec ascii_dec v []) as [-> |N]; [right; intros [|? ?] E; discriminate|]. destruct (exists_last N) as (s & d & ->).
    destruct (ascii_dec d """") as [-> |M]; [left; exists s; reflexivity|]. right. intros t E. injection E as E. apply app_inj_tail in E. tauto.
  Qed.
  Lemma plain_value funcs v : (forall c s, v = c :: s -> c <> "("%char) -> valueFromFunction apply funcs v = Ok v.
  Proof.
    intros P. unfold valueFromFunction, getFunctionNameValue. destruct v as [|c v]; [reflexivity|]. cbn [nth].
    destruct (List.length (c :: v) <? 4); [reflexivity|]. destruct (Ascii.eqb_spec c "("); [elim (P c v); auto|]. cbn. reflexivity.
  Qed.
  Lemma convert_text_ok funcs a t : (forall c s, av_value a = c :: s -> c <> "("%char) -> text_of (av_value a) t -> convert_text apply funcs a = Ok t.
  Proof.
    intros P T. unfold convert_text. rewrite plain_value by auto. cbn [bind]. f_equal. destruct T as [E|[E N]].
    - rewrite E. unfold quoted. cbn [List.length nth]. rewrite app_length. cbn [List.length].
      replace (1 <? S (List.length t + 1)) with true by (symmetry; apply Nat.ltb_lt; lia). cbn [andb].
      replace (S (List.length t + 1) - 1) with (S (List.length t)) by lia. cbn [nth]. rewrite app_nth2, Nat.sub_diag by lia. cbn.
      replace (List.length t + 1 - 1) with (List.length t) by lia. rewrite firstn_app, Nat.sub_diag, firstn_all. cbn. apply app_nil_r.
    - rewrite E in *. destruct (_ && _ && _)%bool eqn:K; [|reflexivity]. apply andb_prop in K. destruct K as [K K3]. apply andb_prop in K. destruct K as [K1 K2].
      apply Nat.ltb_lt in K1. apply Ascii.eqb_eq in K2. apply Ascii.eqb_eq in K3. destruct t as [|c t]; [cbn in K1; lia|]. cbn in K2. subst c.
      destruct (list_eq_dec ascii_dec t []) as [-> |M]; [cbn in K1; lia|]. destruct (exists_last M) as (s & d & ->). elim (N s). unfold quoted.
      revert K3. cbn [List.length]. rewrite app_length. cbn [List.length]. replace (S (List.length s + 1) - 1) with (S (List.length s)) by lia. cbn [nth].
      rewrite app_nth2, Nat.sub_diag by lia. cbn. intros ->. reflexivity.
  Qed.
  Lemma text_exists v : exists t, text_of v t.
  Proof. destruct (quoted_strip v) as [[s H]|H]; [exists s; left; auto|exists v; right; auto]. Qed.

  Lemma read_declared {T} (cv : list str -> avar -> res T) h st k v t : Inv h st -> given h k = Some v -> declared h k -> v <> [] -> v <> zero_char_string ->
    (forall a, av_value a = v -> cv (as_funcs st) a = Ok t) ->
    exists i u a, nth_error (as_vars st) i = Some a /\ av_key a = k /\ nth_error (as_used st) i = Some u /\
      readValue cv st k = Ok (t, mkast (as_vars st) (upd (as_used st) i (S u)) (as_funcs st)).
  Proof.
    clear apply. intros I G D N1 N2 C. destruct (index_in (as_vars st) k) as [i X]. { apply (i_keys _ _ I). auto. }
    destruct (index_some _ _ _ X) as (a & A & E). pose proof (i_value _ _ I i a A) as V. unfold held in V. rewrite E, G in V.
    assert (L : i < List.length (as_used st)) by (rewrite (i_len _ _ I); apply nth_error_Some; congruence).
    destruct (nth_error (as_used st) i) as [u|] eqn:U; [|apply nth_error_None in U; lia].
    exists i, u, a. split; auto. split; auto. split; auto. unfold readValue. rewrite X, (vget_nth _ _ _ A). cbn [bind].
    replace (isEmptyValue (av_value a)) with false.
    2:{ symmetry. unfold isEmptyValue. rewrite V. destruct v; [congruence|]. cbn [List.length Nat.eqb orb]. destruct (str_eqb _ _) eqn:K; auto. apply str_eqb_eq in K. congruence. }
    rewrite (C a V). cbn [bind]. rewrite (vget_nth _ _ _ U). cbn [bind]. reflexivity.
  Qed.
  Lemma plain_nonempty v : plain v -> v <> [] /\ v <> zero_char_string /\ forall c s, v = c :: s -> c <> "("%char.
  Proof. intros (c & s & -> & P & Z). split; [discriminate|]. split; auto. intros c' s' E. injection E as <- <-. auto. Qed.

  Lemma inv_step h st e : Inv h st -> allowed h e -> exists st', step st e = Ok st' /\ Inv (h ++ [e]) st'.
  Proof.
    intros I A. destruct e as [d k o|k v|k].
    - destruct A as [A D]. set (v := match o with Some v => v | None => zero_char_string end).
      assert (Ed : forall k', given [EDeclare d k o] k' = if str_eqb k k' then o else None) by (intros k'; destruct o; cbn; destruct (str_eqb k k'); auto).
      assert (Nk : ~ In k (map av_key (as_vars st))) by (intros K; apply A, (i_keys _ _ I); auto).
      assert (Gk : given h k = None) by (destruct (given h k) eqn:K; auto; elim A; apply (i_given _ _ I k _ K)).
      replace (step st (EDeclare d k o)) with (as_declare st d k v) by (destruct o; reflexivity).
      unfold as_declare. rewrite (index_none _ _ Nk). destruct (Nat.ltb_spec 0 (List.length d)) as [L|L]; [|destruct d; [congruence|cbn in L; lia]].
      eexists. split; [reflexivity|]. set (bang := (Nat.ltb 1 (List.length d) && Ascii.eqb (nth (List.length d - 1) d zero) "!")%bool).
      assert (B : bang = true <-> exists d', d = d' ++ ["!"%char] /\ d' <> []).
      { destruct (exists_last D) as (d' & c & ->). unfold bang. rewrite app_length. cbn [List.length]. replace (List.length d' + 1 - 1) with (List.length d') by lia.
        rewrite app_nth2, Nat.sub_diag by lia. cbn [nth]. rewrite andb_true_iff, Nat.ltb_lt, Ascii.eqb_eq. split.
        - intros [H ->]. exists d'. split; auto. intros ->. cbn in H. lia.
        - intros (d'' & H & N). apply app_inj_tail in H. destruct H as [<- ->]. split; auto. destruct d'; [congruence|cbn; lia]. }
      constructor; cbn [as_vars as_used as_funcs].
      + intros k'. rewrite declared_snoc, map_app, in_app_iff, (i_keys _ _ I k'). cbn. split.
        * intros [H|(d2 & v2 & H)]; [auto|injection H as _ -> _; auto].
        * intros [H|[<-|[]]]; [auto|right; eauto].
      + rewrite map_app. cbn [map]. apply (Permutation_NoDup (Permutation_cons_append _ _)). constructor; auto. apply (i_nodup _ _ I).
      + intros i a H. unfold held. rewrite given_snoc, Ed. destruct (Nat.lt_ge_cases i (List.length (as_vars st))) as [Li|Li].
        * rewrite nth_error_app1 in H by auto. destruct (str_eqb k (av_key a)) eqn:K.
          -- apply str_eqb_eq in K. elim Nk. rewrite K. apply in_map. eapply nth_error_In; eauto.
          -- apply (i_value _ _ I i a H).
        * rewrite nth_error_app2 in H by auto. destruct (i - List.length (as_vars st)) as [|[|n]]; cbn in H; try discriminate. injection H as <-. cbn [av_key av_value].
          rewrite (proj2 (str_eqb_eq _ _) eq_refl), Gk. unfold v. destruct o; reflexivity.
      + rewrite !app_length, (i_len _ _ I). reflexivity.
      + intros i a u H U. rewrite required_snoc, in_app_iff. destruct (Nat.lt_ge_cases i (List.length (as_vars st))) as [Li|Li].
        * rewrite nth_error_app1 in H by auto. rewrite nth_error_app1 in U by (rewrite (i_len _ _ I); auto). rewrite (i_used _ _ I i a u H U).
          assert (K : k <> av_key a) by (intros ->; apply Nk, in_map; eapply nth_error_In; eauto). split.
          -- intros [R1 R2]. split; auto. intros [R3|[R3|[]]]; auto; discriminate.
          -- intros [[R1|(d2 & v2 & E & _)] R2]; [split; auto|injection E as _ E _; congruence].
        * rewrite nth_error_app2 in H by auto. rewrite nth_error_app2, (i_len _ _ I) in U by (rewrite (i_len _ _ I); auto). destruct (i - List.length (as_vars st)) as [|[|n]]; cbn in H, U; try discriminate.
          injection H as <-. injection U as <-. cbn [av_key].
          assert (Nr : ~ In (ERead k) h) by (intros K; apply A; apply (i_read _ _ I); auto).
          fold bang. destruct bang.
          -- split; auto. intros _. split; [|intros [K|[K|[]]]; auto; discriminate]. right. destruct (proj1 B eq_refl) as (d' & -> & N). eauto.
          -- split; [discriminate|]. intros [[R1|(d2 & v2 & E & N)] _]; exfalso.
             ++ apply A. destruct R1 as (d2 & v2 & R1 & _). exists (d2 ++ ["!"%char]), v2. auto.
             ++ injection E as E _. assert (false = true) by (apply B; eauto). discriminate.
      + apply (i_funcs _ _ I).
      + intros k' w. rewrite given_snoc, Ed, declared_snoc. destruct (str_eqb k k') eqn:K.
        * intros _. apply str_eqb_eq in K. subst k'. right. eauto.
        * intros G. left. apply (i_given _ _ I _ _ G).
      + intros k'. rewrite in_app_iff, declared_snoc. intros [K|[K|[]]]; [|discriminate]. left. apply (i_read _ _ I). auto.
    - destruct (index_in (as_vars st) k) as [x X]. { apply (i_keys _ _ I). auto. }
      destruct (index_some _ _ _ X) as (a & Ha & E). cbn [step]. unfold as_assign. rewrite X, (vget_nth _ _ _ Ha). cbn [bind]. eexists. split; [reflexivity|].
      assert (Km : map av_key (upd (as_vars st) x (mkavar (av_key a) v (av_type a) (av_opaque a))) = map av_key (as_vars st)).
      { rewrite map_upd. cbn [av_key]. apply upd_same. rewrite (map_nth_error av_key _ _ Ha). auto. }
      assert (Dk : forall k', declared (h ++ [EAssign k v]) k' <-> declared h k').
      { intros k'. rewrite declared_snoc. split; [intros [H|(d & w & H)]; [auto|discriminate]|auto]. }
      constructor; cbn [as_vars as_used as_funcs].
      + intros k'. rewrite Km, Dk. apply (i_keys _ _ I).
      + rewrite Km. apply (i_nodup _ _ I).
      + intros i b H. unfold held. rewrite given_snoc. cbn [given]. rewrite nth_error_upd in H. assert (Lx : x < List.length (as_vars st)) by (apply nth_error_Some; congruence).
        destruct (Nat.eqb_spec x i) as [<-|Ni]; cbn [andb] in H.
        * rewrite (proj2 (Nat.ltb_lt _ _) Lx) in H. injection H as <-. cbn [av_key av_value]. rewrite E, (proj2 (str_eqb_eq _ _) eq_refl). reflexivity.
        * destruct (str_eqb k (av_key b)) eqn:K; [|apply (i_value _ _ I i b H)]. apply str_eqb_eq in K. elim Ni.
          pose proof (index_at _ _ _ (i_nodup _ _ I) H) as Y. rewrite <- K, X in Y. congruence.
      + rewrite upd_length. apply (i_len _ _ I).
      + intros i b u H U. rewrite nth_error_upd in H. assert (Rq : required (h ++ [EAssign k v]) (av_key b) <-> required h (av_key b)).
        { rewrite required_snoc. split; [intros [R1|(d & w & R1 & _)]; [auto|discriminate]|auto]. }
        rewrite Rq, in_app_iff. assert (Lx : x < List.length (as_vars st)) by (apply nth_error_Some; congruence).
        assert (Hb : exists b', nth_error (as_vars st) i = Some b' /\ av_key b' = av_key b).
        { destruct (Nat.eqb_spec x i) as [<-|Ni]; cbn [andb] in H; [|eauto]. rewrite (proj2 (Nat.ltb_lt _ _) Lx) in H. injection H as <-. eauto. }
        destruct Hb as (b' & Hb & <-). rewrite (i_used _ _ I i b' u Hb U). split; intros [R1 R2]; split; auto. intros [R3|[R3|[]]]; auto; discriminate.
      + apply (i_funcs _ _ I).
      + intros k' w. rewrite given_snoc, Dk. cbn [given]. destruct (str_eqb k k') eqn:K; [|apply (i_given _ _ I)]. apply str_eqb_eq in K. subst k'. auto.
      + intros k'. rewrite in_app_iff, Dk. intros [K|[K|[]]]; [|discriminate]. apply (i_read _ _ I). auto.
    - destruct A as (D & v & G & P). destruct (plain_nonempty v P) as (P1 & P2 & P3). destruct (text_exists v) as [t T].
      destruct (read_declared (convert_text apply) h st k v t I G D P1 P2) as (i & u & a & Ha & E & U & R).
      { intros a Ea. apply convert_text_ok; rewrite Ea; auto. }
      cbn [step]. rewrite R. cbn [bind]. eexists. split; [reflexivity|].
      assert (Dk : forall k', declared (h ++ [ERead k]) k' <-> declared h k').
      { intros k'. rewrite declared_snoc. split; [intros [H|(d & w & H)]; [auto|discriminate]|auto]. }
      constructor; cbn [as_vars as_used as_funcs].
      + intros k'. rewrite Dk. apply (i_keys _ _ I).
      + apply (i_nodup _ _ I).
      + intros j b H. unfold held. rewrite given_snoc. cbn [given]. apply (i_value _ _ I j b H).
      + rewrite upd_length. apply (i_len _ _ I).
      + intros j b w H W. rewrite nth_error_upd in W. assert (Rq : required (h ++ [ERead k]) (av_key b) <-> required h (av_key b)).
        { rewrite required_snoc. split; [intros [R1|(d & w' & R1 & _)]; [auto|discriminate]|auto]. }
        rewrite Rq, in_app_iff. assert (Lx : i < List.length (as_used st)) by (apply nth_error_Some; congruence).
        destruct (Nat.eqb_spec i j) as [<-|Ni]; cbn [andb] in W.
        * rewrite (proj2 (Nat.ltb_lt _ _) Lx) in W. injection W as <-. rewrite Ha in H. injection H as <-. split; [discriminate|]. intros [_ K]. elim K. right. left. congruence.
        * rewrite (i_used _ _ I j b w H W). split; intros [R1 R2]; split; auto. intros [R3|[R3|[]]]; auto. injection R3 as R3. elim Ni.
          pose proof (index_at _ _ _ (i_nodup _ _ I) H) as Y. pose proof (index_at _ _ _ (i_nodup _ _ I) Ha) as Y2. congruence.
      + apply (i_funcs _ _ I).
      + intros k' w. rewrite given_snoc, Dk. cbn [given]. apply (i_given _ _ I).
      + intros k'. rewrite in_app_iff, Dk. intros [K|[K|[]]]; [apply (i_read _ _ I); auto|]. injection K as <-. auto.
  Qed.

  Lemma inv_new : Inv [] as_new.
  Proof.
    constructor; cbn; auto.
    - intros k. split; [intros (d & v & [])|intros []].
    - constructor.
    - intros [|i] a H; discriminate.
    - intros [|i] a u H; discriminate.
    - discriminate.
    - intros k [].
  Qed.

  Lemma legal_snoc h e : legal (h ++ [e]) -> legal h /\ allowed h e.
  Proof. intros L. split; [|apply (L h e []); auto]. intros a x b ->. apply (L a x (b ++ [e])). rewrite <- app_assoc. reflexivity. Qed.
  Lemma run_legal h : legal h -> exists st, run as_new h = Ok st /\ Inv h st.
  Proof.
    induction h as [|e h IH] using rev_ind; intros L; [exists as_new; split; auto; apply inv_new|]. apply legal_snoc in L. destruct L as [L A].
    destruct (IH L) as (st & E & I). destruct (inv_step h st e I A) as (st' & E' & I'). exists st'. split; auto. rewrite run_app, E. cbn [bind run]. rewrite E'. reflexivity.
  Qed.

  Lemma read_wrong {T} (cv : list str -> avar -> res T) h st k : Inv h st -> ~ declared h k \/ no_value h k -> readValue cv st k = Throw.
  Proof.
    clear apply. intros I W. unfold readValue. destruct (storageIndexByName (as_vars st) k) as [x|] eqn:X; [|reflexivity].
    destruct (index_some _ _ _ X) as (a & A & E). rewrite (vget_nth _ _ _ A). cbn [bind]. destruct W as [W|W].
    - elim W. apply (i_keys _ _ I). rewrite <- E. apply in_map. eapply nth_error_In; eauto.
    - pose proof (i_value _ _ I x a A) as V. unfold held in V. rewrite E in V. unfold no_value in W. unfold isEmptyValue.
      destruct (given h k) as [v|]; [destruct W as [-> | ->]|]; rewrite V; cbn; auto.
  Qed.
  Lemma step_wrong h st e : Inv h st -> wrong h e -> step st e = Throw.
  Proof.
    intros I W. destruct e as [d k o|k v|k]; cbn [wrong] in W.
    - assert (H : forall v, as_declare st d k v = Throw).
      { intros v. unfold as_declare. destruct (index_in (as_vars st) k) as [x ->]; [apply (i_keys _ _ I); auto|reflexivity]. }
      destruct o; cbn [step]; [|unfold as_declare0]; apply H.
    - cbn [step]. unfold as_assign. rewrite index_none; [reflexivity|]. intros K. apply W. apply (i_keys _ _ I). auto.
    - cbn [step]. rewrite (read_wrong _ h st k I W). reflexivity.
  Qed.

  Lemma unused_ok h st : Inv h st -> exists ks, printUnused st = Ok ks /\ NoDup ks /\ forall k, In k ks <-> required h k /\ ~ In (ERead k) h.
  Proof.
    clear apply. intros I. unfold printUnused. rewrite (i_len _ _ I), Nat.eqb_refl.
    set (ks := map (fun p => av_key (fst p)) (filter (fun p => snd p =? 0) (combine (as_vars st) (as_used st)))).
    assert (K : forall k, In k ks <-> required h k /\ ~ In (ERead k) h).
    { intros k. unfold ks. rewrite in_map_iff. split.
      - intros ([a u] & <- & H). apply filter_In in H. destruct H as [H Z]. cbn [fst snd] in *. apply Nat.eqb_eq in Z. subst u. apply In_nth_error in H. destruct H as [i H].
        assert (Hn : nth_error (as_vars st) i = Some a /\ nth_error (as_used st) i = Some 0).
        { revert H. generalize (as_vars st) (as_used st). clear. intros l m. revert l m. induction i as [|i IH]; intros [|x l] [|y m] H; cbn in *; try discriminate; [injection H as -> ->; auto|apply IH; auto]. }
        destruct Hn as [H1 H2]. apply (i_used _ _ I i a 0 H1 H2). auto.
      - intros [R1 R2]. assert (D : In k (map av_key (as_vars st))). { apply (i_keys _ _ I). destruct R1 as (d & v & R1 & _). exists (d ++ ["!"%char]), v. auto. }
        apply in_map_iff in D. destruct D as (a & <- & D). apply In_nth_error in D. destruct D as [i D].
        destruct (nth_error (as_used st) i) as [u|] eqn:U. 2:{ apply nth_error_None in U. rewrite (i_len _ _ I) in U. apply nth_error_None in U. congruence. }
        assert (Z : u = 0) by (apply (i_used _ _ I i a u D U); auto). subst u. exists (a, 0). split; auto. apply filter_In. split; auto.
        assert (Hn : nth_error (combine (as_vars st) (as_used st)) i = Some (a, 0)).
        { revert D U. generalize (as_vars st) (as_used st). clear. intros l m. revert l m. induction i as [|i IH]; intros [|x l] [|y m] H U; cbn in *; try discriminate; [injection H as ->; injection U as ->; auto|apply IH; auto]. }
        eapply nth_error_In; eauto. }
    assert (ND : NoDup ks).
    { unfold ks. pose proof (i_nodup _ _ I) as N. revert N. generalize (as_vars st) (as_used st). clear. induction l as [|a l IH]; intros m N; [constructor|]. destruct m as [|u m]; [constructor|].
      cbn [combine filter snd map] in *. inversion_clear N as [|? ? N1 N2]. destruct (u =? 0); cbn [map fst]; auto. constructor; auto.
      intros K. apply N1. apply in_map_iff in K. destruct K as ([b w] & E & K). apply filter_In in K. destruct K as [K _]. apply in_combine_l in K. cbn [fst] in E. rewrite <- E. apply in_map. auto. }
    destruct (existsb _ _) eqn:X; [exists ks; auto|]. exists []. split; auto. split; [constructor|]. intros k. rewrite <- K. split; [intros []|]. intros H. unfold ks in H.
    apply in_map_iff in H. destruct H as ([b w] & E & H). apply filter_In in H. destruct H as [H Z]. apply in_combine_r in H. cbn [snd] in Z.
    assert (existsb (fun u => u =? 0) (as_used st) = true) by (apply existsb_exists; eauto). congruence.
  Qed.
End State.
