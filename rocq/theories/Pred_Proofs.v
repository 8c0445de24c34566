From Coq Require Import Ascii String.
From Verif Require Import Prelude Str_Model Str_Spec Str_Proofs Ast_Model Ast_Spec Ast_Proofs Pred_Model Pred_Spec.
Import List.

(** ** Joining and splitting *)
Lemma join_cons d t ts : ts <> [] -> join d (t :: ts) = t ++ d :: join d ts.
Proof. destruct ts; [congruence|reflexivity]. Qed.
Lemma join_nonempty d ts : ts <> [] -> (forall t, In t ts -> t <> []) -> join d ts <> [].
Proof.
  intros H1 H2. destruct ts as [|t ts]; [congruence|]. destruct ts as [|t' ts].
  - cbn. apply H2. left; auto.
  - rewrite join_cons by discriminate. destruct t; discriminate.
Qed.
Lemma join_in d ts c : In c (join d ts) -> c = d \/ exists t, In t ts /\ In c t.
Proof.
  induction ts as [|t ts IH]; [contradiction|]. destruct ts as [|t' ts].
  - cbn [join]. intros H. right. exists t. split; [left; auto|auto].
  - rewrite join_cons by discriminate. intros H. apply in_app_or in H. destruct H as [H|[H|H]].
    + right. exists t. split; [left; auto|auto].
    + auto.
    + destruct (IH H) as [|(u & Hu & Hc)]; auto. right. exists u. split; [right; auto|auto].
Qed.
Lemma join_runs d ts : (forall t, In t ts -> t <> [] /\ ~ In d t) -> runs (fun c => In c [d]) (join d ts) ts.
Proof.
  induction ts as [|t ts IH]; intros H; [constructor|].
  assert (Ht : t <> [] /\ ~ In d t) by (apply H; left; auto). destruct Ht as [Ht1 Ht2].
  assert (Hc : forall c, In c t -> ~ In c [d]) by (intros c Hc [<-|[]]; auto).
  destruct ts as [|t' ts].
  - cbn [join]. rewrite <- (app_nil_r t) at 1. apply runs_token; auto using runs_end.
  - rewrite join_cons by discriminate. apply runs_token; auto.
    + right. exists d, (join d (t' :: ts)). split; [auto|left; auto].
    + apply runs_delim; [left; auto|]. apply IH. intros u Hu. apply H. right; auto.
Qed.
Lemma join_split fuel d ts : (forall t, In t ts -> t <> [] /\ ~ In d t) -> List.length (join d ts) < fuel ->
  str_split fuel [] (join d ts) [d] = Ok ts.
Proof.
  intros H Hf. destruct (split_spec fuel [] (join d ts) [d] Hf) as (ts' & E & R). rewrite E. cbn [app]. f_equal.
  apply (runs_unique (fun c => In c [d]) (join d ts)); auto. apply join_runs; auto.
Qed.

(** An occurrence of a text without separators lies in one of the texts. *)
Lemma occ_join d p : p <> [] -> ~ In d p -> forall ts a b, join d ts = a ++ p ++ b ->
  exists u t w a' b', ts = u ++ t :: w /\ t = a' ++ p ++ b' /\ forall q, a ++ q ++ b = join d (u ++ (a' ++ q ++ b') :: w).
Proof.
  intros Hp Hd. induction ts as [|t ts IH]; intros a b E.
  - cbn in E. destruct a, p; discriminate || congruence.
  - destruct ts as [|t' ts].
    + cbn [join] in E. exists [], t, [], a, b. repeat split; auto.
    + rewrite join_cons in E by discriminate. apply app_eq_app in E. destruct E as [l [[E1 E2]|[E1 E2]]].
      * (* t = a ++ l *)
        apply app_eq_app in E2. destruct E2 as [l2 [[E3 E4]|[E3 E4]]].
        -- (* p = l ++ l2, d :: ... = l2 ++ b *)
           destruct l2 as [|x l2].
           ++ rewrite app_nil_r in E3. subst l. cbn [app] in E4. subst b. exists [], t, (t' :: ts), a, []. rewrite app_nil_r. repeat split; auto.
              intros q. rewrite app_nil_r. change ([] ++ (a ++ q) :: t' :: ts) with ((a ++ q) :: t' :: ts). rewrite (join_cons d (a ++ q)) by discriminate. rewrite app_assoc. auto.
           ++ injection E4 as E4 _. subst x. exfalso. apply Hd. rewrite E3. apply in_or_app. right. left. auto.
        -- (* l = p ++ l2 *) subst l. exists [], t, (t' :: ts), a, l2. repeat split; auto. intros q. rewrite E4.
           change ([] ++ (a ++ q ++ l2) :: t' :: ts) with ((a ++ q ++ l2) :: t' :: ts). rewrite (join_cons d (a ++ q ++ l2)) by discriminate. rewrite <- !app_assoc. auto.
      * (* a = t ++ l *)
        destruct l as [|x l].
        -- cbn [app] in E2. destruct p as [|y p]; [congruence|]. injection E2 as E2 _. subst y. exfalso. apply Hd. left; auto.
        -- injection E2 as <- E2. destruct (IH l b E2) as (u & t0 & w & a' & b' & F1 & F2 & F3).
           exists (t :: u), t0, w, a', b'. split; [rewrite F1; auto|]. split; [auto|]. intros q. subst a.
           change ((t :: u) ++ (a' ++ q ++ b') :: w) with (t :: (u ++ (a' ++ q ++ b') :: w)).
           rewrite (join_cons d t) by (destruct u; discriminate). rewrite <- F3. rewrite <- app_assoc. auto.
Qed.

Lemma find_0_none s p : str_find s p 0 = None -> ~ contains p s.
Proof.
  unfold str_find. cbn [Nat.ltb Nat.leb]. destruct (List.length s <? 0) eqn:E0; [apply Nat.ltb_lt in E0; lia|]. cbn [skipn].
  destruct (find_sub p s) eqn:E; [discriminate|]. intros _ [j Hj]. apply (find_sub_none p s E j Hj).
Qed.
Lemma find_0_some s p i : str_find s p 0 = Some i -> exists a b, s = a ++ p ++ b /\ List.length a = i.
Proof.
  unfold str_find. destruct (List.length s <? 0) eqn:E0; [apply Nat.ltb_lt in E0; lia|]. cbn [skipn].
  destruct (find_sub p s) eqn:E; [|discriminate]. intros H. injection H as <-. cbn [Nat.add].
  apply find_sub_some in E. destruct E as (a & b & E1 & E2 & _). eauto.
Qed.
Lemma contains_mid p a b : contains p (a ++ p ++ b).
Proof. exists (List.length a), a, b. auto. Qed.
Lemma contains_self p : contains p p.
Proof. exists 0, [], []. rewrite app_nil_r. auto. Qed.

(** ** Putting values in place of names *)
Definition subst1 (name val tok : str) : str := if str_eqb tok name then val else tok.
Lemma subst1_count name val toks : count_occ (list_eq_dec ascii_dec) (map (subst1 name val) toks) name = 0 \/ contains name val.
Proof.
  induction toks as [|t toks [IH|IH]]; [left; auto| |right; auto]. cbn [map count_occ].
  destruct (list_eq_dec ascii_dec (subst1 name val t) name) as [E|]; [|left; auto].
  unfold subst1 in E. destruct (str_eqb t name) eqn:E1.
  - right. rewrite E. apply contains_self.
  - subst t. rewrite str_eqb_refl in E1. discriminate.
Qed.

Lemma replaceVariable_ok d name val : name <> [] -> ~ In d name -> ~ contains name val ->
  forall k fuel toks, count_occ (list_eq_dec ascii_dec) toks name = k -> k < fuel -> (forall t, In t toks -> contains name t -> name = t) ->
  replaceVariable fuel (join d toks) name val = Ok (join d (map (subst1 name val) toks)).
Proof.
  intros Hn Hd Hv. induction k as [|k IH]; intros fuel toks Hk Hf Ht; (destruct fuel as [|fuel]; [lia|]); cbn [replaceVariable].
  - destruct (str_find (join d toks) name 0) as [i|] eqn:E.
    + exfalso. apply find_0_some in E. destruct E as (a & b & E & _). destruct (occ_join d name Hn Hd toks a b E) as (u & t & w & a' & b' & F1 & F2 & _).
      assert (name = t) by (apply Ht; [rewrite F1; apply in_or_app; right; left; auto|rewrite F2; apply contains_mid]).
      apply count_occ_not_In in Hk. apply Hk. rewrite F1. apply in_or_app. right. left. auto.
    + f_equal. apply f_equal. rewrite <- (map_id toks) at 1. apply map_ext_in. intros t Hi. unfold subst1.
      destruct (str_eqb t name) eqn:E1; auto. apply str_eqb_eq in E1. subst t. apply count_occ_not_In in Hk. contradiction.
  - destruct (str_find (join d toks) name 0) as [i|] eqn:E.
    + apply find_0_some in E. destruct E as (a & b & E & La). destruct (occ_join d name Hn Hd toks a b E) as (u & t & w & a' & b' & F1 & F2 & F3).
      assert (Et : name = t) by (apply Ht; [rewrite F1; apply in_or_app; right; left; auto|rewrite F2; apply contains_mid]).
      assert (Hl : a' = [] /\ b' = []).
      { assert (L : List.length t = List.length name) by congruence. rewrite F2, !app_length in L. destruct a', b'; auto; cbn in L; lia. }
      destruct Hl as [-> ->].
      assert (P1 : (if i =? 0 then Ok [] else substr (join d toks) 0 (Some i)) = Ok a).
      { destruct (Nat.eqb_spec i 0) as [-> |Hi]; [destruct a; [auto|discriminate]|]. unfold substr.
        destruct (Nat.ltb_spec (List.length (join d toks)) 0); [lia|]. f_equal. rewrite E. cbn [skipn]. rewrite <- La. rewrite firstn_app, Nat.sub_diag, firstn_all. cbn [firstn]. apply app_nil_r. }
      assert (P2 : substr (join d toks) (i + List.length name) (Some (List.length (join d toks) - List.length name - i)) = Ok b).
      { unfold substr. rewrite E. rewrite !app_length. destruct (Nat.ltb_spec (List.length a + (List.length name + List.length b)) (i + List.length name)); [lia|].
        f_equal. rewrite app_assoc, skipn_app. rewrite app_length. replace (i + List.length name - (List.length a + List.length name)) with 0 by lia.
        rewrite skipn_all2 by (rewrite app_length; lia). cbn [skipn app]. apply firstn_all2. lia. }
      rewrite P1. cbn [bind]. rewrite P2. cbn [bind]. rewrite F3. cbn [app]. rewrite app_nil_r.
      rewrite IH.
      * rewrite F1, <- Et, !map_app. cbn [map].
        assert (Es : subst1 name val val = subst1 name val name) by (unfold subst1; rewrite str_eqb_refl; destruct (str_eqb val name); auto).
        rewrite Es. reflexivity.
      * rewrite F1, <- Et in Hk. rewrite count_occ_app in Hk |- *. cbn [count_occ] in Hk |- *. destruct (list_eq_dec ascii_dec name name); [|congruence].
        destruct (list_eq_dec ascii_dec val name) as [Ev|]; [exfalso; apply Hv; rewrite Ev; apply contains_self|]. lia.
      * lia.
      * intros x Hx Hc. apply in_app_or in Hx. destruct Hx as [Hx|[Hx|Hx]].
        -- apply Ht; auto. rewrite F1. apply in_or_app. auto.
        -- subst x. contradiction.
        -- apply Ht; auto. rewrite F1. apply in_or_app. right. right. auto.
    + exfalso. apply find_0_none in E. assert (Hi : In name toks) by (apply (count_occ_In (list_eq_dec ascii_dec)); lia). apply in_split in Hi. destruct Hi as (u & w & ->).
      apply E. clear. induction u as [|x u IH].
      * cbn [app]. destruct w as [|y w]; [apply contains_self|]. rewrite join_cons by discriminate. exists 0, [], (d :: join d (y :: w)). auto.
      * change ((x :: u) ++ name :: w) with (x :: (u ++ name :: w)). rewrite join_cons by (destruct u; discriminate).
        destruct IH as (j & a & b & IH & _). rewrite IH. exists (List.length (x ++ d :: a)), (x ++ d :: a), b. rewrite <- app_assoc. auto.
Qed.

Section Vars.
  Context {V : Type}.
  Variable A : arith V.
  Variable C : cmps V.
  Variable value : str -> V.
  Variable names : list str.
  Variable vals : list V.
  Hypothesis G : good_vars C value names vals.

  (** The first [i] variables replaced *)
  Definition substs (i : nat) (tok : str) : str :=
    fold_left (fun tok nv => subst1 (fst nv) (c_ttos C (snd nv)) tok) (firstn i (combine names vals)) tok.
  Lemma substs_S i n v tok : nth_error names i = Some n -> nth_error vals i = Some v -> substs (S i) tok = subst1 n (c_ttos C v) (substs i tok).
  Proof.
    intros Hn Hv. unfold substs.
    assert (E : firstn (S i) (combine names vals) = firstn i (combine names vals) ++ [(n, v)]).
    { revert Hn Hv. generalize vals as vs. clear. revert i. induction names as [|m ns IH]; intros i vs Hn Hv; [destruct i; discriminate|].
      destruct vs as [|w vs]; [destruct i; discriminate|]. destruct i as [|i]; cbn [nth_error] in *.
      - injection Hn as ->. injection Hv as ->. reflexivity.
      - change (combine (m :: ns) (w :: vs)) with ((m, w) :: combine ns vs). cbn [firstn app]. f_equal. apply (IH i vs Hn Hv). }
    rewrite E, fold_left_app. reflexivity.
  Qed.
  Lemma nth_both i : i < List.length names -> exists n v, nth_error names i = Some n /\ nth_error vals i = Some v.
  Proof.
    intros Hi. destruct (nth_error names i) as [n|] eqn:E1; [|apply nth_error_None in E1; lia].
    destruct (nth_error vals i) as [v|] eqn:E2; [eauto|]. apply nth_error_None in E2. rewrite (gv_length _ _ _ _ G) in Hi. lia.
  Qed.
  (** After [i] steps a token is still itself, or was the name number [j < i] and is its value. *)
  Lemma substs_cases tok : forall i, i <= List.length names ->
    (substs i tok = tok /\ forall j, j < i -> nth_error names j <> Some tok) \/
    (exists j v, j < i /\ nth_error names j = Some tok /\ nth_error vals j = Some v /\ substs i tok = c_ttos C v).
  Proof.
    induction i as [|i IH]; intros Hi.
    - left. split; [reflexivity|lia].
    - destruct (nth_both i) as (n & v & En & Ev); [lia|]. rewrite (substs_S i n v) by auto. destruct IH as [[E H]|(j & w & Hj & E1 & E2 & E3)]; [lia| |].
      + rewrite E. unfold subst1. destruct (str_eqb tok n) eqn:Et.
        * right. apply str_eqb_eq in Et. subst n. exists i, v. auto.
        * left. split; [auto|]. intros j Hj Ej. destruct (Nat.eq_dec j i) as [-> |]; [|apply (H j); auto; lia].
          rewrite En in Ej. injection Ej as ->. rewrite str_eqb_refl in Et. discriminate.
      + right. exists j, w. rewrite E3. unfold subst1. destruct (str_eqb (c_ttos C w) n) eqn:Et; [|repeat split; auto; lia].
        apply str_eqb_eq in Et. exfalso. apply (gv_values _ _ _ _ G n w).
        * apply nth_error_In with i; auto.
        * apply nth_error_In with j; auto.
        * rewrite Et. apply contains_self.
  Qed.

  Lemma replaceVariables_ok fuel toks :
    (forall n l, In n names -> In l toks -> contains n l -> n = l) -> List.length toks < fuel ->
    replaceVariables C fuel (join ":" toks) names vals = Ok (join ":" (map (substs (List.length names)) toks)).
  Proof.
    intros Ht Hf. unfold replaceVariables. rewrite (gv_length _ _ _ _ G), Nat.eqb_refl. rewrite <- (gv_length _ _ _ _ G).
    loopM (fun i s => s = join ":" (map (substs i) toks)) as s E Hs.
    - unfold substs. cbn [firstn fold_left]. rewrite map_id. reflexivity.
    - intros i s Hi ->. cbn [Nat.add]. destruct (nth_both i) as (n & v & En & Ev); [lia|].
      assert (In1 : In n names) by (apply nth_error_In with i; auto).
      unfold vget. rewrite En, Ev. cbn [bind].
      rewrite (replaceVariable_ok ":" n (c_ttos C v)) with (k := count_occ (list_eq_dec ascii_dec) (map (substs i) toks) n).
      + eexists. split; [reflexivity|]. rewrite map_map. apply f_equal. apply map_ext. intros x. symmetry. apply substs_S; auto.
      + intros ->. apply (gv_nonempty _ _ _ _ G). auto.
      + intros Hc. apply (gv_chars _ _ _ _ G n ":"%char In1 Hc). left. reflexivity.
      + apply (gv_values _ _ _ _ G); auto. apply nth_error_In with i; auto.
      + reflexivity.
      + eapply Nat.le_lt_trans; [apply count_occ_bound|]. rewrite map_length. auto.
      + intros x Hx Hc. apply in_map_iff in Hx. destruct Hx as (y & Ey & Hy). destruct (substs_cases y i) as [[E H]|(j & w & Hj & E1 & E2 & E3)]; [lia| |].
        * rewrite E in Ey. subst y. apply Ht; auto.
        * exfalso. rewrite E3 in Ey. subst x. apply (gv_values _ _ _ _ G n w); auto. apply nth_error_In with j; auto.
    - rewrite E. subst s. reflexivity.
  Qed.
End Vars.

(** ** Changing the labels of a tree *)
Fixpoint relabel (f : str -> str) (t : tree) : tree := match t with T l c => T (f l) (map (relabel f) c) end.
Lemma relabel_height f t : theight (relabel f t) = theight t.
Proof.
  induction t as [l c IH] using tree_ind2. cbn [relabel theight]. f_equal. f_equal. rewrite map_map. apply map_ext_in. rewrite Forall_forall in IH. auto.
Qed.
Lemma relabel_size f t : tsize (relabel f t) = tsize t.
Proof.
  induction t as [l c IH] using tree_ind2. cbn [relabel tsize]. f_equal. f_equal. rewrite map_map. apply map_ext_in. rewrite Forall_forall in IH. auto.
Qed.
Lemma relabel_levels f h : forall ts, levels h (map (relabel f) ts) = map f (levels h ts).
Proof.
  induction h as [|h IH]; intros ts; auto. cbn [levels]. rewrite map_app. f_equal.
  - rewrite !map_map. apply map_ext. intros [l c]. auto.
  - rewrite <- IH. f_equal. induction ts as [|[l c] ts IHt]; auto. cbn [map flat_map relabel children]. rewrite map_app, IHt. auto.
Qed.
Lemma relabel_order f t : level_order (relabel f t) = map f (level_order t).
Proof. unfold level_order. rewrite relabel_height. apply (relabel_levels f (theight t) [t]). Qed.

Lemma level_order_length t : List.length (level_order t) = tsize t.
Proof. unfold level_order. rewrite levels_nodes, map_length. apply N_length. Qed.
Lemma order_nonempty t : level_order t <> [].
Proof. pose proof (level_order_length t) as H. destruct (level_order t); [destruct t; cbn in H; lia|discriminate]. Qed.

(** The last token of a level order is a leaf. *)
Lemma order_last t d : exists x, last (level_order t) d = label x /\ In x (nodes_of (theight t) [t]) /\ children x = [].
Proof.
  set (N := nodes_of (theight t) [t]). pose proof (N_children_length t) as Lc. fold N in Lc.
  assert (Ln : 0 < List.length N) by lia. set (i := List.length N - 1).
  pose proof (pending t i) as P. fold N in P. specialize (P ltac:(unfold i; lia)).
  assert (E : N = firstn i N ++ [nth i N t]).
  { rewrite <- (firstn_all N) at 1. replace (List.length N) with (S i) by (unfold i; lia). apply firstn_S_nth. unfold i; lia. }
  exists (nth i N t). split; [|split].
  - unfold level_order. rewrite levels_nodes. fold N. rewrite E at 1. rewrite map_app. cbn [map]. apply last_last.
  - apply nth_In. unfold i; lia.
  - rewrite E, flat_map_app, app_length in Lc. cbn [flat_map] in Lc. rewrite app_nil_r, app_length in Lc. cbn [List.length] in Lc.
    rewrite firstn_length in Lc. destruct (children (nth i N t)); auto. cbn [List.length] in Lc. unfold i in *. lia.
Qed.
Lemma order_in t l : In l (level_order t) -> exists x, In x (nodes_of (theight t) [t]) /\ label x = l.
Proof. unfold level_order. rewrite levels_nodes. intros H. apply in_map_iff in H. destruct H as (x & E & Hx). eauto. Qed.

Lemma digit_chars c : is_digit c \/ In c (lit "-+eE.") -> In c (map ascii_of_nat (seq 48 10) ++ lit "-+eE.").
Proof. intros [H|H]; apply in_or_app; auto. Qed.
(** The characters of the tokens *)
Lemma meaning_chars {V} (A : arith V) value l vs v : meaning A value l vs v ->
  l <> [] /\ (forall c, In c l -> ~ In c (lit ":,&=!<>@")) /\ (In "%"%char l -> l = lit "%" /\ vs <> []).
Proof.
  intros H. inversion H; subst; clear H;
    try (split; [discriminate|]; split; [intros c Hc Hx; cbn in Hc, Hx; intuition (subst; discriminate)|];
         intros Hx; (split; [reflexivity || (cbn in Hx; intuition discriminate)|discriminate])).
  destruct H0 as [H1 (d & Hd & Hdig)]. split; [intros ->; contradiction|]. split.
  - intros c Hc Hx. specialize (H1 c Hc). apply digit_chars in H1. cbn in H1, Hx. intuition (subst; discriminate).
  - intros Hx. exfalso. specialize (H1 _ Hx). apply digit_chars in H1. cbn in H1. intuition discriminate.
Qed.

Section Words.
  Context {V : Type}.
  Variable A : arith V.
  Variable C : cmps V.
  Variable value : str -> V.
  Variable names : list str.
  Variable vals : list V.
  Hypothesis G : good_vars C value names vals.
  Hypothesis HA : forall s, real_text s -> a_input A s = Ok (value s).
  Let sem := vmeaning A value names vals.

  Lemma vm_chars l vs v : sem l vs v ->
    l <> [] /\ (forall c, In c l -> ~ In c (lit ":,&=!<>@")) /\ (In "%"%char l -> l = lit "%" /\ vs <> []).
  Proof.
    intros H. inversion H; subst.
    - assert (Hl : In l names) by (apply nth_error_In with i; auto). split; [intros ->; apply (gv_nonempty _ _ _ _ G); auto|]. split.
      + intros c Hc Hx. apply (gv_chars _ _ _ _ G l c Hl Hc). cbn in Hx |- *. intuition.
      + intros Hx. exfalso. apply (gv_chars _ _ _ _ G l _ Hl Hx). cbn. tauto.
    - eapply meaning_chars; eauto.
  Qed.

  Lemma relabel_denotes f : (forall l vs v, sem l vs v -> meaning A value (f l) vs v) ->
    forall t v, denotes sem t v -> denotes (meaning A value) (relabel f t) v.
  Proof.
    intros Hf. induction t as [l c IH] using tree_ind2. intros v H. inversion H; subst. cbn [relabel]. apply denotes_T with vs; [|auto].
    clear - IH H2. revert vs H2. induction c as [|x c IHc]; intros vs H; inversion H; subst; cbn [map]; constructor.
    - inversion IH; auto.
    - apply IHc; auto. inversion IH; auto.
  Qed.
  Lemma substs_meaning l vs v : sem l vs v -> meaning A value (substs C names vals (List.length names) l) vs v.
  Proof.
    intros H. destruct (substs_cases C value names vals G l (List.length names)) as [[E Hn]|(j & w & Hj & E1 & E2 & E3)]; auto.
    - rewrite E. inversion H; subst; auto. exfalso. apply (Hn i); auto. apply nth_error_Some. congruence.
    - rewrite E3. inversion H; subst.
      + assert (i = j) by (apply (proj1 (NoDup_nth_error names) (gv_distinct _ _ _ _ G)); [apply nth_error_Some; congruence|congruence]). subst j.
        assert (w = v) by congruence. subst w. destruct (gv_read _ _ _ _ G v) as [H2 H3]; [apply nth_error_In with i; auto|].
        rewrite <- H3 at 2. apply m_num. auto.
      + exfalso. apply H0. apply nth_error_In with j; auto.
  Qed.

  Lemma getValue_ok t v : denotes sem t v -> (Z.of_nat (tsize t) < 18446744073709551616)%Z -> names_apart names t ->
    exists f0, forall fuel, f0 <= fuel -> getValue A C fuel (word_text t) names vals = Ok v.
  Proof.
    intros Hv Hs Ha. set (sb := substs C names vals (List.length names)).
    exists (S (List.length (level_order t)) + S (List.length (join ":" (level_order (relabel sb t))))). intros fuel Hf.
    assert (Hd : denotes (meaning A value) (relabel sb t) v) by (apply relabel_denotes; auto; apply substs_meaning).
    unfold getValue, word_text. rewrite (replaceVariables_ok C value names vals G) by (auto; lia). cbn [bind].
    fold sb. rewrite <- relabel_order. change (lit ":") with [":"%char]. rewrite join_split.
    - cbn [bind]. rewrite <- (app_nil_r (level_order (relabel sb t))). apply (ast_eval_ok _ (meaning A value)); auto.
      + apply find_meaning; auto.
      + rewrite relabel_size. auto.
    - intros l Hl. apply order_in in Hl. destruct Hl as (x & Hx & <-). destruct (N_denotes (relabel sb t) (meaning A value) v Hd x Hx) as (w & Hw).
      inversion Hw; subst. cbn [label]. destruct (meaning_chars _ _ _ _ _ H0) as (M1 & M2 & _). split; auto. intros Hc. apply (M2 _ Hc). left. auto.
    - lia.
  Qed.
End Words.

(** ** Finding the operator *)
Lemma operatorLength_in op n : operatorLength op = S n -> In op pred_ops.
Proof.
  unfold operatorLength. destruct (existsb (str_eqb op) pred_ops) eqn:E; [|discriminate]. intros _.
  apply existsb_exists in E. destruct E as (x & Hx & Ex). apply str_eqb_eq in Ex. subst x. auto.
Qed.
Lemma no_op2 c c2 : ~ In c (lit "=!<>") -> (c = "%"%char -> c2 <> "%"%char) -> (operatorLength [c; c2] =? 2) = false.
Proof.
  intros H1 H2. apply Nat.eqb_neq. intros E. apply operatorLength_in in E. apply in_map_iff in E. destruct E as (x & E & Hx).
  cbn in Hx. decompose [or] Hx; try contradiction; subst x; cbn in E; try discriminate; injection E as <- <-; try (apply H1; cbn; tauto).
Qed.
Lemma no_op1 c : ~ In c (lit "=!<>") -> (operatorLength [c] =? 1) = false.
Proof.
  intros H1. apply Nat.eqb_neq. intros E. apply operatorLength_in in E. apply in_map_iff in E. destruct E as (x & E & Hx).
  cbn in Hx. decompose [or] Hx; try contradiction; subst x; cbn in E; try discriminate; injection E as <-; apply H1; cbn; tauto.
Qed.
Lemma substr_at pre rest n : substr (pre ++ rest) (List.length pre) (Some n) = Ok (firstn n rest).
Proof.
  unfold substr. rewrite app_length. destruct (Nat.ltb_spec (List.length pre + List.length rest) (List.length pre)); [lia|].
  rewrite skipn_app, skipn_all, Nat.sub_diag. reflexivity.
Qed.
Lemma find_op_ok op rhs : In op pred_ops -> rhs <> [] -> (forall r, rhs <> "="%char :: r) -> forall lhs pre k,
  (forall c, In c lhs -> ~ In c (lit "=!<>")) ->
  (forall a b, lhs = a ++ "%"%char :: b -> exists b', b = ":"%char :: b') ->
  k = List.length (lhs ++ op ++ rhs) - 1 ->
  find_op k (List.length pre) (pre ++ lhs ++ op ++ rhs) = Ok (Some (List.length pre + List.length lhs, List.length op)).
Proof.
  intros Hop Hr He. induction lhs as [|c lhs IH]; intros pre k Hc Hp Hk.
  - cbn [app List.length]. rewrite Nat.add_0_r. cbn [app] in Hk.
    destruct rhs as [|r rhs]; [congruence|]. destruct k as [|k].
    { exfalso. rewrite app_length in Hk. cbn [List.length] in Hk. destruct op as [|o op]; [cbn in Hop; intuition discriminate|cbn [List.length] in Hk; lia]. }
    cbn [find_op]. rewrite !substr_at. cbn [bind].
    cbn in Hop. decompose [or] Hop; try contradiction; subst op; try reflexivity.
    + cbn [app firstn]. destruct (operatorLength [">"%char; r] =? 2) eqn:E; [|reflexivity].
      exfalso. apply Nat.eqb_eq, operatorLength_in in E. cbn in E. decompose [or] E; try contradiction; try discriminate. injection H0 as H0. subst r. apply (He rhs). reflexivity.
    + cbn [app firstn]. destruct (operatorLength ["<"%char; r] =? 2) eqn:E; [|reflexivity].
      exfalso. apply Nat.eqb_eq, operatorLength_in in E. cbn in E. decompose [or] E; try contradiction; try discriminate. injection H as H. subst r. apply (He rhs). reflexivity.
  - assert (Lk : k = S (List.length (lhs ++ op ++ rhs) - 1)).
    { cbn [app List.length] in Hk. rewrite !app_length in *. destruct rhs; [congruence|]. cbn [List.length] in *. lia. }
    clear Hk. subst k. cbn [find_op]. rewrite !substr_at. cbn [bind app firstn].
    assert (E2 : exists c2 s', lhs ++ op ++ rhs = c2 :: s' /\ (c = "%"%char -> c2 <> "%"%char)).
    { destruct lhs as [|c2 lhs].
      - destruct op as [|o op]; [cbn in Hop; intuition discriminate|]. exists o, (op ++ rhs). split; [reflexivity|]. intros ->. destruct (Hp [] [] eq_refl) as [b' Hb]. discriminate.
      - exists c2, (lhs ++ op ++ rhs). split; [reflexivity|]. intros ->. destruct (Hp [] (c2 :: lhs) eq_refl) as [b' Hb]. injection Hb as -> ->. discriminate. }
    destruct E2 as (c2 & s' & E2 & Hc2). rewrite E2. cbn [firstn]. rewrite no_op2; auto; [|apply Hc; left; auto]. rewrite no_op1 by (apply Hc; left; auto).
    rewrite <- E2. specialize (IH (pre ++ [c]) (List.length (lhs ++ op ++ rhs) - 1)). assert (Lp : List.length (pre ++ [c]) = S (List.length pre)) by (rewrite app_length; cbn; lia). rewrite Lp in IH.
    rewrite <- app_assoc in IH. cbn [app] in IH. rewrite IH; auto.
    + do 3 f_equal. cbn [List.length]. lia.
    + intros x Hx. apply Hc. right. auto.
    + intros a b E. apply (Hp (c :: a) b). rewrite E. reflexivity.
Qed.

Lemma pred_simple_ok lhs op rhs : In op pred_ops -> lhs <> [] -> rhs <> [] -> (forall r, rhs <> "="%char :: r) ->
  (forall c, In c lhs -> ~ In c (lit "=!<>")) ->
  (forall a b, lhs = a ++ "%"%char :: b -> exists b', b = ":"%char :: b') ->
  pred_simple (lhs ++ op ++ rhs) = Ok (lhs, op, rhs).
Proof.
  intros Hop Hl Hr He Hc Hp. unfold pred_simple.
  assert (L : 1 <= List.length lhs /\ 1 <= List.length op /\ 1 <= List.length rhs).
  { destruct lhs; [congruence|]. destruct rhs; [congruence|]. destruct op; [cbn in Hop; intuition discriminate|]. cbn. lia. }
  assert (Ll : List.length (lhs ++ op ++ rhs) = List.length lhs + (List.length op + List.length rhs)) by (rewrite !app_length; auto).
  destruct (Nat.ltb_spec (List.length (lhs ++ op ++ rhs)) 3); [lia|].
  pose proof (find_op_ok op rhs Hop Hr He lhs [] (List.length (lhs ++ op ++ rhs) - 1) Hc Hp eq_refl) as F. cbn [app List.length Nat.add] in F. rewrite F. cbn [bind].
  pose proof (substr_at [] (lhs ++ op ++ rhs) (List.length lhs)) as S0. cbn [app List.length] in S0. rewrite S0. cbn [bind].
  rewrite firstn_app, firstn_all, Nat.sub_diag. cbn [firstn]. rewrite app_nil_r.
  rewrite substr_at. cbn [bind]. rewrite firstn_app, firstn_all, Nat.sub_diag. cbn [firstn]. rewrite app_nil_r.
  pose proof (substr_at (lhs ++ op) rhs (List.length (lhs ++ op ++ rhs) - List.length lhs - List.length op)) as S1. rewrite <- app_assoc, app_length in S1. rewrite S1. cbn [bind].
  rewrite Ll. rewrite firstn_all2 by lia.
  destruct (str_eqb lhs []) eqn:E1; [apply str_eqb_eq in E1; congruence|]. destruct (str_eqb rhs []) eqn:E2; [apply str_eqb_eq in E2; congruence|]. reflexivity.
Qed.

(** A % among the texts is followed by the separator. *)
Lemma join_percent ts : (forall t, In t ts -> In "%"%char t -> t = lit "%") -> ~ In "%"%char (last ts []) ->
  forall a b, join ":" ts = a ++ "%"%char :: b -> exists b', b = ":"%char :: b'.
Proof.
  induction ts as [|t ts IH]; intros Ht Hl a b E; [destruct a; discriminate|]. destruct ts as [|t' ts].
  - exfalso. apply Hl. cbn [join last] in *. rewrite E. apply in_or_app. right. left. auto.
  - rewrite join_cons in E by discriminate. apply app_eq_app in E. destruct E as [l [[E1 E2]|[E1 E2]]].
    + destruct l as [|x l]; [discriminate|]. injection E2 as <- E2. assert (Et : t = lit "%") by (apply Ht; [left; auto|rewrite E1; apply in_or_app; right; left; auto]).
      rewrite Et in E1. destruct a as [|y a]; [|destruct a; discriminate]. injection E1 as <-. exists (join ":" (t' :: ts)). rewrite E2. auto.
    + destruct l as [|x l]; [discriminate|]. injection E2 as <- E2. apply (IH (fun u Hu => Ht u (or_intror Hu)) Hl l b E2).
Qed.

Lemma join_len d ts t : In t ts -> List.length t <= List.length (join d ts).
Proof.
  induction ts as [|u ts IH]; [contradiction|]. intros H. destruct ts as [|u' ts].
  - destruct H as [<-|[]]. auto.
  - rewrite join_cons by discriminate. rewrite app_length. cbn [List.length]. destruct H as [<-|H]; [lia|]. specialize (IH H). lia.
Qed.

Section Predicates.
  Context {V : Type}.
  Variable A : arith V.
  Variable C : cmps V.
  Variable value : str -> V.
  Variable names : list str.
  Variable vals : list V.
  Hypothesis G : good_vars C value names vals.
  Hypothesis HA : forall s, real_text s -> a_input A s = Ok (value s).
  Let sem := vmeaning A value names vals.
  (** An expression with a value *)
  Definition word_ok (t : tree) (v : V) : Prop := denotes sem t v /\ (Z.of_nat (tsize t) < 18446744073709551616)%Z /\ names_apart names t.

  Lemma tokens_ok t v : denotes sem t v -> forall l, In l (level_order t) -> exists vs w, sem l vs w.
  Proof.
    intros Hd l Hl. apply order_in in Hl. destruct Hl as (x & Hx & <-). destruct (N_denotes t sem v Hd x Hx) as (w & Hw). inversion Hw; subst. cbn [label]. eauto.
  Qed.
  Lemma word_chars t v c : denotes sem t v -> In c (word_text t) -> ~ In c (lit ",&=!<>@").
  Proof.
    intros Hd Hc. apply join_in in Hc. destruct Hc as [-> |(l & Hl & Hc)]; [cbn; intuition discriminate|].
    destruct (tokens_ok t v Hd l Hl) as (vs & w & Hs). destruct (vm_chars A C value names vals G l vs w Hs) as (_ & H & _).
    specialize (H c Hc). intros Hx. apply H. cbn in Hx |- *. intuition.
  Qed.
  Lemma word_nonempty t v : denotes sem t v -> word_text t <> [].
  Proof.
    intros Hd. apply join_nonempty; [apply order_nonempty|]. intros l Hl. destruct (tokens_ok t v Hd l Hl) as (vs & w & Hs).
    apply (vm_chars A C value names vals G l vs w Hs).
  Qed.
  Lemma word_percent t v : denotes sem t v -> forall a b, word_text t = a ++ "%"%char :: b -> exists b', b = ":"%char :: b'.
  Proof.
    intros Hd. apply join_percent.
    - intros l Hl Hp. destruct (tokens_ok t v Hd l Hl) as (vs & w & Hs). apply (vm_chars A C value names vals G l vs w Hs). auto.
    - intros Hp. destruct (order_last t []) as (x & E & Hx & Hc). rewrite E in Hp. destruct (N_denotes t sem v Hd x Hx) as (w & Hw).
      inversion Hw as [l c vs w' Hcs Hs]; subst. cbn [label children] in *. subst c. inversion Hcs; subst vs.
      destruct (vm_chars A C value names vals G l [] w Hs) as (_ & _ & H). destruct (H Hp) as [_ H']. congruence.
  Qed.
  Lemma ops_in op x y : op_defined C op x y -> In op pred_ops.
  Proof. intros [H|[-> _]]; cbn in *; intuition. Qed.

  (** A comparison and the values of its sides *)
  Definition cmp_ok (c : comparison) (xy : V * V) : Prop :=
    let '(l, op, r) := c in word_ok l (fst xy) /\ word_ok r (snd xy) /\ op_defined C op (fst xy) (snd xy).
  Definition parts (c : comparison) : str * str * str := let '(l, op, r) := c in (word_text l, op, word_text r).
  Definition cmp_true (c : comparison) (xy : V * V) : Prop := let '(l, op, r) := c in op_true C op (fst xy) (snd xy).

  Lemma cmp_parse c xy : cmp_ok c xy -> pred_simple (cmp_text c) = Ok (parts c).
  Proof.
    destruct c as [[l op] r]. intros ([Hl _] & [Hr _] & Hop). cbn [cmp_text parts]. apply pred_simple_ok.
    - eapply ops_in; eauto.
    - eapply word_nonempty; eauto.
    - eapply word_nonempty; eauto.
    - intros s Hs. apply (word_chars r (snd xy) "="%char Hr); [rewrite Hs; left; auto|cbn; tauto].
    - intros c Hc Hx. apply (word_chars l (fst xy) c Hl Hc). cbn in Hx |- *. intuition.
    - eapply word_percent; eauto.
  Qed.
  Lemma cmp_chars c xy x : cmp_ok c xy -> In x (cmp_text c) -> ~ In x (lit ",&@").
  Proof.
    destruct c as [[l op] r]. intros ([Hl _] & [Hr _] & Hop) Hx Hin. cbn [cmp_text] in Hx. apply in_app_or in Hx. destruct Hx as [Hx|Hx]; [|apply in_app_or in Hx; destruct Hx as [Hx|Hx]].
    - apply (word_chars l _ x Hl Hx). cbn in Hin |- *. intuition.
    - apply ops_in in Hop. cbn in Hop. cbn in Hin. decompose [or] Hop; try contradiction; subst op; cbn in Hx; intuition (subst; discriminate).
    - apply (word_chars r _ x Hr Hx). cbn in Hin |- *. intuition.
  Qed.
  Lemma cmp_nonempty c xy : cmp_ok c xy -> cmp_text c <> [].
  Proof. destruct c as [[l op] r]. intros ([Hl _] & _) E. apply word_nonempty in Hl. cbn [cmp_text] in E. destruct (word_text l); [congruence|discriminate]. Qed.

  Lemma compare_ok op x y : op_defined C op x y -> exists b, compareOnOp C x op y = Ok b /\ (b = true <-> op_true C op x y).
  Proof.
    intros H. unfold compareOnOp, op_true.
    assert (T : forall (P Q : Prop), (P <-> Q) -> (P <-> Q)) by auto.
    destruct H as [H|[-> (a & b & E1 & E2 & Hb)]].
    - cbn in H. decompose [or] H; try contradiction; subst op; cbn; eexists; (split; [reflexivity|]);
        (split; [intros E; try apply Bool.negb_true_iff in E; tauto|intros E; decompose [or and] E; try discriminate; auto; try (apply Bool.negb_true_iff; auto)]).
    - cbn. rewrite E1, E2. cbn [bind]. destruct (Z.eqb_spec b 0); [contradiction|]. cbn [negb]. eexists. split; [reflexivity|]. rewrite Z.eqb_eq. rewrite Z.mod_divide by auto. split.
      + intros D. do 6 right. split; auto. exists a, b. auto.
      + intros E. destruct E as [[E _]|[[E _]|[[E _]|[[E _]|[[E _]|[[E _]|[_ (a' & b' & F1 & F2 & D)]]]]]]]; try discriminate. apply Ok_inj in F1. apply Ok_inj in F2. subst. auto.
  Qed.

  Lemma simple_ok c xy : cmp_ok c xy -> exists f0, forall fuel, f0 <= fuel -> exists b, simple_isTrue A C fuel (parts c) names vals = Ok b /\ (b = true <-> cmp_true c xy).
  Proof.
    destruct c as [[l op] r]. intros ((Hl & Sl & Al) & (Hr & Sr & Ar) & Hop).
    destruct (getValue_ok A C value names vals G HA l _ Hl Sl Al) as (f1 & F1). destruct (getValue_ok A C value names vals G HA r _ Hr Sr Ar) as (f2 & F2).
    exists (f1 + f2). intros fuel Hf. cbn [parts simple_isTrue]. rewrite F1, F2 by lia. cbn [bind]. apply compare_ok. auto.
  Qed.
  Lemma and_ok item : forall xys, Forall2 cmp_ok item xys -> exists f0, forall fuel, f0 <= fuel ->
    exists b, and_isTrue A C fuel (map parts item) names vals = Ok b /\ (b = true <-> Forall2 cmp_true item xys).
  Proof.
    induction item as [|c item IH]; intros xys H; inversion H; subst.
    - exists 0. intros fuel _. exists true. split; [reflexivity|]. split; auto.
    - destruct (simple_ok c y H2) as (f1 & F1). destruct (IH l' H4) as (f2 & F2). exists (f1 + f2). intros fuel Hf.
      destruct (F1 fuel ltac:(lia)) as (b & Eb & Hb). destruct (F2 fuel ltac:(lia)) as (b2 & Eb2 & Hb2). cbn [map and_isTrue]. rewrite Eb. cbn [bind]. destruct b.
      + exists b2. split; auto. rewrite Hb2. split; [intros; constructor; auto; apply Hb; auto|intros X; inversion X; auto].
      + exists false. split; auto. split; [discriminate|]. intros X. inversion X as [|? ? ? ? X1 X2]; subst. apply Hb in X1. discriminate.
  Qed.
  Lemma or_ok items : forall vs, Forall2 (Forall2 cmp_ok) items vs -> exists f0, forall fuel, f0 <= fuel ->
    exists b, or_isTrue A C fuel (map (map parts) items) names vals = Ok b /\
      (b = true <-> exists k item xys, nth_error items k = Some item /\ nth_error vs k = Some xys /\ Forall2 cmp_true item xys).
  Proof.
    induction items as [|c items IH]; intros vs H; inversion H; subst.
    - exists 0. intros fuel _. exists false. split; [reflexivity|]. split; [discriminate|]. intros (k & item & xys & E & _). destruct k; discriminate.
    - destruct (and_ok c y H2) as (f1 & F1). destruct (IH l' H4) as (f2 & F2). exists (f1 + f2). intros fuel Hf.
      destruct (F1 fuel ltac:(lia)) as (b & Eb & Hb). destruct (F2 fuel ltac:(lia)) as (b2 & Eb2 & Hb2). cbn [map or_isTrue]. rewrite Eb. cbn [bind]. destruct b.
      + exists true. split; auto. split; auto. intros _. exists 0, c, y. cbn [nth_error]. repeat split; auto. apply Hb. auto.
      + exists b2. split; auto. rewrite Hb2. split.
        * intros (k & item & xys & E1 & E2 & E3). exists (S k), item, xys. auto.
        * intros (k & item & xys & E1 & E2 & E3). destruct k as [|k]; [|exists k, item, xys; auto]. cbn [nth_error] in *. injection E1 as <-. injection E2 as <-. apply Hb in E3. discriminate.
  Qed.

  Lemma F2_in {X Y} (P : X -> Y -> Prop) u w x : Forall2 P u w -> In x u -> exists y, P x y.
  Proof. induction 1; intros Hx; [contradiction|]. destruct Hx as [<-|Hx]; eauto. Qed.
  Lemma item_parse fuel item xys : Forall2 cmp_ok item xys -> List.length (item_text item) < fuel -> pred_and fuel (item_text item) = Ok (map parts item).
  Proof.
    intros H Hf. unfold pred_and. change (lit "&") with ["&"%char]. unfold item_text in *. rewrite join_split; auto.
    - cbn [bind]. assert (L : forall l acc, (forall c, In c l -> In c item) -> forL (map cmp_text l) (fun tok v => do p <- pred_simple tok ;; Ok (v ++ [p])) acc = Ok (acc ++ map parts l)).
      { induction l as [|c l IH]; intros acc Hl; cbn [map forL]; [rewrite app_nil_r; auto|]. destruct (F2_in _ _ _ c H) as (xy & Hc); [apply Hl; left; auto|].
        rewrite (cmp_parse c xy Hc). cbn [bind]. rewrite IH by (intros; apply Hl; right; auto). rewrite <- app_assoc. auto. }
      rewrite L by auto. reflexivity.
    - intros t Ht. apply in_map_iff in Ht. destruct Ht as (c & <- & Hc). destruct (F2_in _ _ _ c H Hc) as (xy & Hxy). split; [eapply cmp_nonempty; eauto|].
      intros Hx. apply (cmp_chars c xy _ Hxy Hx). cbn. tauto.
  Qed.
  Lemma item_chars item xys x : Forall2 cmp_ok item xys -> In x (item_text item) -> ~ In x (lit ",@").
  Proof.
    intros H Hx. apply join_in in Hx. destruct Hx as [-> |(t & Ht & Hx)]; [cbn; intuition discriminate|].
    apply in_map_iff in Ht. destruct Ht as (c & <- & Hc). destruct (F2_in _ _ _ c H Hc) as (xy & Hxy). intros Hin. apply (cmp_chars c xy x Hxy Hx). cbn in Hin |- *. intuition.
  Qed.
  Lemma item_nonempty item xys : Forall2 cmp_ok item xys -> item <> [] -> item_text item <> [].
  Proof.
    intros H Hn. apply join_nonempty; [destruct item; [congruence|discriminate]|]. intros t Ht. apply in_map_iff in Ht. destruct Ht as (c & <- & Hc).
    destruct (F2_in _ _ _ c H Hc) as (xy & Hxy). eapply cmp_nonempty; eauto.
  Qed.
  Lemma pred_parse fuel items vs : Forall2 (Forall2 cmp_ok) items vs -> ~ In [] items -> List.length (pred_text items) < fuel ->
    pred_awesome fuel (pred_text items) = Ok (map (map parts) items).
  Proof.
    intros H Hn Hf. unfold pred_awesome. destruct (str_eqb (pred_text items) []) eqn:E0.
    - apply str_eqb_eq in E0. destruct items as [|i items]; [reflexivity|]. exfalso. revert E0. apply join_nonempty; [discriminate|].
      intros t Ht. apply in_map_iff in Ht. destruct Ht as (it & <- & Hi). destruct (F2_in _ _ _ it H Hi) as (xys & Hx). eapply item_nonempty; eauto. intros ->. contradiction.
    - clear E0. change (lit ",") with [","%char]. assert (Hlen := join_len "," (map item_text items)). unfold pred_text in *. rewrite join_split; auto.
      + cbn [bind]. assert (L : forall l acc, (forall c, In c l -> In c items) -> forL (map item_text l) (fun tok v =>
            match tok with
            | c :: _ => if Ascii.eqb c "@"%char then Throw else do p <- pred_and fuel tok ;; Ok (v ++ [p])
            | [] => do p <- pred_and fuel tok ;; Ok (v ++ [p])
            end) acc = Ok (acc ++ map (map parts) l)).
        { induction l as [|c l IH]; intros acc Hl; cbn [map forL]; [rewrite app_nil_r; auto|]. assert (Hc : In c items) by (apply Hl; left; auto).
          destruct (F2_in _ _ _ c H Hc) as (xys & Hx). pose proof (item_parse fuel c xys Hx) as Hp.
          specialize (Hp ltac:(eapply Nat.le_lt_trans; [apply Hlen; apply in_map; auto|auto])).
          assert (Ha := item_chars c xys "@"%char Hx).
          destruct (item_text c) as [|a s] eqn:Et.
          - rewrite Hp. cbn [bind]. rewrite IH by (intros; apply Hl; right; auto). rewrite <- app_assoc. auto.
          - destruct (Ascii.eqb_spec a "@"%char) as [-> |]; [exfalso; apply Ha; [left; auto|cbn; tauto]|].
            rewrite Hp. cbn [bind]. rewrite IH by (intros; apply Hl; right; auto). rewrite <- app_assoc. auto. }
        rewrite L by auto. reflexivity.
      + intros t Ht. apply in_map_iff in Ht. destruct Ht as (it & <- & Hi). destruct (F2_in _ _ _ it H Hi) as (xys & Hx). split.
        * eapply item_nonempty; eauto. intros ->. contradiction.
        * intros Hc. apply (item_chars it xys _ Hx Hc). cbn. tauto.
  Qed.
  Lemma predicate_ok items vs : Forall2 (Forall2 cmp_ok) items vs -> ~ In [] items -> exists f0, forall fuel, f0 <= fuel ->
    exists b, predicate A C fuel (pred_text items) names vals = Ok b /\
      (b = true <-> exists k item xys, nth_error items k = Some item /\ nth_error vs k = Some xys /\ Forall2 cmp_true item xys).
  Proof.
    intros H Hn. destruct (or_ok items vs H) as (f1 & F1). exists (f1 + S (List.length (pred_text items))). intros fuel Hf.
    unfold predicate. rewrite (pred_parse fuel items vs) by (auto; lia). cbn [bind]. apply F1. lia.
  Qed.
End Predicates.
