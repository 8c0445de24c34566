From Coq Require Import Ascii String.
From Verif Require Import Prelude Str_Model Str_Spec Str_Proofs Ast_Model Ast_Spec.
Import List.

(** Induction on trees *)
Section TreeInd.
  Variable P : tree -> Prop.
  Hypothesis H : forall l c, Forall P c -> P (T l c).
  Fixpoint tree_ind2 (t : tree) : P t :=
    match t with
    | T l c => H l c ((fix go (c : list tree) : Forall P c := match c with [] => Forall_nil P | x :: c' => Forall_cons x (tree_ind2 x) (go c') end) c)
    end.
End TreeInd.

(** The trees in level order *)
Fixpoint nodes_of (h : nat) (f : list tree) : list tree :=
  match h with
  | O => []
  | S h => f ++ nodes_of h (flat_map children f)
  end.
Definition high (h : nat) (f : list tree) : Prop := Forall (fun t => theight t <= h) f.

Lemma levels_nodes h : forall f, levels h f = map label (nodes_of h f).
Proof. induction h as [|h IH]; intros f; cbn [levels nodes_of]; auto. rewrite map_app, IH. auto. Qed.
Lemma height_in x c : In x c -> theight x <= list_max (map theight c).
Proof.
  intros Hx. induction c as [|y c IH]; [contradiction|]. cbn [map list_max fold_right]. change (fold_right Nat.max 0 (map theight c)) with (list_max (map theight c)).
  destruct Hx as [-> |Hx]; [lia|]. apply IH in Hx. lia.
Qed.
Lemma high_children h f : high (S h) f -> high h (flat_map children f).
Proof.
  intros H. apply Forall_forall. intros x Hx. apply in_flat_map in Hx. destruct Hx as (t & Ht & Hx).
  unfold high in H. rewrite Forall_forall in H. apply H in Ht. destruct t as [l c]. cbn [children theight] in *.
  pose proof (height_in x c Hx). lia.
Qed.
Lemma high_0 f : high 0 f -> f = [].
Proof. destruct f as [|[l c] f]; auto. intros H. inversion H as [|? ? H1 H2]. cbn in H1. lia. Qed.
Lemma nodes_fix h : forall f, high h f -> nodes_of h f = f ++ flat_map children (nodes_of h f).
Proof.
  induction h as [|h IH]; intros f H; cbn [nodes_of].
  - rewrite (high_0 f H). auto.
  - f_equal. rewrite flat_map_app. rewrite <- IH; auto. apply high_children; auto.
Qed.
Definition wsum (f : list tree) : nat := list_sum (map tsize f).
Lemma wsum_app a b : wsum (a ++ b) = wsum a + wsum b.
Proof. unfold wsum. rewrite map_app. apply list_sum_app. Qed.
Lemma wsum_children f : wsum f = length f + wsum (flat_map children f).
Proof.
  induction f as [|[l c] f IH]; auto. cbn [flat_map children length]. rewrite wsum_app.
  change (wsum (T l c :: f)) with (tsize (T l c) + wsum f). rewrite IH. cbn [tsize]. change (list_sum (map tsize c)) with (wsum c). lia.
Qed.
Lemma nodes_length h : forall f, high h f -> length (nodes_of h f) = wsum f.
Proof.
  induction h as [|h IH]; intros f H; cbn [nodes_of].
  - rewrite (high_0 f H). auto.
  - rewrite app_length, IH by (apply high_children; auto). rewrite (wsum_children f). auto.
Qed.
Lemma wsum_ge f : length f <= wsum f.
Proof. rewrite wsum_children. lia. Qed.
Lemma height_size t : theight t <= tsize t.
Proof.
  induction t as [l c IH] using tree_ind2. cbn [theight tsize]. apply le_n_S. induction c as [|x c IHc]; auto.
  inversion IH; subst. cbn [map list_max fold_right list_sum]. change (fold_right Nat.max 0 (map theight c)) with (list_max (map theight c)).
  change (fold_right Nat.add 0 (map tsize c)) with (list_sum (map tsize c)). specialize (IHc H2). lia.
Qed.

Section Tree.
  Variable t : tree.
  Let N := nodes_of (theight t) [t].
  Lemma N_high : high (theight t) [t].
  Proof. constructor; auto. Qed.
  Lemma N_fix : N = t :: flat_map children N.
  Proof. apply (nodes_fix (theight t) [t] N_high). Qed.
  Lemma N_length : length N = tsize t.
  Proof. unfold N. rewrite nodes_length by apply N_high. unfold wsum. cbn [map list_sum fold_right]. lia. Qed.
  Lemma N_children_length : S (length (flat_map children N)) = length N.
  Proof. rewrite N_fix at 2. reflexivity. Qed.

  (** Before the last token, some argument is missing. *)
  Lemma firstn_split i : i <= length N -> firstn (S (length (flat_map children (firstn i N)))) N = t :: flat_map children (firstn i N).
  Proof.
    intros Hi. rewrite N_fix at 2. cbn [firstn]. f_equal. rewrite <- (firstn_skipn i N) at 2. rewrite flat_map_app. rewrite firstn_app, firstn_all, Nat.sub_diag. cbn [firstn]. apply app_nil_r.
  Qed.
  Lemma pending i : i < length N -> i < S (length (flat_map children (firstn i N))).
  Proof.
    intros Hi. destruct (Nat.lt_ge_cases i (S (length (flat_map children (firstn i N))))) as [|Hge]; auto. exfalso.
    set (m := S (length (flat_map children (firstn i N)))) in *.
    pose proof (firstn_split i (Nat.lt_le_incl _ _ Hi)) as E. fold m in E.
    assert (W : wsum (firstn m N) = tsize t + wsum (flat_map children (firstn i N))) by (rewrite E; reflexivity).
    pose proof (wsum_children (firstn i N)) as W1. rewrite firstn_length, Nat.min_l in W1 by lia.
    assert (W2 : wsum (firstn i N) = wsum (firstn m N) + wsum (firstn (i - m) (skipn m N))).
    { rewrite <- wsum_app. f_equal. rewrite <- (firstn_skipn m (firstn i N)). rewrite firstn_firstn, Nat.min_l by lia. rewrite skipn_firstn_comm. auto. }
    pose proof (wsum_ge (firstn (i - m) (skipn m N))) as W3. rewrite firstn_length, skipn_length, Nat.min_l in W3 by lia.
    pose proof N_length. lia.
  Qed.
  Lemma sum_children f : length (flat_map children f) = list_sum (map (fun x => length (children x)) f).
  Proof. induction f as [|x f IH]; auto. cbn [flat_map map list_sum fold_right]. rewrite app_length, IH. auto. Qed.

  Context {V : Type}.
  Variable find : str -> res (node V).
  Variable sem : str -> list V -> V -> Prop.
  (** Each token is found, with as many arguments as the tree gives to it. *)
  Hypothesis Hsem : forall l vs v, sem l vs v -> exists f, find l = Ok (length vs, f) /\ f vs = Ok v.

  Lemma denotes_all_length c vs : denotes_all sem c vs -> length vs = length c.
  Proof. induction c in vs |- *; intros H; inversion H; subst; cbn; auto. Qed.
  Lemma denotes_all_in c vs x : denotes_all sem c vs -> In x c -> exists v, denotes sem x v.
  Proof. induction c in vs |- *; intros H Hx; [contradiction|]. inversion H; subst. destruct Hx as [<-|Hx]; eauto. Qed.
  Lemma denotes_nodes h : forall f, (forall x, In x f -> exists v, denotes sem x v) -> forall x, In x (nodes_of h f) -> exists v, denotes sem x v.
  Proof.
    induction h as [|h IH]; intros f Hf x Hx; [contradiction|]. cbn [nodes_of] in Hx. apply in_app_or in Hx. destruct Hx as [Hx|Hx]; auto.
    apply (IH (flat_map children f)); auto. intros y Hy. apply in_flat_map in Hy. destruct Hy as (z & Hz & Hy). destruct (Hf z Hz) as [v Hv].
    inversion Hv; subst. cbn [children] in Hy. eapply denotes_all_in; eauto.
  Qed.
  Lemma node_find x v : denotes sem x v -> exists f, find (label x) = Ok (length (children x), f).
  Proof.
    intros H. inversion H; subst. destruct (Hsem _ _ _ H1) as (f & E & _). exists f. cbn [label children]. rewrite <- (denotes_all_length _ _ H0). auto.
  Qed.

  Variable v : V.
  Hypothesis Hv : denotes sem t v.
  Hypothesis Hsize : (Z.of_nat (tsize t) < 18446744073709551616)%Z.
  Lemma N_denotes x : In x N -> exists w, denotes sem x w.
  Proof. apply denotes_nodes. intros y [<-|[]]. eauto. Qed.

  (** The loop that reads the tokens stops after the last one of the tree. *)
  Lemma read_ok extra : forall d i, i + d = length N -> 0 < d ->
    exists ns, ast_read find (map label (skipn i N) ++ extra) (Z.of_nat (S (length (flat_map children (firstn i N))) - i)) = Ok ns /\
      Forall2 (fun x n => find (label x) = Ok n) (skipn i N) ns.
  Proof.
    induction d as [|d IH]; intros i Hd Hp; [lia|].
    assert (Hi : i < length N) by lia. rewrite (@skipn_nth _ N i t Hi). set (x := nth i N t).
    assert (Ix : In x N) by (apply nth_In; auto). destruct (N_denotes x Ix) as (w & Hw). destruct (node_find x w Hw) as (f & Ef).
    cbn [map app ast_read]. rewrite Ef. cbn [bind fst].
    assert (Es : (Z.of_nat (S (length (flat_map children (firstn i N))) - i) + (Z.of_nat (length (children x)) - 1))%Z
                 = Z.of_nat (S (length (flat_map children (firstn (S i) N))) - S i)).
    { rewrite (@firstn_S_nth _ N i t) by auto. fold x. rewrite flat_map_app, app_length. cbn [flat_map]. rewrite app_nil_r. pose proof (pending i Hi). lia. }
    rewrite Es.
    assert (Hb : (0 <= Z.of_nat (S (length (flat_map children (firstn (S i) N))) - S i) < 18446744073709551616)%Z).
    { split; [lia|]. eapply Z.le_lt_trans; [|exact Hsize]. rewrite <- N_length, <- N_children_length.
      rewrite <- (firstn_skipn (S i) N) at 2. rewrite flat_map_app, app_length. lia. }
    rewrite Z.mod_small by auto. destruct d as [|d].
    - assert (E1 : S i = length N) by lia. rewrite E1, firstn_all. rewrite N_children_length, Nat.sub_diag. cbn [Z.of_nat Z.eqb].
      eexists. split; [reflexivity|]. rewrite skipn_all. constructor; auto.
    - pose proof (pending (S i) ltac:(lia)). destruct (Z.eqb_spec (Z.of_nat (S (length (flat_map children (firstn (S i) N))) - S i)) 0); [lia|].
      destruct (IH (S i)) as (ns & E & F); [lia|lia|]. rewrite E. cbn [bind]. eexists. split; [reflexivity|]. constructor; auto.
  Qed.

  (** The descendants of each tree are its children. *)
  Lemma link_nth total : forall va k i, i < length va ->
    nth i (ast_link total k va) [] = filter (fun j => j <? total) (seq (k + list_sum (firstn i va) + 1) (nth i va 0)).
  Proof.
    induction va as [|a va IH]; intros k i Hi; [cbn in Hi; lia|]. cbn [ast_link]. destruct i as [|i]; cbn [nth firstn list_sum fold_right].
    - rewrite Nat.add_0_r. auto.
    - rewrite IH by (cbn in Hi; lia). change (fold_right Nat.add 0 (firstn i va)) with (list_sum (firstn i va)). do 2 f_equal. lia.
  Qed.
  Lemma link_length total va : forall k, length (ast_link total k va) = length va.
  Proof. induction va; intros k; cbn; auto. Qed.

  Variable ns : list (node V).
  Hypothesis Hns : Forall2 (fun x n => find (label x) = Ok n) N ns.
  Let desc := ast_link (length ns) 0 (map fst ns).
  Lemma ns_length : length ns = length N.
  Proof. clear - Hns. induction Hns; cbn; auto. Qed.
  Lemma F2_nth {A B} (P : A -> B -> Prop) u w : Forall2 P u w -> forall i a b, i < length u -> P (nth i u a) (nth i w b).
  Proof. induction 1; intros i a b Hi; [cbn in Hi; lia|]. destruct i; cbn [nth]; auto. apply IHForall2. cbn in Hi. lia. Qed.
  Lemma ns_nth i : i < length N -> find (label (nth i N t)) = Ok (nth i ns (0, fun _ => UB)).
  Proof. apply (F2_nth _ _ _ Hns). Qed.
  Lemma arity_nth i : i < length N -> fst (nth i ns (0, fun _ => UB)) = length (children (nth i N t)).
  Proof.
    intros Hi. destruct (N_denotes (nth i N t)) as (w & Hw); [apply nth_In; auto|]. destruct (node_find _ _ Hw) as (f & E).
    rewrite ns_nth in E by auto. apply Ok_inj in E. rewrite E. auto.
  Qed.
  Lemma arities : map fst ns = map (fun x => length (children x)) N.
  Proof.
    apply (@list_eq_nth _ _ _ 0); [rewrite !map_length; apply ns_length|]. intros i Hi. rewrite map_length in Hi. rewrite ns_length in Hi.
    rewrite (nth_indep _ 0 (fst (0, fun _ : list V => @UB V))), map_nth by (rewrite map_length, ns_length; auto).
    rewrite (nth_indep _ 0 (length (children t))), (map_nth (fun x => length (children x))) by (rewrite map_length; auto). apply arity_nth; auto.
  Qed.
  Lemma desc_nth i : i < length N ->
    nth i desc [] = seq (S (length (flat_map children (firstn i N)))) (length (children (nth i N t))) /\
    firstn (length (children (nth i N t))) (skipn (S (length (flat_map children (firstn i N)))) N) = children (nth i N t).
  Proof.
    intros Hi. unfold desc. rewrite arities. rewrite link_nth by (rewrite map_length; auto). rewrite firstn_map. rewrite <- sum_children.
    rewrite (nth_indep _ 0 (length (children t))), (map_nth (fun x => length (children x))) by (rewrite map_length; auto).
    assert (E : flat_map children N = flat_map children (firstn i N) ++ children (nth i N t) ++ flat_map children (skipn (S i) N)).
    { rewrite <- (firstn_skipn i N) at 1. rewrite flat_map_app. rewrite (@skipn_nth _ N i t Hi). reflexivity. }
    split.
    - replace (0 + length (flat_map children (firstn i N)) + 1) with (S (length (flat_map children (firstn i N)))) by lia.
      assert (Hl : S (length (flat_map children (firstn i N))) + length (children (nth i N t)) <= length ns).
      { rewrite ns_length, <- N_children_length, E, !app_length. lia. }
      revert Hl. generalize (S (length (flat_map children (firstn i N)))) as a, (length (children (nth i N t))) as n. intros a n. revert a.
      induction n as [|n IH]; intros a Hl; auto. cbn [seq filter]. destruct (Nat.ltb_spec a (length ns)); [|lia]. f_equal. apply IH. lia.
    - rewrite N_fix at 3. cbn [skipn]. rewrite E. rewrite skipn_app, skipn_all, Nat.sub_diag. cbn [skipn app]. rewrite firstn_app, firstn_all, Nat.sub_diag. cbn [firstn]. apply app_nil_r.
  Qed.

  Lemma exec_ok x : forall fuel i w, i < length N -> nth i N t = x -> denotes sem x w -> theight x <= fuel -> ast_exec fuel ns desc i = Ok w.
  Proof.
    induction x as [l c IH] using tree_ind2. intros fuel i w Hi Ex Hw Hf. destruct fuel as [|fuel]; [cbn [theight] in Hf; lia|].
    cbn [ast_exec]. rewrite (@vget_ok _ ns i (0, fun _ => UB)) by (rewrite ns_length; auto). cbn [bind].
    rewrite (@vget_ok _ desc i []) by (unfold desc; rewrite link_length, map_length, ns_length; auto). cbn [bind].
    destruct (desc_nth i Hi) as [D1 D2]. rewrite D1. rewrite Ex in D2 |- *. cbn [children] in D2 |- *.
    inversion Hw as [l' c' vs w' Hc Hs]; subst l' c' w'.
    set (a := S (length (flat_map children (firstn i N)))) in *.
    assert (F : forall k c' vs' acc, denotes_all sem c' vs' -> firstn (length c') (skipn k N) = c' -> (forall y, In y c' -> In y c) ->
      forL (seq k (length c')) (fun j values => do x <- ast_exec fuel ns desc j ;; Ok (values ++ [x])) acc = Ok (acc ++ vs')).
    { clear D1 D2 Hc. intros k c'. revert k. induction c' as [|y c' IHc]; intros k vs' acc Hd Hn Hin.
      - inversion Hd. rewrite app_nil_r. reflexivity.
      - inversion Hd as [|y' c'' u us Hy Hd']; subst. cbn [length seq forL].
        assert (Hk : k < length N).
        { destruct (Nat.lt_ge_cases k (length N)); auto. rewrite skipn_all2 in Hn by auto. discriminate. }
        rewrite (@skipn_nth _ N k t Hk) in Hn. cbn [length firstn] in Hn. injection Hn as Hn1 Hn2.
        assert (Fy := IH). rewrite Forall_forall in Fy. rewrite (Fy y (Hin y (or_introl eq_refl)) fuel k u Hk Hn1 Hy).
        + cbn [bind]. rewrite (IHc (S k) us (acc ++ [u]) Hd' Hn2) by (intros z Hz; apply Hin; right; auto). rewrite <- app_assoc. auto.
        + cbn [theight] in Hf. pose proof (height_in y c (Hin y (or_introl eq_refl))). lia. }
    rewrite (F a c vs [] Hc D2) by auto. cbn [bind app].
    pose proof (ns_nth i Hi) as E1. rewrite Ex in E1. cbn [label] in E1. destruct (Hsem _ _ _ Hs) as (f & E2 & E3). rewrite E1 in E2. apply Ok_inj in E2. rewrite E2. exact E3.
  Qed.
End Tree.

Lemma ast_eval_ok {V} (find : str -> res (node V)) (sem : str -> list V -> V -> Prop) t v extra :
  (forall l vs v, sem l vs v -> exists f, find l = Ok (length vs, f) /\ f vs = Ok v) ->
  denotes sem t v -> (Z.of_nat (tsize t) < 18446744073709551616)%Z -> ast_eval find (level_order t ++ extra) = Ok v.
Proof.
  intros Hsem Hv Hs. unfold ast_eval, level_order. rewrite levels_nodes.
  assert (Hl : 0 < length (nodes_of (theight t) [t])) by (rewrite (N_length t); destruct t; cbn; lia).
  destruct (read_ok t find sem Hsem v Hv Hs extra (length (nodes_of (theight t) [t])) 0) as (ns & E & F); auto.
  change (Z.of_nat (S (length (flat_map children (firstn 0 (nodes_of (theight t) [t])))) - 0)) with 1%Z in E. cbn [skipn] in E. rewrite E. cbn [bind].
  cbn [skipn] in F. pose proof (ns_length t find ns F) as Ln. rewrite Ln.
  destruct (Nat.ltb_spec 0 (length (nodes_of (theight t) [t]))); [|lia]. rewrite <- Ln.
  apply (exec_ok t find sem Hsem v Hv ns F t); auto.
  - rewrite (N_fix t). reflexivity.
  - rewrite Ln, (N_length t). apply height_size.
Qed.

Lemma input_real_ok {V} (value : str -> V) s : real_text s -> input_real value s = Ok (value s).
Proof.
  intros [H1 (d & Hd & Hdig)]. unfold input_real.
  assert (E1 : existsb (Ascii.eqb "i"%char) s = false).
  { apply Bool.not_true_iff_false. rewrite existsb_exists. intros (x & Hx & Ex). apply Ascii.eqb_eq in Ex. subst x.
    destruct (H1 _ Hx) as [Hy|Hy]; [unfold is_digit in Hy|]; cbn in Hy; intuition discriminate. }
  rewrite E1. assert (E2 : isAfloat s = true) by (apply isAfloat_spec; eauto). rewrite E2. reflexivity.
Qed.
(** The nodes of arithmetic compute what the tokens mean. *)
Lemma find_meaning {V} (A : arith V) (value : str -> V) : (forall s, real_text s -> a_input A s = Ok (value s)) ->
  forall l vs v, meaning A value l vs v -> exists f, findNodeFromCode A l = Ok (List.length vs, f) /\ f vs = Ok v.
Proof.
  intros HA l vs v H.
  inversion H; subst; try (eexists; split; [reflexivity|]; cbn; repeat match goal with H : _ = _ |- _ => rewrite H end; reflexivity).
  assert (E : findNodeFromCode A l = Ok (node0 (value l))).
  { rename H0 into Hr. pose proof Hr as [H1 (d & Hd & Hdig)]. unfold findNodeFromCode.
    assert (N : forall w, (forall c, In c w -> ~ is_digit c) -> str_eqb l w = false).
    { intros w Hw. destruct (str_eqb l w) eqn:E; auto. apply str_eqb_eq in E. subst w. destruct (Hw d); auto. }
    rewrite !N; try (intros c Hc Hx; unfold is_digit in Hx; cbn in Hc, Hx; decompose [or] Hc; try contradiction; subst; intuition discriminate).
    rewrite HA by auto. reflexivity. }
  rewrite E. eexists. split; [reflexivity|]. reflexivity.
Qed.
