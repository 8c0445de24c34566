From Verif Require Import Prelude Sort_Model Sort_Spec Sort_Proofs Permutations_Model Permutations_Spec.

(** ---------- lexicographic order ---------- *)

Lemma lexlt_irrefl u : ~ lexlt u u.
Proof. induction u as [|a u IH]; intros H; inversion H; subst; [lia|auto]. Qed.

Lemma lexlt_length u v : lexlt u v -> length u = length v.
Proof. induction 1; simpl; auto. Qed.

Lemma lexlt_trans u v w : lexlt u v -> lexlt v w -> lexlt u w.
Proof.
  intros H; revert w; induction H as [a b u v Hab Hl|a u v H IH]; intros w Hw.
  - inversion Hw as [b' c v' w' Hbc Hl'|b' v' w' Hvw]; subst.
    + apply lexlt_here; [lia|congruence].
    + apply lexlt_here; [lia|]. apply lexlt_length in Hvw. congruence.
  - inversion Hw as [b' c v' w' Hbc Hl'|b' v' w' Hvw]; subst.
    + apply lexlt_here; [lia|]. apply lexlt_length in H. congruence.
    + apply lexlt_next. auto.
Qed.

Lemma lexlt_total u v : length u = length v -> lexlt u v \/ u = v \/ lexlt v u.
Proof.
  revert v; induction u as [|a u IH]; intros [|b v] H; simpl in H; try lia; auto.
  destruct (Nat.lt_trichotomy a b) as [L|[E|L]].
  - left. apply lexlt_here; lia.
  - subst. destruct (IH v) as [G|[G|G]]; [lia| | |].
    + left. apply lexlt_next; exact G.
    + right; left; congruence.
    + right; right. apply lexlt_next; exact G.
  - right; right. apply lexlt_here; lia.
Qed.

Lemma lexlt_app u v w : lexlt v w -> lexlt (u ++ v) (u ++ w).
Proof. intros H. induction u; simpl; auto. apply lexlt_next; auto. Qed.

Lemma lexlt_app_inv u v w : lexlt (u ++ v) (u ++ w) -> lexlt v w.
Proof. induction u as [|a u IH]; simpl; intros H; auto. inversion H; subst; [lia|auto]. Qed.

(** If p > u ++ v then p agrees with u on the prefix or p > u ++ w for any w. *)
Lemma lexlt_prefix u : forall v p w, lexlt (u ++ v) p -> length w = length v ->
  (exists q, p = u ++ q /\ lexlt v q) \/ lexlt (u ++ w) p.
Proof.
  induction u as [|a u IH]; intros v p w H Hl.
  - left. exists p. auto.
  - simpl in H. inversion H as [a' b u' p' Hab Hlen|a' u' p' H']; subst.
    + right. simpl. apply lexlt_here; [exact Hab|]. rewrite app_length in *. lia.
    + destruct (IH v p' w H' Hl) as [[q [E G]]|G].
      * left. exists q. subst. auto.
      * right. simpl. apply lexlt_next. exact G.
Qed.

Definition desc (l : list nat) : Prop := StronglySorted (fun a b => b <= a) l.
Definition asc (l : list nat) : Prop := StronglySorted (fun a b => a <= b) l.

Lemma desc_max s : desc s -> forall r, Permutation s r -> ~ lexlt s r.
Proof.
  induction 1 as [|a s Hs IH HF]; intros r HP HL.
  - inversion HL.
  - inversion HL as [a' b u v Hab Hlen|a' u v H']; subst.
    + assert (In b (a :: s)) as [->|Hin].
      { apply (Permutation_in b (Permutation_sym HP)). left. reflexivity. }
      * lia.
      * rewrite Forall_forall in HF. specialize (HF b Hin). lia.
    + apply (IH v); auto. apply Permutation_cons_inv with a. exact HP.
Qed.

Lemma asc_min s : asc s -> forall r, Permutation s r -> ~ lexlt r s.
Proof.
  induction 1 as [|a s Hs IH HF]; intros r HP HL.
  - inversion HL.
  - inversion HL as [b a' u v Hab Hlen|a' u v H']; subst.
    + assert (In b (a :: s)) as [->|Hin].
      { apply (Permutation_in b (Permutation_sym HP)). left. reflexivity. }
      * lia.
      * rewrite Forall_forall in HF. specialize (HF b Hin). lia.
    + apply (IH u); auto. apply Permutation_cons_inv with a. exact HP.
Qed.

Lemma sorted_app (R : nat -> nat -> Prop) u v :
  StronglySorted R (u ++ v) <->
  StronglySorted R u /\ StronglySorted R v /\ (forall a b, In a u -> In b v -> R a b).
Proof.
  induction u as [|x u IH]; simpl.
  - split; [intros H; repeat split; auto; [constructor|contradiction]|tauto].
  - split.
    + intros H. inversion H as [|? ? H1 H2]; subst. apply IH in H1. destruct H1 as [A [B C]].
      rewrite Forall_forall in H2. repeat split; auto.
      * constructor; auto. apply Forall_forall. intros y Hy. apply H2. apply in_app_iff. auto.
      * intros a b [->|Ha] Hb; auto. apply H2. apply in_app_iff. auto.
    + intros [H1 [H2 H3]]. inversion H1 as [|? ? H4 H5]; subst. constructor.
      * apply IH. repeat split; auto.
      * apply Forall_app. split; auto. apply Forall_forall. intros y Hy. apply H3; auto.
Qed.

Lemma rev_asc s : desc s -> asc (rev s).
Proof.
  unfold asc. induction 1 as [|a s Hs IH HF]; simpl; [constructor|].
  apply sorted_app. repeat split; auto.
  - repeat constructor.
  - intros x y Hx [<-|[]]. apply in_rev in Hx. rewrite Forall_forall in HF. auto.
Qed.

(** ---------- the successor on lists ---------- *)

(** x is the pivot, s the descending suffix s1 ++ y :: s2. *)
Lemma successor u x s1 y s2 :
  desc (s1 ++ y :: s2) -> x < y -> Forall (fun z => z <= x) s2 ->
  let d := u ++ x :: s1 ++ y :: s2 in
  let d' := u ++ y :: rev (s1 ++ x :: s2) in
  Permutation d d' /\ lexlt d d' /\
  forall p, Permutation d p -> lexlt d p -> p = d' \/ lexlt d' p.
Proof.
  intros HD Hxy HF d d'.
  assert (HP0 : Permutation (x :: s1 ++ y :: s2) (y :: s1 ++ x :: s2)).
  { rewrite <- Permutation_middle, perm_swap. constructor. apply Permutation_middle. }
  assert (HP1 : Permutation (x :: s1 ++ y :: s2) (y :: rev (s1 ++ x :: s2))).
  { rewrite HP0. constructor. apply Permutation_rev. }
  assert (Hlen : length (s1 ++ y :: s2) = length (rev (s1 ++ x :: s2))).
  { apply Permutation_length in HP1. simpl in HP1. lia. }
  split; [unfold d, d'; apply Permutation_app_head; exact HP1|].
  split; [unfold d, d'; apply lexlt_app, lexlt_here; assumption|].
  assert (DA : asc (rev (s1 ++ x :: s2))).
  { apply rev_asc. unfold desc in *. apply sorted_app in HD. destruct HD as [D1 [D2 D3]].
    inversion D2 as [|? ? D4 D5]; subst. rewrite Forall_forall in HF, D5.
    apply sorted_app. repeat split; auto.
    - constructor; auto. apply Forall_forall. exact HF.
    - intros a b Ha [<-|Hb]; [|apply D3; simpl; auto].
      specialize (D3 a y Ha (or_introl eq_refl)). lia. }
  intros p HP HL. unfold d in HL.
  destruct (lexlt_prefix u (x :: s1 ++ y :: s2) p (y :: rev (s1 ++ x :: s2)) HL) as [[q [-> Hq]]|G];
    [simpl; lia| |right; exact G].
  assert (HPq : Permutation (x :: s1 ++ y :: s2) q).
  { unfold d in HP. apply Permutation_app_inv_l in HP. exact HP. }
  inversion Hq as [a z u' r Hxz Hl E1 E2|a u' r H' E1 E2]; subst.
  - assert (Hz : In z (s1 ++ y :: s2)).
    { assert (I : In z (x :: s1 ++ y :: s2)).
      { apply (Permutation_in z (Permutation_sym HPq)). left. reflexivity. }
      destruct I as [->|I]; [lia|exact I]. }
    assert (Hyz : y <= z).
    { apply in_app_iff in Hz. destruct Hz as [Hz|[->|Hz]]; [|lia|].
      - unfold desc in HD. apply sorted_app in HD. destruct HD as [_ [_ D3]].
        apply (D3 z y Hz). left. reflexivity.
      - rewrite Forall_forall in HF. specialize (HF z Hz). lia. }
    destruct (Nat.eq_dec y z) as [<-|Hne].
    + assert (HPr : Permutation (rev (s1 ++ x :: s2)) r).
      { apply Permutation_cons_inv with y. rewrite <- HP1. exact HPq. }
      destruct (lexlt_total r (rev (s1 ++ x :: s2))) as [G|[G|G]].
      * symmetry. apply Permutation_length. exact HPr.
      * exfalso. exact (asc_min _ DA r HPr G).
      * left. unfold d'. rewrite G. reflexivity.
      * right. unfold d'. apply lexlt_app, lexlt_next. exact G.
    + right. unfold d'. apply lexlt_app, lexlt_here; [lia|]. congruence.
  - exfalso. apply (desc_max _ HD r); [|exact H'].
    apply Permutation_cons_inv with x. exact HPq.
Qed.

(** ---------- the loops ---------- *)

Lemma largestk_spec data : data <> [] ->
  exists o, largestk data = Ok o /\
  match o with
  | None => forall i, i + 1 < length data -> nth (i + 1) data 0 <= nth i data 0
  | Some k => k + 1 < length data /\ nth k data 0 < nth (k + 1) data 0 /\
      forall i, k < i -> i + 1 < length data -> nth (i + 1) data 0 <= nth i data 0
  end.
Proof.
  intros Hne. unfold largestk.
  destruct (forM_inv (fun i o => match o with
     | None => forall j, j < i -> nth (j + 1) data 0 <= nth j data 0
     | Some k => k < i /\ nth k data 0 < nth (k + 1) data 0 /\
         forall j, k < j -> j < i -> nth (j + 1) data 0 <= nth j data 0
     end) (length data - 1) (fun (i : nat) (saved : option nat) =>
             do a <- vget data i;;
             do b <- vget data (i + 1);; Ok (if a <? b then Some i else saved)) None (i := 0))
    as [o [H1 H2]].
  - intros j Hj. lia.
  - intros j o [_ Hj] Ho. simpl in Hj.
    rewrite (vget_ok data 0) by lia. cbn [bind]. rewrite (vget_ok data 0) by lia. cbn [bind].
    eexists. split; [reflexivity|].
    destruct (Nat.ltb_spec (nth j data 0) (nth (j + 1) data 0)) as [L|L].
    + split; [lia|]. split; [exact L|]. intros i Hi1 Hi2. lia.
    + destruct o as [k|].
      * destruct Ho as [A [B C]]. split; [lia|]. split; [exact B|].
        intros i Hi1 Hi2. destruct (Nat.eq_dec i j) as [->|]; [exact L|apply C; lia].
      * intros i Hi. destruct (Nat.eq_dec i j) as [->|]; [exact L|apply Ho; lia].
  - exists o. split; [exact H1|]. simpl in H2. destruct o as [k|].
    + destruct H2 as [A [B C]]. split; [lia|]. split; [exact B|]. intros i Hi1 Hi2. apply C; lia.
    + intros i Hi. apply H2. lia.
Qed.

Lemma largestl_spec data k :
  k + 1 < length data -> nth k data 0 < nth (k + 1) data 0 ->
  exists l, largestl data k = Ok l /\ k < l < length data /\ nth k data 0 < nth l data 0 /\
    forall i, l < i < length data -> nth i data 0 <= nth k data 0.
Proof.
  intros Hk Hlt. unfold largestl.
  destruct (forM_inv (fun i l => (k + 1 < i -> k < l < i /\ nth k data 0 < nth l data 0) /\
      (forall j, l < j < i -> nth j data 0 <= nth k data 0)) (length data)
     (fun i saved : nat => do a <- vget data k;; do b <- vget data i;; Ok (if a <? b then i else saved)) 0 (i := 0))
    as [l [H1 H2]].
  - split; intros; lia.
  - intros j l [_ Hj] [A B]. simpl in Hj.
    rewrite (vget_ok data 0) by lia. cbn [bind]. rewrite (vget_ok data 0) by lia. cbn [bind].
    eexists. split; [reflexivity|].
    destruct (Nat.ltb_spec (nth k data 0) (nth j data 0)) as [L|L].
    + split; [intros Hkj; split; [lia|exact L]|intros i Hi; lia].
    + split.
      * intros Hkj. assert (j <> k + 1) by (intros ->; lia).
        destruct A as [A1 A2]; [lia|]. split; [lia|exact A2].
      * intros i Hi. destruct (Nat.eq_dec i j) as [->|]; [exact L|]. apply B. lia.
  - destruct H2 as [A B]. simpl in A, B. destruct A as [A1 A2]; [lia|]. exists l.
    split; [exact H1|]. split; [lia|]. split; [exact A2|]. intros i Hi. apply B. lia.
Qed.

Lemma adjacent_desc s :
  (forall i, i + 1 < length s -> nth (i + 1) s 0 <= nth i s 0) -> desc s.
Proof.
  induction s as [|a s IH]; intros H; [constructor|].
  assert (D : desc s).
  { apply IH. intros i Hi. apply (H (S i)). simpl. lia. }
  constructor; [exact D|]. destruct s as [|b s]; [constructor|].
  assert (Hab : b <= a) by (apply (H 0); simpl; lia).
  inversion D as [|? ? D1 D2]; subst. constructor; [exact Hab|].
  eapply Forall_impl; [|exact D2]. intros z Hz. simpl in *. lia.
Qed.

(** Decomposition of the data around the pivot. *)
Lemma split_at (d : list nat) k : k < length d ->
  d = firstn k d ++ nth k d 0 :: skipn (S k) d.
Proof. intros H. exact (proj2 (upd_split d 0 0 H)). Qed.

Lemma reverse_loop (tmp : list nat) (k n : nat) :
  length tmp = n -> k + 1 < n ->
  exists c, forM (n - (k + 1)) (k + 1)
            (fun i '(data, c) => do x <- vget tmp i ;;
                                 do data <- vset data c x ;;
                                 Ok (data, c - 1)) (tmp, n - 1)
  = Ok (firstn (k + 1) tmp ++ rev (skipn (k + 1) tmp), c).
Proof.
  intros Hn Hk.
  destruct (forM_inv (fun i '(data, c) =>
      c = n - 1 - (i - (k + 1)) /\
      data = firstn (k + 1) tmp ++ firstn (n - i) (skipn (k + 1) tmp)
             ++ rev (firstn (i - (k + 1)) (skipn (k + 1) tmp))) (n - (k + 1))
      (fun i '(data, c) => do x <- vget tmp i ;;
                           do data <- vset data c x ;;
                           Ok (data, c - 1)) (tmp, n - 1) (i := k + 1)) as [[data c] [H1 H2]].
  - split; [lia|]. replace (k + 1 - (k + 1)) with 0 by lia. cbn [firstn rev]. rewrite app_nil_r.
    rewrite (firstn_all2 (skipn (k + 1) tmp)) by (rewrite skipn_length; lia).
    rewrite firstn_skipn. reflexivity.
  - intros i [data c] Hi [-> ->]. set (t := skipn (k + 1) tmp).
    assert (Lt : length t = n - (k + 1)) by (unfold t; rewrite skipn_length; lia).
    set (p := i - (k + 1)).
    rewrite (vget_ok tmp 0) by lia. cbn [bind].
    assert (Lf : length (firstn (k + 1) tmp) = k + 1) by (rewrite firstn_length; lia).
    assert (Lm : length (firstn (n - i) t) = n - i) by (rewrite firstn_length; lia).
    assert (Lr : length (rev (firstn p t)) = p) by (rewrite rev_length, firstn_length; lia).
    rewrite vset_ok by (rewrite !app_length, Lf, Lm, Lr; lia). cbn [bind].
    eexists. split; [reflexivity|]. split; [lia|].
    replace (n - i) with (S (n - S i)) by lia.
    rewrite (firstn_S_nth t 0 (j := n - S i)) by lia.
    replace (S i - (k + 1)) with (S p) by lia.
    rewrite (firstn_S_nth t 0 (j := p)) by lia. rewrite rev_app_distr. cbn [rev app].
    replace (firstn (k + 1) tmp ++ (firstn (n - S i) t ++ [nth (n - S i) t 0]) ++ rev (firstn p t))
      with ((firstn (k + 1) tmp ++ firstn (n - S i) t) ++ nth (n - S i) t 0 :: rev (firstn p t))
      by (rewrite <- !app_assoc; reflexivity).
    rewrite upd_app_mid.
    + rewrite <- app_assoc. f_equal. f_equal. f_equal.
      unfold t. rewrite <- (firstn_skipn (k + 1) tmp) at 1. rewrite app_nth2 by lia.
      rewrite Lf. reflexivity.
    + rewrite app_length, Lf, firstn_length, Lt. lia.
  - destruct H2 as [_ ->]. exists c. rewrite H1. f_equal. f_equal. f_equal.
    replace (n - (k + 1 + (n - (k + 1)))) with 0 by lia. cbn [firstn app].
    replace (k + 1 + (n - (k + 1)) - (k + 1)) with (n - (k + 1)) by lia.
    rewrite firstn_all2 by (rewrite skipn_length; lia). reflexivity.
Qed.

Lemma increase_spec d :
  (increase d = Ok (false, d) /\ desc d) \/
  exists u x s1 y s2,
    d = u ++ x :: s1 ++ y :: s2 /\
    desc (s1 ++ y :: s2) /\ x < y /\ Forall (fun z => z <= x) s2 /\
    increase d = Ok (true, u ++ y :: rev (s1 ++ x :: s2)).
Proof.
  unfold increase. destruct d as [|a0 d0] eqn:Ed.
  - left. split; [reflexivity|constructor].
  - rewrite <- Ed. assert (Hne : d <> []) by (subst; discriminate).
    replace (length d =? 0) with false by (subst; reflexivity).
    destruct (largestk_spec d Hne) as [o [Ek Hk]]. rewrite Ek. cbn [bind].
    destruct o as [k|].
    + right. destruct Hk as [Hk1 [Hk2 Hk3]].
      destruct (largestl_spec d k Hk1 Hk2) as [l [El [Hl1 [Hl2 Hl3]]]]. rewrite El. cbn [bind].
      set (x := nth k d 0) in *. set (u := firstn k d). set (s := skipn (S k) d).
      assert (Dk : d = u ++ x :: s) by (apply split_at; lia).
      assert (Lu : length u = k) by (unfold u; rewrite firstn_length; lia).
      assert (Ls : length s = length d - S k) by (unfold s; rewrite skipn_length; lia).
      assert (Ns : forall j, nth j s 0 = nth (S k + j) d 0).
      { intros j. rewrite Dk. rewrite app_nth2 by lia. rewrite Lu.
        replace (S k + j - k) with (S j) by lia. reflexivity. }
      set (m := l - S k). set (y := nth l d 0) in *.
      assert (Ds : s = firstn m s ++ y :: skipn (S m) s).
      { replace y with (nth m s 0). apply split_at; lia.
        rewrite Ns. unfold y, m. f_equal. lia. }
      set (s1 := firstn m s) in *. set (s2 := skipn (S m) s) in *.
      assert (Ls1 : length s1 = m) by (unfold s1; rewrite firstn_length; lia).
      exists u, x, s1, y, s2.
      assert (Dd : desc s).
      { apply adjacent_desc. intros i Hi. rewrite !Ns.
        replace (S k + (i + 1)) with (S k + i + 1) by lia. apply Hk3; lia. }
      split; [rewrite <- Ds; exact Dk|].
      split; [rewrite <- Ds; exact Dd|].
      split; [exact Hl2|].
      split.
      { apply Forall_forall. intros z Hz. unfold s2 in Hz.
        apply (In_nth _ _ 0) in Hz. destruct Hz as [j [Hj <-]]. rewrite skipn_length in Hj.
        assert (E : nth j (skipn (S m) s) 0 = nth (S m + j) s 0).
        { rewrite <- (firstn_skipn (S m) s) at 2. rewrite app_nth2 by (rewrite firstn_length; lia).
          rewrite firstn_length. f_equal. lia. }
        rewrite E, Ns. apply Hl3. lia. }
      unfold vswap. rewrite (vget_ok d 0) by lia. cbn [bind]. rewrite (vget_ok d 0) by lia. cbn [bind].
      fold x. fold y. rewrite vset_ok by lia. cbn [bind].
      rewrite vset_ok by (rewrite upd_length; lia). cbn [bind].
      assert (Ed2 : upd (upd d k y) l x = u ++ y :: s1 ++ x :: s2).
      { rewrite Dk at 1. rewrite upd_app_mid by exact Lu. rewrite Ds at 1.
        replace (u ++ y :: s1 ++ y :: s2) with ((u ++ y :: s1) ++ y :: s2)
          by (rewrite <- app_assoc; reflexivity).
        rewrite upd_app_mid by (rewrite app_length; simpl; lia).
        rewrite <- app_assoc. reflexivity. }
      rewrite !upd_length.
      assert (Lt : length (s1 ++ x :: s2) = length d - S k).
      { rewrite <- Ls. transitivity (length (s1 ++ y :: s2)); [rewrite !app_length; reflexivity|].
        rewrite <- Ds. reflexivity. }
      destruct (Nat.leb_spec (length d - 1) (k + 1)) as [Hle|Hgt].
      * rewrite Ed2. do 3 f_equal. f_equal.
        destruct (s1 ++ x :: s2) as [|b [|b' t]]; try reflexivity. simpl in Lt. lia.
      * rewrite Ed2.
        destruct (reverse_loop (u ++ y :: s1 ++ x :: s2) k (length d)) as [c Hc].
        -- rewrite app_length. simpl. rewrite Lt. lia.
        -- lia.
        -- rewrite Hc. cbn [bind]. do 2 f_equal.
           replace (k + 1) with (length (u ++ [y])) by (rewrite app_length; simpl; lia).
           replace (u ++ y :: s1 ++ x :: s2) with ((u ++ [y]) ++ s1 ++ x :: s2)
             by (rewrite <- app_assoc; reflexivity).
           rewrite firstn_app, Nat.sub_diag, firstn_all, firstn_O, app_nil_r.
           rewrite skipn_app, Nat.sub_diag, skipn_all, skipn_O. cbn [app].
           rewrite <- app_assoc. reflexivity.
    + left. split; [reflexivity|]. apply adjacent_desc. exact Hk.
Qed.

(** ---------- one call ---------- *)

Lemma increase_step d :
  (increase d = Ok (false, d) /\ forall p, Permutation d p -> p = d \/ lexlt p d) \/
  exists d', increase d = Ok (true, d') /\ Permutation d d' /\ lexlt d d' /\
    forall p, Permutation d p -> lexlt d p -> p = d' \/ lexlt d' p.
Proof.
  destruct (increase_spec d) as [[E D]|(u & x & s1 & y & s2 & Hd & D & Hxy & HF & E)].
  - left. split; [exact E|]. intros p HP.
    destruct (lexlt_total p d) as [G|[G|G]]; auto.
    + symmetry. apply Permutation_length. exact HP.
    + exfalso. exact (desc_max d D p HP G).
  - right. eexists. split; [exact E|].
    destruct (successor u x s1 y s2 D Hxy HF) as [A [B C]]. rewrite <- Hd in *. auto.
Qed.

(** ---------- all rearrangements as a finite list, for the termination measure ---------- *)

Fixpoint inserts (a : nat) (l : list nat) : list (list nat) :=
  match l with
  | [] => [[a]]
  | b :: l' => (a :: b :: l') :: map (cons b) (inserts a l')
  end.
Fixpoint rearr (l : list nat) : list (list nat) :=
  match l with
  | [] => [[]]
  | a :: l' => flat_map (inserts a) (rearr l')
  end.

Lemma inserts_in a l1 l2 : In (l1 ++ a :: l2) (inserts a (l1 ++ l2)).
Proof.
  induction l1 as [|b l1 IH]; simpl.
  - destruct l2; simpl; auto.
  - right. apply in_map. exact IH.
Qed.

Lemma rearr_complete l p : Permutation l p -> In p (rearr l).
Proof.
  revert p. induction l as [|a l IH]; intros p HP.
  - apply Permutation_nil in HP. subst. left. reflexivity.
  - assert (Hin : In a p) by (apply (Permutation_in a HP); left; reflexivity).
    apply in_split in Hin. destruct Hin as [l1 [l2 ->]].
    apply Permutation_cons_app_inv in HP. simpl. apply in_flat_map.
    exists (l1 ++ l2). split; [apply IH; exact HP|apply inserts_in].
Qed.

Fixpoint lexltb (u v : list nat) : bool :=
  match u, v with
  | a :: u', b :: v' =>
    if a <? b then length u' =? length v' else if a =? b then lexltb u' v' else false
  | _, _ => false
  end.
Lemma lexltb_spec u v : lexltb u v = true <-> lexlt u v.
Proof.
  revert v; induction u as [|a u IH]; intros [|b v]; simpl; split; intros H; try discriminate;
    try (inversion H; fail).
  - destruct (Nat.ltb_spec a b); [apply lexlt_here; [lia|now apply Nat.eqb_eq]|].
    destruct (Nat.eqb_spec a b) as [->|]; [|discriminate]. apply lexlt_next. apply IH. exact H.
  - inversion H; subst.
    + destruct (Nat.ltb_spec a b); [apply Nat.eqb_eq; assumption|lia].
    + rewrite Nat.ltb_irrefl, Nat.eqb_refl. apply IH. assumption.
Qed.

Lemma filter_length_lt {A} (f g : A -> bool) l x :
  (forall y, g y = true -> f y = true) -> In x l -> f x = true -> g x = false ->
  length (filter g l) < length (filter f l).
Proof.
  intros H. assert (LE : forall l, length (filter g l) <= length (filter f l)).
  { induction l0 as [|y l0 IH]; simpl; auto. destruct (g y) eqn:G.
    - rewrite (H y G). simpl. lia.
    - destruct (f y); simpl; lia. }
  induction l as [|y l IH]; intros Hin Hf Hg; [contradiction|]. simpl.
  destruct Hin as [->|Hin].
  - rewrite Hf, Hg. simpl. specialize (LE l). lia.
  - specialize (IH Hin Hf Hg). destruct (g y) eqn:G.
    + rewrite (H y G). simpl. lia.
    + destruct (f y); simpl; lia.
Qed.

(** From any arrangement, repeated increase() visits all larger-or-equal
    arrangements in strictly increasing order. *)
Lemma visits_from base d : Permutation base d ->
  exists l, visits increase d l /\ StronglySorted lexlt l /\
    forall p, In p l <-> (Permutation base p /\ (p = d \/ lexlt d p)).
Proof.
  remember (length (filter (lexltb d) (rearr base))) as n eqn:En.
  revert d En. induction n as [n IH] using lt_wf_ind. intros d En HB.
  destruct (increase_step d) as [[E M]|[d' [E [HP [HL HS]]]]].
  - exists [d]. split; [apply visits_last; exact E|]. split; [repeat constructor|].
    intros p. split.
    + intros [<-|[]]. auto.
    + intros [Hp [->|Hlt]]; [left; reflexivity|].
      destruct (M p) as [->|G]; [rewrite <- HB; exact Hp|left; reflexivity|].
      exfalso. exact (lexlt_irrefl _ (lexlt_trans _ _ _ Hlt G)).
  - assert (HB' : Permutation base d') by (rewrite HB; exact HP).
    assert (Hlt : length (filter (lexltb d') (rearr base)) < n).
    { rewrite En. apply filter_length_lt with (x := d').
      - intros y Hy. apply lexltb_spec in Hy. apply lexltb_spec. eapply lexlt_trans; eauto.
      - apply rearr_complete. exact HB'.
      - apply lexltb_spec. exact HL.
      - destruct (lexltb d' d') eqn:G; [|reflexivity]. apply lexltb_spec in G.
        exfalso. exact (lexlt_irrefl _ G). }
    destruct (IH _ Hlt d' eq_refl HB') as [l [V [SS HI]]].
    exists (d :: l). split; [eapply visits_step; eauto|]. split.
    + constructor; [exact SS|]. apply Forall_forall. intros p Hp. apply HI in Hp.
      destruct Hp as [_ [->|G]]; [exact HL|eapply lexlt_trans; eauto].
    + intros p. split.
      * intros [<-|Hp]; [auto|]. apply HI in Hp. destruct Hp as [Hp [->|G]]; split; auto.
        right. eapply lexlt_trans; eauto.
      * intros [Hp [->|G]]; [left; reflexivity|]. right. apply HI. split; [exact Hp|].
        apply HS; [rewrite <- HB; exact Hp|exact G].
Qed.

(** ---------- constructor ---------- *)

Lemma nat_ascending_asc l : ascending Nat.ltb l -> asc l.
Proof.
  unfold ascending, asc. induction 1 as [|a l Hl IH HF]; constructor; auto.
  eapply Forall_impl; [|exact HF]. intros b Hb. simpl in Hb. apply Nat.ltb_ge in Hb. exact Hb.
Qed.

Lemma perm_ctor_ok srt orig : stdsort_ok Nat.ltb srt ->
  exists d, perm_ctor srt orig = Ok d /\ Permutation orig d /\ asc d.
Proof.
  intros Hs. unfold perm_ctor.
  rewrite (forM_fill (fun i => nth i orig 0)).
  2:{ rewrite repeat_length. lia. }
  2:{ intros i u Hi _ _. rewrite (vget_ok orig 0) by exact Hi. reflexivity. }
  rewrite skipn_all2 by (rewrite repeat_length; lia). rewrite app_nil_r, map_nth_seq. cbn [bind].
  destruct (sort_correct nat Nat.ltb srt Hs orig (repeat 0 (length orig)))
    as [x' [ip [E [L [A [HP HN]]]]]]; [rewrite repeat_length; reflexivity|].
  rewrite E. cbn [bind]. exists x'. split; [reflexivity|]. split.
  - assert (EQ : x' = map (fun i => nth i orig 0) ip).
    { apply (list_eq_nth _ _ 0).
      - rewrite map_length. rewrite <- (Permutation_length HP), seq_length. exact L.
      - intros k Hk. rewrite L in Hk. rewrite HN by exact Hk.
        assert (Lip : length ip = length orig) by (rewrite <- (Permutation_length HP), seq_length; reflexivity).
        rewrite (nth_indep (map _ ip) 0 ((fun i => nth i orig 0) 0)) by (rewrite map_length; lia).
        rewrite (map_nth (fun i => nth i orig 0)). reflexivity. }
    rewrite EQ. rewrite <- (map_nth_seq orig 0) at 1. apply Permutation_map. exact HP.
  - apply nat_ascending_asc. exact A.
Qed.

Lemma enumerate_all srt orig : stdsort_ok Nat.ltb srt ->
  exists d l, perm_ctor srt orig = Ok d /\ visits increase d l /\ StronglySorted lexlt l /\
    forall p, In p l <-> Permutation orig p.
Proof.
  intros Hs. destruct (perm_ctor_ok srt orig Hs) as [d [E [HP HA]]].
  destruct (visits_from orig d HP) as [l [V [SS HI]]].
  exists d, l. split; [exact E|]. split; [exact V|]. split; [exact SS|].
  intros p. rewrite HI. split; [tauto|]. intros Hp. split; [exact Hp|].
  destruct (lexlt_total d p) as [G|[G|G]]; auto.
  - rewrite <- (Permutation_length HP). apply Permutation_length. exact Hp.
  - exfalso. apply (asc_min d HA p); [|exact G]. rewrite <- HP. exact Hp.
Qed.
