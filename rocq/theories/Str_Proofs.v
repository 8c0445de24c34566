From Coq Require Import Ascii String.
From Verif Require Import Prelude Str_Model Str_Spec.
Import List.

Lemma mem_chr_In c d : mem_chr c d = true <-> In c d.
Proof.
  unfold mem_chr. rewrite existsb_exists. split.
  - intros [x [H E]]. apply Ascii.eqb_eq in E. subst; auto.
  - intros H. exists c. split; auto. apply Ascii.eqb_refl.
Qed.

Lemma str_eqb_eq a b : str_eqb a b = true <-> a = b.
Proof.
  revert b; induction a as [|x a IH]; intros [|y b]; simpl; split; intros H;
    try reflexivity; try discriminate.
  - apply andb_prop in H. destruct H as [H1 H2]. apply Ascii.eqb_eq in H1. apply IH in H2. congruence.
  - inversion H; subst. rewrite Ascii.eqb_refl. simpl. apply IH. reflexivity.
Qed.

Lemma str_eqb_refl a : str_eqb a a = true.
Proof. apply str_eqb_eq. reflexivity. Qed.

Lemma find_idx_some {A} (f : A -> bool) l i : find_idx f l = Some i ->
  exists a x b, l = a ++ x :: b /\ length a = i /\ f x = true /\ forall y, In y a -> f y = false.
Proof.
  revert i; induction l as [|x l IH]; intros i H; simpl in H; [discriminate|].
  destruct (f x) eqn:E.
  - inversion H; subst. exists [], x, l. simpl. intuition.
  - destruct (find_idx f l) as [j|]; [|discriminate]. inversion H; subst.
    destruct (IH j eq_refl) as [a [y [b [-> [La [Fy Fa]]]]]].
    exists (x :: a), y, b. simpl. split; auto. split; [congruence|]. split; auto.
    intros z [->|Hz]; auto.
Qed.

Lemma find_idx_none {A} (f : A -> bool) l : find_idx f l = None -> forall y, In y l -> f y = false.
Proof.
  induction l as [|x l IH]; simpl; intros H y; [contradiction|].
  destruct (f x) eqn:E; [discriminate|]. destruct (find_idx f l); [discriminate|].
  intros [->|Hy]; auto.
Qed.

Lemma find_idx_app_some {A} (f : A -> bool) a x b :
  f x = true -> (forall y, In y a -> f y = false) -> find_idx f (a ++ x :: b) = Some (length a).
Proof.
  induction a as [|z a IH]; simpl; intros Hx Ha; [rewrite Hx; reflexivity|].
  rewrite (Ha z) by auto. rewrite IH; auto.
Qed.

Lemma find_idx_all_none {A} (f : A -> bool) l :
  (forall y, In y l -> f y = false) -> find_idx f l = None.
Proof.
  induction l as [|z a IH]; simpl; intros Ha; auto. rewrite (Ha z) by auto. rewrite IH; auto.
Qed.

Lemma skipn_app_len {A} (a b : list A) : skipn (length a) (a ++ b) = b.
Proof. rewrite skipn_app, skipn_all, Nat.sub_diag. reflexivity. Qed.
Lemma firstn_app_len {A} (a b : list A) : firstn (length a) (a ++ b) = a.
Proof. rewrite firstn_app, firstn_all, Nat.sub_diag. simpl. apply app_nil_r. Qed.

Lemma ffo_at s d pre rest : s = pre ++ rest ->
  find_first_of s d (Some (length pre)) = option_map (Nat.add (length pre)) (find_idx (fun c => mem_chr c d) rest).
Proof. intros ->. unfold find_first_of. rewrite skipn_app_len. reflexivity. Qed.
Lemma ffno_at s d pre rest : s = pre ++ rest ->
  find_first_not_of s d (Some (length pre)) =
  option_map (Nat.add (length pre)) (find_idx (fun c => negb (mem_chr c d)) rest).
Proof. intros ->. unfold find_first_not_of. rewrite skipn_app_len. reflexivity. Qed.

Lemma runs_delims {A} (isD : A -> Prop) p s ts :
  (forall c, In c p -> isD c) -> runs isD s ts -> runs isD (p ++ s) ts.
Proof.
  induction p as [|c p IH]; simpl; intros Hp H; auto. apply runs_delim; auto.
Qed.

Lemma split_loop_spec d fuel : forall pre rest toks s,
  s = pre ++ rest -> length rest < fuel ->
  exists ts, runs (fun c => In c d) rest ts /\
  split_loop fuel toks s d
    (find_first_not_of s d (Some (length pre)))
    (find_first_of s d (find_first_not_of s d (Some (length pre)))) = Ok (toks ++ ts).
Proof.
  induction fuel as [|fuel IH]; intros pre rest toks s Hs Hf; [lia|].
  rewrite (ffno_at s d pre rest Hs).
  destruct (find_idx (fun c => negb (mem_chr c d)) rest) as [i|] eqn:E; cbn [option_map].
  - apply find_idx_some in E. destruct E as [a [x [b [-> [La [Fx Fa]]]]]].
    assert (Hs1 : s = (pre ++ a) ++ (x :: b)) by (rewrite <- app_assoc; exact Hs).
    assert (L1 : length pre + i = length (pre ++ a)) by (rewrite app_length; lia).
    rewrite L1, (ffo_at s d (pre ++ a) (x :: b) Hs1).
    assert (Da : forall c, In c a -> In c d).
    { intros c Hc. apply mem_chr_In. specialize (Fa c Hc). now apply negb_false_iff in Fa. }
    assert (Nx : ~ In x d).
    { rewrite <- mem_chr_In. apply negb_true_iff in Fx. congruence. }
    destruct (find_idx (fun c => mem_chr c d) (x :: b)) as [j|] eqn:E2; cbn [option_map].
    + apply find_idx_some in E2. destruct E2 as [t [y [r [Hb [Lt [Fy Ft]]]]]].
      assert (Ht : t <> []).
      { intros ->. simpl in Hb. inversion Hb; subst. apply Nx, mem_chr_In. exact Fy. }
      assert (Hs2 : s = (pre ++ a ++ t) ++ (y :: r)).
      { rewrite Hs1, Hb, !app_assoc. reflexivity. }
      destruct (IH (pre ++ a ++ t) (y :: r) (toks ++ [t]) s Hs2) as [ts [R Ets]].
      { assert (length (x :: b) = length (t ++ y :: r)) by (rewrite Hb; reflexivity).
        rewrite !app_length in *. simpl in *. destruct t; [congruence|]. simpl in *. lia. }
      exists (t :: ts). split.
      * apply runs_delims; [exact Da|]. rewrite Hb. apply runs_token; auto.
        -- intros c Hc Hd. apply mem_chr_In in Hd. rewrite (Ft c Hc) in Hd. discriminate.
        -- right. exists y, r. split; auto. apply mem_chr_In. exact Fy.
      * cbn [split_loop]. unfold substr.
        assert (length s <? length (pre ++ a) = false).
        { apply Nat.ltb_ge. rewrite Hs1, !app_length. lia. }
        rewrite H. cbn [bind].
        replace (firstn (length (pre ++ a) + j - length (pre ++ a)) (skipn (length (pre ++ a)) s)) with t.
        2:{ replace (skipn (length (pre ++ a)) s) with (x :: b) by (rewrite Hs1; symmetry; apply skipn_app_len).
            rewrite Hb.
            replace (length (pre ++ a) + j - length (pre ++ a)) with (length t) by lia.
            rewrite firstn_app_len. reflexivity. }
        replace (length (pre ++ a) + j) with (length (pre ++ a ++ t)) by (rewrite !app_length; lia).
        rewrite Ets. f_equal. rewrite <- app_assoc. reflexivity.
    + exists [x :: b]. split.
      * apply runs_delims; [exact Da|]. 
        assert (RR : runs (fun c => In c d) ((x :: b) ++ []) [x :: b]); [|rewrite app_nil_r in RR; exact RR].
        apply runs_token; [discriminate| |left; reflexivity|constructor].
        intros c Hc Hd. apply mem_chr_In in Hd.
        pose proof (find_idx_none _ _ E2 c Hc). simpl in H. congruence.
      * cbn [split_loop]. unfold substr.
        assert (length s <? length (pre ++ a) = false).
        { apply Nat.ltb_ge. rewrite Hs1, !app_length. lia. }
        rewrite H. cbn [bind].
        replace (skipn (length (pre ++ a)) s) with (x :: b) by (rewrite Hs1; symmetry; apply skipn_app_len).
        cbn [find_first_not_of find_first_of].
        destruct fuel as [|fuel]; [|reflexivity].
        rewrite app_length in Hf. simpl in Hf. lia.
  - exists []. split.
    + rewrite <- (app_nil_r rest). apply runs_delims; [|constructor].
      intros c Hc. apply mem_chr_In. pose proof (find_idx_none _ _ E c Hc) as Hn.
      now apply negb_false_iff in Hn.
    + cbn. rewrite app_nil_r. reflexivity.
Qed.

Lemma split_spec fuel toks s d : length s < fuel ->
  exists ts, str_split fuel toks s d = Ok (toks ++ ts) /\ runs (fun c => In c d) s ts.
Proof.
  intros H. destruct (split_loop_spec d fuel [] s toks s eq_refl H) as [ts [R E]].
  exists ts. split; [exact E|exact R].
Qed.

(** The specification determines the tokens. *)
Lemma runs_delim_inv {A} (isD : A -> Prop) c s ts : isD c -> runs isD (c :: s) ts -> runs isD s ts.
Proof.
  intros Hc H. inversion H; subst; auto.
  destruct t as [|x t]; [congruence|]. simpl in H0. inversion H0; subst.
  exfalso. apply (H2 c); simpl; auto.
Qed.

Lemma app_run_unique {A} (isD : A -> Prop) (t1 t2 s1 s2 : list A) :
  t1 ++ s1 = t2 ++ s2 ->
  (forall c, In c t1 -> ~ isD c) -> (forall c, In c t2 -> ~ isD c) ->
  (s1 = [] \/ exists c s', s1 = c :: s' /\ isD c) ->
  (s2 = [] \/ exists c s', s2 = c :: s' /\ isD c) -> t1 = t2 /\ s1 = s2.
Proof.
  revert t2; induction t1 as [|x t1 IH]; intros [|y t2] E H1 H2 B1 B2; simpl in *.
  - auto.
  - subst s1. destruct B1 as [|[c [s' [E Hc]]]]; [discriminate|]. inversion E; subst.
    exfalso. apply (H2 c); auto.
  - subst s2. destruct B2 as [|[c [s' [E Hc]]]]; [discriminate|]. inversion E; subst.
    exfalso. apply (H1 c); auto.
  - inversion E; subst. destruct (IH t2) as [-> ->]; auto.
Qed.

Lemma runs_unique {A} (isD : A -> Prop) s ts1 ts2 :
  runs isD s ts1 -> runs isD s ts2 -> ts1 = ts2.
Proof.
  intros H. revert ts2. induction H as [|c s ts Hc H IH|t s ts Ht Hn Hb H IH]; intros ts2 H2.
  - inversion H2; subst; auto. destruct t; [congruence|discriminate].
  - apply IH. apply runs_delim_inv in H2; auto.
  - inversion H2; subst.
    + destruct t; [congruence|discriminate].
    + destruct t as [|x t]; [congruence|]. simpl in H0. inversion H0; subst.
      exfalso. apply (Hn x); simpl; auto.
    + destruct (app_run_unique isD t0 t s0 s) as [-> ->]; auto. f_equal. apply IH. assumption.
Qed.

(** ---------- replaceAll ---------- *)
Lemma prefixb_true p s : prefixb p s = true <-> exists b, s = p ++ b.
Proof.
  revert s; induction p as [|x p IH]; intros s; simpl.
  - split; [intros _; exists s; reflexivity|auto].
  - destruct s as [|y s]; [split; [discriminate|intros [b E]; discriminate]|].
    rewrite andb_true_iff, IH, Ascii.eqb_eq. split.
    + intros [-> [b ->]]. exists b. reflexivity.
    + intros [b E]. inversion E; subst. split; eauto.
Qed.

Lemma find_sub_some p s i : find_sub p s = Some i ->
  exists a b, s = a ++ p ++ b /\ length a = i /\ forall j, occurs_at p s j -> i <= j.
Proof.
  revert i; induction s as [|x s IH]; intros i H; simpl in H.
  - destruct (prefixb p []) eqn:E; [|discriminate]. inversion H; subst.
    apply prefixb_true in E. destruct E as [b Eb]. exists [], b. simpl. split; auto. split; auto. lia.
  - destruct (prefixb p (x :: s)) eqn:E.
    + inversion H; subst. apply prefixb_true in E. destruct E as [b Eb]. exists [], b. simpl.
      split; auto. split; auto. lia.
    + destruct (find_sub p s) as [k|]; [|discriminate]. inversion H; subst.
      destruct (IH k eq_refl) as [a [b [-> [La Hm]]]]. exists (x :: a), b. simpl.
      split; auto. split; auto. intros j [a' [b' [E' La']]].
      destruct a' as [|z a']; simpl in E'.
      * exfalso. assert (T : prefixb p (x :: a ++ p ++ b) = true) by (apply prefixb_true; exists b'; auto). congruence.
      * inversion E'; subst. simpl. apply le_n_S. apply Hm. exists a', b'. auto.
Qed.

Lemma find_sub_none p s : find_sub p s = None -> forall j, ~ occurs_at p s j.
Proof.
  induction s as [|x s IH]; intros H j [a [b [E La]]]; simpl in H.
  - destruct (prefixb p []) eqn:Ep; [discriminate|].
    destruct a; [|discriminate]. simpl in E.
    assert (T : prefixb p [] = true) by (apply prefixb_true; exists b; auto). congruence.
  - destruct (prefixb p (x :: s)) eqn:Ep; [discriminate|].
    destruct (find_sub p s) eqn:Ef; [discriminate|].
    destruct a as [|z a]; simpl in E.
    + assert (T : prefixb p (x :: s) = true) by (apply prefixb_true; exists b; auto). congruence.
    + inversion E; subst. eapply (IH eq_refl (length a)). exists a, b. auto.
Qed.

Lemma replaceAll_loop_spec from to fuel : from <> [] -> forall done s,
  length s < fuel ->
  exists r, replaced from to s r /\
    replaceAll_loop fuel (done ++ s) from to (length done) = Ok (done ++ r).
Proof.
  intros Hne. induction fuel as [|fuel IH]; intros dn s Hf; [lia|].
  cbn [replaceAll_loop]. unfold str_find.
  replace (length (dn ++ s) <? length dn) with false
    by (symmetry; apply Nat.ltb_ge; rewrite app_length; lia).
  rewrite skipn_app_len. destruct (find_sub from s) as [i|] eqn:E; cbn [option_map].
  - apply find_sub_some in E. destruct E as [a [b [-> [La Hm]]]].
    destruct (IH ((dn ++ a) ++ to) b) as [r [R Er]].
    { rewrite !app_length in Hf. destruct from; [congruence|]. simpl in Hf. lia. }
    exists (a ++ to ++ r). split.
    + apply replaced_one; auto. intros j Hj. rewrite La. apply Hm. exact Hj.
    + unfold str_replace.
      replace (length (dn ++ a ++ from ++ b) <? length dn + i) with false
        by (symmetry; apply Nat.ltb_ge; rewrite !app_length; lia).
      cbn [bind].
      assert (F1 : firstn (length dn + i) (dn ++ a ++ from ++ b) = dn ++ a).
      { rewrite app_assoc. replace (length dn + i) with (length (dn ++ a)) by (rewrite app_length; lia).
        apply firstn_app_len. }
      assert (F2 : skipn (length dn + i + length from) (dn ++ a ++ from ++ b) = b).
      { replace (dn ++ a ++ from ++ b) with ((dn ++ a ++ from) ++ b) by (rewrite <- !app_assoc; reflexivity).
        replace (length dn + i + length from) with (length (dn ++ a ++ from)) by (rewrite !app_length; lia).
        apply skipn_app_len. }
      rewrite F1, F2.
      replace ((dn ++ a) ++ to ++ b) with (((dn ++ a) ++ to) ++ b) by (rewrite <- app_assoc; reflexivity).
      replace (length dn + i + length to) with (length ((dn ++ a) ++ to)) by (rewrite !app_length; lia).
      rewrite Er. f_equal. rewrite <- !app_assoc. reflexivity.
  - exists s. split; [|reflexivity]. constructor. apply find_sub_none. exact E.
Qed.

Lemma replaceAll_spec fuel s from to : length s < fuel -> from <> [] ->
  exists r, replaceAll fuel s from to = Ok r /\ replaced from to s r.
Proof.
  intros Hf Hne. destruct (replaceAll_loop_spec from to fuel Hne [] s Hf) as [r [R E]].
  exists r. split; auto. unfold replaceAll. destruct from; [congruence|exact E].
Qed.

Lemma occurs_unique_split {A} (p : list A) a1 b1 a2 b2 :
  a1 ++ p ++ b1 = a2 ++ p ++ b2 -> length a1 = length a2 -> a1 = a2 /\ b1 = b2.
Proof.
  revert a2; induction a1 as [|x a1 IH]; intros [|y a2] E L; simpl in *; try discriminate.
  - apply app_inv_head in E. auto.
  - inversion E; subst. destruct (IH a2) as [-> ->]; auto.
Qed.

Lemma replaced_unique {A} (from to s : list A) r1 r2 :
  replaced from to s r1 -> replaced from to s r2 -> r1 = r2.
Proof.
  intros H. revert r2. induction H as [s Hn|p s r Hm H IH]; intros r2 H2.
  - inversion H2; subst; auto. exfalso. apply (Hn (length p)). exists p, s0. auto.
  - inversion H2; subst.
    + exfalso. apply (H0 (length p)). exists p, s. auto.
    + assert (L : length p0 = length p).
      { apply Nat.le_antisymm.
        - apply H1. exists p, s. split; [congruence|reflexivity].
        - apply Hm. exists p0, s0. split; [congruence|reflexivity]. }
      destruct (occurs_unique_split from p0 s0 p s H0 L) as [-> ->]. do 2 f_equal. apply IH. exact H3.
Qed.

(** ---------- integers ---------- *)
Lemma integerDivision_spec a b : b <> 0%N ->
  (forall q, integerDivision a b = Ok q <-> (a = b * q)%N) /\
  ((forall q, a <> b * q)%N -> integerDivision a b = Throw).
Proof.
  intros Hb. unfold integerDivision. destruct (N.eqb_spec b 0) as [E|_]; [contradiction|].
  destruct (N.eqb_spec (a mod b) 0) as [E|E]; cbn [negb].
  - apply N.div_exact in E; auto. split.
    + intros q. split.
      * intros H. inversion H; subst. exact E.
      * intros ->. rewrite N.mul_comm, N.div_mul; auto.
    + intros H. exfalso. apply (H (a / b)%N). exact E.
  - split; [|auto]. intros q. split; [discriminate|]. intros ->. exfalso. apply E.
    rewrite N.mul_comm. apply N.mod_mul. auto.
Qed.

Lemma shiftr1 x : N.shiftr x 1 = (x / 2)%N.
Proof. rewrite N.shiftr_div_pow2. reflexivity. Qed.

Lemma log2Integer_loop_spec fuel : forall x c, (x < 2 ^ N.of_nat fuel)%N ->
  exists k, log2Integer_loop (S fuel) x c = Ok (c + k)%N /\ (x < 2 ^ k)%N /\
            (forall j, (x < 2 ^ j)%N -> (k <= j)%N).
Proof.
  induction fuel as [|fuel IH]; intros x c H.
  - change (2 ^ N.of_nat 0)%N with 1%N in H. assert (x = 0)%N by lia. subst x.
    exists 0%N. cbn. split; [f_equal; lia|]. split; [lia|]. lia.
  - remember (S fuel) as F eqn:EF. cbn [log2Integer_loop]. destruct (N.ltb_spec 0 x) as [Hx|Hx].
    + subst F. rewrite shiftr1. destruct (IH (x / 2)%N (c + 1)%N) as [k [E [U M]]].
      { apply N.div_lt_upper_bound; [lia|]. rewrite Nat2N.inj_succ, N.pow_succ_r' in H. lia. }
      exists (k + 1)%N. rewrite E. split; [f_equal; lia|]. split.
      * rewrite N.add_1_r, N.pow_succ_r'. pose proof (N.div_mod x 2 ltac:(lia)).
        pose proof (N.mod_lt x 2 ltac:(lia)). lia.
      * intros j Hj. destruct (N.eq_dec j 0) as [->|Hj0]; [change (2 ^ 0)%N with 1%N in Hj; lia|].
        assert (k <= j - 1)%N; [|lia]. apply M. apply N.div_lt_upper_bound; [lia|].
        rewrite <- N.pow_succ_r'. replace (N.succ (j - 1)) with j by lia. exact Hj.
    + assert (x = 0)%N by lia. subst x. exists 0%N. split; [f_equal; lia|].
      split; [reflexivity|]. lia.
Qed.

Lemma log2Integer_spec x : (x < 2 ^ 64)%N ->
  exists k, log2Integer 65 x = Ok k /\ (x < 2 ^ k)%N /\ (forall j, (x < 2 ^ j)%N -> (k <= j)%N).
Proof.
  intros H. destruct (log2Integer_loop_spec 64 x 0%N) as [k [E [U M]]]; [exact H|].
  exists k. split; [exact E|]. auto.
Qed.

Lemma isdigit_In c : isdigit c = true <-> is_digit c.
Proof.
  unfold is_digit. destruct c as [[] [] [] [] [] [] [] []]; vm_compute; split; intros H;
    try discriminate; try reflexivity; intuition discriminate.
Qed.

Lemma isAnInteger_spec s : isAnInteger s = true <-> s <> [] /\ forall c, In c s -> is_digit c.
Proof.
  unfold isAnInteger. rewrite andb_true_iff.
  assert (H : isAnInteger_loop s = true <-> forall c, In c s -> is_digit c).
  { induction s as [|x s IH]; simpl; [intuition|].
    destruct (isdigit x) eqn:E.
    - rewrite IH. apply isdigit_In in E. split; [intros H c [<-|Hc]; auto|intros H c Hc; auto].
    - split; [discriminate|]. intros H. assert (T : is_digit x) by (apply H; auto).
      apply isdigit_In in T. congruence. }
  rewrite H. split; intros [A B]; split; auto.
  - destruct s; [discriminate|congruence].
  - destruct s; [contradiction|reflexivity].
Qed.

Lemma isAfloat_loop_spec s h : isAfloat_loop s h = true <->
  (h = true \/ exists c, In c s /\ is_digit c) /\
  (forall c, In c s -> is_digit c \/ In c (lit "-+eE.")).
Proof.
  revert h; induction s as [|x s IH]; intros h; cbn [isAfloat_loop].
  - simpl. split; [intros ->; split; auto; contradiction|]. intros [[H|[c [[] _]]] _]; exact H.
  - destruct (isdigit x) eqn:E.
    + rewrite IH. apply isdigit_In in E. split.
      * intros [_ H]. split; [right; exists x; simpl; auto|]. intros c [<-|Hc]; auto.
      * intros [_ H]. split; auto. intros c Hc. apply H. simpl; auto.
    + assert (Nx : ~ is_digit x) by (intros T; apply isdigit_In in T; congruence).
      match goal with |- context [if ?b then _ else _] => destruct b eqn:E2 end.
      * assert (Ix : In x (lit "-+eE.")).
        { repeat rewrite orb_true_iff in E2. rewrite !Ascii.eqb_eq in E2. simpl. intuition. }
        rewrite IH. split.
        -- intros [H1 H2]. split; [|intros c [<-|Hc]; auto].
           destruct H1 as [H1|[c [Hc Dc]]]; auto. right. exists c. simpl; auto.
        -- intros [H1 H2]. split; [|intros c Hc; apply H2; simpl; auto].
           destruct H1 as [H1|[c [[<-|Hc] Dc]]]; [left; exact H1|contradiction|right; exists c; auto].
      * split; [discriminate|]. intros [_ H].
        destruct (H x (or_introl eq_refl)) as [T|T]; [contradiction|].
        exfalso. revert E2. simpl in T.
        repeat rewrite orb_false_iff. rewrite !Ascii.eqb_neq. intuition.
Qed.

Lemma isAfloat_spec s : isAfloat s = true <->
  (exists c, In c s /\ is_digit c) /\ (forall c, In c s -> is_digit c \/ In c (lit "-+eE.")).
Proof. unfold isAfloat. rewrite isAfloat_loop_spec. intuition discriminate. Qed.

Lemma digit_val_N c : (Z.of_N (N_of_ascii c) - 48)%Z = digit_val c.
Proof. unfold digit_val, nat_of_ascii. lia. Qed.

Lemma atoi_digits_spec s acc : (forall c, In c s -> is_digit c) ->
  atoi_digits s acc = (acc * 10 ^ Z.of_nat (length s) + dec_val s)%Z.
Proof.
  revert acc; induction s as [|c s IH]; intros acc H; cbn [atoi_digits dec_val length].
  - change (Z.of_nat 0) with 0%Z. rewrite Z.pow_0_r. lia.
  - assert (E : isdigit c = true) by (apply isdigit_In, H; simpl; auto). rewrite E.
    rewrite IH by (intros; apply H; simpl; auto). rewrite digit_val_N, Nat2Z.inj_succ.
    rewrite Z.pow_succ_r by lia. ring.
Qed.

Lemma atoi_check_digits s : (forall c, In c s -> is_digit c) -> atoi_check s = true.
Proof.
  induction s as [|c s IH]; intros H; simpl; auto.
  assert (E : isdigit c = true) by (apply isdigit_In, H; simpl; auto). rewrite E.
  apply IH. intros; apply H; simpl; auto.
Qed.

Lemma atoi_nat s : s <> [] -> (forall c, In c s -> is_digit c) -> atoi s = Ok (dec_val s).
Proof.
  intros Hne H. unfold atoi. rewrite atoi_check_digits by exact H. f_equal.
  unfold std_atoi. destruct s as [|c s]; [congruence|].
  assert (D : isdigit c = true) by (apply isdigit_In, H; simpl; auto).
  destruct (Ascii.eqb_spec c "-") as [->|_]; [discriminate|].
  destruct (Ascii.eqb_spec c "+") as [->|_]; [discriminate|].
  rewrite atoi_digits_spec by exact H. lia.
Qed.

Lemma atoi_neg s : s <> [] -> (forall c, In c s -> is_digit c) ->
  atoi ("-"%char :: s) = Ok (- dec_val s)%Z.
Proof.
  intros Hne H. unfold atoi. cbn [atoi_check]. 
  replace (isdigit "-") with false by reflexivity. cbn [Ascii.eqb orb].
  replace (("-" =? "-")%char || ("-" =? "+")%char) with true by reflexivity.
  rewrite atoi_check_digits by exact H. f_equal. unfold std_atoi.
  replace ("-" =? "-")%char with true by reflexivity.
  rewrite atoi_digits_spec by exact H. rewrite Z.mul_0_l. reflexivity.
Qed.

Lemma atoi_throws s : atoi s = Throw <-> exists c, In c s /\ ~ is_digit c /\ ~ In c (lit "+-").
Proof.
  unfold atoi. assert (G : atoi_check s = false <-> exists c, In c s /\ ~ is_digit c /\ ~ In c (lit "+-")).
  { induction s as [|x s IH]; cbn [atoi_check].
    - split; [discriminate|]. intros [c [[] _]].
    - destruct (isdigit x) eqn:E.
      + rewrite IH. apply isdigit_In in E. split.
        * intros [c [Hc H]]. exists c. simpl; auto.
        * intros [c [[<-|Hc] [H1 H2]]]; [contradiction|]. exists c; auto.
      + assert (Nx : ~ is_digit x) by (intros T; apply isdigit_In in T; congruence).
        destruct (Ascii.eqb_spec x "-") as [->|N1]; [|destruct (Ascii.eqb_spec x "+") as [->|N2]]; cbn [orb].
        1,2: rewrite IH; split; [intros [c [Hc H]]; exists c; simpl; auto|];
             intros [c [[<-|Hc] [H1 H2]]]; [exfalso; apply H2; simpl; auto|exists c; auto].
        split; auto. intros _. exists x. split; [simpl; auto|]. split; auto. simpl. intuition. }
  rewrite <- G. destruct (atoi_check s); split; congruence.
Qed.

Lemma basename_spec pre c s : ~ In "/"%char s ->
  basename (pre ++ [c] ++ s) = if Ascii.eqb c "/" then s else basename (pre ++ [c]) ++ s.
Proof.
  intros Hs. unfold basename. rewrite !rev_app_distr. simpl (rev [c]).
  assert (G : forall u acc r, ~ In "/"%char u -> basename_loop (u ++ r) acc = basename_loop r (rev u ++ acc)).
  { induction u as [|x u IH]; intros acc r Hu; simpl; auto.
    destruct (Ascii.eqb_spec x "/") as [->|_]; [exfalso; apply Hu; simpl; auto|].
    rewrite IH by (intros T; apply Hu; simpl; auto). rewrite <- app_assoc. reflexivity. }
  rewrite <- app_assoc, G by (rewrite <- in_rev; exact Hs). rewrite rev_involutive, app_nil_r.
  cbn [app basename_loop]. destruct (Ascii.eqb c "/"); auto.
  assert (K : forall u acc t, basename_loop u (acc ++ t) = basename_loop u acc ++ t).
  { induction u as [|x u IH]; intros acc t; simpl; auto. destruct (Ascii.eqb x "/"); auto.
    apply (IH (x :: acc) t). }
  apply (K (rev pre) [c] s).
Qed.

Lemma basename_nosep s : ~ In "/"%char s -> basename s = s.
Proof.
  intros Hs. unfold basename.
  assert (G : forall u acc, ~ In "/"%char u -> basename_loop u acc = rev u ++ acc).
  { induction u as [|x u IH]; intros acc Hu; simpl; auto.
    destruct (Ascii.eqb_spec x "/") as [->|_]; [exfalso; apply Hu; simpl; auto|].
    rewrite IH by (intros T; apply Hu; simpl; auto). rewrite <- app_assoc. reflexivity. }
  rewrite G by (rewrite <- in_rev; exact Hs). rewrite rev_involutive, app_nil_r. reflexivity.
Qed.

(** ---------- Options ---------- *)
Lemma existsb_str o l : existsb (str_eqb o) l = true <-> In o l.
Proof.
  rewrite existsb_exists. split.
  - intros [x [H E]]. apply str_eqb_eq in E. subst; auto.
  - intros H. exists o. split; auto. apply str_eqb_refl.
Qed.

Lemma options_check_strict registered l :
  (options_check registered STRICT l = Ok tt /\ (forall o, In o l -> In o registered)) \/
  (options_check registered STRICT l = Throw /\ exists o, In o l /\ ~ In o registered).
Proof.
  induction l as [|o l IH]; simpl.
  - left. split; auto. contradiction.
  - destruct (existsb (str_eqb o) registered) eqn:E.
    + apply existsb_str in E. destruct IH as [[H1 H2]|[H1 [x [Hx Nx]]]].
      * left. split; auto. intros y [<-|Hy]; auto.
      * right. split; auto. exists x; auto.
    + right. split; auto. exists o. split; auto. rewrite <- existsb_str. congruence.
Qed.

Lemma options_check_permissive registered l : options_check registered PERMISSIVE l = Ok tt.
Proof. induction l as [|o l IH]; simpl; auto. destruct (existsb _ _); auto. Qed.

Lemma options_strict fuel registered opts ts :
  length opts < fuel -> runs (fun c => c = ","%char) opts ts ->
  ((forall o, In o ts -> In o registered) ->
     exists l, options_set fuel registered STRICT opts = Ok l /\ forall o, isSet l o = true <-> In o ts) /\
  ((exists o, In o ts /\ ~ In o registered) -> options_set fuel registered STRICT opts = Throw).
Proof.
  intros Hf R. destruct (split_spec fuel [] opts (lit ",") Hf) as [ts' [E R']].
  assert (ts' = ts).
  { eapply runs_unique; [exact R'|].
    clear -R. induction R; [constructor|apply runs_delim; auto|apply runs_token; auto].
    - subst; simpl; auto.
    - intros c Hc [T|[]]. apply (H0 c Hc). auto.
    - destruct H1 as [H1|[c [s' [H1 H2]]]]; [left; auto|right; exists c, s'; subst; simpl; auto]. }
  subst ts'. unfold options_set. rewrite E. cbn [bind app].
  destruct (options_check_strict registered ts) as [[H1 H2]|[H1 [o [Ho No]]]]; rewrite H1; cbn [bind].
  - split.
    + intros _. exists ts. split; auto. intros o. apply existsb_str.
    + intros [o [Ho No]]. exfalso. auto.
  - split; auto. intros H. exfalso. auto.
Qed.

Lemma options_permissive fuel registered opts ts :
  length opts < fuel -> runs (fun c => c = ","%char) opts ts ->
  exists l, options_set fuel registered PERMISSIVE opts = Ok l /\ forall o, isSet l o = true <-> In o ts.
Proof.
  intros Hf R. destruct (split_spec fuel [] opts (lit ",") Hf) as [ts' [E R']].
  assert (ts' = ts).
  { eapply runs_unique; [exact R'|].
    clear -R. induction R; [constructor|apply runs_delim; auto|apply runs_token; auto].
    - subst; simpl; auto.
    - intros c Hc [T|[]]. apply (H0 c Hc). auto.
    - destruct H1 as [H1|[c [s' [H1 H2]]]]; [left; auto|right; exists c, s'; subst; simpl; auto]. }
  subst ts'. unfold options_set. rewrite E. cbn [bind app].
  rewrite options_check_permissive. cbn [bind]. exists ts. split; auto. intros o. apply existsb_str.
Qed.

Lemma options_disabled fuel registered opts :
  exists l, options_set fuel registered DISABLED opts = Ok l /\ forall o, isSet l o = false.
Proof. exists []. split; auto. Qed.
