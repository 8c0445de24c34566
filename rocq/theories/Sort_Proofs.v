From Verif Require Import Prelude Sort_Model Sort_Spec.

Section SortProofs.
  Variable K : Type.
  Variable ltk : K -> K -> bool.
  Variable srt : list (K * nat) -> list (K * nat).
  Hypothesis Hsrt : stdsort_ok ltk srt.

  Lemma sort_general x iperm small n d :
    x <> [] ->
    n = (if small =? 0 then length x else small) ->
    n <= length x -> n = length iperm ->
    exists p,
      Permutation (map (fun i => (nth i x d, i)) (seq 0 n)) p /\
      ascending ltk (map fst p) /\
      sort srt x iperm small = Ok (map fst p ++ skipn n x, map snd p).
  Proof.
    intros Hx Hn Hle Hi. set (q := map (fun i => (nth i x d, i)) (seq 0 n)).
    exists (srt q). destruct (Hsrt q) as [HP HS]. split; [exact HP|]. split; [exact HS|].
    unfold sort.
    assert (Hlx : (length x =? 0) = false) by (destruct x; [congruence|reflexivity]).
    rewrite Hlx. rewrite <- Hn. rewrite Hi at 1. rewrite Nat.eqb_refl.
    rewrite (vget_ok x d) by (destruct x; [congruence|simpl; lia]). cbn [bind].
    rewrite (forM_fill (fun i => (nth i x d, i))).
    2:{ rewrite repeat_length. lia. }
    2:{ intros i u Hilt Hu _. rewrite (vget_ok x d) by lia. reflexivity. }
    rewrite (skipn_all2 (repeat _ n)) by (rewrite repeat_length; lia). rewrite app_nil_r.
    cbn [bind]. fold q.
    assert (Lq : length (srt q) = n).
    { rewrite <- (Permutation_length HP). unfold q. rewrite map_length, seq_length. reflexivity. }
    destruct (forM_inv (fun i '(y, ip) =>
       y = map fst (firstn i (srt q)) ++ skipn i x /\
       ip = map snd (firstn i (srt q)) ++ skipn i iperm) n
       (fun (i : nat) '(x0, iperm0) =>
          do pi <- vget (srt q) i;;
          do x1 <- vset x0 i (fst pi);;
          do iperm1 <- vset iperm0 i (snd pi);; Ok (x1, iperm1)) (x, iperm) (i := 0)) as [s' [H1 H2]].
    - split; reflexivity.
    - intros j [y ip] [_ Hj] [-> ->]. simpl in Hj.
      rewrite (vget_ok (srt q) (d, 0)) by lia. cbn [bind].
      assert (F : length (firstn j (srt q)) = j) by (rewrite firstn_length; lia).
      rewrite vset_ok by (rewrite app_length, map_length, F, skipn_length; lia). cbn [bind].
      rewrite vset_ok by (rewrite app_length, map_length, F, skipn_length; lia). cbn [bind].
      eexists. split; [reflexivity|].
      assert (FS : firstn (S j) (srt q) = firstn j (srt q) ++ [nth j (srt q) (d, 0)]).
      { assert (Hj' : j < length (srt q)) by lia. clear -Hj'. generalize dependent (srt q).
        intros l. revert j. induction l as [|a l IH]; intros [|j] H; simpl in *; try lia; auto.
        f_equal. apply IH. lia. }
      rewrite FS, !map_app. simpl.
      split.
      + rewrite (skipn_nth x d) by lia. rewrite upd_app_mid by (rewrite map_length; exact F).
        rewrite <- app_assoc. reflexivity.
      + rewrite (skipn_nth iperm 0) by lia. rewrite upd_app_mid by (rewrite map_length; exact F).
        rewrite <- app_assoc. reflexivity.
    - simpl in H2. destruct s' as [y ip]. destruct H2 as [-> ->].
      rewrite H1. rewrite firstn_all2 by lia.
      rewrite (skipn_all2 iperm) by lia. rewrite app_nil_r. reflexivity.
  Qed.

  Lemma perm_pairs_snd (x : list K) d n p :
    Permutation (map (fun i => (nth i x d, i)) (seq 0 n)) p ->
    Permutation (seq 0 n) (map snd p) /\
    forall i, i < n -> nth i (map fst p) d = nth (nth i (map snd p) 0) x d.
  Proof.
    intros HP. split.
    - apply (Permutation_map snd) in HP. rewrite map_map in HP. simpl in HP.
      rewrite map_id in HP. exact HP.
    - intros i Hi.
      assert (L : length p = n).
      { rewrite <- (Permutation_length HP), map_length, seq_length. reflexivity. }
      set (z := nth i p (d, 0)).
      assert (Hin : In z p) by (apply nth_In; lia).
      rewrite (nth_indep _ d (fst (d, 0))) by (rewrite map_length; lia).
      rewrite (map_nth fst). rewrite (nth_indep _ 0 (snd (d, 0))) by (rewrite map_length; lia).
      rewrite (map_nth snd). fold z.
      apply (Permutation_in z (Permutation_sym HP)) in Hin.
      apply in_map_iff in Hin. destruct Hin as [k [Hk _]]. rewrite <- Hk. reflexivity.
  Qed.

  Lemma sort_correct x iperm :
    length iperm = length x ->
    exists x' ip',
      sort srt x iperm 0 = Ok (x', ip') /\
      length x' = length x /\
      ascending ltk x' /\
      Permutation (seq 0 (length x)) ip' /\
      forall d i, i < length x -> nth i x' d = nth (nth i ip' 0) x d.
  Proof.
    intros Hi. destruct x as [|a x'] eqn:Ex.
    - destruct iperm; [|discriminate]. exists [], []. simpl.
      repeat split; try constructor. lia.
    - rewrite <- Ex in *.
      destruct (sort_general x iperm 0 (length x) a) as [p [HP [HS HE]]];
        [subst; discriminate|reflexivity|lia|congruence|].
      exists (map fst p), (map snd p).
      rewrite skipn_all, app_nil_r in HE.
      assert (L : length p = length x).
      { rewrite <- (Permutation_length HP), map_length, seq_length. reflexivity. }
      split; [exact HE|]. split; [rewrite map_length; exact L|]. split; [exact HS|].
      destruct (perm_pairs_snd x a (length x) p HP) as [G1 G2].
      split; [exact G1|]. intros d i Hilt.
      rewrite (nth_indep _ d a) by (rewrite map_length; lia).
      rewrite G2 by exact Hilt. apply nth_indep.
      assert (Hin : In (nth i (map snd p) 0) (seq 0 (length x))).
      { apply (Permutation_in _ (Permutation_sym G1)). apply nth_In. rewrite map_length. lia. }
      apply in_seq in Hin. lia.
  Qed.

  Lemma sort_small x iperm n :
    0 < n -> n <= length x -> length iperm = n ->
    exists x' ip',
      sort srt x iperm n = Ok (x' ++ skipn n x, ip') /\
      length x' = n /\
      ascending ltk x' /\
      Permutation (seq 0 n) ip' /\
      forall d i, i < n -> nth i x' d = nth (nth i ip' 0) x d.
  Proof.
    intros Hn Hle Hi. destruct x as [|a x'] eqn:Ex; [simpl in Hle; lia|]. rewrite <- Ex in *.
    destruct (sort_general x iperm n n a) as [p [HP [HS HE]]];
      [subst; discriminate| |lia|congruence|].
    { destruct n; [lia|reflexivity]. }
    exists (map fst p), (map snd p).
    assert (L : length p = n).
    { rewrite <- (Permutation_length HP), map_length, seq_length. reflexivity. }
    split; [exact HE|]. split; [rewrite map_length; exact L|]. split; [exact HS|].
    destruct (perm_pairs_snd x a n p HP) as [G1 G2].
    split; [exact G1|]. intros d i Hilt.
    rewrite (nth_indep _ d a) by (rewrite map_length; lia).
    rewrite G2 by exact Hilt. apply nth_indep.
    assert (Hin : In (nth i (map snd p) 0) (seq 0 n)).
    { apply (Permutation_in _ (Permutation_sym G1)). apply nth_In. rewrite map_length. lia. }
    apply in_seq in Hin. lia.
  Qed.
End SortProofs.

(** A concrete [std::sort] (insertion sort), to show that the contract can be met. *)
Fixpoint ins {K} (ltk : K -> K -> bool) (z : K * nat) (l : list (K * nat)) : list (K * nat) :=
  match l with
  | [] => [z]
  | y :: l' => if ltk (fst y) (fst z) then y :: ins ltk z l' else z :: y :: l'
  end.
Definition isort {K} (ltk : K -> K -> bool) (l : list (K * nat)) := fold_right (ins ltk) [] l.

Lemma isort_ok : stdsort_ok Nat.ltb (isort Nat.ltb).
Proof.
  assert (I : forall z l, Permutation (z :: l) (ins Nat.ltb z l)).
  { intros z l. induction l as [|y l IH]; simpl; auto.
    destruct (fst y <? fst z); auto. rewrite perm_swap. constructor. exact IH. }
  intros l. induction l as [|z l [IH1 IH2]]; simpl.
  - split; constructor.
  - split.
    + rewrite <- I. constructor. exact IH1.
    + clear IH1. unfold ascending in *. induction (isort Nat.ltb l) as [|y m IHm]; simpl.
      * repeat constructor.
      * simpl in IH2. inversion IH2 as [|? ? S1 S2]; subst.
        destruct (Nat.ltb_spec (fst y) (fst z)) as [Hlt|Hge]; simpl.
        -- constructor; [apply IHm; assumption|].
           eapply Permutation_Forall; [apply Permutation_map, I|].
           simpl. constructor; [apply Nat.ltb_ge; lia|assumption].
        -- constructor; [assumption|]. constructor; [apply Nat.ltb_ge; lia|].
           rewrite Forall_forall in *. intros w Hw. specialize (S2 w Hw).
           apply Nat.ltb_ge in S2. apply Nat.ltb_ge. lia.
Qed.
