From Verif Require Import Prelude Ring Sort_Model Sort_Spec Sort_Proofs.
From Verif Require Import Crs_Model Crs_Spec Crs_Base Crs_Proofs Crs_Proofs3 Crs_Proofs5 Sparse_Model Sparse_Spec.

Section SparseProofs.
  Variable R : cring.
  Local Open Scope cring_scope.
  Add Ring RringSp : (c_ring R).
  Local Open Scope nat_scope.

  (** ---------------------------------------------------------------- *)
  (** Entries. *)
  Lemma nth_combine' (u : list nat) (v : list R) i : length u = length v ->
    nth i (combine u v) (0, c0) = (nth i u 0, nth i v c0).
  Proof. intros H. apply combine_nth. exact H. Qed.

  Lemma combine_snoc (u : list nat) (v : list R) a x : length u = length v ->
    combine (u ++ [a]) (v ++ [x]) = combine u v ++ [(a, x)].
  Proof.
    revert v; induction u as [|b u IH]; intros [|y v] H; simpl in *; try lia; [reflexivity|].
    f_equal. apply IH. lia.
  Qed.

  Lemma combine_app' (u u' : list nat) (v v' : list R) : length u = length v ->
    combine (u ++ u') (v ++ v') = combine u v ++ combine u' v'.
  Proof.
    revert v; induction u as [|b u IH]; intros [|y v] H; simpl in *; try lia; [reflexivity|].
    f_equal. apply IH. lia.
  Qed.

  Lemma combine_fst (u : list nat) (v : list R) : length u = length v -> map fst (combine u v) = u.
  Proof.
    revert v; induction u as [|b u IH]; intros [|y v] H; simpl in *; try lia; [reflexivity|].
    f_equal. apply IH. lia.
  Qed.

  Lemma combine_snd (u : list nat) (v : list R) : length u = length v -> map snd (combine u v) = v.
  Proof.
    revert v; induction u as [|b u IH]; intros [|y v] H; simpl in *; try lia; [reflexivity|].
    f_equal. apply IH. lia.
  Qed.

  Lemma combine_map_split (l : list (nat * R)) : combine (map fst l) (map snd l) = l.
  Proof. induction l as [|[a x] l IH]; simpl; [reflexivity|f_equal; exact IH]. Qed.

  Lemma row_elem_perm (l l' : list (nat * R)) k : Permutation l l' -> row_elem l k = row_elem l' k.
  Proof. intros H. unfold row_elem. apply suml_perm. exact H. Qed.

  (** ---------------------------------------------------------------- *)
  (** The merging loops: [pre] has been read, [post] not yet; [done] has been
      written and (p, s) is being accumulated. *)
  Definition merged (pre post don : list (nat * R)) (p : nat) (s : R) : Prop :=
    (forall k, row_elem (don ++ [(p, s)]) k = row_elem pre k) /\
    StronglySorted lt (map fst (don ++ [(p, s)])) /\
    (forall k, In k (map fst (don ++ [(p, s)])) -> In k (map fst (pre ++ post))) /\
    (forall k, In k (map fst pre) -> In k (map fst (don ++ [(p, s)]))) /\
    (forall e, In e post -> p <= fst e) /\
    StronglySorted le (map fst post).

  Lemma merged_init c x post :
    StronglySorted le (map fst ((c, x) :: post)) -> merged [] ((c, x) :: post) [] c c0.
  Proof.
    intros H. unfold merged. simpl app. split; [|split; [|split; [|split; [|split]]]].
    - intros k. unfold row_elem. simpl. destruct (c =? k); ring.
    - simpl. repeat constructor.
    - simpl. intros k [<-|[]]. left. reflexivity.
    - simpl. tauto.
    - intros e [<-|He]; [simpl; lia|]. simpl in H. inversion H as [|? ? _ HF]; subst.
      rewrite Forall_forall in HF. apply HF. apply in_map. exact He.
    - exact H.
  Qed.

  Lemma merged_same pre post don p s x :
    merged pre ((p, x) :: post) don p s -> merged (pre ++ [(p, x)]) post don p (s + x)%C.
  Proof.
    intros [H1 [H2 [H3 [H4 [H5 H6]]]]]. split; [|split; [|split; [|split; [|split]]]].
    - intros k. rewrite (row_elem_app R pre). rewrite <- H1. rewrite !row_elem_app.
      assert (Q : forall y, row_elem [(p, y)] k = (if p =? k then y else c0 : R)).
      { intros y. unfold row_elem. simpl. destruct (p =? k); ring. }
      rewrite !Q. destruct (p =? k); ring.
    - rewrite map_app in *. exact H2.
    - intros k Hk. rewrite <- app_assoc. simpl. apply H3. rewrite map_app in *. exact Hk.
    - intros k. rewrite (map_app fst pre), in_app_iff. intros [Hk|[<-|[]]].
      + specialize (H4 k Hk). rewrite map_app in *. exact H4.
      + rewrite map_app. apply in_app_iff. right. left. reflexivity.
    - intros e He. apply H5. right. exact He.
    - simpl in H6. inversion H6; assumption.
  Qed.

  Lemma merged_next pre post don p s c x :
    merged pre ((c, x) :: post) don p s -> c <> p -> merged (pre ++ [(c, x)]) post (don ++ [(p, s)]) c x.
  Proof.
    intros [H1 [H2 [H3 [H4 [H5 H6]]]]] Hne.
    assert (Hlt : p < c) by (specialize (H5 (c, x) (or_introl eq_refl)); simpl in H5; lia).
    assert (Hle : forall k, In k (map fst (don ++ [(p, s)])) -> k <= p).
    { intros k Hk. rewrite map_app in *. simpl in *.
      assert (G : forall l, StronglySorted lt (l ++ [p]) -> forall k, In k (l ++ [p]) -> k <= p).
      { induction l as [|a l IH]; intros Hs k' Hk'; simpl in *; [destruct Hk' as [->|[]]; lia|].
        inversion Hs as [|? ? Hs' HF]; subst. rewrite Forall_forall in HF.
        destruct Hk' as [<-|Hk']; [|apply IH; assumption].
        apply Nat.lt_le_incl, HF. apply in_app_iff. right. left. reflexivity. }
      exact (G _ H2 k Hk). }
    split; [|split; [|split; [|split; [|split]]]].
    - intros k. rewrite !(row_elem_app R _ [(c, x)]). rewrite H1. reflexivity.
    - rewrite map_app. simpl.
      assert (G : forall l, StronglySorted lt l -> (forall k, In k l -> k <= p) -> StronglySorted lt (l ++ [c])).
      { induction l as [|a l IH]; intros Hs Hk; simpl; [repeat constructor|].
        inversion Hs as [|? ? Hs' HF]; subst. constructor.
        - apply IH; [exact Hs'|]. intros k' Hk'. apply Hk. right. exact Hk'.
        - apply Forall_app. split; [exact HF|]. constructor; [|constructor].
          specialize (Hk a (or_introl eq_refl)). lia. }
      apply G; assumption.
    - intros k. rewrite map_app, in_app_iff. intros [Hk|[<-|[]]].
      + rewrite <- app_assoc. simpl. apply H3. exact Hk.
      + rewrite <- app_assoc. simpl. rewrite map_app, in_app_iff. right. left. reflexivity.
    - intros k. rewrite map_app, in_app_iff. intros [Hk|[<-|[]]].
      + rewrite map_app, in_app_iff. left. apply H4. exact Hk.
      + rewrite map_app, in_app_iff. right. left. reflexivity.
    - intros e He. simpl in H6. inversion H6 as [|? ? _ HF]; subst. rewrite Forall_forall in HF.
      apply HF. apply in_map. exact He.
    - simpl in H6. inversion H6; assumption.
  Qed.

  Lemma merged_done pre don p s : merged pre [] don p s -> is_merge pre (don ++ [(p, s)]).
  Proof.
    intros [H1 [H2 [H3 [H4 _]]]]. split; [exact H2|]. split; [|exact H1].
    intros k. split; [|apply H4]. intros Hk. specialize (H3 k Hk). rewrite app_nil_r in H3. exact H3.
  Qed.

  Lemma is_merge_perm (added added' out : list (nat * R)) : Permutation added added' -> is_merge added' out -> is_merge added out.
  Proof.
    intros P [H1 [H2 H3]]. split; [exact H1|]. split.
    - intros k. rewrite H2. split; intros H.
      + apply (Permutation_in _ (Permutation_sym (Permutation_map fst P))). exact H.
      + apply (Permutation_in _ (Permutation_map fst P)). exact H.
    - intros k. rewrite H3. symmetry. apply row_elem_perm. exact P.
  Qed.

  (** The merge is unique. *)
  Lemma is_merge_unique (added out out' : list (nat * R)) : is_merge added out -> is_merge added out' -> out = out'.
  Proof.
    intros [A1 [A2 A3]] [B1 [B2 B3]].
    assert (E : map fst out = map fst out').
    { apply sorted_lt_unique; [exact A1|exact B1|]. intros x. rewrite A2, B2. reflexivity. }
    assert (G : forall o, StronglySorted lt (map fst o) -> (forall k, row_elem o k = row_elem added k) ->
              o = map (fun k => (k, row_elem added k)) (map fst o)).
    { intros o S1 S2. rewrite map_map. rewrite <- (map_id o) at 1. apply map_ext_in. intros [k x] H. simpl.
      rewrite <- S2. rewrite (row_elem_nodup R o k x); [reflexivity| |exact H].
      apply sorted_nodup. exact S1. }
    rewrite (G out A1 A3), (G out' B1 B3), E. reflexivity.
  Qed.

  Lemma is_merge_nil : is_merge (R := R) [] [].
  Proof. split; [constructor|]. split; [intros; reflexivity|]. intros. reflexivity. Qed.

  (** ---------------------------------------------------------------- *)
  (** Sorting the indices. *)
  Variable srt : list (nat * nat) -> list (nat * nat).
  Hypothesis Hsrt : stdsort_ok Nat.ltb srt.

  Lemma asc_le (l : list nat) : ascending Nat.ltb l -> StronglySorted le l.
  Proof.
    unfold ascending. induction 1 as [|a l Hl IH Ha]; constructor; [exact IH|].
    rewrite Forall_forall in *. intros x Hx. specialize (Ha x Hx). apply Nat.ltb_ge in Ha. exact Ha.
  Qed.

  Lemma sorted_entries n (cols cols' ip : list nat) (vals : list R) :
    n <= length cols -> n <= length vals -> length cols' = n -> length ip = n ->
    Permutation (seq 0 n) ip ->
    (forall i, i < n -> nth i cols' 0 = nth (nth i ip 0) cols 0) ->
    Permutation (combine (firstn n cols) (firstn n vals))
                (combine cols' (map (fun k => nth k vals c0) ip)).
  Proof.
    intros L1 L2 L3 L4 HP Hn.
    assert (E1 : combine (firstn n cols) (firstn n vals) =
                 map (fun k => (nth k cols 0, nth k vals c0)) (seq 0 n)).
    { apply (list_eq_nth _ _ (0, c0)).
      - rewrite combine_length, !firstn_length, map_length, seq_length. lia.
      - intros i Hi. rewrite combine_length, !firstn_length in Hi.
        rewrite nth_combine' by (rewrite !firstn_length; lia).
        rewrite nth_map_seq by lia. f_equal.
        + rewrite <- (firstn_skipn n cols) at 2. rewrite app_nth1 by (rewrite firstn_length; lia). reflexivity.
        + rewrite <- (firstn_skipn n vals) at 2. rewrite app_nth1 by (rewrite firstn_length; lia). reflexivity. }
    assert (E2 : combine cols' (map (fun k => nth k vals c0) ip) =
                 map (fun k => (nth k cols 0, nth k vals c0)) ip).
    { apply (list_eq_nth _ _ (0, c0)).
      - rewrite combine_length, !map_length. lia.
      - intros i Hi. rewrite combine_length, map_length in Hi.
        rewrite nth_combine' by (rewrite map_length; lia).
        rewrite (nth_indep _ (0, c0) ((fun k => (nth k cols 0, nth k vals c0)) 0)) by (rewrite map_length; lia).
        rewrite (map_nth (fun k => (nth k cols 0, nth k vals c0))).
        rewrite (nth_indep _ c0 ((fun k => nth k vals c0) 0)) by (rewrite map_length; lia).
        rewrite (map_nth (fun k => nth k vals c0)). rewrite Hn by lia. reflexivity. }
    rewrite E1, E2. apply Permutation_map. exact HP.
  Qed.

  Lemma split_nth {T} (l : list T) i d : i < length l -> l = firstn i l ++ nth i l d :: skipn (S i) l.
  Proof. intros H. rewrite <- (firstn_skipn i l) at 1. f_equal. apply skipn_nth. exact H. Qed.

  (** The merging loop of the rows. *)
  Lemma row_merge_ok check n cols (vals : list R) ip m :
    0 < n -> n <= length cols -> length ip = n ->
    StronglySorted le (firstn n cols) ->
    (forall i, i < n -> nth i ip 0 < length vals) ->
    (forall c, In c (firstn n cols) -> check c = true) ->
    exists out, row_merge R check n cols vals ip m = Ok (length out, push_all m out) /\
      is_merge (combine (firstn n cols) (map (fun k => nth k vals c0) ip)) out.
  Proof.
    intros Hn Lc Li Hs Hip Hck. unfold row_merge.
    rewrite (vget_ok cols 0) by lia. cbn [bind].
    set (E := combine (firstn n cols) (map (fun k => nth k vals c0) ip)).
    assert (LE : length E = n) by (unfold E; rewrite combine_length, firstn_length, map_length; lia).
    assert (Enth : forall i, i < n -> nth i E (0, c0) = (nth i cols 0, nth (nth i ip 0) vals c0)).
    { intros i Hi. unfold E. rewrite nth_combine' by (rewrite firstn_length, map_length; lia).
      f_equal.
      - rewrite <- (firstn_skipn n cols) at 2. rewrite app_nth1 by (rewrite firstn_length; lia). reflexivity.
      - rewrite (nth_indep _ c0 ((fun k => nth k vals c0) 0)) by (rewrite map_length; lia).
        apply (map_nth (fun k => nth k vals c0)). }
    assert (Efst : map fst E = firstn n cols).
    { unfold E. apply combine_fst. rewrite firstn_length, map_length. lia. }
    loopM (fun i (st : crs R * nat * R * nat) => let '(m', cnt, value, prev) := st in
             exists don, merged (firstn i E) (skipn i E) don prev value /\
               m' = push_all m don /\ cnt = length don) as [[[m' cnt] value] prev] EL H.
    - exists []. split; [|split; [|reflexivity]].
      + destruct E as [|[c x] E'] eqn:EE; [simpl in LE; lia|]. simpl firstn. simpl skipn.
        assert (E0 := Enth 0 Hn). simpl in E0. injection E0 as -> ->. apply merged_init.
        rewrite Efst. exact Hs.
      + unfold push_all. simpl. rewrite !app_nil_r. destruct m; reflexivity.
    - intros i [[[m' cnt] value] prev] [_ Hi] [don [HM [-> ->]]]. simpl in Hi.
      rewrite (vget_ok cols 0) by lia. cbn [bind].
      assert (Hin : In (nth i cols 0) (firstn n cols)).
      { rewrite <- (firstn_skipn n cols) at 1. rewrite app_nth1 by (rewrite firstn_length; lia).
        apply nth_In. rewrite firstn_length. lia. }
      rewrite (Hck _ Hin). rewrite (vget_ok ip 0) by lia. cbn [bind].
      rewrite (vget_ok vals c0) by (apply Hip; lia). cbn [bind].
      assert (Efn : firstn (S i) E = firstn i E ++ [(nth i cols 0, nth (nth i ip 0) vals c0)]).
      { rewrite (firstn_S_nth E (0, c0)) by lia. rewrite Enth by lia. reflexivity. }
      assert (Esk : skipn i E = (nth i cols 0, nth (nth i ip 0) vals c0) :: skipn (S i) E).
      { rewrite (skipn_nth E (0, c0)) by lia. rewrite Enth by lia. reflexivity. }
      rewrite Esk in HM.
      destruct (Nat.eqb_spec (nth i cols 0) prev) as [Eq|Ne].
      + eexists. split; [reflexivity|]. cbv beta iota. exists don. split; [|auto].
        rewrite Efn. rewrite Eq in HM |- *. apply merged_same. exact HM.
      + eexists. split; [reflexivity|]. cbv beta iota. exists (don ++ [(prev, value)]). split; [|split].
        * rewrite Efn. apply merged_next; assumption.
        * unfold push_all, pushValue, pushCol. cbn [c_rowptr c_colind c_values c_nrow c_ncol].
          rewrite !map_app, !app_assoc. reflexivity.
        * rewrite app_length. simpl. lia.
    - rewrite EL. cbn [bind]. destruct H as [don [HM [-> ->]]]. simpl in HM.
      rewrite firstn_all2 in HM by lia. rewrite skipn_all2 in HM by lia.
      exists (don ++ [(prev, value)]). split; [|apply merged_done; exact HM].
      f_equal. f_equal.
      + rewrite app_length. simpl. lia.
      + unfold push_all, pushValue, pushCol. cbn [c_rowptr c_colind c_values c_nrow c_ncol].
        rewrite !map_app, !app_assoc. reflexivity.
  Qed.

  (** SparseRow::finalize. *)
  Lemma sr_finalize_ok (r : srow R) m : length (fst r) = length (snd r) ->
    Forall (fun c => c < c_ncol m) (fst r) ->
    exists out cols', sr_finalize R srt r m = Ok (length out, push_all m out, (cols', snd r)) /\
      is_merge (combine (fst r) (snd r)) out.
  Proof.
    intros HL HF. destruct r as [cols vals]. cbn [fst snd] in *. unfold sr_finalize. cbn [fst snd].
    rewrite HL, Nat.eqb_refl. rewrite <- HL.
    destruct (Nat.eqb_spec (length cols) 0) as [E0|E0].
    - destruct cols; [|discriminate]. destruct vals; [|discriminate]. exists [], [].
      split; [|apply is_merge_nil]. unfold push_all. simpl. rewrite !app_nil_r. destruct m; reflexivity.
    - destruct (sort_correct _ _ _ Hsrt cols (repeat 0 (length cols))) as [cols' [ip [E [L1 [Hasc [Hip Hnth]]]]]];
        [apply repeat_length|].
      rewrite E. cbn [bind].
      assert (Lip : length ip = length cols).
      { apply Permutation_length in Hip. rewrite seq_length in Hip. lia. }
      assert (Hipb : forall i, i < length cols -> nth i ip 0 < length vals).
      { intros i Hi. assert (Hin : In (nth i ip 0) ip) by (apply nth_In; lia).
        apply (Permutation_in _ (Permutation_sym Hip)) in Hin. apply in_seq in Hin. lia. }
      destruct (row_merge_ok (fun c => c <? c_ncol m) (length cols') cols' vals ip m) as [out [EO HO]];
        try lia.
      + rewrite firstn_all. apply asc_le. exact Hasc.
      + rewrite L1. exact Hipb.
      + intros c Hc. rewrite firstn_all in Hc. apply Nat.ltb_lt. rewrite Forall_forall in HF. apply HF.
        apply (In_nth _ _ 0) in Hc. destruct Hc as [i [Hi <-]]. rewrite Hnth by lia. apply nth_In.
        rewrite HL. apply Hipb. lia.
      + rewrite EO. cbn [bind]. exists out, cols'. split; [reflexivity|].
        eapply is_merge_perm; [|exact HO]. rewrite firstn_all.
        rewrite <- (firstn_all cols) at 1. rewrite <- (firstn_all vals) at 1. rewrite <- HL.
        apply sorted_entries; try lia; [exact Hip|]. intros i Hi. apply Hnth. exact Hi.
  Qed.

  (** SparseRowCached. *)
  Lemma rc_new_ok n : 0 < n -> rc_ok (rc_new R n) /\ rc_entries (rc_new R n) = [].
  Proof.
    intros H. unfold rc_ok, rc_entries, rc_new. cbn [rc_cols rc_values rc_counter].
    rewrite !repeat_length. split; [split; [lia|split; [reflexivity|lia]]|reflexivity].
  Qed.

  Lemma firstn_vresize {T} (l : list T) n m d : n <= length l -> length l <= m ->
    firstn n (vresize l m d) = firstn n l.
  Proof.
    intros H H'. apply (list_eq_nth _ _ d).
    - rewrite !firstn_length, vresize_length. lia.
    - intros i Hi. rewrite firstn_length, vresize_length in Hi.
      assert (F : forall l' : list T, i < length (firstn n l') -> nth i (firstn n l') d = nth i l' d).
      { intros l' Hl. rewrite <- (firstn_skipn n l') at 2. rewrite app_nth1 by exact Hl. reflexivity. }
      rewrite !F by (rewrite firstn_length, ?vresize_length; lia).
      rewrite nth_vresize by lia. destruct (Nat.ltb_spec i (length l)); [reflexivity|lia].
  Qed.

  Lemma firstn_S_upd {T} (l : list T) n x : n < length l -> firstn (S n) (upd l n x) = firstn n l ++ [x].
  Proof.
    intros H. rewrite (firstn_S_nth _ x) by (rewrite upd_length; exact H).
    rewrite nth_upd_eq by exact H. f_equal. apply (list_eq_nth _ _ x).
    - rewrite !firstn_length, upd_length. reflexivity.
    - intros i Hi. rewrite firstn_length, upd_length in Hi.
      assert (F : forall l' : list T, i < length (firstn n l') -> nth i (firstn n l') x = nth i l' x).
      { intros l' Hl. rewrite <- (firstn_skipn n l') at 2. rewrite app_nth1 by exact Hl. reflexivity. }
      rewrite !F by (rewrite firstn_length, ?upd_length; lia). rewrite nth_upd_neq by lia. reflexivity.
  Qed.

  Lemma rc_add_ok (r : srowc R) c x : rc_ok r ->
    exists r', rc_add R r c x = Ok r' /\ rc_ok r' /\ rc_entries r' = rc_entries r ++ [(c, x)].
  Proof.
    intros [H1 [H2 H3]]. unfold rc_add.
    set (r1 := if length (rc_cols r) <=? rc_counter r then _ else r).
    assert (G : rc_ok r1 /\ rc_counter r1 < length (rc_cols r1) /\ rc_counter r1 = rc_counter r /\
                rc_entries r1 = rc_entries r).
    { unfold r1. destruct (Nat.leb_spec (length (rc_cols r)) (rc_counter r)) as [Hle|Hlt].
      - unfold rc_ok, rc_entries. cbn [rc_cols rc_values rc_counter]. rewrite !vresize_length.
        split; [split; [lia|split; [reflexivity|lia]]|]. split; [lia|]. split; [reflexivity|].
        rewrite !firstn_vresize by lia. reflexivity.
      - split; [split; [exact H1|split; [exact H2|exact H3]]|]. auto. }
    destruct G as [[G1 [G2 G3]] [G4 [G5 G6]]]. clearbody r1.
    rewrite vset_ok by lia. cbn [bind]. rewrite vset_ok by lia. cbn [bind].
    eexists. split; [reflexivity|]. split.
    - unfold rc_ok. cbn [rc_cols rc_values rc_counter]. rewrite !upd_length. split; [lia|split; [lia|lia]].
    - unfold rc_entries at 1. cbn [rc_cols rc_values rc_counter]. rewrite !firstn_S_upd by lia.
      rewrite combine_snoc by (rewrite !firstn_length; lia). rewrite <- G6. reflexivity.
  Qed.

  Lemma rc_finalize_ok (r : srowc R) m : rc_ok r ->
    exists out r', rc_finalize R srt r m = Ok (length out, push_all m out, r') /\
      is_merge (rc_entries r) out /\ rc_ok r' /\ rc_entries r' = [].
  Proof.
    intros [H1 [H2 H3]]. unfold rc_finalize.
    destruct (Nat.eqb_spec (rc_counter r) 0) as [E0|E0].
    - exists [], r. assert (Z : rc_entries r = []) by (unfold rc_entries; rewrite E0; reflexivity).
      split; [|split; [rewrite Z; apply is_merge_nil|split; [split; [lia|split; [lia|lia]]|exact Z]]].
      unfold push_all. simpl. rewrite !app_nil_r. destruct m; reflexivity.
    - destruct (sort_small _ _ _ Hsrt (rc_cols r) (repeat 0 (rc_counter r)) (rc_counter r))
        as [cols' [ip [E [L1 [Hasc [Hip Hnth]]]]]]; try lia; [apply repeat_length|].
      rewrite E. cbn [bind].
      assert (Lip : length ip = rc_counter r).
      { apply Permutation_length in Hip. rewrite seq_length in Hip. lia. }
      assert (Hipb : forall i, i < rc_counter r -> nth i ip 0 < rc_counter r).
      { intros i Hi. assert (Hin : In (nth i ip 0) ip) by (apply nth_In; lia).
        apply (Permutation_in _ (Permutation_sym Hip)) in Hin. apply in_seq in Hin. lia. }
      assert (Ef : firstn (rc_counter r) (cols' ++ skipn (rc_counter r) (rc_cols r)) = cols').
      { rewrite firstn_app. rewrite L1, Nat.sub_diag. simpl. rewrite app_nil_r. rewrite <- L1. apply firstn_all. }
      destruct (row_merge_ok (fun _ => true) (rc_counter r) (cols' ++ skipn (rc_counter r) (rc_cols r))
                  (rc_values r) ip m) as [out [EO HO]]; try lia.
      + rewrite app_length. lia.
      + rewrite Ef. apply asc_le. exact Hasc.
      + intros i Hi. specialize (Hipb i Hi). lia.
      + rewrite EO. cbn [bind]. exists out. eexists. split; [reflexivity|]. split; [|split].
        * eapply is_merge_perm; [|exact HO]. rewrite Ef. unfold rc_entries.
          apply sorted_entries; try lia; [exact Hip|]. intros i Hi. apply Hnth. exact Hi.
        * unfold rc_ok. cbn [rc_cols rc_values rc_counter]. rewrite app_length, skipn_length.
          split; [lia|split; [lia|lia]].
        * reflexivity.
  Qed.

  Lemma mvp_loop n cols (vals y : list R) : n <= length cols -> n <= length vals ->
    (forall c, In c (firstn n cols) -> c < length y) ->
    forM n 0 (fun i sum => do v <- vget vals i ;; do c <- vget cols i ;; do yc <- vget y c ;;
                           Ok (sum + v * yc)%C) c0 =
    Ok (suml (fun e => snd e * nth (fst e) y c0)%C (combine (firstn n cols) (firstn n vals))).
  Proof.
    intros L1 L2 Hc.
    assert (E1 : combine (firstn n cols) (firstn n vals) =
                 map (fun k => (nth k cols 0, nth k vals c0)) (seq 0 n)).
    { apply (list_eq_nth _ _ (0, c0)).
      - rewrite combine_length, !firstn_length, map_length, seq_length. lia.
      - intros i Hi. rewrite combine_length, !firstn_length in Hi.
        rewrite nth_combine' by (rewrite !firstn_length; lia).
        rewrite nth_map_seq by lia. f_equal.
        + rewrite <- (firstn_skipn n cols) at 2. rewrite app_nth1 by (rewrite firstn_length; lia). reflexivity.
        + rewrite <- (firstn_skipn n vals) at 2. rewrite app_nth1 by (rewrite firstn_length; lia). reflexivity. }
    rewrite E1, suml_map. cbn [fst snd].
    rewrite (Vec_Proofs.forM_sum R _ _ (fun k => (nth k vals c0 * nth (nth k cols 0) y c0)%C)).
    - f_equal. rewrite cadd_0_l. reflexivity.
    - intros i acc Hi. rewrite (vget_ok vals c0) by lia. cbn [bind]. rewrite (vget_ok cols 0) by lia. cbn [bind].
      rewrite (vget_ok y c0); [reflexivity|]. apply Hc.
      rewrite <- (firstn_skipn n cols) at 1. rewrite app_nth1 by (rewrite firstn_length; lia).
      apply nth_In. rewrite firstn_length. lia.
  Qed.

  (** ---------------------------------------------------------------- *)
  (** SparseVector. *)
  Lemma sv_sort_ok big (s : svec R) : sv_wf s -> sv_sorted s = false -> 2 <= length (sv_indices s) ->
    exists s' out, sv_sort R srt big s = Ok s' /\
      is_merge (sv_entries s) out /\
      sv_entries s' = filter (fun e => big (snd e)) out /\
      sv_normal s' /\ sv_size s' = sv_size s.
  Proof.
    intros W Hns H2. unfold sv_sort. rewrite Hns.
    destruct (Nat.ltb_spec (length (sv_indices s)) 2); [lia|]. cbn [orb].
    destruct (sort_correct _ _ _ Hsrt (sv_indices s) (repeat 0 (length (sv_indices s))))
      as [cols' [ip [E [L1 [Hasc [Hip Hnth]]]]]]; [apply repeat_length|].
    rewrite E. cbn [bind]. set (n := length (sv_indices s)) in *.
    assert (Ln : length (sv_values s) = n) by (symmetry; exact W).
    assert (Lip : length ip = n).
    { apply Permutation_length in Hip. rewrite seq_length in Hip. lia. }
    assert (Hipb : forall i, i < n -> nth i ip 0 < n).
    { intros i Hi. assert (Hin : In (nth i ip 0) ip) by (apply nth_In; lia).
      apply (Permutation_in _ (Permutation_sym Hip)) in Hin. apply in_seq in Hin. lia. }
    rewrite Ln, Lip.
    rewrite (forM_fill (fun i => nth (nth i ip 0) (sv_values s) c0)).
    2:{ rewrite repeat_length. lia. }
    2:{ intros i u Hi _ _. rewrite (vget_ok ip 0) by lia. cbn [bind].
        rewrite (vget_ok _ c0) by (rewrite Ln; apply Hipb; exact Hi). reflexivity. }
    cbn [bind]. rewrite skipn_all2 by (rewrite repeat_length; lia). rewrite app_nil_r.
    set (vals := map (fun i => nth (nth i ip 0) (sv_values s) c0) (seq 0 n)).
    assert (Lv : length vals = n) by (unfold vals; rewrite map_length, seq_length; reflexivity).
    assert (Ev : vals = map (fun k => nth k (sv_values s) c0) ip).
    { unfold vals. rewrite <- Lip. rewrite <- (map_map (fun i => nth i ip 0) (fun k => nth k (sv_values s) c0)). rewrite map_nth_seq. reflexivity. }
    rewrite (vget_ok vals c0) by lia. cbn [bind]. rewrite (vget_ok cols' 0) by lia. cbn [bind].
    set (EE := combine cols' vals).
    assert (LE : length EE = n) by (unfold EE; rewrite combine_length; lia).
    assert (Enth : forall i, nth i EE (0, c0) = (nth i cols' 0, nth i vals c0)).
    { intros i. unfold EE. apply nth_combine'. lia. }
    assert (Efst : map fst EE = cols') by (unfold EE; apply combine_fst; lia).
    assert (HS : StronglySorted le (map fst EE)) by (rewrite Efst; apply asc_le; exact Hasc).
    rewrite L1.
    loopR (fun i (st : list R * list nat * R * nat) => let '(vs, ix, sum, prev) := st in
             exists don, merged (firstn i EE) (skipn i EE) don prev sum /\
               vs = map snd (filter (fun e => big (snd e)) don) /\
               ix = map fst (filter (fun e => big (snd e)) don)) as [[[vs ix] sum] prev] EL H'.
    - lia.
    - exists []. split; [|split; reflexivity].
      destruct EE as [|[c x] EE'] eqn:EEE; [simpl in LE; lia|].
      assert (E0 := Enth 0). simpl in E0. injection E0 as <- <-. 
      pose proof (merged_init c x EE' HS) as HM0.
      apply merged_same in HM0. simpl app in HM0. 
      change (firstn 1 ((c, x) :: EE')) with [(c, x)]. change (skipn 1 ((c, x) :: EE')) with EE'.
      replace x with (c0 + x)%C at 2 by ring. exact HM0.
    - intros i [[[vs ix] sum] prev] [Hi1 Hi] [don [HM [-> ->]]].
      rewrite (vget_ok cols' 0) by lia. cbn [bind]. rewrite (vget_ok vals c0) by lia. cbn [bind].
      assert (Efn : firstn (S i) EE = firstn i EE ++ [(nth i cols' 0, nth i vals c0)]).
      { rewrite (firstn_S_nth EE (0, c0)) by lia. rewrite Enth. reflexivity. }
      assert (Esk : skipn i EE = (nth i cols' 0, nth i vals c0) :: skipn (S i) EE).
      { rewrite (skipn_nth EE (0, c0)) by lia. rewrite Enth. reflexivity. }
      rewrite Esk in HM.
      destruct (Nat.eqb_spec (nth i cols' 0) prev) as [Eq|Ne]; cbn [negb].
      + eexists. split; [reflexivity|]. cbv beta iota. exists don. split; [|auto].
        rewrite Efn. rewrite Eq in HM |- *. apply merged_same. exact HM.
      + assert (HN := merged_next _ _ _ _ _ _ _ HM Ne). rewrite <- Efn in HN.
        destruct (big sum) eqn:Eb; (eexists; split; [reflexivity|]; cbv beta iota;
          exists (don ++ [(prev, sum)]); split; [exact HN|]);
          rewrite filter_app; simpl; rewrite Eb, !map_app; simpl; rewrite ?app_nil_r; auto.
    - rewrite EL. cbn [bind]. destruct H' as [don [HM [-> ->]]].
      rewrite firstn_all2 in HM by lia. rewrite skipn_all2 in HM by lia.
      apply merged_done in HM.
      set (out := don ++ [(prev, sum)]) in *.
      assert (EP : (if big sum
            then (map snd (filter (fun e => big (snd e)) don) ++ [sum],
                  map fst (filter (fun e => big (snd e)) don) ++ [prev])
            else (map snd (filter (fun e => big (snd e)) don), map fst (filter (fun e => big (snd e)) don)))
            = (map snd (filter (fun e => big (snd e)) out), map fst (filter (fun e => big (snd e)) out))).
      { unfold out. rewrite filter_app. simpl. destruct (big sum); simpl; rewrite !map_app; simpl;
          rewrite ?app_nil_r; reflexivity. }
      rewrite EP. eexists. exists out. split; [reflexivity|]. split; [|split; [|split]].
      + eapply is_merge_perm; [|exact HM]. unfold sv_entries, EE. rewrite Ev.
        rewrite <- (firstn_all (sv_indices s)) at 1. rewrite <- (firstn_all (sv_values s)) at 1.
        fold n. rewrite Ln. apply sorted_entries; try lia; [exact Hip|]. intros i Hi. apply Hnth. exact Hi.
      + unfold sv_entries. cbn [sv_indices sv_values]. apply combine_map_split.
      + unfold sv_normal, sv_wf. cbn [sv_indices sv_values sv_sorted]. rewrite !map_length.
        split; [reflexivity|]. split; [reflexivity|]. destruct HM as [HM _].
        clear -HM. induction out as [|[c x] out IH]; simpl; [constructor|].
        simpl in HM. inversion HM as [|? ? H1 H2]; subst. destruct (big x); simpl; [|apply IH; exact H1].
        constructor; [apply IH; exact H1|]. rewrite Forall_forall in *. intros y Hy. apply H2.
        apply in_map_iff in Hy. destruct Hy as [e [<- He]]. apply filter_In in He. apply in_map. apply He.
      + reflexivity.
  Qed.

  (** Element k after sorting. *)
  Lemma filter_merge_elem big (added out : list (nat * R)) k : is_merge added out -> big c0 = false ->
    row_elem (filter (fun e => big (snd e)) out) k =
    (if big (row_elem added k) then row_elem added k else c0 : R).
  Proof.
    intros [H1 [H2 H3]] Hb. rewrite <- H3. clear H2 H3.
    induction out as [|[c x] out IH]; simpl.
    - unfold row_elem. simpl. rewrite Hb. reflexivity.
    - simpl in H1. inversion H1 as [|? ? S1 S2]; subst. specialize (IH S1).
      destruct (Nat.eq_dec c k) as [->|Hne].
      + assert (Hnin : ~ In k (map fst out)).
        { intros Hin. rewrite Forall_forall in S2. specialize (S2 k Hin). lia. }
        assert (E0 : row_elem out k = c0) by (apply row_elem_notin; exact Hnin).
        assert (Ec : row_elem ((k, x) :: out) k = x).
        { unfold row_elem in *. simpl. rewrite Nat.eqb_refl, E0. ring. }
        rewrite Ec. rewrite E0, Hb in IH. destruct (big x) eqn:Eb; [|exact IH].
        unfold row_elem in *. simpl. rewrite Nat.eqb_refl, IH. ring.
      + assert (Ec : row_elem ((c, x) :: out) k = row_elem out k).
        { unfold row_elem. simpl. apply Nat.eqb_neq in Hne. rewrite Hne. ring. }
        rewrite Ec, <- IH. destruct (big x); [|reflexivity].
        unfold row_elem. simpl. apply Nat.eqb_neq in Hne. rewrite Hne. ring.
  Qed.

  (** scalarProduct. *)
  Lemma sorted_nth_lt (l : list nat) i j : StronglySorted lt l -> i < j -> j < length l ->
    nth i l 0 < nth j l 0.
  Proof.
    intros H; revert i j; induction H as [|a l Hl IH Ha]; intros i j Hij Hj; simpl in Hj; [lia|].
    destruct j as [|j]; [lia|]. destruct i as [|i]; simpl.
    - rewrite Forall_forall in Ha. apply Ha. apply nth_In. lia.
    - apply IH; lia.
  Qed.

  Lemma elem_nth (s : svec R) i : sv_wf s -> StronglySorted lt (sv_indices s) -> i < length (sv_indices s) ->
    sv_elem s (nth i (sv_indices s) 0) = nth i (sv_values s) c0.
  Proof.
    intros W S H. unfold sv_elem. apply row_elem_nodup.
    - unfold sv_entries. rewrite combine_fst by exact W. apply sorted_nodup. exact S.
    - unfold sv_entries. rewrite <- nth_combine' by exact W. apply nth_In. rewrite combine_length.
      unfold sv_wf in W. lia.
  Qed.

  Lemma elem_notin (s : svec R) k : sv_wf s -> ~ In k (sv_indices s) -> sv_elem s k = c0.
  Proof.
    intros W H. unfold sv_elem. apply row_elem_notin. unfold sv_entries. rewrite combine_fst by exact W. exact H.
  Qed.

  (** The inner loop from [j], when everything before [j] is below [index]. *)
  Lemma sp_inner_ok (s v : svec R) i index : sv_wf s -> sv_wf v ->
    StronglySorted lt (sv_indices v) -> i < length (sv_indices s) ->
    forall rem j sum, rem = length (sv_indices v) - j -> j <= length (sv_indices v) ->
    (forall q, q < j -> nth q (sv_indices v) 0 <= index) ->
    exists j',
      sv_sp_inner R s v i index rem j sum =
        Ok (j', (sum + (if existsb (fun q => nth q (sv_indices v) 0 =? index) (seq j rem)
                        then nth i (sv_values s) c0 * cconj (sv_elem v index) else c0))%C) /\
      j <= j' <= length (sv_indices v) /\
      (forall q, q < j' -> nth q (sv_indices v) 0 <= index).
  Proof.
    intros Ws Wv Sv Hi. induction rem as [|rem IH]; intros j sum Hrem Hj Hq.
    - exists j. split; [|split; [lia|exact Hq]]. simpl. f_equal. f_equal. ring.
    - cbn [sv_sp_inner]. assert (Hjlt : j < length (sv_indices v)) by lia.
      rewrite (vget_ok _ 0) by exact Hjlt. cbn [bind]. simpl seq. simpl existsb.
      set (vj := nth j (sv_indices v) 0) in *.
      destruct (Nat.ltb_spec vj index) as [H|H].
      + destruct (IH (S j) sum) as [j' [E [HB HQ]]]; [lia|lia| |].
        { intros q Hq'. destruct (Nat.eq_dec q j) as [->|]; [fold vj; lia|apply Hq; lia]. }
        exists j'. rewrite E. split; [|split; [lia|exact HQ]].
        destruct (Nat.eqb_spec vj index); [lia|]. reflexivity.
      + destruct (Nat.ltb_spec index vj) as [H'|H'].
        * exists j. split; [|split; [lia|exact Hq]]. f_equal. f_equal.
          destruct (Nat.eqb_spec vj index); [lia|]. cbn [orb].
          replace (existsb (fun q => nth q (sv_indices v) 0 =? index) (seq (S j) rem)) with false; [ring|].
          symmetry. apply Bool.not_true_iff_false. intros HE. apply existsb_exists in HE.
          destruct HE as [q [Hqin HE]]. apply in_seq in Hqin. apply Nat.eqb_eq in HE.
          pose proof (sorted_nth_lt (sv_indices v) j q Sv ltac:(lia) ltac:(lia)). fold vj in H0. lia.
        * assert (Ej : vj = index) by lia.
          rewrite (vget_ok _ c0) by (unfold sv_wf in Ws; lia). cbn [bind].
          rewrite (vget_ok _ c0) by (unfold sv_wf in Wv; lia). cbn [bind].
          edestruct (IH (S j)) as [j' [E [HB HQ]]]; [lia|lia| |].
          { intros q Hq'. destruct (Nat.eq_dec q j) as [->|]; [fold vj; lia|apply Hq; lia]. }
          exists j'. rewrite E. split; [|split; [lia|exact HQ]]. f_equal. f_equal.
          rewrite Ej, Nat.eqb_refl. cbn [orb].
          replace (existsb (fun q => nth q (sv_indices v) 0 =? index) (seq (S j) rem)) with false.
          2:{ symmetry. apply Bool.not_true_iff_false. intros HE. apply existsb_exists in HE.
              destruct HE as [q [Hqin HE]]. apply in_seq in Hqin. apply Nat.eqb_eq in HE.
              pose proof (sorted_nth_lt (sv_indices v) j q Sv ltac:(lia) ltac:(lia)) as HH. fold vj in HH. lia. }
          rewrite <- Ej. unfold vj. rewrite (elem_nth v j Wv Sv Hjlt). ring.
  Qed.

  Lemma sv_scalarProduct_ok (s v : svec R) : sv_wf s -> sv_wf v ->
    (length (sv_indices s) = 1 \/ sv_sorted s = true) -> (length (sv_indices v) = 1 \/ sv_sorted v = true) ->
    StronglySorted lt (sv_indices s) -> StronglySorted lt (sv_indices v) ->
    sv_scalarProduct R s v =
      Ok (suml (fun k => sv_elem s k * cconj (sv_elem v k))%C (sv_indices s)).
  Proof.
    intros Ws Wv Os Ov Ss Sv. unfold sv_scalarProduct.
    replace ((length (sv_indices s) =? 1) || sv_sorted s) with true
      by (destruct Os as [->| ->]; [reflexivity|symmetry; apply orb_true_r]).
    replace ((length (sv_indices v) =? 1) || sv_sorted v) with true
      by (destruct Ov as [->| ->]; [reflexivity|symmetry; apply orb_true_r]).
    loopM (fun i (st : nat * R) => let '(j, sum) := st in
             j <= length (sv_indices v) /\
             (forall q, q < j -> i < length (sv_indices s) -> nth q (sv_indices v) 0 < nth i (sv_indices s) 0) /\
             sum = suml (fun k => sv_elem s k * cconj (sv_elem v k))%C (firstn i (sv_indices s)))
      as [j sum] E H.
    - split; [lia|]. split; [intros; lia|reflexivity].
    - intros i [j sum] [_ Hi] [Hj [Hq ->]]. simpl in Hi.
      rewrite (vget_ok _ 0) by exact Hi. cbn [bind].
      edestruct (sp_inner_ok s v i (nth i (sv_indices s) 0) Ws Wv Sv Hi (length (sv_indices v) - j) j) as [j' [E' [HB HQ]]];
        [reflexivity|exact Hj| |].
      { intros q Hq'. specialize (Hq q Hq' Hi). lia. }
      rewrite E'. cbn [bind]. eexists. split; [reflexivity|]. cbv beta iota. split; [|split].
      + destruct (0 <? j'); lia.
      + intros q Hq' HSi. assert (Hlt := sorted_nth_lt (sv_indices s) i (S i) Ss ltac:(lia) HSi).
        assert (q < j') by (destruct (Nat.ltb_spec 0 j'); lia). specialize (HQ q H). lia.
      + rewrite (firstn_S_nth (sv_indices s) 0) by exact Hi. rewrite suml_app. f_equal.
        unfold suml at 1. cbn [fold_right]. 
        rewrite <- (elem_nth s i Ws Ss Hi) at 1.
        set (ix := nth i (sv_indices s) 0) in *.
        destruct (existsb (fun q => nth q (sv_indices v) 0 =? ix) (seq j (length (sv_indices v) - j))) eqn:EX.
        * simpl. ring.
        * replace (sv_elem v ix) with (@c0 R); [simpl; rewrite cconj_0; ring|].
          symmetry. apply elem_notin; [exact Wv|]. intros Hin. apply (In_nth _ _ 0) in Hin.
          destruct Hin as [q [Hq' Eq]].
          assert (Hqj : j <= q) by (destruct (Nat.lt_ge_cases q j) as [Hl|]; [specialize (Hq q Hl Hi); lia|lia]).
          apply Bool.not_true_iff_false in EX. apply EX. apply existsb_exists. exists q.
          split; [apply in_seq; lia|]. apply Nat.eqb_eq. exact Eq.
    - rewrite E. cbn [bind]. destruct H as [_ [_ ->]]. simpl. rewrite firstn_all. reflexivity.
  Qed.

  (** operator==. *)
  Lemma sv_eqb_ok small (s v : svec R) : sv_wf s -> sv_wf v ->
    sv_sorted s = true -> sv_sorted v = true -> length (sv_indices v) <= length (sv_indices s) ->
    exists b, sv_eqb R small s v = Ok b /\
      (b = true <-> forall i, i < length (sv_indices v) ->
         nth i (sv_indices s) 0 = nth i (sv_indices v) 0 /\
         small (nth i (sv_values s) c0 - nth i (sv_values v) c0)%C = true).
  Proof.
    intros Ws Wv Os Ov HL. unfold sv_eqb. rewrite Os, Ov. unfold sv_wf in *.
    loopM (fun n (b : bool) => b = true <-> forall i, i < n ->
             nth i (sv_indices s) 0 = nth i (sv_indices v) 0 /\
             small (nth i (sv_values s) c0 - nth i (sv_values v) c0)%C = true) as b E H.
    - split; [intros; lia|reflexivity].
    - intros i b [_ Hi] H. simpl in Hi. destruct b; cbn [negb].
      + rewrite (vget_ok _ 0) by lia. cbn [bind]. rewrite (vget_ok _ 0) by lia. cbn [bind].
        destruct (Nat.eqb_spec (nth i (sv_indices s) 0) (nth i (sv_indices v) 0)) as [Eq|Ne]; cbn [negb].
        * rewrite (vget_ok _ c0) by lia. cbn [bind]. rewrite (vget_ok _ c0) by lia. cbn [bind].
          eexists. split; [reflexivity|]. split.
          -- intros Hsm q Hq. destruct (Nat.eq_dec q i) as [->|]; [auto|]. apply H; [reflexivity|lia].
          -- intros HA. apply (HA i). lia.
        * eexists. split; [reflexivity|]. split; [discriminate|]. intros HA. exfalso. apply Ne. apply (HA i). lia.
      + eexists. split; [reflexivity|]. split; [discriminate|]. intros HA. apply H. intros q Hq. apply HA. lia.
    - exists b. split; [exact E|]. simpl in H. rewrite Wv. exact H.
  Qed.

  (** ---------------------------------------------------------------- *)
  (** Building. *)
  Lemma sv_of_dense_ok (v : list R) : exists s, sv_of_dense R v = Ok s /\
    sv_wf s /\ sv_size s = length v /\ StronglySorted lt (sv_indices s) /\
    Forall (fun x => x <> c0) (sv_values s) /\
    (forall k, sv_elem s k = nth k v c0).
  Proof.
    unfold sv_of_dense.
    loopM (fun i (s : svec R) => sv_wf s /\ sv_size s = length v /\
             StronglySorted lt (sv_indices s) /\ Forall (fun k => k < i) (sv_indices s) /\
             Forall (fun x => x <> c0) (sv_values s) /\
             (forall k, sv_elem s k = if k <? i then nth k v c0 else c0)) as s E H.
    - cbn [sv_indices sv_values sv_size]. split; [reflexivity|]. split; [reflexivity|].
      split; [constructor|]. split; [constructor|]. split; [constructor|]. intros k. reflexivity.
    - intros i s [_ Hi] [H1 [H2 [H3 [H4 [H5 H6]]]]]. simpl in Hi.
      rewrite (vget_ok v c0) by exact Hi. cbn [bind].
      assert (H6' : forall k, k <> i -> (if k <? i then nth k v c0 else c0) =
                                        (if k <? S i then nth k v c0 else c0 : R)).
      { intros k Hk. destruct (Nat.ltb_spec k i), (Nat.ltb_spec k (S i)); try lia; reflexivity. }
      destruct (ceqb_spec R (nth i v c0) c0) as [Ez|Enz]; cbn [negb].
      + exists s. split; [reflexivity|]. split; [exact H1|]. split; [exact H2|]. split; [exact H3|]. split.
        * eapply Forall_impl; [|exact H4]. intros; simpl in *; lia.
        * split; [exact H5|]. intros k. rewrite H6. destruct (Nat.eq_dec k i) as [->|Hk]; [|apply H6'; exact Hk].
          rewrite Nat.ltb_irrefl. destruct (Nat.ltb_spec i (S i)); [|lia]. auto.
      + eexists. split; [reflexivity|]. unfold sv_wf, sv_elem, sv_entries in *.
        cbn [sv_indices sv_values sv_size]. split; [rewrite !app_length; simpl; lia|]. split; [exact H2|].
        split; [|split; [|split]].
        * clear -H3 H4. induction (sv_indices s) as [|a l IH]; simpl; [repeat constructor|].
          inversion H3; inversion H4; subst. constructor; [apply IH; assumption|].
          apply Forall_app. split; [assumption|]. constructor; [lia|constructor].
        * apply Forall_app. split; [eapply Forall_impl; [|exact H4]; intros; simpl in *; lia|]. constructor; [lia|constructor].
        * apply Forall_app. split; [exact H5|]. constructor; [exact Enz|constructor].
        * intros k. rewrite combine_snoc by exact H1. rewrite row_elem_app, H6.
          unfold row_elem. simpl. destruct (Nat.eq_dec k i) as [->|Hk].
          -- rewrite Nat.ltb_irrefl, Nat.eqb_refl. destruct (Nat.ltb_spec i (S i)); [ring|lia].
          -- rewrite <- (H6' k Hk). destruct (Nat.eqb_spec i k); [congruence|]. ring.
    - exists s. split; [exact E|]. destruct H as [H1 [H2 [H3 [H4 [H5 H6]]]]]. split; [exact H1|].
      split; [exact H2|]. split; [exact H3|]. split; [exact H5|]. intros k. rewrite H6. simpl.
      destruct (Nat.ltb_spec k (length v)); [reflexivity|]. symmetry. apply nth_overflow. lia.
  Qed.

  Lemma sv_fromChunk_ok (s : svec R) v offset total : exists s', sv_fromChunk R s v offset total = Ok s' /\
    sv_wf s' /\ sv_size s' = total /\ sv_entries s' = combine (seq offset (length v)) v.
  Proof.
    unfold sv_fromChunk.
    loopM (fun i (s' : svec R) => sv_size s' = total /\ sv_indices s' = seq offset i /\
             sv_values s' = firstn i v) as s' E H.
    - split; [reflexivity|]. split; reflexivity.
    - intros i s' [_ Hi] [H1 [H2 H3]]. simpl in Hi. rewrite (vget_ok v c0) by exact Hi. cbn [bind].
      eexists. split; [reflexivity|]. cbn [sv_size sv_indices sv_values]. split; [exact H1|]. split.
      + rewrite H2, seq_S. f_equal. f_equal. lia.
      + rewrite H3. rewrite (firstn_S_nth v c0) by exact Hi. reflexivity.
    - exists s'. split; [exact E|]. destruct H as [H1 [H2 H3]]. simpl in H2, H3. rewrite firstn_all in H3.
      split; [unfold sv_wf; rewrite H2, H3, seq_length; reflexivity|]. split; [exact H1|].
      unfold sv_entries. rewrite H2, H3. reflexivity.
  Qed.

  Lemma sv_add_ok (s : svec R) k x : sv_wf s ->
    sv_wf (snd (sv_add R s k x)) /\ sv_sorted (snd (sv_add R s k x)) = false /\
    sv_size (snd (sv_add R s k x)) = sv_size s /\
    fst (sv_add R s k x) = length (sv_indices s) /\
    sv_entries (snd (sv_add R s k x)) = sv_entries s ++ [(k, x)].
  Proof.
    intros W. unfold sv_add, sv_wf, sv_entries in *. cbn [fst snd sv_indices sv_values sv_sorted sv_size].
    split; [rewrite !app_length; simpl; lia|]. split; [reflexivity|]. split; [reflexivity|].
    split; [rewrite app_length; simpl; lia|]. apply combine_snoc. exact W.
  Qed.

  Lemma sv_scale_ok (s : svec R) x : sv_wf s ->
    exists s', sv_scale R s x = Ok s' /\ sv_wf s' /\ sv_indices s' = sv_indices s /\
      sv_sorted s' = sv_sorted s /\ sv_size s' = sv_size s /\
      forall k, sv_elem s' k = (sv_elem s k * x)%C.
  Proof.
    intros W. unfold sv_scale.
    loopM (fun i vs => length vs = length (sv_values s) /\
             forall q, q < length (sv_values s) -> nth q vs c0 =
               if q <? i then (nth q (sv_values s) c0 * x)%C else nth q (sv_values s) c0) as vs E H.
    - split; [reflexivity|]. intros; reflexivity.
    - intros i vs [_ Hi] [H1 H2]. simpl in Hi. rewrite (vget_ok vs c0) by lia. cbn [bind].
      rewrite vset_ok by lia. eexists. split; [reflexivity|]. split; [rewrite upd_length; exact H1|].
      intros q Hq. destruct (Nat.eq_dec q i) as [->|Hne].
      + rewrite nth_upd_eq by lia. rewrite H2 by lia. rewrite Nat.ltb_irrefl.
        destruct (Nat.ltb_spec i (S i)); [reflexivity|lia].
      + rewrite nth_upd_neq by lia. rewrite H2 by lia.
        destruct (Nat.ltb_spec q i), (Nat.ltb_spec q (S i)); try lia; reflexivity.
    - rewrite E. cbn [bind]. destruct H as [H1 H2]. eexists. split; [reflexivity|].
      unfold sv_wf, sv_elem, sv_entries in *. cbn [sv_indices sv_values sv_sorted sv_size].
      split; [lia|]. split; [reflexivity|]. split; [reflexivity|]. split; [reflexivity|].
      assert (Ev : vs = map (fun y => y * x)%C (sv_values s)).
      { apply (list_eq_nth _ _ c0); [rewrite map_length; exact H1|]. intros q Hq. rewrite H2 by lia. simpl.
        destruct (Nat.ltb_spec q (length (sv_values s))); [|lia].
        rewrite (nth_indep (map (fun y => y * x)%C (sv_values s)) c0 ((fun y => y * x)%C c0)) by (rewrite map_length; lia).
        rewrite (map_nth (fun y => y * x)%C). reflexivity. }
      rewrite Ev. intros k. clear -W. revert W. generalize (sv_values s). 
      induction (sv_indices s) as [|a l IH]; intros [|y v] HL; simpl in *; try lia.
      + unfold row_elem. simpl. ring.
      + unfold row_elem in *. simpl. rewrite IH by lia. destruct (a =? k); ring.
  Qed.

  Lemma sv_minus_ok (s v : svec R) : sv_wf s -> sv_wf v ->
    exists s', sv_minus R s v = Ok s' /\ sv_wf s' /\ sv_sorted s' = false /\ sv_size s' = sv_size s /\
      forall k, sv_elem s' k = (sv_elem s k - sv_elem v k)%C.
  Proof.
    intros Ws Wv. unfold sv_minus, sv_wf in *.
    loopM (fun i (t : svec R) => sv_size t = sv_size s /\
             sv_indices t = sv_indices s ++ firstn i (sv_indices v) /\
             sv_values t = sv_values s ++ map copp (firstn i (sv_values v))) as t E H.
    - simpl. rewrite !app_nil_r. auto.
    - intros i t [_ Hi] [H1 [H2 H3]]. simpl in Hi. rewrite (vget_ok _ c0) by exact Hi. cbn [bind].
      rewrite (vget_ok _ 0) by lia. cbn [bind]. eexists. split; [reflexivity|].
      cbn [sv_size sv_indices sv_values]. split; [exact H1|]. rewrite H2, H3.
      rewrite (firstn_S_nth (sv_indices v) 0), (firstn_S_nth (sv_values v) c0) by lia.
      rewrite map_app, !app_assoc. auto.
    - rewrite E. cbn [bind]. destruct H as [H1 [H2 H3]]. simpl in H2, H3.
      rewrite firstn_all in H3. rewrite firstn_all2 in H2 by lia.
      eexists. split; [reflexivity|]. cbn [sv_size sv_indices sv_values sv_sorted].
      split; [rewrite H2, H3, !app_length, map_length; lia|]. split; [reflexivity|]. split; [exact H1|].
      intros k. unfold sv_elem, sv_entries. cbn [sv_indices sv_values]. rewrite H2, H3.
      rewrite combine_app' by exact Ws. rewrite row_elem_app.
      assert (G : row_elem (combine (sv_indices v) (map copp (sv_values v))) k =
                  (- row_elem (combine (sv_indices v) (sv_values v)) k)%C).
      { clear -Wv. revert Wv. generalize (sv_values v). induction (sv_indices v) as [|a l IH]; intros [|y u] HL;
          simpl in *; try lia.
        - unfold row_elem. simpl. ring.
        - unfold row_elem in *. simpl. rewrite IH by lia. destruct (a =? k); ring. }
      rewrite G. ring.
  Qed.

  (** toChunk. *)
  Lemma scatter_ok (idx : list nat) (vals d : list R) i0 : length idx = length vals -> NoDup idx ->
    Forall (fun k => i0 <= k < i0 + length d) idx ->
    exists d', forM (length idx) 0 (fun i dest =>
        do ix <- vget idx i ;; guard (i0 <=? ix) ;; do x <- vget vals i ;; vset dest (ix - i0) x) d = Ok d' /\
      length d' = length d /\
      forall j, j < length d -> nth j d' c0 =
        if in_dec Nat.eq_dec (i0 + j) idx then row_elem (combine idx vals) (i0 + j) else nth j d c0.
  Proof.
    intros HL HN HF.
    loopM (fun n d' => length d' = length d /\ forall j, j < length d -> nth j d' c0 =
             if in_dec Nat.eq_dec (i0 + j) (firstn n idx) then row_elem (combine idx vals) (i0 + j)
             else nth j d c0) as d' E H.
    - split; [reflexivity|]. intros j Hj. simpl. reflexivity.
    - intros i d' [_ Hi] [H1 H2]. simpl in Hi. rewrite (vget_ok idx 0) by exact Hi. cbn [bind].
      assert (Hin : In (nth i idx 0) idx) by (apply nth_In; exact Hi).
      rewrite Forall_forall in HF. pose proof (HF _ Hin) as HB.
      destruct (Nat.leb_spec i0 (nth i idx 0)); [|lia].
      rewrite (vget_ok vals c0) by lia. cbn [bind]. rewrite vset_ok by lia. eexists. split; [reflexivity|].
      split; [rewrite upd_length; exact H1|]. intros j Hj.
      rewrite (firstn_S_nth idx 0) by exact Hi.
      assert (Helem : row_elem (combine idx vals) (nth i idx 0) = nth i vals c0).
      { apply row_elem_nodup; [rewrite combine_fst by exact HL; exact HN|].
        rewrite <- nth_combine' by exact HL. apply nth_In. rewrite combine_length. lia. }
      destruct (Nat.eq_dec j (nth i idx 0 - i0)) as [->|Hne].
      + rewrite nth_upd_eq by lia. replace (i0 + (nth i idx 0 - i0)) with (nth i idx 0) by lia.
        destruct (in_dec Nat.eq_dec (nth i idx 0) (firstn i idx ++ [nth i idx 0])) as [_|Hn]; [auto|].
        exfalso. apply Hn. apply in_app_iff. right. left. reflexivity.
      + rewrite nth_upd_neq by lia. rewrite H2 by exact Hj.
        destruct (in_dec Nat.eq_dec (i0 + j) (firstn i idx)) as [Hy|Hn],
                 (in_dec Nat.eq_dec (i0 + j) (firstn i idx ++ [nth i idx 0])) as [Hy'|Hn']; try reflexivity.
        * exfalso. apply Hn'. apply in_app_iff. left. exact Hy.
        * exfalso. apply in_app_iff in Hy'. destruct Hy' as [Hy'|[Hy'|[]]]; [contradiction|lia].
    - exists d'. split; [exact E|]. simpl in H. rewrite firstn_all in H. exact H.
  Qed.

  (** Partitions. *)
  Lemma part_loop_spec test parts i r :
    exists k, k <= length parts /\ (forall q, q < k -> test (nth q parts 0) = true) /\
      (k < length parts -> test (nth k parts 0) = false) /\
      sv_part_loop test parts i r = if k =? 0 then r else i + k - 1.
  Proof.
    revert i r. induction parts as [|p parts IH]; intros i r; simpl.
    - exists 0. split; [lia|]. split; [intros; lia|]. split; [intros; lia|reflexivity].
    - destruct (test p) eqn:Et.
      + destruct (IH (S i) i) as [k [H1 [H2 [H3 H4]]]]. exists (S k). split; [lia|]. split; [|split].
        * intros [|q] Hq; simpl; [exact Et|apply H2; lia].
        * intros Hk. simpl. apply H3. lia.
        * rewrite H4. destruct (Nat.eqb_spec k 0) as [->|Hk]; simpl; lia.
      + exists 0. split; [lia|]. split; [intros; lia|]. split; [intros; exact Et|reflexivity].
  Qed.

  Lemma fold_min_le l a : fold_left Nat.min l a <= a /\ (forall x, In x l -> fold_left Nat.min l a <= x) /\
    In (fold_left Nat.min l a) (a :: l).
  Proof.
    revert a. induction l as [|b l IH]; intros a; simpl; [split; [lia|split; [tauto|left; reflexivity]]|].
    destruct (IH (Nat.min a b)) as [H1 [H2 H3]]. split; [lia|]. split.
    - intros x [<-|Hx]; [lia|apply H2; exact Hx].
    - simpl in H3. destruct H3 as [H3|H3]; [|right; right; exact H3].
      rewrite <- H3. destruct (Nat.min_dec a b) as [->| ->]; auto.
  Qed.

  Lemma fold_max_le l a : a <= fold_left Nat.max l a /\ (forall x, In x l -> x <= fold_left Nat.max l a) /\
    In (fold_left Nat.max l a) (a :: l).
  Proof.
    revert a. induction l as [|b l IH]; intros a; simpl; [split; [lia|split; [tauto|left; reflexivity]]|].
    destruct (IH (Nat.max a b)) as [H1 [H2 H3]]. split; [lia|]. split.
    - intros x [<-|Hx]; [lia|apply H2; exact Hx].
    - simpl in H3. destruct H3 as [H3|H3]; [|right; right; exact H3].
      rewrite <- H3. destruct (Nat.max_dec a b) as [->| ->]; auto.
  Qed.

  Lemma findFirstLast_ok (s : svec R) : sv_indices s <> [] ->
    exists a b, sv_findFirstLast R s = Ok (a, b) /\ In a (sv_indices s) /\ In b (sv_indices s) /\
      forall k, In k (sv_indices s) -> a <= k <= b.
  Proof.
    intros H. unfold sv_findFirstLast. destruct (sv_indices s) as [|x l]; [congruence|].
    destruct (fold_min_le l x) as [A1 [A2 A3]], (fold_max_le l x) as [B1 [B2 B3]].
    eexists _, _. split; [reflexivity|]. split; [exact A3|]. split; [exact B3|].
    intros k [<-|Hk]; [auto|]. specialize (A2 k Hk). specialize (B2 k Hk). auto.
  Qed.

  (** Offsets strictly increasing from 0. *)
  Lemma part_loop_in parts (test : nat -> bool) p i r : StronglySorted lt parts ->
    (forall x y, x <= y -> test y = true -> test x = true) ->
    p < length parts -> test (nth p parts 0) = true ->
    (S p < length parts -> test (nth (S p) parts 0) = false) ->
    sv_part_loop test parts i r = i + p.
  Proof.
    intros Hs Hm Hp Ht Hf. destruct (part_loop_spec test parts i r) as [k [H1 [H2 [H3 H4]]]].
    assert (k = S p).
    { destruct (Nat.lt_trichotomy k (S p)) as [Hlt|[->|Hgt]]; [|reflexivity|].
      - exfalso. assert (Hk : k < length parts) by lia. specialize (H3 Hk).
        assert (nth k parts 0 <= nth p parts 0).
        { destruct (Nat.eq_dec k p) as [->|]; [lia|]. apply Nat.lt_le_incl. apply sorted_nth_lt; [exact Hs|lia|lia]. }
        rewrite (Hm _ _ H Ht) in H3. discriminate.
      - exfalso. assert (Hk : S p < length parts) by lia. specialize (Hf Hk). rewrite (H2 (S p)) in Hf by lia. discriminate. }
    subst k. rewrite H4. simpl. lia.
  Qed.
End SparseProofs.
