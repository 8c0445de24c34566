(** When the Lanczos decomposition stops. *)
From Coq Require Import Reals Lra.
From Verif Require Import Prelude Ring Cplx Tri_Model Tri_Proofs Lanczos_Model Lanczos_Spec Lanczos_Proofs.
Local Open Scope nat_scope.

Section Stop.
  Variable rows : nat.
  Variable mvp : vector -> vector -> vector.
  Variable stedc : nat -> list R -> list R -> option (list R).
  Hypothesis Hst : of_block stedc.
  Variable tolerance : R.
  Hypothesis Htol : (0 < tolerance)%R.
  Variable minSteps ex : nat.
  Variable isReortho : bool.

  Notation same a b a' b' j := ((forall i, i < j -> nth i a 0%R = nth i a' 0%R) /\ (forall i, i <= j -> nth i b 0%R = nth i b' 0%R)).
  Lemma settled_same a b a' b' s j : same a b a' b' j -> s <= j -> settled stedc tolerance ex a b s -> settled stedc tolerance ex a' b' s.
  Proof.
    intros [Ha Hb] Hs (ev & ev' & E1 & E2 & H). exists ev, ev'. destruct Hst as [_ L].
    rewrite (L s a' b' a b) by (intros; symmetry; apply Ha || apply Hb; lia). split; [exact E1|]. split; [|exact H].
    destruct (s =? 2); [exact E2|]. rewrite (L (s - 1) a' b' a b) by (intros; symmetry; apply Ha || apply Hb; lia). exact E2.
  Qed.
  Lemma same_sym a b a' b' j : same a b a' b' j -> same a' b' a b j.
  Proof. intros [H1 H2]. split; intros; symmetry; auto. Qed.

  Lemma oneStep_shape m data V0 V1 a b j o a' b' : oneStep rows mvp isReortho m data V0 V1 a b j = Ok (o, a', b') ->
    length a' = length a /\ length b' = length b /\ (forall i, i <> j -> nth i a' 0%R = nth i a 0%R) /\ (forall i, i <> j + 1 -> nth i b' 0%R = nth i b 0%R).
  Proof.
    unfold oneStep. cbv zeta. intros E. apply bind_ok in E. destruct E as (a1 & Ea & E). apply bind_ok in E. destruct E as (ai & _ & E).
    apply bind_ok in E. destruct E as (bi & _ & E). apply bind_ok in E. destruct E as (b1 & Eb & E). apply bind_ok in E. destruct E as (o1 & _ & E).
    injection E as _ <- <-. unfold vset in Ea. destruct (j <? length a); [|discriminate]. injection Ea as <-. rewrite upd_length.
    assert (Xb : length b1 = length b /\ forall i, i <> j + 1 -> nth i b1 0%R = nth i b 0%R).
    { destruct (j + 1 <? _); [|injection Eb as <-; auto]. unfold vset in Eb. destruct (j + 1 <? length b); [|discriminate]. injection Eb as <-.
      rewrite upd_length. split; [auto|]. intros i Hi. apply nth_upd_neq. lia. }
    destruct Xb. repeat split; auto. intros i Hi. apply nth_upd_neq. lia.
  Qed.

  Lemma deltas_spec te eold o d : length te = length eold -> deltas ex te eold = Ok (o, d) ->
    length o = length eold /\ (forall ii, ii < ex -> ii < length te -> nth ii o 0%R = nth ii te 0%R) /\
    ((d < tolerance)%R <-> forall ii, ii < ex -> ii < length te -> (Rabs (nth ii te 0 - nth ii eold 0) < tolerance)%R).
  Proof.
    intros L E.
    assert (X : exists s, deltas ex te eold = Ok s /\
      (length (fst s) = length eold /\ (forall ii, nth ii (fst s) 0%R = if ii <? Nat.min ex (length te) then nth ii te 0%R else nth ii eold 0%R) /\
       ((snd s < tolerance)%R <-> forall ii, ii < Nat.min ex (length te) -> (Rabs (nth ii te 0 - nth ii eold 0) < tolerance)%R))).
    { unfold deltas. loopM (fun i (s : list R * R) => length (fst s) = length eold /\ (forall ii, nth ii (fst s) 0%R = if ii <? i then nth ii te 0%R else nth ii eold 0%R) /\
       ((snd s < tolerance)%R <-> forall ii, ii < i -> (Rabs (nth ii te 0 - nth ii eold 0) < tolerance)%R)) as s Es Hs.
      - cbn [fst snd]. repeat split; auto. intros; lia.
      - intros i [o1 d1] Hi (H1 & H2 & H3). cbn [fst snd] in *.
        rewrite (@vget_ok _ te i 0%R) by lia. cbn [bind]. rewrite (@vget_ok _ o1 i 0%R) by lia. cbn [bind]. cbv zeta.
        rewrite vset_ok by lia. cbn [bind]. eexists. split; [reflexivity|]. cbn [fst snd]. rewrite upd_length. split; [auto|]. split.
        + intros ii. rewrite nth_upd. destruct (Nat.eqb_spec ii i) as [->|N].
          * destruct (Nat.ltb_spec i (length o1)); [|lia]. destruct (Nat.ltb_spec i (S i)); [|lia]. reflexivity.
          * cbn [andb]. rewrite H2. destruct (Nat.ltb_spec ii i), (Nat.ltb_spec ii (S i)); auto; lia.
        + assert (Eo : nth i o1 0%R = nth i eold 0%R) by (rewrite H2; destruct (Nat.ltb_spec i i); [lia|auto]). rewrite Eo.
          destruct (Rlt_dec d1 _) as [Hd|Hd]; split; intros H.
          * intros ii Hii. destruct (Nat.eq_dec ii i) as [->|]; [auto|]. apply H3; [lra|lia].
          * apply H. lia.
          * intros ii Hii. destruct (Nat.eq_dec ii i) as [->|]; [lra|]. apply H3; [lra|lia].
          * apply H3. intros ii Hii. apply H. lia.
      - exists s. split; [exact Es|exact Hs]. }
    destruct X as ([o1 d1] & E1 & H1 & H2 & H3). rewrite E1 in E. injection E as <- <-. cbn [fst snd] in *. split; [auto|]. split.
    - intros ii Hi Hl. rewrite H2. destruct (Nat.ltb_spec ii (Nat.min ex (length te))); [auto|lia].
    - rewrite H3. split; intros H ii; intros; apply H; lia.
  Qed.

  Lemma loop_stop n : forall m j data V0 V1 a b eold flag evp j' data' a' b', n + j = m -> 1 <= j < m ->
    length data = m -> length a = m -> length b = m -> length eold = m ->
    (forall i, j <= i -> nth i a 0%R = 0%R) ->
    (if j =? 1 then evp = [] else stedc j a b = Some evp) -> (forall ii, ii < ex -> ii < m -> nth ii eold 0%R = nth ii evp 0%R) ->
    (flag = true <-> exists s, 2 <= s <= j /\ settled stedc tolerance ex a b s) ->
    lanczos_loop rows mvp stedc tolerance minSteps ex isReortho m n j data V0 V1 a b eold flag = Ok (j', data', a', b') ->
    j <= j' < m /\ length a' = m /\ length b' = m /\ same a b a' b' j /\
    (j' = m - 1 \/ exists s, 2 <= s <= j' + 1 /\ settled stedc tolerance ex a' b' s) /\
    (forall k s, j + 1 <= k <= j' -> rows <= 4 \/ minSteps <= k - 1 -> 2 <= s <= k -> ~ settled stedc tolerance ex a' b' s).
  Proof.
    induction n as [|n IH]; intros m j data V0 V1 a b eold flag evp j' data' a' b' Hn Hj Ld La Lb Le Ha0 Hev He Hf E; [lia|].
    cbn [lanczos_loop] in E. apply bind_ok in E. destruct E as ([[o a1] b1] & Eo & E).
    apply oneStep_shape in Eo. destruct Eo as (La1 & Lb1 & Na1 & Nb1).
    apply bind_ok in E. destruct E as (te & Et & E). unfold tri_diag in Et. destruct (stedc (j + 1) a1 b1) as [ev|] eqn:Es; [|discriminate].
    destruct Hst as [Hlen Hblock]. pose proof (Hlen _ _ _ _ Es) as Lev.
    assert (Lt : length te = m) by (injection Et as <-; rewrite map_length, seq_length; lia).
    assert (Ht : forall ii, ii < m -> nth ii te 0%R = nth ii ev 0%R).
    { intros ii Hi. injection Et as <-. rewrite nth_indep with (d' := (fun i => if i <? j + 1 then nth i ev 0%R else nth i a1 0%R) 0) by (rewrite map_length, seq_length; lia).
      rewrite map_nth with (f := fun i => if i <? j + 1 then nth i ev 0%R else nth i a1 0%R), seq_nth by lia. cbn [Nat.add].
      destruct (Nat.ltb_spec ii (j + 1)); [auto|]. rewrite Na1, Ha0 by lia. rewrite nth_overflow by lia. reflexivity. }
    apply bind_ok in E. destruct E as ([e2 d] & Ed & E). destruct (deltas_spec te eold e2 d ltac:(lia) Ed) as (Le2 & He2 & Hd).
    assert (S0 : same a b a1 b1 j) by (split; intros i Hi; symmetry; [apply Na1|apply Nb1]; lia).
    assert (Hd' : (d < tolerance)%R <-> settled stedc tolerance ex a1 b1 (j + 1)).
    { rewrite Hd. split.
      - intros H. exists ev, evp. split; [exact Es|]. split.
        + destruct (Nat.eqb_spec (j + 1) 2), (Nat.eqb_spec j 1); try lia; auto. replace (j + 1 - 1) with j by lia.
          rewrite (Hblock j a1 b1 a b); [exact Hev| |]; intros i Hi; [apply Na1|apply Nb1]; lia.
        + intros i Hi. assert (Lp : length evp <= j) by (destruct (Nat.eqb_spec j 1); [subst evp; cbn; lia|rewrite (Hlen _ _ _ _ Hev); lia]).
          destruct (le_lt_dec m i).
          * rewrite !nth_overflow by lia. rewrite Rminus_0_r, Rabs_R0. exact Htol.
          * rewrite <- Ht, <- He by lia. apply H; lia.
      - intros (ev1 & evp1 & E1 & E2 & H) ii Hi Hl. rewrite Es in E1. injection E1 as <-. rewrite Ht, He by lia.
        replace evp with evp1; [auto|]. destruct (Nat.eqb_spec (j + 1) 2), (Nat.eqb_spec j 1); try lia; [congruence|]. replace (j + 1 - 1) with j in E2 by lia.
        rewrite (Hblock j a1 b1 a b) in E2; [congruence| |]; intros i Hi'; [apply Na1|apply Nb1]; lia. }
    set (f1 := if Rlt_dec d tolerance then true else flag) in *.
    assert (Hf1 : f1 = true <-> exists s, 2 <= s <= j + 1 /\ settled stedc tolerance ex a1 b1 s).
    { unfold f1. destruct (Rlt_dec d tolerance) as [Hlt|Hge].
      - split; [|auto]. intros _. exists (j + 1). split; [lia|]. apply Hd'. auto.
      - rewrite Hf. split; intros (s & Hs & H).
        + exists s. split; [lia|]. apply (settled_same a b a1 b1 s j); auto. lia.
        + destruct (Nat.eq_dec s (j + 1)) as [->|]; [exfalso; apply Hge, Hd'; auto|]. exists s. split; [lia|].
          apply (settled_same a1 b1 a b s j); [apply same_sym; auto|lia|auto]. }
    set (f2 := if j =? m - 1 then true else f1) in *.
    assert (Hbreak : f2 = true -> Ok (j, data, a1, b1) = Ok (j', data', a', b') -> 
      j <= j' < m /\ length a' = m /\ length b' = m /\ same a b a' b' j /\
      (j' = m - 1 \/ exists s, 2 <= s <= j' + 1 /\ settled stedc tolerance ex a' b' s) /\
      (forall k s, j + 1 <= k <= j' -> rows <= 4 \/ minSteps <= k - 1 -> 2 <= s <= k -> ~ settled stedc tolerance ex a' b' s)).
    { intros Hf2 E'. injection E' as <- <- <- <-. split; [lia|]. split; [lia|]. split; [lia|]. split; [exact S0|]. split; [|intros; lia].
      unfold f2 in Hf2. destruct (Nat.eqb_spec j (m - 1)); [left; auto|right]. apply Hf1. exact Hf2. }
    destruct (f2 && (rows <=? 4)) eqn:B1; [apply andb_prop in B1; apply Hbreak; [apply B1|exact E]|].
    destruct (f2 && (minSteps <=? j)) eqn:B2; [apply andb_prop in B2; apply Hbreak; [apply B2|exact E]|].
    destruct o as [V2|]; [|discriminate]. apply bind_ok in E. destruct E as (data1 & Edd & E). unfold vset in Edd.
    destruct (Nat.ltb_spec (j + 1) (length data)) as [Hlt|]; [|discriminate]. injection Edd as <-. rewrite Ld in Hlt.
    assert (Ef : f2 = f1) by (unfold f2; destruct (Nat.eqb_spec j (m - 1)); [lia|auto]). rewrite Ef in *.
    assert (Hno : rows <= 4 \/ minSteps <= j -> forall s, 2 <= s <= j + 1 -> ~ settled stedc tolerance ex a1 b1 s).
    { intros Hr s Hs H. assert (X : f1 = true) by (apply Hf1; eauto). rewrite X in B1, B2. cbn [andb] in B1, B2.
      apply Nat.leb_gt in B1. apply Nat.leb_gt in B2. lia. }
    apply (IH m (j + 1)) with (evp := ev) in E; auto; try lia.
    - destruct E as (Hj' & La' & Lb' & S1 & R1 & R2). split; [lia|]. split; [auto|]. split; [auto|]. split.
      { destruct S0 as [S01 S02], S1 as [S11 S12]. split; intros i Hi; [rewrite S01 by lia; apply S11; lia|rewrite S02 by lia; apply S12; lia]. }
      split; [exact R1|]. intros k s Hk Hr Hs H. destruct (Nat.eq_dec k (j + 1)) as [->|].
      + apply (Hno ltac:(lia) s ltac:(lia)). apply (settled_same a' b' a1 b1 s (j + 1)); [apply same_sym; exact S1|lia|exact H].
      + apply (R2 k s); auto. lia.
    - rewrite upd_length. auto.
    - intros i Hi. rewrite Na1 by lia. apply Ha0. lia.
    - destruct (Nat.eqb_spec (j + 1) 1); [lia|exact Es].
    - intros ii Hi Hl. rewrite He2 by lia. apply Ht. lia.
  Qed.

  Lemma decomp_stop steps init V ab : decomposition rows mvp stedc tolerance minSteps ex isReortho steps init = Ok (V, ab) ->
    let k := length V in
    (k = Nat.min rows steps \/ exists s, 2 <= s <= k /\ settled stedc tolerance ex (t_a ab) (t_b ab) s) /\
    (forall k' s, 2 <= k' < k -> rows <= 4 \/ minSteps <= k' - 1 -> 2 <= s <= k' -> ~ settled stedc tolerance ex (t_a ab) (t_b ab) s).
  Proof.
    intros E. assert (Hl : length init = rows).
    { unfold decomposition in E. destruct (Nat.eqb_spec (length init) rows); [auto|discriminate]. }
    assert (Hz : sum_re rows init init <> 0%R).
    { unfold decomposition in E. rewrite Hl, Nat.eqb_refl in E. cbn [negb] in E. destruct (Req_EM_T _ _); [discriminate|auto]. }
    set (m := if rows <? steps then rows else steps).
    assert (Em : m = Nat.min rows steps) by (unfold m; destruct (Nat.ltb_spec rows steps); lia).
    assert (Hm2 : 2 <= m).
    { destruct (le_lt_dec 2 m); [auto|]. unfold m in *. rewrite decomp_short in E; auto. discriminate. }
    unfold decomposition in E. fold m in E. rewrite Hl, Nat.eqb_refl in E. cbn [negb] in E. destruct (Req_EM_T _ _) as [|_]; [contradiction|]. cbv iota zeta in E.
    rewrite resize_val_ok in E by lia. cbn [bind t_a t_b] in E. rewrite !vset_ok in E by (rewrite ?repeat_length; lia). cbn [bind] in E.
    rewrite vset_ok in E by (rewrite upd_length, repeat_length; lia). cbn [bind] in E.
    destruct (Nat.ltb_spec 1 m); [|lia]. rewrite vset_ok in E by (rewrite upd_length, repeat_length; lia). cbn [bind] in E.
    apply bind_ok in E. destruct E as ([[[j d'] a'] b'] & El & E).
    apply (loop_stop (m - 1)) with (evp := []) in El.
    - destruct El as (Hj & La' & Lb' & _ & R1 & R2). destruct (Nat.ltb_spec j m); [|lia]. unfold tri_resize in E.
      destruct (Nat.ltb_spec 0 (j + 1)); [|lia]. cbn [bind] in E. injection E as <- <-. cbn [t_a t_b]. cbv zeta. rewrite !vresize_length.
      assert (S : forall i, i <= j -> nth i a' 0%R = nth i (vresize (a' : list Rring) (j + 1) (c0 : Rring)) 0%R /\ nth i b' 0%R = nth i (vresize (b' : list Rring) (j + 1) (c0 : Rring)) 0%R).
      { intros i Hi. rewrite !nth_vresize by lia. split.
        all: match goal with |- _ = (if ?c then _ else _) => destruct c eqn:Q end; [reflexivity|exfalso; apply Nat.ltb_ge in Q; change (car Rring) with R in Q; lia]. }
      assert (T : forall s, s <= j + 1 -> settled stedc tolerance ex a' b' s <-> settled stedc tolerance ex (vresize (a' : list Rring) (j + 1) (c0 : Rring)) (vresize (b' : list Rring) (j + 1) (c0 : Rring)) s).
      { intros s Hs. destruct Hst as [_ L]. unfold settled. split; intros (ev & ev' & E1 & E2 & H'); exists ev, ev'.
        - rewrite <- (L s a' b') by (intros i Hi; apply (S i); lia). rewrite <- (L (s - 1) a' b') by (intros i Hi; apply (S i); lia). auto.
        - rewrite (L s a' b' _ _) by (intros i Hi; apply (S i); lia). rewrite (L (s - 1) a' b' _ _) by (intros i Hi; apply (S i); lia). auto. }
      split.
      + destruct R1 as [->|(s & Hs & R1)]; [left; lia|]. right. exists s. split; [auto|]. apply T; [lia|auto].
      + intros k' s Hk Hr Hs Hc. apply (R2 k' s); auto; [lia|]. apply T; [lia|auto].
    - lia.
    - lia.
    - rewrite !upd_length. apply repeat_length.
    - rewrite upd_length. apply repeat_length.
    - rewrite !upd_length. apply repeat_length.
    - apply repeat_length.
    - intros i Hi. rewrite nth_upd_neq by lia. destruct (le_lt_dec m i); [apply nth_overflow; rewrite repeat_length; lia|apply nth_repeat_in; auto].
    - reflexivity.
    - intros ii _ Hi. rewrite nth_repeat_in by auto. destruct ii; reflexivity.
    - split; [discriminate|]. intros (s & Hs & _). lia.
  Qed.
End Stop.
