From Verif Require Import Prelude Ring Vec_Model Dense_Model Dense_Spec Dense_Proofs Geo_Model Geo_Spec Geo_Proofs.
From Coq Require Import ZArith Lia Bool List.
Import ListNotations.
Local Open Scope nat_scope.

(** A loop each pass of which adds a set of things to what has been done. *)
Lemma forM_cover {St X : Type} (Inv : (X -> Prop) -> St -> Prop) (f : nat -> St -> res St) (T : nat -> X -> Prop) n :
  (forall D D' s, (forall x, D x <-> D' x) -> Inv D s -> Inv D' s) ->
  (forall k D s, k < n -> Inv D s -> exists s', f k s = Ok s' /\ Inv (fun x => D x \/ T k x) s') ->
  forall D s, Inv D s -> exists s', forM n 0 f s = Ok s' /\ Inv (fun x => D x \/ exists k, k < n /\ T k x) s'.
Proof.
  intros Hext Hstep D s H.
  destruct (@forM_inv _ (fun k s => Inv (fun x => D x \/ exists j, j < k /\ T j x) s) n 0 f s) as (s' & E & H').
  - eapply Hext; [|exact H]. intros x. split; [now left|]. intros [|(j & Hj & _)]; [auto|lia].
  - intros k t Hk Ht. destruct (Hstep k _ t ltac:(lia) Ht) as (t' & E & Ht'). exists t'. split; auto.
    eapply Hext; [|exact Ht']. intros x. split.
    + intros [[|(j & Hj & ?)]|]; eauto. right. exists j. split; auto.
    + intros [|(j & Hj & ?)]; auto. destruct (Nat.eq_dec j k) as [->|]; auto. left. right. exists j. split; auto. lia.
  - eauto.
Qed.

Section Cache.
  Variable R : cring.
  Variables (L orbs rank : nat).
  Variable ix : nat -> nat -> option nat.
  Variable cb : nat -> nat -> bool.
  Variable v : nat -> nat -> nat -> nat -> R.
  Variable index : nat -> nat -> res (option nat).
  Variable conn : nat -> nat -> res bool.
  Variable calcDir : nat -> nat -> res nat.
  Variable value : nat -> nat -> nat -> nat -> nat -> res R.
  Hypothesis Hindex : forall i e, i < L -> e < orbs -> index i e = Ok (ix i e).
  Hypothesis Hrange : forall i e k, i < L -> e < orbs -> ix i e = Some k -> k < rank.
  Hypothesis Hinj : forall i e i' e' k, i < L -> e < orbs -> i' < L -> e' < orbs ->
    ix i e = Some k -> ix i' e' = Some k -> i = i' /\ e = e'.
  Hypothesis Hconn : forall i j, i < L -> j < L -> conn i j = Ok (cb i j).
  Hypothesis Hval : forall i j e1 e2, i < L -> j < L -> e1 < orbs -> e2 < orbs -> cb i j = true ->
    ix i e1 <> None -> ix j e2 <> None ->
    gt_calcValue R conn calcDir value i e1 j e2 = Ok (v i e1 j e2).

  Let quad := (nat * nat * nat * nat)%type.
  Definition cinv (D : quad -> Prop) (m : mat R) : Prop :=
    m_nrow m = rank /\ m_ncol m = rank /\ mat_wf m /\
    forall i e1 j e2 k1 k2, i < L -> j < L -> e1 < orbs -> e2 < orbs -> ix i e1 = Some k1 -> ix j e2 = Some k2 ->
      (D (i, e1, j, e2) -> melem m k1 k2 = v i e1 j e2) /\ (~ D (i, e1, j, e2) -> melem m k1 k2 = c0).

  Lemma cinv_ext D D' m : (forall x, D x <-> D' x) -> cinv D m -> cinv D' m.
  Proof.
    intros HD (A & B & C & H). split; [auto|split; [auto|split; [auto|]]].
    intros i e1 j e2 k1 k2 H1 H2 H3 H4 H5 H6. destruct (H i e1 j e2 k1 k2 H1 H2 H3 H4 H5 H6) as [P Q]. split.
    - intros K. apply P. now apply HD.
    - intros K. apply Q. intros K'. apply K. now apply HD.
  Qed.

  Lemma cacheValues_ok : exists m, gt_cacheValues R L orbs rank index conn calcDir value = Ok m /\
    m_nrow m = rank /\ m_ncol m = rank /\ mat_wf m /\
    forall i e1 j e2 k1 k2, i < L -> j < L -> e1 < orbs -> e2 < orbs -> ix i e1 = Some k1 -> ix j e2 = Some k2 ->
      melem m k1 k2 = if cb i j then v i e1 j e2 else c0.
  Proof.
    set (T4 := fun i1 i2 e1 e2 (x : quad) => cb i1 i2 = true /\ x = (i1, e1, i2, e2)).
    set (T3 := fun i1 i2 e1 (x : quad) => exists e2, e2 < orbs /\ T4 i1 i2 e1 e2 x).
    set (T2 := fun i1 i2 (x : quad) => exists e1, e1 < orbs /\ T3 i1 i2 e1 x).
    set (T1 := fun i1 (x : quad) => exists i2, i2 < L /\ T2 i1 i2 x).
    unfold gt_cacheValues.
    edestruct (forM_cover cinv (fun i1 m => forM L 0 (fun i2 m =>
      do c <- conn i1 i2 ;;
      if negb c then Ok m else
      forM orbs 0 (fun e1 m =>
        do k1 <- index i1 e1 ;;
        match k1 with None => Ok m | Some k1 =>
          forM orbs 0 (fun e2 m =>
            do k2 <- index i2 e2 ;;
            match k2 with None => Ok m | Some k2 =>
              do v <- gt_calcValue R conn calcDir value i1 e1 i2 e2 ;;
              mset R m k1 k2 v
            end) m
        end) m) m) T1 L cinv_ext) with (D := fun _ : quad => False) (s := mat_new R rank rank) as (m & E & H).
    - intros i1 D1 s1 Hi1 H1. apply (forM_cover cinv _ (T2 i1) L cinv_ext); [|exact H1].
      clear D1 s1 H1. intros i2 D2 s2 Hi2 H2. rewrite Hconn by auto. cbn [bind].
      destruct (cb i1 i2) eqn:Ec; cbn [negb].
      + apply (forM_cover cinv _ (T3 i1 i2) orbs cinv_ext); [|exact H2].
        clear D2 s2 H2. intros e1 D3 s3 He1 H3. rewrite Hindex by auto. cbn [bind].
        destruct (ix i1 e1) as [k1|] eqn:E1.
        * apply (forM_cover cinv _ (T4 i1 i2 e1) orbs cinv_ext); [|exact H3].
          clear D3 s3 H3. intros e2 D4 s4 He2 H4. rewrite Hindex by auto. cbn [bind].
          destruct (ix i2 e2) as [k2|] eqn:E2.
          -- rewrite Hval by (auto; congruence). cbn [bind]. destruct H4 as (A & B & C & H4).
             pose proof (Hrange _ _ _ Hi1 He1 E1). pose proof (Hrange _ _ _ Hi2 He2 E2).
             destruct (mset_ok R s4 k1 k2 (v i1 e1 i2 e2) C ltac:(lia) ltac:(lia)) as (m' & E' & A' & B' & C' & H').
             exists m'. split; auto. split; [congruence|split; [congruence|split; [auto|]]].
             intros i f1 j f2 l1 l2 Hi Hj Hf1 Hf2 F1 F2.
             pose proof (Hrange _ _ _ Hi Hf1 F1). pose proof (Hrange _ _ _ Hj Hf2 F2).
             rewrite H' by lia.
             destruct (Nat.eqb_spec l1 k1) as [->|N1]; [destruct (Nat.eqb_spec l2 k2) as [->|N2]|]; cbn [andb].
             ++ destruct (Hinj _ _ _ _ _ Hi1 He1 Hi Hf1 E1 F1) as [<- <-].
                destruct (Hinj _ _ _ _ _ Hi2 He2 Hj Hf2 E2 F2) as [<- <-].
                split; auto. intros K. exfalso. apply K. right. split; auto.
             ++ destruct (H4 i f1 j f2 k1 l2 Hi Hj Hf1 Hf2 F1 F2) as [P Q]. split.
                ** intros [K|[_ K]]; auto. injection K as -> -> -> ->. congruence.
                ** intros K. apply Q. tauto.
             ++ destruct (H4 i f1 j f2 l1 l2 Hi Hj Hf1 Hf2 F1 F2) as [P Q]. split.
                ** intros [K|[_ K]]; auto. injection K as -> -> -> ->. congruence.
                ** intros K. apply Q. tauto.
          -- exists s4. split; auto. destruct H4 as (A & B & C & H4).
             split; [auto|split; [auto|split; [auto|]]].
             intros i f1 j f2 l1 l2 Hi Hj Hf1 Hf2 F1 F2.
             destruct (H4 i f1 j f2 l1 l2 Hi Hj Hf1 Hf2 F1 F2) as [P Q]. split.
             ++ intros [K|[_ K]]; auto. injection K as -> -> -> ->. congruence.
             ++ intros K. apply Q. tauto.
        * exists s3. split; auto. destruct H3 as (A & B & C & H4).
          split; [auto|split; [auto|split; [auto|]]].
          intros i f1 j f2 l1 l2 Hi Hj Hf1 Hf2 F1 F2.
          destruct (H4 i f1 j f2 l1 l2 Hi Hj Hf1 Hf2 F1 F2) as [P Q]. split.
          ++ intros [K|(e2 & He2 & _ & K)]; auto. injection K as -> -> -> ->. congruence.
          ++ intros K. apply Q. tauto.
      + exists s2. split; auto. eapply cinv_ext; [|exact H2]. intros x. split; [now left|].
        intros [|(e1 & _ & e2 & _ & K & _)]; auto. congruence.
    - split; [reflexivity|split; [reflexivity|]].
      destruct (mat_new_is R rank rank) as (A & B & C & H0). split; auto.
      intros i f1 j f2 l1 l2 Hi Hj Hf1 Hf2 F1 F2. split; [tauto|]. intros _. apply H0; [apply (Hrange i f1); auto|apply (Hrange j f2); auto].
    - exists m. split; [exact E|]. destruct H as (A & B & C & H). split; auto. split; auto. split; auto.
      intros i e1 j e2 k1 k2 Hi Hj He1 He2 F1 F2. destruct (H i e1 j e2 k1 k2 Hi Hj He1 He2 F1 F2) as [P Q].
      destruct (cb i j) eqn:Ec.
      + apply P. right. exists i. split; auto. exists j. split; auto. exists e1. split; auto. exists e2. split; auto. split; auto.
      + apply Q. intros [[]|(i' & _ & j' & _ & f1 & _ & f2 & _ & K & K')]. injection K' as -> -> -> ->. congruence.
  Qed.

  Lemma gt_value_ok m i e1 j e2 k1 k2 : m_nrow m = rank -> m_ncol m = rank -> mat_wf m ->
    i < L -> j < L -> e1 < orbs -> e2 < orbs -> ix i e1 = Some k1 -> ix j e2 = Some k2 ->
    gt_value R index m i e1 j e2 = Ok (melem m k1 k2).
  Proof.
    intros A B C Hi Hj He1 He2 F1 F2. unfold gt_value. rewrite !Hindex by auto. cbn [bind]. rewrite F1, F2.
    pose proof (Hrange _ _ _ Hi He1 F1). pose proof (Hrange _ _ _ Hj He2 F2). apply mget_ok; auto; lia.
  Qed.
End Cache.

(** ** Gap in a chain *)
Local Open Scope Z_scope.
Lemma chain_gap_fringe L per i smax emin : 0 <= i < L -> 0 <= smax < emin -> emin < L -> (i <= smax \/ emin <= i) ->
  chain_fringe (mkchain L per 1) i smax emin = (i =? smax) || (i =? emin).
Proof.
  intros. unfold chain_fringe. cbn [ch_d ch_L].
  destruct (Z.leb_spec i smax), (Z.eqb_spec i smax), (Z.eqb_spec i emin); cbn [orb]; try lia;
  destruct (Z.ltb_spec (i + 1) L), (Z.leb_spec (smax + 1) (i + 1)), (Z.leb_spec 1 i), (Z.ltb_spec (i - 1) emin);
    cbn [andb]; first [reflexivity|lia].
Qed.

Lemma chain_gap_connected L per smax emin i1 i2 : L < 18446744073709551616 ->
  0 <= smax < emin -> emin < L -> in_range L i1 -> in_range L i2 ->
  (i1 <= smax \/ emin <= i1) -> (i2 <= smax \/ emin <= i2) ->
  gap_connected (chain_fringe (mkchain L per 1)) (chain_connected (mkchain L per 1)) smax emin i1 i2 =
  chain_connected (mkchain (smax + 1 + (L - emin)) per 1) (contract smax emin i1) (contract smax emin i2).
Proof.
  intros HL Hs He [H1 H1'] [H2 H2'] B1 B2. unfold gap_connected.
  rewrite !chain_gap_fringe by lia.
  apply eq_true_iff_eq. rewrite chain_connected_iff by (split; cbn [ch_d ch_L]; lia).
  unfold chain_adj. cbn [ch_d ch_L ch_per].
  assert (C : forall i, i <= smax \/ emin <= i -> contract smax emin i = i /\ i <= smax \/
     contract smax emin i = i - emin + smax + 1 /\ emin <= i).
  { intros i Hi. unfold contract. destruct (Z.leb_spec i smax); lia. }
  destruct (Z.eqb_spec i1 i2) as [->|Hne].
  { split; [discriminate|]. intros [K _]. congruence. }
  destruct (negb _) eqn:E.
  - rewrite chain_connected_iff by (split; cbn [ch_d ch_L]; lia). unfold chain_adj. cbn [ch_d ch_L ch_per].
    apply negb_true_iff in E.
    assert (E' : ~ ((i1 = smax \/ i1 = emin) /\ (i2 = smax \/ i2 = emin))).
    { intros [K1 K2]. rewrite andb_false_iff, !orb_false_iff, !Z.eqb_neq in E. lia. }
    destruct (C i1 B1) as [[-> ?]|[-> ?]], (C i2 B2) as [[-> ?]|[-> ?]]; destruct per; split; intros [K1 K2];
      (split; [lia|]); destruct K2 as [K2|[? K2]]; try discriminate; lia.
  - apply negb_false_iff in E. rewrite andb_true_iff, !orb_true_iff, !Z.eqb_eq in E.
    split; auto. intros _. destruct (C i1 B1) as [[-> ?]|[-> ?]], (C i2 B2) as [[-> ?]|[-> ?]]; lia.
Qed.
