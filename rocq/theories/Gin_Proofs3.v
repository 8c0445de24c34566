From Coq Require Import Ascii String.
From Verif Require Import Prelude Ring Str_Model Str_Spec Str_Proofs Text_Model Text_Proofs Ng_Proofs Dense_Model Dense_Spec Dense_Proofs
  Geo_Model Geo_Spec Geo_Proofs Geo_Proofs4
  Input_Model Input_Spec Input_Proofs Input_Parse Input_Read Input_Props Inc_Model Inc_Spec Inc_Proofs Inc_Props Gin_Model Gin_Spec Gin_Proofs Gin_Proofs2.
Import List.

Section Term.
  Variable R : cring.
  Variable std_atof : str -> R.
  Variable other : str -> nat -> str -> Z -> rst -> res (gterm R * rst).
  Variable gb : bool.
  Variable f : list item.
  Hypothesis NoMod : texts f (lit "GeometryValueModifier") = [].
  Variable L : nat.
  Hypothesis HL : (Z.of_nat L <= 2147483647)%Z.

  Lemma finish_good s lat cb dr h const numbers o c v r : good_lat L s lat cb dr h -> RP f c v r -> (const = true <-> contains (lit "ConstantValues") o) ->
    vecs f (lit "Connectors") <> [] ->
    (forall dir, dir < directions s -> numbers dir = tl (kth [] (vecs f (lit "Connectors")) (v conn_l + dir)) /\ (forall s, In s (numbers dir) -> real_text s) /\
      List.length (numbers dir) = (if const then 1 else size_of L s dir)) ->
    exists t r' v', finish_term R std_atof (Z.of_nat L) 1 o lat r = Ok (t, r') /\ RP f c v' r' /\ v' conn_l = v conn_l + directions s /\ gt_orbitals t = 1 /\
      couplings std_atof L (mkdescr s const numbers) (fun i j => gt_value R (base_index 1) (gt_cached t) i 0 j 0).
  Proof.
    intros G Hr Ho Nv Hn. destruct G as [G1 G2 G3 G4 G5 G6 G7].
    destruct (finish_ok R std_atof f NoMod L lat const numbers o Ho cb dr h (size_of L s)) with (c := c) (v := v) (r := r) as (t & r' & v' & E & H1 & H2 & H3 & H4); auto.
    - intros i j Hi Hj Hc. rewrite G4, G5 by auto. destruct (G7 i j Hi Hj Hc) as (d & k & [B|B]); destruct (G6 _ _ _ _ B) as (A1 & A2 & A3 & A4 & A5 & A6 & A7 & A8 & A9 & A10).
      + rewrite A5, A7, G1. repeat split; auto.
      + rewrite A6, A8, G1. repeat split; auto.
    - intros _ d Hd. apply G3. rewrite <- G1. auto.
    - intros d Hd. rewrite G1 in Hd. destruct (Hn d Hd) as (N1 & N2 & N3). split; [|split; [|split]]; auto.
    - exists t, r', v'. split; [exact E|]. split; [exact H1|]. split; [rewrite <- G1; exact H2|]. split; [exact H3|]. split; cbn [d_shape d_const d_numbers].
      + intros i j dir k B. destruct (G6 _ _ _ _ B) as (A1 & A2 & A3 & A4 & A5 & A6 & A7 & A8 & A9 & A10).
        rewrite !H4 by lia. rewrite A3, A4, A5, A6, A7, A8. auto.
      + intros i j Hi Hj NB. rewrite H4 by auto. destruct (cb i j) eqn:Ec; auto. destruct (G7 i j Hi Hj Ec) as (d & k & [B|B]); exfalso; destruct (NB d k); auto.
  Qed.

  Definition added (s : shape) (l : str) : nat := if existsb (str_eqb l) (labels s) then 1 else 0.
  Fixpoint bumps (ls : list str) (c : str -> nat) : str -> nat := match ls with [] => c | l :: ls => bumps ls (bump l c) end.
  Fixpoint nodupb (ls : list str) : bool := match ls with [] => true | l :: ls => negb (existsb (str_eqb l) ls) && nodupb ls end.
  Lemma bumps_ok ls c l : nodupb ls = true -> bumps ls c l = c l + (if existsb (str_eqb l) ls then 1 else 0).
  Proof.
    revert c. induction ls as [|a ls IH]; intros c; cbn [bumps nodupb existsb]; intros H; [lia|].
    apply andb_prop in H. destruct H as [H1 H2]. rewrite IH by auto. unfold bump. destruct (str_eqb l a) eqn:E; cbn [orb]; [|lia].
    apply str_eqb_eq in E. subst l. destruct (existsb (str_eqb a) ls); [discriminate|lia].
  Qed.
  Lemma kinds1 : str_eqb (lit "ladder") (lit "chain") || str_eqb (lit "ladder") (lit "longchain") = false. Proof. reflexivity. Qed.
  Lemma kinds2 : str_eqb (lit "ladder") (lit "chainEx") = false. Proof. reflexivity. Qed.
  Lemma kinds3 : str_eqb (lit "ladder") (lit "ladder") = true. Proof. reflexivity. Qed.
  Lemma kinds4 : str_eqb (lit "star") (lit "chain") || str_eqb (lit "star") (lit "longchain") = false. Proof. reflexivity. Qed.
  Lemma kinds5 : str_eqb (lit "star") (lit "chainEx") = false. Proof. reflexivity. Qed.
  Lemma kinds6 : str_eqb (lit "star") (lit "ladder") = false. Proof. reflexivity. Qed.
  Lemma kinds7 : str_eqb (lit "star") (lit "star") = true. Proof. reflexivity. Qed.
  Lemma written1 : written (lit "1") 1.
  Proof. exists (lit "1"). split; [discriminate|]. split; [intros x [<-|[]]; cbn; tauto|]. left. split; reflexivity. Qed.

  Lemma term_lat d c v r : RP f c v r -> fits L (d_shape d) ->
    texts f (lit "DegreesOfFreedom") = [] \/ text_is (texts f (lit "DegreesOfFreedom")) (c (lit "DegreesOfFreedom")) (lit "1") ->
    shape_said f c (d_shape d) -> forall o, text_is (texts f (lit "GeometryOptions")) (c (lit "GeometryOptions")) o ->
    exists lat cb dr h c' r', read_term R std_atof other gb (Z.of_nat L) r = finish_term R std_atof (Z.of_nat L) 1 o lat r' /\
      good_lat L (d_shape d) lat cb dr h /\ RP f c' v r' /\ (forall l, c' l = c l + added (d_shape d) l).
  Proof.
    intros Hr F D Sh o [O1 O2]. unfold read_term.
    assert (E1 : exists x r1, try_size r (lit "DegreesOfFreedom=") = Ok (x, r1) /\ RP f (bump (lit "DegreesOfFreedom") c) v r1 /\ match x with Some x => Z.to_nat x | None => 1 end = 1).
    { destruct D as [D|[D1 D2]].
      - destruct (rp_try_size f c v r (lit "DegreesOfFreedom") (lit "DegreesOfFreedom=") None Hr) as (r1 & E & H); [ask|auto|]. exists None, r1. auto.
      - destruct (rp_try_size f c v r (lit "DegreesOfFreedom") (lit "DegreesOfFreedom=") (Some 1%Z) Hr) as (r1 & E & H); [ask| |exists (Some 1%Z), r1; auto].
        right. exists 1%Z. split; auto. split; auto. split; [rewrite D2; apply written1|lia]. }
    destruct E1 as (x & r1 & E1 & H1 & X). rewrite E1. cbn [bind]. rewrite X. cbn [Nat.eqb].
    assert (Kd : exists kd, text_is (texts f (lit "GeometryKind")) (c (lit "GeometryKind")) kd /\
      match d_shape d with AChain _ _ => kd = lit "chain" \/ kd = lit "longchain" | ALadder _ _ _ => kd = lit "ladder" | AStar => kd = lit "star" end).
    { destruct (d_shape d); cbn [shape_said] in Sh; [destruct Sh as ([K|K] & _)|destruct Sh as (K & _)|]; eexists; split; eauto. }
    destruct Kd as (kd & [K1 K2] & K3).
    destruct (rp_text f _ v r1 (lit "GeometryKind") (lit "GeometryKind=") H1) as (r2 & E2 & H2); [ask|auto|]. rewrite E2. cbn [bind].
    change (bump (lit "DegreesOfFreedom") c (lit "GeometryKind")) with (c (lit "GeometryKind")). rewrite K2.
    destruct (rp_text f _ v r2 (lit "GeometryOptions") (lit "GeometryOptions=") H2) as (r3 & E3 & H3); [ask|auto|]. rewrite E3. cbn [bind].
    change (bump (lit "GeometryKind") (bump (lit "DegreesOfFreedom") c) (lit "GeometryOptions")) with (c (lit "GeometryOptions")). rewrite O2.
    set (c3 := bump (lit "GeometryOptions") _) in H3.
    assert (C3 : forall l, str_eqb l (lit "DegreesOfFreedom") = false -> str_eqb l (lit "GeometryKind") = false -> str_eqb l (lit "GeometryOptions") = false -> c3 l = c l).
    { intros l A1 A2 A3. unfold c3, bump. rewrite A1, A2, A3. reflexivity. }
    destruct (d_shape d) as [px dd|leg px py|] eqn:Es; cbn [shape_said] in Sh.
    - destruct Sh as (_ & Sp & Sd).
      assert (Eb : str_eqb kd (lit "chain") || str_eqb kd (lit "longchain") = true) by (destruct K3 as [-> | ->]; reflexivity). rewrite Eb.
      unfold read_chain.
      destruct (rp_try_long f c3 v r3 (lit "IsPeriodicX") (lit "IsPeriodicX=") px H3) as (r4 & E4 & H4); [ask|rewrite C3 by reflexivity; exact Sp|]. rewrite E4. cbn [bind].
      destruct (rp_try_long f _ v r4 (lit "LongChainDistance") (lit "LongChainDistance=") dd H4) as (r5 & E5 & H5); [ask| |].
      { change (bump (lit "IsPeriodicX") c3 (lit "LongChainDistance")) with (c3 (lit "LongChainDistance")). rewrite C3 by reflexivity. exact Sd. }
      rewrite E5. cbn [bind].
      eexists _, _, _, _, _, _. split; [reflexivity|]. split; [apply (chain_good L px dd HL F)|]. split; [eassumption|].
      intros l. exact (bumps_ok (labels (AChain px dd)) c l eq_refl).
    - rewrite K3, kinds1, kinds2, kinds3. destruct Sh as (_ & Sl & Sp & Sq).
      unfold read_ladder. destruct Sl as (Sl1 & Sl2 & Sl3).
      destruct (rp_long f c3 v r3 (lit "LadderLeg") (lit "LadderLeg=") (Z.of_nat leg) H3) as (r4 & _ & E4 & H4); [ask|auto|rewrite C3 by reflexivity; exact Sl2|auto|].
      rewrite E4. cbn [bind]. rewrite Z.mod_small by lia.
      destruct (rp_try_long f _ v r4 (lit "IsPeriodicX") (lit "IsPeriodicX=") px H4) as (r5 & E5 & H5); [ask| |].
      { change (bump (lit "LadderLeg") c3 (lit "IsPeriodicX")) with (c3 (lit "IsPeriodicX")). rewrite C3 by reflexivity. exact Sp. }
      rewrite E5. cbn [bind].
      destruct (rp_try_long f _ v r5 (lit "IsPeriodicY") (lit "IsPeriodicY=") py H5) as (r6 & E6 & H6); [ask| |].
      { change (bump (lit "IsPeriodicX") (bump (lit "LadderLeg") c3) (lit "IsPeriodicY")) with (c3 (lit "IsPeriodicY")). rewrite C3 by reflexivity. exact Sq. }
      rewrite E6. cbn [bind]. destruct (ladder_good L leg px py gb HL F) as (g & Eg & Gg). rewrite Eg. cbn [bind].
      eexists _, _, _, _, _, _. split; [reflexivity|]. split; [apply (Gg)|]. split; [eassumption|].
      intros l. exact (bumps_ok (labels (ALadder leg px py)) c l eq_refl).
    - rewrite K3, kinds4, kinds5, kinds6, kinds7. unfold read_star. cbn [bind].
      eexists _, _, _, _, _, _. split; [reflexivity|]. split; [apply (star_good L HL F)|]. split; [eassumption|].
      intros l. exact (bumps_ok (labels AStar) c l eq_refl).
  Qed.

  Lemma term_ok d c v r : RP f c v r -> fits L (d_shape d) -> term_said f L c (v conn_l) d ->
    exists t r' c' v', read_term R std_atof other gb (Z.of_nat L) r = Ok (t, r') /\ RP f c' v' r' /\ (forall l, c' l = c l + added (d_shape d) l) /\
      v' conn_l = v conn_l + directions (d_shape d) /\ gt_orbitals t = 1 /\ couplings std_atof L d (fun i j => gt_value R (base_index 1) (gt_cached t) i 0 j 0).
  Proof.
    intros Hr F (D & Sh & (o & O & Ho) & Nv & Hn). destruct (term_lat d c v r Hr F D Sh o O) as (lat & cb & dr & h & c' & r3 & E & G & H3 & C).
    destruct (finish_good _ _ _ _ _ (d_const d) (d_numbers d) o _ v r3 G H3 Ho Nv Hn) as (t & r' & v' & E2 & A1 & A2 & A3 & A4).
    rewrite E, E2. eexists _, _, _, _. split; [reflexivity|]. split; [exact A1|]. split; [exact C|]. split; [exact A2|]. split; [exact A3|].
    destruct d as [s const numbers]. exact A4.
  Qed.
  (** A direction whose connectors are numbers, but not as many as needed *)
  Lemma term_refused d c v r : RP f c v r -> fits L (d_shape d) -> term_misfit f L c (v conn_l) d -> read_term R std_atof other gb (Z.of_nat L) r = Throw.
  Proof.
    intros Hr F (D & Sh & (o & O & Ho) & Nv & dir & Hd & N1 & N2 & N3 & Hn). destruct (term_lat d c v r Hr F D Sh o O) as (lat & cb & dr & h & c' & r3 & E & G & H3 & C).
    rewrite E. destruct G as [G1 G2 G3 G4 G5 G6 G7].
    apply (finish_refused R std_atof f L lat (d_const d) (d_numbers d) o Ho (size_of L (d_shape d))) with (c := c') (v := v) (dir := dir); auto.
    - intros _ k Hk. apply G3. rewrite <- G1. auto.
    - rewrite G1. auto.
    - intros k Hk. destruct (Hn k Hk) as (M1 & M2 & M3). split; [|split; [|split]]; auto.
  Qed.
  Lemma no_other_kind s : ~ a_kind s -> str_eqb s (lit "chain") || str_eqb s (lit "longchain") = false /\ str_eqb s (lit "ladder") = false /\
    str_eqb s (lit "star") = false /\ other_kind s = false.
  Proof.
    intros N. assert (G : forall k, In k kinds -> str_eqb s k = false).
    { intros k Hk. destruct (str_eqb s k) eqn:E; auto. apply str_eqb_eq in E. subst k. exfalso. apply N. left. exact Hk. }
    unfold other_kind. rewrite !G by (unfold kinds; cbn [map In]; tauto). split; [reflexivity|]. split; [reflexivity|]. split; [reflexivity|]. cbn [orb].
    destruct (str_eqb (firstn 5 s) (lit "Super")) eqn:E; auto. exfalso. apply N. right. exists (skipn 5 s). apply str_eqb_eq in E. rewrite <- E. symmetry. apply firstn_skipn.
  Qed.
  Lemma term_none_refused c v r : RP f c v r -> term_none f c -> read_term R std_atof other gb (Z.of_nat L) r = Throw.
  Proof.
    intros Hr [(N & W & B)|((x & X & Hx) & (s & [K1 K2] & Ns))]; unfold read_term.
    - destruct (rp_try_size f c v r (lit "DegreesOfFreedom") (lit "DegreesOfFreedom=") (Some 0%Z) Hr) as (r1 & E & H); [ask| |rewrite E; reflexivity].
      right. exists 0%Z. split; auto. split; auto. split; auto. lia.
    - destruct (rp_try_size f c v r (lit "DegreesOfFreedom") (lit "DegreesOfFreedom=") x Hr) as (r1 & E & H1); [ask| |].
      { destruct x as [n|]; [right|left; auto]. destruct X as (X1 & X2 & X3). specialize (Hx n eq_refl). exists n. split; auto. split; auto. split; auto. lia. }
      rewrite E. cbn [bind]. destruct (Nat.eqb_spec (match x with Some x => Z.to_nat x | None => 1 end) 0) as [Q|_].
      { destruct x as [n|]; [specialize (Hx n eq_refl); lia|discriminate]. }
      destruct (rp_text f _ v r1 (lit "GeometryKind") (lit "GeometryKind=") H1) as (r2 & E2 & H2); [ask|auto|]. rewrite E2. cbn [bind].
      change (bump (lit "DegreesOfFreedom") c (lit "GeometryKind")) with (c (lit "GeometryKind")). rewrite K2.
      assert (O : (exists o r3, readline r2 (lit "GeometryOptions=") true false = Ok (o, r3)) \/ readline r2 (lit "GeometryOptions=") true false = Throw).
      { destruct (texts f (lit "GeometryOptions")) as [|a l] eqn:EO.
        - right. eapply rp_no_text; [exact H2| |exact EO]. ask.
        - left. edestruct (rp_text f _ v r2 (lit "GeometryOptions") (lit "GeometryOptions=") H2) as (r3 & E3 & _); [ask|rewrite EO; discriminate|]. eauto. }
      destruct O as [(o & r3 & E3)|E3]; rewrite E3; cbn [bind]; [|reflexivity].
      destruct (no_other_kind s Ns) as (A1 & A2 & A3 & A4). rewrite A1, A2, A3, A4. destruct (str_eqb s (lit "chainEx")); reflexivity.
  Qed.
End Term.

Section Geometry.
  Variable R : cring.
  Variable std_atof : str -> R.
  Variable other : str -> nat -> str -> Z -> rst -> res (gterm R * rst).
  Variable gb : bool.
  Variable f : list item.

  Lemma said_ext L c c' k d : (forall l, str_eqb l (lit "TotalNumberOfSites") = false -> str_eqb l (lit "NumberOfTerms") = false -> c l = c' l) ->
    term_said f L c k d -> term_said f L c' k d.
  Proof.
    intros H. unfold term_said. rewrite !H by reflexivity. intros (A1 & A2 & A3). split; [exact A1|]. split; [|exact A3].
    destruct (d_shape d); cbn [shape_said] in *; rewrite !H in A2 by reflexivity; exact A2.
  Qed.
  Lemma used_snoc ds d l : used (ds ++ [d]) l = used ds l + added (d_shape d) l.
  Proof. unfold used, added. rewrite filter_app, app_length. cbn [filter]. destruct (existsb (str_eqb l) (labels (d_shape d))); reflexivity. Qed.
  Lemma used_vecs_snoc ds d : used_vecs (ds ++ [d]) = used_vecs ds + directions (d_shape d).
  Proof. unfold used_vecs. rewrite map_app, list_sum_app. cbn. lia. Qed.
  Lemma kth0 {V} (d : V) x t : kth d (x :: t) 0 = x.
  Proof. reflexivity. Qed.

  Lemma print_written n : written (print_nat n) (Z.of_nat n).
  Proof.
    destruct (pnat_digits n) as (A1 & A2 & A3). exists (print_nat n). split; [exact A1|]. split; [exact A2|]. left. split; [reflexivity|].
    rewrite atoi_digits_spec in A3 by exact A2. lia.
  Qed.

  Definition geometry_is (g : geometry R) (L : nat) (ds : list descr) : Prop :=
    ge_sites g = Z.of_nat L /\ List.length (ge_terms g) = List.length ds /\
    forall k d, nth_error ds k = Some d -> couplings std_atof L d (fun i j => geometry_value R g i 0 j 0 k).

  Lemma misfit_ext L c c' k d : (forall l, str_eqb l (lit "TotalNumberOfSites") = false -> str_eqb l (lit "NumberOfTerms") = false -> c l = c' l) ->
    term_misfit f L c k d -> term_misfit f L c' k d.
  Proof.
    intros H. unfold term_misfit. rewrite !H by reflexivity. intros (A1 & A2 & A3). split; [exact A1|]. split; [|exact A3].
    destruct (d_shape d); cbn [shape_said] in *; rewrite !H in A2 by reflexivity; exact A2.
  Qed.
  Definition read_terms (L n : nat) (r : rst) : res (list (gterm R) * rst) :=
    forM n 0 (fun _ (st : list (gterm R) * rst) =>
      let '(terms, r) := st in
      do (t, r) <- read_term R std_atof other gb (Z.of_nat L) r ;;
      Ok (terms ++ [t], r)) ([], r).
  Lemma terms_ok L n ds r : RP f (fun _ => 0) (fun _ => 0) r -> geometry_starts f L n ds ->
    exists s r2 ts r3 c v, read_geometry R std_atof other gb r = (do (terms, r) <- read_terms L n r2 ;; Ok (mkgeometry R s (Z.of_nat L) terms, r)) /\
      read_terms L (List.length ds) r2 = Ok (ts, r3) /\ List.length ts = List.length ds /\
      RP f c v r3 /\ v conn_l = used_vecs ds /\
      (forall l, str_eqb l (lit "TotalNumberOfSites") = false -> str_eqb l (lit "NumberOfTerms") = false -> c l = used ds l) /\
      (forall i d t, nth_error ds i = Some d -> nth_error ts i = Some t -> gt_orbitals t = 1 /\
         couplings std_atof L d (fun a b => gt_value R (base_index 1) (gt_cached t) a 0 b 0)).
  Proof.
    intros Hr ((t1 & T1) & (t2 & T2) & BL & Bn & Nk & NoMod & Sd). unfold read_geometry.
    rewrite (rp_peek f _ _ r (lit "GeometryKind") (lit "GeometryKind=") Hr) by (auto; ask). cbn [bind].
    destruct (rp_long f _ _ r (lit "TotalNumberOfSites") (lit "TotalNumberOfSites=") (Z.of_nat L) Hr) as (r1 & E1 & _ & H1);
      [ask|rewrite T1; discriminate|rewrite T1; apply print_written|lia|].
    rewrite E1. cbn [bind]. destruct (Z.of_nat L <? 0)%Z eqn:B; [apply Z.ltb_lt in B; lia|clear B].
    destruct (rp_long f _ _ r1 (lit "NumberOfTerms") (lit "NumberOfTerms=") (Z.of_nat n) H1) as (r2 & E2 & _ & H2);
      [ask|rewrite T2; discriminate|rewrite T2; apply print_written|lia|].
    rewrite E2. cbn [bind]. destruct (Z.of_nat n <? 0)%Z eqn:B; [apply Z.ltb_lt in B; lia|clear B]. rewrite Nat2Z.id.
    eexists _, r2. fold (read_terms L n r2).
    assert (G : exists ts r3, read_terms L (List.length ds) r2 = Ok (ts, r3) /\ List.length ts = List.length ds /\
      (exists c v, RP f c v r3 /\ v conn_l = used_vecs ds /\
      (forall l, str_eqb l (lit "TotalNumberOfSites") = false -> str_eqb l (lit "NumberOfTerms") = false -> c l = used ds l)) /\
      (forall i d t, nth_error ds i = Some d -> nth_error ts i = Some t -> gt_orbitals t = 1 /\
         couplings std_atof L d (fun a b => gt_value R (base_index 1) (gt_cached t) a 0 b 0))).
    2: { destruct G as (ts & r3 & A & B & (c & v & C1 & C2 & C3) & D). exists ts, r3, c, v. split; [reflexivity|]. repeat (split; [assumption|]). assumption. }
    unfold read_terms.
    loopM (fun (k : nat) (st : list (gterm R) * rst) => List.length (fst st) = k /\
      (exists c v, RP f c v (snd st) /\ v conn_l = used_vecs (firstn k ds) /\
        (forall l, str_eqb l (lit "TotalNumberOfSites") = false -> str_eqb l (lit "NumberOfTerms") = false -> c l = used (firstn k ds) l)) /\
      (forall i d t, nth_error ds i = Some d -> nth_error (fst st) i = Some t -> gt_orbitals t = 1 /\
         couplings std_atof L d (fun a b => gt_value R (base_index 1) (gt_cached t) a 0 b 0))) as st E Q.
    - cbn [fst snd]. split; [reflexivity|]. split.
      + eexists _, _. split; [exact H2|]. split; [reflexivity|]. intros l A1 A2. unfold bump. rewrite A1, A2. reflexivity.
      + intros i d t _ Ht. destruct i; discriminate.
    - intros k [ts r3] Hk (Lk & (c & v & H3 & Hv & Hc) & Q). cbn [fst snd] in *.
      destruct (nth_error ds k) as [d|] eqn:Ed; [|apply nth_error_None in Ed; lia].
      assert (Sp : ds = firstn k ds ++ d :: skipn (S k) ds).
      { apply nth_error_split in Ed. destruct Ed as (l1 & l2 & -> & <-). rewrite firstn_app, firstn_all, Nat.sub_diag, firstn_O, app_nil_r.
        rewrite skipn_app, skipn_all2 by lia. replace (S (List.length l1) - List.length l1) with 1 by lia. reflexivity. }
      assert (Sk : firstn (S k) ds = firstn k ds ++ [d]).
      { rewrite Sp at 1. assert (Lf : List.length (firstn k ds) = k) by (rewrite firstn_length; lia). rewrite firstn_app, Lf.
        rewrite firstn_all2 by lia. replace (S k - k) with 1 by lia. reflexivity. }
      destruct (Sd _ _ _ Sp) as [Ft Td].
      destruct (term_ok R std_atof other gb f NoMod L BL d c v r3) as (t & r4 & c' & v' & E & A1 & A2 & A3 & A4 & A5); auto.
      { rewrite Hv. eapply said_ext; [|exact Td]. intros l B1 B2. symmetry. auto. }
      eexists. rewrite E. cbn [bind]. split; [reflexivity|]. cbn [fst snd]. split; [rewrite app_length; cbn; lia|]. split.
      + exists c', v'. split; [exact A1|]. rewrite Sk, used_vecs_snoc. split; [lia|]. intros l B1 B2. rewrite A2, used_snoc, Hc by auto. reflexivity.
      + intros i d' t' Hd' Ht'. destruct (Nat.lt_ge_cases i (List.length ts)) as [Hl|Hl].
        * rewrite nth_error_app1 in Ht' by auto. eauto.
        * rewrite nth_error_app2 in Ht' by auto. assert (i = k) by (destruct (i - List.length ts) as [|[|]] eqn:Ei; try discriminate; lia). subst i.
          replace (k - List.length ts) with 0 in Ht' by lia. injection Ht' as <-. rewrite Ed in Hd'. injection Hd' as <-. auto.
    - destruct st as [ts r3]. rewrite E. cbn [bind fst snd Nat.add] in *. destruct Q as (Lk & C & Q). rewrite firstn_all in C.
      exists ts, r3. auto.
  Qed.
  Lemma geometry_ok L ds r : RP f (fun _ => 0) (fun _ => 0) r -> geometry_said f L ds ->
    exists g r', read_geometry R std_atof other gb r = Ok (g, r') /\ geometry_is g L ds.
  Proof.
    intros Hr Hs. destruct (terms_ok L _ ds r Hr Hs) as (s & r2 & ts & r3 & c & v & E & E2 & Lk & _ & _ & _ & Q). rewrite E, E2. cbn [bind].
    eexists _, _. split; [reflexivity|].
    split; [reflexivity|]. split; [exact Lk|]. intros k d Hd. cbn [ge_terms].
    destruct (nth_error ts k) as [t|] eqn:Et.
    2: { apply nth_error_None in Et. assert (k < List.length ds) by (apply nth_error_Some; congruence). lia. }
    destruct (Q k d t Hd Et) as [Q1 Q2]. unfold geometry_value. cbn [ge_terms].
    assert (Ev : vget ts k = Ok t) by (unfold vget; rewrite Et; reflexivity). rewrite Ev. cbn [bind]. rewrite Q1. exact Q2.
  Qed.
  Lemma geometry_negative r : RP f (fun _ => 0) (fun _ => 0) r -> counts_negative f -> read_geometry R std_atof other gb r = Throw.
  Proof.
    intros Hr (K & z & Zs & Hz). unfold read_geometry. rewrite (rp_peek f _ _ r (lit "GeometryKind") (lit "GeometryKind=") Hr) by (auto; ask). cbn [bind].
    destruct Zs as (N1 & W1 & B1).
    destruct (rp_long f _ _ r (lit "TotalNumberOfSites") (lit "TotalNumberOfSites=") z Hr) as (r1 & E1 & _ & H1); [ask|auto|auto|auto|]. rewrite E1. cbn [bind].
    destruct (Z.ltb_spec z 0); [reflexivity|]. destruct Hz as [Hz|(n & (N2 & W2 & B2) & Hn)]; [lia|].
    destruct (rp_long f _ _ r1 (lit "NumberOfTerms") (lit "NumberOfTerms=") n H1) as (r2 & E2 & _ & _); [ask|auto|exact W2|auto|]. rewrite E2. cbn [bind].
    destruct (Z.ltb_spec n 0); [reflexivity|lia].
  Qed.
  Lemma geometry_none L n ds r : RP f (fun _ => 0) (fun _ => 0) r -> geometry_starts f L n ds -> List.length ds < n ->
    term_none f (used ds) -> read_geometry R std_atof other gb r = Throw.
  Proof.
    intros Hr Hs Hn Md. destruct (terms_ok L _ ds r Hr Hs) as (s & r2 & ts & r3 & c & v & E & E2 & Lk & Hv & Ev & Hc & _). rewrite E.
    unfold read_terms in *. replace n with (List.length ds + S (n - S (List.length ds))) by lia. rewrite forM_app, E2. cbn [bind forM].
    rewrite (term_none_refused R std_atof other gb f L c v r3 Hv); [reflexivity|].
    unfold term_none in *. rewrite !Hc by reflexivity. exact Md.
  Qed.
  Lemma geometry_refused L n ds d r : RP f (fun _ => 0) (fun _ => 0) r -> geometry_starts f L n ds -> List.length ds < n ->
    fits L (d_shape d) -> term_misfit f L (used ds) (used_vecs ds) d -> read_geometry R std_atof other gb r = Throw.
  Proof.
    intros Hr Hs Hn Ft Md. destruct (terms_ok L _ ds r Hr Hs) as (s & r2 & ts & r3 & c & v & E & E2 & Lk & Hv & Ev & Hc & _). rewrite E.
    unfold read_terms in *. replace n with (List.length ds + S (n - S (List.length ds))) by lia. rewrite forM_app, E2. cbn [bind forM].
    destruct Hs as (_ & _ & BL & _).
    rewrite (term_refused R std_atof other gb f L BL d c v r3 Hv Ft); [reflexivity|]. rewrite Ev.
    eapply misfit_ext; [|exact Md]. intros l A B. symmetry. auto.
  Qed.
End Geometry.
