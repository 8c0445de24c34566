(** Predicates, equality, norm, triplets, round trips. *)
From Verif Require Import Prelude Ring Vec_Model Vec_Spec Vec_Proofs Dense_Model Dense_Spec Dense_Proofs.
From Verif Require Import Sort_Model Sort_Spec Sort_Proofs.
From Verif Require Import Crs_Model Crs_Spec Crs_Base Crs_Proofs Crs_Proofs2 Crs_Proofs3 Crs_Proofs4.

Lemma sorted_lt_unique (u v : list nat) : StronglySorted lt u -> StronglySorted lt v ->
  (forall x, In x u <-> In x v) -> u = v.
Proof.
  intros Hu; revert v; induction Hu as [|a u Hu IH Ha]; intros v Hv H.
  - destruct v as [|b v]; [reflexivity|]. exfalso. apply (H b). left. reflexivity.
  - destruct Hv as [|b v Hv Hb]; [exfalso; apply (H a); left; reflexivity|].
    rewrite Forall_forall in Ha, Hb.
    assert (a = b).
    { destruct (proj1 (H a)) as [E|E]; [left; reflexivity|auto|].
      destruct (proj2 (H b)) as [E'|E']; [left; reflexivity|auto|].
      specialize (Hb a E). specialize (Ha b E'). lia. }
    subst b. f_equal. apply IH; [exact Hv|]. intros x. split; intros Hx.
    + destruct (proj1 (H x)) as [E|E]; [right; exact Hx| |exact E]. specialize (Ha x Hx). lia.
    + destruct (proj2 (H x)) as [E|E]; [right; exact Hx| |exact E]. specialize (Hb x Hx). lia.
Qed.

Section Proofs5.
  Variable R : cring.
  Local Open Scope cring_scope.
  Add Ring Rring5 : (c_ring R).
  Local Open Scope nat_scope.
  Implicit Types (m A B C : crs R) (rows : list (list (nat * R))) (row : list (nat * R)).

  (** ---------------------------------------------------------------- *)
  (** Entries and elements. *)
  Lemma entry_elem m i c x : crs_nodup m -> i < c_nrow m -> In (c, x) (crs_row m i) -> crs_elem m i c = x.
  Proof. intros N Hi H. apply row_elem_nodup; [apply N; exact Hi|exact H]. Qed.

  Lemma elem_cases m i j : crs_nodup m -> i < c_nrow m ->
    In (j, crs_elem m i j) (crs_row m i) \/ crs_elem m i j = c0.
  Proof.
    intros N Hi. destruct (in_dec Nat.eq_dec j (map fst (crs_row m i))) as [H|H].
    - left. apply in_map_iff in H. destruct H as [[c x] [E H]]. simpl in E. subst c.
      rewrite (entry_elem m i j x N Hi H). exact H.
    - right. apply row_elem_notin. exact H.
  Qed.

  (** A sorted row without zeros is the list of the non-zero elements. *)
  Lemma canonical_row row c : StronglySorted lt (map fst row) ->
    Forall (fun e => fst e < c) row -> Forall (fun e => snd e <> c0) row ->
    row = drow R (row_elem row) c.
  Proof.
    intros S1 S2 S3.
    assert (N : NoDup (map fst row)) by (apply sorted_nodup; exact S1).
    assert (E : map fst row = map fst (drow R (row_elem row) c)).
    { apply sorted_lt_unique; [exact S1|apply drow_sorted|]. intros j. rewrite drow_cols, filter_In, in_seq.
      split.
      - intros H. apply in_map_iff in H. destruct H as [[j' x] [E H]]. simpl in E. subst j'.
        rewrite Forall_forall in S2, S3. specialize (S2 _ H). specialize (S3 _ H). simpl in *.
        split; [lia|]. rewrite (row_elem_nodup R row j x N H).
        destruct (ceqb_spec R x c0); [contradiction|reflexivity].
      - intros [_ H]. destruct (in_dec Nat.eq_dec j (map fst row)) as [Hin|Hin]; [exact Hin|].
        rewrite row_elem_notin, ceqb_refl in H by exact Hin. discriminate. }
    assert (F : row = map (fun j => (j, row_elem row j)) (map fst row)).
    { rewrite map_map. rewrite <- (map_id row) at 1. apply map_ext_in. intros [j x] H. simpl.
      rewrite (row_elem_nodup R row j x N H). reflexivity. }
    rewrite F at 1. rewrite E. unfold drow. rewrite !map_map. reflexivity.
  Qed.

  Lemma crs_eqb_eq A B : crs_eqb R A B = true <-> A = B.
  Proof.
    unfold crs_eqb. destruct A as [rA cA vA nA kA], B as [rB cB vB nB kB].
    cbn [c_rowptr c_colind c_values c_nrow c_ncol].
    rewrite !andb_true_iff, !Nat.eqb_eq, list_eqb_eq.
    destruct (list_eq_dec Nat.eq_dec rA rB), (list_eq_dec Nat.eq_dec cA cB).
    - split; [intros [[[[-> ->] _] _] ->]; subst; reflexivity|]. intros [= _ _ -> -> ->]. auto.
    - split; [intros [[_ X] _]; discriminate|]. congruence.
    - split; [intros [[[_ X] _] _]; discriminate|]. congruence.
    - split; [intros [[_ X] _]; discriminate|]. congruence.
  Qed.

  Lemma in_row_nozero m i e : crs_wf m -> crs_nozero m -> i < c_nrow m -> In e (crs_row m i) -> snd e <> c0.
  Proof.
    intros W N Hi He. unfold crs_nozero in N. destruct (crs_rows_all R m W) as [_ Hv]. rewrite <- Hv in N.
    rewrite Forall_forall in N. apply N. apply in_map. apply in_concat.
    exists (crs_row m i). split; [|exact He]. apply in_map. apply in_seq. lia.
  Qed.

  (** Matrices in canonical form are determined by their elements. *)
  Lemma canonical_unique A B r c f :
    is_crs A r c f -> is_crs B r c f -> crs_sorted A -> crs_sorted B -> crs_nozero A -> crs_nozero B -> A = B.
  Proof.
    intros [A1 [A2 [A3 [A4 A5]]]] [B1 [B2 [B3 [B4 B5]]]] SA SB NA NB.
    rewrite (crs_is_of_rows R A A4) by congruence. rewrite (crs_is_of_rows R B B4) by congruence.
    rewrite A1, A2, B1, B2. f_equal. apply map_ext_in. intros i Hi. apply in_seq in Hi.
    assert (G : forall M, crs_wf M -> c_nrow M = r -> c_ncol M = c -> crs_sorted M -> crs_nozero M ->
              (forall i j, i < r -> j < c -> crs_elem M i j = f i j) -> crs_row M i = drow R (f i) c).
    { intros M WM M1 M2 SM NM HM. rewrite (canonical_row (crs_row M i) c).
      - unfold drow. rewrite (filter_ext_in _ (fun j => negb (ceqb (f i j) c0))).
        + apply map_ext_in. intros j Hj. apply filter_In in Hj. destruct Hj as [Hj _]. apply in_seq in Hj.
          f_equal. apply HM; lia.
        + intros j Hj. apply in_seq in Hj. f_equal. f_equal. apply HM; lia.
      - apply SM. lia.
      - apply Forall_forall. intros e He. rewrite <- M2. apply (crs_row_col R M i); auto. lia.
      - apply Forall_forall. intros e He. apply (in_row_nozero M i); auto. lia. }
    rewrite !G by assumption. reflexivity.
  Qed.

  (** ---------------------------------------------------------------- *)
  (** Round trips with dense matrices. *)
  Lemma dense_roundtrip a : mat_wf a ->
    exists m, crs_of_dense R a = Ok m /\ crs_toDense R m = Ok a.
  Proof.
    intros W. rewrite crs_of_dense_rows by exact W. eexists. split; [reflexivity|].
    destruct (dense_rows_is R a W) as [[X1 [X2 [X3 [X4 X5]]]] [N _]].
    destruct (toFull_zero R (mat_empty R) _ X4 N) as [d [E H]]; [constructor|].
    unfold crs_toDense. rewrite E. f_equal. apply (is_mat_unique R d a (m_nrow a) (m_ncol a) (melem a)).
    - rewrite X1, X2 in H. eapply is_mat_ext; [|exact H]. intros i j Hi Hj. apply X5; assumption.
    - apply is_mat_self. exact W.
  Qed.

  Lemma toDense_ok m : crs_wf m -> crs_nodup m ->
    exists d, crs_toDense R m = Ok d /\ is_mat d (c_nrow m) (c_ncol m) (crs_elem m).
  Proof. intros W N. apply toFull_zero; [exact W|exact N|constructor]. Qed.

  (** ---------------------------------------------------------------- *)
  (** isHermitian, isAntiHermitian. *)
  Lemma crs_isHermitian_ok big A : crs_wf A -> crs_nodup A ->
    exists v, crs_isHermitian R big A = Ok v /\
      (v = true <-> c_nrow A = c_ncol A /\
         forall i j, i < c_nrow A -> j < c_nrow A ->
           big (crs_elem A i j - cconj (crs_elem A j i))%C = false).
  Proof.
    intros W N. unfold crs_isHermitian. destruct (Nat.eqb_spec (c_nrow A) (c_ncol A)) as [E|E]; cbn [negb].
    - destruct (toDense_ok A W N) as [d [E1 [H1 [H2 [H3 H4]]]]]. unfold crs_toDense in E1. rewrite E1. cbn [bind].
      destruct (mat_isHermitian_ok R big d H3) as [v [E2 H]]; [congruence|]. exists v. split; [exact E2|].
      rewrite H. rewrite H1, H2, <- E. split.
      + intros X. split; [congruence|]. intros i j Hi Hj. specialize (X i j Hi Hj).
        rewrite !H4 in X by lia. exact X.
      + intros [_ X] i j Hi Hj. rewrite !H4 by lia. apply X; assumption.
    - exists false. split; [reflexivity|]. split; [discriminate|]. intros [X _]. contradiction.
  Qed.

  Lemma crs_isAntiHermitian_ok big A : crs_wf A -> crs_nodup A ->
    exists v, crs_isAntiHermitian R big A = Ok v /\
      (v = true <-> c_nrow A = c_ncol A /\
         forall i j, i < c_nrow A -> j < c_nrow A ->
           big (crs_elem A i j + cconj (crs_elem A j i))%C = false).
  Proof.
    intros W N. unfold crs_isAntiHermitian. destruct (Nat.eqb_spec (c_nrow A) (c_ncol A)) as [E|E]; cbn [negb].
    - destruct (toDense_ok A W N) as [d [E1 [H1 [H2 [H3 H4]]]]]. unfold crs_toDense in E1. rewrite E1. cbn [bind].
      destruct (mat_isAntiHermitian_ok R big d H3) as [v [E2 H]]; [congruence|]. exists v. split; [exact E2|].
      rewrite H. rewrite H1, H2, <- E. split.
      + intros X. split; [congruence|]. intros i j Hi Hj. specialize (X i j Hi Hj).
        rewrite !H4 in X by lia. exact X.
      + intros [_ X] i j Hi Hj. rewrite !H4 by lia. apply X; assumption.
    - exists false. split; [reflexivity|]. split; [discriminate|]. intros [X _]. contradiction.
  Qed.

  (** ---------------------------------------------------------------- *)
  (** isDiagonal, isTheIdentity, isZero. *)
  Definition dtest (big : R -> bool) (chk : bool) (i : nat) (e : nat * R) : bool :=
    negb (chk && (fst e =? i) && big (snd e + - c1)%C) && negb (negb (fst e =? i) && big (snd e)).

  Lemma forL_forallb {T} (t : T -> bool) l b :
    forL l (fun x ok => Ok (ok && t x)) b = Ok (b && forallb t l).
  Proof.
    revert b; induction l as [|x l IH]; intros b; simpl; [rewrite andb_true_r; reflexivity|].
    rewrite IH, andb_assoc. reflexivity.
  Qed.

  Lemma isDiagonal_forallb big A chk : crs_wf A ->
    crs_isDiagonal R big A chk =
    Ok ((c_nrow A =? c_ncol A) && forallb (fun i => forallb (dtest big chk i) (crs_row A i)) (seq 0 (c_nrow A))).
  Proof.
    intros W. unfold crs_isDiagonal. destruct (c_nrow A =? c_ncol A); cbn [negb andb]; [|reflexivity].
    rewrite forM_forL.
    rewrite (forL_ext_in _ _ (fun i (ok : bool) => Ok (ok && forallb (dtest big chk i) (crs_row A i)))).
    - apply (forL_forallb (fun i => forallb (dtest big chk i) (crs_row A i))).
    - intros i ok Hi. apply in_seq in Hi.
      rewrite (for_row_forL R A i _ (fun e ok => Ok (ok && dtest big chk i e)));
        [apply forL_forallb|exact W|lia|].
      intros k t _ Hk. rewrite wf_getCol, wf_getValue by assumption. cbn [bind].
      unfold dtest. cbn [fst snd].
      destruct t, chk, (nth k (c_colind A) 0 =? i); cbn [negb andb];
        repeat match goal with |- context[big ?x] => destruct (big x) end; reflexivity.
  Qed.

  Lemma isDiagonal_ok big A : crs_wf A -> crs_nodup A -> big c0 = false ->
    exists v, crs_isDiagonal R big A false = Ok v /\
      (v = true <-> c_nrow A = c_ncol A /\
         forall i j, i < c_nrow A -> j < c_nrow A -> i <> j -> big (crs_elem A i j) = false).
  Proof.
    intros W N Hb. eexists. split; [apply isDiagonal_forallb; exact W|].
    rewrite andb_true_iff, Nat.eqb_eq, forallb_forall. split.
    - intros [E H]. split; [exact E|]. intros i j Hi Hj Hne.
      destruct (elem_cases A i j N Hi) as [Hin|E0]; [|rewrite E0; exact Hb].
      specialize (H i). rewrite forallb_forall in H. specialize (H ltac:(apply in_seq; lia) _ Hin).
      unfold dtest in H. cbn [fst snd andb] in H. destruct (Nat.eqb_spec j i); [congruence|].
      simpl in H. destruct (big (crs_elem A i j)); [discriminate|reflexivity].
    - intros [E H]. split; [exact E|]. intros i Hi. apply in_seq in Hi. apply forallb_forall.
      intros [j x] Hin. unfold dtest. cbn [fst snd andb].
      destruct (Nat.eqb_spec j i) as [|Hne]; cbn [negb andb]; [reflexivity|].
      assert (Hj : j < c_nrow A) by (rewrite E; apply (crs_row_col R A i (j, x)); auto; lia).
      specialize (H i j ltac:(lia) Hj ltac:(congruence)).
      rewrite (entry_elem A i j x N ltac:(lia) Hin) in H. rewrite H. reflexivity.
  Qed.

  (** The identity test looks only at the diagonal elements that are stored. *)
  Lemma isTheIdentity_ok big A : crs_wf A -> crs_nodup A -> big c0 = false ->
    exists v, crs_isTheIdentity R big A = Ok v /\
      (v = true <-> c_nrow A = c_ncol A /\
         (forall i j, i < c_nrow A -> j < c_nrow A -> i <> j -> big (crs_elem A i j) = false) /\
         (forall i, i < c_nrow A -> In i (map fst (crs_row A i)) -> big (crs_elem A i i - c1)%C = false)).
  Proof.
    intros W N Hb. unfold crs_isTheIdentity. eexists. split; [apply isDiagonal_forallb; exact W|].
    assert (Hm : forall x : R, (x + - c1 = x - c1)%C) by (intros; ring).
    rewrite andb_true_iff, Nat.eqb_eq, forallb_forall. split.
    - intros [E H]. split; [exact E|]. split.
      + intros i j Hi Hj Hne.
        destruct (elem_cases A i j N Hi) as [Hin|E0]; [|rewrite E0; exact Hb].
        specialize (H i). rewrite forallb_forall in H. specialize (H ltac:(apply in_seq; lia) _ Hin).
        unfold dtest in H. cbn [fst snd andb] in H. destruct (Nat.eqb_spec j i); [congruence|].
        simpl in H. destruct (big (crs_elem A i j)); [discriminate|reflexivity].
      + intros i Hi Hin. apply in_map_iff in Hin. destruct Hin as [[j x] [Ej Hin]]. simpl in Ej. subst j.
        specialize (H i). rewrite forallb_forall in H. specialize (H ltac:(apply in_seq; lia) _ Hin).
        unfold dtest in H. cbn [fst snd andb] in H. rewrite Nat.eqb_refl in H. simpl in H.
        rewrite (entry_elem A i i x N Hi Hin). rewrite <- Hm.
        destruct (big (x + - c1)%C); [discriminate|reflexivity].
    - intros [E [H1 H2]]. split; [exact E|]. intros i Hi. apply in_seq in Hi. apply forallb_forall.
      intros [j x] Hin. unfold dtest. cbn [fst snd andb].
      destruct (Nat.eqb_spec j i) as [->|Hne]; cbn [negb andb].
      + specialize (H2 i ltac:(lia)). rewrite (entry_elem A i i x N ltac:(lia) Hin) in H2.
        rewrite Hm, H2; [reflexivity|]. apply in_map_iff. exists (i, x). auto.
      + assert (Hj : j < c_nrow A) by (rewrite E; apply (crs_row_col R A i (j, x)); auto; lia).
        specialize (H1 i j ltac:(lia) Hj ltac:(congruence)).
        rewrite (entry_elem A i j x N ltac:(lia) Hin) in H1. rewrite H1. reflexivity.
  Qed.

  Lemma isZero_ok big A : crs_wf A -> crs_nodup A -> big c0 = false ->
    exists v, crs_isZero R big A = Ok v /\
      (v = true <-> forall i j, i < c_nrow A -> j < c_ncol A -> big (crs_elem A i j) = false).
  Proof.
    intros W N Hb. unfold crs_isZero. rewrite forM_forL.
    rewrite (forL_ext_in _ _ (fun i (ok : bool) => Ok (ok && negb (big (nth i (c_values A) c0))))).
    2:{ intros i ok Hi. apply in_seq in Hi. destruct ok; cbn [negb andb]; [|reflexivity].
        rewrite (vget_ok _ c0) by lia. reflexivity. }
    rewrite (forL_forallb (fun i => negb (big (nth i (c_values A) c0)))). eexists. split; [reflexivity|].
    cbn [andb]. rewrite forallb_forall. destruct (crs_rows_all R A W) as [_ Hv]. split.
    - intros H i j Hi Hj. destruct (elem_cases A i j N Hi) as [Hin|E0]; [|rewrite E0; exact Hb].
      assert (Hin' : In (crs_elem A i j) (c_values A)).
      { rewrite <- Hv. apply in_map_iff. exists (j, crs_elem A i j). split; [reflexivity|].
        apply in_concat. exists (crs_row A i). split; [apply in_map, in_seq; lia|exact Hin]. }
      apply (In_nth _ _ c0) in Hin'. destruct Hin' as [k [Hk Ek]].
      specialize (H k ltac:(apply in_seq; lia)). rewrite Ek in H.
      destruct (big (crs_elem A i j)); [discriminate|reflexivity].
    - intros H k Hk. apply in_seq in Hk.
      assert (Hin : In (nth k (c_values A) c0) (c_values A)) by (apply nth_In; lia).
      rewrite <- Hv in Hin at 2. apply in_map_iff in Hin. destruct Hin as [[j x] [Ex Hin]]. simpl in Ex.
      apply in_concat in Hin. destruct Hin as [row [Hrow Hin]]. apply in_map_iff in Hrow.
      destruct Hrow as [i [<- Hi]]. apply in_seq in Hi. rewrite <- Ex.
      rewrite <- (entry_elem A i j x N ltac:(lia) Hin). rewrite H; [reflexivity|lia|].
      apply (crs_row_col R A i (j, x)); auto; lia.
  Qed.

  (** ---------------------------------------------------------------- *)
  (** norm2. *)
  Lemma row_elem_mapped row (g : R -> R) k : NoDup (map fst row) -> g c0 = c0 ->
    row_elem (map (fun e => (fst e, g (snd e))) row) k = g (row_elem row k).
  Proof.
    intros N H0. destruct (in_dec Nat.eq_dec k (map fst row)) as [H|H].
    - apply in_map_iff in H. destruct H as [[k' x] [E H]]. simpl in E. subst k'.
      rewrite (row_elem_nodup R row k x N H). apply row_elem_nodup.
      + rewrite map_map. exact N.
      + apply in_map_iff. exists (k, x). auto.
    - rewrite (row_elem_notin R row k H), H0. apply row_elem_notin. rewrite map_map. exact H.
  Qed.

  Lemma crs_norm2_ok m : crs_wf m -> crs_nodup m ->
    crs_norm2 R m = Ok (sumn (c_nrow m) (fun i => sumn (c_ncol m)
      (fun j => (cconj (crs_elem m i j) * crs_elem m i j)%C))).
  Proof.
    intros W N. unfold crs_norm2.
    rewrite (forM_sum R _ _ (fun k => (cconj (nth k (c_values m) c0) * nth k (c_values m) c0)%C)).
    2:{ intros i acc Hi. rewrite (vget_ok _ c0) by lia. reflexivity. }
    f_equal. rewrite cadd_0_l. unfold sumn at 1.
    rewrite <- (suml_map R (fun x => (cconj x * x)%C) (fun k => nth k (c_values m) c0)).
    rewrite map_nth_seq. destruct (crs_rows_all R m W) as [_ Hv]. rewrite <- Hv at 1.
    rewrite suml_map, suml_concat, suml_map. unfold sumn at 1. apply suml_ext_in. intros i Hi. apply in_seq in Hi.
    rewrite (suml_group R fst _ (crs_row m i) (c_ncol m)).
    - apply sumn_ext. intros k Hk. unfold crs_elem.
      rewrite <- (row_elem_mapped (crs_row m i) (fun x => (cconj x * x)%C) k).
      + unfold row_elem. rewrite suml_map. reflexivity.
      + apply N. lia.
      + rewrite cconj_0. ring.
    - intros e He. apply (crs_row_col R m i); auto; lia.
  Qed.

  Lemma multiplyTc_ok a b : crs_wf a -> crs_wf b -> c_ncol a = c_ncol b ->
    exists d, multiplyTc R a b = Ok d /\
      is_mat d (c_nrow a) (c_nrow b)
        (fun i j => sumn (c_ncol a) (fun k => (crs_elem a i k * cconj (crs_elem b j k))%C)).
  Proof.
    intros Wa Wb Hd. unfold multiplyTc.
    destruct (transposeConjugate_ok R (crs_empty R) b Wb) as [bb [E1 [[X1 [X2 [X3 [X4 X5]]]] _]]].
    rewrite E1. cbn [bind].
    destruct (multiply_ok R (crs_empty R) a bb Wa X4) as [c [E2 [[Y1 [Y2 [Y3 [Y4 Y5]]]] N]]]; [congruence|].
    rewrite E2. cbn [bind].
    destruct (toFull_zero R (mat_empty R) c Y4 N) as [d [E3 H]]; [constructor|].
    exists d. split; [exact E3|]. rewrite Y1, Y2, X2 in H. eapply is_mat_ext; [|exact H].
    intros i j Hi Hj. cbv beta. rewrite Y5 by congruence. apply sumn_ext. intros k Hk.
    rewrite X5 by congruence. reflexivity.
  Qed.

  (** ---------------------------------------------------------------- *)
  (** Triplets: every row from 0 to k-1 exactly once. *)
  Lemma sorted_le_unique (u v : list nat) :
    StronglySorted (fun a b => Nat.ltb b a = false) u -> StronglySorted (fun a b => Nat.ltb b a = false) v ->
    Permutation u v -> u = v.
  Proof.
    intros Hu; revert v; induction Hu as [|a u Hu IH Ha]; intros v Hv H.
    - apply Permutation_nil in H. auto.
    - destruct Hv as [|b v Hv Hb].
      + apply Permutation_sym, Permutation_nil in H. discriminate.
      + rewrite Forall_forall in Ha, Hb.
        assert (a = b).
        { assert (Hina : In a (b :: v)) by (apply (Permutation_in _ H); left; reflexivity).
          assert (Hinb : In b (a :: u)) by (apply (Permutation_in _ (Permutation_sym H)); left; reflexivity).
          destruct Hina as [|Hina]; [auto|]. destruct Hinb as [|Hinb]; [auto|].
          specialize (Ha _ Hinb). specialize (Hb _ Hina).
          apply Nat.ltb_ge in Ha, Hb. lia. }
        subst b. f_equal. apply IH; [exact Hv|]. apply Permutation_cons_inv in H. exact H.
  Qed.

  Lemma triplets_ok srt rank (rows2 cols : list nat) (vals : list R) k :
    stdsort_ok Nat.ltb srt -> is_perm rows2 k -> 0 < k -> k <= rank ->
    length cols = k -> length vals = k -> Forall (fun c => c < rank) cols ->
    exists m, crs_of_triplets R srt rank rows2 cols vals = Ok m /\
      is_crs m rank rank (fun i j => sumn k (fun t =>
        if (nth t rows2 0 =? i) && (nth t cols 0 =? j) then nth t vals c0 else c0)) /\
      crs_nodup m.
  Proof.
    intros Hsrt Hp Hk Hkr Lc Lv Hc. unfold crs_of_triplets.
    assert (Lr := perm_length _ _ Hp).
    destruct (sort_correct _ _ _ Hsrt rows2 (repeat 0 (length rows2))) as [rows [ip [E [L1 [Hasc [Hip Hnth]]]]]];
      [apply repeat_length|].
    rewrite E. cbn [bind].
    assert (Lip : length ip = k).
    { apply Permutation_length in Hip. rewrite seq_length in Hip. lia. }
    assert (Hrows : rows = seq 0 k).
    { apply sorted_le_unique.
      - exact Hasc.
      - assert (G : forall a n, StronglySorted (fun a b => Nat.ltb b a = false) (seq a n)).
        { intros a n; revert a; induction n; intros a; simpl; constructor; auto.
          apply Forall_forall. intros x Hx. apply in_seq in Hx. apply Nat.ltb_ge. lia. }
        apply G.
      - apply Permutation_sym. eapply Permutation_trans; [exact Hp|].
        rewrite <- (map_nth_seq rows2 0). 
        replace rows with (map (fun i => nth i rows2 0) ip).
        + apply Permutation_map. exact Hip.
        + apply (list_eq_nth _ _ 0); [rewrite map_length; lia|]. intros i Hi. rewrite map_length in Hi.
          rewrite (nth_indep _ 0 (nth 0 rows2 0)) by (rewrite map_length; exact Hi).
          rewrite (map_nth (fun i => nth i rows2 0)). symmetry. apply Hnth. lia. }
    assert (Hipk : forall i, i < k -> nth i ip 0 < k /\ nth (nth i ip 0) rows2 0 = i).
    { intros i Hi. split.
      - assert (Hin : In (nth i ip 0) ip) by (apply nth_In; lia).
        apply (Permutation_in _ (Permutation_sym Hip)) in Hin. apply in_seq in Hin. lia.
      - rewrite <- (Hnth 0) by lia. rewrite Hrows. rewrite seq_nth by exact Hi. reflexivity. }
    rewrite Hrows, seq_length. rewrite (vget_ok _ 0) by (rewrite seq_length; lia). cbn [bind].
    rewrite seq_nth by exact Hk. cbn [Nat.add].
    set (rowf := fun i => [(nth (nth i ip 0) cols 0, nth (nth i ip 0) vals c0)]).
    loopM (fun i (st : crs R * nat * nat) => let '(m, counter, prevRow) := st in
             bld rank rank (map rowf (seq 0 i)) m counter /\ counter = i /\ prevRow <> i) as [[m1 cnt1] prev1] E1 H1.
    - split; [|split; lia]. exists (repeat 0 (rank + 1)). split; [reflexivity|].
      split; [rewrite repeat_length; lia|]. split; [reflexivity|]. simpl. intros; lia.
    - intros i [[m counter] prevRow] [_ Hi] [HB [-> Hprev]]. simpl in Hi.
      rewrite (vget_ok _ 0) by (rewrite seq_length; lia). cbn [bind]. rewrite seq_nth by exact Hi. cbn [Nat.add].
      destruct (Nat.eqb_spec prevRow i); [contradiction|]. cbn [negb].
      destruct (bld_setRow _ _ _ _ _ _ HB) as [m' [E' H']]; [rewrite map_length, seq_length; lia|].
      rewrite map_length, seq_length in E'. rewrite E'. cbn [bind].
      destruct (Hipk i Hi) as [Hi1 Hi2]. rewrite (vget_ok ip 0) by lia. cbn [bind].
      rewrite (vget_ok cols 0), (vget_ok vals c0) by lia. cbn [bind].
      eexists. split; [reflexivity|]. cbv beta iota. split; [|split; lia].
      rewrite seq_S, map_app. apply bldr_done. 
      change (rowf (0 + i)) with ([] ++ [(nth (nth i ip 0) cols 0, nth (nth i ip 0) vals c0)]).
      apply bldr_push. exact H'.
    - rewrite E1. cbn [bind]. destruct H1 as [HB [-> _]]. simpl in HB.
      rewrite (vget_ok _ 0) by (rewrite seq_length; lia). cbn [bind]. rewrite seq_nth by lia.
      replace (0 + (k - 1) + 1) with k by lia. simpl Nat.add in *.
      set (rws := map rowf (seq 0 k)) in *.
      assert (Lrw : length rws = k) by (unfold rws; rewrite map_length, seq_length; reflexivity).
      loopR (fun i (m : crs R) => (i <= rank -> bld rank rank (rws ++ repeat [] (i - k)) m k) /\
               (i = rank + 1 -> m = of_rows rank (rws ++ repeat [] (rank - k)))) as m2 E2 H2.
      + lia.
      + split; [|lia]. intros _. rewrite Nat.sub_diag. simpl. rewrite app_nil_r. exact HB.
      + intros i m [Hi1 Hi2] [I1 _].
        assert (HBi := I1 ltac:(lia)).
        assert (Li : length (rws ++ repeat [] (i - k)) = i) by (rewrite app_length, repeat_length; lia).
        destruct (bld_setRow _ _ _ _ _ _ HBi) as [m' [E' H']]; [lia|]. rewrite Li in E'.
        rewrite E'. exists m'. split; [reflexivity|]. split.
        * intros HiS. replace (S i - k) with (S (i - k)) by lia. rewrite <- repeat_snoc, app_assoc.
          apply bldr_done. exact H'.
        * intros HiS. assert (i = rank) by lia. subst i.
          pose proof (bld_finish _ _ _ _ _ _ HBi Li) as X. rewrite X in E'. apply Ok_inj in E'. auto.
      + exists m2. split; [exact E2|]. destruct H2 as [_ H2]. rewrite H2 by reflexivity.
        assert (Lrr : length (rws ++ repeat [] (rank - k)) = rank) by (rewrite app_length, repeat_length; lia).
        assert (Hrow : forall i, i < rank -> nth i (rws ++ repeat [] (rank - k)) [] =
                         if i <? k then rowf i else []).
        { intros i Hi. destruct (Nat.ltb_spec i k) as [H|H].
          - rewrite app_nth1 by lia. unfold rws. apply nth_map_seq. exact H.
          - rewrite app_nth2 by lia. apply nth_repeat_same. }
        split.
        * refine (eq_ind _ (fun q => is_crs (of_rows rank (rws ++ repeat [] (rank - k))) q rank _) _ _ Lrr).
          apply of_rows_is.
          -- apply Forall_forall. intros r Hr. apply (In_nth _ _ []) in Hr. destruct Hr as [i [Hi <-]].
             rewrite Lrr in Hi. rewrite Hrow by exact Hi. destruct (Nat.ltb_spec i k) as [H|H]; [|constructor].
             constructor; [|constructor]. cbn [fst]. rewrite Forall_forall in Hc. apply Hc. apply nth_In.
             destruct (Hipk i H). lia.
          -- rewrite Lrr. intros i j Hi Hj. rewrite Hrow by exact Hi. destruct (Nat.ltb_spec i k) as [H|H].
             ++ destruct (Hipk i H) as [Hi1 Hi2]. unfold sumn.
                rewrite (suml_single R _ (seq 0 k) (nth i ip 0) (seq_NoDup k 0)).
                ** rewrite Hi2, Nat.eqb_refl. unfold row_elem, rowf. simpl.
                   destruct (nth (nth i ip 0) cols 0 =? j); ring.
                ** apply in_seq. lia.
                ** intros t Ht Hne. apply in_seq in Ht. destruct (Nat.eqb_spec (nth t rows2 0) i) as [Et|]; [|reflexivity].
                   exfalso. apply Hne. apply (perm_inj _ _ Hp); lia.
             ++ symmetry. apply sumn_zero. intros t Ht.
                pose proof (perm_lt _ _ Hp t Ht). destruct (Nat.eqb_spec (nth t rows2 0) i); [lia|reflexivity].
        * apply of_rows_nodup. rewrite Lrr. intros i Hi. rewrite Hrow by exact Hi.
          destruct (i <? k); [|constructor]. simpl. constructor; [tauto|constructor].
  Qed.
End Proofs5.
