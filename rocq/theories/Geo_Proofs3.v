From Verif Require Import Prelude Ring Vec_Model Dense_Model Dense_Spec Dense_Proofs Geo_Model Geo_Spec Geo_Proofs.
From Coq Require Import ZArith Lia Bool List Permutation.
Import ListNotations.
Local Open Scope Z_scope.

(** ** Honeycomb without periodic columns *)
Section Honey.
  Variables (lx ly : Z) (py : bool).
  Hypothesis Hly : 0 < ly.
  Hypothesis Hsm : ly * lx < 9223372036854775808.
  Let g := mkhoney (ly * lx) ly py false.

  Definition hbX (x1 y1 x2 y2 : Z) : bool :=
    if x1 =? x2 then ((y2 - y1 =? 1) && is4nPlus2 y1) || (py && (y2 - y1 + 1 =? ly) && is4nPlus2 y2)
    else (y2 - y1 =? 1) && (x2 - x1 =? 1) && isMultipleOf4 y1.
  Definition hbY (x1 y1 x2 y2 : Z) : bool :=
    if x1 =? x2 then ((y2 - y1 =? 1) && isMultipleOf4 y1) || (py && (y2 - y1 + 1 =? ly) && isMultipleOf4 y2)
    else false.
  Definition hbZ (x1 y1 x2 y2 : Z) : bool :=
    if x1 =? x2 then ((y2 - y1 =? 1) && Z.odd y1) || (py && (y2 - y1 + 1 =? ly))
    else false.

  Lemma w64_one d : -9223372036854775808 < d < 9223372036854775808 -> (w64 d =? 1) = (d =? 1).
  Proof.
    intros H. destruct (Z_lt_le_dec d 0).
    - unfold w64. replace d with ((d + 18446744073709551616) + (-1) * 18446744073709551616) at 1 by lia.
      rewrite Z.mod_add by lia. rewrite Z.mod_small by lia.
      destruct (Z.eqb_spec (d + 18446744073709551616) 1), (Z.eqb_spec d 1); lia.
    - now rewrite w64_small by lia.
  Qed.

  Lemma ho_conn_eq x1 y1 x2 y2 : 0 <= y1 < ly -> 0 <= y2 < ly -> 0 <= x1 < lx -> 0 <= x2 < lx ->
    y1 + x1 * ly < y2 + x2 * ly ->
    ho_conn g (y1 + x1 * ly) (y2 + x2 * ly) =
    Ok (if hbX x1 y1 x2 y2 then Some 0 else if hbY x1 y1 x2 y2 then Some 1
        else if hbZ x1 y1 x2 y2 then Some 2 else None).
  Proof.
    intros Y1 Y2 X1 X2 Hlt. unfold ho_conn.
    destruct (Z.eqb_spec (y1 + x1 * ly) (y2 + x2 * ly)); [lia|].
    destruct (Z.ltb_spec (y1 + x1 * ly) (y2 + x2 * ly)); [|lia].
    unfold g; cbn [ho_ly]. destruct (Z.eqb_spec ly 0); [lia|]. cbn [negb].
    rewrite !coord_div, !coord_mod by lia.
    unfold ho_isX, ho_isY, ho_isZ, hbX, hbY, hbZ.
    destruct (Z.eqb_spec x1 x2) as [->|Hx]; cbn [negb].
    - assert (y1 < y2) by lia.
      unfold ho_XsameCol, ho_YsameCol. cbn [ho_py ho_ly].
      destruct (Z.ltb_spec y1 y2); [|lia].
      destruct (Z.eqb_spec (y2 - y1) 1); cbn [andb orb];
        destruct (is4nPlus2 y1), (is4nPlus2 y2), (isMultipleOf4 y1), (isMultipleOf4 y2), (Z.odd y1), py, (y2 - y1 + 1 =? ly); reflexivity.
    - assert (x1 < x2) by nia. assert (ly < 9223372036854775808) by nia.
      rewrite w64_one by lia.
      destruct (Z.eqb_spec (y2 - y1) 1); cbn [andb negb]; [|reflexivity].
      destruct (Z.ltb_spec x1 x2); [|lia]. cbn [ho_px negb].
      destruct (Z.ltb_spec y1 y2); [|lia]. destruct (Z.ltb_spec y2 y1); [lia|].
      rewrite !andb_true_r, !andb_false_r. cbn [bind].
      destruct ((x2 - x1 =? 1) && isMultipleOf4 y1); reflexivity.
  Qed.

  Lemma is4nPlus2_iff y : 0 <= y -> (is4nPlus2 y = true <-> y mod 4 = 2).
  Proof.
    intros H. unfold is4nPlus2. destruct (Z.ltb_spec y 2).
    - split; [discriminate|]. intros. rewrite Z.mod_small in *; lia.
    - rewrite Z.eqb_eq. Z.to_euclidean_division_equations. lia.
  Qed.
  Lemma isMult4_iff y : isMultipleOf4 y = true <-> y mod 4 = 0.
  Proof. apply Z.eqb_eq. Qed.
  Lemma odd_iff y : Z.odd y = true <-> y mod 2 = 1.
  Proof. rewrite Zmod_odd. destruct (Z.odd y); split; intros; congruence. Qed.

  Lemma mod24 y : exists q p, y = 4 * q + y mod 4 /\ y = 2 * p + y mod 2.
  Proof. exists (y / 4), (y / 2). split; apply Z.div_mod; lia. Qed.

  (** The bonds, lower end first. *)
  Definition hbond (d x1 y1 x2 y2 : Z) : Prop :=
    (d = 0 /\ ((x1 = x2 /\ y2 = y1 + 1 /\ y1 mod 4 = 2) \/ (x2 = x1 + 1 /\ y2 = y1 + 1 /\ y1 mod 4 = 0) \/
               (py = true /\ x1 = x2 /\ y1 = 0 /\ y2 = ly - 1 /\ y2 mod 4 = 2))) \/
    (d = 1 /\ ((x1 = x2 /\ y2 = y1 + 1 /\ y1 mod 4 = 0) \/
               (py = true /\ x1 = x2 /\ y1 = 0 /\ y2 = ly - 1 /\ 1 < ly /\ y2 mod 4 = 0))) \/
    (d = 2 /\ ((x1 = x2 /\ y2 = y1 + 1 /\ y1 mod 2 = 1) \/
               (py = true /\ x1 = x2 /\ y1 = 0 /\ y2 = ly - 1 /\ y2 mod 2 = 1 /\ (y2 = 1 -> False)))).

  Lemma ho_conn_bond x1 y1 x2 y2 d : 0 <= y1 < ly -> 0 <= y2 < ly -> 0 <= x1 < lx -> 0 <= x2 < lx ->
    y1 + x1 * ly < y2 + x2 * ly ->
    (ho_conn g (y1 + x1 * ly) (y2 + x2 * ly) = Ok (Some d) <-> hbond d x1 y1 x2 y2).
  Proof.
    intros Y1 Y2 X1 X2 Hlt. rewrite ho_conn_eq by auto.
    assert (EX : hbX x1 y1 x2 y2 = true <->
      ((x1 = x2 /\ y2 = y1 + 1 /\ y1 mod 4 = 2) \/ (x2 = x1 + 1 /\ y2 = y1 + 1 /\ y1 mod 4 = 0) \/
               (py = true /\ x1 = x2 /\ y1 = 0 /\ y2 = ly - 1 /\ y2 mod 4 = 2))).
    { unfold hbX. destruct (Z.eqb_spec x1 x2) as [->|Hx].
      - rewrite orb_true_iff, !andb_true_iff, !is4nPlus2_iff, !Z.eqb_eq by lia. split.
        + intros [[A B]|[[A B] C]]; [left|right; right]; repeat split; auto; lia.
        + intros [(_&A&B)|[(A&_)|(A&_&B&C&D)]]; [left|lia|right]; repeat split; auto; lia.
      - rewrite !andb_true_iff, isMult4_iff, !Z.eqb_eq. split.
        + intros [[A B] C]. right. left. repeat split; auto; lia.
        + intros [(A&_)|[(A&B&C)|(_&A&_)]]; try congruence. repeat split; auto; lia. }
    assert (EY : hbY x1 y1 x2 y2 = true <->
      ((x1 = x2 /\ y2 = y1 + 1 /\ y1 mod 4 = 0) \/
               (py = true /\ x1 = x2 /\ y1 = 0 /\ y2 = ly - 1 /\ 1 < ly /\ y2 mod 4 = 0))).
    { unfold hbY. destruct (Z.eqb_spec x1 x2) as [->|Hx].
      - rewrite orb_true_iff, !andb_true_iff, !isMult4_iff, !Z.eqb_eq by lia. split.
        + intros [[A B]|[[A B] C]]; [left|right]; repeat split; auto; lia.
        + intros [(_&A&B)|(A&_&B&C&D&E)]; [left|right]; repeat split; auto; lia.
      - split; [discriminate|]. intros [(A&_)|(_&A&_)]; congruence. }
    assert (EZ : hbZ x1 y1 x2 y2 = true <->
      ((x1 = x2 /\ y2 = y1 + 1 /\ y1 mod 2 = 1) \/
               (py = true /\ x1 = x2 /\ y1 = 0 /\ y2 = ly - 1))).
    { unfold hbZ. destruct (Z.eqb_spec x1 x2) as [->|Hx].
      - rewrite orb_true_iff, !andb_true_iff, !odd_iff, !Z.eqb_eq by lia. split.
        + intros [[A B]|[A B]]; [left|right]; repeat split; auto; lia.
        + intros [(_&A&B)|(A&_&B&C)]; [left|right]; repeat split; auto; lia.
      - split; [discriminate|]. intros [(A&_)|(_&A&_)]; congruence. }
    destruct (mod24 y1) as (q1 & p1 & Q1 & P1). destruct (mod24 y2) as (q2 & p2 & Q2 & P2).
    pose proof (Z.mod_pos_bound y1 4 ltac:(lia)) as Bm0. pose proof (Z.mod_pos_bound y2 4 ltac:(lia)) as Bm1.
    pose proof (Z.mod_pos_bound y1 2 ltac:(lia)) as Bm2. pose proof (Z.mod_pos_bound y2 2 ltac:(lia)) as Bm3.
    unfold hbond.
    destruct (hbX x1 y1 x2 y2).
    { assert (K := proj1 EX eq_refl). split.
      - intros E. injection E as <-. left. auto.
      - intros [[-> _]|[[-> H]|[-> H]]]; [reflexivity| |];
        exfalso; clear EX EY EZ; lia. }
    assert (NX : ~ ((x1 = x2 /\ y2 = y1 + 1 /\ y1 mod 4 = 2) \/ (x2 = x1 + 1 /\ y2 = y1 + 1 /\ y1 mod 4 = 0) \/
               (py = true /\ x1 = x2 /\ y1 = 0 /\ y2 = ly - 1 /\ y2 mod 4 = 2))).
    { intros K. apply EX in K. discriminate. }
    destruct (hbY x1 y1 x2 y2).
    { assert (K := proj1 EY eq_refl). split.
      - intros E. injection E as <-. right. left. auto.
      - intros [[-> H]|[[-> _]|[-> H]]]; [tauto|reflexivity|].
        exfalso; clear EX EY EZ NX; lia. }
    assert (NY : ~ ((x1 = x2 /\ y2 = y1 + 1 /\ y1 mod 4 = 0) \/
               (py = true /\ x1 = x2 /\ y1 = 0 /\ y2 = ly - 1 /\ 1 < ly /\ y2 mod 4 = 0))).
    { intros K. apply EY in K. discriminate. }
    destruct (hbZ x1 y1 x2 y2).
    { assert (K := proj1 EZ eq_refl). split.
      - intros E. injection E as <-. right. right. split; auto.
        destruct K as [K|(K1&K2&K3&K4)]; [now left|].
        destruct (Z.eq_dec (y2 mod 2) 1).
        + destruct (Z.eq_dec y2 1) as [->|].
          * exfalso. apply NY. left. split; auto. subst y1. split; auto.
          * right. repeat split; auto.
        + exfalso. destruct (Z.eq_dec (y2 mod 4) 2).
          * apply NX. right. right. auto.
          * apply NY. right. clear EX EY EZ NX NY. repeat split; auto; lia.
      - intros [[-> H]|[[-> H]|[-> H]]]; [tauto|tauto|reflexivity]. }
    split; [discriminate|]. intros [[-> H]|[[-> H]|[-> H]]]; try tauto.
  Qed.

  Lemma ho_conn_sym i j : ho_conn g i j = ho_conn g j i.
  Proof.
    destruct (Z.eq_dec i j) as [->|Hne]; auto. unfold ho_conn. rewrite (Z.eqb_sym j i).
    destruct (Z.eqb_spec i j); [congruence|].
    destruct (Z.ltb_spec i j), (Z.ltb_spec j i); try lia; reflexivity.
  Qed.

  Lemma ho_total i j : in_range (ly * lx) i -> in_range (ly * lx) j -> exists o, ho_conn g i j = Ok o.
  Proof.
    intros Hi Hj.
    destruct (coord_ex ly lx i Hly Hi) as (x1 & y1 & -> & R1 & C1).
    destruct (coord_ex ly lx j Hly Hj) as (x2 & y2 & -> & R2 & C2).
    destruct (Z.lt_trichotomy (y1 + x1 * ly) (y2 + x2 * ly)) as [H|[H|H]].
    - rewrite ho_conn_eq by auto. eauto.
    - rewrite H. unfold ho_conn. rewrite Z.eqb_refl. eauto.
    - rewrite ho_conn_sym, ho_conn_eq by auto. eauto.
  Qed.

  (** A bond seen from one of its ends. *)
  Lemma hbond_lt d x y x' y' : 0 <= y < ly -> 0 <= y' < ly -> hbond d x y x' y' -> y + x * ly < y' + x' * ly.
  Proof.
    intros A B H. unfold hbond in H.
    assert ((x' = x /\ y < y') \/ (x' = x + 1)) as [[-> ?]| ->].
    { destruct (mod24 y') as (q & p & Q & P).
      pose proof (Z.mod_pos_bound y' 4 ltac:(lia)) as B4. pose proof (Z.mod_pos_bound y' 2 ltac:(lia)) as B2.
      lia. }
    all: nia.
  Qed.
  Lemma ho_conn_any x1 y1 x2 y2 d : 0 <= y1 < ly -> 0 <= y2 < ly -> 0 <= x1 < lx -> 0 <= x2 < lx ->
    (ho_conn g (y1 + x1 * ly) (y2 + x2 * ly) = Ok (Some d) <->
     hbond d x1 y1 x2 y2 \/ hbond d x2 y2 x1 y1).
  Proof.
    intros Y1 Y2 X1 X2. split.
    - intros H. destruct (Z.lt_trichotomy (y1 + x1 * ly) (y2 + x2 * ly)) as [L|[L|L]].
      + left. apply ho_conn_bond; auto.
      + rewrite L in H. unfold ho_conn in H. rewrite Z.eqb_refl in H. discriminate.
      + right. rewrite ho_conn_sym in H. apply ho_conn_bond; auto.
    - intros [H|H].
      + apply ho_conn_bond; auto. eapply hbond_lt; eauto.
      + rewrite ho_conn_sym. apply ho_conn_bond; auto. eapply hbond_lt; eauto.
  Qed.

  Hypothesis Heven : py = true -> ly mod 2 = 0.
  Lemma hbond_unique d x y x1 y1 x2 y2 : 0 <= y < ly -> 0 <= y1 < ly -> 0 <= y2 < ly ->
    hbond d x y x1 y1 \/ hbond d x1 y1 x y -> hbond d x y x2 y2 \/ hbond d x2 y2 x y -> x1 = x2 /\ y1 = y2.
  Proof.
    intros Y Y1 Y2 H1 H2.
    destruct (mod24 y) as (q & p & Q & P). destruct (mod24 y1) as (q1 & p1 & Q1 & P1).
    destruct (mod24 y2) as (q2 & p2 & Q2 & P2). destruct (mod24 ly) as (ql & pl & Ql & Pl).
    pose proof (Z.mod_pos_bound y 4 ltac:(lia)) as B1. pose proof (Z.mod_pos_bound y1 4 ltac:(lia)) as B2.
    pose proof (Z.mod_pos_bound y2 4 ltac:(lia)) as B3. 
    pose proof (Z.mod_pos_bound y 2 ltac:(lia)) as B4. pose proof (Z.mod_pos_bound y1 2 ltac:(lia)) as B5.
    pose proof (Z.mod_pos_bound y2 2 ltac:(lia)) as B6.
    unfold hbond in *.
    destruct py; [specialize (Heven eq_refl)|]; clear Ql;
    destruct H1 as [[[-> H1]|[[-> H1]|[-> H1]]]|[[-> H1]|[[-> H1]|[-> H1]]]];
    destruct H2 as [[[E H2]|[[E H2]|[E H2]]]|[[E H2]|[[E H2]|[E H2]]]]; try discriminate E; clear E; lia.
  Qed.
End Honey.

(** ** Splitting *)
Local Open Scope nat_scope.
Lemma concat_snoc {A} (X : list (list A)) b : concat (X ++ [b]) = concat X ++ b.
Proof. rewrite concat_app. simpl. now rewrite app_nil_r. Qed.
Lemma map_add_seq i n : map (fun j => i + j) (seq 0 n) = seq i n.
Proof.
  induction n; [reflexivity|]. rewrite seq_S, map_app, IHn, (seq_S n i). reflexivity.
Qed.
Lemma split_X_ok n middle : 0 < n -> forall fuel i X, 0 < fuel -> middle < fuel + i ->
  exists k Xs, split_X fuel i middle n X = Ok (i + k * n, X ++ Xs) /\ concat Xs = seq i (k * n) /\
    middle <= i + k * n /\ (k = 0 \/ i + k * n < middle + n) /\ Forall (fun b => length b = n) Xs.
Proof.
  intros Hn. induction fuel; intros i X Hf0 Hf.
  - lia.
  - simpl. destruct (Nat.ltb_spec i middle).
    + destruct (IHfuel (i + n) (X ++ [map (fun j => i + j) (seq 0 n)]) ltac:(lia) ltac:(lia)) as (k & Xs & E & C & M & D & F).
      rewrite map_add_seq in *. exists (S k), (seq i n :: Xs). rewrite E. split; [|split; [|split; [|split]]].
      * rewrite <- app_assoc. simpl. do 2 f_equal. lia.
      * simpl. rewrite C. symmetry. apply seq_app.
      * simpl. lia.
      * right. destruct D as [->|]; simpl in *; lia.
      * constructor; auto. apply seq_length.
    + exists 0, []. simpl. rewrite app_nil_r, Nat.add_0_r. repeat split; auto.
Qed.

Lemma perm_rev_block i n : Permutation (map (fun j => n - 1 - j + i) (seq 0 n)) (seq i n).
Proof.
  assert (E : map (fun j => n - 1 - j + i) (seq 0 n) = rev (seq i n)).
  { apply (list_eq_nth _ _ 0).
    - rewrite map_length, rev_length, !seq_length. reflexivity.
    - intros k Hk. rewrite map_length, seq_length in Hk.
      rewrite rev_nth by (rewrite seq_length; lia). rewrite seq_length.
      rewrite nth_indep with (d' := (fun j => n - 1 - j + i) 0) by (rewrite map_length, seq_length; lia).
      rewrite (map_nth (fun j => n - 1 - j + i)). rewrite !seq_nth by lia. lia. }
  rewrite E. symmetry. apply Permutation_rev.
Qed.

Lemma split_Y_all n L middle : 0 < n -> forall fuel i X Y, n <= L -> 0 < fuel -> L - n < fuel + i -> middle <= i -> (exists a, i + a * n = L - n) \/ L - n <= i ->
  exists k Xs, split_Y fuel i (L - n) L middle n true X Y = Ok (i + k * n, X ++ Xs, Y) /\
    Permutation (concat Xs) (seq i (k * n)) /\ L - n <= i + k * n /\ (k = 0 \/ i + k * n = L - n).
Proof.
  intros Hn. induction fuel; intros i X Y HL Hf0 Hf Hm Ha.
  - lia.
  - cbn [split_Y]. destruct (Nat.ltb_spec i (L - n)).
    + replace (forallb _ _) with true.
      2:{ symmetry. apply forallb_forall. intros v Hv. apply in_map_iff in Hv as (j & <- & Hj).
          apply in_seq in Hj. apply Nat.ltb_lt. lia. }
      destruct Ha as [[a Ha]|]; [|lia]. destruct a; [lia|].
      destruct (IHfuel (i + n) (X ++ [map (fun j => n - 1 - j + i) (seq 0 n)]) Y HL ltac:(lia) ltac:(lia) ltac:(lia)) as (k & Xs & E & C & M & D).
      { left. exists a. simpl in Ha. lia. }
      cbn [bind]. rewrite E.
      exists (S k), (map (fun j => n - 1 - j + i) (seq 0 n) :: Xs). split; [|split; [|split]].
      * rewrite <- app_assoc. simpl. do 3 f_equal. lia.
      * simpl. replace (n + k * n) with (n + k * n) by lia. rewrite seq_app. apply Permutation_app; auto. apply perm_rev_block.
      * simpl. lia.
      * right. simpl in *. destruct D as [->|]; [|lia]. simpl in *. destruct a; simpl in *; lia.
    + exists 0, []. simpl. rewrite app_nil_r, Nat.add_0_r. repeat split; auto.
Qed.

Lemma split_Y_env n L middle : 0 < n -> forall fuel i X Y, n <= L -> 0 < fuel -> L - n < fuel + i -> middle <= i -> n <= middle ->
  (exists a, i + a * n = L - n) \/ L - n <= i ->
  exists k Ys, split_Y fuel i (L - n) L middle n false X Y = Ok (i + k * n, X, Y ++ Ys) /\
    Permutation (concat Ys) (seq (L - n - (i + k * n - middle)) (k * n)) /\
    L - n <= i + k * n /\ (k = 0 \/ i + k * n = L - n).
Proof.
  intros Hn. induction fuel; intros i X Y HL Hf0 Hf Hm Hnm Ha.
  - lia.
  - cbn [split_Y]. destruct (Nat.ltb_spec i (L - n)).
    + replace (forallb _ _) with true.
      2:{ symmetry. apply forallb_forall. intros v Hv. apply in_map_iff in Hv as (j & <- & Hj).
          apply in_seq in Hj. apply Nat.ltb_lt. lia. }
      destruct Ha as [[a Ha]|]; [|lia]. destruct a; [lia|]. simpl in Ha.
      set (B := map (fun j => L - 1 - i - (n - 1 - j) + (middle - n)) (seq 0 n)).
      assert (EB : B = seq (L - n - (i + n - middle)) n).
      { unfold B. etransitivity; [|apply map_add_seq]. apply map_ext_in. intros j Hj. apply in_seq in Hj. nia. }
      destruct (IHfuel (i + n) X (Y ++ [B]) HL ltac:(lia) ltac:(lia) ltac:(lia) Hnm) as (k & Ys & E & C & M & D).
      { left. exists a. lia. }
      cbn [bind]. rewrite E.
      assert (D' : i + n + k * n = L - n). { destruct D as [->|]; [|lia]. simpl in *. destruct a; simpl in *; lia. }
      exists (S k), (B :: Ys). split; [|split; [|split]].
      * rewrite <- app_assoc. simpl. do 3 f_equal. lia.
      * cbn [concat]. rewrite C, EB. cbn [Nat.mul].
        replace (n + k * n) with (k * n + n) by lia. rewrite seq_app.
        rewrite Permutation_app_comm. apply Permutation_app.
        -- replace (i + n + k * n) with (i + (k * n + n)) by lia. reflexivity.
        -- replace (L - n - (i + (k * n + n) - middle) + k * n) with (L - n - (i + n - middle)) by nia. reflexivity.
      * simpl. lia.
      * right. simpl. lia.
    + exists 0, []. simpl. rewrite app_nil_r, Nat.add_0_r. repeat split; auto.
Qed.

Lemma seq_parts L i0 m s : i0 + m <= L -> (s = i0 \/ m = 0) ->
  seq 0 L = seq 0 i0 ++ seq s m ++ seq (i0 + m) (L - (i0 + m)).
Proof.
  intros H [->| ->].
  - rewrite <- seq_app. replace (i0) with (0 + i0) at 2 by lia. rewrite <- seq_app. f_equal. lia.
  - simpl. rewrite Nat.add_0_r. replace i0 with (0 + i0) at 2 by lia. rewrite <- seq_app. f_equal. lia.
Qed.

Lemma geo_split_parts L n all r : geo_split L n all = Ok r -> 0 < n /\ n <= L /\ exists q, L = q * n /\ (n = 1 \/ 3 <= q).
Proof.
  unfold geo_split. destruct (Nat.eqb_spec n 0); [discriminate|]. cbn [negb].
  destruct (Nat.eqb_spec (L mod n) 0) as [Em|Em]; cbn [negb orb andb].
  - destruct (Nat.ltb_spec (L / n) 3), (Nat.ltb_spec 1 n); cbn [andb]; try discriminate; intros H';
      destruct (split_X _ _ _ _ _) as [[i X]| | |]; try discriminate; cbn [bind] in H';
      destruct (Nat.leb_spec n L); try discriminate; (split; [lia|split; [lia|]]);
      exists (L / n); pose proof (Nat.div_mod L n ltac:(lia)); (split; [lia|]); lia.
  - destruct (Nat.ltb_spec 1 n); [discriminate|]. assert (n = 1) by lia. subst n.
    rewrite Nat.mod_1_r in Em. congruence.
Qed.

Lemma geo_split_partition L n all : (0 < n)%nat -> n <= L ->
  (exists q, L = q * n /\ (n = 1 \/ 3 <= q) /\ (all = true \/ n = 1 \/ Nat.even q = true \/ q = 3)) ->
  exists Sy X Y E, geo_split L n all = Ok (Sy, X, Y, E) /\
    Permutation (Sy ++ concat X ++ concat Y ++ E) (seq 0 L).
Proof.
  intros Hn HnL (q & HL & Hq & Hc). unfold geo_split.
  destruct (Nat.eqb_spec n 0); [lia|]. cbn [negb].
  assert (Em : L mod n = 0) by (subst; apply Nat.mod_mul; lia). rewrite Em, Nat.eqb_refl. cbn [negb orb].
  assert (Ed : L / n = q) by (subst; apply Nat.div_mul; lia). rewrite Ed.
  replace ((q <? 3) && (1 <? n))%nat with false.
  2:{ symmetry. destruct (Nat.ltb_spec q 3), (Nat.ltb_spec 1 n); simpl; lia. }
  set (middle := L / 2 + L mod 2).
  assert (Hmid : 2 * middle = L + L mod 2 /\ L mod 2 < 2).
  { unfold middle. pose proof (Nat.div_mod L 2 ltac:(lia)). pose proof (Nat.mod_upper_bound L 2 ltac:(lia)). lia. }
  destruct (split_X_ok n middle Hn (S L) n [] ltac:(lia) ltac:(lia)) as (k & Xs & E & C & M & D & F).
  rewrite E. cbn [bind]. destruct (Nat.leb_spec n L); [|lia]. cbn [bind app].
  set (i0 := n + k * n) in *.
  assert (Ha : (exists a, i0 + a * n = L - n) \/ L - n <= i0).
  { destruct (Nat.le_gt_cases (L - n) i0); [now right|]. left. exists (q - 2 - k). unfold i0 in *. nia. }
  destruct all.
  - destruct (split_Y_all n L middle Hn (S L) i0 Xs [] HnL ltac:(lia) ltac:(lia) ltac:(lia) Ha) as (k' & Zs & E' & C' & M' & D').
    rewrite E'. cbn [bind]. do 4 eexists. split; [reflexivity|].
    rewrite concat_app. simpl. rewrite C, C'.
    rewrite <- !app_assoc. rewrite <- seq_app. fold i0. rewrite <- seq_app.
    replace (seq 0 n ++ seq n (k * n + (k' * n + (L - (i0 + k' * n))))) with (seq 0 (n + (k * n + (k' * n + (L - (i0 + k' * n)))))).
    2:{ now rewrite seq_app. }
    assert (i0 + k' * n <= L).
    { destruct D' as [->|]; [|lia]. unfold i0 in *. destruct D as [->|]; [lia|]. nia. }
    replace (n + (k * n + (k' * n + (L - (i0 + k' * n))))) with L by (unfold i0 in *; lia). reflexivity.
  - assert (Hm1 : n <= middle) by nia.
    destruct (split_Y_env n L middle Hn (S L) i0 Xs [] HnL ltac:(lia) ltac:(lia) ltac:(lia) Hm1 Ha) as (k' & Ys & E' & C' & M' & D').
    rewrite E'. cbn [bind]. do 4 eexists. split; [reflexivity|].
    rewrite C. simpl. rewrite C'.
    assert (Hle : i0 + k' * n <= L).
    { destruct D' as [->|]; [|lia]. unfold i0 in *. destruct D as [->|]; [lia|]. nia. }
    assert (Hs : k' * n = 0 \/ (i0 + k' * n = L - n /\ middle = i0)).
    { destruct D' as [->|D']; [now left|].
      destruct Hc as [Hc|[Hc|[Hc|Hc]]]; [discriminate| | |].
      - right. split; auto. subst n. unfold i0 in *. lia.
      - right. split; auto. apply Nat.even_spec in Hc as [h Hh].
        assert (Em2 : middle = h * n).
        { unfold middle. rewrite HL, Hh. replace (2 * h * n) with (h * n * 2) by lia.
          rewrite Nat.div_mul, Nat.mod_mul by lia. lia. }
        unfold i0 in *. clearbody middle. subst middle. assert (1 + k = h) by nia. nia.
      - left. subst q. unfold i0 in *. assert (k = 1); [|nia].
        assert (L mod 2 <= 1) by lia.
        destruct D as [->|D]; [nia|]. destruct k as [|[|k]]; nia. }
    rewrite (seq_parts L i0 (k' * n) (L - n - (i0 + k' * n - middle)) Hle).
    + rewrite (app_assoc (seq 0 n)), <- seq_app. reflexivity.
    + destruct Hs as [->|[A B]]; [now right|left]. lia.
Qed.
