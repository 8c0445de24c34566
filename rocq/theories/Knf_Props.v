(** Theorems about the directions and signs of the bonds of K2NiF4, its orbitals, and the bonds of the cluster of a ladder
    with bath (C115). *)
From Verif Require Import Prelude Geo_Model Geo_Spec Geo_Proofs Geo_Proofs2 Geo_Props Knf_Model Knf_Spec.
From Coq Require Import ZArith Lia Bool List.
Import ListNotations.
Local Open Scope Z_scope.

Lemma type_at u p : 0 <= p <= 3 -> k2_type (4 * u + p) = (p =? 3, orb (p =? 3) (p =? 0)).
Proof.
  intros Hp. unfold k2_type. replace (4 * u + p + 1) with ((p + 1) + u * 4) by lia. rewrite Z.mod_add by lia.
  assert (p = 0 \/ p = 1 \/ p = 2 \/ p = 3) as [->|[->|[->| ->]]] by lia; reflexivity.
Qed.
Lemma type_0 u : k2_type (4 * u) = (false, true).
Proof. replace (4 * u) with (4 * u + 0) by lia. rewrite type_at by lia. reflexivity. Qed.
Lemma type_4 u : k2_type (4 * u + 4) = (false, true).
Proof. replace (4 * u + 4) with (4 * (u + 1)) by lia. apply type_0. Qed.

(** Each bond has its direction, the same from both ends. *)
Theorem C115_direction : forall i j d, bond_dir i j d -> k2_calcDir i j = Ok d /\ k2_calcDir j i = Ok d.
Proof.
  intros i j d H. destruct H as [u H|u H|u H|u H|u H|u H|u H|u H]; unfold k2_calcDir; rewrite ?type_0, ?type_4, ?(type_at u) by lia;
    cbn [Z.eqb Pos.eqb orb eqb andb negb fst snd]; rewrite ?type_0, ?type_4, ?(type_at u) by lia; cbn [Z.eqb Pos.eqb orb fst snd]; try (split; reflexivity).
  - destruct (Z.ltb_spec (4 * u + 1) (4 * u)); [lia|]. replace (4 * u + 1 - 4 * u) with 1 by lia. split; reflexivity.
  - destruct (Z.ltb_spec (4 * u + 2) (4 * u + 4)); [|lia]. destruct (Z.leb_spec 4 (4 * u + 4)); [|lia]. replace (4 * u + 4 - (4 * u + 2)) with 2 by lia. split; reflexivity.
  - destruct (Z.ltb_spec (4 * u + 2) (4 * u)); [lia|]. replace (4 * u + 2 - 4 * u) with 2 by lia. split; reflexivity.
  - destruct (Z.ltb_spec (4 * u + 1) (4 * u + 4)); [|lia]. destruct (Z.leb_spec 4 (4 * u + 4)); [|lia]. replace (4 * u + 4 - (4 * u + 1)) with 3 by lia. split; reflexivity.
Qed.
Print Assumptions C115_direction.

(** The bonds with a direction are exactly those that are connected. *)
Theorem C115_connected : forall i j, 0 <= i < size_max -> 0 <= j < size_max ->
  (k2_connected i j = Ok true <-> exists d, bond_dir i j d \/ bond_dir j i d).
Proof.
  intros i j Hi Hj. rewrite C36_k2nif4_bonds by assumption.
  assert (B : forall a b, 0 <= a -> 0 <= b -> (k2_bond a b <-> exists d, bond_dir a b d)).
  { intros a b Ha Hb. split.
    - intros H. destruct H as [u|u|u|u|u|u|u|u]; assert (0 <= u) by lia; try replace (4 * (u + 1)) with (4 * u + 4) by lia; eexists; constructor; lia.
    - intros (d & H). destruct H as [u H|u H|u H|u H|u H|u H|u H|u H]; try replace (4 * u + 4) with (4 * (u + 1)) by lia; constructor. }
  rewrite !B by lia. split; [intros [(d & H)|(d & H)]; exists d; auto|intros (d & [H|H]); [left|right]; exists d; exact H].
Qed.
Print Assumptions C115_connected.

Lemma inverted_iff i : k2_isInverted i = true <-> turned i.
Proof.
  unfold k2_isInverted, turned. rewrite Z.eqb_eq. pose proof (Z.mod_pos_bound i 8 eq_refl). pose proof (Z.div_mod i 8 ltac:(discriminate)).
  pose proof (Z.mod_pos_bound (i + 4) 8 eq_refl). pose proof (Z.div_mod (i + 4) 8 ltac:(discriminate)). lia.
Qed.
(** The sign of a bond is -1 for a copper and the oxygen one before or after it, else 1, and is multiplied by the sign of
    the input if an end is the first oxygen of an odd unit; it is the same from both ends. *)
Theorem C115_sign : forall s i j d, bond_dir i j d ->
  let base := if (d <? 2) && (Z.abs (i - j) =? 1) then -1 else 1 in
  exists v, k2_signChange s i j = Ok v /\ k2_signChange s j i = Ok v /\
    (turned i \/ turned j -> v = s * base) /\ (~ turned i -> ~ turned j -> v = base).
Proof.
  intros s i j d H base. exists (if k2_isInverted i || k2_isInverted j then s * base else base).
  assert (M : k2_signChange s j i = k2_signChange s i j) by (unfold k2_signChange; rewrite (Z.min_comm j i), (Z.max_comm j i), (orb_comm (k2_isInverted j)); reflexivity).
  rewrite M. assert (E : k2_signChange s i j = Ok (if k2_isInverted i || k2_isInverted j then s * base else base)).
  { unfold k2_signChange.
    replace (do sign1 <- _ ;; _) with (do sign1 <- Ok base ;; Ok (if k2_isInverted i || k2_isInverted j then s * sign1 else sign1)); [reflexivity|]. f_equal. symmetry.
    unfold base. destruct H as [u H|u H|u H|u H|u H|u H|u H|u H];
      (rewrite Z.min_l, Z.max_r by lia) || (rewrite Z.min_r, Z.max_l by lia); rewrite ?type_0, ?type_4, ?(type_at u) by lia; cbn [Z.eqb Pos.eqb orb fst snd eqb negb Z.ltb Z.compare Pos.compare Pos.compare_cont andb];
      try reflexivity.
    - replace (4 * u + 3 - 4 * u) with 3 by lia. reflexivity.
    - replace (4 * u + 4 - (4 * u + 3)) with 1 by lia. replace (4 * u + 3 - (4 * u + 4)) with (-1) by lia. reflexivity.
    - replace (4 * u + 3 - (4 * u + 1)) with 2 by lia. reflexivity.
    - replace (4 * u + 3 - (4 * u + 2)) with 1 by lia. reflexivity. }
  rewrite E. split; [reflexivity|]. split; [reflexivity|]. split.
  - intros T. replace (k2_isInverted i || k2_isInverted j) with true; [reflexivity|]. symmetry. apply orb_true_iff. rewrite !inverted_iff. exact T.
  - intros T1 T2. rewrite <- inverted_iff in T1, T2. destruct (k2_isInverted i); [congruence|]. destruct (k2_isInverted j); [congruence|]. reflexivity.
Qed.
Print Assumptions C115_sign.

(** A copper has one orbital, an oxygen the number of the input... *)
Theorem C115_orbitals : forall n i, 0 <= i -> (copper i -> k2_orbitals n i = 1) /\ (~ copper i -> k2_orbitals n i = n).
Proof.
  intros n i Hi. unfold copper, k2_orbitals. pose proof (Z.div_mod i 4 ltac:(discriminate)) as D. pose proof (Z.mod_pos_bound i 4 eq_refl) as B.
  rewrite D at 2 4. rewrite type_at by lia. cbn [fst]. destruct (Z.eqb_spec (i mod 4) 3); split; intros; try reflexivity; contradiction.
Qed.
Print Assumptions C115_orbitals.
Definition total (n : Z) (sites : nat) : Z := fold_right Z.add 0 (map (fun i => k2_orbitals n (Z.of_nat i)) (seq 0 sites)).
Lemma total_S n sites : total n (S sites) = total n sites + k2_orbitals n (Z.of_nat sites).
Proof.
  unfold total. rewrite seq_S, map_app, fold_right_app. cbn [map fold_right Nat.add]. generalize (k2_orbitals n (Z.of_nat sites)). intros x.
  generalize (map (fun i => k2_orbitals n (Z.of_nat i)) (seq 0 sites)). induction l as [|a l IH]; cbn [fold_right]; lia.
Qed.
Lemma total_eq n sites : total n sites = n * Z.of_nat sites - (n - 1) * (Z.of_nat sites / 4).
Proof.
  induction sites as [|k IH]; [unfold total; cbn; lia|]. rewrite total_S, IH. destruct (C115_orbitals n (Z.of_nat k) ltac:(lia)) as [C O]. unfold copper in *.
  rewrite Nat2Z.inj_succ. pose proof (Z.div_mod (Z.of_nat k) 4 ltac:(discriminate)) as D. pose proof (Z.mod_pos_bound (Z.of_nat k) 4 eq_refl) as B.
  pose proof (Z.div_mod (Z.succ (Z.of_nat k)) 4 ltac:(discriminate)) as D'. pose proof (Z.mod_pos_bound (Z.succ (Z.of_nat k)) 4 eq_refl) as B'.
  destruct (Z.eq_dec (Z.of_nat k mod 4) 3) as [Q|Q].
  - rewrite C by exact Q. replace (Z.succ (Z.of_nat k) / 4) with (Z.of_nat k / 4 + 1) by lia. lia.
  - rewrite O by exact Q. replace (Z.succ (Z.of_nat k) / 4) with (Z.of_nat k / 4) by lia. lia.
Qed.
(** ... and with two of them there are as many orbitals as the matrix of couplings has rows... *)
Theorem C115_total : forall sites, total 2 sites = k2_matrixRank sites.
Proof. intros sites. rewrite total_eq, k2_matrixRank_eq. lia. Qed.
Print Assumptions C115_total.
(** ... but with no other number. *)
Theorem C115_total_refuted : forall n sites, n <> 2 -> (0 < sites)%nat -> total n sites <> k2_matrixRank sites.
Proof.
  intros n sites Hn Hs. rewrite total_eq, k2_matrixRank_eq. pose proof (Z.div_mod (Z.of_nat sites) 4 ltac:(discriminate)) as D. pose proof (Z.mod_pos_bound (Z.of_nat sites) 4 eq_refl) as B.
  set (q := Z.of_nat sites / 4) in *. assert (0 < Z.of_nat sites - q) by lia. intros E. assert ((n - 2) * (Z.of_nat sites - q) = 0) by lia. apply Z.mul_eq_0 in H0. lia.
Qed.
Print Assumptions C115_total_refuted.

(** In a ladder with bath, two sites of the cluster are connected, and have the direction and the place of the coupling, as
    in the ladder alone; a bond with a bath site has the third direction from both ends. *)
Theorem C115_bath : forall m b l, 0 < m -> 0 <= b -> 2 * m * (1 + b) < size_max -> la_L l = 2 * m ->
  let g := mklb (2 * m * (1 + b)) b l in
  (forall i j, in_range (2 * m) i -> in_range (2 * m) j ->
    lb_connected g (m * b + i) (m * b + j) = Ok (ladder_connected l i j) /\
    lb_calcDir g (m * b + i) (m * b + j) = ladder_calcDir l i j /\ lb_handle g (m * b + i) (m * b + j) = ladder_handle l i j) /\
  (forall i j, in_range (2 * m * (1 + b)) i -> in_range (2 * m) j -> ~ (m * b <= i < m * b + 2 * m) ->
    lb_calcDir g i (m * b + j) = Ok 2 /\ lb_calcDir g (m * b + j) i = Ok 2).
Proof.
  intros m b l Hm Hb Hs Hl g. unfold size_max, in_range in *. split.
  - intros i j Hi Hj. assert (Ci : in_cluster m b (m * b + i)) by (unfold in_cluster; lia). assert (Cj : in_cluster m b (m * b + j)) by (unfold in_cluster; lia).
    unfold g. rewrite lb_connected_cluster, lb_handle_cluster by assumption. unfold lb_calcDir. rewrite !getClusterSite_cluster by assumption. cbn [bind lb_ladder].
    rewrite (lb_first_eq m b) by assumption. replace (m * b + i - m * b) with i by lia. replace (m * b + j - m * b) with j by lia. auto.
  - intros i j Hi Hj N. assert (Cj : in_cluster m b (m * b + j)) by (unfold in_cluster; lia).
    destruct (bath_site_ex m b Hm i) as (s & k & Hss & Hk & ->); [split; [exact Hi|exact N]|].
    unfold lb_calcDir, g. rewrite getClusterSite_bath, getClusterSite_cluster by assumption. auto.
Qed.
Print Assumptions C115_bath.

(** A copper with its four oxygens, two signs that are changed, and a ladder of four sites with two bath sites each *)
Example C115_nonvacuous : bond_dir 3 4 0 /\ bond_dir 3 2 1 /\ bond_dir 4 1 3 /\ k2_calcDir 4 1 = Ok 3 /\ turned 4 /\ ~ turned 0 /\
  k2_signChange (-1) 3 4 = Ok 1 /\ k2_signChange 1 3 4 = Ok (-1) /\ k2_signChange (-1) 3 0 = Ok 1 /\ total 2 8 = 14 /\
  lb_calcDir (mklb 12 2 (mkladder 4 2 false false)) 4 5 = Ok 1 /\ lb_calcDir (mklb 12 2 (mkladder 4 2 false false)) 4 6 = Ok 0 /\
  lb_calcDir (mklb 12 2 (mkladder 4 2 false false)) 1 5 = Ok 2.
Proof. repeat split; try reflexivity; try (unfold turned; cbn; discriminate); [apply (bd_x' 0)|apply (bd_y' 0)|apply (bd_xmy' 0)]; lia. Qed.
