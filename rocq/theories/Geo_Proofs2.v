From Verif Require Import Prelude Ring Vec_Model Dense_Model Geo_Model Geo_Spec Geo_Proofs.
From Coq Require Import ZArith Lia Bool List Permutation.
Import ListNotations.
Local Open Scope Z_scope.

(** ** LadderX *)
Lemma ladderx_connected_sym g i j : ladderx_connected g i j = ladderx_connected g j i.
Proof.
  unfold ladderx_connected. rewrite (Z.eqb_sym j i). destruct (i =? j); auto.
  destruct g as [L leg px py]. 
  assert (E : ladder_connected (mkladder L leg px py) j i = ladder_connected (mkladder L leg px py) i j).
  { unfold ladder_connected. cbn [la_leg la_px la_py la_L]. rewrite (Z.eqb_sym j i). destruct (i =? j); auto.
    rewrite (Z.eqb_sym (j / _)), (Z.eqb_sym (j mod _)).
    now rewrite (neighbors_sym (j mod _)), (neighbors_sym (j / _)). }
  rewrite E. destruct (ladder_connected _ i j); auto.
  rewrite (Z.eqb_sym (j / _)), (Z.eqb_sym (j mod _)).
  now rewrite !(neighbors_sym (j mod _)), !(neighbors_sym (j / _)).
Qed.

Lemma ladderx_connected_grid leg lx px c1 r1 c2 r2 : 0 < leg -> 0 < lx -> leg * lx < 18446744073709551616 ->
  0 <= r1 < leg -> 0 <= r2 < leg -> 0 <= c1 < lx -> 0 <= c2 < lx ->
  (ladderx_connected (mkladder (leg * lx) leg px false) (r1 + c1 * leg) (r2 + c2 * leg) = true <->
   gridx_adj lx leg px c1 r1 c2 r2).
Proof.
  intros Hleg Hlx Hsm R1 R2 C1 C2. unfold ladderx_connected, gridx_adj.
  pose proof (ladder_connected_grid leg lx Hleg Hlx Hsm px false c1 r1 c2 r2 R1 R2 C1 C2) as G.
  cbn [la_leg la_px la_py la_L]. rewrite lad_div2 by lia. rewrite !coord_div, !coord_mod by lia.
  destruct (Z.eqb_spec (r1 + c1 * leg) (r2 + c2 * leg)) as [E|E].
  { destruct (coord_inj _ _ _ _ _ R1 R2 E) as [-> ->]. split; [discriminate|].
    intros [[[_ [H _]]|[_ [H _]]]|[H _]]; exfalso; try tauto; lia. }
  destruct (ladder_connected _ _ _) eqn:Hc.
  { split; auto. intros _. left. now apply G. }
  assert (Hn : ~ grid_adj lx leg px false c1 r1 c2 r2). { intros H. apply G in H. congruence. }
  destruct (Z.eqb_spec c1 c2) as [->|Ec].
  - rewrite neighbors_iff. split.
    + intros [H|[H _]]; [|discriminate]. left. left. split; auto. split; auto. lia.
    + intros [H|[H _]]; [tauto|lia].
  - destruct (Z.eqb_spec r1 r2) as [->|Er].
    + rewrite neighbors_iff. split.
      * intros [H|[H _]]; [|discriminate]. left. right. split; auto. split; auto.
      * intros [H|[_ H]]; [tauto|lia].
    + rewrite andb_true_iff, !neighbors_iff. split.
      * intros [[H|[H _]] [H'|[H' _]]]; try discriminate. right. split; auto.
      * intros [H|[H H']]; [tauto|]. auto.
Qed.

(** Bonds of the two-leg open LadderX, lower end first. *)
Lemma ladderx_bond lx i1 i2 : 0 < lx -> 2 * lx < 18446744073709551616 ->
  in_range (2 * lx) i1 -> in_range (2 * lx) i2 -> i1 < i2 ->
  let g := mkladder (2 * lx) 2 false false in
  ladderx_connected g i1 i2 = true ->
  exists h, ladderx_handle g i1 i2 = Ok h /\
    let dir := ladderx_calcDir g i1 i2 in
    ((dir = 0 /\ h = i1 /\ i2 = i1 + 2) \/
     (exists c, 0 <= c < lx /\ dir = 1 /\ h = c /\ i1 = 2 * c /\ i2 = 2 * c + 1) \/
     (exists c, 0 <= c < lx - 1 /\ dir = 2 /\ h = c /\ i1 = 2 * c + 1 /\ i2 = 2 * c + 2) \/
     (exists c, 0 <= c < lx - 1 /\ dir = 3 /\ h = c /\ i1 = 2 * c /\ i2 = 2 * c + 3)).
Proof.
  intros Hlx Hsm I1 I2 Hlt g Hc.
  destruct (coord_ex 2 lx i1 ltac:(lia) I1) as (c1 & r1 & E1 & R1 & C1).
  destruct (coord_ex 2 lx i2 ltac:(lia) I2) as (c2 & r2 & E2 & R2 & C2).
  assert (Hg : gridx_adj lx 2 false c1 r1 c2 r2).
  { apply ladderx_connected_grid; auto; try lia. now subst. }
  unfold ladderx_handle, ladderx_calcDir, ladder_sameColumn, ladder_sameRow, g. cbn [la_leg].
  assert (Hlt1 : (i1 <? i2) = true) by (apply Z.ltb_lt; lia). rewrite Hlt1.
  assert (D1 : i1 / 2 = c1) by (subst; apply coord_div; lia).
  assert (D2 : i2 / 2 = c2) by (subst; apply coord_div; lia).
  assert (M1 : i1 mod 2 = r1) by (subst; apply coord_mod; lia).
  assert (M2 : i2 mod 2 = r2) by (subst; apply coord_mod; lia).
  rewrite D1, D2, M1, M2.
  destruct Hg as [[[-> [Hne Ha]]|[-> [Hne Ha]]]|[Ha Hb]].
  - rewrite Z.eqb_refl. eexists. split; [reflexivity|]. right. left. exists c2. repeat split; lia.
  - destruct (Z.eqb_spec c1 c2); [congruence|]. rewrite Z.eqb_refl. eexists. split; [reflexivity|].
    left. destruct Ha as [Ha|[? _]]; [|discriminate]. repeat split; lia.
  - destruct (Z.eqb_spec c1 c2); [lia|]. destruct (Z.eqb_spec r1 r2); [lia|].
    assert (Hodd : Z.odd i1 = (r1 =? 1)).
    { rewrite E1, Z.odd_add, Z.odd_mul. simpl. rewrite andb_false_r, xorb_false_r.
      destruct (Z.eq_dec r1 0) as [->|]; [reflexivity|]. replace r1 with 1 by lia. reflexivity. }
    rewrite Hodd. destruct (Z.eqb_spec r1 1) as [->|].
    + eexists. split; [reflexivity|]. right. right. left. exists c1.
      rewrite w64_small by lia. replace ((i1 - 1) / 2) with c1.
      2:{ replace (i1 - 1) with (0 + c1 * 2) by lia. symmetry. apply coord_div. lia. }
      repeat split; lia.
    + eexists. split; [reflexivity|]. right. right. right. exists c1. repeat split; lia.
Qed.

Lemma ladderx_calcDir_sym g i j : i <> j -> ladderx_calcDir g i j = ladderx_calcDir g j i.
Proof.
  intros. unfold ladderx_calcDir, ladder_sameColumn, ladder_sameRow.
  rewrite (Z.eqb_sym (j / _)), (Z.eqb_sym (j mod _)).
  destruct (Z.ltb_spec i j), (Z.ltb_spec j i); try lia; reflexivity.
Qed.
Lemma ladderx_handle_sym g i j : i <> j -> ladderx_handle g i j = ladderx_handle g j i.
Proof.
  intros. unfold ladderx_handle. rewrite (ladderx_calcDir_sym g i j) by auto.
  destruct (Z.ltb_spec i j), (Z.ltb_spec j i); try lia; reflexivity.
Qed.

(** From statements on ordered bonds to all. *)
Lemma bond_inj_any (conn : Z -> Z -> bool) (dirh : Z -> Z -> res (Z * Z)) n :
  (forall i, conn i i = false) -> (forall i j, conn i j = conn j i) ->
  (forall i j, i <> j -> dirh i j = dirh j i) ->
  (forall i1 i2 j1 j2 h, in_range n i1 -> in_range n i2 -> in_range n j1 -> in_range n j2 ->
     i1 < i2 -> j1 < j2 -> conn i1 i2 = true -> conn j1 j2 = true ->
     dirh i1 i2 = Ok h -> dirh j1 j2 = Ok h -> i1 = j1 /\ i2 = j2) ->
  forall i1 i2 j1 j2 h, in_range n i1 -> in_range n i2 -> in_range n j1 -> in_range n j2 ->
     conn i1 i2 = true -> conn j1 j2 = true ->
     dirh i1 i2 = Ok h -> dirh j1 j2 = Ok h -> same_bond i1 i2 j1 j2.
Proof.
  intros Hir Hsym Hds Hlt i1 i2 j1 j2 h I1 I2 J1 J2 Ci Cj Di Dj. unfold same_bond.
  assert (N1 : i1 <> i2) by (intros ->; rewrite Hir in Ci; congruence).
  assert (N2 : j1 <> j2) by (intros ->; rewrite Hir in Cj; congruence).
  destruct (Z_lt_le_dec i1 i2), (Z_lt_le_dec j1 j2).
  - left. eapply Hlt; eauto.
  - right. rewrite Hsym in Cj. rewrite Hds in Dj by auto. eapply (Hlt i1 i2 j2 j1); eauto; lia.
  - right. rewrite Hsym in Ci. rewrite Hds in Di by auto.
    assert (i2 = j1 /\ i1 = j2); [|tauto]. eapply (Hlt i2 i1 j1 j2); eauto; lia.
  - left. rewrite Hsym in Ci, Cj. rewrite Hds in Di, Dj by auto.
    assert (i2 = j2 /\ i1 = j1); [|tauto]. eapply (Hlt i2 i1 j2 j1); eauto; lia.
Qed.

(** ** LadderBath with an even cluster *)
Section Bath.
  Variables (m b : Z).
  Hypothesis Hm : 0 < m.
  Hypothesis Hb : 0 <= b.
  Hypothesis Hsm : 2 * m * (1 + b) < 18446744073709551616.
  Variable l : ladder.
  Hypothesis Hl : la_L l = 2 * m.
  Let g := mklb (2 * m * (1 + b)) b l.

  Lemma lb_first_eq : lb_first g = m * b.
  Proof. unfold lb_first, lb_cluster. simpl. rewrite Hl. rewrite (Z.mul_comm 2), Z.div_mul by lia. lia. Qed.
  Lemma lb_cluster_eq : lb_cluster g = 2 * m.
  Proof. exact Hl. Qed.

  Definition in_cluster (i : Z) : Prop := m * b <= i < m * b + 2 * m.
  Definition in_bath (i : Z) : Prop := in_range (2 * m * (1 + b)) i /\ ~ in_cluster i.

  (** The [k]-th bath site of the [s]-th cluster site. *)
  Definition bath_site (s k : Z) : Z := if s <? m then k * m + s else k * m + (s - m) + m * b + 2 * m.

  Lemma getClusterSite_cluster i : in_cluster i -> lb_getClusterSite g i = Ok None.
  Proof.
    intros [H1 H2]. unfold lb_getClusterSite. rewrite lb_first_eq, lb_cluster_eq.
    destruct (Z.leb_spec (m * b) i); [|lia]. destruct (Z.ltb_spec i (m * b + 2 * m)); [|lia]. reflexivity.
  Qed.
  Lemma getClusterSite_bath s k : 0 <= s < 2 * m -> 0 <= k < b ->
    lb_getClusterSite g (bath_site s k) = Ok (Some (m * b + s, k)).
  Proof.
    intros Hs Hk. unfold lb_getClusterSite. rewrite lb_first_eq, lb_cluster_eq. cbn [lb_L g].
    replace (2 * m * (1 + b) / 2) with (m * (1 + b)).
    2:{ replace (2 * m * (1 + b)) with (m * (1 + b) * 2) by lia. now rewrite Z.div_mul by lia. }
    replace (2 * m / 2) with m by (rewrite (Z.mul_comm 2), Z.div_mul by lia; lia).
    unfold bath_site. destruct (Z.ltb_spec s m).
    - assert (k * m + s < m * b) by nia. assert (0 <= k * m + s) by nia.
      destruct (Z.leb_spec (m * b) (k * m + s)); [lia|]. cbn [andb].
      destruct (Z.eqb_spec m 0); [lia|]. cbn [negb].
      destruct (Z.ltb_spec (k * m + s) (m * (1 + b))); [|nia].
      rewrite (Z.add_comm (k * m)), coord_mod, coord_div by lia. do 3 f_equal. lia.
    - assert (0 <= k * m + (s - m)) by nia. assert (k * m + (s - m) < m * b) by nia.
      destruct (Z.leb_spec (m * b) (k * m + (s - m) + m * b + 2 * m)); [|lia].
      destruct (Z.ltb_spec (k * m + (s - m) + m * b + 2 * m) (m * b + 2 * m)); [lia|]. cbn [andb].
      destruct (Z.eqb_spec m 0); [lia|]. cbn [negb].
      destruct (Z.ltb_spec (k * m + (s - m) + m * b + 2 * m) (m * (1 + b))); [lia|].
      replace (w64 _) with ((s - m) + k * m).
      2:{ rewrite w64_small by nia. lia. }
      rewrite coord_mod, coord_div by lia. do 3 f_equal. lia.
  Qed.
  Lemma bath_site_ok s k : 0 <= s < 2 * m -> 0 <= k < b -> in_bath (bath_site s k).
  Proof.
    intros Hs Hk. unfold in_bath, in_range, in_cluster, bath_site. destruct (Z.ltb_spec s m); split; nia.
  Qed.
  Lemma bath_site_ex i : in_bath i -> exists s k, 0 <= s < 2 * m /\ 0 <= k < b /\ i = bath_site s k.
  Proof.
    intros [[H1 H2] H3]. unfold in_cluster in H3. unfold bath_site.
    destruct (Z_lt_le_dec i (m * b)).
    - destruct (coord_ex m b i Hm) as (k & s & E & Hs & Hk); [lia|].
      exists s, k. destruct (Z.ltb_spec s m); lia.
    - destruct (coord_ex m b (i - m * b - 2 * m) Hm) as (k & s & E & Hs & Hk); [nia|].
      exists (s + m), k. destruct (Z.ltb_spec (s + m) m); lia.
  Qed.
  Lemma bath_site_inj s k s' k' : 0 <= s < 2 * m -> 0 <= k < b -> 0 <= s' < 2 * m -> 0 <= k' < b ->
    bath_site s k = bath_site s' k' -> s = s' /\ k = k'.
  Proof.
    intros Hs Hk Hs' Hk' E.
    pose proof (getClusterSite_bath s k Hs Hk) as A. pose proof (getClusterSite_bath s' k' Hs' Hk') as B.
    rewrite E, B in A. apply Ok_inj in A. injection A. lia.
  Qed.

  Lemma lb_connected_bath s k c : 0 <= s < 2 * m -> 0 <= k < b -> in_cluster c ->
    lb_connected g (bath_site s k) c = Ok (m * b + s =? c).
  Proof.
    intros Hs Hk Hc. unfold lb_connected.
    destruct (Z.eqb_spec (bath_site s k) c) as [E|_].
    { pose proof (bath_site_ok s k Hs Hk) as [_ H]. rewrite E in H. tauto. }
    now rewrite getClusterSite_bath, getClusterSite_cluster by auto.
  Qed.
  Lemma lb_connected_bath_bath i j : in_bath i -> in_bath j -> lb_connected g i j = Ok false.
  Proof.
    intros Hi Hj. destruct (bath_site_ex i Hi) as (s & k & Hs & Hk & ->).
    destruct (bath_site_ex j Hj) as (s' & k' & Hs' & Hk' & ->).
    unfold lb_connected. destruct (_ =? _); auto. now rewrite !getClusterSite_bath by auto.
  Qed.
  Lemma lb_handle_bath s k c : 0 <= s < 2 * m -> 0 <= k < b -> in_cluster c ->
    lb_handle g (bath_site s k) c = Ok (k + s * b) /\ lb_handle g c (bath_site s k) = Ok (k + s * b).
  Proof.
    intros Hs Hk Hc. unfold lb_handle. rewrite getClusterSite_bath, getClusterSite_cluster by auto. cbn [bind].
    rewrite lb_first_eq. cbn [lb_b g]. split; f_equal;
    (replace ((m * b + s - m * b) * b + k) with (k + s * b) by lia); apply w64_small; nia.
  Qed.
  Lemma lb_connected_cluster i j : in_cluster i -> in_cluster j ->
    lb_connected g i j = Ok (ladder_connected l (i - m * b) (j - m * b)).
  Proof.
    intros Hi Hj. unfold lb_connected. rewrite !getClusterSite_cluster by auto. cbn [bind]. rewrite lb_first_eq.
    destruct (Z.eqb_spec i j) as [->|]; auto. unfold ladder_connected. now rewrite Z.eqb_refl.
  Qed.
  Lemma lb_handle_cluster i j : in_cluster i -> in_cluster j ->
    lb_handle g i j = ladder_handle l (i - m * b) (j - m * b).
  Proof.
    intros Hi Hj. unfold lb_handle. rewrite !getClusterSite_cluster by auto. cbn [bind]. now rewrite lb_first_eq.
  Qed.
End Bath.

Lemma lb_connected_sym g i j : lb_connected g i j = lb_connected g j i \/
  (exists s, lb_getClusterSite g s = UB /\ (s = i \/ s = j)).
Proof.
  unfold lb_connected. rewrite (Z.eqb_sym j i). destruct (Z.eqb_spec i j); [now left|].
  destruct (lb_getClusterSite g i) as [[[c1 b1]|]| | |] eqn:E1;
  destruct (lb_getClusterSite g j) as [[[c2 b2]|]| | |] eqn:E2; cbn [bind]; auto; 
  try (right; eexists; split; [eassumption|auto]);
  try (unfold lb_getClusterSite in *; repeat match goal with H : context [if ?x then _ else _] |- _ => destruct x end; discriminate).
  left. f_equal. unfold ladder_connected. rewrite (Z.eqb_sym (j - _)). destruct (_ =? _); auto.
  rewrite (Z.eqb_sym ((j - _) / _)), (Z.eqb_sym ((j - _) mod _)).
  now rewrite (neighbors_sym ((j - _) mod _)), (neighbors_sym ((j - _) / _)).
Qed.

(** ** K2NiF4 *)
Lemma k2_type_C i : 0 <= i -> fst (k2_type i) = (i mod 4 =? 3).
Proof.
  intros Hi. unfold k2_type.
  assert (E : (i + 1) mod 4 = if i mod 4 =? 3 then 0 else i mod 4 + 1).
  { pose proof (Z.div_mod i 4 ltac:(lia)). pose proof (Z.mod_pos_bound i 4 ltac:(lia)).
    destruct (Z.eqb_spec (i mod 4) 3) as [E|E].
    - replace (i + 1) with (0 + (i / 4 + 1) * 4) by lia. apply coord_mod. lia.
    - replace (i + 1) with ((i mod 4 + 1) + (i / 4) * 4) by lia. rewrite coord_mod by lia. reflexivity. }
  rewrite E. pose proof (Z.mod_pos_bound i 4 ltac:(lia)).
  destruct (Z.eqb_spec (i mod 4) 3); [reflexivity|].
  destruct (Z.eqb_spec (i mod 4 + 1) 0); [lia|reflexivity].
Qed.
Lemma k2_rank_count (n : nat) :
  fold_left (fun '(no, nc) i => if fst (k2_type (Z.of_nat i)) then (no, nc + 1) else (no + 1, nc))
    (seq 0 n) (0, 0) = (Z.of_nat n - Z.of_nat n / 4, Z.of_nat n / 4).
Proof.
  induction n; [reflexivity|].
  rewrite seq_S, fold_left_app, IHn. cbn [fold_left]. rewrite Nat.add_0_l, k2_type_C by lia.
  pose proof (Z.div_mod (Z.of_nat n) 4 ltac:(lia)). pose proof (Z.mod_pos_bound (Z.of_nat n) 4 ltac:(lia)).
  pose proof (Z.div_mod (Z.of_nat (S n)) 4 ltac:(lia)). pose proof (Z.mod_pos_bound (Z.of_nat (S n)) 4 ltac:(lia)).
  destruct (Z.eqb_spec (Z.of_nat n mod 4) 3); f_equal; lia.
Qed.
Lemma k2_matrixRank_eq (n : nat) : k2_matrixRank n = 2 * Z.of_nat n - Z.of_nat n / 4.
Proof. unfold k2_matrixRank. rewrite k2_rank_count. lia. Qed.

Lemma k2_index_eq n i orb : 0 <= i < n -> (orb = 0 \/ orb = 1) ->
  k2_index n i orb = Ok (if i mod 4 =? 3 then (if orb =? 0 then i else -1)
                         else if orb =? 0 then i else n + i - (i + 1) / 4).
Proof.
  intros Hi Ho. unfold k2_index. rewrite k2_type_C by lia.
  destruct Ho as [-> | ->]; destruct (i mod 4 =? 3); cbn [andb Datatypes.orb Z.ltb Z.eqb Z.compare]; auto.
  pose proof (Z.div_le_upper_bound (i + 1) 4 (n + i) ltac:(lia) ltac:(lia)).
  destruct (Z.leb_spec ((i + 1) / 4) (n + i)); [reflexivity|lia].
Qed.
