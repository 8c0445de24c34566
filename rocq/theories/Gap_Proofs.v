(** Proofs about Gap_Model. *)
From Verif Require Import Prelude Geo_Model Geo_Spec Geo_Proofs Geo_Proofs2 Gap_Model Gap_Spec.
From Coq Require Import ZArith Lia Bool.
Local Open Scope Z_scope.

Lemma lex n c r c' r' : 0 <= r < n -> 0 <= r' < n -> (r + c * n <= r' + c' * n <-> c < c' \/ (c = c' /\ r <= r')).
Proof. intros. split; intros; [destruct (Z_lt_le_dec c c'); [auto|right]; assert (c = c') by nia; subst; lia|]. destruct H1 as [|[-> ?]]; nia. Qed.

Section Term.
  Context {T : Type}.
  Variable t : gterm T.
  Lemma term_both smax emin i1 i2 : bothFringe t smax emin i1 i2 = Ok true -> i1 < i2 ->
    term_value t smax emin i1 i2 = (do s2 <- tm_subst t smax emin i2 ;; tm_val t i1 s2).
  Proof.
    intros B Lt. unfold term_value. rewrite B. cbn [bind]. destruct (Z.ltb_spec i2 i1); [lia|]. cbn [bind].
    destruct (tm_subst t smax emin i2); reflexivity.
  Qed.
  Lemma term_both_sym smax emin i1 i2 : bothFringe t smax emin i2 i1 = Ok true -> i1 < i2 ->
    term_value t smax emin i2 i1 = (do s2 <- tm_subst t smax emin i2 ;; tm_val t i1 s2).
  Proof.
    intros B Lt. unfold term_value. rewrite B. cbn [bind]. destruct (Z.ltb_spec i1 i2); [|lia]. cbn [bind].
    destruct (tm_subst t smax emin i2); reflexivity.
  Qed.
  Lemma term_none smax emin i1 i2 : bothFringe t smax emin i1 i2 = Ok false -> term_value t smax emin i1 i2 = tm_val t i1 i2.
  Proof. intros B. unfold term_value. now rewrite B. Qed.
End Term.

Lemma half_ok leg : 2 * (leg / 2) <= leg < 2 * (leg / 2) + 2.
Proof. pose proof (Z.div_mod leg 2 ltac:(lia)). pose proof (Z.mod_pos_bound leg 2 ltac:(lia)). lia. Qed.

Section Ladder.
  Context {T : Type}.
  Variables (leg lx : Z) (px py : bool) (c k m : Z).
  Hypothesis (Hleg : 0 < leg) (Hlx : 0 < lx) (Hsize : leg * lx + leg < 18446744073709551616).
  Hypothesis (Hc : 0 <= c < leg) (Hk : 0 <= k) (Hkm : k < m) (Hm : m < lx).
  Let smax := c + k * leg.
  Let emin := (leg - 1 - c) + m * leg.
  Let g := mkladder (leg * lx) leg px py.
  Let half := leg / 2.
  Hypothesis Hfirst : half <= smax.

  Lemma smax_emin : smax < emin.
  Proof. assert (smax <= emin) by (apply lex; lia). unfold smax, emin in *. assert (c + k * leg <> leg - 1 - c + m * leg); [|lia]. intros E. apply coord_inj in E; lia. Qed.
  Lemma emin_le : emin < leg * lx.
  Proof. unfold emin. pose proof (coord_range leg lx m (leg - 1 - c)). lia. Qed.
  Lemma smax_mod : smax mod leg = c.
  Proof. unfold smax. apply coord_mod. lia. Qed.
  Lemma smax_div : smax / leg = k.
  Proof. unfold smax. apply coord_div. lia. Qed.
  Lemma emin_mod : emin mod leg = leg - 1 - c.
  Proof. unfold emin. apply coord_mod. lia. Qed.
  Lemma emin_div : emin / leg = m.
  Proof. unfold emin. apply coord_div. lia. Qed.
  Lemma rows_apart : (leg - 1 - c <=? c) = (half <=? c).
  Proof. pose proof (half_ok leg) as Hh. fold half in Hh. destruct (Z.leb_spec (leg - 1 - c) c), (Z.leb_spec half c); auto; lia. Qed.

  Definition lo : Z := if half <=? c then k else k - 1.
  Definition hi : Z := if half <=? c then m else m + 1.
  Lemma fringe_sys c1 r1 : 0 <= r1 < leg -> 0 <= c1 -> r1 + c1 * leg <= smax -> smax + 1 <> emin ->
    ladder_fringe g (r1 + c1 * leg) smax emin = ((lo <? c1) || ((lo =? c1) && (leg - 1 - c <=? r1))).
  Proof.
    intros R1 C1 S N. pose proof smax_emin. pose proof (half_ok leg) as Hh. fold half in Hh. unfold ladder_fringe, g. cbn [la_leg]. rewrite smax_mod. fold half.
    pose proof emin_le. assert (Sm : smax = c + k * leg) by reflexivity.
    assert (K1 : half <= c \/ 1 <= k). { destruct (Z_le_gt_dec half c); auto. right. destruct (Z.eq_dec k 0) as [E|]; [|lia]. rewrite E in Sm. lia. }
    destruct (Z.eqb_spec (smax + 1) emin); [contradiction|].
    destruct (Z.ltb_spec (r1 + c1 * leg) emin); [|lia]. destruct (Z.ltb_spec smax (r1 + c1 * leg)); [lia|]. cbn [andb]. rewrite orb_false_r.
    unfold lo. destruct (Z.leb_spec half c).
    - rewrite (w64_small (2 + 2 * c - leg)) by lia. replace (smax - (2 + 2 * c - leg) + 1) with (leg - 1 - c + k * leg) by lia.
      rewrite w64_small by (pose proof (Z.mul_nonneg_nonneg k leg ltac:(lia) ltac:(lia)); lia). destruct (Z.leb_spec (leg - 1 - c + k * leg) (r1 + c1 * leg)) as [A|A].
      + apply lex in A; [|lia|lia]. destruct (Z.ltb_spec k c1), (Z.eqb_spec k c1), (Z.leb_spec (leg - 1 - c) r1); cbn [orb andb]; auto; lia.
      + assert (B : ~ (leg - 1 - c + k * leg <= r1 + c1 * leg)) by lia. rewrite lex in B by lia.
        destruct (Z.ltb_spec k c1), (Z.eqb_spec k c1), (Z.leb_spec (leg - 1 - c) r1); cbn [orb andb]; auto; lia.
    - replace (smax - (2 + 2 * c) + 1) with (leg - 1 - c + (k - 1) * leg) by lia.
      rewrite w64_small by (pose proof (Z.mul_nonneg_nonneg (k - 1) leg ltac:(lia) ltac:(lia)); lia). destruct (Z.leb_spec (leg - 1 - c + (k - 1) * leg) (r1 + c1 * leg)) as [A|A].
      + apply lex in A; [|lia|lia]. destruct (Z.ltb_spec (k - 1) c1), (Z.eqb_spec (k - 1) c1), (Z.leb_spec (leg - 1 - c) r1); cbn [orb andb]; auto; lia.
      + assert (B : ~ (leg - 1 - c + (k - 1) * leg <= r1 + c1 * leg)) by lia. rewrite lex in B by lia.
        destruct (Z.ltb_spec (k - 1) c1), (Z.eqb_spec (k - 1) c1), (Z.leb_spec (leg - 1 - c) r1); cbn [orb andb]; auto; lia.
  Qed.
  Lemma fringe_env c2 r2 : 0 <= r2 < leg -> 0 <= c2 < lx -> emin <= r2 + c2 * leg -> smax + 1 <> emin ->
    ladder_fringe g (r2 + c2 * leg) smax emin = ((c2 <? hi) || ((c2 =? hi) && (r2 <=? c))).
  Proof.
    intros R2 C2 S N. pose proof smax_emin. pose proof (half_ok leg) as Hh. fold half in Hh. unfold ladder_fringe, g. cbn [la_leg]. rewrite smax_mod. fold half.
    pose proof emin_le. assert (Em : emin = leg - 1 - c + m * leg) by reflexivity.
    destruct (Z.eqb_spec (smax + 1) emin); [contradiction|].
    destruct (Z.ltb_spec (r2 + c2 * leg) emin); [lia|]. destruct (Z.ltb_spec smax (r2 + c2 * leg)); [|lia]. cbn [andb]. cbn [orb].
    unfold hi. destruct (Z.leb_spec half c).
    - rewrite (w64_small (2 + 2 * c - leg)) by lia. replace (emin + (2 + 2 * c - leg) - 1) with (c + m * leg) by lia.
      rewrite w64_small by (pose proof (Z.mul_nonneg_nonneg m leg ltac:(lia) ltac:(lia)); lia). destruct (Z.leb_spec (r2 + c2 * leg) (c + m * leg)) as [A|A].
      + apply lex in A; [|lia|lia]. destruct (Z.ltb_spec c2 m), (Z.eqb_spec c2 m), (Z.leb_spec r2 c); cbn [orb andb]; auto; lia.
      + assert (B : ~ (r2 + c2 * leg <= c + m * leg)) by lia. rewrite lex in B by lia.
        destruct (Z.ltb_spec c2 m), (Z.eqb_spec c2 m), (Z.leb_spec r2 c); cbn [orb andb]; auto; lia.
    - replace (emin + (2 + 2 * c) - 1) with (c + (m + 1) * leg) by lia.
      rewrite w64_small by (pose proof (Z.mul_nonneg_nonneg m leg ltac:(lia) ltac:(lia)); lia). destruct (Z.leb_spec (r2 + c2 * leg) (c + (m + 1) * leg)) as [A|A].
      + apply lex in A; [|lia|lia]. destruct (Z.ltb_spec c2 (m + 1)), (Z.eqb_spec c2 (m + 1)), (Z.leb_spec r2 c); cbn [orb andb]; auto; lia.
      + assert (B : ~ (r2 + c2 * leg <= c + (m + 1) * leg)) by lia. rewrite lex in B by lia.
        destruct (Z.ltb_spec c2 (m + 1)), (Z.eqb_spec c2 (m + 1)), (Z.leb_spec r2 c); cbn [orb andb]; auto; lia.
  Qed.

  Definition moved : Z := m - k - (if half <=? c then 1 else 0).
  Lemma moved_ok : columns_moved leg smax emin = moved.
  Proof. unfold columns_moved, moved. rewrite smax_mod, smax_div, emin_mod, emin_div, rows_apart. reflexivity. Qed.
  Lemma subst_ok i2 : emin <= i2 -> i2 < leg * lx -> smax + 1 <> emin ->
    ladder_getSubstituteSite g smax emin i2 = Ok (i2 - moved * leg).
  Proof.
    intros A B N. unfold ladder_getSubstituteSite, g. cbn [la_leg]. destruct (Z.eqb_spec (smax + 1) emin); [contradiction|].
    rewrite smax_mod, smax_div, emin_div. fold half. rewrite (w64_small (m - k)) by (assert (m < leg * lx) by (clear -Hleg Hlx Hm; nia); lia).
    destruct (Z.ltb_spec 0 (m - k)); [|lia]. unfold moved.
    replace (if half <=? c then m - k - 1 else m - k) with (m - k - (if half <=? c then 1 else 0)) by (destruct (half <=? c); lia).
    rewrite w64_small; [reflexivity|]. unfold emin in A. clear -Hleg A B Hc Hk Hkm Hsize. assert (0 <= (m - k - (if half <=? c then 1 else 0)) * leg) by (apply Z.mul_nonneg_nonneg; destruct (half <=? c); lia).
    assert (0 <= k * leg) by (apply Z.mul_nonneg_nonneg; lia). destruct (half <=? c); lia.
  Qed.
End Ladder.

Lemma ladder_gap {T} (val : Z -> Z -> res T) zero leg lx px py smax emin i1 i2 :
  0 < leg -> 0 < lx -> leg * lx + leg < 18446744073709551616 ->
  let g := mkladder (leg * lx) leg px py in
  zero_unless (leg * lx) (fun a b => ladder_connected g a b = true) val zero ->
  0 <= smax -> emin < leg * lx -> smax / leg < emin / leg -> mirrored leg smax emin -> leg / 2 <= smax ->
  (px = true -> 2 * leg <= smax + 1 /\ emin + 2 * leg <= leg * lx) ->
  0 <= i1 <= smax -> emin <= i2 < leg * lx ->
  (if w64 (smax + 1) =? emin then val i1 i2 else term_value (ladder_term g val) smax emin i1 i2) =
  if px && (i1 <? leg) && (leg * lx - leg <=? i2) then val i1 i2 else val i1 (i2 - columns_moved leg smax emin * leg).
Proof.
  intros Hleg Hlx Hsz g Z0 S0 E1 D Mi Hh P I1 I2. unfold mirrored in Mi.
  set (c := smax mod leg) in *. set (k := smax / leg) in *. set (m := emin / leg) in *.
  assert (Hc : 0 <= c < leg) by (apply Z.mod_pos_bound; lia).
  assert (Es : smax = c + k * leg) by (unfold c, k; rewrite (Z.div_mod smax leg) at 1; lia).
  assert (Ee : emin = (leg - 1 - c) + m * leg) by (unfold m; rewrite (Z.div_mod emin leg) at 1; lia).
  assert (Hk : 0 <= k) by (apply Z.div_pos; lia).
  assert (Hm : m < lx). { unfold m. apply Z.div_lt_upper_bound; lia. }
  clearbody c k m. subst smax emin. rewrite (moved_ok leg c k m) by lia. set (s := moved leg c k m).
  assert (SE : c + k * leg < leg - 1 - c + m * leg) by (apply (smax_emin leg c k m); lia).
  destruct (coord_ex leg lx i1) as (c1 & r1 & -> & R1 & C1); [lia|lia|].
  destruct (coord_ex leg lx i2) as (c2 & r2 & -> & R2 & C2); [lia|lia|].
  assert (Lt : r1 + c1 * leg < r2 + c2 * leg) by lia.
  assert (Sz : leg * lx < 18446744073709551616) by lia.
  assert (Sb : c + k * leg + 1 <> leg - 1 - c + m * leg -> ladder_getSubstituteSite g (c + k * leg) (leg - 1 - c + m * leg) (r2 + c2 * leg) = Ok (r2 + c2 * leg - s * leg)).
  { intros N. apply (subst_ok leg lx px py c k m); auto; lia. }
  assert (S1 : c1 < k \/ c1 = k /\ r1 <= c) by (apply (lex leg); lia).
  assert (S2 : m < c2 \/ m = c2 /\ leg - 1 - c <= r2) by (apply (lex leg); lia).
  pose proof (half_ok leg) as Hhalf.
  assert (Hs : 0 <= s) by (unfold s, moved; destruct (leg / 2 <=? c); lia).
  rewrite (w64_small (c + k * leg + 1)) by lia.
  replace (r2 + c2 * leg - s * leg) with (r2 + (c2 - s) * leg) by lia.
  destruct (Z.eqb_spec (c + k * leg + 1) (leg - 1 - c + m * leg)) as [E|E].
  - assert (s = 0).
    { unfold s, moved. destruct (Z_lt_le_dec (c + 1) leg).
      - replace (c + k * leg + 1) with (c + 1 + k * leg) in E by lia. apply coord_inj in E; lia.
      - assert (c = leg - 1) by lia. subst c. replace (leg - 1 + k * leg + 1) with (0 + (k + 1) * leg) in E by lia.
        replace (leg - 1 - (leg - 1)) with 0 in E by lia. apply coord_inj in E; [|lia|lia]. destruct (Z.leb_spec (leg / 2) (leg - 1)); lia. }
    replace (c2 - s) with c2 by lia. now destruct (px && _ && _).
  - assert (F1 : ladder_fringe g (r1 + c1 * leg) (c + k * leg) (leg - 1 - c + m * leg) =
              ((lo leg c k <? c1) || ((lo leg c k =? c1) && (leg - 1 - c <=? r1)))) by (apply (fringe_sys leg lx px py c k m); lia).
    assert (F2 : ladder_fringe g (r2 + c2 * leg) (c + k * leg) (leg - 1 - c + m * leg) =
              ((c2 <? hi leg c m) || ((c2 =? hi leg c m) && (r2 <=? c)))) by (apply (fringe_env leg lx px py c k m); lia).
    assert (B : bothFringe (ladder_term g val) (c + k * leg) (leg - 1 - c + m * leg) (r1 + c1 * leg) (r2 + c2 * leg) =
      Ok (((lo leg c k <? c1) || ((lo leg c k =? c1) && (leg - 1 - c <=? r1))) && ((c2 <? hi leg c m) || ((c2 =? hi leg c m) && (r2 <=? c))))).
    { unfold bothFringe, ladder_term. cbn [tm_fringe bind]. rewrite F1, F2. now destruct (_ || _). }
    assert (Hbound : forall cc rr, 0 <= rr < leg -> 0 <= cc < lx -> (rr + cc * leg <? leg) = (cc =? 0) /\ (leg * lx - leg <=? rr + cc * leg) = (cc =? lx - 1)).
    { intros cc rr Rr Cc. split.
      - clear -Rr Cc. destruct (Z.ltb_spec (rr + cc * leg) leg), (Z.eqb_spec cc 0); auto; nia.
      - clear -Rr Cc. destruct (Z.leb_spec (leg * lx - leg) (rr + cc * leg)), (Z.eqb_spec cc (lx - 1)); auto; nia. }
    rewrite (proj1 (Hbound c1 r1 R1 C1)), (proj2 (Hbound c2 r2 R2 C2)).
    assert (Pk : px = true -> (2 <= k \/ k = 1 /\ c = leg - 1)).
    { intros Hp. destruct (P Hp) as [Pa _]. assert (L2 : leg - 1 + 1 * leg <= c + k * leg) by lia. apply lex in L2; lia. }
    assert (K1 : leg / 2 <= c \/ 1 <= k). { destruct (Z_le_gt_dec (leg / 2) c); auto. right. destruct (Z.eq_dec k 0) as [E0|]; [|lia]. rewrite E0 in Hh. lia. }
    destruct ((((lo leg c k <? c1) || ((lo leg c k =? c1) && (leg - 1 - c <=? r1))) && ((c2 <? hi leg c m) || ((c2 =? hi leg c m) && (r2 <=? c))))) eqn:FF.
    + rewrite term_both by (exact B || exact Lt). cbn [tm_subst tm_val ladder_term].
      rewrite (Sb E). cbn [bind].
      replace (r2 + c2 * leg - s * leg) with (r2 + (c2 - s) * leg) by lia.
      destruct px; [|reflexivity]. specialize (Pk eq_refl). assert (N : c1 <> 0).
      { apply andb_true_iff in FF. destruct FF as [FF _]. apply orb_true_iff in FF. rewrite andb_true_iff, Z.ltb_lt, Z.eqb_eq, Z.leb_le in FF.
        unfold lo in FF. clear -FF Pk Hhalf Hc. destruct (Z.leb_spec (leg / 2) c); lia. }
      destruct (Z.eqb_spec c1 0); [contradiction|]. reflexivity.
    + rewrite term_none by exact B. cbn [tm_val ladder_term].
      destruct (px && (c1 =? 0) && (c2 =? lx - 1)) eqn:Bd; [reflexivity|].
      destruct (Z.eq_dec s 0) as [->|Hs0]; [f_equal; lia|].
      assert (Px : px = true -> c1 = 0 -> c2 = lx - 1 -> False).
      { intros -> -> ->. rewrite !Z.eqb_refl in Bd. discriminate. }
      assert (Q : ~ (lo leg c k < c1 \/ lo leg c k = c1 /\ leg - 1 - c <= r1) \/ ~ (c2 < hi leg c m \/ c2 = hi leg c m /\ r2 <= c)).
      { apply andb_false_iff in FF. rewrite !orb_false_iff, !andb_false_iff, !Z.ltb_ge, !Z.eqb_neq, !Z.leb_gt in FF. lia. }
      assert (Hc2 : 0 <= c2 - s < lx). { clear -S1 S2 C2 Hs Hc Hm D C1. unfold s, moved in *. destruct (leg / 2 <=? c); lia. }
      rewrite (Z0 (r1 + c1 * leg) (r2 + c2 * leg)), (Z0 (r1 + c1 * leg) (r2 + (c2 - s) * leg)); try apply coord_range; auto.
      * unfold g. rewrite (ladder_connected_grid leg lx Hleg Hlx Sz px py c1 r1 _ r2 R1 R2 C1 Hc2). unfold grid_adj, line_adj. clear -Q Hhalf Hc S1 S2 C1 C2 D Hs Hs0 R1 R2 Hc2.
        unfold s, moved, lo, hi in *. destruct (Z.leb_spec (leg / 2) c); intros [[A1 A2]|[A1 [A2 [A3|[A3 A4]]]]]; lia.
      * unfold g. rewrite (ladder_connected_grid leg lx Hleg Hlx Sz px py c1 r1 _ r2 R1 R2 C1 C2). unfold grid_adj, line_adj. clear -Q Hhalf Hc S1 S2 C1 C2 D Hs Hs0 R1 R2 Hc2 Px.
        unfold s, moved, lo, hi in *. destruct (Z.leb_spec (leg / 2) c); intros [[A1 A2]|[A1 [A2 [A3|[A3 A4]]]]]; try lia; apply (Px A3); lia.
Qed.

(** * LadderX with two rows *)
Lemma ladderx_gap {T} (val : Z -> Z -> res T) zero lx px smax emin i1 i2 :
  0 < lx -> 2 * lx + 2 < 18446744073709551616 ->
  let g := mkladder (2 * lx) 2 px false in
  zero_unless (2 * lx) (fun a b => ladderx_connected g a b = true) val zero ->
  1 <= smax < emin -> emin < 2 * lx -> mirrored 2 smax emin -> (px = true -> 3 <= smax /\ emin + 4 <= 2 * lx) ->
  0 <= i1 <= smax -> emin <= i2 < 2 * lx ->
  (if w64 (smax + 1) =? emin then val i1 i2 else term_value (ladderx_term g val) smax emin i1 i2) =
  if px && (i1 <? 2) && (2 * lx - 2 <=? i2) then val i1 i2 else val i1 (i2 - (emin - smax - 1)).
Proof.
  intros Hlx Hsz g Z0 S0 E1 Mi P I1 I2. unfold mirrored in Mi.
  rewrite (w64_small (smax + 1)) by lia. destruct (Z.eqb_spec (smax + 1) emin) as [E|E].
  { replace (i2 - (emin - smax - 1)) with i2 by lia. now destruct (px && _ && _). }
  set (d := if Z.odd smax then 1 else 2).
  assert (Sm : smax mod 2 = (if Z.odd smax then 1 else 0)) by (rewrite Zmod_odd; reflexivity).
  assert (F1 : ladderx_fringe i1 smax emin = (smax - d <=? i1)).
  { unfold ladderx_fringe, d. destruct (Z.odd smax).
    - rewrite w64_small by lia. destruct (Z.ltb_spec i1 emin); [|lia]. destruct (Z.ltb_spec smax i1); [lia|]. cbn [andb]. now rewrite orb_false_r.
    - pose proof (Z.div_mod smax 2 ltac:(lia)) as Dm. rewrite w64_small by lia. destruct (Z.ltb_spec i1 emin); [|lia]. destruct (Z.ltb_spec smax i1); [lia|]. cbn [andb]. now rewrite orb_false_r. }
  assert (F2 : ladderx_fringe i2 smax emin = (i2 <=? emin + d)).
  { unfold ladderx_fringe, d. destruct (Z.odd smax); rewrite !(w64_small (emin + _)) by lia;
      destruct (Z.ltb_spec i2 emin); [lia| |lia|]; (destruct (Z.ltb_spec smax i2); [|lia]); reflexivity. }
  assert (B : bothFringe (ladderx_term g val) smax emin i1 i2 = Ok ((smax - d <=? i1) && (i2 <=? emin + d))).
  { unfold bothFringe, ladderx_term. cbn [tm_fringe bind]. rewrite F1, F2. now destruct (_ <=? _). }
  pose proof (Z.div_mod smax 2 ltac:(lia)) as Ds. pose proof (Z.div_mod emin 2 ltac:(lia)) as De.
  set (k := smax / 2) in *. set (m := emin / 2) in *. set (c := smax mod 2) in *. set (e := emin mod 2) in *. clearbody k m e.
  destruct (coord_ex 2 lx i1) as (c1 & r1 & E1' & R1 & C1); [lia|lia|].
  destruct (coord_ex 2 lx i2) as (c2 & r2 & E2' & R2 & C2); [lia|lia|].
  assert (Ec : c = 0 /\ d = 2 \/ c = 1 /\ d = 1) by (unfold d; destruct (Z.odd smax); auto). clearbody c d.
  destruct (smax - d <=? i1) eqn:A1.
  - destruct (i2 <=? emin + d) eqn:A2.
    + rewrite term_both by (exact B || lia). cbn [tm_subst tm_val ladderx_term]. unfold ladderx_getSubstituteSite. cbn [bind].
      rewrite w64_small by lia. replace (smax + i2 - emin + 1) with (i2 - (emin - smax - 1)) by lia.
      apply Z.leb_le in A1. destruct px; [|reflexivity]. specialize (P eq_refl). destruct (Z.ltb_spec i1 2); [lia|reflexivity].
    + rewrite term_none by exact B. cbn [tm_val ladderx_term]. apply Z.leb_le in A1. apply Z.leb_gt in A2.
      destruct (px && (i1 <? 2) && (2 * lx - 2 <=? i2)) eqn:Bd; [reflexivity|].
      assert (Px : px = true -> c1 = 0 -> c2 = lx - 1 -> False).
      { intros -> -> ->. destruct (Z.ltb_spec i1 2), (Z.leb_spec (2 * lx - 2) i2); cbn in Bd; try lia; discriminate. }
      assert (H1 : forall c2' r2', 0 <= r2' < 2 -> 0 <= c2' < lx -> c2' * 2 + r2' <= i2 -> c2' * 2 + r2' > smax + d + 1 -> (c2' * 2 + r2' = i2 \/ c2' * 2 + r2' < i2) -> 
         (c2' = lx - 1 -> c2 = lx - 1) -> val i1 (c2' * 2 + r2') = Ok zero).
      { intros c2' r2' R' C' L1 L2 L3 L4. apply Z0; [lia|lia|]. rewrite E1'. rewrite (Z.add_comm (c2' * 2)). unfold g. rewrite ladderx_connected_grid by lia.
        unfold gridx_adj, grid_adj, line_adj. intros [[[G1 G2]|[G1 [G2 [G3|[G3 G4]]]]]|[G1 G2]]; try lia. }
      rewrite E2' at 1. rewrite Z.add_comm. rewrite H1 by lia.
      destruct (coord_ex 2 lx (i2 - (emin - smax - 1))) as (c3 & r3 & E3 & R3 & C3); [lia|lia|].
      rewrite E3, Z.add_comm. rewrite H1; auto; lia.
  - rewrite term_none by exact B. cbn [tm_val ladderx_term]. apply Z.leb_gt in A1.
    destruct (px && (i1 <? 2) && (2 * lx - 2 <=? i2)) eqn:Bd; [reflexivity|].
    assert (Px : px = true -> c1 = 0 -> c2 = lx - 1 -> False).
    { intros -> -> ->. destruct (Z.ltb_spec i1 2), (Z.leb_spec (2 * lx - 2) i2); cbn in Bd; try lia; discriminate. }
    assert (H1 : forall c2' r2', 0 <= r2' < 2 -> 0 <= c2' < lx -> c2' * 2 + r2' <= i2 -> c2' * 2 + r2' > smax -> (c2' * 2 + r2' = i2 \/ c2' * 2 + r2' < i2) -> 
       (c2' = lx - 1 -> c2 = lx - 1) -> val i1 (c2' * 2 + r2') = Ok zero).
    { intros c2' r2' R' C' L1 L2 L3 L4. apply Z0; [lia|lia|]. rewrite E1'. rewrite (Z.add_comm (c2' * 2)). unfold g. rewrite ladderx_connected_grid by lia.
      unfold gridx_adj, grid_adj, line_adj. intros [[[G1 G2]|[G1 [G2 [G3|[G3 G4]]]]]|[G1 G2]]; try lia. }
    rewrite E2' at 1. rewrite Z.add_comm. rewrite H1 by lia.
    destruct (coord_ex 2 lx (i2 - (emin - smax - 1))) as (c3 & r3 & E3 & R3 & C3); [lia|lia|].
    rewrite E3, Z.add_comm. rewrite H1; auto; lia.
Qed.
