(** Proofs about Gap_Model, continued. *)
From Verif Require Import Prelude Geo_Model Geo_Spec Geo_Proofs Geo_Proofs2 Geo_Props Gap_Model Gap_Spec Gap_Proofs.
From Coq Require Import ZArith Lia Bool.
Local Open Scope Z_scope.

(** * K2NiF4 *)
Lemma k2_pairs a b : 0 <= a < b -> b < 18446744073709551616 -> k2_connected a b = Ok true ->
  exists u, a = 4 * u /\ (b = 4 * u + 1 \/ b = 4 * u + 2 \/ b = 4 * u + 3) \/ a = 4 * u + 1 /\ (b = 4 * u + 3 \/ b = 4 * u + 4) \/
    a = 4 * u + 2 /\ (b = 4 * u + 3 \/ b = 4 * u + 4) \/ a = 4 * u + 3 /\ b = 4 * u + 4.
Proof.
  intros A B H. apply C36_k2nif4_bonds in H; [|unfold size_max; lia|unfold size_max; lia].
  destruct H as [H|H]; inversion H; subst; try (exists u; lia).
Qed.

Lemma k2_gap {T} (val : Z -> Z -> res T) zero L smax emin i1 i2 : L + 4 < 18446744073709551616 ->
  zero_unless L (fun a b => k2_connected a b = Ok true) val zero ->
  0 <= smax < emin -> emin < L -> mirrored 4 smax emin -> 0 <= i1 <= smax -> emin <= i2 < L ->
  (smax mod 4 = 0 \/ smax mod 4 = 3 ->
   (if w64 (smax + 1) =? emin then val i1 i2 else term_value (k2_term val) smax emin i1 i2) = val i1 (i2 - columns_moved 4 smax emin * 4)) /\
  (smax mod 4 = 2 ->
   (if w64 (smax + 1) =? emin then val i1 i2 else term_value (k2_term val) smax emin i1 i2) =
     if (i1 =? smax - 2) && (i2 =? emin + 2) then val i1 (smax + 1) else Ok zero).
Proof.
  intros HL Z0 S0 E0 Mi I1 I2. unfold mirrored, columns_moved in *.
  pose proof (Z.div_mod smax 4 ltac:(lia)) as Ds. pose proof (Z.div_mod emin 4 ltac:(lia)) as De.
  pose proof (Z.mod_pos_bound smax 4 ltac:(lia)) as Bs. pose proof (Z.mod_pos_bound emin 4 ltac:(lia)) as Be.
  rewrite (w64_small (smax + 1)) by lia.
  assert (Bf : forall i j, bothFringe (k2_term val) smax emin i j = Ok (k2_fringe i smax emin && k2_fringe j smax emin)).
  { intros i j. unfold bothFringe, k2_term. cbn [tm_fringe bind]. now destruct (k2_fringe i smax emin). }
  specialize (Bf i1 i2). unfold k2_fringe in Bf.
  assert (Zr : forall b, i1 < b < L -> (forall u, ~ (i1 = 4 * u /\ (b = 4 * u + 1 \/ b = 4 * u + 2 \/ b = 4 * u + 3) \/ i1 = 4 * u + 1 /\ (b = 4 * u + 3 \/ b = 4 * u + 4) \/
    i1 = 4 * u + 2 /\ (b = 4 * u + 3 \/ b = 4 * u + 4) \/ i1 = 4 * u + 3 /\ b = 4 * u + 4)) -> val i1 b = Ok zero).
  { intros b Hb N. apply Z0; [lia|lia|]. intros H. apply k2_pairs in H; [|lia|lia]. destruct H as [u H]. exact (N u H). }
  set (k := smax / 4) in *. set (m := emin / 4) in *. set (c := smax mod 4) in *. set (e := emin mod 4) in *.
  assert (Cc : c = smax mod 4) by reflexivity. clearbody k m e c. clear Z0. split.
  - intros [Hc|Hc]; rewrite Hc in *; replace e with (3 - c) in * by lia; rewrite Hc in *; cbn [Z.eqb Pos.eqb] in Bf.
    + change (3 - 0 <=? 0) with false. cbv iota. replace (m - k - 0) with (m - k) by lia.
      destruct (Z.eqb_spec (smax + 1) emin); [lia|].
      destruct (Z.eq_dec m k) as [->|Hmk].
      { replace (i2 - (k - k) * 4) with i2 by lia. destruct (Z.eqb_spec i1 smax), (Z.eqb_spec i1 emin), (Z.eqb_spec i2 smax), (Z.eqb_spec i2 emin); cbn [orb andb] in Bf; try lia.
        - rewrite term_both by (exact Bf || lia). cbn [tm_subst tm_val k2_term]. unfold k2_getSubstituteSite. rewrite <- Cc. cbn [Z.eqb bind]. rewrite w64_small by lia. f_equal; lia.
        - rewrite term_none by exact Bf. reflexivity.
        - rewrite term_none by exact Bf. reflexivity.
        - rewrite term_none by exact Bf. reflexivity. }
      destruct (Z.eqb_spec i1 smax), (Z.eqb_spec i1 emin), (Z.eqb_spec i2 smax), (Z.eqb_spec i2 emin); cbn [orb andb] in Bf; try lia.
      * rewrite term_both by (exact Bf || lia). cbn [tm_subst tm_val k2_term]. unfold k2_getSubstituteSite. rewrite <- Cc. cbn [Z.eqb bind]. rewrite w64_small by lia. f_equal; lia.
      * rewrite term_none by exact Bf. cbn [tm_val k2_term]. rewrite !Zr; auto; intros; lia.
      * rewrite term_none by exact Bf. cbn [tm_val k2_term]. rewrite !Zr; auto; intros; lia.
      * rewrite term_none by exact Bf. cbn [tm_val k2_term]. rewrite !Zr; auto; intros; lia.
    + change (3 - 3 <=? 3) with true. cbv iota. rewrite !(w64_small (smax - _)) in Bf by lia.
      destruct (Z.eqb_spec (smax + 1) emin). { replace (i2 - (m - k - 1) * 4) with i2 by lia. reflexivity. }
      destruct (((i1 =? emin) || (i1 =? smax) || (i1 =? smax - 1) || (i1 =? smax - 2)) && ((i2 =? emin) || (i2 =? smax) || (i2 =? smax - 1) || (i2 =? smax - 2))) eqn:B.
      * rewrite term_both by (exact Bf || lia). cbn [tm_subst tm_val k2_term]. unfold k2_getSubstituteSite. rewrite <- Cc. cbn [Z.eqb Pos.eqb].
        rewrite andb_true_iff, !orb_true_iff, !Z.eqb_eq in B. destruct (Z.eqb_spec i2 emin); [|lia]. cbn [bind]. rewrite w64_small by lia. f_equal; lia.
      * rewrite term_none by exact Bf. cbn [tm_val k2_term].
        rewrite andb_false_iff, !orb_false_iff, !Z.eqb_neq in B. rewrite !Zr; auto; intros; lia.
  - intros Hc. rewrite Hc in *. replace e with 1 in * by lia. cbn [Z.eqb Pos.eqb] in Bf. rewrite (w64_small (smax - _)), (w64_small (emin + _)) in Bf by lia.
    destruct (Z.eqb_spec (smax + 1) emin); [lia|].
    destruct (Z.eqb_spec i1 (smax - 2)), (Z.eqb_spec i1 (emin + 2)), (Z.eqb_spec i2 (smax - 2)), (Z.eqb_spec i2 (emin + 2)); cbn [orb andb] in Bf |- *; try lia.
    + rewrite term_both by (exact Bf || lia). cbn [tm_subst tm_val k2_term]. unfold k2_getSubstituteSite. rewrite <- Cc. cbn [Z.eqb Pos.eqb].
      rewrite (w64_small (emin + 2)) by lia. destruct (Z.eqb_spec i2 (emin + 2)); [|lia]. cbn [bind]. rewrite w64_small by lia. reflexivity.
    + rewrite term_none by exact Bf. cbn [tm_val k2_term]. apply Zr; [lia|]. intros; lia.
    + rewrite term_none by exact Bf. cbn [tm_val k2_term]. apply Zr; [lia|]. intros; lia.
    + rewrite term_none by exact Bf. cbn [tm_val k2_term]. apply Zr; [lia|]. intros; lia.
Qed.

(** * LadderBath *)
Section Bath.
  Context {T : Type}.
  Variables (m b : Z) (l : ladder) (val : Z -> Z -> res T).
  Hypothesis (Hm : 0 < m) (Hb : 0 <= b) (Hsm : 2 * m * (1 + b) < 18446744073709551616) (Hl : la_L l = 2 * m).
  Let g := mklb (2 * m * (1 + b)) b l.
  Lemma bath_gap_bath i1 i2 smax emin : in_range (2 * m * (1 + b)) i1 -> in_range (2 * m * (1 + b)) i2 -> in_bath m b i1 \/ in_bath m b i2 ->
    term_value (lb_term g val) smax emin i1 i2 = val i1 i2.
  Proof.
    intros R1 R2 H. apply term_none. unfold bothFringe. cbn [tm_fringe lb_term]. unfold lb_fringe.
    assert (Bt : forall i, in_bath m b i -> exists o, lb_getClusterSite g i = Ok (Some o)).
    { intros i Hi. destruct (bath_site_ex m b Hm i Hi) as (s & t & Hs & Ht & ->). unfold g. rewrite getClusterSite_bath by auto. eauto. }
    assert (D : in_cluster m b i1 \/ in_bath m b i1).
    { unfold in_range, in_bath, in_cluster in *. destruct (Z_le_dec (m * b) i1), (Z_lt_dec i1 (m * b + 2 * m)); auto; right; split; auto; lia. }
    destruct D as [D|D].
    - destruct H as [H|H]; [destruct H as [_ H]; contradiction|]. unfold g at 1. rewrite getClusterSite_cluster by auto. cbn [bind].
      destruct (Bt i2 H) as [o ->]. cbn [bind]. now destruct (ladder_fringe _ _ _ _).
    - destruct (Bt i1 D) as [o ->]. reflexivity.
  Qed.
  Lemma bath_gap_cluster i1 i2 smax emin : in_cluster m b i1 -> in_cluster m b i2 -> i1 < i2 -> m * b <= smax -> m * b <= emin ->
    smax < 2 * m * (1 + b) -> emin < 2 * m * (1 + b) ->
    term_value (lb_term g val) smax emin i1 i2 =
    term_value (ladder_term l (fun x y => val (w64 (x + m * b)) (w64 (y + m * b)))) (smax - m * b) (emin - m * b) (i1 - m * b) (i2 - m * b).
  Proof.
    intros C1 C2 Lt Hs He Ls Le. assert (Nn : 0 <= m * b) by (apply Z.mul_nonneg_nonneg; lia). unfold term_value, bothFringe, lb_term, ladder_term. cbn [tm_fringe tm_subst tm_val]. unfold lb_fringe, lb_getSubstituteSite.
    assert (F : lb_first g = m * b) by (unfold g; apply lb_first_eq; auto). 
    rewrite !(getClusterSite_cluster m b l) by auto. fold g. rewrite F. cbn [bind lb_ladder g].
    unfold in_cluster in *. rewrite !(w64_small (_ - _)) by lia.
    destruct (ladder_fringe l (i1 - m * b) (smax - m * b) (emin - m * b)); cbn [bind].
    2: { rewrite !w64_small by lia. f_equal; lia. }
    destruct (ladder_fringe l (i2 - m * b) (smax - m * b) (emin - m * b)); cbn [bind].
    2: { rewrite !w64_small by lia. f_equal; lia. }
    destruct (Z.ltb_spec i2 i1); [lia|]. destruct (Z.ltb_spec (i2 - m * b) (i1 - m * b)); [lia|].
    rewrite (getClusterSite_cluster m b l) by auto. cbn [bind lb_ladder g]. rewrite !(w64_small (_ - _)) by lia.
    destruct (ladder_getSubstituteSite l (smax - m * b) (emin - m * b) (i2 - m * b)); cbn [bind]; auto.
    rewrite (w64_small (i1 - m * b + m * b)) by lia. f_equal; lia.
  Qed.
End Bath.
