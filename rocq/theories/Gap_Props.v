(** C107: couplings across the sites that are not there yet. *)
From Verif Require Import Prelude Geo_Model Geo_Spec Geo_Proofs Geo_Proofs2 Geo_Proofs4 Geo_Props Gap_Model Gap_Spec Gap_Proofs Gap_Proofs2.
From Coq Require Import ZArith Lia Bool.
Local Open Scope Z_scope.

(** Nothing is missing when the environment starts right after the system: all couplings are those of the lattice, and
    sites are connected if they are in some term. *)
Theorem C107_no_gap : forall (T : Type) (terms : list (gterm T)) smax i1 i2, 0 <= smax -> smax + 1 < size_max ->
  (forall term t, nth_error terms term = Some t -> geo_value terms smax (smax + 1) i1 i2 term = tm_val t i1 i2) /\
  (forall conn : gterm T -> bool, (forall t, In t terms -> tm_conn t i1 i2 = Ok (conn t)) ->
    exists b, geo_connected terms smax (smax + 1) i1 i2 = Ok b /\ (b = true <-> exists t, In t terms /\ conn t = true)).
Proof.
  unfold size_max. intros T terms smax i1 i2 H1 H2. split.
  - intros term t N. unfold geo_value, vget. rewrite N. cbn [bind]. rewrite w64_small by lia. now rewrite Z.eqb_refl.
  - intros conn C. unfold geo_connected. rewrite w64_small, Z.eqb_refl by lia.
    loopL (fun (pre : list (gterm T)) (b : bool) => b = true <-> exists t, In t pre /\ conn t = true) as b E H.
    + split; [discriminate|]. intros (t & [] & _).
    + intros pre a post b El Hb. rewrite C by (rewrite El; apply in_or_app; right; left; auto). cbn [bind]. eexists. split; [reflexivity|].
      rewrite orb_true_iff, Hb. split.
      * intros [(t & P & Q)|Q]; [exists t|exists a]; rewrite in_app_iff; cbn; auto.
      * intros (t & P & Q). rewrite in_app_iff in P. destruct P as [P|[<-|[]]]; eauto.
    + eauto.
Qed.
Print Assumptions C107_no_gap.

(** With couplings that are the same in both orders, those across the gap are so, too. *)
Theorem C107_symmetric : forall (T : Type) (terms : list (gterm T)) term t smax emin i1 i2, nth_error terms term = Some t ->
  (forall i, exists b, tm_fringe t i smax emin = Ok b) -> (forall a b, tm_val t a b = tm_val t b a) ->
  geo_value terms smax emin i2 i1 term = geo_value terms smax emin i1 i2 term.
Proof.
  intros T terms term t smax emin i1 i2 N F S. unfold geo_value, vget. rewrite N. cbn [bind]. destruct (w64 (smax + 1) =? emin); [apply S|].
  unfold term_value, bothFringe. destruct (F i1) as [b1 E1], (F i2) as [b2 E2]. rewrite E1, E2. cbn [bind].
  destruct b1, b2; rewrite ?E1, ?E2; cbn [bind]; try apply S.
  destruct (Z.ltb_spec i1 i2), (Z.ltb_spec i2 i1); try lia; auto. assert (i1 = i2) by lia. subst. reflexivity.
Qed.
Print Assumptions C107_symmetric.

(** Ladders with columns of any length: if system and environment mirror each other, the coupling of a site of the system and one of
    the environment is that of the lattice where the environment was moved by whole columns up to the system. Full statement:
    also if the system does not have half a column yet, and for sites both in the system. *)
Theorem C107_ladder_partial : forall (T : Type) (terms : list (gterm T)) term (val : Z -> Z -> res T) zero leg lx px py smax emin i1 i2,
  0 < leg -> 0 < lx -> leg * lx + leg < size_max ->
  let g := mkladder (leg * lx) leg px py in
  nth_error terms term = Some (ladder_term g val) ->
  zero_unless (leg * lx) (fun a b => ladder_connected g a b = true) val zero ->
  0 <= smax -> emin < leg * lx -> smax / leg < emin / leg -> mirrored leg smax emin -> leg / 2 <= smax ->
  (px = true -> 2 * leg <= smax + 1 /\ emin + 2 * leg <= leg * lx) ->
  0 <= i1 <= smax -> emin <= i2 < leg * lx ->
  geo_value terms smax emin i1 i2 term =
  if px && (i1 <? leg) && (leg * lx - leg <=? i2) then val i1 i2 else val i1 (i2 - columns_moved leg smax emin * leg).
Proof. intros T terms term val zero leg lx px py smax emin i1 i2 H1 H2 H3 g N. intros. unfold geo_value, vget. rewrite N. cbn [bind]. now apply (ladder_gap val zero). Qed.
Print Assumptions C107_ladder_partial.

(** No coupling is overlooked: sites joined after the move are reported as connected. *)
Theorem C107_ladder_connected : forall (T : Type) (val : Z -> Z -> res T) leg lx px py smax emin i1 i2,
  0 < leg -> 0 < lx -> leg * lx + leg < size_max ->
  let g := mkladder (leg * lx) leg px py in
  0 <= smax -> emin < leg * lx -> smax / leg < emin / leg -> mirrored leg smax emin -> leg / 2 <= smax ->
  (px = true -> 2 * leg <= smax + 1 /\ emin + 2 * leg <= leg * lx) ->
  0 <= i1 <= smax -> emin <= i2 < leg * lx ->
  ladder_connected g i1 (if px && (i1 <? leg) && (leg * lx - leg <=? i2) then i2 else i2 - columns_moved leg smax emin * leg) = true ->
  geo_connected [ladder_term g val] smax emin i1 i2 = Ok true.
Proof.
  intros T val leg lx px py smax emin i1 i2 H1 H2 H3 g S0 E0 D M Hh P I1 I2 C. unfold size_max in *.
  set (v := fun a b => Ok (if ladder_connected g a b then (a, b) else (-1, -1))).
  assert (Z0 : zero_unless (leg * lx) (fun a b => ladder_connected g a b = true) v (-1, -1)).
  { intros a b _ _ N. unfold v. destruct (ladder_connected g a b); [exfalso; auto|reflexivity]. }
  pose proof (ladder_gap v (-1, -1) leg lx px py smax emin i1 i2 H1 H2 H3 Z0 S0 E0 D M Hh P I1 I2) as G. fold g in G.
  set (j := if px && (i1 <? leg) && (leg * lx - leg <=? i2) then i2 else i2 - columns_moved leg smax emin * leg) in *.
  replace (if px && (i1 <? leg) && (leg * lx - leg <=? i2) then v i1 i2 else v i1 (i2 - columns_moved leg smax emin * leg)) with (v i1 j) in G
    by (unfold j; destruct (px && _ && _); reflexivity).
  unfold v at 3 in G. rewrite C in G.
  assert (W : v i1 i2 = Ok (i1, j) -> ladder_connected g i1 i2 = true).
  { unfold v. destruct (ladder_connected g i1 i2); auto. intros X. exfalso. apply Ok_inj in X. apply (f_equal fst) in X. cbn in X. lia. }
  unfold geo_connected. cbn [forL]. unfold term_connected. cbn [tm_conn ladder_term].
  destruct (w64 (smax + 1) =? emin).
  - cbn [bind]. rewrite (W G). reflexivity.
  - destruct (Z.eqb_spec i1 i2) as [E|E].
    { exfalso. assert (smax < emin); [|lia]. destruct (Z_lt_le_dec smax emin); auto. apply (Z.div_le_mono _ _ leg) in l; lia. }
    unfold term_value in G.
    change (bothFringe (ladder_term g v) smax emin i1 i2) with (bothFringe (ladder_term g val) smax emin i1 i2) in G.
    assert (Bf : exists b, bothFringe (ladder_term g val) smax emin i1 i2 = Ok b).
    { unfold bothFringe. cbn [tm_fringe ladder_term bind]. destruct (ladder_fringe g i1 smax emin); eauto. }
    destruct Bf as [b Bf]. rewrite Bf in *. cbn [bind] in *. destruct b; cbn [negb bind]; [reflexivity|].
    cbn [tm_val ladder_term] in G. rewrite (W G). reflexivity.
Qed.
Print Assumptions C107_ladder_connected.
(** But not only those: sites at the two ends of the gap count as connected although they are not joined. *)
Theorem C107_connected_refuted :
  let g := mkladder 20 2 false false in let val := fun i j => Ok (if ladder_connected g i j then 1 else 0) in
  geo_connected [ladder_term g val] 5 14 4 15 = Ok true /\ geo_value [ladder_term g val] 5 14 4 15 0 = Ok 0 /\
  ladder_connected g 4 (15 - columns_moved 2 5 14 * 2) = false.
Proof. vm_compute. auto. Qed.
Print Assumptions C107_connected_refuted.
(** A system with less than half a column is not coupled to the environment at all. *)
Theorem C107_ladder_refuted :
  let g := mkladder 20 4 false false in let val := fun i j => Ok (if ladder_connected g i j then 1 else 0) in
  mirrored 4 1 18 /\ geo_value [ladder_term g val] 1 18 1 18 0 = Ok 0 /\ val 1 (18 - columns_moved 4 1 18 * 4) = Ok 1 /\
  geo_connected [ladder_term g val] 1 18 1 18 = Ok false.
Proof. vm_compute. auto. Qed.
Print Assumptions C107_ladder_refuted.
(** The coupling of two sites of the system changes, too, if both are next to the gap, and for lattices given by a matrix
    an assertion fails. *)
Theorem C107_system_refuted :
  (let g := mkladder 20 2 false false in let val := fun i j => Ok (if ladder_connected g i j then 1 else 0) in
   geo_value [ladder_term g val] 9 14 8 9 0 = Ok 0 /\ val 8 9 = Ok 1) /\
  (forall (T : Type) L (val : Z -> Z -> res T) smax emin i1 i2, 0 <= smax -> smax + 1 < emin -> emin < size_max -> i1 < emin -> i2 < emin ->
    geo_value [longrange_term L val] smax emin i1 i2 0 = UB).
Proof.
  split; [vm_compute; auto|]. unfold size_max. intros T L val smax emin i1 i2 H1 H2 H3 H4 H5. unfold geo_value, vget. cbn [nth_error bind].
  rewrite w64_small by lia. destruct (Z.eqb_spec (smax + 1) emin); [lia|]. unfold term_value, bothFringe. cbn [tm_fringe tm_subst longrange_term bind].
  unfold longrange_getSubstituteSite. destruct (i2 <? i1); (match goal with |- context [emin <=? ?x] => destruct (Z.leb_spec emin x); [lia|] end); reflexivity.
Qed.
Print Assumptions C107_system_refuted.

(** LadderX with columns of two sites. Full statement: also for longer columns. *)
Theorem C107_ladderx_partial : forall (T : Type) (terms : list (gterm T)) term (val : Z -> Z -> res T) zero lx px smax emin i1 i2,
  0 < lx -> 2 * lx + 2 < size_max ->
  let g := mkladder (2 * lx) 2 px false in
  nth_error terms term = Some (ladderx_term g val) ->
  zero_unless (2 * lx) (fun a b => ladderx_connected g a b = true) val zero ->
  1 <= smax < emin -> emin < 2 * lx -> mirrored 2 smax emin -> (px = true -> 3 <= smax /\ emin + 4 <= 2 * lx) ->
  0 <= i1 <= smax -> emin <= i2 < 2 * lx ->
  geo_value terms smax emin i1 i2 term =
  if px && (i1 <? 2) && (2 * lx - 2 <=? i2) then val i1 i2 else val i1 (contract smax emin i2).
Proof.
  intros T terms term val zero lx px smax emin i1 i2 H1 H2 g N Z0 S E M P I1 I2. unfold geo_value, vget. rewrite N. cbn [bind].
  etransitivity; [apply (ladderx_gap val zero lx px smax emin i1 i2); auto|]. unfold contract. destruct (Z.leb_spec i2 smax); [lia|]. replace (i2 - emin + smax + 1) with (i2 - (emin - smax - 1)) by lia. reflexivity.
Qed.
Print Assumptions C107_ladderx_partial.
(** With columns of four sites couplings are missing. *)
Theorem C107_ladderx_refuted :
  let g := mkladder 24 4 false false in let val := fun i j => Ok (if ladderx_connected g i j then 1 else 0) in
  mirrored 4 7 16 /\ geo_value [ladderx_term g val] 7 16 6 17 0 = Ok 1 /\ geo_value [ladderx_term g val] 7 16 4 16 0 = Ok 0 /\ val 4 (contract 7 16 16) = Ok 1.
Proof. vm_compute. auto. Qed.
Print Assumptions C107_ladderx_refuted.

(** The star has all its couplings, whatever is missing. *)
Theorem C107_star : forall (T : Type) (terms : list (gterm T)) term (val : Z -> Z -> res T) smax emin i1 i2,
  nth_error terms term = Some (star_term val) -> i1 <> i2 ->
  geo_value terms smax emin i1 i2 term = val i1 i2 /\ geo_connected [star_term val] smax emin i1 i2 = Ok (star_connected i1 i2).
Proof.
  intros T terms term val smax emin i1 i2 N Hne.
  assert (B : bothFringe (star_term val) smax emin i1 i2 = Ok false).
  { unfold bothFringe. cbn [tm_fringe star_term bind]. unfold star_fringe. destruct (Z.eqb_spec i1 emin); [|reflexivity]. destruct (Z.eqb_spec i2 emin); [lia|reflexivity]. }
  split.
  - unfold geo_value, vget. rewrite N. cbn [bind]. rewrite term_none by exact B. cbn [tm_val star_term]. now destruct (_ =? _).
  - unfold geo_connected, term_connected. cbn [forL tm_conn star_term]. rewrite B. cbn [bind negb]. destruct (Z.eqb_spec i1 i2); [contradiction|].
    destruct (_ =? _); cbn [bind]; now destruct (star_connected i1 i2).
Qed.
Print Assumptions C107_star.

(** A lattice given by a matrix: the couplings are those of the lattice without the missing sites. *)
Theorem C107_longrange : forall (T : Type) (terms : list (gterm T)) term L (val : Z -> Z -> res T) smax emin i1 i2, L < size_max ->
  nth_error terms term = Some (longrange_term L val) -> 0 <= smax < emin -> 0 <= i1 <= smax -> emin <= i2 < L ->
  geo_value terms smax emin i1 i2 term = val i1 (contract smax emin i2) /\ (smax + 1 <> emin -> geo_value terms smax emin i2 i1 term = val i1 (contract smax emin i2)).
Proof.
  unfold size_max. intros T terms term L val smax emin i1 i2 HL N S I1 I2. unfold geo_value, vget. rewrite N. cbn [bind].
  rewrite (w64_small (smax + 1)) by lia. unfold contract. destruct (Z.leb_spec i2 smax); [lia|].
  assert (Sb : smax + 1 <> emin -> longrange_getSubstituteSite L smax emin i2 = Ok (i2 - emin + smax + 1)).
  { intros. unfold longrange_getSubstituteSite. destruct (Z.leb_spec emin i2); [|lia]. rewrite w64_small by lia. destruct (Z.ltb_spec (i2 - emin + smax + 1) L); [reflexivity|lia]. }
  destruct (Z.eqb_spec (smax + 1) emin); split; intros; try lia.
  - cbn [tm_val longrange_term]. f_equal; lia.
  - rewrite term_both by (reflexivity || lia). cbn [tm_subst tm_val longrange_term]. now rewrite Sb.
  - rewrite term_both_sym by (reflexivity || lia). cbn [tm_subst tm_val longrange_term]. now rewrite Sb.
Qed.
Print Assumptions C107_longrange.

(** K2NiF4, when the system ends with the first or the last site of a cell: the environment is moved by whole cells of
    four sites up to the system. With three sites of the last cell, only its first site is coupled, to the copper-like site of the
    first cell of the environment. Full statement: also if it ends with the second site. *)
Theorem C107_k2nif4_partial : forall (T : Type) (terms : list (gterm T)) term (val : Z -> Z -> res T) zero L smax emin i1 i2, L + 4 < size_max ->
  nth_error terms term = Some (k2_term val) -> zero_unless L (fun a b => k2_connected a b = Ok true) val zero ->
  0 <= smax < emin -> emin < L -> mirrored 4 smax emin -> 0 <= i1 <= smax -> emin <= i2 < L ->
  (smax mod 4 = 0 \/ smax mod 4 = 3 -> geo_value terms smax emin i1 i2 term = val i1 (i2 - columns_moved 4 smax emin * 4)) /\
  (smax mod 4 = 2 -> geo_value terms smax emin i1 i2 term = if (i1 =? smax - 2) && (i2 =? emin + 2) then val i1 (smax + 1) else Ok zero).
Proof. intros T terms term val zero L smax emin i1 i2 HL N Z0 S E M I1 I2. unfold geo_value, vget. rewrite N. cbn [bind]. now apply (k2_gap val zero L). Qed.
Print Assumptions C107_k2nif4_partial.
(** There the coupling of sites 4 and 14 is missing, while sites 5 and 14, which are not joined in any cell, are coupled. *)
Theorem C107_k2nif4_refuted :
  let val := fun i j => do b <- k2_connected i j ;; Ok (if b : bool then 1 else 0) in
  mirrored 4 5 14 /\ geo_value [k2_term val] 5 14 4 14 0 = Ok 0 /\ val 4 (14 - columns_moved 4 5 14 * 4) = Ok 1 /\
  geo_value [k2_term val] 5 14 5 14 0 = Ok 1 /\ val 5 (14 - columns_moved 4 5 14 * 4) = Ok 0.
Proof. vm_compute. auto. Qed.
Print Assumptions C107_k2nif4_refuted.

(** Ladder with baths, of which both ends of the gap are in the ladder: bath sites keep their couplings, and the sites of the ladder
    have those of the ladder with the same gap. *)
Theorem C107_ladderbath : forall (T : Type) (terms : list (gterm T)) term (val : Z -> Z -> res T) m b l smax emin i1 i2,
  0 < m -> 0 <= b -> 2 * m * (1 + b) < size_max -> la_L l = 2 * m ->
  let g := mklb (2 * m * (1 + b)) b l in
  nth_error terms term = Some (lb_term g val) -> in_range (2 * m * (1 + b)) i1 -> in_range (2 * m * (1 + b)) i2 ->
  in_cluster m b smax -> in_cluster m b emin -> smax < emin ->
  (in_bath m b i1 \/ in_bath m b i2 -> geo_value terms smax emin i1 i2 term = val i1 i2) /\
  (in_cluster m b i1 -> in_cluster m b i2 -> i1 < i2 ->
    geo_value terms smax emin i1 i2 term =
    geo_value [ladder_term l (fun x y => val (w64 (x + m * b)) (w64 (y + m * b)))] (smax - m * b) (emin - m * b) (i1 - m * b) (i2 - m * b) 0).
Proof.
  intros T terms term val m b l smax emin i1 i2 Hm Hb Hs Hl g N R1 R2 Cs Ce Lt. unfold size_max in *. unfold geo_value, vget. rewrite N. cbn [bind nth_error].
  assert (Nn : 0 <= m * b) by (apply Z.mul_nonneg_nonneg; lia). split.
  - intros H. unfold g. rewrite bath_gap_bath by auto. now destruct (_ =? _).
  - intros C1 C2 H. unfold in_cluster in *. rewrite !w64_small by lia. replace (smax - m * b + 1 =? emin - m * b) with (smax + 1 =? emin) by (destruct (Z.eqb_spec (smax + 1) emin), (Z.eqb_spec (smax - m * b + 1) (emin - m * b)); auto; lia).
    destruct (smax + 1 =? emin).
    + cbn [tm_val lb_term ladder_term]. rewrite !w64_small by lia. f_equal; lia.
    + apply bath_gap_cluster; auto; unfold in_cluster; lia.
Qed.
Print Assumptions C107_ladderbath.

(** The honeycomb throws for two sites that are both next to the gap. *)
Theorem C107_honeycomb : forall (T : Type) g (val : Z -> Z -> res T) smax emin i1 i2, 0 <= smax -> smax + 1 < emin -> emin < size_max ->
  ho_fringe g i1 smax emin = Ok true -> ho_fringe g i2 smax emin = Ok true -> geo_value [ho_term g val] smax emin i1 i2 0 = Throw.
Proof.
  unfold size_max. intros T g val smax emin i1 i2 H1 H2 H3 F1 F2. unfold geo_value, vget. cbn [nth_error bind]. rewrite w64_small by lia.
  destruct (Z.eqb_spec (smax + 1) emin); [lia|]. unfold term_value, bothFringe. cbn [tm_fringe tm_subst ho_term]. rewrite F1. cbn [bind]. rewrite F2. cbn [bind].
  now destruct (i2 <? i1).
Qed.
Print Assumptions C107_honeycomb.
(** The last site of the system is not looked at: a site of the environment joined to it only does not count as next to the gap. *)
Theorem C107_honeycomb_refuted : let h := mkhoney 24 4 true false in
  ho_connected h 8 13 = Ok true /\ ho_fringe h 13 8 11 = Ok false /\ ho_fringe h 13 9 11 = Ok true.
Proof. vm_compute. auto. Qed.
Print Assumptions C107_honeycomb_refuted.

(** The hypotheses can be met: the rung at the two ends of the gap, the two legs, and the bonds at the other end of a periodic ladder. *)
Example C107_nonvacuous :
  let g := mkladder 24 2 true false in let val := fun i j => Ok (if ladder_connected g i j then i + j else 0) in
  zero_unless 24 (fun a b => ladder_connected g a b = true) val 0 /\ mirrored 2 6 17 /\ columns_moved 2 6 17 = 5 /\
  geo_value [ladder_term g val] 6 17 6 17 0 = Ok 13 /\ geo_value [ladder_term g val] 6 17 5 17 0 = Ok 12 /\
  geo_value [ladder_term g val] 6 17 6 18 0 = Ok 14 /\ geo_value [ladder_term g val] 6 17 1 23 0 = Ok 24 /\
  (let v2 := fun i j => do b <- k2_connected i j ;; Ok (if b : bool then i + j else 0) in
   mirrored 4 7 16 /\ geo_value [k2_term v2] 7 16 7 16 0 = Ok 15 /\ geo_value [k2_term v2] 7 16 5 16 0 = Ok 13) /\
  (let h := mkhoney 24 4 true false in ho_fringe h 8 9 12 = Ok true /\ ho_fringe h 13 9 12 = Ok true).
Proof.
  cbv zeta. split; [|vm_compute; auto 20]. intros a b _ _ N. cbv beta. destruct (ladder_connected _ a b); [exfalso; auto|reflexivity].
Qed.
