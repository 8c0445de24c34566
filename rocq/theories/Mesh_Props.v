(** Theorems about the mesh of points in momentum space (C116). *)
From Coq Require Import ZArith Reals Lra Lia Ascii String.
From Verif Require Import Prelude Str_Model Str_Proofs Mesh_Model Mesh_Spec.
Import List.
Local Open Scope Z_scope.

Lemma as_int_small z : 0 <= z < 2147483648 -> as_int z = z.
Proof. intros H. unfold as_int. rewrite Z.mod_small by lia. destruct (Z.ltb_spec z 2147483648); [reflexivity|lia]. Qed.

(** The mesh can be used exactly if the kind of the geometry is star; the kind of the first term counts only if there is
    none for all of them, and without both the input is refused. *)
Theorem C116_enabled : forall kind kind0 points,
  (kind = None -> kind0 = None -> mesh_new kind kind0 points = Throw) /\
  (forall g, mesh_new kind kind0 points = Ok g -> (e_enabled g = true <-> kind = Some (lit "star") \/ (kind = None /\ kind0 = Some (lit "star")))) /\
  (forall g n k, e_enabled g = false -> getMeshVector g n k = UB /\ sizeOfMesh g = UB).
Proof.
  intros kind kind0 points. split; [intros -> ->; reflexivity|]. split.
  - intros g E. unfold mesh_new in E. destruct kind as [s|]; cbn [bind] in E.
    + injection E as <-. cbn [e_enabled]. rewrite str_eqb_eq. split; [intros ->; left; reflexivity|intros [H|[H _]]; [injection H; auto|discriminate H]].
    + destruct kind0 as [s|]; cbn [bind] in E; [|discriminate]. injection E as <-. cbn [e_enabled]. rewrite str_eqb_eq.
      split; [intros ->; right; auto|intros [H|[_ H]]; [discriminate H|injection H; auto]].
  - intros g n k H. unfold getMeshVector, sizeOfMesh. rewrite H. auto.
Qed.
Print Assumptions C116_enabled.

Lemma new_star kind0 points : mesh_new (Some (lit "star")) kind0 points = Ok (mkmesh (Z.sqrt points) true (if 0 <? Z.sqrt points then (2 * PI / IZR (Z.sqrt points))%R else 0%R)).
Proof. reflexivity. Qed.

(** The points are numbered row by row: point a L + b is (a,b), all of them are in the square, and there are L * L. *)
Theorem C116_points : forall kind kind0 points g, 0 < points < 2 ^ 31 -> mesh_new kind kind0 points = Ok g -> e_enabled g = true ->
  exists L, 0 < L /\ L * L <= points < (L + 1) * (L + 1) /\ sizeOfMesh g = Ok (L * L) /\
  forall n a b, (2 <= n)%nat -> 0 <= a < L -> 0 <= b < L -> getMeshVector g n (a * L + b) = Ok (point L a b) /\ in_square (point L a b).
Proof.
  intros kind kind0 points g Hp E He. pose proof (Z.sqrt_spec points ltac:(lia)) as S. cbv zeta in S. pose proof (Z.sqrt_nonneg points) as S0.
  assert (G : g = mkmesh (Z.sqrt points) true (if 0 <? Z.sqrt points then (2 * PI / IZR (Z.sqrt points))%R else 0%R)).
  { unfold mesh_new in E. destruct (match kind with Some s => Ok s | None => match kind0 with Some s => Ok s | None => Throw end end) as [s| | |]; cbn [bind] in E; try discriminate E.
    injection E as <-. cbn [e_enabled] in He. rewrite He. reflexivity. }
  set (L := Z.sqrt points) in *. assert (HL : 0 < L) by (unfold L; apply Z.sqrt_pos; lia). exists L. split; [exact HL|]. split; [lia|]. subst g.
  assert (B : L * L < 2 ^ 31) by lia. assert (L <= L * L) by nia. assert (L < 2 ^ 31) by lia. split.
  - unfold sizeOfMesh. cbn [e_enabled e_length]. rewrite Z.mod_small by (change (2 ^ 31) with 2147483648 in *; change (2 ^ 64) with 18446744073709551616; lia). reflexivity.
  - intros n a b Hn Ha Hb. assert (Hk : 0 <= a * L + b < 2147483648) by (change (2 ^ 31) with 2147483648 in *; assert ((a + 1) * L <= L * L) by (apply Z.mul_le_mono_nonneg_r; lia); assert (0 <= a * L) by (apply Z.mul_nonneg_nonneg; lia); lia). split.
    + unfold getMeshVector. cbn [e_enabled e_length e_step]. rewrite (as_int_small L) by (change (2 ^ 31) with 2147483648 in *; lia). rewrite as_int_small by exact Hk.
      destruct (Z.eqb_spec L 0); [lia|]. cbn [negb]. destruct (Nat.leb_spec 2 n); [|lia]. destruct (Z.ltb_spec 0 L); [|lia].
      rewrite Z.quot_div_nonneg, Z.rem_mod_nonneg by lia.
      replace ((a * L + b) / L) with a by (rewrite Z.div_add_l, Z.div_small by lia; lia).
      replace ((a * L + b) mod L) with b by (rewrite Z.add_comm, Z.mod_add, Z.mod_small by lia; reflexivity). reflexivity.
    + assert (Q : forall c, 0 <= c < L -> (- PI <= - PI + IZR c * (2 * PI / IZR L) < PI)%R).
      { intros c Hc. pose proof PI_RGT_0 as P. assert (RL : (0 < IZR L)%R) by (apply IZR_lt; lia). assert (R0 : (0 <= IZR c)%R) by (apply IZR_le; lia).
        assert (R1 : (IZR c < IZR L)%R) by (apply IZR_lt; lia). replace (IZR c * (2 * PI / IZR L))%R with (2 * PI * (IZR c / IZR L))%R by (field; lra).
        assert (0 <= IZR c / IZR L)%R by (apply Rmult_le_pos; [exact R0|left; apply Rinv_0_lt_compat, RL]).
        assert (IZR c / IZR L < 1)%R by (apply Rmult_lt_reg_r with (IZR L); [exact RL|]; unfold Rdiv; rewrite Rmult_assoc, Rinv_l by lra; lra). nra. }
      split; cbn [fst snd point]; apply Q; assumption.
Qed.
Print Assumptions C116_points.

(** Different numbers below L * L have different points. *)
Theorem C116_different : forall kind kind0 points g k k' n p, 0 < points < 2 ^ 31 -> mesh_new kind kind0 points = Ok g ->
  (exists s, sizeOfMesh g = Ok s /\ 0 <= k < s /\ 0 <= k' < s) -> getMeshVector g n k = Ok p -> getMeshVector g n k' = Ok p -> k = k'.
Proof.
  intros kind kind0 points g k k' n p Hp E (s & Es & Hk & Hk') E1 E2.
  assert (He : e_enabled g = true) by (unfold sizeOfMesh in Es; destruct (e_enabled g); [reflexivity|discriminate Es]).
  assert (Hn : (2 <= n)%nat). { unfold getMeshVector in E1. rewrite He in E1. destruct (negb _); [|discriminate E1]. destruct (Nat.leb_spec 2 n); [assumption|discriminate E1]. }
  destruct (C116_points kind kind0 points g Hp E He) as (L & HL & _ & Es' & Q). rewrite Es in Es'. apply Ok_inj in Es'. subst s.
  assert (D : forall x, 0 <= x < L * L -> x = (x / L) * L + x mod L /\ 0 <= x / L < L /\ 0 <= x mod L < L).
  { intros x Hx. pose proof (Z.div_mod x L ltac:(lia)). pose proof (Z.mod_pos_bound x L HL). split; [lia|]. split; [|assumption].
    split; [apply Z.div_pos; lia|apply Z.div_lt_upper_bound; lia]. }
  destruct (D k Hk) as (K1 & K2 & K3). destruct (D k' Hk') as (K1' & K2' & K3').
  destruct (Q n (k / L) (k mod L) Hn K2 K3) as [P _]. rewrite <- K1, E1 in P. destruct (Q n (k' / L) (k' mod L) Hn K2' K3') as [P' _]. rewrite <- K1', E2 in P'.
  assert (PP : point L (k / L) (k mod L) = point L (k' / L) (k' mod L)) by congruence. unfold point in PP. injection PP as A B.
  assert (RL : (0 < IZR L)%R) by (apply IZR_lt; lia). pose proof PI_RGT_0 as PP.
  assert (SP : (2 * PI / IZR L <> 0)%R) by (apply Rgt_not_eq, Rmult_lt_0_compat; [lra|apply Rinv_0_lt_compat, RL]).
  assert (X : forall c d, (- PI + IZR c * (2 * PI / IZR L) = - PI + IZR d * (2 * PI / IZR L))%R -> c = d).
  { intros c d H. apply Rplus_eq_reg_l in H. apply Rmult_eq_reg_r in H; [|exact SP]. apply eq_IZR, H. }
  apply X in A. apply X in B. rewrite K1, K1', A, B. reflexivity.
Qed.
Print Assumptions C116_different.

(** There are as many points as were asked for only if that number is a square. *)
Theorem C116_number_refuted : forall kind0 points, 0 < points < 2 ^ 31 -> (forall L, points <> L * L) ->
  exists g s, mesh_new (Some (lit "star")) kind0 points = Ok g /\ sizeOfMesh g = Ok s /\ s < points.
Proof.
  intros kind0 points Hp H. destruct (C116_points (Some (lit "star")) kind0 points _ Hp (new_star kind0 points) eq_refl) as (L & HL & B & Es & _).
  eexists. exists (L * L). split; [reflexivity|]. split; [exact Es|]. specialize (H L). lia.
Qed.
Print Assumptions C116_number_refuted.
(** A number of a point that is not on the mesh is not refused: it is above the square. *)
Theorem C116_above_refuted : forall kind0 points k, 0 < points < 2 ^ 31 -> points <= k < 2 ^ 31 ->
  exists g p, mesh_new (Some (lit "star")) kind0 points = Ok g /\ getMeshVector g 2 k = Ok p /\ (PI <= fst p)%R.
Proof.
  intros kind0 points k Hp Hk. pose proof (Z.sqrt_spec points ltac:(lia)) as S. cbv zeta in S. pose proof (Z.sqrt_nonneg points) as S0. set (L := Z.sqrt points) in *.
  assert (HL : 0 < L) by (unfold L; apply Z.sqrt_pos; lia). eexists. eexists. split; [apply new_star|]. fold L. change (2 ^ 31) with 2147483648 in *. unfold getMeshVector. cbn [e_enabled e_length e_step].
  assert (L <= L * L) by nia. rewrite (as_int_small L) by lia. rewrite as_int_small by lia. destruct (Z.eqb_spec L 0); [lia|]. cbn [negb Nat.leb]. destruct (Z.ltb_spec 0 L); [|lia].
  split; [reflexivity|]. cbn [fst]. rewrite Z.quot_div_nonneg by lia. assert (L <= k / L) by (apply Z.div_le_lower_bound; nia).
  assert (RL : (0 < IZR L)%R) by (apply IZR_lt; lia). assert (RK : (IZR L <= IZR (k / L))%R) by (apply IZR_le; lia). pose proof PI_RGT_0 as P.
  assert (IZR L * (2 * PI / IZR L) = 2 * PI)%R by (field; lra). assert (0 < 2 * PI / IZR L)%R by (apply Rmult_lt_0_compat; [lra|apply Rinv_0_lt_compat, RL]).
  assert (IZR L * (2 * PI / IZR L) <= IZR (k / L) * (2 * PI / IZR L))%R by (apply Rmult_le_compat_r; lra). lra.
Qed.
Print Assumptions C116_above_refuted.
(** On a mesh of 2^32 points, the one in the middle is below the square: its number is too large for an int. *)
Theorem C116_int_refuted : forall kind0, exists g s p, mesh_new (Some (lit "star")) kind0 (2 ^ 32) = Ok g /\ sizeOfMesh g = Ok s /\
  2 ^ 31 < s /\ getMeshVector g 2 (2 ^ 31) = Ok p /\ (fst p < - PI)%R.
Proof.
  intros kind0. rewrite new_star. change (Z.sqrt (2 ^ 32)) with 65536. eexists. exists (2 ^ 32). eexists. split; [reflexivity|]. split; [reflexivity|]. split; [reflexivity|].
  split; [reflexivity|]. cbn [fst e_step]. change (Z.quot _ _) with (-32768). pose proof PI_RGT_0 as P. change (0 <? 65536) with true. cbv iota. lra.
Qed.
Print Assumptions C116_int_refuted.
(** Without points there is a division by zero. *)
Theorem C116_empty_refuted : forall kind0 n k, exists g, mesh_new (Some (lit "star")) kind0 0 = Ok g /\ e_enabled g = true /\ getMeshVector g n k = UB.
Proof. intros kind0 n k. eexists. split; [reflexivity|]. split; reflexivity. Qed.
Print Assumptions C116_empty_refuted.

(** A mesh that was not made from an input is not enabled, and may not be asked for points. *)
Theorem C116_default : e_enabled mesh_default = false /\ sizeOfMesh mesh_default = UB /\ forall n k, getMeshVector mesh_default n k = UB.
Proof. repeat split. Qed.
Print Assumptions C116_default.

(** Ten points asked for, nine made; the last one *)
Example C116_nonvacuous : exists g, mesh_new None (Some (lit "star")) 10 = Ok g /\ e_enabled g = true /\ sizeOfMesh g = Ok 9 /\
  getMeshVector g 2 8 = Ok (point 3 2 2).
Proof. eexists. split; [reflexivity|]. split; [reflexivity|]. split; reflexivity. Qed.
