(** Theorems about the drivers of the minimizers (C104). *)
From Coq Require Import ZArith.
From Verif Require Import Prelude Minim_Model Minim_Spec Minim_Proofs.

(** simplex, for a function of n variables and a start v of n numbers, whatever the iterations of the library do. If the
    test succeeds after iteration k, it returns k, with the point of the minimizer in the argument and the status success.
    If iteration k reports an error, it throws, the argument stays and the status is the error. If there are no more
    iterations, it returns their number and the last point, with the status that says so. There are no other cases. *)
Theorem C104_simplex : forall V G (iterate : G -> Z * G) small (point : G -> list V) set delta n maxIter junk junk2 st v,
  (forall g1 g2 s, iterate g1 = (s, g2) -> length (point g2) = length (point g1)) ->
  (forall x xs, length x = n -> length (point (set x xs)) = n) ->
  length v = n -> length junk = n -> length junk2 = n -> (Z.of_nat maxIter < 2147483648)%Z ->
  let g0 := set v (map (fun _ => delta) v) in
  let run := simplex iterate small point set delta n maxIter junk junk2 st v in
  (forall k g', converges iterate small g0 maxIter k g' -> run = Ok (Returns (Z.of_nat k) (point g') (mkmini GSL_SUCCESS (mi_vectors st)))) /\
  (forall k s, fails iterate small g0 maxIter k s -> exists lost, run = Ok (Throws v (mkmini s lost))) /\
  (forall g', exhausted iterate small g0 maxIter g' ->
     run = Ok (Returns (Z.of_nat maxIter) (point g') (mkmini (if maxIter =? 0 then mi_status st else GSL_CONTINUE) (mi_vectors st)))) /\
  ((exists k g', converges iterate small g0 maxIter k g') \/ (exists k s, fails iterate small g0 maxIter k s) \/ (exists g', exhausted iterate small g0 maxIter g')).
Proof.
  intros V G iterate small point set delta n maxIter junk junk2 st v Hd Hp Lv L1 L2 Hm g0 run.
  assert (R : run = simplex_loop iterate small point maxIter 0 g0 (mkmini (mi_status st) (mi_vectors st + 2)) v).
  { unfold run, simplex. rewrite (starting_ok delta) by auto. cbn [bind]. rewrite (starting_ok delta) by (try rewrite map_length; auto). reflexivity. }
  assert (A0 : after iterate small g0 0 g0) by constructor. assert (N0 : 0 <> 0 -> small g0 = false) by lia.
  assert (D : length (point g0) = length v) by (unfold g0; rewrite Hp; auto).
  rewrite R. split; [|split; [|split]].
  - intros k g' C. rewrite (simplex_conv iterate small point Hd delta maxIter 0 g0 g0 _ v k g') by (auto; lia). cbn [mi_vectors]. destruct C as (K & _). rewrite to_int_small by lia.
    do 3 f_equal. lia.
  - intros k s C. eexists. apply (simplex_fail iterate small point maxIter 0 g0 g0 _ v k s); auto. lia.
  - intros g' C. rewrite (simplex_exh iterate small point Hd delta maxIter 0 g0 g0 _ v g') by auto. cbn [Nat.add mi_vectors mi_status]. rewrite to_int_small by lia.
    do 3 f_equal. lia.
  - destruct (loop_cases iterate small maxIter g0 0 g0 A0 N0) as [(k & g' & C & _)|[(k & s & C & _)|(g' & C)]]; eauto.
Qed.
(** conjugateGradient does the same, but returns -k for an error in iteration k. *)
Theorem C104_conjugate_gradient : forall V G (d : V) (iterate : G -> Z * G) small (point : G -> list V) set n maxIter junk st v,
  (forall g1 g2 s, iterate g1 = (s, g2) -> length (point g2) = length (point g1)) ->
  (forall x, length x = n -> length (point (set x)) = n) ->
  length v = n -> length junk = n -> (Z.of_nat maxIter < 2147483648)%Z ->
  let g0 := set v in
  let run := conjugateGradient iterate small point set n maxIter junk st v in
  (forall k g', converges iterate small g0 maxIter k g' -> run = Ok (Returns (Z.of_nat k) (point g') (mkmini GSL_SUCCESS (mi_vectors st)))) /\
  (forall k s, fails iterate small g0 maxIter k s -> exists lost, run = Ok (Returns (- Z.of_nat k) v (mkmini s lost))) /\
  (forall g', exhausted iterate small g0 maxIter g' ->
     run = Ok (Returns (Z.of_nat maxIter) (point g') (mkmini (if maxIter =? 0 then mi_status st else GSL_CONTINUE) (mi_vectors st)))) /\
  ((exists k g', converges iterate small g0 maxIter k g') \/ (exists k s, fails iterate small g0 maxIter k s) \/ (exists g', exhausted iterate small g0 maxIter g')).
Proof.
  intros V G d iterate small point set n maxIter junk st v Hd Hp Lv L1 Hm g0 run.
  assert (R : run = conjugateGradient_loop iterate small point maxIter 0 g0 (mkmini (mi_status st) (mi_vectors st + 1)) v).
  { unfold run, conjugateGradient. rewrite (starting_ok d) by auto. reflexivity. }
  assert (A0 : after iterate small g0 0 g0) by constructor. assert (N0 : 0 <> 0 -> small g0 = false) by lia.
  assert (D : length (point g0) = length v) by (unfold g0; rewrite Hp; auto).
  rewrite R. split; [|split; [|split]].
  - intros k g' C. rewrite (cg_conv iterate small point Hd d maxIter 0 g0 g0 _ v k g') by (auto; lia). cbn [mi_vectors]. destruct C as (K & _). rewrite to_int_small by lia.
    do 3 f_equal. lia.
  - intros k s C. rewrite (cg_fail iterate small point maxIter 0 g0 g0 _ v k s) by (auto; lia). destruct C as (K & _). rewrite to_int_neg by lia. eauto.
  - intros g' C. rewrite (cg_exh iterate small point Hd d maxIter 0 g0 g0 _ v g') by auto. cbn [Nat.add mi_vectors mi_status]. rewrite to_int_small by lia.
    do 3 f_equal. lia.
  - destruct (loop_cases iterate small maxIter g0 0 g0 A0 N0) as [(k & g' & C & _)|[(k & s & C & _)|(g' & C)]]; eauto.
Qed.
Print Assumptions C104_simplex.
Print Assumptions C104_conjugate_gradient.

(** An error in the first iteration of conjugateGradient returns the number that success there returns: 0. *)
Theorem C104_first_error_refuted : forall V G (d : V) (iterate : G -> Z * G) small (point : G -> list V) set n maxIter junk st v,
  length v = n -> length junk = n -> 0 < maxIter -> fst (iterate (set v)) <> 0%Z ->
  exists st', conjugateGradient iterate small point set n maxIter junk st v = Ok (Returns 0%Z v st').
Proof.
  intros V G d iterate small point set n maxIter junk st v Lv Lj Hm He. unfold conjugateGradient. rewrite (starting_ok d) by auto. cbn [bind].
  destruct maxIter as [|m]; [lia|]. cbn [conjugateGradient_loop]. destruct (iterate (set v)) as [s g1]. cbn [fst] in He. destruct (Z.eqb_spec s 0); [congruence|].
  cbn [negb]. eexists. reflexivity.
Qed.
(** After an error, the vectors that were allocated for the call are never freed: two by simplex, one by
    conjugateGradient. *)
Theorem C104_leak_refuted : forall V G (d : V) (iterate : G -> Z * G) small (point : G -> list V) set set' n maxIter junk junk2 st v k s k' s',
  length v = n -> length junk = n -> length junk2 = n ->
  fails iterate small (set v (map (fun _ => d) v)) maxIter k s -> fails iterate small (set' v) maxIter k' s' ->
  simplex iterate small point set d n maxIter junk junk2 st v = Ok (Throws v (mkmini s (mi_vectors st + 2))) /\
  exists r, conjugateGradient iterate small point set' n maxIter junk st v = Ok (Returns r v (mkmini s' (mi_vectors st + 1))).
Proof.
  intros V G d iterate small point set set' n maxIter junk junk2 st v k s k' s' Lv L1 L2 F F'. split.
  - unfold simplex. rewrite (starting_ok d) by auto. cbn [bind]. rewrite (starting_ok d) by (try rewrite map_length; auto). cbn [bind].
    apply (simplex_fail iterate small point maxIter 0 _ _ (mkmini (mi_status st) (mi_vectors st + 2)) v k s (after_0 _ _ _)); [lia|lia|exact F].
  - unfold conjugateGradient. rewrite (starting_ok d) by auto. cbn [bind]. eexists. apply (cg_fail iterate small point maxIter 0 _ _ (mkmini (mi_status st) (mi_vectors st + 1)) v k' s' (after_0 _ _ _)); [lia|lia|exact F'].
Qed.
(** A start with more numbers than the function has variables is stored past the end of the vector. *)
Theorem C104_size_refuted : forall V G (iterate : G -> Z * G) small (point : G -> list V) set n maxIter junk st v,
  n < length v -> length junk = n -> conjugateGradient iterate small point set n maxIter junk st v = UB.
Proof.
  intros V G iterate small point set n maxIter junk st v Hv Hj. unfold conjugateGradient, starting. rewrite firstn_all2 by lia.
  assert (Hd : exists d : V, True) by (destruct v as [|d v]; [cbn in Hv; lia|exists d; auto]). destruct Hd as (d & _).
  replace (length v) with (n + S (length v - S n)) by lia. rewrite forM_app.
  loopM (fun (i : nat) (x : list V) => length x = n) as x E H.
  - auto.
  - intros i x Hi L. rewrite (@vget_ok _ _ _ d) by lia. cbn [bind]. rewrite vset_ok by lia. eexists. split; [reflexivity|]. rewrite upd_length. auto.
  - rewrite E. cbn [bind Nat.add forM]. rewrite (@vget_ok _ _ _ d) by lia. cbn [bind]. unfold vset.
    destruct (Nat.ltb_spec n (length x)); [lia|]. reflexivity.
Qed.
Print Assumptions C104_leak_refuted.
Print Assumptions C104_size_refuted.

(** A library that halves a number until it is at most 2, and fails on 7 *)
Example C104_nonvacuous :
  let it (g : nat) := if g =? 7 then (27%Z, g) else (0%Z, Nat.div2 g) in
  let sm g := g <=? 2 in
  let pt (g : nat) := [g] in
  let cg m v := conjugateGradient it sm pt (fun x => nth 0 x 0) 1 m [5] (mkmini 100 0) v in
  converges it sm 20 10 2 2 /\ converges it sm 16 10 2 2 /\ fails it sm 28 10 2 27 /\ exhausted it sm 64 3 8 /\
  cg 10 [16] = Ok (Returns 2 [2] (mkmini 0 0)) /\ cg 10 [28] = Ok (Returns (-2) [28] (mkmini 27 1)) /\ cg 3 [64] = Ok (Returns 3 [8] (mkmini (-2) 0)) /\
  cg 10 [7] = Ok (Returns 0 [7] (mkmini 27 1)) /\ cg 10 [2] = Ok (Returns 0 [1] (mkmini 0 0)).
Proof.
  cbv zeta. set (it := fun g : nat => if g =? 7 then (27%Z, g) else (0%Z, Nat.div2 g)). set (sm := fun g => g <=? 2).
  assert (A : forall k g g1 g2, after it sm g k g1 -> sm g1 = false -> it g1 = (0%Z, g2) -> after it sm g (S k) g2) by (intros; econstructor; eauto).
  split; [|split; [|split; [|split; [|vm_compute; auto 10]]]].
  - split; [lia|]. split; [|reflexivity]. eapply A; [eapply A; [eapply A; [apply after_0|..]|..]|..]; reflexivity.
  - split; [lia|]. split; [|reflexivity]. eapply A; [eapply A; [eapply A; [apply after_0|..]|..]|..]; reflexivity.
  - split; [lia|]. split; [discriminate|]. exists 7. split; [eapply A; [eapply A; [apply after_0|..]|..]; reflexivity|]. split; reflexivity.
  - split; [eapply A; [eapply A; [eapply A; [apply after_0|..]|..]|..]; reflexivity|reflexivity].
Qed.
