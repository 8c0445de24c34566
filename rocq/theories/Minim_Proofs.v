(** Proofs about the drivers of the minimizers. *)
From Coq Require Import ZArith.
From Verif Require Import Prelude Minim_Model Minim_Spec.

Section Minimizer.
  Context {V G : Type}.
  Variable iterate : G -> Z * G.
  Variable small : G -> bool.
  Variable point : G -> list V.

  Lemma starting_ok (d : V) n (junk v : list V) : length v = n -> length junk = n -> starting n junk v = Ok v.
  Proof.
    intros Hv Hj. unfold starting. rewrite firstn_all2 by lia.
    loopM (fun i (x : list V) => length x = n /\ forall k, k < i -> nth k x d = nth k v d) as x E H.
    - split; [auto|intros; lia].
    - intros i x Hi (L & H). rewrite (@vget_ok _ _ _ d) by lia. cbn [bind]. rewrite vset_ok by lia. eexists. split; [reflexivity|]. rewrite upd_length. split; [auto|].
      intros k Hk. destruct (Nat.eq_dec k i) as [->|]; [rewrite nth_upd_eq by lia; auto|rewrite nth_upd_neq by auto; apply H; lia].
    - destruct H as (L & H). rewrite E. f_equal. apply (@list_eq_nth _ _ _ d); [lia|]. intros k Hk. apply H. lia.
  Qed.
  Lemma found_ok (d : V) (v x : list V) : length x = length v -> found v x = Ok x.
  Proof.
    intros Hx. unfold found.
    loopM (fun i (y : list V) => length y = length v /\ forall k, k < i -> nth k y d = nth k x d) as y E H.
    - split; [auto|intros; lia].
    - intros i y Hi (L & H). rewrite (@vget_ok _ _ _ d) by lia. cbn [bind]. rewrite vset_ok by lia. eexists. split; [reflexivity|]. rewrite upd_length. split; [auto|].
      intros k Hk. destruct (Nat.eq_dec k i) as [->|]; [rewrite nth_upd_eq by lia; auto|rewrite nth_upd_neq by auto; apply H; lia].
    - destruct H as (L & H). rewrite E. f_equal. apply (@list_eq_nth _ _ _ d); [lia|]. intros k Hk. apply H. lia.
  Qed.
  Lemma to_int_small z : (0 <= z < 2147483648)%Z -> to_int z = z.
  Proof. intros H. unfold to_int. rewrite Z.mod_small by lia. destruct (Z.ltb_spec z 2147483648); lia. Qed.
  Lemma to_int_neg z : (0 <= z < 2147483648)%Z -> to_int (18446744073709551616 - z) = (- z)%Z.
  Proof.
    intros H. unfold to_int. replace (18446744073709551616 - z)%Z with (- z + 4294967296 * 4294967296)%Z by lia. rewrite Z.mod_add by lia.
    destruct (Z.eq_dec z 0) as [->|]; [reflexivity|]. rewrite <- (Z.mod_add (- z) 1) by lia. rewrite Z.mod_small by lia.
    destruct (Z.ltb_spec (- z + 1 * 4294967296) 2147483648); lia.
  Qed.

  (** The three ways, for a loop from iteration [iter] on *)
  Lemma loop_cases rest : forall g0 iter g, after iterate small g0 iter g -> (iter <> 0 -> small g = false) ->
    (exists k g', converges iterate small g0 (iter + rest) k g' /\ iter <= k) \/
    (exists k s, fails iterate small g0 (iter + rest) k s /\ iter <= k) \/
    (exists g', exhausted iterate small g0 (iter + rest) g').
  Proof.
    clear point.
    induction rest as [|rest IH]; intros g0 iter g A N.
    - right. right. exists g. rewrite Nat.add_0_r. split; auto.
    - destruct (iterate g) as [s g1] eqn:E. destruct (Z.eq_dec s 0) as [->|Ns].
      + assert (A1 : after iterate small g0 (S iter) g1) by (econstructor; eauto). destruct (small g1) eqn:Sm.
        * left. exists iter, g1. split; [|auto]. split; [lia|]. auto.
        * replace (iter + S rest) with (S iter + rest) by lia.
          destruct (IH g0 (S iter) g1 A1 ltac:(auto)) as [(k & g' & C & L)|[(k & s & C & L)|(g' & C)]].
          -- left. exists k, g'. split; auto. lia.
          -- right. left. exists k, s. split; auto. lia.
          -- right. right. eauto.
      + right. left. exists iter, s. split; [|auto]. split; [lia|]. split; [auto|]. exists g. rewrite E. auto.
  Qed.
  Lemma after_fun g0 k g1 g2 : after iterate small g0 k g1 -> after iterate small g0 k g2 -> g1 = g2.
  Proof.
    intros A. revert g2. induction A as [|k a b A IH N E]; intros g2 B; inversion B; subst; auto. specialize (IH _ H0). subst. rewrite E in H2. congruence.
  Qed.
  Lemma after_le g0 k g : after iterate small g0 k g -> forall j, j <= k -> exists h, after iterate small g0 j h /\
    (j < k -> (j <> 0 -> small h = false) /\ exists h', iterate h = (0%Z, h')).
  Proof.
    clear point.
    induction 1 as [|k a b A IH N E]; intros j Hj.
    - assert (j = 0) by lia. subst. exists g0. split; [constructor|]. lia.
    - destruct (Nat.eq_dec j (S k)) as [->|Nj]; [exists b; split; [econstructor; eauto|lia]|].
      destruct (Nat.eq_dec j k) as [->|Nk]; [exists a; split; auto; intros _; split; eauto|].
      destruct (IH j ltac:(lia)) as (h & A1 & A2). exists h. split; auto. intros _. apply A2. lia.
  Qed.

  Hypothesis Hdim : forall g1 g2 s, iterate g1 = (s, g2) -> length (point g2) = length (point g1).
  Lemma after_dim g0 k g : after iterate small g0 k g -> length (point g) = length (point g0).
  Proof. induction 1; auto. rewrite (Hdim _ _ _ H1). auto. Qed.

  (** The loops, from iteration [iter] on *)
  Lemma simplex_conv (d : V) rest : forall iter g0 g st v k g', after iterate small g0 iter g -> (iter <> 0 -> small g = false) -> iter <= k ->
    converges iterate small g0 (iter + rest) k g' -> length (point g0) = length v ->
    simplex_loop iterate small point rest iter g st v = Ok (Returns (to_int (Z.of_nat k)) (point g') (mkmini 0 (mi_vectors st - 2))).
  Proof.
    induction rest as [|rest IH]; intros iter g0 g st v k g' A N L (K & C & Sm) D; [lia|]. cbn [simplex_loop].
    destruct (after_le _ _ _ C iter ltac:(lia)) as (h & H1 & H2). assert (h = g) by (eapply after_fun; eauto). subst h.
    destruct (H2 ltac:(lia)) as (_ & g1 & E). rewrite E. cbn [Z.eqb negb].
    assert (A1 : after iterate small g0 (S iter) g1) by (econstructor; eauto).
    destruct (Nat.eq_dec iter k) as [->|Nk].
    - assert (g1 = g') by (eapply after_fun; eauto). subst g1. rewrite Sm. cbn [Z.eqb GSL_SUCCESS]. rewrite (found_ok d) by (rewrite (after_dim _ _ _ C); auto). reflexivity.
    - assert (Sm1 : small g1 = false).
      { destruct (after_le _ _ _ C (S iter) ltac:(lia)) as (h & H3 & H4). assert (h = g1) by (eapply after_fun; eauto). subst h. apply H4; lia. }
      rewrite Sm1. cbn [Z.eqb GSL_SUCCESS GSL_CONTINUE]. rewrite (IH (S iter) g0 g1 _ v k g'); auto; [lia|].
      split; [lia|]. auto.
  Qed.
  Lemma simplex_fail rest : forall iter g0 g st v k s, after iterate small g0 iter g -> (iter <> 0 -> small g = false) -> iter <= k ->
    fails iterate small g0 (iter + rest) k s ->
    simplex_loop iterate small point rest iter g st v = Ok (Throws v (mkmini s (mi_vectors st))).
  Proof.
    clear Hdim.
    induction rest as [|rest IH]; intros iter g0 g st v k s A N L (K & Ns & g1 & C & N1 & E1); [lia|]. cbn [simplex_loop].
    destruct (Nat.eq_dec iter k) as [->|Nk].
    - assert (g1 = g) by (eapply after_fun; eauto). subst g1. destruct (iterate g) as [s' g2]. cbn [fst] in E1. subst s'.
      destruct (Z.eqb_spec s 0); [congruence|]. reflexivity.
    - destruct (after_le _ _ _ C iter ltac:(lia)) as (h & H1 & H2). assert (h = g) by (eapply after_fun; eauto). subst h.
      destruct (H2 ltac:(lia)) as (_ & g2 & E). rewrite E. cbn [Z.eqb negb].
      assert (A1 : after iterate small g0 (S iter) g2) by (econstructor; eauto).
      assert (Sm1 : small g2 = false).
      { destruct (Nat.eq_dec (S iter) k) as [Ek|Nk'].
        - rewrite <- Ek in C. assert (g1 = g2) by (eapply after_fun; eauto). subst. apply N1. lia.
        - destruct (after_le _ _ _ C (S iter) ltac:(lia)) as (h & H3 & H4). assert (h = g2) by (eapply after_fun; eauto). subst h. apply H4; lia. }
      rewrite Sm1. cbn [Z.eqb GSL_SUCCESS GSL_CONTINUE]. rewrite (IH (S iter) g0 g2 _ v k s); auto; [lia|].
      split; [lia|]. split; [auto|]. exists g1. auto.
  Qed.
  Lemma simplex_exh (d : V) rest : forall iter g0 g st v g', after iterate small g0 iter g -> (iter <> 0 -> small g = false) ->
    exhausted iterate small g0 (iter + rest) g' -> length (point g0) = length v ->
    simplex_loop iterate small point rest iter g st v =
      Ok (Returns (to_int (Z.of_nat (iter + rest))) (point g') (mkmini (if rest =? 0 then mi_status st else GSL_CONTINUE) (mi_vectors st - 2))).
  Proof.
    induction rest as [|rest IH]; intros iter g0 g st v g' A N (C & NC) D; cbn [simplex_loop].
    - rewrite Nat.add_0_r in *. assert (g = g') by (eapply after_fun; eauto). subst g'. rewrite (found_ok d) by (rewrite (after_dim _ _ _ C); auto). reflexivity.
    - destruct (after_le _ _ _ C iter ltac:(lia)) as (h & H1 & H2). assert (h = g) by (eapply after_fun; eauto). subst h.
      destruct (H2 ltac:(lia)) as (_ & g1 & E). rewrite E. cbn [Z.eqb negb].
      assert (A1 : after iterate small g0 (S iter) g1) by (econstructor; eauto).
      assert (Sm1 : small g1 = false).
      { destruct rest as [|rest'].
        - replace (iter + 1) with (S iter) in C by lia. assert (g1 = g') by (eapply after_fun; eauto). subst. apply NC. lia.
        - destruct (after_le _ _ _ C (S iter) ltac:(lia)) as (h & H3 & H4). assert (h = g1) by (eapply after_fun; eauto). subst h. apply H4; lia. }
      rewrite Sm1. cbn [Z.eqb GSL_SUCCESS GSL_CONTINUE]. replace (iter + S rest) with (S iter + rest) by lia. rewrite (IH (S iter) g0 g1 _ v g'); auto.
      + cbn [mi_status mi_vectors]. destruct (rest =? 0); reflexivity.
      + replace (S iter + rest) with (iter + S rest) by lia. split; auto.
  Qed.
  Lemma cg_conv (d : V) rest : forall iter g0 g st v k g', after iterate small g0 iter g -> (iter <> 0 -> small g = false) -> iter <= k ->
    converges iterate small g0 (iter + rest) k g' -> length (point g0) = length v ->
    conjugateGradient_loop iterate small point rest iter g st v = Ok (Returns (to_int (Z.of_nat k)) (point g') (mkmini 0 (mi_vectors st - 1))).
  Proof.
    induction rest as [|rest IH]; intros iter g0 g st v k g' A N L (K & C & Sm) D; [lia|]. cbn [conjugateGradient_loop].
    destruct (after_le _ _ _ C iter ltac:(lia)) as (h & H1 & H2). assert (h = g) by (eapply after_fun; eauto). subst h.
    destruct (H2 ltac:(lia)) as (_ & g1 & E). rewrite E. cbn [Z.eqb negb].
    assert (A1 : after iterate small g0 (S iter) g1) by (econstructor; eauto).
    destruct (Nat.eq_dec iter k) as [->|Nk].
    - assert (g1 = g') by (eapply after_fun; eauto). subst g1. rewrite Sm. cbn [Z.eqb GSL_SUCCESS]. rewrite (found_ok d) by (rewrite (after_dim _ _ _ C); auto). reflexivity.
    - assert (Sm1 : small g1 = false).
      { destruct (after_le _ _ _ C (S iter) ltac:(lia)) as (h & H3 & H4). assert (h = g1) by (eapply after_fun; eauto). subst h. apply H4; lia. }
      rewrite Sm1. cbn [Z.eqb GSL_SUCCESS GSL_CONTINUE]. rewrite (IH (S iter) g0 g1 _ v k g'); auto; [lia|].
      split; [lia|]. auto.
  Qed.
  Lemma cg_fail rest : forall iter g0 g st v k s, after iterate small g0 iter g -> (iter <> 0 -> small g = false) -> iter <= k ->
    fails iterate small g0 (iter + rest) k s ->
    conjugateGradient_loop iterate small point rest iter g st v = Ok (Returns (to_int (18446744073709551616 - Z.of_nat k)) v (mkmini s (mi_vectors st))).
  Proof.
    clear Hdim.
    induction rest as [|rest IH]; intros iter g0 g st v k s A N L (K & Ns & g1 & C & N1 & E1); [lia|]. cbn [conjugateGradient_loop].
    destruct (Nat.eq_dec iter k) as [->|Nk].
    - assert (g1 = g) by (eapply after_fun; eauto). subst g1. destruct (iterate g) as [s' g2]. cbn [fst] in E1. subst s'.
      destruct (Z.eqb_spec s 0); [congruence|]. reflexivity.
    - destruct (after_le _ _ _ C iter ltac:(lia)) as (h & H1 & H2). assert (h = g) by (eapply after_fun; eauto). subst h.
      destruct (H2 ltac:(lia)) as (_ & g2 & E). rewrite E. cbn [Z.eqb negb].
      assert (A1 : after iterate small g0 (S iter) g2) by (econstructor; eauto).
      assert (Sm1 : small g2 = false).
      { destruct (Nat.eq_dec (S iter) k) as [Ek|Nk'].
        - rewrite <- Ek in C. assert (g1 = g2) by (eapply after_fun; eauto). subst. apply N1. lia.
        - destruct (after_le _ _ _ C (S iter) ltac:(lia)) as (h & H3 & H4). assert (h = g2) by (eapply after_fun; eauto). subst h. apply H4; lia. }
      rewrite Sm1. cbn [Z.eqb GSL_SUCCESS GSL_CONTINUE]. rewrite (IH (S iter) g0 g2 _ v k s); auto; [lia|].
      split; [lia|]. split; [auto|]. exists g1. auto.
  Qed.
  Lemma cg_exh (d : V) rest : forall iter g0 g st v g', after iterate small g0 iter g -> (iter <> 0 -> small g = false) ->
    exhausted iterate small g0 (iter + rest) g' -> length (point g0) = length v ->
    conjugateGradient_loop iterate small point rest iter g st v =
      Ok (Returns (to_int (Z.of_nat (iter + rest))) (point g') (mkmini (if rest =? 0 then mi_status st else GSL_CONTINUE) (mi_vectors st - 1))).
  Proof.
    induction rest as [|rest IH]; intros iter g0 g st v g' A N (C & NC) D; cbn [conjugateGradient_loop].
    - rewrite Nat.add_0_r in *. assert (g = g') by (eapply after_fun; eauto). subst g'. rewrite (found_ok d) by (rewrite (after_dim _ _ _ C); auto). reflexivity.
    - destruct (after_le _ _ _ C iter ltac:(lia)) as (h & H1 & H2). assert (h = g) by (eapply after_fun; eauto). subst h.
      destruct (H2 ltac:(lia)) as (_ & g1 & E). rewrite E. cbn [Z.eqb negb].
      assert (A1 : after iterate small g0 (S iter) g1) by (econstructor; eauto).
      assert (Sm1 : small g1 = false).
      { destruct rest as [|rest'].
        - replace (iter + 1) with (S iter) in C by lia. assert (g1 = g') by (eapply after_fun; eauto). subst. apply NC. lia.
        - destruct (after_le _ _ _ C (S iter) ltac:(lia)) as (h & H3 & H4). assert (h = g1) by (eapply after_fun; eauto). subst h. apply H4; lia. }
      rewrite Sm1. cbn [Z.eqb GSL_SUCCESS GSL_CONTINUE]. replace (iter + S rest) with (S iter + rest) by lia. rewrite (IH (S iter) g0 g1 _ v g'); auto.
      + cbn [mi_status mi_vectors]. destruct (rest =? 0); reflexivity.
      + replace (S iter + rest) with (iter + S rest) by lia. split; auto.
  Qed.
End Minimizer.
