From Coq Require Import Znumtheory QArith.
From Verif Require Import Prelude Random_Model Random_Spec.
Local Open Scope N_scope.

(** ---------- 32-bit facts ---------- *)
Lemma lxor_lt a b n : a < 2 ^ n -> b < 2 ^ n -> N.lxor a b < 2 ^ n.
Proof.
  intros Ha Hb. destruct (N.eq_dec (N.lxor a b) 0) as [->|Hne].
  - pose proof (N.pow_nonzero 2 n ltac:(lia)). lia.
  - apply N.log2_lt_pow2; [lia|].
    eapply N.le_lt_trans; [apply N.log2_lxor|].
    destruct (N.eq_dec a 0) as [->|Na]; destruct (N.eq_dec b 0) as [->|Nb].
    + exfalso. apply Hne. reflexivity.
    + change (N.log2 0) with 0. rewrite N.max_0_l. apply N.log2_lt_pow2; lia.
    + change (N.log2 0) with 0. rewrite N.max_0_r. apply N.log2_lt_pow2; lia.
    + apply N.max_lub_lt; apply N.log2_lt_pow2; lia.
Qed.

Lemma shiftr_lt a k n : a < 2 ^ n -> N.shiftr a k < 2 ^ n.
Proof.
  intros H. rewrite N.shiftr_div_pow2. eapply N.le_lt_trans; [|exact H].
  pose proof (N.pow_nonzero 2 k ltac:(lia)).
  apply N.div_le_upper_bound; auto. nia.
Qed.

Lemma land_lt_l a b n : a < 2 ^ n -> N.land a b < 2 ^ n.
Proof.
  intros H. eapply N.le_lt_trans; [|exact H].
  destruct (N.eq_dec (N.land a b) 0) as [->|Hne]; [lia|].
  assert (E : N.land a b + N.ldiff a b = a).
  { rewrite N.add_nocarry_lxor.
    - apply N.bits_inj. intros i. rewrite N.lxor_spec, N.land_spec, N.ldiff_spec.
      destruct (N.testbit a i), (N.testbit b i); reflexivity.
    - apply N.bits_inj. intros i. rewrite !N.land_spec, N.ldiff_spec, N.bits_0.
      destruct (N.testbit a i), (N.testbit b i); reflexivity. }
  lia.
Qed.

Lemma land_ub_l a b n : a < 2 ^ n -> N.land b a < 2 ^ n.
Proof. rewrite N.land_comm. apply land_lt_l. Qed.

Lemma wrap32_lt x : wrap32 x < 2 ^ 32.
Proof. apply N.mod_lt. discriminate. Qed.

(** ---------- sequence defined by a sliding window ---------- *)
Definition mtnew (v : list N) : N :=
  N.lxor (nth 397 v 0) (twist (upper_lower (nth 0 v 0) (nth 1 v 0))).
Definition slide (v : list N) : list N := skipn 1 v ++ [mtnew v].
Fixpoint win (v : list N) (n : nat) : list N :=
  match n with O => v | S n' => slide (win v n') end.
Definition wseq (v : list N) (k : nat) : N := nth 0 (win v k) 0.

Lemma win_length v n : length v = 624%nat -> length (win v n) = 624%nat.
Proof.
  intros H. induction n as [|n IH]; [exact H|]. cbn [win]. unfold slide.
  rewrite app_length, skipn_length, IH. reflexivity.
Qed.

Lemma nth_skipn {A} (l : list A) k j d : nth j (skipn k l) d = nth (k + j) l d.
Proof.
  revert k; induction l as [|a l IH]; intros [|k]; simpl; auto; destruct j; auto.
Qed.

Lemma nth_win v n j : length v = 624%nat -> (j < 624)%nat -> nth j (win v n) 0 = wseq v (n + j).
Proof.
  intros Hv. revert n. induction j as [|j IH]; intros n Hj.
  - unfold wseq. rewrite Nat.add_0_r. reflexivity.
  - replace (n + S j)%nat with (S n + j)%nat by lia. rewrite <- IH by lia.
    cbn [win]. unfold slide. rewrite app_nth1.
    + rewrite nth_skipn. reflexivity.
    + rewrite skipn_length, win_length by exact Hv. lia.
Qed.

Lemma wseq_init v j : length v = 624%nat -> (j < 624)%nat -> wseq v j = nth j v 0.
Proof. intros Hv Hj. exact (eq_sym (nth_win v 0 j Hv Hj)). Qed.

Lemma wseq_rec v : length v = 624%nat -> mt_recurrence (wseq v).
Proof.
  intros Hv k. replace (k + 624)%nat with (S k + 623)%nat by lia.
  rewrite <- nth_win by (auto; lia). cbn [win]. unfold slide.
  rewrite app_nth2; rewrite skipn_length, win_length by exact Hv; [|lia].
  change (623 - (624 - 1))%nat with 0%nat. cbn [nth]. unfold mtnew.
  rewrite !nth_win by (auto; lia). rewrite Nat.add_0_r. reflexivity.
Qed.

(** ---------- the code step equals the recurrence ---------- *)
Lemma upper_mask a : a < 2 ^ 32 -> N.land a 0x80000000 = (a / 2 ^ 31) * 2 ^ 31.
Proof.
  intros H. rewrite <- N.shiftl_mul_pow2, <- N.shiftr_div_pow2.
  apply N.bits_inj. intros i. rewrite N.land_spec.
  destruct (N.lt_ge_cases i 31) as [L|L].
  - rewrite N.shiftl_spec_low by exact L.
    replace (N.testbit 2147483648 i) with false; [apply andb_false_r|].
    symmetry. change 2147483648 with (2 ^ 31). apply N.pow2_bits_false. lia.
  - rewrite N.shiftl_spec_high' by exact L. rewrite N.shiftr_spec by lia.
    replace (i - 31 + 31) with i by lia.
    destruct (N.eq_dec i 31) as [->|Hi].
    + change (N.testbit 2147483648 31) with true. apply andb_true_r.
    + replace (N.testbit a i) with false; [reflexivity|]. symmetry.
      destruct (N.eq_dec a 0) as [->|Ha]; [apply N.bits_0|].
      apply N.bits_above_log2. assert (G : N.log2 a < 32) by (apply N.log2_lt_pow2; [lia|exact H]). lia.
Qed.

Lemma lower_mask b : N.land b 0x7fffffff = b mod 2 ^ 31.
Proof. change 0x7fffffff with (N.ones 31). apply N.land_ones. Qed.

Lemma y_eq a b : a < 2 ^ 32 -> wrap32 (N.land a 0x80000000 + N.land b 0x7fffffff) = upper_lower a b.
Proof.
  intros H. rewrite upper_mask, lower_mask by exact H. unfold wrap32, upper_lower.
  apply N.mod_small.
  assert (a / 2 ^ 31 < 2) by (apply N.div_lt_upper_bound; [discriminate|exact H]).
  pose proof (N.mod_lt b (2 ^ 31) ltac:(discriminate)).
  change (2 ^ 32) with (2 * 2 ^ 31). nia.
Qed.

Lemma twist_eq c y :
  (if negb (y mod 2 =? 0) then N.lxor (N.lxor c (N.shiftr y 1)) 2567483615 else N.lxor c (N.shiftr y 1))
  = N.lxor c (twist y).
Proof.
  unfold twist. rewrite N.bit0_eqb. rewrite N.shiftr_div_pow2. change (2 ^ 1) with 2.
  pose proof (N.mod_lt y 2 ltac:(discriminate)) as M.
  destruct (N.eqb_spec (y mod 2) 0) as [E|E]; cbn [negb].
  - rewrite E. reflexivity.
  - replace (y mod 2) with 1 by lia. cbn [N.eqb]. change (1 =? 1) with true. rewrite N.lxor_assoc. reflexivity.
Qed.

Lemma generate_step (w : nat -> N) (base i : nat) (st : list N) :
  mt_recurrence w -> (forall k, w k < 2 ^ 32) -> (i < 624)%nat ->
  length st = 624%nat ->
  (forall j, (j < 624)%nat -> nth j st 0 = w (base + j + (if j <? i then 624 else 0))%nat) ->
  exists st',
  (do a <- vget st i ;;
    do b <- vget st ((i + 1) mod N_)%nat ;;
    let y := wrap32 (N.land a 0x80000000 + N.land b 0x7fffffff) in
    do c <- vget st ((i + 397) mod N_)%nat ;;
    do state <- vset st i (N.lxor c (N.shiftr y 1)) ;;
    if negb (y mod 2 =? 0) then
      do d <- vget state i ;;
      vset state i (N.lxor d 2567483615)
    else Ok state) = Ok st' /\ length st' = 624%nat /\
  (forall j, (j < 624)%nat -> nth j st' 0 = w (base + j + (if j <? S i then 624 else 0))%nat).
Proof.
  intros Hrec Hw Hi HL Hst.
  assert (M1 : ((i + 1) mod N_ < 624)%nat) by (apply Nat.mod_upper_bound; discriminate).
  assert (M2 : ((i + 397) mod N_ < 624)%nat) by (apply Nat.mod_upper_bound; discriminate).
  rewrite (vget_ok st 0) by lia. cbn [bind].
  rewrite (vget_ok st 0) by lia. cbn [bind]. cbv zeta.
  rewrite (vget_ok st 0) by lia. cbn [bind].
  assert (Ea : nth i st 0 = w (base + i)%nat).
  { rewrite Hst by lia. rewrite Nat.ltb_irrefl. f_equal. lia. }
  assert (Eb : nth ((i + 1) mod N_)%nat st 0 = w (base + i + 1)%nat).
  { rewrite Hst by lia. unfold N_ in *. destruct (Nat.eq_dec i 623) as [->|Hn].
    - change ((623 + 1) mod 624)%nat with 0%nat. cbn [Nat.ltb Nat.leb]. f_equal. lia.
    - rewrite Nat.mod_small by lia. destruct (Nat.ltb_spec (i + 1) i); [lia|]. f_equal. lia. }
  assert (Ec : nth ((i + 397) mod N_)%nat st 0 = w (base + i + 397)%nat).
  { rewrite Hst by lia. unfold N_ in *. destruct (Nat.lt_ge_cases (i + 397) 624) as [L|L].
    - rewrite Nat.mod_small by lia. destruct (Nat.ltb_spec (i + 397) i); [lia|]. f_equal. lia.
    - assert (E : ((i + 397) mod 624 = i + 397 - 624)%nat).
      { symmetry. apply (Nat.mod_unique _ _ 1); lia. }
      rewrite E. destruct (Nat.ltb_spec (i + 397 - 624) i); [|lia]. f_equal. lia. }
  rewrite Ea, Eb, Ec. rewrite y_eq by apply Hw.
  set (y := upper_lower (w (base + i)%nat) (w (base + i + 1)%nat)).
  set (c := w (base + i + 397)%nat).
  assert (T : N.lxor c (twist y) = w (base + i + 624)%nat) by (symmetry; apply Hrec).
  rewrite vset_ok by lia. cbn [bind].
  exists (upd st i (w (base + i + 624)%nat)). rewrite upd_length. split; [|split; [exact HL|]].
  - rewrite <- T, <- twist_eq. destruct (negb (y mod 2 =? 0)); [|reflexivity].
    rewrite (vget_ok (upd st i _) 0) by (rewrite upd_length; lia). cbn [bind].
    rewrite nth_upd_eq by lia. rewrite vset_ok by (rewrite upd_length; lia).
    f_equal. apply upd_upd.
  - intros j Hj. rewrite nth_upd. destruct (Nat.eq_dec j i) as [->|Hne].
    + replace ((i =? i)%nat) with true by (symmetry; apply Nat.eqb_refl).
      destruct (Nat.ltb_spec i (length st)); [|lia]. cbn [andb].
      destruct (Nat.ltb_spec i (S i)); [|lia]. reflexivity.
    + replace ((j =? i)%nat) with false by (symmetry; apply Nat.eqb_neq; exact Hne).
      cbn [andb]. rewrite Hst by exact Hj.
      destruct (Nat.ltb_spec j i); destruct (Nat.ltb_spec j (S i)); try lia; reflexivity.
Qed.

Lemma generate_spec (w : nat -> N) (base : nat) (st : list N) :
  mt_recurrence w -> (forall k, w k < 2 ^ 32) -> length st = 624%nat ->
  (forall j, (j < 624)%nat -> nth j st 0 = w (base + j)%nat) ->
  exists st', mt_generate st = Ok st' /\ length st' = 624%nat /\
    (forall j, (j < 624)%nat -> nth j st' 0 = w (base + 624 + j)%nat).
Proof.
  intros Hrec Hw HL Hst. unfold mt_generate.
  destruct (forM_inv (fun i s => length s = 624%nat /\
      forall j, (j < 624)%nat -> nth j s 0 = w (base + j + (if j <? i then 624 else 0))%nat)
      N_ (fun i state =>
    do a <- vget state i ;;
    do b <- vget state ((i + 1) mod N_)%nat ;;
    let y := wrap32 (N.land a 0x80000000 + N.land b 0x7fffffff) in
    do c <- vget state ((i + 397) mod N_)%nat ;;
    do state <- vset state i (N.lxor c (N.shiftr y 1)) ;;
    if negb (y mod 2 =? 0) then
      do d <- vget state i ;;
      vset state i (N.lxor d 2567483615)
    else Ok state) st (i := 0%nat)) as [st' [E [L' H']]].
  - split; auto. intros j Hj. cbn [Nat.ltb Nat.leb]. rewrite Nat.add_0_r. auto.
  - intros j s [_ Hj] [Ls Hs]. apply (generate_step w base j s Hrec Hw Hj Ls Hs).
  - exists st'. split; [exact E|]. split; [exact L'|]. intros j Hj. rewrite H' by exact Hj.
    change (0 + N_)%nat with 624%nat. destruct (Nat.ltb_spec j 624); [|lia]. f_equal. lia.
Qed.

(** State after n calls: index n mod 624, words w(624*ceil(n/624) + j). *)
Definition mt_inv (w : nat -> N) (n : nat) (g : mt) : Prop :=
  exists q r, n = (624 * q + r)%nat /\ (r < 624)%nat /\ mt_index g = r /\
    length (mt_state g) = 624%nat /\
    forall j, (j < 624)%nat -> nth j (mt_state g) 0 = w (624 * (if (r =? 0)%nat then q else q + 1) + j)%nat.

Lemma mt_random_spec w n g :
  mt_recurrence w -> (forall k, w k < 2 ^ 32) -> mt_inv w n g ->
  exists g', mt_random g = Ok (temper (w (n + 624)%nat), g') /\ mt_inv w (S n) g'.
Proof.
  intros Hrec Hw [q [r [En [Hr [Ei [HL Hst]]]]]]. unfold mt_random. rewrite Ei.
  assert (G : exists st, (if (r =? 0)%nat then mt_generate (mt_state g) else Ok (mt_state g)) = Ok st /\
      length st = 624%nat /\ forall j, (j < 624)%nat -> nth j st 0 = w (624 * (q + 1) + j)%nat).
  { destruct (Nat.eqb_spec r 0) as [Er|Er].
    - destruct (generate_spec w (624 * q) (mt_state g) Hrec Hw HL) as [st [E [L H]]].
      { intros j Hj. rewrite Hst by exact Hj. reflexivity. }
      exists st. split; [exact E|]. split; [exact L|]. intros j Hj. rewrite H by exact Hj. f_equal. lia.
    - exists (mt_state g). auto. }
  destruct G as [st [E [L H]]]. rewrite E. cbn [bind].
  rewrite (vget_ok st 0) by lia. cbn [bind]. rewrite H by exact Hr.
  eexists. split; [f_equal; f_equal; f_equal; f_equal; lia|].
  unfold N_. destruct (Nat.eq_dec r 623) as [E1|E1].
  - exists (q + 1)%nat, 0%nat. cbn [mt_index mt_state]. split; [lia|]. split; [lia|].
    split; [rewrite E1; reflexivity|]. split; [exact L|]. exact H.
  - exists q, (r + 1)%nat. cbn [mt_index mt_state]. split; [lia|]. split; [lia|].
    split; [apply Nat.mod_small; lia|]. split; [exact L|].
    replace (r + 1 =? 0)%nat with false by lia. exact H.
Qed.

Lemma mt_stream_spec w m : mt_recurrence w -> (forall k, w k < 2 ^ 32) -> forall n g,
  mt_inv w n g ->
  exists g', mt_stream m g = Ok (map (fun k => temper (w (k + 624)%nat)) (seq n m), g') /\ mt_inv w (n + m) g'.
Proof.
  intros Hrec Hw. induction m as [|m IH]; intros n g Hg; cbn [mt_stream seq map].
  - exists g. rewrite Nat.add_0_r. auto.
  - destruct (mt_random_spec w n g Hrec Hw Hg) as [g1 [E1 H1]]. rewrite E1. cbn [bind].
    destruct (IH (S n) g1 H1) as [g2 [E2 H2]]. rewrite E2. cbn [bind].
    exists g2. split; [reflexivity|]. replace (n + S m)%nat with (S n + m)%nat by lia. exact H2.
Qed.

(** ---------- seeding ---------- *)
Fixpoint seed_word (k : nat) (s : N) : N :=
  match k with
  | O => s
  | S k' => let p := seed_word k' s in
            (1812433253 * (N.lxor p (N.shiftr p 30) + N.of_nat k)) mod 2 ^ 32
  end.

Lemma seed_word_lt s k : s < 2 ^ 32 -> seed_word k s < 2 ^ 32.
Proof. intros H. destruct k; cbn [seed_word]; auto. apply N.mod_lt. discriminate. Qed.

Lemma seed_expr p i : N.land keepLast32BitMask (wrap32 (1812433253 * wrap32 (p + i))) = (1812433253 * (p + i)) mod 2 ^ 32.
Proof.
  unfold wrap32, keepLast32BitMask. rewrite N.land_comm. change 4294967295 with (N.ones 32).
  rewrite N.land_ones. rewrite N.mod_mod by discriminate. rewrite N.mul_mod_idemp_r by discriminate. reflexivity.
Qed.

Lemma mt_seed_spec s : s < 2 ^ 32 ->
  exists g, mt_seed s = Ok g /\ mt_index g = 0%nat /\ length (mt_state g) = 624%nat /\
    forall j, (j < 624)%nat -> nth j (mt_state g) 0 = seed_word j s.
Proof.
  intros Hs. unfold mt_seed. rewrite vset_ok by (rewrite repeat_length; unfold N_; lia). cbn [bind].
  loopR (fun i st => length st = 624%nat /\ forall j, (j < i)%nat -> nth j st 0 = seed_word j s) as st E [L H].
  - unfold N_. lia.
  - split; [rewrite upd_length, repeat_length; reflexivity|]. intros j Hj.
    assert (j = 0)%nat by lia. subst j. rewrite nth_upd_eq; [reflexivity|]. rewrite repeat_length. unfold N_. lia.
  - intros i st [H1 H2] [L H]. unfold N_ in H2. rewrite (vget_ok st 0) by lia. cbn [bind]. cbv zeta.
    rewrite vset_ok by lia. eexists. split; [reflexivity|]. split; [rewrite upd_length; exact L|].
    intros j Hj. destruct (Nat.eq_dec j i) as [->|Hn].
    + rewrite nth_upd_eq by lia. rewrite H by lia. rewrite seed_expr.
      destruct i as [|i]; [lia|]. cbn [seed_word]. replace (S i - 1)%nat with i by lia. reflexivity.
    + rewrite nth_upd_neq by exact Hn. apply H. lia.
  - rewrite E. cbn [bind]. eexists. split; [reflexivity|]. cbn. auto.
Qed.

Lemma wseq_lt v : length v = 624%nat -> (forall j, (j < 624)%nat -> nth j v 0 < 2 ^ 32) ->
  forall k, wseq v k < 2 ^ 32.
Proof.
  intros HL Hv k. induction k as [k IH] using (well_founded_induction lt_wf).
  destruct (Nat.lt_ge_cases k 624) as [L|L].
  - rewrite wseq_init by auto. auto.
  - replace k with (k - 624 + 624)%nat by lia. rewrite wseq_rec by exact HL.
    apply lxor_lt; [apply IH; lia|].
    assert (U : upper_lower (wseq v (k - 624)) (wseq v (k - 624 + 1)) < 2 ^ 32).
    { rewrite <- y_eq by (apply IH; lia). apply wrap32_lt. }
    unfold twist. destruct (N.testbit _ 0).
    + apply lxor_lt; [|reflexivity]. eapply N.le_lt_trans; [|exact U].
      apply N.div_le_upper_bound; [discriminate|]. lia.
    + eapply N.le_lt_trans; [|exact U]. apply N.div_le_upper_bound; [discriminate|]. lia.
Qed.

Lemma mt_main s : s < 2 ^ 32 ->
  exists g w, mt_seed s = Ok g /\
    w 0%nat = s /\ mt_recurrence w /\ (forall k, w k < 2 ^ 32) /\
    (forall i, (0 < i < 624)%nat ->
       w i = (1812433253 * (N.lxor (w (i - 1)%nat) (w (i - 1)%nat / 2 ^ 30) + N.of_nat i)) mod 2 ^ 32) /\
    forall m, exists g', mt_stream m g = Ok (map (fun k => temper (w (k + 624)%nat)) (seq 0 m), g') /\
      (mt_index g' < 624)%nat /\ length (mt_state g') = 624%nat /\
      (forall x, In x (mt_state g') -> x < 2 ^ 32).
Proof.
  intros Hs. destruct (mt_seed_spec s Hs) as [g [E [Ei [L H]]]].
  exists g, (wseq (mt_state g)). split; [exact E|].
  assert (W : forall k, wseq (mt_state g) k < 2 ^ 32).
  { apply wseq_lt; auto. intros j Hj. rewrite H by exact Hj. apply seed_word_lt. exact Hs. }
  assert (R : mt_recurrence (wseq (mt_state g))) by (apply wseq_rec; exact L).
  split; [rewrite wseq_init, H by (auto; lia); reflexivity|].
  split; [exact R|]. split; [exact W|]. split.
  - intros i Hi. rewrite !wseq_init, !H by (auto; lia). destruct i as [|i]; [lia|].
    replace (S i - 1)%nat with i by lia. cbn [seed_word]. rewrite N.shiftr_div_pow2. reflexivity.
  - intros m. destruct (mt_stream_spec (wseq (mt_state g)) m R W 0 g) as [g' [E' [q [r [En [Hr [Er [L' H']]]]]]]].
    + exists 0%nat, 0%nat. split; [reflexivity|]. split; [lia|]. split; [exact Ei|]. split; [exact L|].
      intros j Hj. cbn [Nat.eqb]. rewrite Nat.mul_0_r. cbn [Nat.add]. symmetry. apply wseq_init; auto.
    + exists g'. split; [exact E'|]. split; [lia|]. split; [exact L'|].
      intros x Hx. destruct (In_nth _ _ 0 Hx) as [j [Hj <-]]. rewrite H' by lia. apply W.
Qed.

(** ---------- tempering ---------- *)
Lemma temper_lt y : y < 2 ^ 32 -> temper y < 2 ^ 32.
Proof.
  intros H. unfold temper. cbv zeta.
  set (y1 := N.lxor y (N.shiftr y 11)).
  assert (H1 : y1 < 2 ^ 32) by (apply lxor_lt; auto; apply shiftr_lt; auto).
  set (y2 := N.lxor y1 (N.land (wrap32 (N.shiftl y1 7)) 2636928640)).
  assert (H2 : y2 < 2 ^ 32) by (apply lxor_lt; auto; apply land_lt_l, wrap32_lt).
  set (y3 := N.lxor y2 (N.land (wrap32 (N.shiftl y2 15)) 4022730752)).
  assert (H3 : y3 < 2 ^ 32) by (apply lxor_lt; auto; apply land_lt_l, wrap32_lt).
  apply lxor_lt; auto. apply shiftr_lt; auto.
Qed.

Lemma xor_shr_inj k a b : 0 < k -> N.lxor a (N.shiftr a k) = N.lxor b (N.shiftr b k) -> a = b.
Proof.
  intros Hk E. apply N.lxor_eq.
  assert (D : N.lxor a b = N.shiftr (N.lxor a b) k).
  { rewrite N.shiftr_lxor. apply N.bits_inj. intros i.
    assert (Ei := f_equal (fun x => N.testbit x i) E). cbn beta in Ei.
    rewrite !N.lxor_spec in *.
    destruct (N.testbit a i), (N.testbit b i), (N.testbit (N.shiftr a k) i), (N.testbit (N.shiftr b k) i);
      simpl in *; congruence. }
  destruct (N.eq_dec (N.lxor a b) 0) as [Z|Z]; auto. exfalso.
  rewrite N.shiftr_div_pow2 in D.
  assert (N.lxor a b / 2 ^ k < N.lxor a b); [|lia].
  apply N.div_lt; [lia|]. replace k with (N.succ (k - 1)) by lia. rewrite N.pow_succ_r'.
  pose proof (N.pow_nonzero 2 (k - 1) ltac:(lia)). lia.
Qed.

Lemma xor_shl_inj k m a b : 0 < k ->
  N.lxor a (N.land (wrap32 (N.shiftl a k)) m) = N.lxor b (N.land (wrap32 (N.shiftl b k)) m) -> a = b.
Proof.
  intros Hk E. apply N.bits_inj. intros i.
  induction i as [i IH] using (well_founded_induction N.lt_wf_0).
  assert (Ei := f_equal (fun x => N.testbit x i) E). cbn beta in Ei.
  rewrite !N.lxor_spec, !N.land_spec in Ei. unfold wrap32 in Ei.
  assert (S : N.testbit (N.shiftl a k mod 2 ^ 32) i = N.testbit (N.shiftl b k mod 2 ^ 32) i).
  { destruct (N.lt_ge_cases i 32) as [L|L].
    - rewrite !N.mod_pow2_bits_low by exact L. destruct (N.lt_ge_cases i k) as [L2|L2].
      + rewrite !N.shiftl_spec_low by exact L2. reflexivity.
      + rewrite !N.shiftl_spec_high' by exact L2. apply IH. lia.
    - rewrite !N.mod_pow2_bits_high by exact L. reflexivity. }
  rewrite S in Ei.
  destruct (N.testbit a i), (N.testbit b i), (N.testbit (N.shiftl b k mod 2 ^ 32) i && N.testbit m i);
    simpl in *; congruence.
Qed.

Lemma temper_inj a b : temper a = temper b -> a = b.
Proof.
  unfold temper. cbv zeta. intros E.
  apply xor_shr_inj in E; [|lia]. apply xor_shl_inj in E; [|lia].
  apply xor_shl_inj in E; [|lia]. apply xor_shr_inj in E; [|lia]. exact E.
Qed.

(** ---------- ranks ---------- *)
Lemma mt_seed_inv s : s < 2 ^ 32 ->
  exists g w, mt_seed s = Ok g /\ mt_recurrence w /\ (forall k, w k < 2 ^ 32) /\ mt_inv w 0 g.
Proof.
  intros Hs. destruct (mt_seed_spec s Hs) as [g [E [Ei [L H]]]].
  exists g, (wseq (mt_state g)). split; [exact E|]. split; [apply wseq_rec; exact L|]. split.
  - apply wseq_lt; auto. intros j Hj. rewrite H by exact Hj. apply seed_word_lt. exact Hs.
  - exists 0%nat, 0%nat. split; [reflexivity|]. split; [lia|]. split; [exact Ei|]. split; [exact L|].
    intros j Hj. cbn [Nat.eqb]. rewrite Nat.mul_0_r. cbn [Nat.add]. symmetry. apply wseq_init; auto.
Qed.

Lemma rank_loop w g1 y1 n : mt_recurrence w -> (forall k, w k < 2 ^ 32) -> mt_inv w 1 g1 ->
  y1 = temper (w 624%nat) ->
  exists g2, forM n 1 (fun _ '(_, g) => mt_random g) (y1, g1) = Ok (temper (w (n + 624)%nat), g2).
Proof.
  intros R W I E.
  loopM (fun i p => fst p = temper (w (i - 1 + 624)%nat) /\ mt_inv w i (snd p)) as [y2 g2] F [F1 F2].
  - cbn [fst snd]. split; [exact E|exact I].
  - intros j [y g] Hj [_ Ig]. cbn [fst snd] in *.
    destruct (mt_random_spec w j g R W Ig) as [g' [E' I']].
    exists (temper (w (j + 624)%nat), g'). split; [exact E'|]. cbn [fst snd]. split; [|exact I'].
    f_equal. f_equal. lia.
  - exists g2. rewrite F. cbn [fst] in F1. rewrite F1. f_equal. f_equal. f_equal. f_equal. lia.
Qed.

Lemma mt_ctor_rank_spec s rank g ys g' : s < 2 ^ 32 ->
  mt_seed s = Ok g -> mt_stream (Nat.max 1 (Z.to_nat rank)) g = Ok (ys, g') ->
  exists g'', mt_seed (last ys 0) = Ok g'' /\ mt_ctor_rank s rank = Ok g''.
Proof.
  intros Hs E St. unfold mt_ctor_rank. rewrite E. cbn [bind].
  destruct (mt_seed_inv s Hs) as [g0 [w [E0 [R [W I]]]]]. assert (g0 = g) by congruence. subst g0.
  destruct (mt_random_spec w 0 g R W I) as [g1 [E1 I1]]. rewrite E1. cbn [bind]. unfold forR.
  destruct (rank_loop w g1 _ (Z.to_nat rank - 1) R W I1 eq_refl) as [g2 E2].
  change (0 + 624)%nat with 624%nat. rewrite E2. cbn [bind].
  destruct (mt_stream_spec w (Nat.max 1 (Z.to_nat rank)) R W 0 g I) as [g3 [E3 _]].
  assert (Ey : ys = map (fun k => temper (w (k + 624)%nat)) (seq 0 (Nat.max 1 (Z.to_nat rank)))) by congruence.
  rewrite Ey.
  replace (Nat.max 1 (Z.to_nat rank)) with (S (Z.to_nat rank - 1)) by lia.
  rewrite seq_S, map_app. cbn [map]. rewrite last_last. rewrite Nat.add_0_l.
  destruct (mt_seed_spec (temper (w (Z.to_nat rank - 1 + 624)%nat))) as [g'' [E'' _]].
  { apply temper_lt, W. }
  exists g''. auto.
Qed.

Lemma ctor_rank_1 s : mt_ctor_rank s 1 = mt_ctor_rank s 0.
Proof.
  unfold mt_ctor_rank, forR. change (Z.to_nat 1 - 1)%nat with 0%nat. change (Z.to_nat 0 - 1)%nat with 0%nat.
  reflexivity.
Qed.

Lemma rank_0_1 : exists r1 r2, (0 <= r1)%Z /\ (0 <= r2)%Z /\ r1 <> r2 /\
  forall s, s < 2 ^ 32 -> exists g, mt_ctor_rank s r1 = Ok g /\ mt_ctor_rank s r2 = Ok g.
Proof.
  exists 0%Z, 1%Z. split; [lia|]. split; [lia|]. split; [lia|]. intros s Hs.
  rewrite ctor_rank_1.
  destruct (mt_seed_inv s Hs) as [g0 [w [E0 [R [W I]]]]].
  destruct (mt_stream_spec w (Nat.max 1 (Z.to_nat 0)) R W 0 g0 I) as [g3 [E3 _]].
  destruct (mt_ctor_rank_spec s 0%Z g0 _ _ Hs E0 E3) as [g [_ E]]. exists g. auto.
Qed.

Lemma reference_seeding_differs : exists s g, s < 2 ^ 32 /\ mt_seed s = Ok g /\
  exists i, (i < 624)%nat /\ nth i (mt_state g) 0 <> ref_init i s.
Proof.
  destruct (mt_seed_spec 5489) as [g [E [_ [_ H]]]]; [lia|].
  exists 5489, g. split; [lia|]. split; [exact E|]. exists 1%nat. split; [lia|].
  rewrite H by lia. vm_compute. discriminate.
Qed.

(** ---------- RandomForTests ---------- *)
Local Open Scope Z_scope.
Local Ltac Zify.zify_post_hook ::= idtac.

Definition P31 : Z := 2147483647.

Lemma rft_next_spec x : - 2 ^ 31 <= x < 2 ^ 31 ->
  rft_next x = Ok (if (16807 * x) mod P31 =? 0 then 1 else (16807 * x) mod P31).
Proof.
  intros Hx. unfold rft_next.
  pose proof (Z.quot_rem x 127773 ltac:(lia)) as QR.
  set (q := Z.quot x 127773) in *. set (r := Z.rem x 127773) in *.
  assert (Hr : (0 <= x -> 0 <= r < 127773) /\ (x <= 0 -> -127773 < r <= 0)).
  { split; intros H.
    - apply Z.rem_bound_pos; lia.
    - destruct (Z.eq_dec x 0) as [->|Hn]; [unfold r; cbn; lia|].
      pose proof (Z.rem_bound_neg_pos x 127773). unfold r. lia. }
  assert (Hq : (0 <= x -> 0 <= q <= 16807) /\ (x <= 0 -> -16807 <= q <= 0)) by nia.
  unfold int_op, int_ok.
  replace ((- 2 ^ 31 <=? 16807 * r) && (16807 * r <? 2 ^ 31)) with true by lia. cbn [bind].
  replace ((- 2 ^ 31 <=? 2836 * q) && (2836 * q <? 2 ^ 31)) with true by lia. cbn [bind].
  set (v := 16807 * r - 2836 * q).
  assert (Hv : - P31 < v < P31) by (unfold v, P31; lia).
  assert (Ev : 16807 * x = v + q * P31) by (unfold v, P31; lia).
  unfold P31 in Hv.
  replace ((- 2 ^ 31 <=? v) && (v <? 2 ^ 31)) with true by lia. cbn [bind].
  rewrite Ev, Z.mod_add by (unfold P31; lia).
  destruct (Z.leb_spec v 0) as [L|L].
  - replace ((- 2 ^ 31 <=? v + 2147483647) && (v + 2147483647 <? 2 ^ 31)) with true by lia.
    cbn [bind]. destruct (Z.eq_dec v 0) as [->|Hn].
    + reflexivity.
    + replace (v mod P31) with (v + P31).
      * unfold P31. replace (2147483647 <=? v + 2147483647) with false by lia.
        replace (v + 2147483647 =? 0) with false by lia. reflexivity.
      * apply (Z.mod_unique_pos _ _ (-1)); unfold P31; lia.
  - cbn [bind]. rewrite Z.mod_small by (unfold P31; lia).
    replace (2147483647 <=? v) with false by lia. replace (v =? 0) with false by lia. reflexivity.
Qed.

Lemma rft_range x y : - 2 ^ 31 <= x < 2 ^ 31 -> rft_next x = Ok y -> 0 < y < P31.
Proof.
  intros Hx. rewrite rft_next_spec by exact Hx. intros E. apply Ok_inj in E. subst y.
  pose proof (Z.mod_pos_bound (16807 * x) P31 ltac:(unfold P31; lia)).
  destruct (Z.eqb_spec ((16807 * x) mod P31) 0); [unfold P31; lia|lia].
Qed.

(** primality of 2^31 - 1 by trial division *)
Fixpoint no_div (n : nat) (d p : Z) : bool :=
  match n with
  | O => true
  | S n' => negb (p mod d =? 0) && no_div n' (d + 1) p
  end.

Lemma no_div_spec n d p : no_div n d p = true -> forall k, d <= k < d + Z.of_nat n -> p mod k <> 0.
Proof.
  revert d; induction n as [|n IH]; intros d H k Hk; [lia|]. cbn [no_div] in H.
  apply andb_prop in H. destruct H as [H1 H2].
  destruct (Z.eq_dec k d) as [->|Hn]; [lia|]. apply (IH (d + 1) H2). lia.
Qed.

Lemma prime_by_trial p n : 1 < p -> no_div n 2 p = true -> p < (Z.of_nat n + 2) * (Z.of_nat n + 2) -> prime p.
Proof.
  intros Hp H Hb. apply prime_alt. split; auto. intros d Hd [c Hc].
  assert (Hcpos : 1 < c < p) by nia.
  assert (K : forall k, 1 < k < p -> (k | p) -> Z.of_nat n + 2 <= k).
  { intros k Hk Dk. destruct (Z.lt_ge_cases k (2 + Z.of_nat n)) as [L|L]; [|lia].
    exfalso. apply (no_div_spec n 2 p H k ltac:(lia)). apply Z.mod_divide; auto. lia. }
  pose proof (K d Hd (ex_intro _ c Hc)).
  assert (D2 : (c | p)) by (exists d; lia). pose proof (K c Hcpos D2). nia.
Qed.

Lemma prime_P31 : prime P31.
Proof.
  apply (prime_by_trial P31 (Z.to_nat 46340)).
  - unfold P31; lia.
  - vm_compute. reflexivity.
  - rewrite Z2Nat.id by lia. unfold P31; lia.
Qed.

(** modular powers that compute *)
Fixpoint powmod_pos (g p : Z) (k : positive) : Z :=
  match k with
  | xH => g mod p
  | xO k' => let t := powmod_pos g p k' in (t * t) mod p
  | xI k' => let t := powmod_pos g p k' in (g * (t * t)) mod p
  end.
Lemma powmod_pos_spec g p k : p <> 0 -> powmod_pos g p k = (g ^ Z.pos k) mod p.
Proof.
  intros Hp. induction k as [k IH|k IH|]; cbn [powmod_pos].
  - rewrite IH. replace (Z.pos k~1) with (1 + (Z.pos k + Z.pos k)) by lia.
    rewrite !Z.pow_add_r by lia. rewrite Z.pow_1_r.
    rewrite <- Z.mul_mod_idemp_r by exact Hp. rewrite <- Z.mul_mod by exact Hp.
    rewrite Z.mul_mod_idemp_r by exact Hp. reflexivity.
  - rewrite IH. replace (Z.pos k~0) with (Z.pos k + Z.pos k) by lia. rewrite Z.pow_add_r by lia.
    rewrite <- Z.mul_mod by exact Hp. reflexivity.
  - rewrite Z.pow_1_r. reflexivity.
Qed.

Lemma pow_mod_mul g p a b : 1 < p -> 0 <= a -> 0 <= b -> (g ^ a) mod p = 1 -> (g ^ (a * b)) mod p = 1.
Proof.
  intros Hp Ha Hb H. rewrite Z.pow_mul_r by lia.
  rewrite <- (Z2Nat.id b) by lia. generalize (Z.to_nat b) as n.
  induction n as [|n IH].
  - rewrite Z.pow_0_r. apply Z.mod_1_l. exact Hp.
  - rewrite Nat2Z.inj_succ, Z.pow_succ_r by lia. rewrite Z.mul_mod, H, IH by lia. 
    rewrite Z.mul_1_l. apply Z.mod_1_l. exact Hp.
Qed.

Lemma pow_mod_rem g p a b : 1 < p -> 0 <= a -> 0 < b ->
  (g ^ a) mod p = 1 -> (g ^ b) mod p = 1 -> (g ^ (a mod b)) mod p = 1.
Proof.
  intros Hp Ha Hb H1 H2. pose proof (Z.mod_pos_bound a b Hb). pose proof (Z.div_pos a b Ha Hb).
  rewrite (Z.div_mod a b) in H1 by lia. rewrite Z.pow_add_r in H1 by nia.
  rewrite Z.mul_mod, (pow_mod_mul g p b (a / b)) in H1 by (auto; lia).
  rewrite Z.mul_1_l, Z.mod_mod in H1 by lia. exact H1.
Qed.

Lemma pow_mod_gcd g p : 1 < p -> forall n a b, 0 <= a -> 0 <= b < Z.of_nat n ->
  (g ^ a) mod p = 1 -> (g ^ b) mod p = 1 -> (g ^ Z.gcd a b) mod p = 1.
Proof.
  intros Hp. induction n as [|n IH]; intros a b Ha Hb H1 H2; [lia|].
  destruct (Z.eq_dec b 0) as [->|Hb0].
  - rewrite Z.gcd_0_r, Z.abs_eq by lia. exact H1.
  - rewrite (Z.gcd_comm a b), <- (Z.gcd_mod a b Hb0), Z.gcd_comm.
    pose proof (Z.mod_pos_bound a b ltac:(lia)).
    apply (IH b (a mod b)); [clear - Hb; lia|clear - H Hb Hb0; lia|exact H2|]. apply pow_mod_rem; [exact Hp|exact Ha|clear - Hb Hb0; lia|exact H1|exact H2].
Qed.

Lemma pow_mod_gcd' g p a b : 1 < p -> 0 <= a -> 0 <= b ->
  (g ^ a) mod p = 1 -> (g ^ b) mod p = 1 -> (g ^ Z.gcd a b) mod p = 1.
Proof.
  intros Hp Ha Hb H1 H2. apply (pow_mod_gcd g p Hp (Z.to_nat (b + 1)) a b Ha); [|exact H1|exact H2].
  clear H1 H2. rewrite Z2Nat.id by lia. lia.
Qed.

Lemma order_16807 : order_is 16807 P31 (P31 - 1).
Proof.
  intros k Hk. split.
  2:{ intros [c ->]. rewrite Z.mul_comm. apply pow_mod_mul; [unfold P31; lia|unfold P31; lia| |].
      - unfold P31 in Hk. lia.
      - change (P31 - 1) with (Z.pos 2147483646). rewrite <- powmod_pos_spec by discriminate.
        vm_compute. reflexivity. }
  intros H.
  assert (G : (16807 ^ Z.gcd k (P31 - 1)) mod P31 = 1).
  { apply pow_mod_gcd'; [unfold P31; lia|exact Hk|unfold P31; lia|exact H|].
    change (P31 - 1) with (Z.pos 2147483646). rewrite <- powmod_pos_spec by discriminate.
    vm_compute. reflexivity. }
  set (g := Z.gcd k (P31 - 1)) in *.
  pose proof (Z.gcd_nonneg k (P31 - 1)) as Gp. fold g in Gp.
  pose proof (Z.gcd_divide_r k (P31 - 1)) as [m Hm]. fold g in Hm.
  pose proof (Z.gcd_divide_l k (P31 - 1)) as Dk. fold g in Dk.
  assert (Hm0 : 0 < m) by (unfold P31 in Hm; nia).
  assert (K : forall q, prime q -> (q | P31 - 1) -> (16807 ^ ((P31 - 1) / q)) mod P31 <> 1 -> rel_prime m q).
  { intros q Pq Dq Nq. apply rel_prime_sym. apply prime_rel_prime; auto. intros [c Hc].
    apply Nq. assert (H0 : q > 1) by (destruct Pq; lia).
    replace ((P31 - 1) / q) with (g * c).
    - apply pow_mod_mul; [unfold P31; lia|exact Gp| |exact G]. clear - Hc Hm0 H0. nia.
    - rewrite Hm, Hc. rewrite <- Z.mul_assoc, (Z.mul_comm q g), Z.mul_assoc, Z.div_mul by lia. lia. }
  assert (Pr : forall q n, 1 < q -> no_div n 2 q = true -> q < (Z.of_nat n + 2) * (Z.of_nat n + 2) ->
     (P31 - 1) mod q = 0 ->
     match (P31 - 1) / q with Z.pos e => powmod_pos 16807 P31 e =? 1 | _ => true end = false -> rel_prime m q).
  { intros q n Hq Hn Hs Hd Hc. apply K.
    - apply (prime_by_trial q n); auto.
    - apply Z.mod_divide; auto. lia.
    - destruct ((P31 - 1) / q) as [|e|e]; try discriminate.
      rewrite powmod_pos_spec in Hc by discriminate. lia. }
  assert (R2 : rel_prime m 2) by (apply (Pr 2 0%nat); try reflexivity; lia).
  assert (R3 : rel_prime m 3) by (apply (Pr 3 1%nat); try reflexivity; lia).
  assert (R7 : rel_prime m 7) by (apply (Pr 7 5%nat); try reflexivity; lia).
  assert (R11 : rel_prime m 11) by (apply (Pr 11 5%nat); try reflexivity; lia).
  assert (R31 : rel_prime m 31) by (apply (Pr 31 10%nat); try reflexivity; lia).
  assert (R151 : rel_prime m 151) by (apply (Pr 151 20%nat); try reflexivity; lia).
  assert (R331 : rel_prime m 331) by (apply (Pr 331 20%nat); try reflexivity; lia).
  assert (R : rel_prime m (P31 - 1)).
  { change (P31 - 1) with (2 * (3 * (3 * (7 * (11 * (31 * (151 * 331))))))).
    repeat (apply rel_prime_mult; auto). }
  assert (M1 : m = 1).
  { destruct R as [_ _ R]. assert (D : (m | 1)).
    { apply R; [apply Z.divide_refl|exists g; lia]. }
    apply Z.divide_1_r_nonneg; [lia|exact D]. }
  rewrite M1, Z.mul_1_l in Hm. rewrite Hm. exact Dk.
Qed.

Lemma rft_iter_spec n x : 0 < x < P31 -> rft_iter n x = Ok ((16807 ^ Z.of_nat n * x) mod P31).
Proof.
  assert (HP : P31 <> 0) by (unfold P31; lia).
  revert x. induction n as [|n IH]; intros x Hx.
  - change (Z.of_nat 0) with 0. rewrite Z.pow_0_r, Z.mul_1_l, Z.mod_small by lia. reflexivity.
  - cbn [rft_iter]. rewrite rft_next_spec by (unfold P31 in Hx; lia).
    assert (N0 : (16807 * x) mod P31 <> 0).
    { intros E. apply Z.mod_divide in E; auto. apply prime_mult in E; [|exact prime_P31].
      destruct E as [E|E]; apply Z.divide_pos_le in E; unfold P31 in *; lia. }
    replace ((16807 * x) mod P31 =? 0) with false by lia. cbn [bind].
    pose proof (Z.mod_pos_bound (16807 * x) P31 ltac:(unfold P31; lia)).
    rewrite IH by lia. f_equal. rewrite Z.mul_mod_idemp_r by exact HP.
    rewrite Nat2Z.inj_succ, Z.pow_succ_r by lia. f_equal. lia.
Qed.

Lemma rft_period n x : 0 < x < P31 -> rft_iter n x = Ok x <-> (P31 - 1 | Z.of_nat n).
Proof.
  intros Hx. rewrite rft_iter_spec by exact Hx. rewrite <- (order_16807 (Z.of_nat n) ltac:(lia)).
  assert (HP : P31 <> 0) by (unfold P31; lia). split; intros H.
  - assert (E : (16807 ^ Z.of_nat n * x) mod P31 = x) by congruence.
    assert (D : (P31 | (16807 ^ Z.of_nat n - 1) * x)).
    { exists ((16807 ^ Z.of_nat n * x) / P31). pose proof (Z.div_mod (16807 ^ Z.of_nat n * x) P31 HP). lia. }
    apply prime_mult in D; [|exact prime_P31]. destruct D as [[c D]|D].
    + replace (16807 ^ Z.of_nat n) with (1 + c * P31) by lia. rewrite Z.mod_add by exact HP. reflexivity.
    + apply Z.divide_pos_le in D; unfold P31 in *; lia.
  - f_equal. rewrite <- Z.mul_mod_idemp_l, H by exact HP. rewrite Z.mul_1_l. apply Z.mod_small. lia.
Qed.
