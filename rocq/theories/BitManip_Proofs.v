From Verif Require Import Prelude BitManip_Model BitManip_Spec.
Local Open Scope N_scope.

(** Fields of width [w]: little-endian value of a list of fields. *)
Fixpoint val (w : N) (l : list N) : N :=
  match l with
  | [] => 0
  | a :: l' => a + 2 ^ w * val w l'
  end.

Lemma testbit_field (w a x i : N) : a < 2 ^ w ->
  N.testbit (a + 2 ^ w * x) i = if i <? w then N.testbit a i else N.testbit x (i - w).
Proof.
  intros Ha. destruct (N.ltb_spec i w) as [H|H].
  - rewrite <- (N.mod_pow2_bits_low (a + 2 ^ w * x) w i H).
    rewrite (N.mul_comm (2 ^ w) x). rewrite N.mod_add by (apply N.pow_nonzero; lia).
    rewrite N.mod_small by assumption. reflexivity.
  - replace i with ((i - w) + w) at 1 by lia.
    rewrite <- N.div_pow2_bits. rewrite (N.mul_comm (2 ^ w) x).
    rewrite N.div_add by (apply N.pow_nonzero; lia).
    rewrite (N.div_small a) by assumption. rewrite N.add_0_l. reflexivity.
Qed.

Lemma land_lt (a b w : N) : a < 2 ^ w -> N.land a b < 2 ^ w.
Proof.
  intros H. destruct (N.eq_dec (N.land a b) 0) as [->|Hn].
  - apply N.neq_0_lt_0. apply N.pow_nonzero. lia.
  - apply N.log2_lt_pow2; [lia|].
    eapply N.le_lt_trans; [apply N.log2_land|].
    destruct (N.eq_dec a 0) as [->|Ha0]; [now rewrite N.land_0_l in Hn|].
    apply N.log2_lt_pow2 in H; [|lia]. lia.
Qed.

Lemma land_fields (w a b x y : N) : a < 2 ^ w -> b < 2 ^ w ->
  N.land (a + 2 ^ w * x) (b + 2 ^ w * y) = N.land a b + 2 ^ w * N.land x y.
Proof.
  intros Ha Hb. apply N.bits_inj. intros i.
  rewrite N.land_spec, !testbit_field by (try assumption; apply land_lt; assumption).
  destruct (i <? w); rewrite N.land_spec; reflexivity.
Qed.

Lemma shiftr_fields (w a x : N) : a < 2 ^ w -> N.shiftr (a + 2 ^ w * x) w = x.
Proof.
  intros Ha. rewrite N.shiftr_div_pow2, (N.mul_comm (2 ^ w) x), N.div_add by (apply N.pow_nonzero; lia).
  rewrite N.div_small by assumption. lia.
Qed.

(** Alternating mask with [n] pairs of fields: all ones, all zeros, ... *)
Fixpoint altmask (w : N) (n : nat) : N :=
  match n with
  | O => 0
  | S n' => N.ones w + 2 ^ (2 * w) * altmask w n'
  end.

Fixpoint pairsums (l : list N) : list N :=
  match l with
  | a :: b :: l' => (a + b) :: pairsums l'
  | _ => []
  end.

Lemma list_pair_ind (A : Type) (P : list A -> Prop) :
  P [] -> (forall a, P [a]) -> (forall a b l, P l -> P (a :: b :: l)) -> forall l, P l.
Proof.
  intros H0 H1 H2.
  assert (G : forall l, P l /\ forall a, P (a :: l)).
  { induction l as [|b l [IH1 IH2]]; split; auto. }
  intros l. apply G.
Qed.

Lemma val_lt w l : Forall (fun a => a < 2 ^ w) l -> val w l < 2 ^ (w * N.of_nat (length l)).
Proof.
  induction 1 as [|a l Ha Hl IH]; cbn [val length].
  - rewrite N.mul_0_r. reflexivity.
  - rewrite Nat2N.inj_succ, N.mul_succ_r, N.pow_add_r.
    rewrite (N.mul_comm (2 ^ (w * _))). nia.
Qed.

Lemma swar_pairs w n l :
  0 < w -> length l = (2 * n)%nat -> Forall (fun a => a < 2 ^ w) l ->
  N.land (altmask w n) (val w l) + N.land (altmask w n) (N.shiftr (val w l) w)
  = val (2 * w) (pairsums l).
Proof.
  intros Hw. revert l. induction n as [|n IH]; intros l Hl HF.
  - destruct l; [reflexivity|simpl in Hl; lia].
  - destruct l as [|a [|b l]]; [simpl in Hl; lia..|].
    inversion HF as [|? ? Ha HF1]; subst. inversion HF1 as [|? ? Hb HF2]; subst.
    cbn [val pairsums altmask].
    assert (P0 : 2 ^ (2 * w) = 2 ^ w * 2 ^ w) by (rewrite <- N.pow_add_r; f_equal; lia).
    assert (Pw : 1 < 2 ^ w).
    { change 1 with (2 ^ 0). apply N.pow_lt_mono_r; lia. }
    assert (Ho : N.ones w < 2 ^ w).
    { rewrite N.ones_equiv. lia. }
    specialize (IH l). simpl in Hl. specialize (IH ltac:(lia) HF2).
    rewrite shiftr_fields by assumption.
    (* first land *)
    assert (E1 : N.land (N.ones w + 2 ^ (2 * w) * altmask w n) (a + 2 ^ w * (b + 2 ^ w * val w l))
             = a + 2 ^ (2 * w) * N.land (altmask w n) (val w l)).
    { replace (N.ones w + 2 ^ (2 * w) * altmask w n)
        with (N.ones w + 2 ^ w * (0 + 2 ^ w * altmask w n)) by (rewrite P0; ring).
      rewrite land_fields by assumption.
      rewrite land_fields by (try assumption; lia).
      rewrite N.land_0_l, N.add_0_l. rewrite N.land_comm, N.land_ones.
      rewrite N.mod_small by assumption. rewrite P0. ring. }
    assert (E2 : N.land (N.ones w + 2 ^ (2 * w) * altmask w n) (b + 2 ^ w * val w l)
             = b + 2 ^ (2 * w) * N.land (altmask w n) (N.shiftr (val w l) w)).
    { replace (N.ones w + 2 ^ (2 * w) * altmask w n)
        with (N.ones w + 2 ^ w * (0 + 2 ^ w * altmask w n)) by (rewrite P0; ring).
      rewrite land_fields by assumption.
      assert (Ev : val w l = val w l mod 2 ^ w + 2 ^ w * N.shiftr (val w l) w).
      { rewrite N.shiftr_div_pow2. rewrite N.add_comm. apply N.div_mod. lia. }
      rewrite Ev at 1. rewrite land_fields by (try lia; apply N.mod_lt; lia).
      rewrite N.land_0_l, N.add_0_l. rewrite (N.land_comm _ b), N.land_ones.
      rewrite N.mod_small by assumption. rewrite P0. ring. }
    rewrite E1, E2, <- IH. ring.
Qed.

Lemma pairsums_length l n : length l = (2 * n)%nat -> length (pairsums l) = n.
Proof.
  revert n. induction l as [|a|a b l IH] using list_pair_ind; intros n H; simpl in *; try lia.
  rewrite (IH (n - 1)%nat); lia.
Qed.

Lemma pairsums_bound w l : 0 < w -> Forall (fun a => a < 2 ^ w) l ->
  Forall (fun a => a < 2 ^ (2 * w)) (pairsums l).
Proof.
  intros Hw. assert (P0 : 2 ^ (2 * w) = 2 ^ w * 2 ^ w) by (rewrite <- N.pow_add_r; f_equal; lia).
  assert (Pw : 1 < 2 ^ w). { change 1 with (2 ^ 0). apply N.pow_lt_mono_r; lia. }
  induction l as [|a|a b l IH] using list_pair_ind; intros HF; cbn [pairsums]; auto.
  inversion HF as [|? ? Ha HF1]; subst. inversion HF1 as [|? ? Hb HF2]; subst.
  constructor; auto. nia.
Qed.

Fixpoint suml (l : list N) : N := match l with [] => 0 | a :: l' => a + suml l' end.

Lemma pairsums_sum l n : length l = (2 * n)%nat -> suml (pairsums l) = suml l.
Proof.
  revert n. induction l as [|a|a b l IH] using list_pair_ind; intros n H; simpl in *; try lia.
  rewrite (IH (n - 1)%nat); lia.
Qed.

Lemma swar_step m w n l :
  0 < w -> w * N.of_nat (2 * n) = 64 -> m = altmask w n ->
  length l = (2 * n)%nat -> Forall (fun a => a < 2 ^ w) l ->
  swar m w (val w l) = val (2 * w) (pairsums l).
Proof.
  intros Hw H64 -> Hl HF. unfold swar. rewrite swar_pairs by assumption.
  apply N.mod_small. eapply N.lt_le_trans; [apply val_lt, pairsums_bound; assumption|].
  rewrite (pairsums_length l n) by assumption.
  apply N.pow_le_mono_r; lia.
Qed.

Definition bits (w : N) : list N :=
  map (fun i => N.b2n (N.testbit w (N.of_nat i))) (seq 0 64).

Lemma val_bits_gen w k n :
  val 1 (map (fun i => N.b2n (N.testbit w (N.of_nat i))) (seq k n)) =
  (w / 2 ^ N.of_nat k) mod 2 ^ N.of_nat n.
Proof.
  revert k; induction n as [|n IH]; intros k; cbn [seq map val].
  - rewrite N.mod_1_r. reflexivity.
  - rewrite IH. rewrite N.testbit_eqb.
    set (x := w / 2 ^ N.of_nat k).
    assert (E : w / 2 ^ N.of_nat (S k) = x / 2).
    { unfold x. rewrite Nat2N.inj_succ, N.pow_succ_r', N.mul_comm.
      rewrite N.div_div; [reflexivity|apply N.pow_nonzero; lia|lia]. }
    rewrite E. rewrite Nat2N.inj_succ, N.pow_succ_r'.
    rewrite N.mod_mul_r by (try apply N.pow_nonzero; lia).
    rewrite N.pow_1_r. f_equal.
    pose proof (N.mod_lt x 2 ltac:(lia)) as Hx.
    destruct (N.eqb_spec (x mod 2) 1) as [->|Hne]; cbn [N.b2n]; [reflexivity|].
    lia.
Qed.

Lemma val_bits w : w < 2 ^ 64 -> val 1 (bits w) = w.
Proof.
  intros H. unfold bits. rewrite val_bits_gen. rewrite N.pow_0_r, N.div_1_r.
  apply N.mod_small. exact H.
Qed.

Lemma suml_bits w : suml (bits w) = ones w.
Proof.
  unfold bits, ones. induction (seq 0 64) as [|i l IH]; cbn [map suml filter length]; [reflexivity|].
  rewrite IH. destruct (N.testbit w (N.of_nat i)); cbn [N.b2n length]; lia.
Qed.

Lemma bits_bound w : Forall (fun a => a < 2 ^ 1) (bits w).
Proof.
  unfold bits. apply Forall_map. apply Forall_forall. intros i _.
  destruct (N.testbit w (N.of_nat i)); simpl; lia.
Qed.

Lemma bits_length w : length (bits w) = 64%nat.
Proof. unfold bits. rewrite map_length, seq_length. reflexivity. Qed.

Lemma count_ones w : w < 2 ^ 64 -> count w = ones w.
Proof.
  intros Hw. unfold count. rewrite <- (val_bits w Hw) at 1.
  pose proof (bits_length w) as L0. pose proof (bits_bound w) as B0.
  rewrite <- suml_bits. generalize dependent (bits w). intros l L0 B0.
  assert (W1 : 0 < 1) by lia. assert (W2 : 0 < 2) by lia. assert (W4 : 0 < 4) by lia.
  assert (W8 : 0 < 8) by lia. assert (W16 : 0 < 16) by lia. assert (W32 : 0 < 32) by lia.
  rewrite (swar_step _ 1 32 l) by (try assumption; try reflexivity).
  pose proof (pairsums_length l 32 L0) as L1.
  pose proof (pairsums_bound 1 l W1 B0) as B1.
  rewrite <- (pairsums_sum l 32) by exact L0.
  set (l1 := pairsums l) in *. change (2 * 1) with 2 in *.
  rewrite (swar_step _ 2 16 l1) by (try assumption; try reflexivity).
  pose proof (pairsums_length l1 16 L1) as L2.
  pose proof (pairsums_bound 2 l1 W2 B1) as B2.
  rewrite <- (pairsums_sum l1 16) by exact L1.
  set (l2 := pairsums l1) in *. change (2 * 2) with 4 in *.
  rewrite (swar_step _ 4 8 l2) by (try assumption; try reflexivity).
  pose proof (pairsums_length l2 8 L2) as L3.
  pose proof (pairsums_bound 4 l2 W4 B2) as B3.
  rewrite <- (pairsums_sum l2 8) by exact L2.
  set (l3 := pairsums l2) in *. change (2 * 4) with 8 in *.
  rewrite (swar_step _ 8 4 l3) by (try assumption; try reflexivity).
  pose proof (pairsums_length l3 4 L3) as L4.
  pose proof (pairsums_bound 8 l3 W8 B3) as B4.
  rewrite <- (pairsums_sum l3 4) by exact L3.
  set (l4 := pairsums l3) in *. change (2 * 8) with 16 in *.
  rewrite (swar_step _ 16 2 l4) by (try assumption; try reflexivity).
  pose proof (pairsums_length l4 2 L4) as L5.
  pose proof (pairsums_bound 16 l4 W16 B4) as B5.
  rewrite <- (pairsums_sum l4 2) by exact L4.
  set (l5 := pairsums l4) in *. change (2 * 16) with 32 in *.
  rewrite (swar_step _ 32 1 l5) by (try assumption; try reflexivity).
  pose proof (pairsums_length l5 1 L5) as L6.
  rewrite <- (pairsums_sum l5 1) by exact L5.
  set (l6 := pairsums l5) in *.
  destruct l6 as [|a [|b l6]]; simpl in L6; try lia.
  cbn [val suml]. lia.
Qed.

(** Kernighan. *)

Fixpoint pcount (p : positive) : N :=
  match p with
  | xH => 1
  | xO p' => pcount p'
  | xI p' => 1 + pcount p'
  end.
Definition ncount (w : N) : N := match w with 0 => 0 | Npos p => pcount p end.

Lemma ncount_double x : ncount (2 * x) = ncount x.
Proof. destruct x; reflexivity. Qed.
Lemma ncount_succ_double x : ncount (2 * x + 1) = 1 + ncount x.
Proof. destruct x; reflexivity. Qed.

Lemma ncount_step v : v <> 0 -> ncount v = 1 + ncount (N.land v (v - 1)).
Proof.
  destruct v as [|p]; [congruence|]. intros _.
  induction p as [p IH|p IH|]; [| |reflexivity].
  - replace (Npos p~1 - 1) with (2 * Npos p) by lia.
    replace (Npos p~1) with (2 * Npos p + 1) by lia.
    rewrite ncount_succ_double.
    replace (N.land (2 * N.pos p + 1) (2 * N.pos p)) with (2 * N.pos p).
    + rewrite ncount_double. reflexivity.
    + apply N.bits_inj. intros i. rewrite N.land_spec.
      destruct (N.eq_dec i 0) as [->|Hi].
      * rewrite N.testbit_even_0, andb_false_r. reflexivity.
      * replace i with (N.succ (i - 1)) by lia.
        rewrite N.testbit_even_succ, N.testbit_odd_succ by lia.
        now rewrite andb_diag.
  - assert (E : N.land (N.pos p~0) (N.pos p~0 - 1) = 2 * N.land (N.pos p) (N.pos p - 1)).
    { replace (N.pos p~0 - 1) with (2 * (N.pos p - 1) + 1) by lia.
      replace (N.pos p~0) with (2 * N.pos p) by lia.
      apply N.bits_inj. intros i. rewrite N.land_spec.
      destruct (N.eq_dec i 0) as [->|Hi].
      * rewrite !N.testbit_even_0. reflexivity.
      * replace i with (N.succ (i - 1)) by lia.
        rewrite !N.testbit_even_succ, N.testbit_odd_succ by lia.
        now rewrite N.land_spec. }
    rewrite E, ncount_double. exact IH.
Qed.

Lemma countKernighan_loop_ok fuel v c :
  (N.to_nat (ncount v) < fuel)%nat -> countKernighan_loop fuel v c = Ok (c + ncount v).
Proof.
  revert v c. induction fuel as [|fuel IH]; intros v c H; [lia|]. cbn [countKernighan_loop].
  destruct (N.eqb_spec v 0) as [->|Hv].
  - simpl. f_equal. lia.
  - pose proof (ncount_step v Hv) as E. rewrite IH by lia. f_equal. lia.
Qed.

Lemma ncount_suml w k n :
  (w / 2 ^ N.of_nat k) < 2 ^ N.of_nat n ->
  suml (map (fun i => N.b2n (N.testbit w (N.of_nat i))) (seq k n)) =
  ncount (w / 2 ^ N.of_nat k).
Proof.
  revert k; induction n as [|n IH]; intros k Hlt; cbn [seq map suml].
  - change (2 ^ N.of_nat 0) with 1 in Hlt. apply N.lt_1_r in Hlt. rewrite Hlt. reflexivity.
  - assert (E : w / 2 ^ N.of_nat (S k) = (w / 2 ^ N.of_nat k) / 2).
    { rewrite Nat2N.inj_succ, N.pow_succ_r', N.mul_comm.
      rewrite N.div_div; [reflexivity|apply N.pow_nonzero; lia|lia]. }
    rewrite IH; rewrite E.
    + rewrite N.testbit_eqb. set (x := w / 2 ^ N.of_nat k).
      pose proof (N.div_mod x 2 ltac:(lia)) as Hdm.
      pose proof (N.mod_lt x 2 ltac:(lia)) as Hx.
      rewrite Hdm at 3.
      destruct (N.eqb_spec (x mod 2) 1) as [->|Hne]; cbn [N.b2n].
      * now rewrite ncount_succ_double.
      * replace (x mod 2) with 0 by lia. rewrite N.add_0_r, ncount_double. lia.
    + apply N.div_lt_upper_bound; [lia|]. rewrite <- N.pow_succ_r', <- Nat2N.inj_succ. exact Hlt.
Qed.

Lemma ncount_ones w : w < 2 ^ 64 -> ncount w = ones w.
Proof.
  intros H. rewrite <- suml_bits. unfold bits.
  pose proof (ncount_suml w 0 64) as E. rewrite N.pow_0_r, N.div_1_r in E.
  symmetry. apply E. exact H.
Qed.

Lemma ones_le w : ones w <= 64.
Proof.
  unfold ones.
  assert (G : forall (f : nat -> bool) l, (length (filter f l) <= length l)%nat).
  { intros f l. induction l as [|a l IH]; simpl; auto. destruct (f a); simpl; lia. }
  pose proof (G (fun i => N.testbit w (N.of_nat i)) (seq 0 64)) as H.
  rewrite seq_length in H. lia.
Qed.

Lemma countKernighan_ones w : w < 2 ^ 64 -> countKernighan w = Ok (ones w).
Proof.
  intros H. unfold countKernighan. rewrite countKernighan_loop_ok.
  - rewrite ncount_ones by assumption. reflexivity.
  - rewrite ncount_ones by assumption. pose proof (ones_le w). lia.
Qed.
