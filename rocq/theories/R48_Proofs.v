From Coq Require Import ZArith Znumtheory Reals Lra Lia.
From Verif Require Import Prelude R48_Model R48_Spec.
Import List.
Open Scope Z_scope.

Definition A48 : Z := 25214903917.
Fixpoint raw (x0 : Z) (k : nat) : Z := match k with O => x0 | S k => A48 * raw x0 k + 11 end.
Fixpoint geo (k : nat) : Z := match k with O => 0 | S k => A48 * geo k + 1 end.
Definition powA (k : nat) : Z := A48 ^ Z.of_nat k.
Lemma powA_S k : powA (S k) = A48 * powA k.
Proof. unfold powA. rewrite Nat2Z.inj_succ, Z.pow_succ_r by lia. reflexivity. Qed.
Lemma m48 : 2 ^ 48 = 281474976710656. Proof. reflexivity. Qed.

Lemma lcg_raw x0 k : lcg x0 (S k) = raw x0 (S k) mod 2 ^ 48.
Proof.
  induction k as [|k IH]; [reflexivity|]. change (lcg x0 (S (S k))) with ((A48 * lcg x0 (S k) + 11) mod 2 ^ 48). rewrite IH.
  change (raw x0 (S (S k))) with (A48 * raw x0 (S k) + 11). rewrite (Z.add_mod (A48 * (raw x0 (S k) mod 2 ^ 48))), Z.mul_mod_idemp_r, <- Z.add_mod by discriminate. reflexivity.
Qed.
Lemma lcg_raw' x0 k : lcg x0 k mod 2 ^ 48 = raw x0 k mod 2 ^ 48.
Proof. destruct k; [reflexivity|]. rewrite lcg_raw, Z.mod_mod by discriminate. reflexivity. Qed.
Lemma lcg_range x0 k : (0 < k)%nat -> 0 <= lcg x0 k < 2 ^ 48.
Proof. destruct k; [lia|]. intros _. rewrite lcg_raw. apply Z.mod_pos_bound. reflexivity. Qed.
Lemma raw_geo x0 n : raw x0 n = x0 + geo n * ((A48 - 1) * x0 + 11).
Proof. induction n as [|n IH]; cbn [raw geo]; [ring|]. rewrite IH. ring. Qed.
Lemma raw_add x0 n m : raw x0 (n + m) = raw (raw x0 n) m.
Proof. induction m as [|m IH]; [rewrite Nat.add_0_r; reflexivity|]. rewrite Nat.add_succ_r. cbn [raw]. rewrite IH. reflexivity. Qed.
Lemma geo_add n m : geo (n + m) = geo n + powA n * geo m.
Proof. induction n as [|n IH]; [cbn [Nat.add geo powA]; unfold powA; cbn [Z.of_nat]; rewrite Z.pow_0_r; ring|]. cbn [Nat.add geo]. rewrite IH, powA_S. ring. Qed.
Lemma powA_4 n : exists t, powA n = 4 * t + 1.
Proof. induction n as [|n (t & IH)]; [exists 0; reflexivity|]. rewrite powA_S, IH. exists (A48 * t + 6303725979). unfold A48. ring. Qed.
Lemma geo_2 m : exists t, geo (2 * m) = 2 * (2 * t + 1) * geo m.
Proof. destruct (powA_4 m) as (t & Ht). exists t. replace (2 * m)%nat with (m + m)%nat by lia. rewrite geo_add, Ht. ring. Qed.
Lemma geo_odd n : Z.odd (geo n) = Nat.odd n.
Proof.
  induction n as [|n IH]; [reflexivity|]. rewrite Nat.odd_succ, <- Nat.negb_odd, <- IH. cbn [geo].
  rewrite Z.odd_add, Z.odd_mul. change (Z.odd A48) with true. cbn [andb]. change (Z.odd 1) with true. destruct (Z.odd (geo n)); reflexivity.
Qed.
Lemma gauss k t x : (2 ^ Z.of_nat k | (2 * t + 1) * x) -> (2 ^ Z.of_nat k | x).
Proof.
  intros H. apply Gauss with (2 * t + 1); [exact H|]. apply rel_prime_sym. clear H x.
  induction k as [|k IH]; [change (2 ^ Z.of_nat 0) with 1; apply rel_prime_sym, rel_prime_1|].
  rewrite Nat2Z.inj_succ, Z.pow_succ_r by lia. apply rel_prime_mult; [|exact IH].
  apply bezout_rel_prime. apply Bezout_intro with 1 (- t). ring.
Qed.
Lemma geo_div k : forall n, (2 ^ Z.of_nat k | geo n) -> (2 ^ Z.of_nat k | Z.of_nat n).
Proof.
  induction k as [|k IH]; intros n H; [rewrite Z.pow_0_r; apply Z.divide_1_l|].
  assert (E : Nat.even n = true).
  { rewrite <- Nat.negb_odd, <- geo_odd. apply negb_true_iff. destruct H as (z & ->). rewrite Nat2Z.inj_succ, Z.pow_succ_r, !Z.odd_mul by lia. cbn. apply andb_false_r. }
  apply Nat.even_spec in E. destruct E as (m & ->). destruct (geo_2 m) as (t & Ht). rewrite Ht in H.
  rewrite Nat2Z.inj_succ, Z.pow_succ_r in * by lia. rewrite Nat2Z.inj_mul. change (Z.of_nat 2) with 2.
  apply Z.mul_divide_mono_l. apply IH. apply (gauss k t). rewrite <- Z.mul_assoc in H. apply Z.mul_divide_cancel_l in H; [exact H|lia].
Qed.
Lemma geo_pow k : exists t, geo (2 ^ k) = 2 ^ Z.of_nat k * (2 * t + 1).
Proof.
  induction k as [|k (t & IH)]; [exists 0; reflexivity|]. rewrite Nat.pow_succ_r'. destruct (geo_2 (2 ^ k)) as (u & ->). rewrite IH.
  exists (2 * t * u + t + u). rewrite Nat2Z.inj_succ, Z.pow_succ_r by lia. ring.
Qed.
Lemma geo_mult k n : (2 ^ Z.of_nat k | Z.of_nat n) -> (2 ^ Z.of_nat k | geo n).
Proof.
  intros (z & Hz). assert (Hp : 0 < 2 ^ Z.of_nat k) by (apply Z.pow_pos_nonneg; lia).
  assert (0 <= z) by (clear -Hz Hp; nia). assert (E : n = (Z.to_nat z * 2 ^ k)%nat).
  { apply Nat2Z.inj. rewrite Nat2Z.inj_mul, Z2Nat.id, Nat2Z.inj_pow by lia. exact Hz. }
  subst n. clear. induction (Z.to_nat z) as [|m IH]; [apply Z.divide_0_r|]. cbn [Nat.mul]. rewrite geo_add. apply Z.divide_add_r.
  - destruct (geo_pow k) as (t & ->). apply Z.divide_factor_l.
  - apply Z.divide_mul_r. exact IH.
Qed.
Lemma odd_mul x0 : exists t, (A48 - 1) * x0 + 11 = 2 * t + 1.
Proof. exists (12607451958 * x0 + 5). unfold A48. ring. Qed.


Lemma mod_div a b m : 0 < m -> a mod m = b mod m <-> (m | a - b).
Proof.
  intros Hm. split; intros H.
  - apply Z.mod_divide; [lia|]. rewrite Zminus_mod, H, Z.sub_diag. apply Z.mod_0_l. lia.
  - destruct H as (z & Hz). replace a with (b + z * m) by lia. apply Z.mod_add. lia.
Qed.
Lemma lcg_mod x0 i n : lcg x0 (i + n) mod 2 ^ 48 = lcg x0 i mod 2 ^ 48 <-> (2 ^ 48 | Z.of_nat n).
Proof.
  rewrite !lcg_raw', raw_add, (raw_geo (raw x0 i) n), mod_div by reflexivity. set (r := raw x0 i). destruct (odd_mul r) as (t & ->).
  replace (r + geo n * (2 * t + 1) - r) with ((2 * t + 1) * geo n) by ring.
  change 48 with (Z.of_nat 48). split; intros H; [apply geo_div, (gauss 48 t); exact H|apply Z.divide_mul_r, geo_mult; exact H].
Qed.
Lemma lcg_equal x0 i j : (0 < i)%nat -> (0 < j)%nat -> lcg x0 i = lcg x0 j <-> (2 ^ 48 | Z.of_nat i - Z.of_nat j).
Proof.
  intros Hi Hj. assert (M : forall k, (0 < k)%nat -> lcg x0 k mod 2 ^ 48 = lcg x0 k) by (intros; apply Z.mod_small, lcg_range; auto).
  assert (W : forall a n, (0 < a)%nat -> lcg x0 (a + n) = lcg x0 a <-> (2 ^ 48 | Z.of_nat n)).
  { intros a n Ha. rewrite <- lcg_mod with (x0 := x0) (i := a), !M by lia. reflexivity. }
  destruct (Nat.le_ge_cases j i) as [H|H].
  - replace (Z.of_nat i - Z.of_nat j) with (Z.of_nat (i - j)) by lia. rewrite <- (W j) by auto. replace (j + (i - j))%nat with i by lia. reflexivity.
  - replace (Z.of_nat i - Z.of_nat j) with (- Z.of_nat (j - i)) by lia. rewrite Z.divide_opp_r, <- (W i) by auto. replace (i + (j - i))%nat with j by lia. split; congruence.
Qed.
Lemma lcg_all x0 y k : exists n, (2 ^ Z.of_nat k | raw x0 (S n) - y).
Proof.
  induction k as [|k (n & z & Hz)]; [exists 0%nat; apply Z.divide_1_l|].
  destruct (Z.Even_or_Odd z) as [(t & Ht)|(t & Ht)].
  - exists n. exists t. rewrite Nat2Z.inj_succ, Z.pow_succ_r by lia. rewrite Hz, Ht. ring.
  - exists (n + 2 ^ k)%nat. change (S (n + 2 ^ k)) with (S n + 2 ^ k)%nat. rewrite raw_add, raw_geo.
    set (r := raw x0 (S n)) in *. destruct (odd_mul r) as (u & ->). destruct (geo_pow k) as (v & ->).
    exists (t + 2 * u * v + u + v + 1). rewrite Nat2Z.inj_succ, Z.pow_succ_r by lia.
    replace (r + 2 ^ Z.of_nat k * (2 * v + 1) * (2 * u + 1) - y) with (r - y + 2 ^ Z.of_nat k * (2 * v + 1) * (2 * u + 1)) by ring. rewrite Hz, Ht. ring.
Qed.

Lemma draw_lcg n : forall x, fst (draw n x) = map (fun i => lcg x (S i)) (seq 0 n) /\ snd (draw n x) = lcg x n.
Proof.
  assert (Sh : forall x k, lcg (next48 x) k = lcg x (S k)).
  { intros x k. induction k as [|k IH]; [reflexivity|]. cbn [lcg]. rewrite IH. reflexivity. }
  induction n as [|n IH]; intros x; [auto|]. cbn [draw]. specialize (IH (next48 x)). destruct (draw n (next48 x)) as [l y]. cbn [fst snd] in *. destruct IH as [-> ->].
  split; [|apply Sh]. cbn [seq map]. f_equal. rewrite <- seq_shift, map_map. apply map_ext. intros i. apply Sh.
Qed.

Lemma round53_near y u : 0 <= y -> u = 2 ^ Z.max 0 (Z.log2 y - 52) -> y - u <= round53 y <= y + u.
Proof.
  intros Hy ->. unfold round53. set (u := 2 ^ Z.max 0 (Z.log2 y - 52)). assert (Hu : 0 < u) by (apply Z.pow_pos_nonneg; lia).
  pose proof (Z.div_mod y u ltac:(lia)) as D. pose proof (Z.mod_pos_bound y u Hu) as M.
  assert (Q1 : (y / u + 1) * u = u * (y / u) + u) by ring. assert (Q0 : y / u * u = u * (y / u)) by ring.
  destruct (2 * (y mod u) <? u); [lia|]. destruct (u <? 2 * (y mod u)); [lia|]. destruct (Z.even (y / u)); lia.
Qed.
Lemma to_seed_range x : 0 <= x < 2 ^ 48 -> 0 <= to_seed x < 10000.
Proof.
  intros H. unfold to_seed. rewrite m48 in *. assert (Hl : Z.log2 (10000 * x) <= 61).
  { destruct (Z.eq_dec x 0) as [->|]; [cbn; lia|]. assert (Z.log2 (10000 * x) < 62); [|lia]. apply Z.log2_lt_pow2; [lia|]. change (2 ^ 62) with 4611686018427387904. lia. }
  pose proof (round53_near (10000 * x) _ ltac:(lia) eq_refl) as N.
  assert (Hu : 2 ^ Z.max 0 (Z.log2 (10000 * x) - 52) <= 512) by (change 512 with (2 ^ 9); apply Z.pow_le_mono_r; lia).
  split.
  - apply Z.div_pos; [|lia]. unfold round53. set (u := 2 ^ Z.max 0 (Z.log2 (10000 * x) - 52)) in *.
    assert (0 < u) by (apply Z.pow_pos_nonneg; lia). assert (0 <= 10000 * x / u) by (apply Z.div_pos; lia).
    assert (0 <= 10000 * x / u * u) by (apply Z.mul_nonneg_nonneg; lia). assert (0 <= (10000 * x / u + 1) * u) by (apply Z.mul_nonneg_nonneg; lia).
    destruct (_ <? _); [lia|]. destruct (_ <? _); [lia|]. destruct (Z.even _); lia.
  - apply Z.div_lt_upper_bound; lia.
Qed.

Lemma to_seed_near x : 0 <= x < 2 ^ 48 -> to_seed x * 2 ^ 48 - 512 <= 10000 * x < (to_seed x + 1) * 2 ^ 48 + 512.
Proof.
  intros H. unfold to_seed. assert (Hl : Z.log2 (10000 * x) <= 61).
  { destruct (Z.eq_dec x 0) as [->|]; [cbn; lia|]. assert (Z.log2 (10000 * x) < 62); [|lia]. rewrite m48 in H. apply Z.log2_lt_pow2; [lia|]. change (2 ^ 62) with 4611686018427387904. lia. }
  pose proof (round53_near (10000 * x) _ ltac:(lia) eq_refl) as N.
  assert (Hu : 2 ^ Z.max 0 (Z.log2 (10000 * x) - 52) <= 512) by (change 512 with (2 ^ 9); apply Z.pow_le_mono_r; lia).
  pose proof (Z.div_mod (round53 (10000 * x)) (2 ^ 48) ltac:(discriminate)) as D. pose proof (Z.mod_pos_bound (round53 (10000 * x)) (2 ^ 48) eq_refl) as M. rewrite m48 in *. lia.
Qed.
Lemma rng_new_eq seed rank nprocs : (rank < nprocs)%nat ->
  rng_new seed rank nprocs = Ok (to_seed (lcg (srand48 seed) (S rank)), srand48 (to_seed (lcg (srand48 seed) (S rank)))).
Proof.
  intros H. unfold rng_new. pose proof (draw_lcg nprocs (srand48 seed)) as [D _]. destruct (draw nprocs (srand48 seed)) as [l x]. cbn [fst] in D. subst l.
  rewrite (@vget_ok _ _ rank 0) by (rewrite !map_length, seq_length; exact H). cbn [bind].
  rewrite map_map. set (g := fun i => to_seed (lcg (srand48 seed) (S i))).
  rewrite nth_indep with (d' := g 0%nat) by (rewrite map_length, seq_length; exact H). rewrite map_nth, seq_nth by exact H. reflexivity.
Qed.

Lemma dup_or (l : list Z) : NoDup l \/ exists a l1 l2 l3, l = l1 ++ a :: l2 ++ a :: l3.
Proof.
  induction l as [|a l IH]; [left; constructor|]. destruct (in_dec Z.eq_dec a l) as [H|H].
  - right. apply in_split in H. destruct H as (l2 & l3 & ->). exists a, [], l2, l3. reflexivity.
  - destruct IH as [IH|(b & l1 & l2 & l3 & ->)]; [left; constructor; auto|]. right. exists b, (a :: l1), l2, l3. reflexivity.
Qed.
Lemma pigeon (f : nat -> Z) n : 10000 < Z.of_nat n -> (forall i, (i < n)%nat -> 0 <= f i < 10000) -> exists i j, (i < j < n)%nat /\ f i = f j.
Proof.
  intros Hn H. assert (N : ~ NoDup (map f (seq 0 n))).
  { intros N. pose proof (NoDup_incl_length N (l' := map Z.of_nat (seq 0 (Z.to_nat 10000)))) as L. rewrite !map_length, !seq_length in L.
    assert (n <= Z.to_nat 10000)%nat; [|lia]. apply L. intros z Hz. apply in_map_iff in Hz. destruct Hz as (i & <- & Hi). apply in_seq in Hi. specialize (H i ltac:(lia)).
    apply in_map_iff. exists (Z.to_nat (f i)). split; [lia|]. apply in_seq. lia. }
  destruct (dup_or (map f (seq 0 n))) as [|(a & l1 & l2 & l3 & E)]; [contradiction|].
  assert (Len : length (map f (seq 0 n)) = (length l1 + S (length l2 + S (length l3)))%nat) by (rewrite E, !app_length; cbn [length]; rewrite !app_length; reflexivity).
  rewrite map_length, seq_length in Len. exists (length l1), (length l1 + S (length l2))%nat. split; [lia|].
  assert (G : forall i, (i < n)%nat -> nth i (map f (seq 0 n)) (f 0%nat) = f i) by (intros i Hi; rewrite map_nth, seq_nth by exact Hi; reflexivity).
  transitivity a; [|symmetry].
  - rewrite <- (G (length l1)) by lia. rewrite E, app_nth2 by lia. rewrite Nat.sub_diag. reflexivity.
  - rewrite <- (G (length l1 + S (length l2))%nat) by lia. rewrite E, app_nth2 by lia. replace (length l1 + S (length l2) - length l1)%nat with (S (length l2)) by lia. cbn [nth].
    rewrite app_nth2 by lia. rewrite Nat.sub_diag. reflexivity.
Qed.

(** The first number after a seed is not one half: its last 16 bits are those of 0x330E times the multiplier plus 11 *)
Lemma first_not_half s : lcg (srand48 s) 1 <> 2 ^ 47.
Proof.
  intros H. rewrite lcg_raw in H. cbn [raw] in H. assert (E : (A48 * srand48 s + 11) mod 65536 = 20737).
  { unfold srand48. replace (A48 * (s mod 2 ^ 32 * 65536 + 13070) + 11) with ((A48 * 13070 + 11) + (A48 * (s mod 2 ^ 32)) * 65536) by ring. rewrite Z.mod_add by discriminate. reflexivity. }
  assert (E2 : ((A48 * srand48 s + 11) mod 2 ^ 48) mod 65536 = (A48 * srand48 s + 11) mod 65536).
  { symmetry. change (2 ^ 48) with (65536 * 2 ^ 32). rewrite Z.rem_mul_r by (discriminate || reflexivity). rewrite (Z.mul_comm 65536 (_ mod _)), Z.mod_add, Z.mod_mod by discriminate. reflexivity. }
  rewrite E, H in E2. discriminate E2.
Qed.

Local Open Scope R_scope.
Lemma fold_norm v : forall s, fold_left (fun s y => s + y * y) v s = s + norm2 v.
Proof. induction v as [|y v IH]; intros s; cbn [fold_left norm2 fold_right]; [lra|]. rewrite IH. fold (norm2 v). lra. Qed.
Lemma norm2_scale v t : norm2 (map (fun y => y * t) v) = norm2 v * (t * t).
Proof. induction v as [|y v IH]; cbn [map norm2 fold_right]; [lra|]. fold (norm2 (map (fun y => y * t) v)) (norm2 v). rewrite IH. ring. Qed.
Lemma norm2_pos v : 0 <= norm2 v.
Proof. induction v as [|y v IH]; cbn [norm2 fold_right]; [lra|]. fold (norm2 v). pose proof (Rle_0_sqr y) as Q. unfold Rsqr in Q. lra. Qed.
