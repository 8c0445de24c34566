(** Theorems about Random48 and fillRandom (C110). *)
From Coq Require Import ZArith Reals Lra Lia.
From Verif Require Import Prelude R48_Model R48_Spec R48_Proofs.
Import List.
Open Scope Z_scope.

Definition start48 : prog := mkprog [] 0 [].

Lemma calls n : forall objs x dr, (0 < length objs)%nat ->
  use_run (repeat (Call 0) n) (mkprog objs x dr) = Ok (mkprog objs (lcg x n) (dr ++ map (fun k => (0%nat, lcg x (S k))) (seq 0 n))).
Proof.
  assert (Sh : forall x k, lcg (next48 x) k = lcg x (S k)).
  { intros x k. induction k as [|k IH]; [reflexivity|]. cbn [lcg]. rewrite IH. reflexivity. }
  induction n as [|n IH]; intros objs x dr H; [cbn [seq map]; rewrite app_nil_r; reflexivity|].
  cbn [repeat]. unfold use_run. cbn [forL use_step p_objs p_state p_drawn]. rewrite (@vget_ok _ objs 0%nat 0) by exact H. cbn [bind rng_call].
  unfold use_run in IH. rewrite IH by exact H. rewrite Sh, <- app_assoc. do 2 f_equal. cbn [seq map app]. f_equal. f_equal. rewrite <- seq_shift, map_map. apply map_ext. intros i. rewrite Sh. reflexivity.
Qed.
(** Whatever a program does with its objects, each number it gets is a multiple of 2^-48 that is at least 0 and below 1. *)
Theorem C110_range : forall l p, use_run l start48 = Ok p -> forall i y, In (i, y) (p_drawn p) ->
  0 <= y < 2 ^ 48 /\ (0 <= number y < 1)%R.
Proof.
  intros l p E. assert (H : forall l p q, use_run l p = Ok q -> (forall i y, In (i, y) (p_drawn p) -> 0 <= y < 2 ^ 48) -> forall i y, In (i, y) (p_drawn q) -> 0 <= y < 2 ^ 48).
  { clear. intros l. induction l as [|u l IH]; intros p q E H; [injection E as <-; exact H|]. unfold use_run in *. cbn [forL] in E.
    destruct (use_step u p) as [p1| | |] eqn:S1; cbn [bind] in E; try discriminate. apply (IH p1 q E). intros i y Hi.
    destruct u as [seed rank nprocs|j|j s]; cbn [use_step] in S1.
    - destruct (rng_new seed rank nprocs) as [[s x]| | |]; cbn [bind] in S1; try discriminate. injection S1 as <-. eapply H; exact Hi.
    - destruct (vget (p_objs p) j); cbn [bind rng_call] in S1; try discriminate. injection S1 as <-. cbn [p_drawn] in Hi. apply in_app_or in Hi. destruct Hi as [Hi|[Hi|[]]]; [eapply H; exact Hi|].
      injection Hi as <- <-. unfold next48. apply Z.mod_pos_bound. reflexivity.
    - destruct (vget (p_objs p) j); cbn [bind rng_set_seed] in S1; try discriminate. destruct (vset (p_objs p) j s); cbn [bind] in S1; try discriminate. injection S1 as <-. eapply H; exact Hi. }
  intros i y Hi. assert (R : 0 <= y < 2 ^ 48) by (apply (H l start48 p E ltac:(intros ? ? []) i y Hi)). split; [exact R|]. unfold number.
  assert (P : (0 < IZR (2 ^ 48))%R) by (apply (IZR_lt 0); reflexivity). destruct R as [R1 R2]. apply IZR_le in R1. apply IZR_lt in R2. split.
  - apply Rmult_le_pos; [exact R1|]. left. apply Rinv_0_lt_compat. exact P.
  - apply (Rmult_lt_reg_r (IZR (2 ^ 48))); [exact P|]. unfold Rdiv. rewrite Rmult_assoc, Rinv_l by lra. lra.
Qed.
Print Assumptions C110_range.
(** The object of a rank has a seed between 0 and 9999, the integer part of 10000 times the number with the index of the
    rank (but for the rounding of the product), however many ranks there are; its numbers are those of the generator of POSIX with that seed. *)
Theorem C110_numbers : forall seed rank, exists s, 0 <= s < 10000 /\
  s * 2 ^ 48 - 512 <= 10000 * lcg (seed mod 2 ^ 32 * 65536 + 13070) (S rank) < (s + 1) * 2 ^ 48 + 512 /\ forall nprocs n, (rank < nprocs)%nat ->
  exists p, use_run (Make seed rank nprocs :: repeat (Call 0) n) start48 = Ok p /\ p_objs p = [s] /\
    p_drawn p = map (fun k => (0%nat, lcg (s * 65536 + 13070) (S k))) (seq 0 n).
Proof.
  intros seed rank. set (s := to_seed (lcg (srand48 seed) (S rank))). assert (Hs : 0 <= s < 10000) by (apply to_seed_range, lcg_range; lia).
  exists s. split; [exact Hs|]. split; [apply to_seed_near, lcg_range; lia|]. intros nprocs n H. unfold use_run. cbn [forL use_step]. rewrite rng_new_eq by exact H. cbn [bind start48 p_objs p_drawn app]. fold s.
  pose proof (calls n [s] (srand48 s) [] ltac:(cbn; lia)) as C. unfold use_run in C. rewrite C. eexists. split; [reflexivity|]. cbn [p_objs p_drawn app]. split; [reflexivity|].
  unfold srand48. rewrite (Z.mod_small s (2 ^ 32)) by lia. reflexivity.
Qed.
Print Assumptions C110_numbers.
(** Numbers repeat exactly after 2^48 draws, whatever the seed. *)
Theorem C110_period : forall x0 i j, (0 < i)%nat -> (0 < j)%nat -> lcg x0 i = lcg x0 j <-> (2 ^ 48 | Z.of_nat i - Z.of_nat j).
Proof. exact lcg_equal. Qed.
Print Assumptions C110_period.
(** Every multiple of 2^-48 from 0 up to 1 is drawn at some time, whatever the seed. *)
Theorem C110_all : forall x0 y, 0 <= y < 2 ^ 48 -> exists n, (0 < n)%nat /\ lcg x0 n = y.
Proof.
  intros x0 y H. destruct (lcg_all x0 y 48) as (n & Hn). exists (S n). split; [lia|]. rewrite lcg_raw. rewrite <- (Z.mod_small y (2 ^ 48)) by exact H.
  apply mod_div; [reflexivity|]. exact Hn.
Qed.
Print Assumptions C110_all.
(** A rank that is not below the number of ranks goes outside of the vector of seeds. *)
Theorem C110_rank_refuted : forall seed rank nprocs, (nprocs <= rank)%nat -> rng_new seed rank nprocs = UB.
Proof.
  intros seed rank nprocs H. unfold rng_new. pose proof (draw_lcg nprocs (srand48 seed)) as [D _]. destruct (draw nprocs (srand48 seed)) as [l x]. cbn [fst] in D. subst l.
  unfold vget. replace (nth_error _ rank) with (@None Z); [reflexivity|]. symmetry. apply nth_error_None. rewrite !map_length, seq_length. exact H.
Qed.
Print Assumptions C110_rank_refuted.
(** Two ranks may get the same numbers: always if there are more than 10000, and with seed 1 already if there are 80. *)
Theorem C110_ranks_refuted :
  (forall seed nprocs, 10000 < Z.of_nat nprocs -> exists i j, (i < j < nprocs)%nat /\ rng_new seed i nprocs = rng_new seed j nprocs) /\
  rng_new 1 62 80 = rng_new 1 79 80 /\ exists r, rng_new 1 62 80 = Ok r.
Proof.
  split.
  - intros seed nprocs H. destruct (pigeon (fun i => to_seed (lcg (srand48 seed) (S i))) nprocs H) as (i & j & Hij & E).
    { intros i _. apply to_seed_range, lcg_range. lia. }
    exists i, j. split; [exact Hij|]. rewrite !rng_new_eq by lia. rewrite E. reflexivity.
  - split; [vm_compute; reflexivity|]. rewrite rng_new_eq by lia. eexists. reflexivity.
Qed.
Print Assumptions C110_ranks_refuted.
(** Two seeds may give the same numbers: among any 10001 seeds there are two that do. *)
Theorem C110_seeds_refuted : forall (seeds : nat -> Z) n, 10000 < Z.of_nat n ->
  exists i j, (i < j < n)%nat /\ rng_new (seeds i) 0 1 = rng_new (seeds j) 0 1.
Proof.
  intros seeds n H. destruct (pigeon (fun i => to_seed (lcg (srand48 (seeds i)) 1)) n H) as (i & j & Hij & E).
  { intros i _. apply to_seed_range, lcg_range. lia. }
  exists i, j. split; [exact Hij|]. rewrite !rng_new_eq by lia. rewrite E. reflexivity.
Qed.
Print Assumptions C110_seeds_refuted.
(** The objects of a program share one state: an object that was made before another one goes on with the numbers of
    the new one. *)
Theorem C110_shared_refuted : forall s1 s2 n, exists p q,
  use_run (Make s1 0 1 :: Make s2 0 1 :: repeat (Call 0) n) start48 = Ok p /\ use_run (Make s2 0 1 :: repeat (Call 0) n) start48 = Ok q /\ p_drawn p = p_drawn q.
Proof.
  intros s1 s2 n. unfold use_run. cbn [forL use_step]. rewrite !rng_new_eq by lia. cbn [bind start48 p_objs p_drawn app].
  set (a := to_seed (lcg (srand48 s1) 1)). set (b := to_seed (lcg (srand48 s2) 1)).
  pose proof (calls n [a; b] (srand48 b) [] ltac:(cbn; lia)) as C1. pose proof (calls n [b] (srand48 b) [] ltac:(cbn; lia)) as C2. unfold use_run in C1, C2. rewrite C1, C2.
  eexists. eexists. split; [reflexivity|]. split; reflexivity.
Qed.
Print Assumptions C110_shared_refuted.
(** Setting the seed of an object does not change its numbers. *)
Theorem C110_seed_refuted : forall s new n, exists p q,
  use_run (Make s 0 1 :: SetSeed 0 new :: repeat (Call 0) n) start48 = Ok p /\ use_run (Make s 0 1 :: repeat (Call 0) n) start48 = Ok q /\
  map rng_seed (p_objs p) = [new] /\ p_drawn p = p_drawn q.
Proof.
  intros s new n. unfold use_run. cbn [forL use_step]. rewrite !rng_new_eq by lia. cbn [bind start48 p_objs p_drawn app p_state].
  set (a := to_seed (lcg (srand48 s) 1)). cbn [vget nth_error bind rng_set_seed]. unfold vset. cbn [length Nat.ltb Nat.leb bind upd p_objs].
  pose proof (calls n [new] (srand48 a) [] ltac:(cbn; lia)) as C1. pose proof (calls n [a] (srand48 a) [] ltac:(cbn; lia)) as C2. unfold use_run in C1, C2. cbn [upd app firstn skipn]. rewrite C1, C2.
  eexists. eexists. split; [reflexivity|]. split; [reflexivity|]. split; reflexivity.
Qed.
Print Assumptions C110_seed_refuted.

(** fillRandom makes a vector of norm 1 at any time; it is a positive multiple of the numbers drawn, each less one half. *)
Theorem C110_fill : forall t n, (0 < n)%nat -> exists v s c, fillRandom t n = Ok v /\ length v = n /\ norm2 v = 1%R /\
  0 <= s < 10000 /\ (0 < c)%R /\ forall i, (i < n)%nat -> nth i v 0%R = (c * (number (lcg (s * 65536 + 13070) (S i)) - 1 / 2))%R.
Proof.
  intros t n Hn. unfold fillRandom. destruct (Nat.eqb_spec n 0) as [|_]; [lia|]. rewrite rng_new_eq by lia. cbn [bind].
  set (s := to_seed (lcg (srand48 t) 1)). assert (Hs : 0 <= s < 10000) by (apply to_seed_range, lcg_range; lia).
  rewrite (proj1 (draw_lcg n (srand48 s))), fold_norm, (map_map _ (fun y => (number y - 1 / 2)%R)).
  assert (Es : srand48 s = s * 65536 + 13070) by (unfold srand48; rewrite Z.mod_small by lia; reflexivity).
  set (g := fun i => (number (lcg (srand48 s) (S i)) - 1 / 2)%R). set (w := map g (seq 0 n)).
  assert (P : (0 < norm2 w)%R).
  { unfold w. destruct n as [|n]; [lia|]. cbn [seq map norm2 fold_right]. fold (norm2 (map g (seq 1 n))). pose proof (norm2_pos (map g (seq 1 n))) as Q.
    assert (g 0%nat <> 0%R); [|pose proof (Rlt_0_sqr (g 0%nat) H) as Z; unfold Rsqr in Z; lra].
    unfold g, number. intros H. apply (first_not_half s). apply eq_IZR. change (2 ^ 48) with (2 * 2 ^ 47) in H. rewrite mult_IZR in H.
    assert (B : (0 < IZR (2 ^ 47))%R) by (apply (IZR_lt 0); reflexivity).
    apply (Rmult_eq_reg_r (/ (2 * IZR (2 ^ 47)))); [|apply Rinv_neq_0_compat; lra]. unfold Rdiv in H. rewrite Rinv_mult in * by lra.
    replace (IZR (2 ^ 47) * (/ 2 * / IZR (2 ^ 47)))%R with (1 * / 2)%R by (field; lra). lra. }
  rewrite Rplus_0_l. pose proof (sqrt_lt_R0 _ P) as Q. exists (map (fun y => (y * (1 / sqrt (norm2 w)))%R) w), s, (1 / sqrt (norm2 w))%R.
  split; [reflexivity|]. split; [unfold w; rewrite !map_length, seq_length; reflexivity|]. split.
  - rewrite norm2_scale. assert (Z : (sqrt (norm2 w) * sqrt (norm2 w) = norm2 w)%R) by (apply sqrt_sqrt; lra). rewrite <- Z at 1. field. lra.
  - split; [exact Hs|]. split; [unfold Rdiv; rewrite Rmult_1_l; apply Rinv_0_lt_compat; exact Q|]. intros i Hi. rewrite <- Es. unfold w. rewrite map_map.
    set (h := fun x => (g x * (1 / sqrt (norm2 (map g (seq 0 n)))))%R). rewrite nth_indep with (d' := h 0%nat) by (rewrite map_length, seq_length; exact Hi).
    rewrite map_nth, seq_nth by exact Hi. unfold h, g. cbn [Nat.add]. ring.
Qed.
Print Assumptions C110_fill.
(** An empty vector is refused. *)
Theorem C110_fill_empty : forall t, fillRandom t 0 = Throw.
Proof. reflexivity. Qed.
Print Assumptions C110_fill_empty.
(** There are at most 10000 such vectors of each size: among any 10001 times there are two with the same vector. *)
Theorem C110_fill_refuted : forall (times : nat -> Z) n, 10000 < Z.of_nat n ->
  exists i j, (i < j < n)%nat /\ forall size, fillRandom (times i) size = fillRandom (times j) size.
Proof.
  intros times n H. destruct (C110_seeds_refuted times n H) as (i & j & Hij & E). exists i, j. split; [exact Hij|]. intros size. unfold fillRandom. rewrite E. reflexivity.
Qed.
Print Assumptions C110_fill_refuted.

(** Made as by the third of four processes, then three draws *)
Example C110_nonvacuous : exists p, use_run [Make 4 2 4; Call 0; Call 0; Call 0] start48 = Ok p /\ length (p_drawn p) = 3%nat /\
  p_objs p = [to_seed (lcg (srand48 4) 3)] /\ 10000 < Z.of_nat (Z.to_nat 10001).
Proof. unfold use_run. cbn [forL use_step]. rewrite rng_new_eq by lia. eexists. split; [reflexivity|]. split; [reflexivity|]. split; [reflexivity|]. rewrite Z2Nat.id by lia. lia. Qed.
