(** C59: the blocked matrix product equals the unblocked one. *)
From Verif Require Import Prelude Ring Parallel_Model Parallel_Spec Parallel_Proofs Gemm_Model Gemm_Spec Gemm_Proofs.
From Coq Require Import Ascii.
Local Open Scope nat_scope.

(** Whatever the block size, the number of threads and the schedule of the
    threads' writes, the array ends up holding alpha op(A) op(B) + beta C, no
    other place of it changes, no place is written twice, and the final array
    is the one a single call of BLAS leaves. *)
Theorem C59_product : forall (R : cring) (pthreads : bool) nb nthreads tA tB oA oB m n k
    (alpha beta : R) (A B C : list R) ldA ldB ldC,
  letter tA oA -> letter tB oB ->
  holds_op oA A ldA m k -> holds_op oB B ldB k n -> holds C ldC m n ->
  in_int (ldA * stored_cols oA m k) -> in_int (ldB * stored_cols oB k n) -> in_int (ldC * n) ->
  in_int (2 * m + 1) -> in_int (2 * n + 1) ->
  0 < m -> 0 < n ->
  (if pthreads then 0 < nthreads else nthreads = 1) ->
  exists ths, gemmR R pthreads nb nthreads tA tB m n k alpha A ldA B ldB (length C) ldC = Ok ths /\
    length ths <= nthreads /\
    exists us, gemm R tA tB m n k alpha A 0 ldA B 0 ldB (length C) 0 ldC = Ok us /\
    forall tr, interleaving ths tr ->
      let C' := fold_left (write R alpha beta) (map snd tr) C in
      is_product oA oB m n k alpha A ldA B ldB beta C ldC C' /\
      C' = fold_left (write R alpha beta) us C /\
      NoDup (map (fun s => fst (snd s)) tr) /\
      (forall i j, i < m -> j < n ->
         exists ij s, In (ij, (i + j * ldC, s)) tr /\
           forall ij' s', In (ij', (i + j * ldC, s')) tr -> ij' = ij).
Proof.
  intros R pt nb nthreads tA tB oA oB m n k alpha beta A B C ldA ldB ldC
    LA LB HA HB HC IA IB IC Im In' Hm Hn Ht.
  destruct (gemmR_ok R tA tB oA oB m n k alpha A B C ldA ldB ldC LA LB HA HB HC IA IB IC Im In'
              pt nb nthreads Ht (or_intror (conj Hm Hn))) as [ths [E [P L]]].
  exists ths. split; [exact E|]. split; [destruct pt; lia|].
  pose proof (gemm_ok R tA tB oA oB m n k alpha A B C ldA ldB ldC LA LB HA HB HC 0 0 m n) as G.
  cbn [Nat.mul Nat.add] in G.
  replace (if is_notrans tA then 0 else 0) with 0 in G by (destruct (is_notrans tA); reflexivity).
  replace (if is_notrans tB then 0 else 0) with 0 in G by (destruct (is_notrans tB); reflexivity).
  eexists. split; [apply G; lia|].
  intros tr Htr C'.
  pose proof (interleaving_perm _ _ Htr) as PT.
  assert (PP : Permutation (map snd tr) (map (upd_at R oA oB k alpha A B ldA ldB ldC) (pairs m n))).
  { rewrite <- P. apply Permutation_map. exact PT. }
  pose proof (exec_product R oA oB m n k alpha beta A B C ldA ldB ldC HC _ PP) as X.
  assert (ND : NoDup (map (fun s => fst (snd s)) tr)).
  { rewrite <- (map_map snd fst). eapply upd_at_NoDup; eauto. }
  split; [exact X|]. split; [|split; [exact ND|]].
  - assert (Y : is_product oA oB m n k alpha A ldA B ldB beta C ldC
       (fold_left (write R alpha beta)
          (map (fun '(i, j) => upd_at R oA oB k alpha A B ldA ldB ldC (i, j)) (pairs m n)) C)).
    { apply exec_product; auto.
      match goal with |- Permutation ?x ?y => replace x with y; [reflexivity|] end.
      apply map_ext. intros [i j]. reflexivity. }
    destruct X as [X1 [X2 X3]]. destruct Y as [Y1 [Y2 Y3]].
    apply list_eq_nth with (d := c0); [rewrite Y1; exact X1|].
    intros p Hp. fold C' in X1, X2, X3.
    destruct (in_dec Nat.eq_dec p (map (fun '(i, j) => i + j * ldC) (pairs m n))) as [I|I].
    + apply in_map_iff in I. destruct I as [[i j] [<- Hij]]. apply pairs_In in Hij.
      unfold elem in *. rewrite X2, Y2 by tauto. reflexivity.
    + rewrite X3, Y3; auto; intros i j Hi Hj ->; apply I; apply in_map_iff; exists (i, j);
        (split; [reflexivity|]); apply pairs_In; auto.
  - intros i j Hi Hj.
    assert (I : In (i + j * ldC, dot R oA oB k alpha A B ldA ldB i j) (map snd tr)).
    { apply (Permutation_in _ (Permutation_sym PP)). apply in_map_iff. exists (i, j).
      split; [reflexivity|]. apply pairs_In. auto. }
    apply in_map_iff in I. destruct I as [[ij u] [Eu Hu]]. cbn [snd] in Eu. subst u.
    exists ij. eexists. split; [exact Hu|]. intros ij' s' H'.
    revert ND Hu H'. clear. induction tr as [|x tr IH]; intros N H H'; [contradiction H|].
    cbn [map] in N. inversion N as [|y l Ny Nl]; subst.
    destruct H as [->|H]; destruct H' as [E|H'].
    + congruence.
    + exfalso. apply Ny. apply in_map_iff. eexists. split; [|exact H']. reflexivity.
    + subst x. exfalso. apply Ny. apply in_map_iff. eexists. split; [|exact H]. reflexivity.
    + auto.
Qed.
Print Assumptions C59_product.

(** A product that is not split may have no rows or columns. *)
Theorem C59_unsplit : forall (R : cring) (pthreads : bool) nb nthreads tA tB oA oB m n k
    (alpha beta : R) (A B C : list R) ldA ldB ldC,
  letter tA oA -> letter tB oB ->
  holds_op oA A ldA m k -> holds_op oB B ldB k n -> holds C ldC m n ->
  nb = 0 \/ (m <= nb /\ n <= nb) ->
  exists us, gemmR R pthreads nb nthreads tA tB m n k alpha A ldA B ldB (length C) ldC
      = Ok [map (fun u => (0, u)) us] /\
    is_product oA oB m n k alpha A ldA B ldB beta C ldC (fold_left (write R alpha beta) us C).
Proof.
  intros R pt nb nthreads tA tB oA oB m n k alpha beta A B C ldA ldB ldC LA LB HA HB HC H.
  assert (Es : isSmall nb m n = true).
  { unfold isSmall. destruct (Nat.eqb_spec nb 0); [reflexivity|].
    apply andb_true_intro. split; apply Nat.leb_le; lia. }
  unfold gemmR. rewrite Es.
  pose proof (gemm_ok R tA tB oA oB m n k alpha A B C ldA ldB ldC LA LB HA HB HC 0 0 m n) as G.
  cbn [Nat.mul Nat.add] in G.
  replace (if is_notrans tA then 0 else 0) with 0 in G by (destruct (is_notrans tA); reflexivity).
  replace (if is_notrans tB then 0 else 0) with 0 in G by (destruct (is_notrans tB); reflexivity).
  rewrite G by lia. cbn [bind]. eexists. split; [reflexivity|].
  apply exec_product; auto.
  match goal with |- Permutation ?x ?y => replace x with y; [reflexivity|] end.
  apply map_ext. intros [i j]. reflexivity.
Qed.
Print Assumptions C59_unsplit.

(** The shapes of the tiles: none is empty, none is larger than the block size,
    there are as few of them as possible, and their sizes are balanced: all rows
    of tiles but the last have the rounded-up average height, and so for the
    columns. Every position lies in exactly one tile. *)
Theorem C59_tiles : forall m n nb, 0 < m -> 0 < n -> 0 < nb ->
  in_int (2 * m + 1) -> in_int (2 * n + 1) ->
  let qi := nblocks m nb in
  let qj := nblocks n nb in
  (qi - 1) * nb < m <= qi * nb /\ (qj - 1) * nb < n <= qj * nb /\
  exists si sj,
    block_size m qi = Ok si /\ block_size n qj = Ok sj /\
    (si - 1) * qi < m <= si * qi /\ (sj - 1) * qj < n <= sj * qj /\
    (forall ij, ij < qi * qj -> exists i0 j0 mm nn,
       tile_shape m n qi si sj ij = Ok (i0, j0, mm, nn) /\
       1 <= mm <= nb /\ 1 <= nn <= nb /\ i0 + mm <= m /\ j0 + nn <= n /\
       (i0 + mm < m -> mm = si) /\ (j0 + nn < n -> nn = sj)) /\
    (forall i j, i < m -> j < n -> exists ij, ij < qi * qj /\
       (exists i0 j0 mm nn, tile_shape m n qi si sj ij = Ok (i0, j0, mm, nn) /\
          i0 <= i < i0 + mm /\ j0 <= j < j0 + nn) /\
       (forall ij' i0 j0 mm nn, ij' < qi * qj ->
          tile_shape m n qi si sj ij' = Ok (i0, j0, mm, nn) ->
          i0 <= i < i0 + mm -> j0 <= j < j0 + nn -> ij' = ij)).
Proof.
  intros m n nb Hm Hn Hb Im In' qi qj.
  assert (Q : forall x, 0 < x -> (nblocks x nb - 1) * nb < x <= nblocks x nb * nb).
  { intros x Hx. unfold nblocks.
    assert (E : x + (nb - 1) = nb * ((x + (nb - 1)) / nb) + (x + (nb - 1)) mod nb) by (apply Nat.div_mod; lia).
    assert (L : (x + (nb - 1)) mod nb < nb) by (apply Nat.mod_upper_bound; lia).
    set (q := (x + (nb - 1)) / nb) in *. assert (0 < q) by nia. nia. }
  split; [apply Q; exact Hm|]. split; [apply Q; exact Hn|].
  assert (K : forall x s q, block_size x q = Ok s -> 0 < q -> 0 < x -> (s - 1) * q < x <= s * q).
  { intros x s q H Hq Hx. unfold block_size in H. destruct (Nat.eqb_spec q 0) as [|n0]; [lia|]. cbn [negb] in H.
    assert (E : x = q * (x / q) + x mod q) by (apply Nat.div_mod; lia).
    assert (L : x mod q < q) by (apply Nat.mod_upper_bound; lia).
    destruct (Nat.eqb_spec (x mod q) 0) as [e|n1]; injection H as <-;
      revert E L n0 n1 || revert E L n0 e; generalize (x / q) (x mod q); clear - Hq Hx; intros d r E L N0 N1.
    - assert (0 < d) by nia. nia.
    - replace (d + 1 - 1) with d by lia. nia. }
  destruct (blocks_facts m nb qi Hm Hb eq_refl) as [Qi [si [Ei [[S1 S1'] [S2 [S3 S4]]]]]].
  destruct (blocks_facts n nb qj Hn Hb eq_refl) as [Qj [sj [Ej [[T1 T1'] [T2 [T3 T4]]]]]].
  exists si, sj. split; [exact Ei|]. split; [exact Ej|].
  split; [apply K; auto|]. split; [apply K; auto|].
  assert (U1 : qi <= m) by nia. assert (U2 : qj <= n) by nia.
  assert (TS : forall ij, ij < qi * qj -> tile_shape m n qi si sj ij =
    Ok (ij mod qi * si, ij / qi * sj, bsize m si (ij mod qi), bsize n sj (ij / qi)) /\
    ij mod qi < qi /\ ij / qi < qj).
  { intros ij Hij. apply tile_shape_ok; auto; unfold in_int in *; lia. }
  split.
  - intros ij Hij. destruct (TS ij Hij) as [E [Lm Lj]].
    do 4 eexists. split; [exact E|].
    pose proof (bsize_bounds m si qi (ij mod qi) S2 S1 Lm).
    pose proof (bsize_bounds n sj qj (ij / qi) T2 T1 Lj).
    unfold bsize in *. repeat split; lia.
  - intros i j Hi Hj.
    destruct (bsize_cover m si qi i S3 S1 Hi) as [a [La Ha]].
    destruct (bsize_cover n sj qj j T3 T1 Hj) as [b [Lb Hb']].
    assert (Lab : a + b * qi < qi * qj) by nia.
    assert (M : (a + b * qi) mod qi = a) by (rewrite Nat.mod_add, Nat.mod_small by lia; reflexivity).
    assert (D : (a + b * qi) / qi = b) by (rewrite Nat.div_add, Nat.div_small by lia; reflexivity).
    exists (a + b * qi). split; [exact Lab|]. split.
    + destruct (TS _ Lab) as [E _]. rewrite M, D in E. do 4 eexists. split; [exact E|]. auto.
    + intros ij' i0 j0 mm nn Hij' E' H1 H2. destruct (TS _ Hij') as [E _].
      rewrite E in E'. injection E' as <- <- <- <-.
      assert (ij' mod qi = a) by (apply (bsize_disjoint m si _ _ i); assumption).
      assert (ij' / qi = b) by (apply (bsize_disjoint n sj _ _ j); assumption).
      assert (Q0 : qi <> 0) by (apply Nat.neq_0_lt_0; exact Qi).
      pose proof (Nat.div_mod ij' qi Q0) as X. rewrite X. subst a b. ring.
Qed.
Print Assumptions C59_tiles.

(** With no rows and more columns than the block size, BLAS has nothing to do
    but the blocked product divides by zero. *)
Theorem C59_no_rows_refuted : forall (R : cring) pthreads nb nthreads n k (alpha : R) (A B C : list R) ldA ldB ldC,
  0 < nb -> nb < n -> holds A ldA 0 k -> holds B ldB k n -> holds C ldC 0 n ->
  gemm R "N" "N" 0 n k alpha A 0 ldA B 0 ldB (length C) 0 ldC = Ok [] /\
  gemmR R pthreads nb nthreads "N" "N" 0 n k alpha A ldA B ldB (length C) ldC = UB.
Proof.
  intros R pt nb nthreads n k alpha A B C ldA ldB ldC Hb Hn HA HB HC. split.
  - pose proof (gemm_ok R "N" "N" Plain Plain 0 n k alpha A B C ldA ldB ldC
      (or_introl eq_refl) (or_introl eq_refl) HA HB HC 0 0 0 n) as G.
    cbn [Nat.mul Nat.add] in G. change (is_notrans "N") with true in G. cbv iota in G.
    rewrite G by lia. f_equal. unfold pairs.
    assert (X : forall l, flat_map (fun j : nat => map (fun i : nat => (i, j)) (seq 0 0)) l = [])
      by (induction l; auto).
    rewrite X. reflexivity.
  - unfold gemmR. assert (Es : isSmall nb 0 n = false).
    { unfold isSmall. destruct (Nat.eqb_spec nb 0); [lia|]. apply andb_false_intro2. apply Nat.leb_gt. exact Hn. }
    rewrite Es. unfold nblocks at 1. rewrite Nat.div_small by lia. reflexivity.
Qed.
Print Assumptions C59_no_rows_refuted.

(** Without pthreads, any product of at least two tiles is refused when more
    than one thread was asked for. *)
Theorem C59_serial_build_refuted : forall (R : cring) nb nthreads tA tB m n k (alpha : R) (A B : list R) ldA ldB lenC ldC,
  0 < m -> 0 < n -> 0 < nb -> nb < m \/ nb < n -> nthreads <> 1 ->
  gemmR R false nb nthreads tA tB m n k alpha A ldA B ldB lenC ldC = Throw.
Proof.
  intros R nb nthreads tA tB m n k alpha A B ldA ldB lenC ldC Hm Hn Hb Hx Ht. unfold gemmR.
  assert (Es : isSmall nb m n = false).
  { unfold isSmall. destruct (Nat.eqb_spec nb 0); [lia|].
    destruct (Nat.leb_spec m nb); destruct (Nat.leb_spec n nb); try reflexivity. lia. }
  rewrite Es.
  destruct (blocks_facts m nb _ Hm Hb eq_refl) as [Qi [si [Ei [[S1 S1'] [S2 [S3 S4]]]]]].
  destruct (blocks_facts n nb _ Hn Hb eq_refl) as [Qj [sj [Ej [[T1 T1'] [T2 [T3 T4]]]]]].
  rewrite Ei, Ej. cbn [bind].
  assert (2 <= nblocks m nb * nblocks n nb) by nia.
  unfold parallelFor_serial. destruct (Nat.eqb_spec (Nat.min (nblocks m nb * nblocks n nb) nthreads) 1); [lia|].
  reflexivity.
Qed.
Print Assumptions C59_serial_build_refuted.

Lemma traverse_ub {A B} (f : A -> res B) l :
  (forall a, In a l -> (exists b, f a = Ok b) \/ f a = UB) -> (exists a, In a l /\ f a = UB) ->
  traverse f l = UB.
Proof.
  induction l as [|a l IH]; intros H [x [I E]]; [contradiction I|].
  cbn [traverse]. destruct (H a (or_introl eq_refl)) as [[b Eb]|Eb]; rewrite Eb; cbn [bind]; [|reflexivity].
  destruct I as [->|I]; [congruence|]. rewrite IH; [reflexivity| |eauto].
  intros c Hc. apply H. right. exact Hc.
Qed.

Lemma traverse_ok_or_ub {A B} (f : A -> res B) l :
  (forall a, In a l -> (exists b, f a = Ok b) \/ f a = UB) ->
  (exists bs, traverse f l = Ok bs) \/ traverse f l = UB.
Proof.
  induction l as [|a l IH]; intros H; cbn [traverse]; [eauto|].
  destruct (H a (or_introl eq_refl)) as [[b Eb]|Eb]; rewrite Eb; cbn [bind]; auto.
  destruct IH as [[bs E]|E]; [intros c Hc; apply H; right; exact Hc| |]; rewrite E; cbn [bind]; eauto.
Qed.

(** The offset of a tile in C is computed in [int]: for every N >= 65536, the
    product of two N x N matrices, whose array has 2^32 elements or more, is
    undefined when split (here in four), although every array is large enough
    and every argument of BLAS fits in an [int]. *)
Theorem C59_offset_overflow_refuted : forall (R : cring) N k nthreads (alpha : R) (A B C : list R),
  (65536 <= Z.of_nat N)%Z -> k <= N -> 0 < nthreads ->
  holds A N N k -> holds B N k N -> holds C N N N ->
  (exists us, gemm R "N" "N" N N k alpha A 0 N B 0 N (length C) 0 N = Ok us) /\
  gemmR R true (N - 1) nthreads "N" "N" N N k alpha A N B N (length C) N = UB.
Proof.
  intros R N k nthreads alpha A B C HN Hk Ht HA HB HC.
  assert (GO : forall i0 j0 mm nn, i0 + mm <= N -> j0 + nn <= N ->
     exists us, gemm R "N" "N" mm nn k alpha A i0 N B (j0 * N) N (length C) (i0 + j0 * N) N = Ok us).
  { intros i0 j0 mm nn H1 H2.
    pose proof (gemm_ok R "N" "N" Plain Plain N N k alpha A B C N N N
      (or_introl eq_refl) (or_introl eq_refl) HA HB HC i0 j0 mm nn H1 H2) as G.
    change (is_notrans "N") with true in G. cbv iota in G. eexists. exact G. }
  split; [apply (GO 0 0 N N); lia|].
  unfold gemmR. assert (Es : isSmall (N - 1) N N = false).
  { unfold isSmall. destruct (Nat.eqb_spec (N - 1) 0); [lia|]. apply andb_false_intro2. apply Nat.leb_gt. lia. }
  rewrite Es.
  assert (Eq : nblocks N (N - 1) = 2).
  { unfold nblocks. replace (N + (N - 1 - 1)) with (2 * (N - 1)) by lia. apply Nat.div_mul. lia. }
  rewrite Eq.
  destruct (blocks_facts N (N - 1) 2) as [_ [s [Ei [[S1 S1'] [S2 [S3 S4]]]]]]; [lia|lia|auto|].
  rewrite Ei. cbn [bind].
  change (2 * 2) with 4.
  destruct (parallelFor_ok 0 4 (Nat.min 4 nthreads)) as [ths [E1 [E2 E3]]]; [lia|lia|].
  rewrite E1. cbn [bind].
  assert (T : forall ij, ij < 4 ->
    (exists us, tile R "N" "N" N N k alpha A N B N (length C) N 2 s s ij = Ok us) \/
    tile R "N" "N" N N k alpha A N B N (length C) N 2 s s ij = UB).
  { intros ij Hij. unfold tile, tile_shape.
    assert (La : ij mod 2 < 2) by (apply Nat.mod_upper_bound; lia).
    assert (Lb : (ij - ij mod 2) / 2 < 2) by (apply Nat.div_lt_upper_bound; lia).
    set (a := ij mod 2) in *. set (b := (ij - a) / 2) in *. clearbody a b.
    destruct (int_ok (1 + a * s + s)); [|right; reflexivity].
    destruct (int_ok (1 + b * s + s)); [|right; reflexivity].
    cbn [bind]. change (is_notrans "N") with true. cbv iota.
    destruct (int_ok (1 + a * s - 1)); [|right; reflexivity].
    destruct (int_ok ((1 + b * s - 1) * N)); [|right; reflexivity].
    destruct (int_ok (1 + a * s - 1 + (1 + b * s - 1) * N)); [|right; reflexivity].
    left. apply GO.
    - assert (a * s <= s) by nia. lia.
    - assert (b * s <= s) by nia. lia. }
  assert (T2 : tile R "N" "N" N N k alpha A N B N (length C) N 2 s s 2 = UB).
  { unfold tile, tile_shape. change (2 mod 2) with 0. change ((2 - 0) / 2) with 1.
    destruct (int_ok (1 + 0 * s + s)); [|reflexivity].
    destruct (int_ok (1 + 1 * s + s)); [|reflexivity].
    cbn [bind]. change (is_notrans "N") with true. cbv iota.
    destruct (int_ok (1 + 0 * s - 1)); [|reflexivity].
    assert (F : int_ok ((1 + 1 * s - 1) * N) = false).
    { unfold int_ok. apply Z.ltb_ge. replace (1 + 1 * s - 1) with s by lia.
      assert (N <= 2 * s) by lia. rewrite Nat2Z.inj_mul. nia. }
    rewrite F. reflexivity. }
  assert (Hin : forall calls ij, In calls ths -> In ij calls -> ij < 4).
  { intros calls ij H1 H2. assert (H3 : In ij (seq 0 (4 - 0))).
    { rewrite <- E3. apply in_concat. eauto. }
    apply in_seq in H3. lia. }
  assert (I2 : In 2 (concat ths)) by (rewrite E3; cbn; tauto).
  apply in_concat in I2. destruct I2 as [c2 [Hc2 H2]].
  apply traverse_ub.
  - intros calls Hc.
    match goal with |- (exists b, bind (traverse ?f calls) _ = _) \/ _ =>
      destruct (traverse_ok_or_ub f calls) as [[bs E]|E] end.
    + intros ij Hij. destruct (T ij (Hin _ _ Hc Hij)) as [[us E]|E]; rewrite E; cbn [bind]; eauto.
    + rewrite E. cbn [bind]. eauto.
    + rewrite E. auto.
  - exists c2. split; [exact Hc2|]. rewrite traverse_ub; [reflexivity| |].
    + intros ij Hij. destruct (T ij (Hin _ _ Hc2 Hij)) as [[us E]|E]; rewrite E; cbn [bind]; eauto.
    + exists 2. split; [exact H2|]. rewrite T2. reflexivity.
Qed.
Print Assumptions C59_offset_overflow_refuted.

(** A concrete product: a 3 x 2 window of an array with leading dimension 4,
    A transposed, blocks of 2, two threads. *)
Definition exA : list Zring := [1; 2; 3; 4; 5; 6]%Z.
Definition exB : list Zring := [1; 0; 2; 1]%Z.
Definition exC : list Zring := [10; 20; 30; 99; 40; 50; 60; 99]%Z.
Example C59_nonvacuous :
  letter "T" Trans /\ letter "n" Plain /\
  holds_op Trans exA 2 3 2 /\ holds_op Plain exB 2 2 2 /\ holds exC 4 3 2 /\
  in_int (2 * stored_cols Trans 3 2) /\ in_int (2 * stored_cols Plain 2 2) /\ in_int (4 * 2) /\
  in_int (2 * 3 + 1) /\ in_int (2 * 2 + 1) /\
  exists ths, gemmR Zring true 2 2 "T" "n" 3 2 2 1%Z exA 2 exB 2 (length exC) 4 = Ok ths /\
    length ths = 2 /\
    fold_left (write Zring 1%Z 2%Z) (map snd (concat (rev ths))) exC = [21; 43; 65; 99; 84; 110; 136; 99]%Z.
Proof.
  assert (H : forall r c, r <= 4 -> c <= 4 -> True) by auto.
  repeat split; try (right; reflexivity); try (left; reflexivity); try (cbn; lia).
  eexists. split; [vm_compute; reflexivity|]. split; reflexivity.
Qed.

(** The overflow theorem applies: N = 65536 with k = 0 and zero matrices. *)
Example C59_overflow_nonvacuous : exists N, (65536 <= Z.of_nat N)%Z /\
  holds (@nil Zring) N N 0 /\ holds (@nil Zring) N 0 N /\ holds (repeat (0%Z : Zring) (N * N)) N N N.
Proof.
  exists (Z.to_nat 65536). split; [lia|]. unfold holds. rewrite repeat_length.
  repeat split; intros; try nia; try lia.
Qed.
