(** Theorems about the lattices, continued: C39 to C42, C79 and C80. *)
From Verif Require Import Prelude Ring Vec_Model Dense_Model Dense_Spec Dense_Proofs
  Geo_Model Geo_Spec Geo_Proofs Geo_Proofs2 Geo_Proofs3 Geo_Proofs4 Geo_Props.
From Coq Require Import ZArith Lia Bool List Permutation.
Import ListNotations.
Local Open Scope Z_scope.

Lemma nodup_map_in {A B} (f : A -> B) l : (forall x y, In x l -> In y l -> f x = f y -> x = y) -> NoDup l -> NoDup (map f l).
Proof.
  intros Hf Hl. induction l as [|a l IH]; [constructor|]. inversion_clear Hl as [|? ? Ha Hl']. simpl. constructor.
  - rewrite in_map_iff. intros (y & E & Hy). apply Ha. rewrite (Hf a y); simpl; auto.
  - apply IH; auto. intros x y Hx Hy. apply Hf; simpl; auto.
Qed.

(** * C39 *)
(** When all blocks but the last go to the system, or the blocks are single sites, or
    the number of blocks is even or three, split divides the sites. *)
Theorem C39_split_partial : forall L n all Sy X Y E, geo_split L n all = Ok (Sy, X, Y, E) ->
  all = true \/ n = 1%nat \/ Nat.even (L / n) = true \/ (L / n = 3)%nat ->
  Permutation (Sy ++ concat X ++ concat Y ++ E) (seq 0 L).
Proof.
  intros L n all Sy X Y E H Hc.
  destruct (geo_split_parts L n all _ H) as (Hn & HnL & q & HL & Hq).
  assert (Eq : (L / n = q)%nat) by (subst; apply Nat.div_mul; lia). rewrite Eq in Hc.
  destruct (geo_split_partition L n all Hn HnL) as (Sy' & X' & Y' & E' & H' & P); [eauto|].
  rewrite H in H'. apply Ok_inj in H'. injection H' as -> -> -> ->. exact P.
Qed.
Print Assumptions C39_split_partial.

(** split accepts exactly: blocks of one site, or at least three full blocks. *)
Theorem C39_accepts : forall L n all, (0 < n)%nat -> (0 < L)%nat ->
  ((n = 1 \/ (L mod n = 0 /\ 3 <= L / n))%nat -> exists r, geo_split L n all = Ok r) /\
  (~ (n = 1 \/ (L mod n = 0 /\ 3 <= L / n))%nat -> geo_split L n all = Throw).
Proof.
  intros L n all Hn HL. split.
  - intros H.
    assert (HL' : exists q, L = (q * n)%nat /\ (n = 1 \/ 3 <= q)%nat).
    { destruct H as [->|[H1 H2]]; [exists L; lia|]. exists (L / n)%nat. pose proof (Nat.div_mod L n ltac:(lia)). lia. }
    destruct HL' as (q & Hq & Hc). unfold geo_split.
    destruct (Nat.eqb_spec n 0); [lia|]. cbn [negb].
    assert (Em : (L mod n = 0)%nat) by (subst L; apply Nat.mod_mul; lia). rewrite Em. cbn [Nat.eqb negb orb].
    assert (Ed : (L / n = q)%nat) by (subst L; apply Nat.div_mul; lia). rewrite Ed.
    replace ((q <? 3)%nat && (1 <? n)%nat) with false.
    2:{ symmetry. destruct (Nat.ltb_spec q 3), (Nat.ltb_spec 1 n); simpl; lia. }
    set (middle := (L / 2 + L mod 2)%nat).
    assert (Hmid : (2 * middle = L + L mod 2 /\ L mod 2 < 2)%nat).
    { unfold middle. pose proof (Nat.div_mod L 2 ltac:(lia)). pose proof (Nat.mod_upper_bound L 2 ltac:(lia)). lia. }
    destruct (split_X_ok n middle Hn (S L) n [] ltac:(lia) ltac:(lia)) as (k & Xs & E & C & M & D & F).
    rewrite E. cbn [bind]. assert (n <= L)%nat by nia. destruct (Nat.leb_spec n L); [|lia]. cbn [bind app].
    assert (Ha : (exists a, n + k * n + a * n = L - n)%nat \/ (L - n <= n + k * n)%nat).
    { destruct (Nat.le_gt_cases (L - n) (n + k * n)); [now right|]. left. exists (q - 2 - k)%nat. nia. }
    destruct all.
    + destruct (split_Y_all n L middle Hn (S L) (n + k * n)%nat Xs [] ltac:(lia) ltac:(lia) ltac:(lia) ltac:(lia) Ha)
        as (k' & Zs & E' & _). rewrite E'. cbn [bind]. eauto.
    + destruct (split_Y_env n L middle Hn (S L) (n + k * n)%nat Xs [] ltac:(lia) ltac:(lia) ltac:(lia) ltac:(lia) ltac:(nia) Ha)
        as (k' & Zs & E' & _). rewrite E'. cbn [bind]. eauto.
  - intros H. unfold geo_split. destruct (Nat.eqb_spec n 0); [lia|]. cbn [negb].
    destruct (Nat.ltb_spec 1 n); [|lia]. rewrite andb_true_r.
    destruct (Nat.eqb_spec (L mod n) 0); cbn [negb orb]; [|reflexivity].
    destruct (Nat.ltb_spec (L / n) 3); [reflexivity|]. exfalso. apply H. right. lia.
Qed.
Print Assumptions C39_accepts.

(** Ten sites in blocks of two: site 5 is in two blocks and site 7 in none. *)
Theorem C39_split_refuted :
  exists Sy X Y E, geo_split 10 2 false = Ok (Sy, X, Y, E) /\
    ~ Permutation (Sy ++ concat X ++ concat Y ++ E) (seq 0 10) /\
    In 5%nat (concat X) /\ In 5%nat (concat Y) /\ ~ In 7%nat (Sy ++ concat X ++ concat Y ++ E).
Proof.
  do 4 eexists. split; [vm_compute; reflexivity|].
  assert (N : ~ In 7%nat ([0; 1] ++ concat [[2; 3]; [4; 5]] ++ concat [[5; 6]] ++ [8; 9])%nat).
  { simpl. intuition discriminate. }
  repeat split.
  - intros P. apply N. apply (Permutation_in 7%nat (Permutation_sym P)). apply in_seq. lia.
  - simpl. tauto.
  - simpl. tauto.
  - exact N.
Qed.
Print Assumptions C39_split_refuted.

Theorem C39_connectionKind : forall smax i j : nat,
  (connectionKind smax i j = SYSTEM_SYSTEM <-> (i <= smax /\ j <= smax)%nat) /\
  (connectionKind smax i j = SYSTEM_ENVIRON <-> (i <= smax /\ smax < j)%nat) /\
  (connectionKind smax i j = ENVIRON_SYSTEM <-> (smax < i /\ j <= smax)%nat) /\
  (connectionKind smax i j = ENVIRON_ENVIRON <-> (smax < i /\ smax < j)%nat).
Proof.
  intros. unfold connectionKind.
  destruct (Nat.ltb_spec i (S smax)), (Nat.leb_spec (S smax) j), (Nat.ltb_spec j (S smax)), (Nat.leb_spec (S smax) i);
    cbn [andb]; try lia; (repeat split; try discriminate; try lia).
Qed.
Print Assumptions C39_connectionKind.

Example C39_nonvacuous :
  geo_split 8 1 false = Ok ([0], [[1]; [2]; [3]], [[6]; [5]; [4]], [7])%nat /\
  geo_split 12 2 false = Ok ([0; 1], [[2; 3]; [4; 5]], [[8; 9]; [6; 7]], [10; 11])%nat /\
  connectionKind 3 2 5 = SYSTEM_ENVIRON.
Proof. vm_compute. auto. Qed.

(** * C40 *)

(** With two orbitals on the oxygen sites and one on the copper sites, every site and orbital has a number below the rank, no two
    have the same one, and every number below the rank is one of theirs. *)
Theorem C40_index : forall n : nat,
  let N := Z.of_nat n in
  (forall i orb, k2_valid N i orb -> exists k, k2_index N i orb = Ok k /\ in_range (k2_matrixRank n) k) /\
  (forall i orb i' orb' k, k2_valid N i orb -> k2_valid N i' orb' ->
     k2_index N i orb = Ok k -> k2_index N i' orb' = Ok k -> i = i' /\ orb = orb') /\
  (forall k, in_range (k2_matrixRank n) k -> exists i orb, k2_valid N i orb /\ k2_index N i orb = Ok k).
Proof.
  intros n N. rewrite k2_matrixRank_eq. fold N. assert (HN : 0 <= N) by (unfold N; lia). clearbody N.
  assert (V : forall i orb, k2_valid N i orb -> 0 <= i < N /\ (orb = 0 \/ orb = 1) /\ (orb = 1 -> i mod 4 <> 3) /\
     k2_index N i orb = Ok (if orb =? 0 then i else N + i - (i + 1) / 4)).
  { intros i orb [[H1 H2] [H3 H4]]. split; auto.
    destruct (Z.eqb_spec (i mod 4) 3) as [E|E].
    - assert (orb = 0) by lia. subst orb. split; auto. split; [lia|]. rewrite k2_index_eq by (auto; lia).
      rewrite E. reflexivity.
    - assert (orb = 0 \/ orb = 1) by lia. split; auto. split; auto. rewrite k2_index_eq by (auto; lia).
      destruct (Z.eqb_spec (i mod 4) 3); [congruence|reflexivity]. }
  split; [|split].
  - intros i orb H. destruct (V i orb H) as (Hi & Ho & Hno & ->). eexists. split; [reflexivity|].
    clear V H. unfold in_range. destruct Ho as [-> | ->]; simpl (_ =? _); cbv iota.
    + Z.to_euclidean_division_equations. lia.
    + specialize (Hno eq_refl). Z.to_euclidean_division_equations. lia.
  - intros i orb i' orb' k H H' E E'.
    destruct (V i orb H) as (Hi & Ho & Hno & E1). destruct (V i' orb' H') as (Hi' & Ho' & Hno' & E1').
    rewrite E in E1. rewrite E' in E1'. rewrite E1 in E1'. apply Ok_inj in E1'. clear E E' E1 V H H'.
    destruct Ho as [-> | ->], Ho' as [-> | ->]; simpl (_ =? _) in E1'; cbv iota in E1'.
    + auto.
    + exfalso. specialize (Hno' eq_refl). Z.to_euclidean_division_equations. lia.
    + exfalso. specialize (Hno eq_refl). Z.to_euclidean_division_equations. lia.
    + split; auto. specialize (Hno eq_refl). specialize (Hno' eq_refl). Z.to_euclidean_division_equations. lia.
  - intros k [Hk1 Hk2]. destruct (Z_lt_le_dec k N).
    + exists k, 0. assert (Hv : k2_valid N k 0). { split; [split; lia|]. destruct (k mod 4 =? 3); split; lia. }
      split; auto. destruct (V k 0 Hv) as (_ & _ & _ & ->). reflexivity.
    + set (t := k - N). exists (t + t / 3), 1.
      assert (T : 0 <= t + t / 3 < N /\ (t + t / 3) mod 4 <> 3 /\ t + t / 3 - (t + t / 3 + 1) / 4 = t).
      { assert (0 <= t) by (unfold t; lia). assert (t < N - N / 4) by (unfold t; lia). clearbody t. clear V Hk1 Hk2 l.
        Z.to_euclidean_division_equations. lia. }
      assert (Hv : k2_valid N (t + t / 3) 1).
      { split; [exact (proj1 T)|]. destruct (Z.eqb_spec ((t + t / 3) mod 4) 3); [tauto|]. split; lia. }
      split; auto. destruct (V _ _ Hv) as (_ & _ & _ & ->). simpl (_ =? _). cbv iota. f_equal. unfold t in *. lia.
Qed.
Print Assumptions C40_index.

(** The numbering only knows two orbitals: a third one gets the number of the second. *)
Theorem C40_three_orbitals_refuted : forall n i, 0 <= i < n -> i mod 4 <> 3 -> k2_index n i 2 = k2_index n i 1.
Proof.
  intros n i Hi Hm. unfold k2_index. rewrite k2_type_C by lia.
  destruct (Z.eqb_spec (i mod 4) 3); [congruence|]. reflexivity.
Qed.
Print Assumptions C40_three_orbitals_refuted.

Example C40_nonvacuous : k2_matrixRank 8 = 14 /\ k2_index 8 6 1 = Ok 13 /\ k2_index 8 7 0 = Ok 7 /\ k2_index 8 7 1 = Ok (-1) /\
  k2_valid 8 6 1.
Proof. vm_compute. repeat split; auto; discriminate. Qed.

(** * C41 *)
(** Even clusters of 2m sites with b bath sites each; the cluster is in the middle. *)
Theorem C41_partial : forall m b l,
  0 < m -> 0 <= b -> 2 * m * (1 + b) < size_max -> la_L l = 2 * m ->
  let g := mklb (2 * m * (1 + b)) b l in
  let cluster := fun c => m * b <= c < m * b + 2 * m in
  let bath := fun i => in_range (2 * m * (1 + b)) i /\ ~ cluster i in
  (* every bath site has one neighbour, which is in the cluster *)
  (forall i, bath i -> exists c, cluster c /\ lb_connected g i c = Ok true /\
     forall j, in_range (2 * m * (1 + b)) j -> lb_connected g i j = Ok true -> j = c) /\
  (* every cluster site has b bath sites *)
  (forall c, cluster c -> exists s, NoDup s /\ Z.of_nat (length s) = b /\
     forall i, In i s <-> (bath i /\ lb_connected g i c = Ok true)) /\
  (* the slots of these bonds are numbered from 0 to 2mb-1, without repetition *)
  (forall i c, bath i -> cluster c -> lb_connected g i c = Ok true ->
     exists h, lb_handle g i c = Ok h /\ lb_handle g c i = Ok h /\ lb_getVectorSize g 2 = Ok (b * (2 * m)) /\
       in_range (b * (2 * m)) h) /\
  (forall i c i' c' h, bath i -> cluster c -> lb_connected g i c = Ok true ->
     bath i' -> cluster c' -> lb_connected g i' c' = Ok true ->
     lb_handle g i c = Ok h -> lb_handle g i' c' = Ok h -> i = i' /\ c = c') /\
  (forall h, in_range (b * (2 * m)) h -> exists i c, bath i /\ cluster c /\ lb_connected g i c = Ok true /\ lb_handle g i c = Ok h).
Proof.
  intros m b l Hm Hb Hsm Hl g cluster bath. unfold size_max in *.
  assert (Bx : forall i, bath i -> exists s k, 0 <= s < 2 * m /\ 0 <= k < b /\ i = bath_site m b s k).
  { intros i Hi. apply bath_site_ex; auto. }
  assert (Bb : forall s k, 0 <= s < 2 * m -> 0 <= k < b -> bath (bath_site m b s k)).
  { intros. now apply bath_site_ok. }
  assert (Cn : forall s k c, 0 <= s < 2 * m -> 0 <= k < b -> cluster c ->
     lb_connected g (bath_site m b s k) c = Ok (m * b + s =? c)).
  { intros. now apply lb_connected_bath. }
  assert (Hh : forall s k c, 0 <= s < 2 * m -> 0 <= k < b -> cluster c ->
     lb_handle g (bath_site m b s k) c = Ok (k + s * b) /\ lb_handle g c (bath_site m b s k) = Ok (k + s * b)).
  { intros. now apply lb_handle_bath. }
  split; [|split; [|split; [|split]]].
  - intros i Hi. destruct (Bx i Hi) as (s & k & Hs & Hk & ->). exists (m * b + s).
    assert (Hc : cluster (m * b + s)) by (unfold cluster; lia).
    split; auto. rewrite Cn by auto. rewrite Z.eqb_refl. split; auto.
    intros j Hj E. destruct (Z_le_dec (m * b) j), (Z_lt_dec j (m * b + 2 * m)).
    { rewrite Cn in E by (auto; unfold cluster; lia). apply Ok_inj in E. apply Z.eqb_eq in E. lia. }
    all: exfalso; unfold g in E; rewrite lb_connected_bath_bath in E; auto; try discriminate;
      (split; [exact Hj|unfold in_cluster; lia]).
  - intros c Hc. exists (map (fun k => bath_site m b (c - m * b) (Z.of_nat k)) (seq 0 (Z.to_nat b))).
    assert (Hs : 0 <= c - m * b < 2 * m) by (unfold cluster in Hc; lia).
    split; [|split].
    + apply nodup_map_in; [|apply seq_NoDup].
      intros k k' Hk Hk' E. apply in_seq in Hk, Hk'.
      apply bath_site_inj with (l := l) in E; auto; lia.
    + rewrite map_length, seq_length. lia.
    + intros i. rewrite in_map_iff. split.
      * intros (k & <- & Hk). apply in_seq in Hk. split; [apply Bb; lia|]. rewrite Cn by (auto; lia). f_equal. apply Z.eqb_eq. lia.
      * intros [Hi E]. destruct (Bx i Hi) as (s & k & Hs' & Hk & ->). rewrite Cn in E by auto.
        apply Ok_inj in E. apply Z.eqb_eq in E. exists (Z.to_nat k). split.
        -- rewrite Z2Nat.id by lia. f_equal. lia.
        -- apply in_seq. lia.
  - intros i c Hi Hc _. destruct (Bx i Hi) as (s & k & Hs & Hk & ->).
    destruct (Hh s k c Hs Hk Hc) as [-> ->]. eexists. split; [reflexivity|]. split; [reflexivity|]. split.
    + unfold lb_getVectorSize, lb_cluster, g. simpl. now rewrite Hl.
    + split; nia.
  - intros i c i' c' h Hi Hc E Hi' Hc' E' H H'.
    destruct (Bx i Hi) as (s & k & Hs & Hk & ->). destruct (Bx i' Hi') as (s' & k' & Hs' & Hk' & ->).
    rewrite Cn in E, E' by auto. apply Ok_inj in E, E'. apply Z.eqb_eq in E, E'.
    rewrite (proj1 (Hh s k c Hs Hk Hc)) in H. rewrite (proj1 (Hh s' k' c' Hs' Hk' Hc')) in H'.
    apply Ok_inj in H, H'. subst h. apply coord_inj in H'; [|lia|lia]. destruct H' as [-> ->]. split; [reflexivity|lia].
  - intros h Hr. destruct (Z.eq_dec b 0) as [->|]; [destruct Hr; lia|].
    destruct (coord_ex b (2 * m) h ltac:(lia) Hr) as (s & k & -> & Hk & Hs).
    exists (bath_site m b s k), (m * b + s). assert (Hc : cluster (m * b + s)) by (unfold cluster; lia).
    split; [now apply Bb|]. split; auto. rewrite Cn by auto. rewrite Z.eqb_refl. split; auto. now apply Hh.
Qed.
Print Assumptions C41_partial.

(** With an odd cluster one cluster site gets no bath site and another gets two. *)
Theorem C41_odd_refuted :
  exists g, ladderbath_new 6 1 1 None None false = Ok g /\ lb_cluster g = 3 /\
    (forall i, in_range 6 i -> ~ (1 <= i < 4) -> lb_connected g i 2 = Ok false) /\
    lb_connected g 4 3 = Ok true /\ lb_connected g 5 3 = Ok true.
Proof.
  exists (mklb 6 1 (mkladder 3 1 false false)). split; [vm_compute; reflexivity|]. split; [reflexivity|].
  split; [|split; vm_compute; reflexivity].
  intros i [H1 H2] H3. assert (i = 0 \/ i = 4 \/ i = 5) as [-> | [-> | ->]] by lia; reflexivity.
Qed.
Print Assumptions C41_odd_refuted.

(** A cluster of one site cannot be used: asking about a bath site divides by zero. *)
Theorem C41_one_refuted :
  exists g, ladderbath_new 2 1 1 None None false = Ok g /\ lb_connected g 0 1 = UB.
Proof. exists (mklb 2 1 (mkladder 1 1 false false)). split; vm_compute; reflexivity. Qed.
Print Assumptions C41_one_refuted.

Example C41_nonvacuous : exists g, ladderbath_new 12 2 2 None None false = Ok g /\
  g = mklb (2 * 2 * (1 + 2)) 2 (mkladder 4 2 false false) /\
  lb_connected g 1 5 = Ok true /\ lb_handle g 1 5 = Ok 2 /\ lb_handle g 11 7 = Ok 7.
Proof.
  exists (mklb 12 2 (mkladder 4 2 false false)). repeat split; vm_compute; reflexivity.
Qed.

(** * C42 *)
(** Without periodic rows, and with an even number of rows if the columns are periodic: at most one neighbour in each direction. *)
Theorem C42_one_per_direction_partial : forall lx ly py i j k d,
  0 < ly -> ly * lx < 9223372036854775808 -> (py = true -> ly mod 2 = 0) ->
  let g := mkhoney (ly * lx) ly py false in
  in_range (ly * lx) i -> in_range (ly * lx) j -> in_range (ly * lx) k ->
  ho_conn g i j = Ok (Some d) -> ho_conn g i k = Ok (Some d) -> j = k.
Proof.
  intros lx ly py i j k d Hly Hsm He g Hi Hj Hk Ej Ek.
  destruct (coord_ex ly lx i Hly Hi) as (x & y & -> & Hy & Hx).
  destruct (coord_ex ly lx j Hly Hj) as (x1 & y1 & -> & Hy1 & Hx1).
  destruct (coord_ex ly lx k Hly Hk) as (x2 & y2 & -> & Hy2 & Hx2).
  apply ho_conn_any in Ej; auto. apply ho_conn_any in Ek; auto.
  destruct (hbond_unique lx ly py He d x y x1 y1 x2 y2 Hy Hy1 Hy2 Ej Ek) as [-> ->]. reflexivity.
Qed.
Print Assumptions C42_one_per_direction_partial.

(** Sites inside, with y = 0 or 1 modulo 4, have one neighbour in each direction. *)
Theorem C42_interior_partial : forall lx ly x y,
  0 < ly -> ly * lx < 9223372036854775808 ->
  let g := mkhoney (ly * lx) ly false false in
  0 < x < lx - 1 -> 0 < y < ly - 1 -> y mod 4 = 0 \/ y mod 4 = 1 ->
  forall d, 0 <= d <= 2 -> exists j, in_range (ly * lx) j /\ ho_conn g (y + x * ly) j = Ok (Some d).
Proof.
  intros lx ly x y Hly Hsm g Hx Hy Hm d Hd.
  assert (W : exists x' y', 0 <= x' < lx /\ 0 <= y' < ly /\ (hbond ly false d x y x' y' \/ hbond ly false d x' y' x y)).
  { assert (M1 : (y - 1) mod 4 = (y mod 4 - 1) mod 4) by now rewrite Zminus_mod_idemp_l.
    assert (M2 : (y - 1) mod 2 = ((y mod 4) - 1) mod 2).
    { rewrite (Z.div_mod y 4) at 1 by lia. replace (4 * (y / 4) + y mod 4 - 1) with ((y mod 4 - 1) + (2 * (y / 4)) * 2) by lia.
      now rewrite Z.mod_add by lia. }
    assert (M3 : y mod 2 = (y mod 4) mod 2).
    { rewrite (Z.div_mod y 4) at 1 by lia. replace (4 * (y / 4) + y mod 4) with (y mod 4 + (2 * (y / 4)) * 2) by lia.
      now rewrite Z.mod_add by lia. }
    unfold hbond. assert (d = 0 \/ d = 1 \/ d = 2) as [-> | [-> | ->]] by lia; destruct Hm as [Hm|Hm]; rewrite Hm in *.
    - exists (x + 1), (y + 1). split; [lia|split; [lia|]]. left. left. split; auto.
    - exists (x - 1), (y - 1). split; [lia|split; [lia|]]. right. left. split; auto. right. left. repeat split; auto; lia.
    - exists x, (y + 1). split; [lia|split; [lia|]]. left. right. left. split; auto.
    - exists x, (y - 1). split; [lia|split; [lia|]]. right. right. left. split; auto. left. repeat split; auto; lia.
    - exists x, (y - 1). split; [lia|split; [lia|]]. right. right. right. split; auto. left. repeat split; auto; lia.
    - exists x, (y + 1). split; [lia|split; [lia|]]. left. right. right. split; auto. }
  destruct W as (x' & y' & Hx' & Hy' & W). exists (y' + x' * ly). split; [apply coord_range; auto|].
  apply ho_conn_any; auto; lia.
Qed.
Print Assumptions C42_interior_partial.

(** Sites inside with y = 2 or 3 modulo 4 have no neighbour in the Y direction: two
    neighbours, not three. *)
Theorem C42_interior_refuted : forall lx ly x y j,
  0 < ly -> ly * lx < 9223372036854775808 ->
  let g := mkhoney (ly * lx) ly false false in
  0 < x < lx - 1 -> 0 < y < ly - 1 -> y mod 4 = 2 \/ y mod 4 = 3 ->
  in_range (ly * lx) j -> ho_conn g (y + x * ly) j <> Ok (Some 1).
Proof.
  intros lx ly x y j Hly Hsm g Hx Hy Hm Hj E.
  destruct (coord_ex ly lx j Hly Hj) as (x1 & y1 & -> & Hy1 & Hx1).
  apply ho_conn_any in E; auto; try lia. unfold hbond in E.
  destruct (mod24 y) as (q & p & Q & P). destruct (mod24 y1) as (q1 & p1 & Q1 & P1).
  destruct E as [[[E _]|[[_ E]|[E _]]]|[[E _]|[[_ E]|[E _]]]]; try discriminate E;
    (destruct E as [E|[E _]]; [lia|discriminate]).
Qed.
Print Assumptions C42_interior_refuted.

(** Two neighbours in one direction: with an odd periodic column length, and with
    periodic columns. *)
Theorem C42_one_per_direction_refuted :
  (let g := mkhoney 30 5 true false in
   ho_conn g 0 1 = Ok (Some 1) /\ ho_conn g 0 4 = Ok (Some 1)) /\
  (let g := mkhoney 40 10 false true in
   ho_conn g 8 9 = Ok (Some 1) /\ ho_conn g 8 39 = Ok (Some 1)).
Proof. vm_compute. auto. Qed.
Print Assumptions C42_one_per_direction_refuted.

Example C42_nonvacuous :
  let g := mkhoney 32 8 true false in
  ho_conn g 12 21 = Ok (Some 0) /\ ho_conn g 12 13 = Ok (Some 1) /\ ho_conn g 12 11 = Ok (Some 2) /\
  ho_conn g 8 15 = Ok (Some 2) /\ 8 mod 2 = 0.
Proof. vm_compute. auto. Qed.

(** * C79 *)
(** The cached matrix returns, for connected sites, the value computed when it was
    built, and zero for the others. *)
Theorem C79_cached_values : forall (R : cring) (L orbs : nat)
    (conn : nat -> nat -> bool) (calcDir : nat -> nat -> nat) (value : nat -> nat -> nat -> nat -> nat -> R),
  exists m, gt_cacheValues R L orbs (L * orbs) (base_index orbs) (fun i j => Ok (conn i j))
      (fun i j => Ok (calcDir i j)) (fun d i e j f => Ok (value d i e j f)) = Ok m /\
    forall i e j f, (i < L)%nat -> (e < orbs)%nat -> (j < L)%nat -> (f < orbs)%nat ->
      gt_value R (base_index orbs) m i e j f = Ok (if conn i j then value (calcDir i j) i e j f else c0).
Proof.
  intros R L orbs conn calcDir value.
  set (ix := fun i e => Some (e + i * orbs)%nat).
  assert (Hi : forall i e, (i < L)%nat -> (e < orbs)%nat -> base_index orbs i e = Ok (ix i e)).
  { intros i e _ He. unfold base_index. destruct (Nat.ltb_spec e orbs); [reflexivity|lia]. }
  assert (Hr : forall i e k, (i < L)%nat -> (e < orbs)%nat -> ix i e = Some k -> (k < L * orbs)%nat).
  { intros i e k Hi' He E. injection E as <-. nia. }
  assert (Hj : forall i e i' e' k, (i < L)%nat -> (e < orbs)%nat -> (i' < L)%nat -> (e' < orbs)%nat ->
    ix i e = Some k -> ix i' e' = Some k -> i = i' /\ e = e').
  { intros i e i' e' k Hi1 He1 Hi2 He2 E1 E2. injection E1 as <-. injection E2 as E2.
    destruct (idx_inj e i e' i' orbs He1 He2) as [-> ->]; [lia|]. auto. }
  set (C := fun i j : nat => Ok (conn i j)). set (D := fun i j : nat => Ok (calcDir i j)).
  set (V := fun d i e j f : nat => Ok (value d i e j f)).
  assert (Hv : forall i j e f, (i < L)%nat -> (j < L)%nat -> (e < orbs)%nat -> (f < orbs)%nat -> conn i j = true ->
    ix i e <> None -> ix j f <> None ->
    gt_calcValue R C D V i e j f = Ok (value (calcDir i j) i e j f)).
  { intros i j e f _ _ _ _ Hc _ _. unfold gt_calcValue, C. cbn [bind]. rewrite Hc. reflexivity. }
  destruct (cacheValues_ok R L orbs (L * orbs) ix conn (fun i e j f => value (calcDir i j) i e j f)
    (base_index orbs) C D V Hi Hr Hj (fun _ _ _ _ => eq_refl) Hv) as (m & E & A & B & W & H).
  exists m. split; auto. intros i e j f Hi' He Hj' Hf.
  rewrite (gt_value_ok R L orbs (L * orbs) ix conn (fun i e j f => value (calcDir i j) i e j f)
    (base_index orbs) C D V Hi Hr Hj (fun _ _ _ _ => eq_refl) Hv m i e j f (e + i * orbs)%nat (f + j * orbs)%nat); auto.
  f_equal. now apply H.
Qed.
Print Assumptions C79_cached_values.

(** With several orbitals the hopping matrix is Hermitian: exchanging the two ends
    conjugates the value. *)
Theorem C79_hermitian : forall (R : cring) (g : gdir R) handle sgn i e j f v,
  (1 < gd_orbitals g)%nat -> gd_general g = false -> (e < gd_orbitals g)%nat -> (f < gd_orbitals g)%nat -> i <> j ->
  (forall h, gd_constant g = false -> handle i j = Ok h -> exists h', handle j i = Ok h') ->
  gdir_value R handle sgn g i e j f = Ok v ->
  (j < i)%nat ->
  gdir_value R handle sgn g j f i e = Ok (cconj v).
Proof.
  intros R g handle sgn i e j f v Ho Hg He Hf Hne Hh Hv Hlt. unfold gdir_value in *. rewrite Hg in *.
  destruct (Nat.ltb_spec 1 (gd_orbitals g)); [|lia]. cbn [negb] in *.
  assert (L1 : (f + j * gd_orbitals g < e + i * gd_orbitals g)%nat) by nia.
  destruct (Nat.ltb_spec (e + i * gd_orbitals g) (f + j * gd_orbitals g)); [lia|].
  destruct (Nat.ltb_spec (f + j * gd_orbitals g) (e + i * gd_orbitals g)); [|lia].
  destruct (gd_constant g) eqn:Ec; cbn [bind] in *.
  - rewrite Hv. reflexivity.
  - destruct (handle i j) as [h| | |] eqn:Eh; try discriminate. cbn [bind] in Hv.
    destruct (Hh h eq_refl eq_refl) as [h' ->]. cbn [bind]. rewrite Hv. reflexivity.
Qed.
Print Assumptions C79_hermitian.

(** With one orbital it is not conjugated: a connector is the same in both orders of the sites, also if it is complex. *)
Theorem C79_single : forall (R : cring) (g : gdir R) handle sgn i j,
  gd_orbitals g = 1%nat -> gd_general g = false -> (gd_constant g = false -> handle i j = handle j i) ->
  gdir_value R handle sgn g i 0 j 0 = gdir_value R handle sgn g j 0 i 0.
Proof. intros R g handle sgn i j Ho Hg Hh. unfold gdir_value. rewrite Hg, Ho. cbn [Nat.ltb Nat.leb negb]. destruct (gd_constant g); [reflexivity|]. rewrite Hh by auto. reflexivity. Qed.
Print Assumptions C79_single.

Example C79_nonvacuous :
  let conn := fun i j : nat => ((S i =? j) || (S j =? i))%nat%bool in
  exists m, gt_cacheValues Zring 3 2 6 (base_index 2) (fun i j => Ok (conn i j))
      (fun i j => Ok 0%nat) (fun d i e j f => Ok (Z.of_nat (i + 10 * e + 100 * j + 1000 * f))) = Ok m /\
    gt_value Zring (base_index 2) m 1 1 2 0 = Ok 211 /\ gt_value Zring (base_index 2) m 0 1 2 0 = Ok 0 /\
  (let g := mkgdir (R := Zring) 2 true false [] [mkmat 2 2 [1; 2; 3; 4]] (mkmat 0 0 []) in
   gdir_value Zring (fun _ _ => Ok 0%nat) (fun _ _ => Ok 1) g 1 1 0 0 = Ok 2).
Proof. eexists. split; [vm_compute; reflexivity|]. vm_compute. auto. Qed.

(** * C80 *)
(** A chain with a gap between system and environment is the chain without the sites
    of the gap. *)
Theorem C80_chain_gap_partial : forall linSize per smax emin i1 i2, linSize < size_max ->
  0 <= smax < emin -> emin < linSize -> in_range linSize i1 -> in_range linSize i2 ->
  i1 <= smax \/ emin <= i1 -> i2 <= smax \/ emin <= i2 ->
  let g := mkchain linSize per 1 in
  gap_connected (chain_fringe g) (chain_connected g) smax emin i1 i2 =
  chain_connected (mkchain (smax + 1 + (linSize - emin)) per 1) (contract smax emin i1) (contract smax emin i2).
Proof. intros. now apply chain_gap_connected. Qed.
Print Assumptions C80_chain_gap_partial.

(** The coupling across the gap is the one between the last system site and its
    right neighbour; all others are as without a gap. *)
Theorem C80_chain_value_partial : forall T (val : Z -> Z -> res T) linSize per smax emin i1 i2, linSize < size_max ->
  0 <= smax < emin -> emin < linSize -> in_range linSize i1 -> in_range linSize i2 ->
  i1 <= smax \/ emin <= i1 -> i2 <= smax \/ emin <= i2 -> i1 <> i2 ->
  let g := mkchain linSize per 1 in
  gap_value (chain_fringe g) (chain_getSubstituteSite g) val smax emin i1 i2 =
  if (Z.min i1 i2 =? smax) && (Z.max i1 i2 =? emin) then val smax (smax + 1) else val i1 i2.
Proof.
  intros T val L per smax emin i1 i2 HL Hs He [H1 H1'] [H2 H2'] B1 B2 Hne g. unfold gap_value, g.
  rewrite !chain_gap_fringe by lia.
  destruct (Z.eqb_spec i1 smax), (Z.eqb_spec i1 emin), (Z.eqb_spec i2 smax), (Z.eqb_spec i2 emin),
    (Z.eqb_spec (Z.min i1 i2) smax), (Z.eqb_spec (Z.max i1 i2) emin); cbn [andb orb]; try reflexivity; try lia;
  destruct (Z.ltb_spec i2 i1); try lia; cbv beta iota; unfold chain_getSubstituteSite; cbn [ch_L];
  (match goal with |- context [emin <=? ?x] => destruct (Z.leb_spec emin x) end); try lia;
  (match goal with |- context [?x <? L] => destruct (Z.ltb_spec x L) end); try lia; cbn [bind]; f_equal; lia.
Qed.
Print Assumptions C80_chain_value_partial.

(** With LongChainDistance=2 two neighbouring system sites count as connected. *)
Theorem C80_chain_gap_refuted :
  let g := chain_new 10 None (Some 2) in
  gap_connected (chain_fringe g) (chain_connected g) 4 7 3 4 = true /\ chain_connected g 3 4 = false.
Proof. vm_compute. auto. Qed.
Print Assumptions C80_chain_gap_refuted.

Example C80_nonvacuous :
  let g := mkchain 10 false 1 in
  gap_connected (chain_fringe g) (chain_connected g) 3 7 3 7 = true /\
  gap_connected (chain_fringe g) (chain_connected g) 3 7 2 7 = false /\
  gap_value (chain_fringe g) (chain_getSubstituteSite g) (fun i j => Ok (10 * i + j)) 3 7 7 3 = Ok 34.
Proof. vm_compute. auto. Qed.
