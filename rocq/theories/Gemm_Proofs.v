(** Proofs about the blocked matrix product. *)
From Verif Require Import Prelude Ring Parallel_Model Parallel_Spec Parallel_Proofs Gemm_Model Gemm_Spec.
From Coq Require Import Ascii.
Local Open Scope nat_scope.

(** ---------- lists ---------- *)

Lemma traverse_ok {A B} (f : A -> res B) (g : A -> B) l :
  (forall a, In a l -> f a = Ok (g a)) -> traverse f l = Ok (map g l).
Proof.
  induction l as [|a l IH]; intros H; cbn [traverse map]; [reflexivity|].
  rewrite (H a) by (left; reflexivity). cbn [bind].
  rewrite IH by (intros b Hb; apply H; right; exact Hb). reflexivity.
Qed.

Lemma NoDup_flat_map {A B} (f : A -> list B) l :
  NoDup l -> (forall a, In a l -> NoDup (f a)) ->
  (forall a b x, In a l -> In b l -> In x (f a) -> In x (f b) -> a = b) ->
  NoDup (flat_map f l).
Proof.
  induction l as [|a l IH]; intros N H D; cbn [flat_map]; [constructor|].
  inversion N as [|a' l' Na Nl]; subst.
  assert (X : NoDup (f a)) by (apply H; left; reflexivity).
  assert (Y : NoDup (flat_map f l)).
  { apply IH; auto. - intros b Hb; apply H; right; exact Hb.
    - intros b c x Hb Hc. apply D; right; assumption. }
  assert (Z : forall x, In x (f a) -> ~ In x (flat_map f l)).
  { intros x Hx Hin. apply in_flat_map in Hin. destruct Hin as [b [Hb Hxb]].
    apply Na. rewrite (D a b x); auto; [left; reflexivity|right; exact Hb]. }
  clear - X Y Z. induction (f a) as [|x u IH]; cbn [app]; [exact Y|].
  inversion X as [|x' u' Nx Nu]; subst. constructor.
  - intros Hin. apply in_app_or in Hin. destruct Hin as [Hin|Hin]; [tauto|].
    apply (Z x); [left; reflexivity|exact Hin].
  - apply IH; auto. intros y Hy. apply Z. right. exact Hy.
Qed.

Lemma NoDup_map_inj {A B} (f : A -> B) l :
  NoDup l -> (forall a b, In a l -> In b l -> f a = f b -> a = b) -> NoDup (map f l).
Proof.
  induction l as [|a l IH]; intros N H; cbn [map]; [constructor|].
  inversion N as [|a' l' Na Nl]; subst. constructor.
  - intros Hin. apply in_map_iff in Hin. destruct Hin as [b [E Hb]].
    apply Na. rewrite (H a b); auto; [left; reflexivity|right; exact Hb].
  - apply IH; auto. intros b c Hb Hc. apply H; right; assumption.
Qed.

(** All positions of an m x n window, column by column. *)
Definition pairs (m n : nat) : list (nat * nat) :=
  flat_map (fun j => map (fun i => (i, j)) (seq 0 m)) (seq 0 n).

Lemma pairs_In m n i j : In (i, j) (pairs m n) <-> i < m /\ j < n.
Proof.
  unfold pairs. rewrite in_flat_map. split.
  - intros [j' [Hj H]]. apply in_seq in Hj. apply in_map_iff in H.
    destruct H as [i' [E Hi]]. apply in_seq in Hi. injection E as <- <-. lia.
  - intros [Hi Hj]. exists j. split; [apply in_seq; lia|].
    apply in_map_iff. exists i. split; [reflexivity|apply in_seq; lia].
Qed.

Lemma pairs_NoDup m n : NoDup (pairs m n).
Proof.
  unfold pairs. apply NoDup_flat_map.
  - apply seq_NoDup.
  - intros j _. apply NoDup_map_inj; [apply seq_NoDup|]. intros a b _ _ E. congruence.
  - intros j j' [x y] _ _ H H'. apply in_map_iff in H, H'.
    destruct H as [a [E _]]. destruct H' as [b [E' _]]. congruence.
Qed.

(** ---------- tiles ---------- *)

Lemma int_ok_iff x : int_ok x = true <-> in_int x.
Proof. unfold int_ok, in_int. change (2 ^ 31)%Z with 2147483648%Z. lia. Qed.

Lemma in_int_le a b : a <= b -> in_int b -> in_int a.
Proof. unfold in_int. lia. Qed.

(** One dimension: [q] blocks of size [s]. *)
Lemma blocks_facts m nb q : 0 < m -> 0 < nb -> q = nblocks m nb ->
  0 < q /\ exists s, block_size m q = Ok s /\ 1 <= s <= nb /\ (q - 1) * s < m /\ m <= q * s /\
    q * s <= m + q.
Proof.
  intros Hm Hb ->. unfold nblocks.
  set (q := (m + (nb - 1)) / nb).
  assert (E : m + (nb - 1) = nb * q + (m + (nb - 1)) mod nb) by (apply Nat.div_mod; lia).
  assert (L : (m + (nb - 1)) mod nb < nb) by (apply Nat.mod_upper_bound; lia).
  assert (Q : 0 < q) by nia.
  split; [exact Q|].
  unfold block_size. destruct (Nat.eqb_spec q 0) as [Z|_]; [lia|]. cbn [negb].
  assert (E2 : m = q * (m / q) + m mod q) by (apply Nat.div_mod; lia).
  assert (L2 : m mod q < q) by (apply Nat.mod_upper_bound; lia).
  set (d := m / q) in *. set (r := m mod q) in *.
  destruct (Nat.eqb_spec r 0) as [Z|Z].
  - exists d. split; [reflexivity|].
    assert (d <= nb) by nia. assert (1 <= d) by nia. nia.
  - exists (d + 1). split; [reflexivity|].
    assert (d + 1 <= nb) by nia. nia.
Qed.

(** The rows of block [b]. *)
Definition bsize (m s b : nat) : nat := Nat.min m (b * s + s) - b * s.

Lemma bsize_bounds m s q b : (q - 1) * s < m -> 1 <= s -> b < q ->
  1 <= bsize m s b <= s /\ b * s + bsize m s b <= m.
Proof. intros H1 H2 H3. unfold bsize. assert (b * s <= (q - 1) * s) by nia. lia. Qed.

Lemma bsize_cover m s q i : m <= q * s -> 1 <= s -> i < m ->
  exists b, b < q /\ b * s <= i < b * s + bsize m s b.
Proof.
  intros H1 H2 H3. exists (i / s). unfold bsize.
  assert (E : i = s * (i / s) + i mod s) by (apply Nat.div_mod; lia).
  assert (L : i mod s < s) by (apply Nat.mod_upper_bound; lia).
  split; [|nia]. apply Nat.div_lt_upper_bound; lia.
Qed.

Lemma bsize_disjoint m s b b' i : 1 <= s ->
  b * s <= i < b * s + bsize m s b -> b' * s <= i < b' * s + bsize m s b' -> b = b'.
Proof.
  unfold bsize. intros H1 H2 H3.
  assert (b * s <= i < b * s + s) by lia.
  assert (b' * s <= i < b' * s + s) by lia. nia.
Qed.

Lemma tile_shape_ok m n qi qj si sj ij :
  0 < qi -> 1 <= si -> 1 <= sj ->
  (qi - 1) * si < m -> (qj - 1) * sj < n -> ij < qi * qj ->
  in_int (qi * si + 1) -> in_int (qj * sj + 1) ->
  tile_shape m n qi si sj ij =
    Ok (ij mod qi * si, ij / qi * sj, bsize m si (ij mod qi), bsize n sj (ij / qi)) /\
  ij mod qi < qi /\ ij / qi < qj.
Proof.
  intros Hq Hi Hj Bi Bj Hij Ii Ij.
  assert (Lm : ij mod qi < qi) by (apply Nat.mod_upper_bound; lia).
  assert (E : ij = qi * (ij / qi) + ij mod qi) by (apply Nat.div_mod; lia).
  assert (Lj : ij / qi < qj) by (apply Nat.div_lt_upper_bound; lia).
  split; [|auto]. unfold tile_shape.
  replace ((ij - ij mod qi) / qi) with (ij / qi).
  2:{ assert (X : ij - ij mod qi = ij / qi * qi).
      { revert E. generalize (ij / qi) (ij mod qi). clear. intros d r E. subst ij. lia. }
      rewrite X, Nat.div_mul by lia. reflexivity. }
  set (a := ij mod qi) in *. set (b := ij / qi) in *. clearbody a b.
  assert (a * si + si <= qi * si) by nia. assert (b * sj + sj <= qj * sj) by nia.
  assert (A1 : int_ok (1 + a * si + si) = true) by (apply int_ok_iff; unfold in_int in *; lia).
  assert (A2 : int_ok (1 + b * sj + sj) = true) by (apply int_ok_iff; unfold in_int in *; lia).
  rewrite A1, A2. unfold bsize. apply f_equal. repeat match goal with |- (_, _) = (_, _) => apply f_equal2 end; lia.
Qed.

(** The positions tile after tile. *)
Definition tile_coords (m n qi si sj ij : nat) : list (nat * nat) :=
  map (fun '(i, j) => (ij mod qi * si + i, ij / qi * sj + j))
      (pairs (bsize m si (ij mod qi)) (bsize n sj (ij / qi))).

Lemma tile_coords_In m n qi si sj ij x y :
  In (x, y) (tile_coords m n qi si sj ij) <->
  ij mod qi * si <= x < ij mod qi * si + bsize m si (ij mod qi) /\
  ij / qi * sj <= y < ij / qi * sj + bsize n sj (ij / qi).
Proof.
  unfold tile_coords. rewrite in_map_iff. split.
  - intros [[i j] [E H]]. apply pairs_In in H. injection E as <- <-. lia.
  - intros [H1 H2]. exists (x - ij mod qi * si, y - ij / qi * sj). split.
    + f_equal; lia.
    + apply pairs_In. lia.
Qed.

Lemma tile_coords_NoDup m n qi si sj ij : NoDup (tile_coords m n qi si sj ij).
Proof.
  unfold tile_coords. apply NoDup_map_inj; [apply pairs_NoDup|].
  intros [a b] [c d] _ _ E. injection E. intros. f_equal; lia.
Qed.

Lemma tiles_perm m n qi qj si sj :
  0 < qi -> 1 <= si -> 1 <= sj ->
  (qi - 1) * si < m -> (qj - 1) * sj < n -> m <= qi * si -> n <= qj * sj ->
  Permutation (flat_map (tile_coords m n qi si sj) (seq 0 (qi * qj))) (pairs m n).
Proof.
  intros Hq Hi Hj Bi Bj Ci Cj. apply NoDup_Permutation.
  - apply NoDup_flat_map.
    + apply seq_NoDup.
    + intros ij _. apply tile_coords_NoDup.
    + intros u v [x y] Hu Hv H1 H2. apply tile_coords_In in H1, H2.
      destruct H1 as [A1 A2]. destruct H2 as [B1 B2].
      assert (u mod qi = v mod qi) by (apply (bsize_disjoint m si _ _ x); assumption).
      assert (u / qi = v / qi) by (apply (bsize_disjoint n sj _ _ y); assumption).
      rewrite (Nat.div_mod u qi), (Nat.div_mod v qi) by lia. congruence.
  - apply pairs_NoDup.
  - intros [x y]. rewrite pairs_In, in_flat_map. split.
    + intros [ij [Hij H]]. apply in_seq in Hij. apply tile_coords_In in H.
      destruct H as [A B].
      assert (Lm : ij mod qi < qi) by (apply Nat.mod_upper_bound; lia).
      assert (Lj : ij / qi < qj) by (apply Nat.div_lt_upper_bound; lia).
      pose proof (bsize_bounds m si qi (ij mod qi) Bi Hi Lm).
      pose proof (bsize_bounds n sj qj (ij / qi) Bj Hj Lj). lia.
    + intros [Hx Hy].
      destruct (bsize_cover m si qi x Ci Hi Hx) as [a [La Ha]].
      destruct (bsize_cover n sj qj y Cj Hj Hy) as [b [Lb Hb]].
      exists (a + b * qi). split; [apply in_seq; nia|].
      apply tile_coords_In. rewrite Nat.mod_add, Nat.div_add by lia.
      rewrite Nat.mod_small, Nat.div_small by lia. cbn [Nat.add]. auto.
Qed.

(** ---------- memory ---------- *)

Section Mem.
  Variable R : cring.
  Add Ring Rr : (c_ring R).
  Variables alpha beta : R.

  Notation exec := (fold_left (write R alpha beta)).

  Lemma exec_length us (C : list R) : length (exec us C) = length C.
  Proof.
    revert C; induction us as [|u us IH]; intros C; cbn [fold_left]; [reflexivity|].
    rewrite IH. apply upd_length.
  Qed.

  Lemma exec_other us (C : list R) p :
    ~ In p (map fst us) -> nth p (exec us C) c0 = nth p C c0.
  Proof.
    revert C; induction us as [|u us IH]; intros C H; cbn [fold_left]; [reflexivity|].
    cbn [map In] in H. rewrite IH by tauto. unfold write. apply nth_upd_neq.
    intros E. apply H. left. congruence.
  Qed.

  Lemma exec_at us (C : list R) p s :
    NoDup (map fst us) -> In (p, s) us -> p < length C ->
    nth p (exec us C) c0 = (alpha * s + beta * nth p C c0)%C.
  Proof.
    revert C; induction us as [|u us IH]; intros C N H L; [contradiction H|].
    cbn [map] in N. inversion N as [|x l Nx Nl]; subst.
    cbn [fold_left]. destruct H as [->|H].
    - cbn [fst] in Nx. rewrite exec_other by exact Nx. unfold write. cbn [fst snd].
      apply nth_upd_eq. exact L.
    - rewrite IH; auto; [|unfold write; rewrite upd_length; exact L].
      f_equal. f_equal. unfold write. apply nth_upd_neq. intros E. apply Nx.
      rewrite <- E. apply in_map_iff. exists (p, s). auto.
  Qed.
End Mem.

Lemma letter_flags t o : letter t o ->
  flagN t = (match o with Plain => true | _ => false end) /\
  flagT t = (match o with Trans => true | _ => false end) /\
  flagC t = (match o with Adjoint => true | _ => false end).
Proof. destruct o; intros [-> | ->]; repeat split. Qed.

Section Product.
  Variable R : cring.
  Add Ring Rr : (c_ring R).
  Variables (tA tB : ascii) (oA oB : op) (m n k : nat) (alpha beta : R).
  Variables (A B C : list R) (ldA ldB ldC : nat).
  Hypothesis LA : letter tA oA.
  Hypothesis LB : letter tB oB.
  Hypothesis HA : holds_op oA A ldA m k.
  Hypothesis HB : holds_op oB B ldB k n.
  Hypothesis HC : holds C ldC m n.

  (** What the element at (i,j) is given. *)
  Definition dot (i j : nat) : R :=
    if ceqb alpha c0 then c0
    else sumn k (fun l => cmul (elem_op oA A ldA i l) (elem_op oB B ldB l j)).
  Definition upd_at (ij : nat * nat) : update R := (fst ij + snd ij * ldC, dot (fst ij) (snd ij)).

  Lemma read_left i0 i l : i0 + i < m -> l < k ->
    read_op R tA A (if is_notrans tA then i0 else i0 * ldA) ldA i l = Ok (elem_op oA A ldA (i0 + i) l).
  Proof.
    clear HB HC LB. intros Hi Hl. destruct (letter_flags _ _ LA) as [F1 [F2 F3]].
    unfold read_op, is_notrans. rewrite F1, F2, F3.
    destruct oA; cbn [negb andb holds_op] in *; destruct HA as [_ [_ H]].
    - rewrite (@vget_ok _ A _ c0) by (apply H; lia). reflexivity.
    - specialize (H l (i0 + i) Hl Hi).
      replace (i0 * ldA + l + i * ldA) with (l + (i0 + i) * ldA) by lia.
      rewrite (@vget_ok _ A _ c0) by exact H. reflexivity.
    - specialize (H l (i0 + i) Hl Hi).
      replace (i0 * ldA + l + i * ldA) with (l + (i0 + i) * ldA) by lia.
      rewrite (@vget_ok _ A _ c0) by exact H. reflexivity.
  Qed.

  Lemma read_right j0 j l : j0 + j < n -> l < k ->
    read_op R tB B (if is_notrans tB then j0 * ldB else j0) ldB l j = Ok (elem_op oB B ldB l (j0 + j)).
  Proof.
    clear HA HC LA. intros Hi Hl. destruct (letter_flags _ _ LB) as [F1 [F2 F3]].
    unfold read_op, is_notrans. rewrite F1, F2, F3.
    destruct oB; cbn [negb andb holds_op] in *; destruct HB as [_ [_ H]].
    - specialize (H l (j0 + j) Hl Hi).
      replace (j0 * ldB + l + j * ldB) with (l + (j0 + j) * ldB) by lia.
      rewrite (@vget_ok _ B _ c0) by exact H. reflexivity.
    - rewrite (@vget_ok _ B _ c0) by (apply H; lia). reflexivity.
    - rewrite (@vget_ok _ B _ c0) by (apply H; lia). reflexivity.
  Qed.

  Lemma gemm_ok i0 j0 mm nn : i0 + mm <= m -> j0 + nn <= n ->
    gemm R tA tB mm nn k alpha A (if is_notrans tA then i0 else i0 * ldA) ldA
      B (if is_notrans tB then j0 * ldB else j0) ldB (length C) (i0 + j0 * ldC) ldC =
    Ok (map (fun '(i, j) => upd_at (i0 + i, j0 + j)) (pairs mm nn)).
  Proof.
    intros Hm Hn. unfold gemm.
    assert (X1 : negb (flagN tA || flagT tA || flagC tA) = false).
    { destruct (letter_flags _ _ LA) as [F1 [F2 F3]]. rewrite F1, F2, F3. destruct oA; reflexivity. }
    assert (X2 : negb (flagN tB || flagT tB || flagC tB) = false).
    { destruct (letter_flags _ _ LB) as [F1 [F2 F3]]. rewrite F1, F2, F3. destruct oB; reflexivity. }
    assert (X3 : (ldA <? Nat.max 1 (if flagN tA then mm else k)) = false).
    { destruct (letter_flags _ _ LA) as [F1 _]. rewrite F1. apply Nat.ltb_ge. clear F1 X1 X2.
      destruct oA; cbn [holds_op] in HA; destruct HA as [U [V _]]; clear - U V Hm; lia. }
    assert (X4 : (ldB <? Nat.max 1 (if flagN tB then k else nn)) = false).
    { destruct (letter_flags _ _ LB) as [F1 _]. rewrite F1. apply Nat.ltb_ge. clear F1 X1 X2 X3.
      destruct oB; cbn [holds_op] in HB; destruct HB as [U [V _]]; clear - U V Hn; lia. }
    assert (X5 : (ldC <? Nat.max 1 mm) = false).
    { destruct HC as [U [V _]]. apply Nat.ltb_ge. clear - U V Hm. lia. }
    rewrite X1, X2, X3, X4, X5. clear X1 X2 X3 X4 X5.
    fold (pairs mm nn). apply traverse_ok. intros [i j] Hij.
    apply pairs_In in Hij. destruct Hij as [Hi Hj].
    match goal with |- (do s <- ?d ;; _) = _ =>
      assert (D : d = Ok (dot (i0 + i) (j0 + j))) end.
    { unfold dot. destruct (ceqb alpha c0); [reflexivity|].
      loopM (fun l s => s = sumn l (fun l => cmul (elem_op oA A ldA (i0 + i) l)
                                               (elem_op oB B ldB l (j0 + j)))) as s E H.
      - reflexivity.
      - intros l s Hl ->. rewrite read_left by lia. cbn [bind].
        rewrite read_right by lia. cbn [bind]. eexists. split; [reflexivity|].
        rewrite sumn_S. reflexivity.
      - cbn [Nat.add] in H. rewrite E. f_equal. exact H. }
    rewrite D. cbn [bind].
    assert (G : i0 + j0 * ldC + i + j * ldC <? length C = true).
    { apply Nat.ltb_lt. destruct HC as [_ [_ H]].
      specialize (H (i0 + i) (j0 + j)). lia. }
    rewrite G. unfold upd_at. cbn [fst snd]. f_equal. f_equal. lia.
  Qed.

  Lemma upd_at_NoDup l : Permutation l (map upd_at (pairs m n)) -> NoDup (map fst l).
  Proof.
    clear LA LB HA HB. intros P. apply (Permutation_NoDup (l := map fst (map upd_at (pairs m n)))).
    - apply Permutation_map, Permutation_sym, P.
    - rewrite map_map. apply NoDup_map_inj; [apply pairs_NoDup|].
      intros [i j] [i' j'] H H' E. apply pairs_In in H, H'.
      unfold upd_at in E. cbn [fst snd] in E. destruct HC as [U [V _]].
      assert (j = j') by nia. subst. f_equal. lia.
  Qed.

  Lemma exec_product us : Permutation us (map upd_at (pairs m n)) ->
    is_product oA oB m n k alpha A ldA B ldB beta C ldC (fold_left (write R alpha beta) us C).
  Proof.
    intros P. pose proof (upd_at_NoDup _ P) as N. split; [apply exec_length|]. split.
    - intros i j Hi Hj. unfold elem at 1.
      rewrite exec_at with (s := dot i j); auto.
      + unfold dot, elem. destruct (ceqb_spec R alpha c0) as [E|E]; [|reflexivity].
        rewrite E. ring.
      + apply (Permutation_in _ (Permutation_sym P)). apply in_map_iff.
        exists (i, j). split; [reflexivity|]. apply pairs_In. auto.
      + destruct HC as [_ [_ H]]. apply H; auto.
    - intros p H. apply exec_other. intros Hin.
      apply (Permutation_in _ (Permutation_map fst P)) in Hin.
      rewrite map_map in Hin. apply in_map_iff in Hin.
      destruct Hin as [[i j] [E Hij]]. apply pairs_In in Hij.
      apply (H i j); try tauto. symmetry. exact E.
  Qed.

  Hypothesis IA : in_int (ldA * stored_cols oA m k).
  Hypothesis IB : in_int (ldB * stored_cols oB k n).
  Hypothesis IC : in_int (ldC * n).
  Hypothesis Im : in_int (2 * m + 1).
  Hypothesis In' : in_int (2 * n + 1).

  Lemma tile_ok nb qi qj si sj ij :
    0 < m -> 0 < n -> 0 < nb ->
    qi = nblocks m nb -> qj = nblocks n nb ->
    block_size m qi = Ok si -> block_size n qj = Ok sj -> ij < qi * qj ->
    tile R tA tB m n k alpha A ldA B ldB (length C) ldC qi si sj ij =
    Ok (map upd_at (tile_coords m n qi si sj ij)).
  Proof.
    intros Hm Hn Hb Ei Ej Si Sj Hij.
    destruct (blocks_facts m nb qi Hm Hb Ei) as [Qi [s [Es [[S1 S1'] [S2 [S3 S4]]]]]].
    destruct (blocks_facts n nb qj Hn Hb Ej) as [Qj [s' [Es' [[T1 T1'] [T2 [T3 T4]]]]]].
    assert (s = si) by congruence. assert (s' = sj) by congruence. subst s s'.
    assert (U1 : qi <= m) by nia. assert (U2 : qj <= n) by nia.
    destruct (tile_shape_ok m n qi qj si sj ij) as [E [Lm Lj]]; auto;
      try (unfold in_int in *; lia).
    unfold tile. rewrite E. cbn [bind].
    destruct (bsize_bounds m si qi (ij mod qi) S2 S1 Lm) as [V1 V2].
    destruct (bsize_bounds n sj qj (ij / qi) T2 T1 Lj) as [W1 W2].
    set (i0 := ij mod qi * si) in *. set (j0 := ij / qi * sj) in *.
    assert (N1 : is_notrans tA = match oA with Plain => true | _ => false end).
    { destruct (letter_flags _ _ LA) as [_ [F2 F3]]. unfold is_notrans. rewrite F2, F3. destruct oA; reflexivity. }
    assert (N2 : is_notrans tB = match oB with Plain => true | _ => false end).
    { destruct (letter_flags _ _ LB) as [_ [F2 F3]]. unfold is_notrans. rewrite F2, F3. destruct oB; reflexivity. }
    assert (Li : i0 <= m) by (clear - V2; lia).
    assert (Lj' : j0 + 1 <= n) by (clear - W1 W2; lia).
    assert (Li' : i0 <= ldC) by (destruct HC as [_ [H _]]; clear - Li H; lia).
    assert (X1 : int_ok (if is_notrans tA then i0 else i0 * ldA) = true).
    { apply int_ok_iff. rewrite N1. clear N1 N2.
      destruct oA; cbn [stored_cols] in IA.
      - apply (in_int_le _ (2 * m + 1)); [clear - Li; lia|exact Im].
      - apply (in_int_le _ (ldA * m)); [|exact IA]. rewrite Nat.mul_comm. apply Nat.mul_le_mono_l. exact Li.
      - apply (in_int_le _ (ldA * m)); [|exact IA]. rewrite Nat.mul_comm. apply Nat.mul_le_mono_l. exact Li. }
    assert (X2 : int_ok (if is_notrans tB then j0 * ldB else j0) = true).
    { apply int_ok_iff. rewrite N2. clear N1 N2.
      destruct oB; cbn [stored_cols] in IB.
      - apply (in_int_le _ (ldB * n)); [|exact IB]. rewrite Nat.mul_comm. apply Nat.mul_le_mono_l. clear - Lj'; lia.
      - apply (in_int_le _ (2 * n + 1)); [clear - Lj'; lia|exact In'].
      - apply (in_int_le _ (2 * n + 1)); [clear - Lj'; lia|exact In']. }
    assert (X3 : int_ok (i0 + j0 * ldC) = true).
    { apply int_ok_iff. apply (in_int_le _ (ldC * n)); [|exact IC].
      assert (Y : (j0 + 1) * ldC <= n * ldC) by (apply Nat.mul_le_mono_r; exact Lj').
      clear - Y Li'. lia. }
    clear N1 N2.
    rewrite X1, X2, X3. clear X1 X2 X3. rewrite gemm_ok by (clear - V2 W2; lia). f_equal.
    unfold tile_coords. rewrite map_map. apply map_ext. intros [i j]. reflexivity.
  Qed.

  Lemma gemmR_ok pt nb nthreads :
    (if pt : bool then 0 < nthreads else nthreads = 1) ->
    isSmall nb m n = true \/ (0 < m /\ 0 < n) ->
    exists ths, gemmR R pt nb nthreads tA tB m n k alpha A ldA B ldB (length C) ldC = Ok ths /\
      Permutation (map snd (concat ths)) (map upd_at (pairs m n)) /\
      length ths <= Nat.max 1 nthreads.
  Proof.
    intros Ht Hs. unfold gemmR. destruct (isSmall nb m n) eqn:Es.
    - pose proof (gemm_ok 0 0 m n) as G. cbn [Nat.mul Nat.add] in G.
      replace (if is_notrans tA then 0 else 0) with 0 in G by (destruct (is_notrans tA); reflexivity).
      replace (if is_notrans tB then 0 else 0) with 0 in G by (destruct (is_notrans tB); reflexivity).
      rewrite G by lia. cbn [bind]. eexists. split; [reflexivity|]. cbn [concat length].
      split; [|lia].
      rewrite app_nil_r, map_map. cbn [snd]. rewrite map_id.
      match goal with |- Permutation ?x ?y => replace x with y; [reflexivity|] end.
      apply map_ext. intros [i j]. reflexivity.
    - destruct Hs as [Hs|[Hm Hn]]; [discriminate|].
      assert (Hb : 0 < nb) by (unfold isSmall in Es; destruct (Nat.eqb_spec nb 0); [discriminate|lia]).
      destruct (blocks_facts m nb _ Hm Hb eq_refl) as [Qi [si [Ei [[S1 S1'] [S2 [S3 S4]]]]]].
      destruct (blocks_facts n nb _ Hn Hb eq_refl) as [Qj [sj [Ej [[T1 T1'] [T2 [T3 T4]]]]]].
      rewrite Ei, Ej. cbn [bind].
      set (qi := nblocks m nb) in *. set (qj := nblocks n nb) in *.
      assert (Q : 0 < qi * qj) by nia.
      assert (TH : exists ths, (if pt then parallelFor 0 (qi * qj) (Nat.min (qi * qj) nthreads)
         else parallelFor_serial 0 (qi * qj) (Nat.min (qi * qj) nthreads)) = Ok ths /\
         concat ths = seq 0 (qi * qj) /\ length ths <= nthreads).
      { destruct pt.
        - destruct (parallelFor_ok 0 (qi * qj) (Nat.min (qi * qj) nthreads)) as [ths [E1 [E2 E3]]];
            [lia|lia|]. exists ths. split; [exact E1|]. split; [|lia]. rewrite E3. f_equal. lia.
        - subst nthreads. replace (Nat.min (qi * qj) 1) with 1 by lia.
          unfold parallelFor_serial. cbn [Nat.eqb negb]. eexists. split; [reflexivity|].
          cbn [concat length]. split; [|lia]. rewrite app_nil_r, Nat.sub_0_r. reflexivity. }
      destruct TH as [ths [E1 [E2 E3]]]. rewrite E1. cbn [bind].
      assert (Hin : forall calls ij, In calls ths -> In ij calls -> ij < qi * qj).
      { intros calls ij H1 H2. assert (H3 : In ij (seq 0 (qi * qj))).
        { rewrite <- E2. apply in_concat. eauto. }
        apply in_seq in H3. lia. }
      rewrite traverse_ok with (g := fun calls =>
        flat_map (fun ij => map (fun u => (ij, u)) (map upd_at (tile_coords m n qi si sj ij))) calls).
      2:{ intros calls Hc.
          rewrite traverse_ok with (g := fun ij => map (fun u => (ij, u)) (map upd_at (tile_coords m n qi si sj ij))).
          2:{ intros ij Hij. rewrite (tile_ok nb qi qj) by eauto. reflexivity. }
          cbn [bind]. rewrite flat_map_concat_map. reflexivity. }
      eexists. split; [reflexivity|]. split; [|rewrite map_length; lia].
      rewrite <- flat_map_concat_map.
      match goal with |- Permutation ?x _ =>
        replace x with (map upd_at (flat_map (tile_coords m n qi si sj) (seq 0 (qi * qj)))) end.
      + apply Permutation_map. apply tiles_perm; auto; lia.
      + rewrite <- E2. clear. induction ths as [|c ths IH]; [reflexivity|].
        cbn [concat flat_map]. rewrite flat_map_app, !map_app, IH. f_equal. clear IH.
        induction c as [|x c IH]; [reflexivity|].
        cbn [flat_map]. rewrite !map_app, IH, !map_map. reflexivity.
  Qed.
End Product.
