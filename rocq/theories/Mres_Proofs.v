From Coq Require Import ZArith List Bool Lia.
From Verif Require Import Prelude Mres_Model Mres_Spec.
Import ListNotations.
Local Open Scope Z_scope.

(** ** Bytes and words *)
Definition bn (mem : memory) (a : Z) (n : nat) : list Z := map (fun k => mem (a + Z.of_nat k)) (seq 0 n).

Lemma bn_length mem a n : length (bn mem a n) = n.
Proof. unfold bn. rewrite map_length, seq_length. reflexivity. Qed.

Lemma bn_nth mem a n k : (k < n)%nat -> nth k (bn mem a n) 0 = mem (a + Z.of_nat k).
Proof.
  intros H. unfold bn.
  rewrite (nth_indep _ 0 (mem (a + Z.of_nat 0))) by (rewrite map_length, seq_length; lia).
  rewrite (map_nth (fun k => mem (a + Z.of_nat k)) (seq 0 n) 0%nat k), seq_nth by lia. reflexivity.
Qed.

Lemma nth_skipn' {A} (l : list A) i k d : nth k (skipn i l) d = nth (i + k) l d.
Proof.
  revert l. induction i as [|i IH]; intros l; [reflexivity|].
  destruct l as [|x l]; [destruct k; reflexivity|]. cbn [skipn Nat.add nth]. apply IH.
Qed.

Lemma nth_firstn' {A} (l : list A) n k d : (k < n)%nat -> nth k (firstn n l) d = nth k l d.
Proof.
  revert l k. induction n as [|n IH]; intros l k H; [lia|].
  destruct l as [|x l]; [reflexivity|]. destruct k; [reflexivity|]. cbn. apply IH. lia.
Qed.

Lemma slice_ext (l l' : list Z) i n : (i + n <= length l)%nat -> length l' = n ->
  (forall k, (k < n)%nat -> nth (i + k) l 0 = nth k l' 0) -> firstn n (skipn i l) = l'.
Proof.
  intros H1 H2 H3. apply (list_eq_nth _ _ 0).
  - rewrite firstn_length, skipn_length. lia.
  - intros k Hk. rewrite firstn_length, skipn_length in Hk.
    rewrite nth_firstn' by lia. rewrite nth_skipn'. apply H3. lia.
Qed.

Lemma bn_slice mem a N i n : (i + n <= N)%nat -> firstn n (skipn i (bn mem a N)) = bn mem (a + Z.of_nat i) n.
Proof.
  intros H. apply slice_ext; rewrite ?bn_length; auto.
  intros k Hk. rewrite !bn_nth by lia. f_equal. lia.
Qed.

Lemma bn_block mem dst block i n : (i + n <= length block)%nat ->
  bn (with_block mem (dst, block)) (dst + Z.of_nat i) n = firstn n (skipn i block).
Proof.
  intros H. symmetry. apply slice_ext; rewrite ?bn_length; auto.
  intros k Hk. rewrite bn_nth by lia. unfold with_block. cbn [fst snd].
  destruct (Z.leb_spec dst (dst + Z.of_nat i + Z.of_nat k)); [|lia].
  destruct (Z.ltb_spec (dst + Z.of_nat i + Z.of_nat k) (dst + Z.of_nat (length block))); [|lia].
  cbn [andb]. f_equal. lia.
Qed.

Lemma bytes_of_length n v : length (bytes_of n v) = n.
Proof. revert v. induction n; intros; cbn; auto. Qed.

Lemma word_of_bytes n v : 0 <= v < 256 ^ Z.of_nat n -> word_of (bytes_of n v) = v.
Proof.
  revert v. induction n as [|n IH]; intros v H; cbn [bytes_of word_of].
  - cbn in H. lia.
  - rewrite Nat2Z.inj_succ, Z.pow_succ_r in H by lia. rewrite IH.
    + rewrite (Z.div_mod v 256) at 3 by lia. lia.
    + split; [apply Z.div_pos; lia|apply Z.div_lt_upper_bound; lia].
Qed.

Lemma adjust_word_length b offset offsets : length b = 8%nat -> length (adjust_word b offset offsets) = 8%nat.
Proof. intros H. unfold adjust_word. destruct (_ =? 0); [exact H|apply bytes_of_length]. Qed.

Lemma adjust_words_length k b offset offsets : length b = (8 * k)%nat ->
  length (adjust_words k b offset offsets) = (8 * k)%nat.
Proof.
  revert b. induction k as [|k IH]; intros b H; cbn [adjust_words]; [reflexivity|].
  rewrite app_length, adjust_word_length, IH; [lia| |].
  - rewrite skipn_length. lia.
  - rewrite firstn_length. lia.
Qed.

Lemma adjust_words_slice k b offset offsets i : length b = (8 * k)%nat -> (i < k)%nat ->
  firstn 8 (skipn (8 * i) (adjust_words k b offset offsets)) =
  adjust_word (firstn 8 (skipn (8 * i) b)) offset offsets.
Proof.
  revert b i. induction k as [|k IH]; intros b i H Hi; [lia|]. cbn [adjust_words].
  assert (L8 : length (adjust_word (firstn 8 b) offset offsets) = 8%nat).
  { apply adjust_word_length. rewrite firstn_length. lia. }
  destruct i as [|i].
  - rewrite Nat.mul_0_r. cbn [skipn]. rewrite firstn_app, L8, Nat.sub_diag, firstn_O, app_nil_r.
    rewrite firstn_all2 by lia. reflexivity.
  - replace (8 * S i)%nat with (8 + 8 * i)%nat by lia.
    rewrite skipn_app, L8. rewrite skipn_all2 by lia. cbn [app].
    replace (8 + 8 * i - 8)%nat with (8 * i)%nat by lia. rewrite IH.
    + f_equal. f_equal. rewrite !skipn_skipn' || (rewrite <- (firstn_skipn 8 b) at 2; rewrite skipn_app, firstn_length;
        replace (Nat.min 8 (length b)) with 8%nat by lia; rewrite (skipn_all2 (firstn 8 b)) by (rewrite firstn_length; lia);
        cbn [app]; f_equal; lia).
    + rewrite skipn_length. lia.
    + lia.
Qed.

(** ** Gaps *)
Lemma corr_acc v offs c : correctionForHoles v offs c = c + correctionForHoles v offs 0.
Proof.
  revert c. induction offs as [|[s o] offs IH]; intros c; cbn [correctionForHoles]; [lia|].
  destruct (v <? s); [lia|]. rewrite IH. rewrite (IH (0 + o)). lia.
Qed.

Fixpoint offs (endp : Z) (cs : list chunk) : list (Z * Z) :=
  match cs with
  | [] => []
  | c :: cs' => (ck_ptr c, (ck_ptr c - endp) mod 8 - (ck_ptr c - endp)) :: offs (ck_ptr c + ck_len c) cs'
  end.

Fixpoint last_pos (pos endp : Z) (cs : list chunk) : Z :=
  match cs with
  | [] => pos
  | c :: cs' => last_pos (pos + (ck_ptr c - endp) mod 8 + ck_len c) (ck_ptr c + ck_len c) cs'
  end.

Lemma corr_zero cs endp v : in_order endp cs -> v <= endp -> correctionForHoles v (offs endp cs) 0 = 0.
Proof.
  revert endp v. induction cs as [|c cs IH]; intros endp v H Hv; cbn [offs correctionForHoles]; [reflexivity|].
  destruct H as (H1 & H2 & H3). destruct (Z.ltb_spec v (ck_ptr c)); [reflexivity|].
  assert (v = endp) by lia. assert (ck_ptr c = endp) by lia. subst v. rewrite H4, Z.sub_diag, Zmod_0_l, Z.sub_diag.
  rewrite corr_acc, IH; [lia|rewrite <- H4 at 1; exact H3|lia].
Qed.

Lemma corr_places cs pos endp c p a : in_order endp cs -> In (c, p) (places pos endp cs) ->
  ck_ptr c <= a <= ck_ptr c + ck_len c ->
  correctionForHoles a (offs endp cs) 0 = (p - pos) - (ck_ptr c - endp) /\ endp <= ck_ptr c.
Proof.
  revert pos endp. induction cs as [|x cs IH]; intros pos endp H Hin Ha; cbn [places] in Hin; [destruct Hin|].
  destruct H as (H1 & H2 & H3). cbn [offs correctionForHoles].
  destruct Hin as [E|Hin].
  - injection E as -> <-. destruct (Z.ltb_spec a (ck_ptr c)); [lia|].
    rewrite corr_acc, corr_zero by (auto; lia). lia.
  - destruct (IH _ _ H3 Hin Ha) as (E & L). destruct (Z.ltb_spec a (ck_ptr x)); [lia|].
    rewrite corr_acc, E. lia.
Qed.

(** The gaps kept. *)
Fixpoint gaps (endp : Z) (cs : list chunk) : list Z :=
  match cs with [] => [] | c :: cs' => (ck_ptr c - endp) mod 8 :: gaps (ck_ptr c + ck_len c) cs' end.

Lemma findSizes_loop_ok cs endp total maxHole acc : in_order endp cs ->
  exists mh, findSizes_loop cs endp total maxHole acc =
    Ok (last_pos total endp cs, mh, acc ++ offs endp cs) /\ maxHole <= mh /\
    Forall (fun h => h <= mh) (gaps endp cs).
Proof.
  revert endp total maxHole acc. induction cs as [|c cs IH]; intros endp total maxHole acc H.
  - exists maxHole. cbn. rewrite app_nil_r. repeat split; [lia|constructor].
  - destruct H as (H1 & H2 & H3). cbn [findSizes_loop offs last_pos gaps].
    destruct (Z.ltb_spec (ck_ptr c) endp); [lia|].
    edestruct (IH _ (total + ck_len c + (ck_ptr c - endp) mod 8)
      (if maxHole <? (ck_ptr c - endp) mod 8 then (ck_ptr c - endp) mod 8 else maxHole)
      (acc ++ [(ck_ptr c, (ck_ptr c - endp) mod 8 - (ck_ptr c - endp))]) H3) as (mh & E & L & F).
    exists mh. rewrite E, <- app_assoc.
    replace (total + ck_len c + (ck_ptr c - endp) mod 8) with (total + (ck_ptr c - endp) mod 8 + ck_len c) by lia.
    split; [reflexivity|].
    destruct (Z.ltb_spec maxHole ((ck_ptr c - endp) mod 8)).
    + split; [lia|]. constructor; [lia|exact F].
    + split; [lia|]. constructor; [lia|exact F].
Qed.

(** ** The image *)
Section Image.
  Variable mem : memory.
  Variable zeroes : Z * Z.
  Variable offset : Z.
  Variable off : list (Z * Z).

  Definition cimg (c : chunk) : list Z :=
    match ck_type c with
    | MEMORY_HEAPPTR => adjust_words (Z.to_nat (ck_len c / 8)) (bn mem (ck_ptr c) (Z.to_nat (ck_len c))) offset off
    | _ => bn mem (ck_ptr c) (Z.to_nat (ck_len c))
    end.

  Definition words_ok (c : chunk) : Prop := 0 < ck_len c /\ (ck_type c = MEMORY_HEAPPTR -> ck_len c mod 8 = 0).

  Lemma len_div8 n : 0 < n -> n mod 8 = 0 -> Z.to_nat n = (8 * Z.to_nat (n / 8))%nat /\ 8 <= n.
  Proof. intros H1 H2. pose proof (Z.div_mod n 8 ltac:(lia)). assert (0 < n / 8) by lia. lia. Qed.

  Lemma copyData_ok c : words_ok c -> copyData mem c offset off = Ok (cimg c).
  Proof.
    intros (H1 & H2). unfold copyData, cimg, bytes_at. destruct (ck_type c); try reflexivity.
    specialize (H2 eq_refl). destruct (len_div8 _ H1 H2) as (_ & H3).
    unfold adjustPointer. rewrite H2. destruct (Z.ltb_spec (ck_len c) 8); [lia|]. reflexivity.
  Qed.

  Lemma cimg_length c : words_ok c -> length (cimg c) = Z.to_nat (ck_len c).
  Proof.
    intros (H1 & H2). unfold cimg. destruct (ck_type c); try apply bn_length.
    destruct (len_div8 _ H1 (H2 eq_refl)) as (H3 & _). rewrite adjust_words_length; [lia|].
    rewrite bn_length. exact H3.
  Qed.

  Fixpoint imgs (endp : Z) (cs : list chunk) : list Z :=
    match cs with
    | [] => []
    | c :: cs' => repeat (snd zeroes) (Z.to_nat ((ck_ptr c - endp) mod 8)) ++ cimg c ++ imgs (ck_ptr c + ck_len c) cs'
    end.

  Lemma last_pos_shift cs pos endp d : last_pos (pos + d) endp cs = last_pos pos endp cs + d.
  Proof.
    revert pos endp. induction cs as [|c cs IH]; intros pos endp; cbn [last_pos]; [reflexivity|].
    rewrite <- IH. f_equal. lia.
  Qed.

  Lemma imgs_length cs endp pos : Forall words_ok cs ->
    Z.of_nat (length (imgs endp cs)) = last_pos pos endp cs - pos.
  Proof.
    revert endp pos. induction cs as [|c cs IH]; intros endp pos H; cbn [imgs last_pos length]; [lia|].
    inversion H as [|? ? H1 H2]; subst. rewrite !app_length, repeat_length, cimg_length by auto.
    rewrite !Nat2Z.inj_add, (IH _ (pos + (ck_ptr c - endp) mod 8 + ck_len c) H2).
    pose proof (Z.mod_pos_bound (ck_ptr c - endp) 8 ltac:(lia)). destruct H1. lia.
  Qed.

  Lemma imgs_pos cs endp pos : Forall words_ok cs -> pos <= last_pos pos endp cs.
  Proof. intros H. pose proof (imgs_length cs endp pos H). lia. Qed.

  Lemma places_bounds cs pos endp c p : Forall words_ok cs -> In (c, p) (places pos endp cs) ->
    pos <= p /\ p + ck_len c <= last_pos pos endp cs /\ In c cs.
  Proof.
    revert pos endp. induction cs as [|x cs IH]; intros pos endp H Hin; cbn [places] in Hin; [destruct Hin|].
    inversion H as [|? ? H1 H2]; subst. cbn [last_pos].
    pose proof (Z.mod_pos_bound (ck_ptr x - endp) 8 ltac:(lia)).
    destruct Hin as [E|Hin].
    - injection E as -> <-. pose proof (imgs_pos cs (ck_ptr c + ck_len c) (pos + (ck_ptr c - endp) mod 8 + ck_len c) H2).
      split; [lia|]. split; [lia|left; reflexivity].
    - destruct (IH _ _ H2 Hin) as (A & B & C). destruct H1. split; [lia|]. split; [lia|right; exact C].
  Qed.

  Lemma imgs_slice cs pos endp c p : Forall words_ok cs -> In (c, p) (places pos endp cs) ->
    firstn (Z.to_nat (ck_len c)) (skipn (Z.to_nat (p - pos)) (imgs endp cs)) = cimg c.
  Proof.
    revert pos endp. induction cs as [|x cs IH]; intros pos endp H Hin; cbn [places] in Hin; [destruct Hin|].
    inversion H as [|? ? H1 H2]; subst. cbn [imgs].
    pose proof (Z.mod_pos_bound (ck_ptr x - endp) 8 ltac:(lia)) as Hm.
    destruct Hin as [E|Hin].
    - injection E as -> <-. replace (pos + (ck_ptr c - endp) mod 8 - pos) with ((ck_ptr c - endp) mod 8) by lia.
      rewrite skipn_app, repeat_length, Nat.sub_diag. rewrite skipn_all2 by (rewrite repeat_length; lia).
      cbn [app skipn]. rewrite firstn_app, cimg_length, Nat.sub_diag, firstn_O, app_nil_r by auto.
      apply firstn_all2. rewrite cimg_length by auto. lia.
    - destruct (places_bounds _ _ _ _ _ H2 Hin) as (A & B & C). pose proof H1 as [H1' _].
      rewrite skipn_app, repeat_length. rewrite skipn_all2 by (rewrite repeat_length; lia). cbn [app].
      rewrite skipn_app, cimg_length by auto. rewrite skipn_all2 by (rewrite cimg_length by auto; lia). cbn [app].
      rewrite <- (IH _ _ H2 Hin). do 2 f_equal. lia.
  Qed.

  Lemma deepCopy_loop_ok cs endp total out : in_order endp cs -> Forall words_ok cs ->
    Forall (fun h => h < fst zeroes) (gaps endp cs) ->
    total = last_pos (Z.of_nat (length out)) endp cs ->
    deepCopy_loop mem zeroes cs endp total offset off out = Ok (out ++ imgs endp cs).
  Proof.
    revert endp total out. induction cs as [|c cs IH]; intros endp total out H W G T.
    - cbn. rewrite app_nil_r. reflexivity.
    - destruct H as (H1 & H2 & H3). inversion W as [|? ? W1 W2]; subst. inversion G as [|? ? G1 G2]; subst.
      cbn [deepCopy_loop last_pos].
      pose proof (Z.mod_pos_bound (ck_ptr c - endp) 8 ltac:(lia)) as Hm.
      pose proof (imgs_pos cs (ck_ptr c + ck_len c) (Z.of_nat (length out) + (ck_ptr c - endp) mod 8 + ck_len c) W2) as Hp.
      match goal with |- context [?x <=? Z.of_nat (length out)] => destruct (Z.leb_spec x (Z.of_nat (length out))) end; [lia|].
      destruct (Z.ltb_spec (ck_ptr c) endp); [lia|].
      destruct (Z.leb_spec (fst zeroes) ((ck_ptr c - endp) mod 8)); [lia|].
      rewrite copyData_ok by auto. cbn [bind]. rewrite IH; auto.
      + cbn [imgs]. rewrite <- !app_assoc. reflexivity.
      + f_equal. rewrite !app_length, repeat_length, cimg_length by auto. lia.
  Qed.
End Image.

Lemma in_order_all endp cs : in_order endp cs -> forall c, In c cs -> 0 < ck_len c.
Proof.
  revert endp. induction cs as [|x cs IH]; intros endp H c Hin; [destruct Hin|].
  destruct H as (H1 & H2 & H3). destruct Hin as [<-|Hin]; eauto.
Qed.

Lemma words_all mem endp cs : in_order endp cs -> complete mem cs -> Forall words_ok cs.
Proof.
  intros H [C _]. apply Forall_forall. intros c Hc. split; [eapply in_order_all; eauto|].
  intros T. apply C; auto.
Qed.

Lemma last_pos_fold cs pos endp s : cs <> [] ->
  fold_left (fun s cp => snd cp + ck_len (fst cp)) (places pos endp cs) s = last_pos pos endp cs.
Proof.
  revert pos endp s. induction cs as [|c cs IH]; intros pos endp s H; [contradiction|].
  cbn [places fold_left fst snd last_pos].
  destruct cs as [|c' cs]; [reflexivity|]. apply IH. discriminate.
Qed.

Lemma layout_places c cs : layout (c :: cs) = places 0 (ck_ptr c) (c :: cs).
Proof. reflexivity. Qed.

Lemma places_In cs pos endp c : In c cs -> exists p, In (c, p) (places pos endp cs).
Proof.
  revert pos endp. induction cs as [|x cs IH]; intros pos endp H; [destruct H|].
  destruct H as [->|H].
  - eexists. left. reflexivity.
  - destruct (IH (pos + (ck_ptr x - endp) mod 8 + ck_len x) (ck_ptr x + ck_len x) H) as (p & Hp).
    exists p. right. exact Hp.
Qed.

(** The first chunk starts at position 0, and its gap of no bytes changes nothing. *)
Lemma first_gap mem z offset c cs : 0 < ck_len c -> in_order (ck_ptr c + ck_len c) cs ->
  cimg mem offset (offs (ck_ptr c + ck_len c) cs) c ++
    imgs mem z offset (offs (ck_ptr c + ck_len c) cs) (ck_ptr c + ck_len c) cs =
  imgs mem z offset (offs (ck_ptr c) (c :: cs)) (ck_ptr c) (c :: cs).
Proof.
  intros Hl Ho'.
  assert (Eq : forall v, correctionForHoles v (offs (ck_ptr c + ck_len c) cs) 0 =
                         correctionForHoles v (offs (ck_ptr c) (c :: cs)) 0).
  { intros v. cbn [offs correctionForHoles]. rewrite Z.sub_diag, Zmod_0_l, Z.sub_diag.
    destruct (Z.ltb_spec v (ck_ptr c)); [|reflexivity].
    rewrite corr_zero; auto. lia. }
  assert (Ew : forall b, adjust_word b offset (offs (ck_ptr c + ck_len c) cs) =
                         adjust_word b offset (offs (ck_ptr c) (c :: cs))).
  { intros b. unfold adjust_word. rewrite Eq. reflexivity. }
  assert (Ews : forall k b, adjust_words k b offset (offs (ck_ptr c + ck_len c) cs) =
                            adjust_words k b offset (offs (ck_ptr c) (c :: cs))).
  { induction k as [|k IH]; intros b; cbn [adjust_words]; [reflexivity|]. rewrite Ew, IH. reflexivity. }
  assert (Eimg : forall x, cimg mem offset (offs (ck_ptr c + ck_len c) cs) x =
                           cimg mem offset (offs (ck_ptr c) (c :: cs)) x).
  { intros x. unfold cimg. destruct (ck_type x); auto. }
  assert (Eimgs : forall l e, imgs mem z offset (offs (ck_ptr c + ck_len c) cs) e l =
                           imgs mem z offset (offs (ck_ptr c) (c :: cs)) e l).
  { induction l as [|x l IH]; intros e; cbn [imgs]; [reflexivity|]. rewrite Eimg, IH. reflexivity. }
  cbn [imgs]. rewrite Z.sub_diag, Zmod_0_l. cbn [repeat Z.to_nat app].
  rewrite <- Eimg, <- Eimgs. reflexivity.
Qed.

(** The zeros available after updateZeroes. *)
Lemma updateZeroes_fst z x v : fst (updateZeroes z x v) = x.
Proof. unfold updateZeroes. destruct (Z.eqb_spec (fst z) x); auto. Qed.

(** The whole copy. *)
Definition image (mem : memory) (z : Z * Z) (dst : Z) (cs : list chunk) : list Z :=
  imgs mem z (dst - first_ptr cs) (offs (first_ptr cs) cs) (first_ptr cs) cs.

Lemma dup_image mem r : mr_chunks r <> [] ->
  in_order (first_ptr (mr_chunks r)) (mr_chunks r) -> complete mem (mr_chunks r) ->
  exists z, (forall dst, exists r', mr_dup mem dst r = Ok (r', dst + mr_intoOffset r) /\
    mr_garbage r' = mr_garbage r ++ [(dst, image mem z dst (mr_chunks r))] /\ mr_chunks r' = mr_chunks r) /\
  (mr_garbage r <> [] -> forall label, (length label <= LABEL_LENGTH)%nat -> exists info,
     mr_save mem r label = Ok (mkfile (Z.of_nat LABEL_LENGTH) (padLabel label)
       (if first_ptr (mr_chunks r) =? 0 then 0 else first_ptr (mr_chunks r) mod 2 ^ 64)
       (mr_refTextPtr r) (mr_intoOffset r) info
       (layout_size (mr_chunks r)) (image mem z (first_ptr (mr_chunks r)) (mr_chunks r)))).
Proof.
  intros Hne Ho Hc. unfold mr_dup, mr_save. destruct (mr_chunks r) as [|c cs] eqn:Ec; [contradiction|].
  cbn [first_ptr] in *. pose proof (words_all _ _ _ Ho Hc) as W. inversion W as [|? ? W1 W2]; subst.
  pose proof Ho as (_ & Hl & Ho').
  cbn [findSizes]. destruct (findSizes_loop_ok cs (ck_ptr c + ck_len c) (ck_len c) 1 [] Ho') as (mh & E & L & F).
  rewrite E. cbn [bind app]. set (z := updateZeroes (mr_zeroes r) (mh + 1) 128).
  assert (Fz : fst z = mh + 1) by apply updateZeroes_fst.
  exists z. split.
  - intros dst. set (offset := dst - ck_ptr c).
    unfold deepCopy. fold offset.
    rewrite (copyData_ok mem offset _ c W1). cbn [bind].
    rewrite (deepCopy_loop_ok mem z offset _ cs); auto.
    2: { rewrite Fz. eapply Forall_impl; [|exact F]. cbn. intros; lia. }
    2: { rewrite cimg_length by auto. f_equal. lia. }
    cbn [bind].
    match goal with |- context [if ?x <=? ?y then _ else _] => assert (Et : x = y) end.
    { rewrite app_length, cimg_length by auto. rewrite Nat2Z.inj_add.
      rewrite (imgs_length mem z offset _ cs _ (ck_len c) W2). lia. }
    rewrite Et, Z.leb_refl, Z.ltb_irrefl.
    eexists. split; [reflexivity|]. cbn [mr_garbage mr_chunks]. split; [|reflexivity].
    do 3 f_equal. apply first_gap; auto.
  - intros Hg label Hlab.
    destruct (mr_garbage r) as [|g0 gs]; [contradiction|]. cbn [negb].
    assert (Lp : length (padLabel label) = LABEL_LENGTH).
    { unfold padLabel. rewrite app_length, repeat_length. lia. }
    rewrite Lp, Nat.eqb_refl. cbn [negb bind].
    assert (C0 : correctionForHoles (ck_ptr c) (offs (ck_ptr c + ck_len c) cs) 0 = 0).
    { apply corr_zero; auto. lia. }
    rewrite C0, Z.add_0_r.
    assert (Ld : forall l e out, in_order e l -> Forall words_ok l -> Forall (fun h => h < fst z) (gaps e l) ->
      saveChunkData mem z l (Some e) (offs (ck_ptr c + ck_len c) cs) out =
      Ok (out ++ imgs mem z 0 (offs (ck_ptr c + ck_len c) cs) e l)).
    { induction l as [|x l IH]; intros e out A B G.
      - cbn. rewrite app_nil_r. reflexivity.
      - destruct A as (A1 & A2 & A3). inversion B as [|? ? B1 B2]; subst. inversion G as [|? ? G1 G2]; subst.
        cbn [saveChunkData]. destruct (Z.leb_spec (fst z) ((ck_ptr x - e) mod 8)); [lia|]. cbn [bind].
        rewrite copyData_ok by auto. cbn [bind]. rewrite IH by auto. cbn [imgs]. rewrite <- !app_assoc. reflexivity. }
    cbn [saveChunkData bind app]. rewrite (copyData_ok mem 0 _ c W1). cbn [bind].
    rewrite Ld; auto.
    2: { rewrite Fz. eapply Forall_impl; [|exact F]. cbn. intros; lia. }
    cbn [bind]. eexists. f_equal. f_equal.
    + unfold layout_size, layout. rewrite last_pos_fold by discriminate. cbn [last_pos first_ptr].
      rewrite Z.sub_diag, Zmod_0_l. reflexivity.
    + unfold image. cbn [first_ptr]. rewrite Z.sub_diag. apply first_gap; auto.
Qed.

(** ** Order *)
Lemma findSizes_loop_throw l1 c1 c2 l2 endp total mh acc : ck_ptr c2 < ck_ptr c1 + ck_len c1 ->
  findSizes_loop (l1 ++ c1 :: c2 :: l2) endp total mh acc = Throw.
Proof.
  intros H. revert endp total mh acc. induction l1 as [|x l1 IH]; intros; cbn [app findSizes_loop].
  - destruct (_ <? _); [reflexivity|]. destruct (Z.ltb_spec (ck_ptr c2) (ck_ptr c1 + ck_len c1)); [reflexivity|lia].
  - destruct (_ <? _); [reflexivity|]. apply IH.
Qed.

Lemma dup_throw mem dst r l1 c1 c2 l2 : mr_chunks r = l1 ++ c1 :: c2 :: l2 ->
  ck_ptr c2 < ck_ptr c1 + ck_len c1 -> mr_dup mem dst r = Throw.
Proof.
  intros E H. unfold mr_dup. rewrite E. destruct l1 as [|x l1]; cbn [app findSizes].
  - cbn [findSizes_loop]. destruct (Z.ltb_spec (ck_ptr c2) (ck_ptr c1 + ck_len c1)); [reflexivity|lia].
  - rewrite findSizes_loop_throw by auto. reflexivity.
Qed.

(** ** Pushes *)
Lemma push_app r t n p : exists l, mr_chunks (mr_push r t n p) = mr_chunks r ++ l.
Proof.
  unfold mr_push. destruct (existsb _ _); [exists []; rewrite app_nil_r; reflexivity|]. eexists. reflexivity.
Qed.

Lemma vector_app mem r size v : exists l, mr_chunks (mr_vector mem r size v) = mr_chunks r ++ l.
Proof.
  unfold mr_vector. destruct (push_app r MEMORY_HEAPPTR 24 v) as (l & E).
  destruct (_ =? 0); [exists l; exact E|].
  edestruct (push_app (mr_push r MEMORY_HEAPPTR 24 v)) as (l' & E'). rewrite E', E, <- app_assoc. eexists. reflexivity.
Qed.

Lemma vectors_app k : forall mem r size v, exists l, mr_chunks (mr_vectors_loop k mem r size v) = mr_chunks r ++ l.
Proof.
  induction k as [|k IH]; intros; cbn [mr_vectors_loop]; [exists []; rewrite app_nil_r; reflexivity|].
  destruct (IH mem (mr_vector mem r size v) size (v + 24)) as (l & E).
  destruct (vector_app mem r size v) as (l' & E'). rewrite E, E', <- app_assoc. eexists. reflexivity.
Qed.

Lemma chunk_eqb_eq a b : chunk_eqb a b = true <-> a = b.
Proof.
  unfold chunk_eqb. rewrite !andb_true_iff, !Z.eqb_eq. destruct a as [ta la pa], b as [tb lb pb]. cbn.
  split; [|intros E; injection E as -> -> ->; destruct tb; auto].
  intros ((H & ->) & ->). f_equal. destruct ta, tb; (reflexivity || discriminate H).
Qed.

Lemma existsb_chunk c l : existsb (chunk_eqb c) l = true <-> In c l.
Proof.
  rewrite existsb_exists. split.
  - intros (x & H & E). apply chunk_eqb_eq in E. subst. exact H.
  - intros H. exists c. split; [exact H|]. apply chunk_eqb_eq. reflexivity.
Qed.

Lemma push_fresh r t n p : ~ In (mkchunk t (n mod 2 ^ 32) p) (mr_chunks r) ->
  mr_chunks (mr_push r t n p) = mr_chunks r ++ [mkchunk t (n mod 2 ^ 32) p].
Proof.
  intros H. unfold mr_push. destruct (existsb _ _) eqn:E; [|reflexivity].
  apply existsb_chunk in E. contradiction.
Qed.

Section Copy.
  Variable mem : memory.
  Variable dst : Z.
  Variable cs : list chunk.
  Variable z : Z * Z.
  Hypothesis Hne : cs <> [].
  Hypothesis Ho : in_order (first_ptr cs) cs.
  Hypothesis Hc : complete mem cs.
  Hypothesis Hd : 0 <= dst.
  Hypothesis Hs : dst + layout_size cs < 2 ^ 64.
  Let f := first_ptr cs.
  Let block := image mem z dst cs.
  Let mem' := with_block mem (dst, block).
  Let W : Forall words_ok cs := words_all _ _ _ Ho Hc.

  Lemma layout_size_eq : layout_size cs = last_pos 0 f cs.
  Proof. unfold layout_size, layout. apply last_pos_fold. exact Hne. Qed.

  Lemma block_length : Z.of_nat (length block) = layout_size cs.
  Proof. rewrite layout_size_eq. unfold block, image. fold f. rewrite (imgs_length _ _ _ _ cs f 0 W). lia. Qed.

  Lemma place_ok c p : In (c, p) (layout cs) -> 0 <= p /\ p + ck_len c <= layout_size cs /\ In c cs.
  Proof. intros H. rewrite layout_size_eq. exact (places_bounds mem z 0 [] cs 0 f c p W H). Qed.

  Lemma copy_chunk c p : In (c, p) (layout cs) ->
    bn mem' (dst + p) (Z.to_nat (ck_len c)) = cimg mem (dst - f) (offs f cs) c.
  Proof.
    intros H. destruct (place_ok c p H) as (P1 & P2 & P3). pose proof block_length as BL.
    replace (dst + p) with (dst + Z.of_nat (Z.to_nat p)) by lia. unfold mem'.
    pose proof W as W'. rewrite Forall_forall in W'. destruct (W' _ P3) as [Lc _].
    rewrite bn_block by lia. unfold block, image. fold f.
    rewrite <- (imgs_slice mem z (dst - f) (offs f cs) cs 0 f c p W H). do 2 f_equal. lia.
  Qed.

  Lemma moved_eq a b : moved cs dst a b -> b = a + (dst - f) + correctionForHoles a (offs f cs) 0.
  Proof.
    intros (c & p & Hin & Ha & ->).
    destruct (corr_places cs 0 f c p a Ho Hin Ha) as (E & _). rewrite E. lia.
  Qed.

  Lemma moved_fun a b b' : moved cs dst a b -> moved cs dst a b' -> b = b'.
  Proof. intros H1 H2. rewrite (moved_eq _ _ H1), (moved_eq _ _ H2). reflexivity. Qed.

  Lemma moved_in c a : In c cs -> ck_ptr c <= a <= ck_ptr c + ck_len c -> exists b, moved cs dst a b.
  Proof.
    intros Hin Ha. destruct (places_In cs 0 f c Hin) as (p & Hp). eexists. exists c, p. split; [exact Hp|].
    split; [exact Ha|reflexivity].
  Qed.

  Lemma moved_bounds a b : moved cs dst a b -> dst <= b <= dst + layout_size cs.
  Proof.
    intros (c & p & Hin & Ha & ->). destruct (place_ok c p Hin) as (P1 & P2 & P3). lia.
  Qed.

  Lemma copy_data a b : data_at cs a -> moved cs dst a b -> mem' b = mem a.
  Proof.
    intros (c & Hin & Ht & Ha) Hm. destruct (places_In cs 0 f c Hin) as (p & Hp).
    assert (Hm' : moved cs dst a (dst + p + (a - ck_ptr c))).
    { exists c, p. split; [exact Hp|]. split; [lia|reflexivity]. }
    rewrite (moved_fun _ _ _ Hm Hm').
    pose proof (copy_chunk c p Hp) as E. unfold cimg in E.
    assert (E' : bn mem' (dst + p) (Z.to_nat (ck_len c)) = bn mem (ck_ptr c) (Z.to_nat (ck_len c))).
    { rewrite E. destruct (ck_type c); auto. contradiction. }
    apply (f_equal (fun l => nth (Z.to_nat (a - ck_ptr c)) l 0)) in E'. rewrite !bn_nth in E' by lia.
    replace (dst + p + (a - ck_ptr c)) with (dst + p + Z.of_nat (Z.to_nat (a - ck_ptr c))) by lia.
    rewrite E'. f_equal. lia.
  Qed.

  Lemma copy_word a b : pointer_at cs a -> moved cs dst a b ->
    word_at mem' b = word_of (adjust_word (bytes_at mem a 8) (dst - f) (offs f cs)).
  Proof.
    intros (c & k & Hin & Ht & Hk & Hk8 & ->) Hm. destruct (places_In cs 0 f c Hin) as (p & Hp).
    assert (Hm' : moved cs dst (ck_ptr c + 8 * k) (dst + p + 8 * k)).
    { exists c, p. split; [exact Hp|]. split; [lia|lia]. }
    rewrite (moved_fun _ _ _ Hm Hm').
    pose proof (copy_chunk c p Hp) as E. unfold cimg in E. rewrite Ht in E.
    pose proof W as W'. rewrite Forall_forall in W'. destruct (W' _ Hin) as [Lc Lw].
    destruct (len_div8 _ Lc (Lw Ht)) as (L8 & _).
    assert (Hk' : (Z.to_nat k < Z.to_nat (ck_len c / 8))%nat) by lia.
    apply (f_equal (fun l => firstn 8 (skipn (8 * Z.to_nat k) l))) in E. cbn beta in E.
    rewrite adjust_words_slice in E by (rewrite ?bn_length; lia).
    rewrite !bn_slice in E by lia.
    unfold word_at, bytes_at. fold (bn mem' (dst + p + 8 * k) (Z.to_nat 8)).
    fold (bn mem (ck_ptr c + 8 * k) (Z.to_nat 8)).
    replace (dst + p + Z.of_nat (8 * Z.to_nat k)) with (dst + p + 8 * k) in E by lia.
    replace (ck_ptr c + Z.of_nat (8 * Z.to_nat k)) with (ck_ptr c + 8 * k) in E by lia.
    change (Z.to_nat 8) with 8%nat. rewrite E. reflexivity.
  Qed.

  Lemma copy_null a b : pointer_at cs a -> moved cs dst a b -> word_at mem a = 0 -> word_at mem' b = 0.
  Proof.
    intros H1 H2 H3. rewrite (copy_word a b H1 H2). unfold adjust_word. fold (word_at mem a). rewrite H3. exact H3.
  Qed.

  Lemma copy_pointer a b : pointer_at cs a -> moved cs dst a b -> word_at mem a <> 0 ->
    moved cs dst (word_at mem a) (word_at mem' b).
  Proof.
    intros H1 H2 H3. pose proof (proj2 Hc) as Hc2. destruct (Hc2 a H1) as [|(c & Hin & Hv)]; [contradiction|].
    destruct (moved_in c _ Hin Hv) as (v' & Hv'). rewrite (copy_word a b H1 H2).
    unfold adjust_word. fold (word_at mem a). destruct (Z.eqb_spec (word_at mem a) 0); [contradiction|].
    pose proof (moved_eq _ _ Hv') as E. pose proof (moved_bounds _ _ Hv') as B.
    replace (word_at mem a + (correctionForHoles (word_at mem a) (offs f cs) 0 + (dst - f))) with v' by lia.
    rewrite Z.mod_small by lia. rewrite word_of_bytes; [exact Hv'|]. change (256 ^ Z.of_nat 8) with (2 ^ 64). lia.
  Qed.

  Lemma copy_walk path : forall a b, moved cs dst a b -> walkable mem cs a path ->
    moved cs dst (walk mem a path) (walk mem' b path).
  Proof.
    induction path as [|o path IH]; intros a b Hm Hw; cbn [walk walkable] in *; [exact Hm|].
    destruct Hw as ((c & Hin & Ha & Hao) & Hp & Hnz & Hw).
    destruct (places_In cs 0 f c Hin) as (p & Hpl).
    assert (M1 : moved cs dst a (dst + p + (a - ck_ptr c))).
    { exists c, p. split; [exact Hpl|]. split; [lia|reflexivity]. }
    assert (M2 : moved cs dst (a + o) (dst + p + (a + o - ck_ptr c))).
    { exists c, p. split; [exact Hpl|]. split; [lia|reflexivity]. }
    rewrite (moved_fun _ _ _ Hm M1). apply IH; [|exact Hw].
    apply copy_pointer; auto.
    replace (dst + p + (a - ck_ptr c) + o) with (dst + p + (a + o - ck_ptr c)) by lia. exact M2.
  Qed.
End Copy.

Lemma places_aligned cs : forall pos endp c p, In (c, p) (places pos endp cs) ->
  (p - pos - (ck_ptr c - endp)) mod 8 = 0.
Proof.
  induction cs as [|x cs IH]; intros pos endp c p H; cbn [places] in H; [destruct H|].
  assert (G : exists g, (ck_ptr x - endp) mod 8 - (ck_ptr x - endp) = 8 * g).
  { exists (- ((ck_ptr x - endp) / 8)). pose proof (Z.div_mod (ck_ptr x - endp) 8 ltac:(lia)). lia. }
  destruct G as [g G]. destruct H as [E|H].
  - injection E as -> <-.
    replace (pos + (ck_ptr c - endp) mod 8 - pos - (ck_ptr c - endp)) with (g * 8) by lia. apply Z_mod_mult.
  - apply IH in H.
    replace (p - pos - (ck_ptr c - endp)) with
      (p - (pos + (ck_ptr x - endp) mod 8 + ck_len x) - (ck_ptr c - (ck_ptr x + ck_len x)) + g * 8) by lia.
    rewrite Z_mod_plus_full. exact H.
Qed.

(** ** Labels *)
Lemma stringEqual_pad a b n m : (forall x, In x a -> x <> 0) -> (forall x, In x b -> x <> 0) ->
  (length a + n = length b + m)%nat ->
  stringEqual_loop (a ++ repeat 0 n) (b ++ repeat 0 m) = true -> a = b.
Proof.
  revert b. induction a as [|x a IH]; intros b Ha Hb Hl H.
  - destruct b as [|y b]; [reflexivity|]. exfalso. cbn in Hl. destruct n as [|n]; [lia|]. cbn in H.
    assert (y <> 0) by (apply Hb; left; reflexivity).
    destruct (Z.eqb_spec y 0); [contradiction|]. destruct y; [contradiction| |]; discriminate H.
  - assert (x <> 0) by (apply Ha; left; reflexivity).
    destruct b as [|y b].
    + exfalso. cbn in Hl. destruct m as [|m]; [lia|]. cbn in H. destruct x; [contradiction| |]; discriminate H.
    + cbn [app stringEqual_loop] in H.
      destruct (Z.eqb_spec x 0); [contradiction|]. cbn [andb] in H.
      destruct (Z.eqb_spec x y); [|discriminate H]. cbn [negb] in H. subst y. f_equal.
      apply IH; [intros z Hz; apply Ha; right; exact Hz|intros z Hz; apply Hb; right; exact Hz| |exact H].
      cbn in Hl. lia.
Qed.

Lemma stringEqual_refl a : stringEqual_loop a a = true.
Proof.
  induction a as [|x a IH]; cbn; [reflexivity|]. destruct (_ && _); [reflexivity|].
  rewrite Z.eqb_refl. exact IH.
Qed.
