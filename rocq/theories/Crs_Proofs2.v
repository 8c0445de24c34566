(** Transpose, sum of many, Kronecker products, block embedding, predicates,
    triplets. *)
From Verif Require Import Prelude Ring Vec_Model Vec_Spec Vec_Proofs Dense_Model Dense_Spec Dense_Proofs.
From Verif Require Import Crs_Model Crs_Spec Crs_Base Crs_Proofs.

Lemma flat_map_single {A B} (f : A -> list B) l a :
  NoDup l -> In a l -> (forall b, In b l -> b <> a -> f b = []) -> flat_map f l = f a.
Proof.
  induction l as [|x l IH]; intros Hn Hin Hz; [destruct Hin|].
  inversion Hn as [|? ? Hx Hn']; subst. simpl. destruct Hin as [->|Hin].
  - assert (E : flat_map f l = []).
    { assert (G : forall b, In b l -> f b = []).
      { intros b Hb. apply Hz; [right; exact Hb|]. intros ->. contradiction. }
      clear - G. induction l as [|y l IH]; [reflexivity|]. simpl. rewrite G by (left; reflexivity).
      apply IH. intros b Hb. apply G. right. exact Hb. }
    rewrite E. apply app_nil_r.
  - rewrite (Hz x) by (try (left; reflexivity); intros ->; contradiction). simpl.
    apply IH; [exact Hn'|exact Hin|]. intros b Hb. apply Hz. right. exact Hb.
Qed.

Lemma flat_map_singleton {A B} (f : A -> B) l : flat_map (fun x => [f x]) l = map f l.
Proof. induction l; simpl; congruence. Qed.

Lemma flat_map_length_const {A B} (f : A -> list B) l n :
  (forall a, In a l -> length (f a) = n) -> length (flat_map f l) = n * length l.
Proof.
  induction l as [|a l IH]; intros H; simpl; [lia|].
  rewrite app_length, H, IH by (intros; try apply H; simpl; auto). lia.
Qed.

Section Proofs2.
  Variable R : cring.
  Local Open Scope cring_scope.
  Add Ring Rring2 : (c_ring R).
  Local Open Scope nat_scope.
  Implicit Types (m A B C : crs R) (rows : list (list (nat * R))) (row : list (nat * R)).

  (** A well formed matrix with a full row pointer array is determined by its
      rows. *)
  Lemma crs_is_of_rows m : crs_wf m -> length (c_rowptr m) = S (c_nrow m) ->
    m = of_rows (c_ncol m) (map (crs_row m) (seq 0 (c_nrow m))).
  Proof.
    intros W L. destruct (crs_rows_all R m W) as [H1 H2].
    assert (Lr : length (map (crs_row m) (seq 0 (c_nrow m))) = c_nrow m)
      by (rewrite map_length, seq_length; reflexivity).
    unfold of_rows. rewrite H1, H2, Lr.
    replace (map (off (map (crs_row m) (seq 0 (c_nrow m)))) (seq 0 (S (c_nrow m)))) with (c_rowptr m).
    - destruct m; reflexivity.
    - apply (list_eq_nth _ _ 0); [rewrite map_length, seq_length; exact L|].
      intros k Hk. rewrite nth_map_seq by lia.
      assert (Hk' : k <= c_nrow m) by lia.
      replace (off (map (crs_row m) (seq 0 (c_nrow m))) k)
        with (length (concat (map (crs_row m) (seq 0 k)))).
      + rewrite crs_rows_concat by assumption. rewrite map_length, seq_length. reflexivity.
      + unfold off. f_equal. f_equal. rewrite firstn_map. f_equal.
        rewrite (@seq_split_at 0 k (c_nrow m)) by lia. rewrite firstn_app, seq_length.
        replace (k - (k - 0)) with 0 by lia. simpl. rewrite app_nil_r.
        rewrite Nat.sub_0_r. rewrite firstn_all2 by (rewrite seq_length; lia). reflexivity.
  Qed.

  Lemma bucket_flat_map {T} (f : T -> list (nat * (nat * R))) l r :
    bucket (flat_map f l) r = flat_map (fun x => bucket (f x) r) l.
  Proof.
    induction l as [|x l IH]; simpl; [reflexivity|]. rewrite bucket_app, IH. reflexivity.
  Qed.

  (** Row pointers from counts. *)
  Lemma rowptr_loop n cnt rows B :
    length rows = n -> length cnt = n -> (forall r, r < n -> nth r cnt 0 = length (nth r rows [])) ->
    length (c_rowptr B) = S n ->
    exists v,
      forM n 0 (fun ib '(B, ipos) =>
        do B <- setRow R B ib ipos ;;
        do x <- vget cnt ib ;;
        Ok (B, ipos + x)) (B, 0) =
      Ok (mkcrs v (c_colind B) (c_values B) (c_nrow B) (c_ncol B), length (concat rows)) /\
      length v = S n /\ forall k, k < n -> nth k v 0 = off rows k.
  Proof.
    intros Lr Lc Hc LB.
    loopM (fun i (st : crs R * nat) => let '(B', ip) := st in
             exists v, B' = mkcrs v (c_colind B) (c_values B) (c_nrow B) (c_ncol B) /\
               length v = S n /\ ip = off rows i /\ forall k, k < i -> nth k v 0 = off rows k)
      as [B' ip'] E H.
    - exists (c_rowptr B). split; [destruct B; reflexivity|]. split; [exact LB|].
      split; [reflexivity|]. intros; lia.
    - intros i [B1 ip1] [_ Hi] [v [-> [Lv [-> Hv]]]]. simpl in Hi.
      unfold setRow. cbn [c_rowptr c_colind c_values c_nrow c_ncol].
      rewrite vset_ok by lia. cbn [bind]. rewrite (vget_ok cnt 0) by lia. cbn [bind].
      eexists. split; [reflexivity|]. eexists. split; [reflexivity|]. rewrite upd_length.
      split; [exact Lv|]. split.
      + rewrite off_S by lia. rewrite Hc by exact Hi. reflexivity.
      + intros k Hk. destruct (Nat.eq_dec k i) as [->|Hne].
        * apply nth_upd_eq. lia.
        * rewrite nth_upd_neq by exact Hne. apply Hv. lia.
    - destruct H as [v [-> [Lv [-> Hv]]]]. exists v. rewrite E.
      split; [|split; [exact Lv|exact Hv]]. f_equal. f_equal. apply off_all. simpl. lia.
  Qed.

  (** ---------------------------------------------------------------- *)
  (** Conjugate transpose. *)
  Definition tc_items A : list (nat * (nat * R)) :=
    flat_map (fun ia => map (fun e => (fst e, (ia, cconj (snd e)))) (crs_row A ia)) (seq 0 (c_nrow A)).

  Lemma rows_total A : crs_wf A ->
    length (concat (map (crs_row A) (seq 0 (c_nrow A)))) = length (c_colind A).
  Proof.
    intros W. rewrite crs_rows_concat by (auto; lia). rewrite map_length, seq_length.
    apply wf_nrow_rp. exact W.
  Qed.

  Lemma tc_items_length A : crs_wf A -> length (tc_items A) = length (c_colind A).
  Proof.
    intros W. rewrite <- rows_total by exact W. unfold tc_items.
    generalize (seq 0 (c_nrow A)). induction l as [|i l IH]; simpl; [reflexivity|].
    rewrite !app_length, map_length, IH. reflexivity.
  Qed.

  Lemma tc_items_in A e : In e (tc_items A) ->
    exists ia x, ia < c_nrow A /\ In (fst e, x) (crs_row A ia) /\ snd e = (ia, cconj x).
  Proof.
    intros H. unfold tc_items in H. apply in_flat_map in H. destruct H as [ia [Hia H]].
    apply in_map_iff in H. destruct H as [[c x] [<- H]]. apply in_seq in Hia.
    exists ia, x. simpl. split; [lia|]. split; [exact H|reflexivity].
  Qed.

  Lemma tc_items_lt A : crs_wf A -> Forall (fun e => fst e < c_ncol A) (tc_items A).
  Proof.
    intros W. apply Forall_forall. intros e He. apply tc_items_in in He.
    destruct He as [ia [x [Hia [H _]]]]. apply (crs_row_col R A ia (fst e, x)); assumption.
  Qed.

  Lemma tc_bucket A r : bucket (tc_items A) r =
    flat_map (fun ia => map (fun e => (ia, cconj (snd e))) (filter (fun e => fst e =? r) (crs_row A ia)))
             (seq 0 (c_nrow A)).
  Proof.
    unfold tc_items. rewrite bucket_flat_map. apply flat_map_ext. intros ia.
    induction (crs_row A ia) as [|[c x] row IH]; [reflexivity|].
    unfold bucket in *. simpl. destruct (c =? r); simpl; rewrite IH; reflexivity.
  Qed.

  Lemma tc_bucket_elem A r i : i < c_nrow A -> row_elem (bucket (tc_items A) r) i = cconj (crs_elem A i r).
  Proof.
    intros Hi. rewrite tc_bucket. unfold row_elem. rewrite suml_flat_map.
    rewrite (suml_single R _ _ i (seq_NoDup (c_nrow A) 0)).
    - rewrite suml_map. cbn [fst snd]. rewrite Nat.eqb_refl. rewrite suml_filter.
      unfold crs_elem, row_elem. rewrite suml_conj. apply suml_ext. intros [c x]. simpl.
      destruct (c =? r); [reflexivity|]. symmetry. apply cconj_0.
    - apply in_seq. lia.
    - intros b Hb Hne. rewrite suml_map. cbn [fst snd]. destruct (Nat.eqb_spec b i); [contradiction|].
      apply suml_zero_in. reflexivity.
  Qed.

  Lemma filter_nodup_le (row : list (nat * R)) r : NoDup (map fst row) ->
    length (filter (fun e => fst e =? r) row) <= 1.
  Proof.
    induction row as [|[c x] row IH]; intros Hn; simpl; [lia|].
    simpl in Hn. inversion Hn as [|? ? Hc Hn']; subst. destruct (Nat.eqb_spec c r) as [->|]; [|auto].
    simpl. assert (E : filter (fun e => fst e =? r) row = []).
    { clear - Hc. induction row as [|[c x'] row IH]; [reflexivity|]. simpl in *.
      destruct (Nat.eqb_spec c r); [tauto|]. apply IH. tauto. }
    rewrite E. simpl. lia.
  Qed.

  Lemma tc_bucket_sorted A r : crs_nodup A -> StronglySorted lt (map fst (bucket (tc_items A) r)).
  Proof.
    intros N. rewrite tc_bucket.
    assert (G : forall k n, k + n <= c_nrow A ->
      StronglySorted lt (map fst (flat_map (fun ia => map (fun e => (ia, cconj (snd e)))
         (filter (fun e : nat * R => fst e =? r) (crs_row A ia))) (seq k n))) /\
      Forall (fun x => k <= x) (map fst (flat_map (fun ia => map (fun e => (ia, cconj (snd e)))
         (filter (fun e : nat * R => fst e =? r) (crs_row A ia))) (seq k n)))).
    { intros k n; revert k; induction n as [|n IH]; intros k Hk; simpl; [split; constructor|].
      destruct (IH (S k)) as [H1 H2]; [lia|].
      assert (Hf : length (filter (fun e : nat * R => fst e =? r) (crs_row A k)) <= 1)
        by (apply filter_nodup_le, N; lia).
      destruct (filter (fun e : nat * R => fst e =? r) (crs_row A k)) as [|e [|e' l]]; simpl in Hf; [|simpl|lia].
      - simpl. split; [exact H1|]. eapply Forall_impl; [|exact H2]. intros; simpl in *; lia.
      - split.
        + constructor; [exact H1|]. eapply Forall_impl; [|exact H2]. intros; simpl in *; lia.
        + constructor; [lia|]. eapply Forall_impl; [|exact H2]. intros; simpl in *; lia. }
    apply (G 0 (c_nrow A)). lia.
  Qed.

  Lemma count_loop A : crs_wf A ->
    exists cnt, forM (c_nrow A) 0 (fun ia cnt =>
      for_row R A ia (fun k cnt =>
        do ja <- getCol R A k ;; do x <- vget cnt ja ;; vset cnt ja (S x)) cnt)
      (repeat 0 (c_ncol A)) = Ok cnt /\ length cnt = c_ncol A /\
      forall r, r < c_ncol A -> nth r cnt 0 = length (bucket (tc_items A) r).
  Proof.
    intros W. rewrite forM_forL.
    rewrite (forL_ext_in _ _ (fun ia cnt =>
      forL (map (fun e => (fst e, (ia, cconj (snd e)))) (crs_row A ia))
           (fun (e : nat * (nat * R)) cnt => do x <- vget cnt (fst e) ;; vset cnt (fst e) (S x)) cnt)).
    - rewrite <- forL_flat_map. fold (tc_items A).
      loopL (fun P (cnt : list nat) => length cnt = c_ncol A /\
               forall r, r < c_ncol A -> nth r cnt 0 = length (bucket P r)) as cnt E H.
      + rewrite repeat_length. split; [reflexivity|]. intros r Hr. rewrite nth_repeat_same. reflexivity.
      + intros P [c x] post cnt HL [L H]. cbn [fst].
        assert (Hc : c < c_ncol A).
        { pose proof (tc_items_lt A W) as HF. rewrite Forall_forall in HF.
          apply (HF (c, x)). rewrite HL. apply in_elt. }
        rewrite (vget_ok cnt 0) by lia. cbn [bind]. rewrite vset_ok by lia.
        eexists. split; [reflexivity|]. rewrite upd_length. split; [exact L|].
        intros r Hr. rewrite bucket_app, app_length. unfold bucket at 2. simpl.
        destruct (Nat.eq_dec r c) as [->|Hne].
        * rewrite nth_upd_eq by lia. rewrite H by exact Hr. rewrite Nat.eqb_refl. simpl. lia.
        * rewrite nth_upd_neq by exact Hne. rewrite H by exact Hr.
          destruct (Nat.eqb_spec c r); [congruence|]. simpl. lia.
      + exists cnt. split; [exact E|exact H].
    - intros ia cnt Hia. apply in_seq in Hia. rewrite forL_map. apply for_row_forL; [exact W|lia|].
      intros k t _ Hk. rewrite wf_getCol by exact Hk. reflexivity.
  Qed.

  Lemma transposeConjugate_rows B A : crs_wf A ->
    crs_transposeConjugate R B A = Ok (of_rows (c_nrow A) (buckets (tc_items A) (c_ncol A))).
  Proof.
    intros W. unfold crs_transposeConjugate. rewrite crs_nonZeros_ok by exact W. cbn [bind].
    destruct (count_loop A W) as [cnt [E1 [Lc Hc]]]. rewrite E1. cbn [bind].
    set (n := c_ncol A) in *. set (rows := buckets (tc_items A) n).
    set (B0 := crs_resize3 R B n (c_nrow A) (length (c_colind A))).
    assert (Tot : length (concat rows) = length (c_colind A)).
    { unfold rows. rewrite buckets_total by (apply tc_items_lt; exact W). apply tc_items_length. exact W. }
    destruct (rowptr_loop n cnt rows B0) as [v [E2 [Lv Hv]]].
    { apply buckets_length. }
    { exact Lc. }
    { intros r Hr. rewrite Hc by exact Hr. unfold rows. rewrite buckets_nth by exact Hr. reflexivity. }
    { unfold B0, crs_resize3. cbn [c_rowptr]. rewrite vresize_length. lia. }
    rewrite E2. cbn [bind]. rewrite Tot, Nat.eqb_refl.
    unfold setRow at 1. cbn [c_rowptr c_colind c_values c_nrow c_ncol].
    rewrite vset_ok by lia. cbn [bind].
    set (v' := upd v n (length (c_colind A))).
    assert (Hv' : v' = map (off rows) (seq 0 (S n))).
    { apply (list_eq_nth _ _ 0).
      - unfold v'. rewrite upd_length, map_length, seq_length. exact Lv.
      - intros k Hk. unfold v' in *. rewrite upd_length in Hk. rewrite nth_map_seq by lia.
        destruct (Nat.eq_dec k n) as [->|Hne].
        + rewrite nth_upd_eq by lia. rewrite off_all; [symmetry; exact Tot|]. unfold rows. rewrite buckets_length. lia.
        + rewrite nth_upd_neq by exact Hne. apply Hv. lia. }
    match goal with |- bind (forM n 0 ?F ?S) _ = _ =>
      assert (E3 : exists ptr, forM n 0 F S = Ok ptr /\ length ptr = n /\
                forall r, r < n -> nth r ptr 0 = off rows r) end.
    { loopM (fun i (p : list nat) => length p = n /\ forall k, k < i -> nth k p 0 = off rows k) as p E3 H3.
      - rewrite repeat_length. split; [reflexivity|]. intros; lia.
      - intros i p [_ Hi] [Lp Hp]. simpl in Hi. unfold getRowPtr. cbn [c_rowptr].
        rewrite (vget_ok v' 0) by (unfold v'; rewrite upd_length; lia). cbn [bind].
        rewrite vset_ok by lia. eexists. split; [reflexivity|]. rewrite upd_length. split; [exact Lp|].
        intros k Hk. destruct (Nat.eq_dec k i) as [->|Hne].
        + rewrite nth_upd_eq by lia. rewrite Hv'. apply nth_map_seq. lia.
        + rewrite nth_upd_neq by exact Hne. apply Hp. lia.
      - exists p. split; [exact E3|]. destruct H3 as [H3 H3']. split; [exact H3|exact H3']. }
    destruct E3 as [ptr [E3 [Lp Hp]]]. rewrite E3. cbn [bind].
    destruct (place_all R (tc_items A) n
               (mkcrs v' (c_colind B0) (c_values B0) (c_nrow B0) (c_ncol B0)) ptr (c_nrow A))
      as [ptr' E4].
    { apply tc_items_lt. exact W. }
    { reflexivity. }
    { reflexivity. }
    { unfold B0, crs_resize3. cbn [c_colind]. rewrite vresize_length. symmetry. apply tc_items_length. exact W. }
    { unfold B0, crs_resize3. cbn [c_values]. rewrite vresize_length. symmetry. apply tc_items_length. exact W. }
    { exact Hv'. }
    { exact Lp. }
    { exact Hp. }
    match goal with |- bind ?X _ = _ => assert (E5 : X =
      forL (tc_items A) place (mkcrs v' (c_colind B0) (c_values B0) (c_nrow B0) (c_ncol B0), ptr)) end.
    { rewrite forM_forL. unfold tc_items. rewrite forL_flat_map. apply forL_ext_in.
      intros ia [B1 p1] Hia. apply in_seq in Hia. rewrite forL_map. apply for_row_forL; [exact W|lia|].
      intros k [B2 p2] _ Hk. rewrite wf_getCol, wf_getValue by assumption. reflexivity. }
    rewrite E5, E4. reflexivity.
  Qed.

  Lemma transposeConjugate_ok B A : crs_wf A ->
    exists B', crs_transposeConjugate R B A = Ok B' /\
      is_crs B' (c_ncol A) (c_nrow A) (fun i j => cconj (crs_elem A j i)) /\
      (crs_nodup A -> crs_sorted B' /\ crs_nodup B').
  Proof.
    intros W. eexists. split; [apply transposeConjugate_rows; exact W|]. split.
    - rewrite <- (buckets_length R (tc_items A) (c_ncol A)) at 2. apply of_rows_is.
      + apply Forall_forall. intros row Hrow. unfold buckets in Hrow. apply in_map_iff in Hrow.
        destruct Hrow as [r [<- _]]. apply Forall_forall. intros [i x] Hin. unfold bucket in Hin.
        apply in_map_iff in Hin. destruct Hin as [[r' [i' x']] [[= -> ->] Hin]]. apply filter_In in Hin.
        destruct Hin as [Hin _]. apply tc_items_in in Hin. destruct Hin as [ia [y [Hia [_ [= -> _]]]]]. exact Hia.
      + rewrite buckets_length. intros i j Hi Hj. rewrite buckets_nth by exact Hi.
        apply tc_bucket_elem. exact Hj.
    - intros N. assert (S : crs_sorted (of_rows (c_nrow A) (buckets (tc_items A) (c_ncol A)))).
      { apply of_rows_sorted. rewrite buckets_length. intros i Hi. rewrite buckets_nth by exact Hi.
        apply tc_bucket_sorted. exact N. }
      split; [exact S|]. intros i Hi. apply sorted_nodup. apply S. exact Hi.
  Qed.

  (** ---------------------------------------------------------------- *)
  (** Sum of many matrices. *)
  Definition sum_row (Bmats : list (crs R)) (bvec : list R) (i : nat) : list (nat * R) :=
    flat_map (fun k => map (fun e => (fst e, (snd e * nth k bvec c0)%C)) (prow R (nth k Bmats (crs_empty R)) i))
             (seq 0 (length Bmats)).

  Lemma sum_row_elem Bmats bvec i j : Forall crs_wf Bmats ->
    row_elem (sum_row Bmats bvec i) j =
    sumn (length Bmats) (fun k => (pad_elem (nth k Bmats (crs_empty R)) i j * nth k bvec c0)%C).
  Proof.
    intros W. unfold sum_row, row_elem. rewrite suml_flat_map. unfold sumn. apply suml_ext_in.
    intros k Hk. apply in_seq in Hk. rewrite suml_map. cbn [fst snd].
    rewrite <- prow_elem.
    - unfold row_elem. rewrite <- suml_mul_r. apply suml_ext. intros [c x]. simpl.
      destruct (c =? j); [reflexivity|]. rewrite cmul_0_l. reflexivity.
    - rewrite Forall_forall in W. apply W. apply nth_In. lia.
  Qed.

  Definition sum_step (e : nat * R) (st : list R * list bool * list nat) : res (list R * list bool * list nat) :=
    let '(vt, ex, ci) := st in
    do b <- vget ex (fst e) ;;
    if (b : bool) then
      do v <- vget vt (fst e) ;;
      do vt <- vset vt (fst e) (v + snd e)%C ;;
      Ok (vt, ex, ci)
    else
      do ex <- vset ex (fst e) true ;;
      do vt <- vset vt (fst e) (snd e) ;;
      Ok (vt, ex, ci ++ [fst e]).

  Definition sum_inv c (P : list (nat * R)) (st : list R * list bool * list nat) : Prop :=
    let '(vt, ex, ci) := st in
    length vt = c /\ length ex = c /\ NoDup ci /\
    (forall j, In j ci <-> In j (map fst P)) /\
    (forall j, j < c -> (nth j ex false = true <-> In j ci)) /\
    (forall j, In j ci -> nth j vt c0 = row_elem P j).

  Lemma sum_step_ok c P e st : fst e < c -> sum_inv c P st ->
    exists st', sum_step e st = Ok st' /\ sum_inv c (P ++ [e]) st'.
  Proof.
    destruct e as [j x]. destruct st as [[vt ex] ci]. simpl fst. intros Hj [L1 [L2 [N [H1 [H2 H3]]]]].
    unfold sum_step. cbn [fst snd]. rewrite (vget_ok ex false) by lia. cbn [bind].
    assert (Helem : forall k, row_elem (P ++ [(j, x)]) k = (row_elem P k + (if j =? k then x else c0))%C).
    { intros k. rewrite row_elem_app. unfold row_elem at 2. simpl. destruct (j =? k); ring. }
    assert (Hin : forall k, In k (map fst (P ++ [(j, x)])) <-> In k (map fst P) \/ k = j).
    { intros k. rewrite map_app, in_app_iff. simpl. intuition. }
    destruct (nth j ex false) eqn:Ex.
    - assert (Hjc : In j ci) by (apply H2; assumption).
      rewrite (vget_ok vt c0) by lia. cbn [bind]. rewrite vset_ok by lia. cbn [bind].
      eexists. split; [reflexivity|]. unfold sum_inv. rewrite upd_length.
      split; [exact L1|]. split; [exact L2|]. split; [exact N|]. split; [|split; [exact H2|]].
      + intros k. rewrite Hin, <- H1. intuition (subst; assumption).
      + intros k Hk. rewrite Helem. destruct (Nat.eq_dec k j) as [->|Hne].
        * rewrite nth_upd_eq by lia. rewrite Nat.eqb_refl, H3 by exact Hk. reflexivity.
        * rewrite nth_upd_neq by exact Hne. rewrite H3 by exact Hk.
          destruct (Nat.eqb_spec j k); [congruence|]. ring.
    - assert (Hjc : ~ In j ci) by (intros X; apply H2 in X; congruence).
      repeat (rewrite vset_ok by lia; cbn [bind]).
      eexists. split; [reflexivity|]. unfold sum_inv. rewrite !upd_length.
      split; [exact L1|]. split; [exact L2|]. split; [|split; [|split]].
      + apply (Permutation_NoDup (l := j :: ci)); [apply Permutation_cons_append|]. constructor; assumption.
      + intros k. rewrite Hin, <- H1, in_app_iff. simpl. intuition.
      + intros k Hk. rewrite in_app_iff. simpl. destruct (Nat.eq_dec k j) as [->|Hne].
        * rewrite nth_upd_eq by lia. tauto.
        * rewrite nth_upd_neq by exact Hne. rewrite H2 by exact Hk. intuition congruence.
      + intros k Hk. rewrite Helem. apply in_app_or in Hk. destruct Hk as [Hk|[<-|[]]].
        * assert (k <> j) by congruence. rewrite nth_upd_neq by assumption. rewrite H3 by exact Hk.
          destruct (Nat.eqb_spec j k); [congruence|]. ring.
        * rewrite nth_upd_eq by lia. rewrite Nat.eqb_refl. rewrite row_elem_notin; [ring|].
          intros X. apply Hjc, H1. exact X.
  Qed.

  Lemma list_max_fold (l : list (crs R)) (g : crs R -> nat) a :
    fold_left (fun acc (M : crs R) => if acc <? g M then g M else acc) l a =
    Nat.max a (list_max (map g l)).
  Proof.
    revert a; induction l as [|M l IH]; intros a; simpl; [lia|].
    rewrite IH. destruct (Nat.ltb_spec a (g M)); lia.
  Qed.

  Lemma list_max_in (l : list nat) x : In x l -> x <= list_max l.
  Proof.
    intros H. assert (G := list_max_le l (list_max l)). destruct G as [G _].
    specialize (G (Nat.le_refl _)). rewrite Forall_forall in G. apply G. exact H.
  Qed.

  Lemma sum_dims Bmats : Forall crs_wf Bmats ->
    forL Bmats (fun thisMat '(nrow_A, ncol_A) =>
      do _ <- crs_nonZeros R thisMat ;;
      Ok (if (nrow_A <? c_nrow thisMat) then c_nrow thisMat else nrow_A,
          if (ncol_A <? c_ncol thisMat) then c_ncol thisMat else ncol_A)) (0, 0) =
    Ok (list_max (map c_nrow Bmats), list_max (map c_ncol Bmats)).
  Proof.
    intros W.
    assert (G : forall l a b, Forall crs_wf l ->
      forL l (fun (thisMat : crs R) '(nrow_A, ncol_A) =>
        do _ <- crs_nonZeros R thisMat ;;
        Ok (if (nrow_A <? c_nrow thisMat) then c_nrow thisMat else nrow_A,
            if (ncol_A <? c_ncol thisMat) then c_ncol thisMat else ncol_A)) (a, b) =
      Ok (Nat.max a (list_max (map c_nrow l)), Nat.max b (list_max (map c_ncol l)))).
    { induction l as [|M l IH]; intros a b HW; simpl.
      - rewrite !Nat.max_0_r. reflexivity.
      - inversion HW; subst. rewrite crs_nonZeros_ok by assumption. cbn [bind].
        rewrite IH by assumption. f_equal. f_equal.
        + destruct (Nat.ltb_spec a (c_nrow M)); lia.
        + destruct (Nat.ltb_spec b (c_ncol M)); lia. }
    rewrite G by exact W. reflexivity.
  Qed.

  Lemma crs_sum_ok A0 Bmats bvec : Forall crs_wf Bmats -> length bvec = length Bmats ->
    exists A', crs_sum R A0 Bmats bvec = Ok A' /\
      is_crs A' (list_max (map c_nrow Bmats)) (list_max (map c_ncol Bmats))
        (fun i j => sumn (length Bmats)
           (fun k => (pad_elem (nth k Bmats (crs_empty R)) i j * nth k bvec c0)%C)) /\
      crs_nodup A'.
  Proof.
    intros W Lb. unfold crs_sum.
    pose proof (sum_dims Bmats W) as Ed. cbn beta zeta in Ed. rewrite Ed. cbn [bind]. clear Ed.
    set (n := list_max (map c_nrow Bmats)). set (c := list_max (map c_ncol Bmats)).
    assert (HW : forall k, k < length Bmats -> crs_wf (nth k Bmats (crs_empty R)) /\
                   c_ncol (nth k Bmats (crs_empty R)) <= c).
    { intros k Hk. assert (Hin : In (nth k Bmats (crs_empty R)) Bmats) by (apply nth_In; exact Hk).
      split; [rewrite Forall_forall in W; auto|]. apply list_max_in. apply in_map. exact Hin. }
    loopM (fun i (st : crs R * nat * list R * list bool) =>
             let '(A, cnt, vt, ex) := st in
             length vt = c /\ length ex = c /\ (forall j, j < c -> nth j ex false = false) /\
             exists rows, length rows = i /\ bld c n rows A cnt /\
               forall k, k < i ->
                 Forall (fun e => fst e < c) (nth k rows []) /\
                 NoDup (map fst (nth k rows [])) /\
                 forall j, row_elem (nth k rows []) j = row_elem (sum_row Bmats bvec k) j)
      as [[[A' cnt'] vt'] ex'] E H.
    - rewrite !repeat_length. split; [reflexivity|]. split; [reflexivity|].
      split; [intros; apply nth_repeat_same|]. exists []. split; [reflexivity|].
      split; [apply bld_init|]. intros; lia.
    - intros i [[[A1 cnt1] vt1] ex1] [_ Hi] [L1 [L2 [Hz [rows [Lr [HB Hrows]]]]]]. simpl in Hi.
      destruct (bld_setRow _ _ _ _ _ _ HB) as [A2 [E2 HB2]]; [lia|].
      rewrite Lr in E2. rewrite E2. cbn [bind].
      assert (Hcols : forall e, In e (sum_row Bmats bvec i) -> fst e < c).
      { intros e He. unfold sum_row in He. apply in_flat_map in He. destruct He as [k [Hk He]].
        apply in_seq in Hk. destruct (HW k) as [W1 W2]; [lia|].
        apply in_map_iff in He. destruct He as [e' [<- He]]. simpl.
        apply prow_col in He; [lia|exact W1]. }
      match goal with |- exists _, bind ?X _ = _ /\ _ => assert (E3 : exists st, X = Ok st /\
        sum_inv c (sum_row Bmats bvec i) st) end.
      { match goal with |- exists _, ?X = _ /\ _ => assert (E3 : X =
          forL (sum_row Bmats bvec i) sum_step (vt1, ex1, [])) end.
        { rewrite forM_forL. unfold sum_row. rewrite forL_flat_map. apply forL_ext_in.
          intros k [[vt ex] ci] Hk. apply in_seq in Hk. destruct (HW k) as [W1 W2]; [lia|].
          rewrite (vget_ok Bmats (crs_empty R)) by lia. cbn [bind].
          rewrite ks_ok by exact W1. cbn [bind]. rewrite ke_ok by exact W1. cbn [bind].
          rewrite <- prow_length.
          destruct (Nat.leb_spec 1 (length (prow R (nth k Bmats (crs_empty R)) i))) as [Hw|Hw]; cbn [negb].
          - rewrite (vget_ok bvec c0) by lia. cbn [bind]. rewrite forL_map. apply prow_forL; [exact W1|].
            intros k' [[vt2 ex2] ci2] Hk'. rewrite wf_getValue, wf_getCol by assumption. reflexivity.
          - destruct (prow R (nth k Bmats (crs_empty R)) i); [reflexivity|simpl in Hw; lia]. }
        rewrite E3. apply (forL_inv (sum_inv c)).
        - split; [exact L1|]. split; [exact L2|]. split; [constructor|]. split; [intros; simpl; tauto|].
          split; [|intros j []]. intros j Hj. rewrite Hz by exact Hj. simpl. split; [discriminate|tauto].
        - intros P e post st HL HI. apply sum_step_ok; [|exact HI]. apply Hcols. rewrite HL. apply in_elt. }
      destruct E3 as [[[vt3 ex3] ci3] [E3 [I1 [I2 [I3 [I4 [I5 I6]]]]]]]. rewrite E3. cbn [bind].
      assert (Hci : forall j, In j ci3 -> j < c).
      { intros j Hj. apply I4 in Hj. apply in_map_iff in Hj. destruct Hj as [e [<- He]]. auto. }
      match goal with |- exists _, bind ?X _ = _ /\ _ => assert (E4 : exists A4 ex4, X = Ok (A4, ex4) /\
        bldr c n rows (map (fun j => (j, nth j vt3 c0)) ci3) A4 (cnt1 + length ci3) /\
        length ex4 = c /\ (forall j, j < c -> nth j ex4 false = false)) end.
      { loopM (fun s (st : crs R * list bool) => let '(A4, ex4) := st in
                 bldr c n rows (map (fun j => (j, nth j vt3 c0)) (firstn s ci3)) A4 (cnt1 + s) /\
                 length ex4 = c /\
                 (forall j, j < c -> nth j ex4 false = true -> In j (skipn s ci3)))
          as [A4 ex4] E4 H4.
        - rewrite Nat.add_0_r. split; [exact HB2|]. split; [exact I2|].
          intros j Hj Hx. simpl. apply I5; assumption.
        - intros s [A4 ex4] [_ Hs] [J1 [J2 J3]]. simpl in Hs.
          rewrite (vget_ok ci3 0) by lia. cbn [bind].
          assert (Hj : nth s ci3 0 < c) by (apply Hci, nth_In; exact Hs).
          rewrite (vget_ok vt3 c0) by lia. cbn [bind]. rewrite vset_ok by lia. cbn [bind].
          eexists. split; [reflexivity|]. cbv beta iota. split; [|split].
          + rewrite (firstn_S_nth ci3 0) by exact Hs. rewrite map_app, Nat.add_succ_r. apply bldr_push. exact J1.
          + rewrite upd_length. exact J2.
          + intros j Hj' Hx. destruct (Nat.eq_dec j (nth s ci3 0)) as [->|Hne].
            * rewrite nth_upd_eq in Hx by lia. discriminate.
            * rewrite nth_upd_neq in Hx by exact Hne. specialize (J3 j Hj' Hx).
              rewrite (skipn_nth ci3 0) in J3 by exact Hs. destruct J3 as [J3|J3]; [congruence|exact J3].
        - destruct H4 as [J1 [J2 J3]]. simpl in J1, J3. exists A4, ex4. split; [exact E4|].
          rewrite firstn_all in J1. split; [exact J1|]. split; [exact J2|].
          intros j Hj. destruct (nth j ex4 false) eqn:Ex; [|reflexivity].
          specialize (J3 j Hj Ex). rewrite skipn_all in J3. destruct J3. }
      destruct E4 as [A4 [ex4 [E4 [J1 [J2 J3]]]]]. rewrite E4. cbn [bind].
      eexists. split; [reflexivity|]. split; [exact I1|]. split; [exact J2|]. split; [exact J3|].
      exists (rows ++ [map (fun j => (j, nth j vt3 c0)) ci3]).
      split; [rewrite app_length; simpl; lia|]. split; [apply bldr_done; exact J1|].
      intros k Hk. destruct (Nat.eq_dec k i) as [->|Hne].
      + rewrite app_nth2, Lr, Nat.sub_diag by lia. cbn [nth].
        assert (Hf : map fst (map (fun j => (j, nth j vt3 c0)) ci3) = ci3)
          by (rewrite map_map; simpl; apply map_id).
        split; [|split].
        * apply Forall_map, Forall_forall. intros j Hj. simpl. auto.
        * rewrite Hf. exact I3.
        * intros j. apply row_elem_char.
          -- rewrite Hf. exact I3.
          -- intros b v Hb. apply in_map_iff in Hb. destruct Hb as [b' [[= <- <-] Hb]]. apply I6. exact Hb.
          -- rewrite Hf. intros Hnot. apply row_elem_notin. rewrite <- I4. exact Hnot.
      + rewrite app_nth1 by lia. apply Hrows. lia.
    - rewrite E. cbn [bind]. destruct H as [_ [_ [_ [rows [Lr [HB Hrows]]]]]]. simpl in Lr.
      rewrite (bld_finish _ _ _ _ _ _ HB) by exact Lr. cbn [bind].
      rewrite (bld_cnt _ _ _ _ _ _ HB). replace n with (length rows) by exact Lr.
      rewrite resize3_of_rows. eexists. split; [reflexivity|]. split.
      + apply of_rows_is.
        * apply Forall_forall. intros r Hr. apply (In_nth _ _ []) in Hr.
          destruct Hr as [k [Hk <-]]. apply Hrows. lia.
        * intros i j Hi Hj. destruct (Hrows i) as [_ [_ He]]; [lia|]. rewrite He.
          apply sum_row_elem. exact W.
      + apply of_rows_nodup. intros i Hi. apply Hrows. lia.
  Qed.
End Proofs2.
