(** Loops over lists, row offsets, and the two views of a CRS matrix: arrays and
    list of rows. *)
From Verif Require Import Prelude Ring Crs_Model Crs_Spec.

(** ------------------------------------------------------------------ *)
(** Loops over lists. *)
Lemma forL_app {A S : Type} (u v : list A) (f : A -> S -> res S) s :
  forL (u ++ v) f s = do s' <- forL u f s ;; forL v f s'.
Proof.
  revert s; induction u as [|a u IH]; intros s; simpl; auto.
  destruct (f a s); simpl; auto.
Qed.

Lemma forL_map {A B S : Type} (g : A -> B) (l : list A) (f : B -> S -> res S) s :
  forL (map g l) f s = forL l (fun a s => f (g a) s) s.
Proof.
  revert s; induction l as [|a l IH]; intros s; simpl; auto.
  destruct (f (g a) s); simpl; auto.
Qed.

Lemma forL_ext_in {A S : Type} (l : list A) (f g : A -> S -> res S) s :
  (forall a t, In a l -> f a t = g a t) -> forL l f s = forL l g s.
Proof.
  revert s; induction l as [|a l IH]; intros s H; simpl; auto.
  rewrite H by (left; reflexivity). destruct (g a s); simpl; auto.
  apply IH. intros; apply H; right; assumption.
Qed.

Lemma forL_flat_map {A B S : Type} (g : A -> list B) (l : list A) (f : B -> S -> res S) s :
  forL (flat_map g l) f s = forL l (fun a s => forL (g a) f s) s.
Proof.
  revert s; induction l as [|a l IH]; intros s; simpl; auto.
  rewrite forL_app. destruct (forL (g a) f s); simpl; auto.
Qed.

Lemma forM_forL {S : Type} n i (f : nat -> S -> res S) s : forM n i f s = forL (seq i n) f s.
Proof.
  revert i s; induction n as [|n IH]; intros i s; simpl; auto.
  destruct (f i s); simpl; auto.
Qed.

Lemma forR_forL {S : Type} a b (f : nat -> S -> res S) s : forR a b f s = forL (seq a (b - a)) f s.
Proof. apply forM_forL. Qed.

(** ------------------------------------------------------------------ *)
(** Offsets of rows in their concatenation. *)
Section Off.
  Context {A : Type}.
  Implicit Types (rows : list (list A)).

  Definition off rows (i : nat) : nat := length (concat (firstn i rows)).

  Lemma off_0 rows : off rows 0 = 0.
  Proof. reflexivity. Qed.

  Lemma off_S rows i : i < length rows -> off rows (S i) = off rows i + length (nth i rows []).
  Proof.
    intros H. unfold off. rewrite (firstn_S_nth _ [] H), concat_app, app_length.
    simpl. rewrite app_nil_r. reflexivity.
  Qed.

  Lemma off_all rows i : length rows <= i -> off rows i = length (concat rows).
  Proof. intros H. unfold off. rewrite firstn_all2 by exact H. reflexivity. Qed.

  Lemma off_le rows i j : i <= j -> off rows i <= off rows j.
  Proof.
    intros H. induction H as [|j H IH]; [lia|].
    destruct (Nat.lt_ge_cases j (length rows)).
    - rewrite off_S by assumption. lia.
    - rewrite (off_all _ (S j)), (off_all _ j) in * by lia. lia.
  Qed.

  Lemma off_total rows i : off rows i <= length (concat rows).
  Proof. rewrite <- (off_all rows (i + length rows)) by lia. apply off_le. lia. Qed.

  Lemma off_lt rows i k : i < length rows -> k < length (nth i rows []) ->
    off rows i + k < length (concat rows).
  Proof.
    intros Hi Hk. pose proof (off_total rows (S i)). rewrite off_S in H by exact Hi. lia.
  Qed.

  Lemma off_app_l rows r i : i <= length rows -> off (rows ++ r) i = off rows i.
  Proof.
    intros H. unfold off. rewrite firstn_app. replace (i - length rows) with 0 by lia.
    rewrite app_nil_r. reflexivity.
  Qed.

  Lemma nth_concat rows i k d : i < length rows -> k < length (nth i rows []) ->
    nth (off rows i + k) (concat rows) d = nth k (nth i rows []) d.
  Proof.
    revert i; induction rows as [|r rows IH]; intros i Hi Hk; [simpl in Hi; lia|].
    destruct i as [|i].
    - unfold off. simpl in *. rewrite app_nth1 by exact Hk. reflexivity.
    - simpl in Hi, Hk. unfold off. cbn [firstn concat nth]. rewrite app_length.
      rewrite app_nth2 by lia.
      replace (length r + length (concat (firstn i rows)) + k - length r) with (off rows i + k)
        by (unfold off; lia).
      apply IH; [lia|exact Hk].
  Qed.

  Lemma off_find rows p : p < length (concat rows) ->
    exists i k, i < length rows /\ k < length (nth i rows []) /\ p = off rows i + k.
  Proof.
    revert p; induction rows as [|r rows IH]; intros p Hp; simpl in Hp; [lia|].
    rewrite app_length in Hp. destruct (Nat.lt_ge_cases p (length r)) as [H|H].
    - exists 0, p. simpl. unfold off. simpl. repeat split; lia.
    - destruct (IH (p - length r)) as [i [k [H1 [H2 H3]]]]; [lia|].
      exists (S i), k. simpl. unfold off in *. cbn [firstn concat]. rewrite app_length.
      repeat split; [lia|exact H2|lia].
  Qed.

  Lemma off_inj rows i k i' k' :
    i < length rows -> i' < length rows ->
    k < length (nth i rows []) -> k' < length (nth i' rows []) ->
    off rows i + k = off rows i' + k' -> i = i' /\ k = k'.
  Proof.
    intros Hi Hi' Hk Hk' H.
    assert (Hlt : forall a b x y, a < length rows -> x < length (nth a rows []) ->
             a < b -> off rows a + x < off rows b + y).
    { intros a b x y Ha Hx Hab. pose proof (off_le rows (S a) b Hab). rewrite off_S in H0 by exact Ha. lia. }
    destruct (Nat.lt_total i i') as [L|[L|L]].
    - pose proof (Hlt i i' k k' Hi Hk L). lia.
    - subst. split; [reflexivity|lia].
    - pose proof (Hlt i' i k' k Hi' Hk' L). lia.
  Qed.
End Off.

Section Base.
  Variable R : cring.
  Local Open Scope cring_scope.
  Add Ring Rring : (c_ring R).
  Local Open Scope nat_scope.
  Implicit Types (m A B C : crs R) (rows : list (list (nat * R))) (row : list (nat * R)).

  (** ---------------------------------------------------------------- *)
  (** Rows. *)
  Lemma row_elem_app row row' j : row_elem (row ++ row') j = (row_elem row j + row_elem row' j)%C.
  Proof. apply suml_app. Qed.

  Lemma row_elem_notin row j : ~ In j (map fst row) -> row_elem row j = c0.
  Proof.
    intros H. apply suml_zero_in. intros [c v] Hin. simpl.
    destruct (Nat.eqb_spec c j) as [->|]; [|reflexivity].
    exfalso. apply H. apply (in_map fst) in Hin. exact Hin.
  Qed.

  Lemma row_elem_nodup row j v : NoDup (map fst row) -> In (j, v) row -> row_elem row j = v.
  Proof.
    intros Hn Hin. induction row as [|[c x] row IH]; [destruct Hin|].
    simpl in Hn. inversion Hn as [|? ? Hc Hn']; subst. unfold row_elem. simpl.
    destruct Hin as [H|Hin].
    - injection H as -> ->. rewrite Nat.eqb_refl. fold (row_elem row j).
      rewrite row_elem_notin by exact Hc. ring.
    - destruct (Nat.eqb_spec c j) as [->|].
      + exfalso. apply Hc. apply (in_map fst) in Hin. exact Hin.
      + fold (row_elem row j). rewrite IH by assumption. ring.
  Qed.

  (** A row with distinct columns whose values are given by [f], and that
      leaves out only zeros of [f]. *)
  Lemma row_elem_char row (f : nat -> R) j :
    NoDup (map fst row) -> (forall c v, In (c, v) row -> v = f c) ->
    (~ In j (map fst row) -> f j = c0) -> row_elem row j = f j.
  Proof.
    intros Hn Hv H0. destruct (in_dec Nat.eq_dec j (map fst row)) as [Hin|Hin].
    - apply in_map_iff in Hin. destruct Hin as [[c v] [Hc Hin]]. simpl in Hc. subst c.
      rewrite (row_elem_nodup _ _ v Hn Hin). apply Hv. exact Hin.
    - rewrite row_elem_notin, H0; auto.
  Qed.

  (** ---------------------------------------------------------------- *)
  (** Matrices as lists of rows. *)
  Definition of_rows (c : nat) rows : crs R :=
    mkcrs (map (off rows) (seq 0 (S (length rows)))) (map fst (concat rows)) (map snd (concat rows))
          (length rows) c.

  Lemma of_rows_rp c rows i : i <= length rows -> rp (of_rows c rows) i = off rows i.
  Proof.
    intros H. unfold rp, of_rows. cbn [c_rowptr].
    rewrite (nth_indep _ 0 (off rows 0)) by (rewrite map_length, seq_length; lia).
    rewrite map_nth, seq_nth by lia. reflexivity.
  Qed.

  Lemma map_seq_nth {T} (l : list T) d n : n = length l -> map (fun k => nth k l d) (seq 0 n) = l.
  Proof. intros ->. apply map_nth_seq. Qed.

  Lemma of_rows_row c rows i : i < length rows -> crs_row (of_rows c rows) i = nth i rows [].
  Proof.
    intros H. unfold crs_row. rewrite !of_rows_rp by lia. rewrite off_S by exact H.
    replace (off rows i + length (nth i rows []) - off rows i) with (length (nth i rows [])) by lia.
    rewrite <- (map_nth_seq (nth i rows []) (0, c0)) at 2.
    replace (seq (off rows i) (length (nth i rows [])))
      with (map (fun k => off rows i + k) (seq 0 (length (nth i rows [])))).
    - rewrite map_map. apply map_ext_in. intros k Hk. apply in_seq in Hk.
      unfold of_rows. cbn [c_colind c_values].
      rewrite (map_nth (@fst nat R) (concat rows) (0, c0)).
      rewrite (map_nth (@snd nat R) (concat rows) (0, c0)).
      rewrite nth_concat by lia. destruct (nth k (nth i rows []) (0, c0)); reflexivity.
    - generalize (off rows i) (length (nth i rows [])). intros a n. revert a.
      assert (G : forall n a b, map (fun k => a + k) (seq b n) = seq (a + b) n).
      { clear. induction n as [|n IH]; intros a b; simpl; [reflexivity|].
        f_equal. rewrite IH. f_equal. lia. }
      intros a. rewrite G. f_equal. lia.
  Qed.

  Lemma of_rows_wf c rows :
    Forall (fun row => Forall (fun e => fst e < c) row) rows -> crs_wf (of_rows c rows).
  Proof.
    intros H. unfold crs_wf. rewrite !of_rows_rp by lia. split; [|split; [|split; [|split; [|split]]]].
    - left. unfold of_rows. cbn [c_rowptr c_nrow]. rewrite map_length, seq_length. reflexivity.
    - apply off_0.
    - intros i Hi. cbn [of_rows c_nrow] in Hi. rewrite !of_rows_rp by lia. apply off_le. lia.
    - cbn [of_rows c_nrow c_colind]. rewrite of_rows_rp by lia. rewrite off_all by lia.
      rewrite map_length. reflexivity.
    - cbn [of_rows c_values c_colind]. rewrite !map_length. reflexivity.
    - cbn [of_rows c_ncol c_colind]. apply Forall_map. apply Forall_concat. exact H.
  Qed.

  Lemma of_rows_is c rows (f : nat -> nat -> R) :
    Forall (fun row => Forall (fun e => fst e < c) row) rows ->
    (forall i j, i < length rows -> j < c -> row_elem (nth i rows []) j = f i j) ->
    is_crs (of_rows c rows) (length rows) c f.
  Proof.
    intros H1 H2. split; [reflexivity|]. split; [reflexivity|]. split.
    - cbn [of_rows c_rowptr]. rewrite map_length, seq_length. reflexivity.
    - split; [apply of_rows_wf; exact H1|]. intros i j Hi Hj. unfold crs_elem.
      rewrite of_rows_row by exact Hi. apply H2; assumption.
  Qed.

  Lemma of_rows_nodup c rows :
    (forall i, i < length rows -> NoDup (map fst (nth i rows []))) -> crs_nodup (of_rows c rows).
  Proof. intros H i Hi. cbn [of_rows c_nrow] in Hi. rewrite of_rows_row by exact Hi. auto. Qed.

  Lemma of_rows_sorted c rows :
    (forall i, i < length rows -> StronglySorted lt (map fst (nth i rows []))) ->
    crs_sorted (of_rows c rows).
  Proof. intros H i Hi. cbn [of_rows c_nrow] in Hi. rewrite of_rows_row by exact Hi. auto. Qed.

  Lemma of_rows_nozero c rows :
    Forall (fun row => Forall (fun e => snd e <> c0) row) rows -> crs_nozero (of_rows c rows).
  Proof.
    intros H. unfold crs_nozero. cbn [of_rows c_values]. apply Forall_map. apply Forall_concat. exact H.
  Qed.

  (** ---------------------------------------------------------------- *)
  (** Reading a well formed matrix. *)
  Lemma wf_rp m i : crs_wf m -> i < c_nrow m -> getRowPtr R m i = Ok (rp m i).
  Proof.
    intros W Hi. destruct W as [[L|[L _]] _]; [|lia]. unfold getRowPtr, rp. apply vget_ok. lia.
  Qed.

  Lemma wf_rp_S m i : crs_wf m -> i < c_nrow m -> getRowPtr R m (i + 1) = Ok (rp m (S i)).
  Proof.
    intros W Hi. destruct W as [[L|[L _]] _]; [|lia]. unfold getRowPtr, rp.
    replace (i + 1) with (S i) by lia. apply vget_ok. lia.
  Qed.

  Lemma wf_mono m i j : crs_wf m -> i <= j -> j <= c_nrow m -> rp m i <= rp m j.
  Proof.
    intros [_ [_ [H _]]] Hij Hj. induction Hij as [|j Hij IH]; [lia|].
    specialize (H j). lia.
  Qed.

  Lemma wf_rp_le m i : crs_wf m -> i <= c_nrow m -> rp m i <= length (c_colind m).
  Proof.
    intros W Hi. pose proof (wf_mono m i (c_nrow m) W Hi (Nat.le_refl _)).
    destruct W as [_ [_ [_ [H2 _]]]]. lia.
  Qed.

  Lemma wf_values m : crs_wf m -> length (c_values m) = length (c_colind m).
  Proof. intros [_ [_ [_ [_ [H _]]]]]. exact H. Qed.

  Lemma wf_nrow_rp m : crs_wf m -> rp m (c_nrow m) = length (c_colind m).
  Proof. intros [_ [_ [_ [H _]]]]. exact H. Qed.

  Lemma wf_col m k : crs_wf m -> k < length (c_colind m) -> nth k (c_colind m) 0 < c_ncol m.
  Proof.
    intros [_ [_ [_ [_ [_ H]]]]] Hk. rewrite Forall_forall in H. apply H. apply nth_In. exact Hk.
  Qed.

  Lemma wf_getCol m k : k < length (c_colind m) -> getCol R m k = Ok (nth k (c_colind m) 0).
  Proof. intros H. apply vget_ok. exact H. Qed.

  Lemma wf_getValue m k : crs_wf m -> k < length (c_colind m) ->
    getValue R m k = Ok (nth k (c_values m) c0).
  Proof. intros W H. apply vget_ok. rewrite wf_values; assumption. Qed.

  (** The loop over positions [ks..ke) of a row as a loop over its entries. *)
  Lemma row_forL {S : Type} m i (F : nat -> S -> res S) (G : nat * R -> S -> res S) s :
    crs_wf m -> i < c_nrow m ->
    (forall k t, rp m i <= k < rp m (Datatypes.S i) -> k < length (c_colind m) ->
       F k t = G (nth k (c_colind m) 0, nth k (c_values m) c0) t) ->
    forR (rp m i) (rp m (Datatypes.S i)) F s = forL (crs_row m i) G s.
  Proof.
    intros W Hi H. rewrite forR_forL. unfold crs_row. rewrite forL_map.
    apply forL_ext_in. intros k t Hk. apply in_seq in Hk. apply H; [lia|].
    pose proof (wf_rp_le m (Datatypes.S i) W Hi). lia.
  Qed.

  Lemma for_row_forL {S : Type} m i (F : nat -> S -> res S) (G : nat * R -> S -> res S) s :
    crs_wf m -> i < c_nrow m ->
    (forall k t, rp m i <= k < rp m (Datatypes.S i) -> k < length (c_colind m) ->
       F k t = G (nth k (c_colind m) 0, nth k (c_values m) c0) t) ->
    for_row R m i F s = forL (crs_row m i) G s.
  Proof.
    intros W Hi H. unfold for_row. rewrite wf_rp, wf_rp_S by assumption. cbn [bind].
    apply row_forL; assumption.
  Qed.

  Lemma crs_row_col m i e : crs_wf m -> i < c_nrow m -> In e (crs_row m i) -> fst e < c_ncol m.
  Proof.
    intros W Hi H. unfold crs_row in H. apply in_map_iff in H. destruct H as [k [<- Hk]].
    apply in_seq in Hk. simpl. apply wf_col; [exact W|].
    pose proof (wf_rp_le m (S i) W Hi). lia.
  Qed.

  Lemma crs_row_length m i : length (crs_row m i) = rp m (S i) - rp m i.
  Proof. unfold crs_row. rewrite map_length, seq_length. reflexivity. Qed.

  Lemma crs_elem_out m i j : crs_wf m -> i < c_nrow m -> c_ncol m <= j -> crs_elem m i j = c0.
  Proof.
    intros W Hi Hj. apply row_elem_notin. intros H. apply in_map_iff in H.
    destruct H as [e [<- He]]. apply crs_row_col in He; [lia|assumption|assumption].
  Qed.

  (** All entries in storage order are the rows one after the other. *)
  Lemma crs_rows_concat m n : crs_wf m -> n <= c_nrow m ->
    concat (map (crs_row m) (seq 0 n)) =
    map (fun k => (nth k (c_colind m) 0, nth k (c_values m) c0)) (seq 0 (rp m n)).
  Proof.
    intros W. induction n as [|n IH]; intros Hn.
    - simpl. destruct W as [_ [-> _]]. reflexivity.
    - rewrite seq_S, map_app, concat_app, IH by lia. simpl. rewrite app_nil_r.
      unfold crs_row. rewrite <- map_app. f_equal.
      pose proof (wf_mono m n (S n) W (Nat.le_succ_diag_r n) Hn).
      rewrite (@seq_split_at 0 (rp m n) (rp m (S n))) by lia. f_equal; f_equal; lia.
  Qed.

  Lemma crs_rows_all m : crs_wf m ->
    map fst (concat (map (crs_row m) (seq 0 (c_nrow m)))) = c_colind m /\
    map snd (concat (map (crs_row m) (seq 0 (c_nrow m)))) = c_values m.
  Proof.
    intros W. rewrite crs_rows_concat by (auto; lia). rewrite !map_map. cbn [fst snd].
    rewrite wf_nrow_rp by exact W. split.
    - apply map_nth_seq.
    - apply map_seq_nth. symmetry. apply wf_values. exact W.
  Qed.

  Lemma crs_nonZeros_ok m : crs_wf m -> crs_nonZeros R m = Ok (length (c_colind m)).
  Proof.
    intros W. unfold crs_nonZeros. destruct (Nat.leb_spec 1 (c_nrow m)) as [H|H].
    - destruct W as [[L|[L _]] [H0 [H1 [H2 [H3 H4]]]]]; [|lia].
      rewrite L. cbn [Nat.add]. rewrite Nat.eqb_refl.
      unfold rp in H2. rewrite (vget_ok _ 0) by lia. cbn [bind]. rewrite H2, Nat.eqb_refl, H3, Nat.eqb_refl.
      reflexivity.
    - assert (Hn : c_nrow m = 0) by lia. pose proof (wf_nrow_rp m W) as H2. rewrite Hn in H2.
      destruct W as [_ [H0 _]]. rewrite H0 in H2. rewrite <- H2. reflexivity.
  Qed.

  Lemma pad_elem_in m i j : i < c_nrow m -> j < c_ncol m -> pad_elem m i j = crs_elem m i j.
  Proof.
    intros Hi Hj. unfold pad_elem. apply Nat.ltb_lt in Hi. apply Nat.ltb_lt in Hj.
    rewrite Hi, Hj. reflexivity.
  Qed.

  Lemma pad_elem_row m i j : crs_wf m -> i < c_nrow m -> pad_elem m i j = crs_elem m i j.
  Proof.
    intros W Hi. destruct (Nat.lt_ge_cases j (c_ncol m)) as [H|H].
    - apply pad_elem_in; assumption.
    - rewrite crs_elem_out by assumption. unfold pad_elem. apply Nat.ltb_ge in H. rewrite H.
      rewrite andb_false_r. reflexivity.
  Qed.

  Lemma pad_elem_out m i j : c_nrow m <= i -> pad_elem m i j = c0.
  Proof. intros H. unfold pad_elem. apply Nat.ltb_ge in H. rewrite H. reflexivity. Qed.

  (** ---------------------------------------------------------------- *)
  (** Matrices built row by row with setRow and push. *)
  Definition bld (c n : nat) rows (m : crs R) (cnt : nat) : Prop :=
    exists v, m = mkcrs v (map fst (concat rows)) (map snd (concat rows)) n c /\
      length v = S n /\ cnt = length (concat rows) /\
      forall k, k < length rows -> nth k v 0 = off rows k.

  Definition bldr (c n : nat) rows row (m : crs R) (cnt : nat) : Prop :=
    exists v, m = mkcrs v (map fst (concat rows ++ row)) (map snd (concat rows ++ row)) n c /\
      length v = S n /\ cnt = length (concat rows ++ row) /\
      forall k, k <= length rows -> nth k v 0 = off rows k.

  Lemma bld_init m n c : bld c n [] (crs_resize2 R m n c) 0.
  Proof.
    exists (repeat 0 (n + 1)). split; [reflexivity|]. split; [rewrite repeat_length; lia|].
    split; [reflexivity|]. simpl. intros k Hk. lia.
  Qed.

  Lemma bld_setRow c n rows m cnt : bld c n rows m cnt -> length rows <= n ->
    exists m', setRow R m (length rows) cnt = Ok m' /\ bldr c n rows [] m' cnt.
  Proof.
    intros [v [-> [L [-> H]]]] Hn. unfold setRow. cbn [c_rowptr c_colind c_values c_nrow c_ncol].
    rewrite vset_ok by lia. cbn [bind]. eexists. split; [reflexivity|].
    rewrite <- (app_nil_r (concat rows)) at 2 3. eexists. split; [reflexivity|].
    rewrite upd_length, app_nil_r. split; [exact L|]. split; [reflexivity|].
    intros k Hk. rewrite nth_upd. destruct (Nat.eqb_spec k (length rows)) as [->|Hne].
    - simpl. destruct (Nat.ltb_spec (length rows) (length v)); [|lia]. simpl.
      rewrite off_all by lia. reflexivity.
    - simpl. apply H. lia.
  Qed.

  Lemma bldr_push c n rows row m cnt j x : bldr c n rows row m cnt ->
    bldr c n rows (row ++ [(j, x)]) (pushValue R (pushCol R m j) x) (S cnt).
  Proof.
    intros [v [-> [L [-> H]]]]. exists v. unfold pushValue, pushCol.
    cbn [c_rowptr c_colind c_values c_nrow c_ncol]. split.
    - rewrite app_assoc, !map_app. reflexivity.
    - split; [exact L|]. split; [|exact H]. rewrite !app_length. simpl. lia.
  Qed.

  Lemma bldr_push' c n rows row m cnt j x : bldr c n rows row m cnt ->
    bldr c n rows (row ++ [(j, x)]) (pushCol R (pushValue R m x) j) (S cnt).
  Proof. apply bldr_push. Qed.

  Lemma bldr_done c n rows row m cnt : bldr c n rows row m cnt -> bld c n (rows ++ [row]) m cnt.
  Proof.
    intros [v [-> [L [-> H]]]]. exists v.
    assert (E : concat (rows ++ [row]) = concat rows ++ row)
      by (rewrite concat_app; simpl; rewrite app_nil_r; reflexivity).
    rewrite E. split; [reflexivity|]. split; [exact L|]. split; [reflexivity|].
    intros k Hk. rewrite app_length in Hk. simpl in Hk. rewrite off_app_l by lia. apply H. lia.
  Qed.

  Lemma bld_finish c n rows m cnt : bld c n rows m cnt -> length rows = n ->
    setRow R m n cnt = Ok (of_rows c rows).
  Proof.
    intros H Hn. destruct (bld_setRow _ _ _ _ _ H) as [m' [E H']]; [lia|].
    rewrite <- Hn at 1. rewrite E. f_equal. destruct H' as [v [-> [L [_ Hv]]]].
    unfold of_rows. rewrite app_nil_r, Hn. f_equal.
    apply (list_eq_nth _ _ 0).
    - rewrite map_length, seq_length. exact L.
    - intros k Hk. rewrite Hv by lia.
      rewrite (nth_indep _ 0 (off rows 0)) by (rewrite map_length, seq_length; lia).
      rewrite map_nth, seq_nth by lia. reflexivity.
  Qed.

  Lemma bldr_dims c n rows row m cnt : bldr c n rows row m cnt -> c_nrow m = n /\ c_ncol m = c.
  Proof. intros [v [-> _]]. auto. Qed.

  (** ---------------------------------------------------------------- *)
  (** Matrices built by counting the entries per row and then placing each
      entry at the next free place of its row. *)
  Definition bucket (E : list (nat * (nat * R))) (r : nat) : list (nat * R) :=
    map snd (filter (fun e => fst e =? r) E).

  Definition buckets (E : list (nat * (nat * R))) (n : nat) : list (list (nat * R)) :=
    map (bucket E) (seq 0 n).

  Lemma bucket_app E E' r : bucket (E ++ E') r = bucket E r ++ bucket E' r.
  Proof. unfold bucket. rewrite filter_app, map_app. reflexivity. Qed.

  Lemma buckets_length E n : length (buckets E n) = n.
  Proof. unfold buckets. rewrite map_length, seq_length. reflexivity. Qed.

  Lemma buckets_nth E n r : r < n -> nth r (buckets E n) [] = bucket E r.
  Proof.
    intros H. unfold buckets.
    rewrite (nth_indep _ [] (bucket E 0)) by (rewrite map_length, seq_length; exact H).
    rewrite map_nth, seq_nth by exact H. reflexivity.
  Qed.

  Lemma buckets_total E n : Forall (fun e => fst e < n) E ->
    length (concat (buckets E n)) = length E.
  Proof.
    intros H. induction H as [|[r e] E Hr H IH].
    - unfold buckets. induction (seq 0 n); simpl; auto.
    - simpl in Hr. simpl length. rewrite <- IH.
      unfold buckets. rewrite (@seq_split_at 0 r n) by lia. rewrite (@seq_split_at r (S r) (0 + n - r)) by lia.
      replace (seq r (S r - r)) with [r] by (replace (S r - r) with 1 by lia; reflexivity).
      rewrite !map_app, !concat_app, !app_length. cbn [map concat]. rewrite !app_length.
      assert (G : forall l, ~ In r l ->
                  map (bucket ((r, e) :: E)) l = map (bucket E) l).
      { intros l Hl. apply map_ext_in. intros a Ha. unfold bucket. simpl.
        destruct (Nat.eqb_spec r a); [subst; contradiction|reflexivity]. }
      rewrite !G by (rewrite in_seq; lia).
      replace (length (bucket ((r, e) :: E) r)) with (S (length (bucket E r)))
        by (unfold bucket; simpl; rewrite Nat.eqb_refl; reflexivity).
      simpl. lia.
  Qed.

  (** The placing step. *)
  Definition place (e : nat * (nat * R)) (st : crs R * list nat) : res (crs R * list nat) :=
    let '(B, ptr) := st in
    let '(r, (j, x)) := e in
    do ip <- vget ptr r ;;
    do B <- setCol R B ip j ;;
    do B <- setValues R B ip x ;;
    do ptr <- vset ptr r (S ip) ;;
    Ok (B, ptr).

  Lemma place_all E n B ptr c :
    Forall (fun e => fst e < n) E ->
    c_nrow B = n -> c_ncol B = c ->
    length (c_colind B) = length E -> length (c_values B) = length E ->
    c_rowptr B = map (off (buckets E n)) (seq 0 (S n)) ->
    length ptr = n ->
    (forall r, r < n -> nth r ptr 0 = off (buckets E n) r) ->
    exists ptr', forL E place (B, ptr) = Ok (of_rows c (buckets E n), ptr').
  Proof.
    intros HE Hnr Hnc Lc Lv Hrp Lp Hp.
    set (rows := buckets E n) in *.
    assert (Lr : length rows = n) by apply buckets_length.
    assert (Tot : length (concat rows) = length E) by (apply buckets_total; exact HE).
    loopL (fun P (st : crs R * list nat) => let '(B', ptr') := st in
             c_nrow B' = n /\ c_ncol B' = c /\ c_rowptr B' = c_rowptr B /\
             length (c_colind B') = length E /\ length (c_values B') = length E /\
             length ptr' = n /\
             (forall r, r < n -> nth r ptr' 0 = off rows r + length (bucket P r)) /\
             forall r k, r < n -> k < length (bucket P r) ->
               nth (off rows r + k) (c_colind B') 0 = fst (nth k (bucket P r) (0, c0)) /\
               nth (off rows r + k) (c_values B') c0 = snd (nth k (bucket P r) (0, c0)))
      as [B' ptr'] EQ H.
    - repeat (split; [assumption || reflexivity|]). split.
      + intros r Hr. rewrite Hp by exact Hr. simpl. lia.
      + simpl. intros; lia.
    - intros P [r [j x]] post [B' ptr'] HEq [I1 [I2 [I3 [I4 [I5 [I6 [I7 I8]]]]]]].
      assert (Hr : r < n).
      { rewrite HEq in HE. apply Forall_app in HE. destruct HE as [_ HE]. inversion HE; assumption. }
      assert (Hbr : forall q, q < n -> nth q rows [] = bucket E q) by (intros; apply buckets_nth; assumption).
      assert (Hlt : forall q, q < n -> length (bucket (P ++ [(r, (j, x))]) q) <= length (bucket E q)).
      { intros q Hq. rewrite HEq. change ((r, (j, x)) :: post) with ([(r, (j, x))] ++ post).
        rewrite app_assoc, !bucket_app, !app_length. lia. }
      assert (Hbk : bucket (P ++ [(r, (j, x))]) r = bucket P r ++ [(j, x)]).
      { rewrite bucket_app. f_equal. unfold bucket. simpl. rewrite Nat.eqb_refl. reflexivity. }
      assert (Hbo : forall q, q <> r -> bucket (P ++ [(r, (j, x))]) q = bucket P q).
      { intros q Hq. rewrite bucket_app. unfold bucket at 2. simpl.
        destruct (Nat.eqb_spec r q); [congruence|]. simpl. apply app_nil_r. }
      assert (HkE : length (bucket P r) < length (bucket E r)).
      { specialize (Hlt r Hr). rewrite Hbk, app_length in Hlt. simpl in Hlt. lia. }
      assert (Hpos : off rows r + length (bucket P r) < length E).
      { rewrite <- Tot. apply off_lt; [lia|]. rewrite Hbr by exact Hr. exact HkE. }
      unfold place. rewrite (vget_ok _ 0) by lia. rewrite I7 by exact Hr. cbn [bind].
      unfold setCol. rewrite vset_ok by lia. cbn [bind].
      unfold setValues. cbn [c_values c_rowptr c_colind c_nrow c_ncol].
      rewrite vset_ok by lia. cbn [bind]. rewrite vset_ok by lia. cbn [bind].
      eexists. split; [reflexivity|]. cbn [c_values c_rowptr c_colind c_nrow c_ncol].
      rewrite !upd_length.
      split; [exact I1|]. split; [exact I2|]. split; [exact I3|]. split; [exact I4|].
      split; [exact I5|]. split; [exact I6|]. split.
      + intros q Hq. destruct (Nat.eq_dec q r) as [->|Hne].
        * rewrite nth_upd_eq by lia. rewrite Hbk, app_length. simpl. lia.
        * rewrite nth_upd_neq by exact Hne. rewrite Hbo by exact Hne. apply I7. exact Hq.
      + intros q k Hq Hk. destruct (Nat.eq_dec q r) as [->|Hne].
        * rewrite Hbk in *. rewrite app_length in Hk. simpl in Hk.
          destruct (Nat.eq_dec k (length (bucket P r))) as [->|Hk'].
          -- rewrite !nth_upd_eq by lia. rewrite app_nth2 by lia. rewrite Nat.sub_diag. simpl. auto.
          -- rewrite !nth_upd_neq by lia. rewrite app_nth1 by lia. apply I8; lia.
        * rewrite Hbo in * by exact Hne.
          assert (Hd : off rows q + k <> off rows r + length (bucket P r)).
          { intros Heq. apply off_inj in Heq; try lia.
            - rewrite Hbr by exact Hq. specialize (Hlt q Hq). rewrite Hbo in Hlt by exact Hne. lia.
            - rewrite Hbr by exact Hr. exact HkE. }
          rewrite !nth_upd_neq by exact Hd. apply I8; assumption.
    - destruct H as [I1 [I2 [I3 [I4 [I5 [I6 [I7 I8]]]]]]]. rewrite EQ. exists ptr'. f_equal. f_equal.
      destruct B' as [rp' ci' vs' nr' nc']. cbn [c_values c_rowptr c_colind c_nrow c_ncol] in *.
      unfold of_rows. rewrite Lr. f_equal; try assumption; try congruence.
      + apply (list_eq_nth _ _ 0); [rewrite map_length; congruence|].
        intros p Hp'. rewrite I4, <- Tot in Hp'. destruct (off_find rows p Hp') as [r [k [Hr [Hk ->]]]].
        assert (Hr' : r < n) by lia.
        change 0 with (fst (0, @c0 R)) at 2. rewrite map_nth, nth_concat by assumption.
        unfold rows in *. rewrite buckets_nth in * by exact Hr'. apply I8; assumption.
      + apply (list_eq_nth _ _ c0); [rewrite map_length; congruence|].
        intros p Hp'. rewrite I5, <- Tot in Hp'. destruct (off_find rows p Hp') as [r [k [Hr [Hk ->]]]].
        assert (Hr' : r < n) by lia.
        change c0 with (snd (0, @c0 R)) at 2. rewrite map_nth, nth_concat by assumption.
        unfold rows in *. rewrite buckets_nth in * by exact Hr'. apply I8; assumption.
  Qed.
End Base.
Arguments of_rows {R} c rows.
Arguments bld {R} c n rows m cnt.
Arguments bldr {R} c n rows row m cnt.
Arguments bucket {R} E r.
Arguments buckets {R} E n.
Arguments place {R} e st.
