(** Conversions, products with vectors, product, sums of CRS matrices. *)
From Verif Require Import Prelude Ring Vec_Model Vec_Spec Vec_Proofs Dense_Model Dense_Spec Dense_Proofs.
From Verif Require Import Crs_Model Crs_Spec Crs_Base.

Section Proofs.
  Variable R : cring.
  Local Open Scope cring_scope.
  Add Ring Rring : (c_ring R).
  Local Open Scope nat_scope.
  Implicit Types (m A B C : crs R) (rows : list (list (nat * R))) (row : list (nat * R)).

  (** ---------------------------------------------------------------- *)
  (** The loop of a function that pushes row after row. *)
  Lemma build_rows c n (rowf : nat -> list (nat * R)) (body : nat -> crs R * nat -> res (crs R * nat)) m0 :
    (forall i rows m cnt, i < n -> length rows = i -> bldr c n rows [] m cnt ->
       exists m' cnt', body i (m, cnt) = Ok (m', cnt') /\ bldr c n rows (rowf i) m' cnt') ->
    exists m' cnt',
      forM n 0 (fun i '(m, counter) => do m <- setRow R m i counter ;; body i (m, counter))
           (crs_resize2 R m0 n c, 0) = Ok (m', cnt') /\
      bld c n (map rowf (seq 0 n)) m' cnt'.
  Proof.
    intros Hb.
    loopM (fun i (st : crs R * nat) => let '(m, cnt) := st in bld c n (map rowf (seq 0 i)) m cnt)
      as [m' cnt'] E H.
    - apply bld_init.
    - intros i [m cnt] [_ Hi] H. simpl in Hi.
      assert (L : length (map rowf (seq 0 i)) = i) by (rewrite map_length, seq_length; reflexivity).
      destruct (bld_setRow _ _ _ _ _ _ H) as [m1 [E1 H1]]; [lia|]. rewrite L in E1. rewrite E1. cbn [bind].
      destruct (Hb i _ _ _ Hi L H1) as [m2 [cnt2 [E2 H2]]]. rewrite E2.
      exists (m2, cnt2). split; [reflexivity|]. rewrite seq_S, map_app. apply bldr_done. exact H2.
    - exists m', cnt'. split; [exact E|exact H].
  Qed.

  Lemma nth_map_seq {T} (f : nat -> T) n i d : i < n -> nth i (map f (seq 0 n)) d = f i.
  Proof.
    intros H. rewrite (nth_indep _ d (f 0)) by (rewrite map_length, seq_length; exact H).
    rewrite map_nth, seq_nth by exact H. reflexivity.
  Qed.

  Lemma rows_is c n (rowf : nat -> list (nat * R)) (f : nat -> nat -> R) :
    (forall i, i < n -> Forall (fun e => fst e < c) (rowf i)) ->
    (forall i j, i < n -> j < c -> row_elem (rowf i) j = f i j) ->
    is_crs (of_rows c (map rowf (seq 0 n))) n c f.
  Proof.
    intros H1 H2.
    assert (L : length (map rowf (seq 0 n)) = n) by (rewrite map_length, seq_length; reflexivity).
    rewrite <- L at 2. apply of_rows_is.
    - apply Forall_map, Forall_forall. intros i Hi. apply in_seq in Hi. apply H1. lia.
    - rewrite L. intros i j Hi Hj. rewrite nth_map_seq by exact Hi. apply H2; assumption.
  Qed.

  Lemma rows_nodup c n (rowf : nat -> list (nat * R)) :
    (forall i, i < n -> NoDup (map fst (rowf i))) -> crs_nodup (of_rows c (map rowf (seq 0 n))).
  Proof.
    intros H. apply of_rows_nodup. rewrite map_length, seq_length. intros i Hi.
    rewrite nth_map_seq by exact Hi. auto.
  Qed.

  Lemma rows_sorted c n (rowf : nat -> list (nat * R)) :
    (forall i, i < n -> StronglySorted lt (map fst (rowf i))) ->
    crs_sorted (of_rows c (map rowf (seq 0 n))).
  Proof.
    intros H. apply of_rows_sorted. rewrite map_length, seq_length. intros i Hi.
    rewrite nth_map_seq by exact Hi. auto.
  Qed.

  Lemma rows_nozero c n (rowf : nat -> list (nat * R)) :
    (forall i, i < n -> Forall (fun e => snd e <> c0) (rowf i)) ->
    crs_nozero (of_rows c (map rowf (seq 0 n))).
  Proof.
    intros H. apply of_rows_nozero. apply Forall_map, Forall_forall. intros i Hi.
    apply in_seq in Hi. apply H. lia.
  Qed.

  (** ---------------------------------------------------------------- *)
  (** Dense to CRS. *)
  Definition drow (f : nat -> R) (n : nat) : list (nat * R) :=
    map (fun j => (j, f j)) (filter (fun j => negb (ceqb (f j) c0)) (seq 0 n)).

  Lemma drow_S f n : drow f (S n) = drow f n ++ (if ceqb (f n) c0 then [] else [(n, f n)]).
  Proof.
    unfold drow. rewrite seq_S, filter_app, map_app. f_equal. simpl.
    destruct (ceqb (f n) c0); reflexivity.
  Qed.

  Lemma drow_cols f n : map fst (drow f n) = filter (fun j => negb (ceqb (f j) c0)) (seq 0 n).
  Proof. unfold drow. rewrite map_map. simpl. apply map_id. Qed.

  Lemma StronglySorted_filter {T} (le : T -> T -> Prop) p l :
    StronglySorted le l -> StronglySorted le (filter p l).
  Proof.
    induction 1 as [|a l H IH Ha]; simpl; [constructor|].
    destruct (p a); [constructor; [exact IH|]|exact IH].
    rewrite Forall_forall in *. intros x Hx. apply filter_In in Hx. apply Ha. tauto.
  Qed.

  Lemma seq_sorted a n : StronglySorted lt (seq a n).
  Proof.
    revert a; induction n as [|n IH]; intros a; simpl; constructor; auto.
    apply Forall_forall. intros x Hx. apply in_seq in Hx. lia.
  Qed.

  Lemma sorted_nodup l : StronglySorted lt l -> NoDup l.
  Proof.
    induction 1 as [|a l H IH Ha]; constructor; auto. intros Hin.
    rewrite Forall_forall in Ha. specialize (Ha a Hin). lia.
  Qed.

  Lemma drow_sorted f n : StronglySorted lt (map fst (drow f n)).
  Proof. rewrite drow_cols. apply StronglySorted_filter, seq_sorted. Qed.

  Lemma drow_lt f n : Forall (fun e => fst e < n) (drow f n).
  Proof.
    apply Forall_forall. intros [j v] H. unfold drow in H. apply in_map_iff in H.
    destruct H as [k [[= <- <-] Hk]]. apply filter_In in Hk. destruct Hk as [Hk _].
    apply in_seq in Hk. simpl. lia.
  Qed.

  Lemma drow_nozero f n : Forall (fun e => snd e <> c0) (drow f n).
  Proof.
    apply Forall_forall. intros [j v] H. unfold drow in H. apply in_map_iff in H.
    destruct H as [k [[= <- <-] Hk]]. apply filter_In in Hk. destruct Hk as [_ Hk].
    simpl. intros E. rewrite E, ceqb_refl in Hk. discriminate.
  Qed.

  Lemma drow_elem f n j : j < n -> row_elem (drow f n) j = f j.
  Proof.
    intros Hj. apply row_elem_char.
    - apply sorted_nodup, drow_sorted.
    - intros c v H. unfold drow in H. apply in_map_iff in H. destruct H as [k [[= <- <-] _]]. reflexivity.
    - intros H. rewrite drow_cols in H.
      destruct (ceqb_spec R (f j) c0) as [E|E]; [exact E|]. exfalso. apply H.
      apply filter_In. split; [apply in_seq; lia|].
      destruct (ceqb_spec R (f j) c0); [contradiction|reflexivity].
  Qed.

  Definition dense_rows (a : mat R) : list (list (nat * R)) :=
    map (fun i => drow (melem a i) (m_ncol a)) (seq 0 (m_nrow a)).

  Lemma dense_body_ok a n c i rows m cnt :
    mat_wf a -> i < m_nrow a -> length rows = i -> bldr c n rows [] m cnt ->
    exists m' cnt',
      forM (m_ncol a) 0 (fun j '(m, counter) =>
        do x <- mget R a i j ;;
        if ceqb x c0 then Ok (m, counter)
        else Ok (pushCol R (pushValue R m x) j, S counter)) (m, cnt) = Ok (m', cnt') /\
      bldr c n rows (drow (melem a i) (m_ncol a)) m' cnt'.
  Proof.
    intros W Hi L H.
    loopM (fun j (st : crs R * nat) => let '(m, cnt) := st in
             bldr c n rows (drow (melem a i) j) m cnt) as [m' cnt'] E H'.
    - exact H.
    - intros j [m1 cnt1] [_ Hj] H1. simpl in Hj. rewrite mget_ok by (auto; lia). cbn [bind].
      rewrite drow_S. destruct (ceqb (melem a i j) c0); eexists; (split; [reflexivity|]).
      + rewrite app_nil_r. exact H1.
      + apply bldr_push'. exact H1.
    - exists m', cnt'. split; [exact E|exact H'].
  Qed.

  Lemma crs_of_dense_rows a : mat_wf a -> crs_of_dense R a = Ok (of_rows (m_ncol a) (dense_rows a)).
  Proof.
    intros W. unfold crs_of_dense.
    destruct (build_rows (m_ncol a) (m_nrow a) (fun i => drow (melem a i) (m_ncol a))
      (fun i '(m, counter) => forM (m_ncol a) 0 (fun j '(m, counter) =>
        do x <- mget R a i j ;;
        if ceqb x c0 then Ok (m, counter)
        else Ok (pushCol R (pushValue R m x) j, S counter)) (m, counter)) (crs_empty R))
      as [m' [cnt' [E H]]].
    - intros. apply dense_body_ok; assumption.
    - rewrite E. cbn [bind]. unfold dense_rows. apply bld_finish with (1 := H). rewrite map_length, seq_length. reflexivity.
  Qed.

  Lemma fullMatrixToCrsMatrix_rows m0 a : mat_wf a ->
    fullMatrixToCrsMatrix R m0 a = Ok (of_rows (m_ncol a) (dense_rows a)).
  Proof.
    intros W. unfold fullMatrixToCrsMatrix.
    destruct (build_rows (m_ncol a) (m_nrow a) (fun i => drow (melem a i) (m_ncol a))
      (fun i '(m, counter) => forM (m_ncol a) 0 (fun j '(m, counter) =>
        do x <- mget R a i j ;;
        if ceqb x c0 then Ok (m, counter)
        else Ok (pushCol R (pushValue R m x) j, S counter)) (m, counter)) m0)
      as [m' [cnt' [E H]]].
    - intros. apply dense_body_ok; assumption.
    - rewrite E. cbn [bind]. unfold dense_rows. apply bld_finish with (1 := H). rewrite map_length, seq_length. reflexivity.
  Qed.

  Lemma dense_rows_is a : mat_wf a ->
    is_crs (of_rows (m_ncol a) (dense_rows a)) (m_nrow a) (m_ncol a) (melem a) /\
    crs_nodup (of_rows (m_ncol a) (dense_rows a)) /\
    crs_sorted (of_rows (m_ncol a) (dense_rows a)) /\
    crs_nozero (of_rows (m_ncol a) (dense_rows a)).
  Proof.
    intros W. split; [|split; [|split]].
    - apply rows_is; intros; [apply drow_lt|apply drow_elem; assumption].
    - apply rows_nodup. intros. apply sorted_nodup, drow_sorted.
    - apply rows_sorted. intros. apply drow_sorted.
    - apply rows_nozero. intros. apply drow_nozero.
  Qed.

  (** ---------------------------------------------------------------- *)
  (** CRS to dense: every stored entry overwrites; the rest is what the resized
      target held. *)
  Definition last_elem (row : list (nat * R)) (j : nat) (d : R) : R :=
    fold_left (fun acc e => if fst e =? j then snd e else acc) row d.

  Lemma toFull_ok d A : crs_wf A ->
    exists d', crsMatrixToFullMatrix R d A = Ok d' /\
      is_mat d' (c_nrow A) (c_ncol A)
        (fun i j => last_elem (crs_row A i) j (melem (mat_resize_val R d (c_nrow A) (c_ncol A) c0) i j)).
  Proof.
    intros W. unfold crsMatrixToFullMatrix.
    set (d0 := mat_resize_val R d (c_nrow A) (c_ncol A) c0).
    assert (W0 : is_mat d0 (c_nrow A) (c_ncol A) (melem d0)).
    { apply is_mat_self. unfold d0, mat_resize_val, mat_wf. simpl. apply vresize_length. }
    loopM (fun i (d : mat R) => is_mat d (c_nrow A) (c_ncol A)
             (fun i' j => if i' <? i then last_elem (crs_row A i') j (melem d0 i' j) else melem d0 i' j))
      as d' E H.
    - eapply is_mat_ext; [|exact W0]. reflexivity.
    - intros i d1 [_ Hi] H1. simpl in Hi.
      rewrite (for_row_forL R A i _ (fun e d => mset R d i (fst e) (snd e))) by
        (auto; intros k t _ Hk; rewrite wf_getCol, wf_getValue by auto; reflexivity).
      loopL (fun P (d : mat R) => is_mat d (c_nrow A) (c_ncol A)
               (fun i' j => if i' =? i then last_elem P j (melem d0 i' j) else melem d1 i' j))
        as d2 E2 H2.
      + eapply is_mat_ext; [|exact H1]. intros i' j Hi' Hj. cbv beta.
        destruct H1 as [_ [_ [_ He]]]. rewrite He by assumption.
        destruct (Nat.eqb_spec i' i) as [->|]; [|reflexivity]. rewrite Nat.ltb_irrefl. reflexivity.
      + intros P [c v] post d3 HL H3. destruct H3 as [N1 [N2 [N3 N4]]].
        assert (Hc : c < c_ncol A).
        { apply (crs_row_col R A i (c, v)); auto. rewrite HL. apply in_elt. }
        destruct (mset_ok R d3 i c v) as [d4 [E4 H4]]; [exact N3|lia|lia|].
        simpl. rewrite E4. exists d4. split; [reflexivity|]. rewrite N1, N2 in H4.
        eapply is_mat_ext; [|exact H4]. intros i' j Hi' Hj. cbv beta. unfold last_elem.
        rewrite fold_left_app. simpl. rewrite N4 by assumption.
        destruct (Nat.eqb_spec i' i) as [->|]; simpl; [|reflexivity].
        rewrite (Nat.eqb_sym c j). destruct (Nat.eqb_spec j c); reflexivity.
      + rewrite E2. exists d2. split; [reflexivity|]. eapply is_mat_ext; [|exact H2].
        intros i' j Hi' Hj. cbv beta. destruct H1 as [_ [_ [_ He]]].
        destruct (Nat.eqb_spec i' i) as [->|Hne].
        * destruct (Nat.ltb_spec i (S i)); [reflexivity|lia].
        * rewrite He by assumption. destruct (Nat.ltb_spec i' i), (Nat.ltb_spec i' (S i)); try lia; reflexivity.
    - rewrite E. exists d'. split; [reflexivity|]. eapply is_mat_ext; [|exact H].
      intros i j Hi Hj. cbv beta. simpl. apply Nat.ltb_lt in Hi. rewrite Hi. reflexivity.
  Qed.

  Lemma last_elem_nodup row j d : NoDup (map fst row) ->
    last_elem row j d = if in_dec Nat.eq_dec j (map fst row) then row_elem row j else d.
  Proof.
    revert d; induction row as [|[c v] row IH]; intros d Hn; [reflexivity|].
    simpl in Hn. inversion Hn as [|? ? Hc Hn']; subst.
    unfold last_elem. cbn [fold_left fst snd]. fold (last_elem row j (if c =? j then v else d)).
    rewrite IH by exact Hn'. unfold row_elem. cbn [suml fst snd map].
    fold (row_elem row j).
    destruct (in_dec Nat.eq_dec j (map fst row)) as [Hin|Hin];
      destruct (in_dec Nat.eq_dec j (c :: map fst row)) as [Hin'|Hin'];
      destruct (Nat.eqb_spec c j) as [->|Hne]; try (simpl in *; tauto).
    - ring.
    - rewrite row_elem_notin by exact Hin. ring.
  Qed.

  Lemma last_elem_zero row j : NoDup (map fst row) -> last_elem row j c0 = row_elem row j.
  Proof.
    intros H. rewrite last_elem_nodup by exact H.
    destruct (in_dec Nat.eq_dec j (map fst row)); [reflexivity|].
    rewrite row_elem_notin by assumption. reflexivity.
  Qed.

  (** A target whose elements are all zero (or that has none). *)
  Lemma resize_zero d r c : Forall (eq c0) (m_data d) -> forall i j,
    melem (mat_resize_val R d r c c0) i j = c0.
  Proof.
    intros H i j. unfold melem, mat_resize_val. cbn [m_data m_nrow].
    destruct (nth_in_or_default (i + j * r) (vresize (m_data d) (r * c) c0) c0) as [Hin|E]; [|exact E].
    unfold vresize in Hin. apply in_app_or in Hin. destruct Hin as [Hin|Hin].
    - rewrite Forall_forall in H. symmetry. apply H.
      assert (X : forall x (l : list R) k, In x (firstn k l) -> In x l).
      { intros x l k Hx. rewrite <- (firstn_skipn k l). apply in_or_app. left. exact Hx. }
      apply (X _ _ (r * c)). exact Hin.
    - apply repeat_spec in Hin. exact Hin.
  Qed.

  Lemma toFull_zero d A : crs_wf A -> crs_nodup A -> Forall (eq c0) (m_data d) ->
    exists d', crsMatrixToFullMatrix R d A = Ok d' /\
      is_mat d' (c_nrow A) (c_ncol A) (crs_elem A).
  Proof.
    intros W N H. destruct (toFull_ok d A W) as [d' [E Hd]]. exists d'. split; [exact E|].
    eapply is_mat_ext; [|exact Hd]. intros i j Hi Hj. cbv beta.
    rewrite resize_zero by exact H. apply last_elem_zero. apply N. exact Hi.
  Qed.

  Lemma toFull_stale d A : crs_wf A -> crs_nodup A ->
    m_nrow d = c_nrow A -> m_ncol d = c_ncol A -> mat_wf d ->
    exists d', crsMatrixToFullMatrix R d A = Ok d' /\
      is_mat d' (c_nrow A) (c_ncol A)
        (fun i j => if in_dec Nat.eq_dec j (map fst (crs_row A i)) then crs_elem A i j else melem d i j).
  Proof.
    intros W N Hr Hc Wd. destruct (toFull_ok d A W) as [d' [E Hd]]. exists d'. split; [exact E|].
    eapply is_mat_ext; [|exact Hd]. intros i j Hi Hj. cbv beta.
    rewrite <- Hr, <- Hc. rewrite mat_resize_val_same by exact Wd.
    apply last_elem_nodup. apply N. exact Hi.
  Qed.

  (** ---------------------------------------------------------------- *)
  (** Sum over the entries of a row as sum over columns. *)
  Lemma row_sum row n (g : nat -> R) : (forall e, In e row -> fst e < n) ->
    suml (fun e => (snd e * g (fst e))%C) row = sumn n (fun j => (row_elem row j * g j)%C).
  Proof.
    intros H. rewrite (suml_group R fst _ row n H). apply sumn_ext. intros k Hk.
    unfold row_elem. rewrite <- suml_mul_r. apply suml_ext. intros [c v]. simpl.
    destruct (Nat.eqb_spec c k) as [->|]; [reflexivity|]. rewrite cmul_0_l. reflexivity.
  Qed.

  (** ---------------------------------------------------------------- *)
  (** Matrix times vector. *)
  Lemma acc_row row (y : list R) i (x : list R) (P : nat) :
    i < length x -> (forall e, In e row -> fst e < length y) ->
    forL row (fun e x => do yc <- vget y (fst e) ;; do xi <- vget x i ;;
                         vset x i (xi + snd e * yc)%C) x =
    Ok (upd x i (nth i x c0 + suml (fun e => (snd e * nth (fst e) y c0)%C) row)%C).
  Proof.
    revert x; induction row as [|[c v] row IH]; intros x Hi H; simpl.
    - f_equal. apply (list_eq_nth _ _ c0); [rewrite upd_length; reflexivity|].
      intros k Hk. destruct (Nat.eq_dec k i) as [->|Hne].
      + rewrite nth_upd_eq by exact Hi. ring.
      + rewrite nth_upd_neq by exact Hne. reflexivity.
    - assert (Hc : c < length y) by (apply (H (c, v)); left; reflexivity).
      rewrite (vget_ok y c0 Hc), (vget_ok x c0 Hi). cbn [bind]. rewrite vset_ok by exact Hi. cbn [bind].
      rewrite IH.
      + rewrite upd_upd. f_equal. f_equal. rewrite nth_upd_eq by exact Hi. ring.
      + rewrite upd_length. exact Hi.
      + intros e He. apply H. right. exact He.
  Qed.

  Lemma matrixVectorProduct_ok A x y :
    crs_wf A -> length x = length y -> c_nrow A = length y -> c_ncol A = length y ->
    exists x', matrixVectorProduct R A x y = Ok x' /\
      is_vec x' (length x)
        (fun i => (vel x i + sumn (length y) (fun j => (crs_elem A i j * vel y j)%C))%C).
  Proof.
    intros W Lx Lr Lc. unfold matrixVectorProduct. rewrite Lx, Nat.eqb_refl.
    loopM (fun i (u : list R) => length u = length y /\
             (forall k, k < i -> nth k u c0 =
                (vel x k + sumn (length y) (fun j => (crs_elem A k j * vel y j)%C))%C) /\
             (forall k, i <= k -> nth k u c0 = nth k x c0)) as x' E H.
    - split; [exact Lx|]. split; [intros; lia|reflexivity].
    - intros i u [_ Hi] [Lu [H1 H2]]. simpl in Hi.
      rewrite (for_row_forL R A i _ (fun e x => do yc <- vget y (fst e) ;; do xi <- vget x i ;;
                         vset x i (xi + snd e * yc)%C)).
      + rewrite acc_row; [|exact 0|lia|].
        * eexists. split; [reflexivity|]. rewrite upd_length. split; [exact Lu|]. split.
          -- intros k Hk. destruct (Nat.eq_dec k i) as [->|Hne].
             ++ rewrite nth_upd_eq by lia. rewrite H2 by lia. unfold vel at 1. f_equal.
                rewrite (row_sum (crs_row A i) (length y) (fun j => nth j y c0)); [reflexivity|].
                intros e He. rewrite <- Lc. apply (crs_row_col R A i); auto; lia.
             ++ rewrite nth_upd_neq by exact Hne. apply H1. lia.
          -- intros k Hk. rewrite nth_upd_neq by lia. apply H2. lia.
        * intros e He. rewrite <- Lc. apply (crs_row_col R A i); auto; lia.
      + exact W.
      + lia.
      + intros k t _ Hk. rewrite (vget_ok (c_values A) c0) by (rewrite wf_values; auto).
        rewrite (vget_ok (c_colind A) 0) by exact Hk. reflexivity.
    - rewrite E. exists x'. split; [reflexivity|]. destruct H as [H0 [H1 _]].
      split; [congruence|]. intros k Hk. apply H1. lia.
  Qed.

  Lemma multiply_vec_ok v2 A y :
    crs_wf A -> c_ncol A <= length y ->
    exists x', multiply_vec R v2 A y = Ok x' /\
      is_vec x' (c_nrow A) (fun i => sumn (c_ncol A) (fun j => (crs_elem A i j * vel y j)%C)).
  Proof.
    intros W Lc. unfold multiply_vec.
    loopM (fun i (u : list R) => length u = c_nrow A /\
             (forall k, k < i -> nth k u c0 =
                sumn (c_ncol A) (fun j => (crs_elem A k j * vel y j)%C))) as x' E H.
    - split; [apply vresize_length|]. intros; lia.
    - intros i u [_ Hi] [Lu H1]. simpl in Hi. rewrite vset_ok by lia. cbn [bind].
      rewrite (for_row_forL R A i _ (fun e x => do yc <- vget y (fst e) ;; do xi <- vget x i ;;
                         vset x i (xi + snd e * yc)%C)).
      + rewrite acc_row; [|exact 0|rewrite upd_length; lia|].
        * eexists. split; [reflexivity|]. rewrite !upd_length. split; [exact Lu|].
          rewrite upd_upd. intros k Hk. destruct (Nat.eq_dec k i) as [->|Hne].
          -- rewrite !nth_upd_eq by (try rewrite upd_length; lia). rewrite cadd_0_l.
             rewrite (row_sum (crs_row A i) (c_ncol A) (fun j => nth j y c0)); [reflexivity|].
             intros e He. apply (crs_row_col R A i); auto; lia.
          -- rewrite nth_upd_neq by exact Hne. apply H1. lia.
        * intros e He. enough (fst e < c_ncol A) by lia. apply (crs_row_col R A i); auto; lia.
      + exact W.
      + lia.
      + intros k t _ Hk. rewrite wf_getCol, wf_getValue by auto. reflexivity.
    - rewrite E. exists x'. split; [reflexivity|]. destruct H as [H0 H1].
      split; [congruence|]. intros k Hk. apply H1. lia.
  Qed.

  (** ---------------------------------------------------------------- *)
  (** Matrix product. *)
  Definition prod_row A B i : list (nat * R) :=
    flat_map (fun e => map (fun e' => (fst e', (snd e * snd e')%C)) (crs_row B (fst e))) (crs_row A i).

  Lemma prod_row_elem A B i j :
    crs_wf A -> i < c_nrow A -> c_ncol A = c_nrow B ->
    row_elem (prod_row A B i) j = sumn (c_ncol A) (fun k => (crs_elem A i k * crs_elem B k j)%C).
  Proof.
    intros W Hi Hd. unfold prod_row, row_elem at 1. rewrite suml_flat_map.
    transitivity (suml (fun e => (snd e * crs_elem B (fst e) j)%C) (crs_row A i));
      [|apply (row_sum (crs_row A i) (c_ncol A) (fun k => crs_elem B k j))].
    - apply suml_ext. intros [a av]. cbn [fst snd]. rewrite suml_map. cbn [fst snd].
      unfold crs_elem, row_elem. rewrite <- suml_mul_l. apply suml_ext. intros [b bv]. cbn [fst snd].
      destruct (b =? j); ring.
    - intros e He. apply (crs_row_col R A i); auto.
  Qed.

  Definition mul_step (e : nat * R) (st : nat * list (option nat) * list nat * list R)
    : res (nat * list (option nat) * list nat * list R) :=
    let '(itemp, ptr, index, temp) := st in
    do p <- vget ptr (fst e) ;;
    match p with
    | None =>
        do ptr <- vset ptr (fst e) (Some itemp) ;;
        do temp <- vset temp itemp (snd e) ;;
        do index <- vset index itemp (fst e) ;;
        Ok (S itemp, ptr, index, temp)
    | Some q =>
        do t <- vget temp q ;;
        do temp <- vset temp q (t + snd e)%C ;;
        Ok (itemp, ptr, index, temp)
    end.

  Definition mul_inv c (P : list (nat * R)) (st : nat * list (option nat) * list nat * list R) : Prop :=
    let '(itemp, ptr, index, temp) := st in
    length ptr = c /\ length index = c /\ length temp = c /\ itemp <= c /\
    NoDup (firstn itemp index) /\
    (forall s, s < itemp -> nth s index 0 < c /\ nth (nth s index 0) ptr None = Some s /\
                            nth s temp c0 = row_elem P (nth s index 0)) /\
    (forall j s, j < c -> nth j ptr None = Some s -> s < itemp /\ nth s index 0 = j) /\
    (forall j, In j (map fst P) -> exists s, s < itemp /\ nth s index 0 = j).

  Lemma in_firstn_nth {T} (l : list T) n x d : In x (firstn n l) ->
    exists s, s < n /\ s < length l /\ nth s l d = x.
  Proof.
    intros H. apply (In_nth _ _ d) in H. destruct H as [s [Hs <-]].
    rewrite firstn_length in Hs. exists s. split; [lia|]. split; [lia|].
    rewrite <- (firstn_skipn n l) at 1. rewrite app_nth1 by (rewrite firstn_length; lia). reflexivity.
  Qed.

  Lemma mul_step_ok c P e st : fst e < c -> mul_inv c P st ->
    exists st', mul_step e st = Ok st' /\ mul_inv c (P ++ [e]) st'.
  Proof.
    destruct e as [j x]. destruct st as [[[itemp ptr] index] temp]. simpl fst.
    intros Hj [L1 [L2 [L3 [Hle [Hn [H1 [H2 H3]]]]]]]. unfold mul_step. cbn [fst snd].
    rewrite (vget_ok ptr None) by lia. cbn [bind].
    assert (Helem : forall k, row_elem (P ++ [(j, x)]) k =
              (row_elem P k + (if j =? k then x else c0))%C).
    { intros k. rewrite row_elem_app. unfold row_elem at 2. simpl. destruct (j =? k); ring. }
    destruct (nth j ptr None) as [q|] eqn:Ep.
    - destruct (H2 j q Hj Ep) as [Hq Hqj]. rewrite (vget_ok temp c0) by lia. cbn [bind].
      rewrite vset_ok by lia. cbn [bind]. eexists. split; [reflexivity|].
      unfold mul_inv. rewrite upd_length. repeat (split; [assumption|]). split; [|split; [exact H2|]].
      + intros s Hs. destruct (H1 s Hs) as [Ha [Hb Hc]]. split; [exact Ha|]. split; [exact Hb|].
        rewrite Helem. destruct (Nat.eq_dec s q) as [->|Hne].
        * rewrite nth_upd_eq by lia. rewrite Hc, Hqj, Nat.eqb_refl. reflexivity.
        * rewrite nth_upd_neq by exact Hne. rewrite Hc.
          destruct (Nat.eqb_spec j (nth s index 0)) as [Ej|]; [|ring].
          exfalso. apply Hne. rewrite <- Ej, Ep in Hb. congruence.
      + intros k Hk. rewrite map_app in Hk. apply in_app_or in Hk. destruct Hk as [Hk|[<-|[]]].
        * apply H3. exact Hk.
        * exists q. auto.
    - assert (Hnew : ~ In j (firstn itemp index)).
      { intros Hin. apply (in_firstn_nth _ _ _ 0) in Hin. destruct Hin as [s [Hs [_ E]]].
        destruct (H1 s Hs) as [_ [Hb _]]. rewrite E, Ep in Hb. discriminate. }
      assert (Hlt : itemp < c).
      { assert (Hx : length (j :: firstn itemp index) <= length (seq 0 c)).
        { apply NoDup_incl_length; [constructor; assumption|]. intros y [<-|Hy].
          - apply in_seq. lia.
          - apply (in_firstn_nth _ _ _ 0) in Hy. destruct Hy as [s [Hs [_ <-]]].
            apply in_seq. destruct (H1 s Hs). lia. }
        simpl in Hx. rewrite firstn_length, seq_length in Hx. lia. }
      repeat (rewrite vset_ok by lia; cbn [bind]).
      eexists. split; [reflexivity|]. unfold mul_inv. rewrite !upd_length.
      repeat (split; [assumption || lia|]).
      split; [|split; [|split]].
      + rewrite (firstn_S_nth (upd index itemp j) 0) by (rewrite upd_length; lia).
        rewrite nth_upd_eq by lia.
        assert (Ef : firstn itemp (upd index itemp j) = firstn itemp index).
        { rewrite (proj1 (@upd_split _ index itemp j 0 ltac:(lia))). rewrite firstn_app, firstn_firstn, firstn_length.
          replace (itemp - Nat.min itemp (length index)) with 0 by lia.
          rewrite Nat.min_id. simpl. apply app_nil_r. }
        rewrite Ef. apply (Permutation_NoDup (l := j :: firstn itemp index)).
        * apply Permutation_cons_append.
        * constructor; assumption.
      + intros s Hs. destruct (Nat.eq_dec s itemp) as [->|Hne].
        * rewrite !nth_upd_eq by lia. split; [exact Hj|]. split; [reflexivity|].
          rewrite Helem, Nat.eqb_refl. rewrite row_elem_notin; [ring|].
          intros Hin. destruct (H3 j Hin) as [s [Hs' E]]. destruct (H1 s Hs') as [_ [Hb _]].
          rewrite E, Ep in Hb. discriminate.
        * destruct (H1 s) as [Ha [Hb Hc]]; [lia|]. rewrite !nth_upd_neq by lia.
          assert (Hsj : nth s index 0 <> j).
          { intros E. rewrite E, Ep in Hb. discriminate. }
          rewrite nth_upd_neq by exact Hsj.
          split; [exact Ha|]. split; [exact Hb|]. rewrite nth_upd_neq by lia. rewrite Helem, Hc.
          destruct (Nat.eqb_spec j (nth s index 0)); [congruence|ring].
      + intros k s Hk E. destruct (Nat.eq_dec k j) as [->|Hne].
        * rewrite nth_upd_eq in E by lia. injection E as <-. split; [lia|].
          rewrite nth_upd_eq by lia. reflexivity.
        * rewrite nth_upd_neq in E by exact Hne. destruct (H2 k s Hk E) as [Ha Hb].
          split; [lia|]. rewrite nth_upd_neq by lia. exact Hb.
      + intros k Hk. rewrite map_app in Hk. apply in_app_or in Hk. destruct Hk as [Hk|[<-|[]]].
        * destruct (H3 k Hk) as [s [Hs E]]. exists s. split; [lia|]. rewrite nth_upd_neq by lia. exact E.
        * exists itemp. split; [lia|]. simpl. rewrite nth_upd_eq by lia. reflexivity.
  Qed.

  Lemma mul_row_ok A B i ptr index temp c :
    crs_wf A -> crs_wf B -> c_ncol A = c_nrow B -> i < c_nrow A -> c = c_ncol B ->
    length ptr = c -> (forall j, j < c -> nth j ptr None = None) -> length index = c -> length temp = c ->
    exists st,
      for_row R A i (fun j '(itemp, ptr, index, temp) =>
        do acol <- getCol R A j ;;
        do istart <- getRowPtr R B acol ;;
        do iend <- getRowPtr R B (acol + 1) ;;
        forR istart iend (fun k '(itemp, ptr, index, temp) =>
          do jbk <- getCol R B k ;;
          do av <- getValue R A j ;; do bv <- getValue R B k ;;
          do p <- vget ptr jbk ;;
          match p with
          | None =>
              do ptr <- vset ptr jbk (Some itemp) ;;
              do temp <- vset temp itemp (av * bv)%C ;;
              do index <- vset index itemp jbk ;;
              Ok (S itemp, ptr, index, temp)
          | Some q =>
              do t <- vget temp q ;;
              do temp <- vset temp q (t + av * bv)%C ;;
              Ok (itemp, ptr, index, temp)
          end) (itemp, ptr, index, temp)) (0, ptr, index, temp) = Ok st /\
      mul_inv c (prod_row A B i) st.
  Proof.
    intros WA WB Hd Hi -> L1 Hp L2 L3.
    rewrite (for_row_forL R A i _ (fun e st =>
      forL (map (fun e' => (fst e', (snd e * snd e')%C)) (crs_row B (fst e))) mul_step st)).
    - rewrite <- forL_flat_map. fold (prod_row A B i).
      apply (forL_inv (mul_inv (c_ncol B))).
      + unfold mul_inv. do 3 (split; [assumption|]). split; [lia|]. split; [constructor|].
        split; [intros; lia|]. split; [|intros j []].
        intros j s Hj E. rewrite Hp in E by exact Hj. discriminate.
      + intros P e post st HL HI. apply mul_step_ok; [|exact HI].
        assert (Hin : In e (prod_row A B i)) by (rewrite HL; apply in_elt).
        unfold prod_row in Hin. apply in_flat_map in Hin. destruct Hin as [[a av] [Ha Hin]].
        apply in_map_iff in Hin. destruct Hin as [[b bv] [<- Hb]]. cbn [fst snd] in *.
        apply (crs_row_col R B a (b, bv)); auto. rewrite <- Hd. apply (crs_row_col R A i (a, av)); auto.
    - exact WA.
    - exact Hi.
    - intros k [[[itemp ptr'] index'] temp'] _ Hk. rewrite wf_getCol by exact Hk. cbn [bind].
      set (a := nth k (c_colind A) 0).
      assert (Ha : a < c_nrow B) by (rewrite <- Hd; apply wf_col; assumption).
      rewrite wf_rp, wf_rp_S by assumption. cbn [bind fst snd]. rewrite forL_map.
      apply row_forL; [exact WB|exact Ha|].
      intros k' [[[itemp2 ptr2] index2] temp2] _ Hk'.
      rewrite wf_getCol, !wf_getValue by assumption. reflexivity.
  Qed.

  Lemma mul_push_ok c n rows C itemp ptr index temp P cnt :
    mul_inv c P (itemp, ptr, index, temp) -> bldr c n rows [] C cnt ->
    exists C' ptr',
      forM itemp 0 (fun s '(C, ptr) =>
        do t <- vget temp s ;;
        do ix <- vget index s ;;
        do ptr <- vset ptr ix (@None nat) ;;
        Ok (pushCol R (pushValue R C t) ix, ptr)) (C, ptr) = Ok (C', ptr') /\
      bldr c n rows (map (fun s => (nth s index 0, nth s temp c0)) (seq 0 itemp)) C' (cnt + itemp) /\
      length ptr' = c /\ (forall j, j < c -> nth j ptr' None = None).
  Proof.
    intros [L1 [L2 [L3 [Hle [Hn [H1 [H2 H3]]]]]]] HB.
    loopM (fun s (st : crs R * list (option nat)) => let '(C', ptr') := st in
             bldr c n rows (map (fun s => (nth s index 0, nth s temp c0)) (seq 0 s)) C' (cnt + s) /\
             length ptr' = c /\
             (forall j q, j < c -> nth j ptr' None = Some q -> s <= q < itemp /\ nth q index 0 = j))
      as [C' ptr'] E H.
    - rewrite Nat.add_0_r. split; [exact HB|]. split; [exact L1|].
      intros j q Hj E. destruct (H2 j q Hj E). split; [lia|assumption].
    - intros s [C1 ptr1] [_ Hs] [I1 [I2 I3]]. simpl in Hs.
      rewrite (vget_ok temp c0), (vget_ok index 0) by lia. cbn [bind].
      destruct (H1 s Hs) as [Ha [Hb Hc]]. rewrite vset_ok by lia. cbn [bind].
      eexists. split; [reflexivity|]. split; [|split].
      + rewrite seq_S, map_app, Nat.add_succ_r. apply bldr_push'. exact I1.
      + rewrite upd_length. exact I2.
      + intros j q Hj E. destruct (Nat.eq_dec j (nth s index 0)) as [->|Hne].
        * rewrite nth_upd_eq in E by lia. discriminate.
        * rewrite nth_upd_neq in E by exact Hne. destruct (I3 j q Hj E) as [Hq Ej].
          split; [|exact Ej]. assert (q <> s) by congruence. lia.
    - destruct H as [I1 [I2 I3]]. exists C', ptr'. split; [exact E|]. split; [exact I1|].
      split; [exact I2|]. intros j Hj. destruct (nth j ptr' None) as [q|] eqn:Eq; [|reflexivity].
      destruct (I3 j q Hj Eq). lia.
  Qed.

  Lemma map_nth_firstn {T} (l : list T) n d : n <= length l -> map (fun s => nth s l d) (seq 0 n) = firstn n l.
  Proof.
    induction n as [|n IH]; intros H; [reflexivity|].
    rewrite seq_S, map_app, IH by lia. rewrite (firstn_S_nth l d) by lia. reflexivity.
  Qed.

  Lemma multiply_ok C A B :
    crs_wf A -> crs_wf B -> c_ncol A = c_nrow B ->
    exists C', multiply R C A B = Ok C' /\
      is_crs C' (c_nrow A) (c_ncol B)
        (fun i j => sumn (c_ncol A) (fun k => (crs_elem A i k * crs_elem B k j)%C)) /\
      crs_nodup C'.
  Proof.
    intros WA WB Hd. unfold multiply. set (n := c_nrow A). set (c := c_ncol B).
    loopM (fun i (st : crs R * nat * list (option nat) * list nat * list R) =>
             let '(C, mlast, ptr, index, temp) := st in
             length ptr = c /\ (forall j, j < c -> nth j ptr None = None) /\
             length index = c /\ length temp = c /\
             exists rows, length rows = i /\ bld c n rows C mlast /\
               forall k, k < i ->
                 Forall (fun e => fst e < c) (nth k rows []) /\
                 NoDup (map fst (nth k rows [])) /\
                 forall j, row_elem (nth k rows []) j = row_elem (prod_row A B k) j)
      as [[[[C' mlast'] ptr'] index'] temp'] E H.
    - rewrite !repeat_length. split; [reflexivity|]. split; [intros; apply nth_repeat_same|].
      split; [reflexivity|]. split; [reflexivity|]. exists []. split; [reflexivity|].
      split; [apply bld_init|]. intros; lia.
    - intros i [[[[C1 mlast1] ptr1] index1] temp1] [_ Hi] [I1 [I2 [I3 [I4 [rows [Lr [HB Hrows]]]]]]].
      simpl in Hi.
      destruct (bld_setRow _ _ _ _ _ _ HB) as [C2 [E2 HB2]]; [lia|].
      rewrite Lr in E2. rewrite E2. cbn [bind].
      destruct (mul_row_ok A B i ptr1 index1 temp1 c) as [[[[itemp ptr3] index3] temp3] [E3 H3]]; auto.
      rewrite E3. cbn [bind].
      destruct (mul_push_ok c n rows C2 itemp ptr3 index3 temp3 _ _ H3 HB2)
        as [C4 [ptr4 [E4 [HB4 [L4 Hp4]]]]].
      rewrite E4. cbn [bind]. eexists. split; [reflexivity|].
      destruct H3 as [L5 [L6 [L7 [Hle [Hn [H1 [H2 H3]]]]]]].
      split; [exact L4|]. split; [exact Hp4|]. split; [exact L6|]. split; [exact L7|].
      eexists. split; [|split; [apply bldr_done; exact HB4|]].
      { rewrite app_length. simpl. lia. }
      intros k Hk. destruct (Nat.eq_dec k i) as [->|Hne].
      + rewrite app_nth2, Lr, Nat.sub_diag by lia. cbn [nth].
        assert (Hcols : map fst (map (fun s => (nth s index3 0, nth s temp3 c0)) (seq 0 itemp)) =
                        firstn itemp index3).
        { rewrite map_map. cbn [fst]. apply map_nth_firstn. lia. }
        assert (Hin : forall b v, In (b, v) (map (fun s => (nth s index3 0, nth s temp3 c0)) (seq 0 itemp)) ->
                       b < c /\ v = row_elem (prod_row A B i) b).
        { intros b v Hin. apply in_map_iff in Hin. destruct Hin as [s [[= <- <-] Hs]].
          apply in_seq in Hs. destruct (H1 s) as [Ha [_ Hc]]; [lia|]. split; assumption. }
        split; [|split].
        * apply Forall_forall. intros [b v] Hb. apply Hin in Hb. simpl. tauto.
        * rewrite Hcols. exact Hn.
        * intros j. apply row_elem_char.
          -- rewrite Hcols. exact Hn.
          -- intros b v Hb. apply Hin in Hb. tauto.
          -- intros Hnot. apply row_elem_notin. intros Hin'. apply Hnot.
             destruct (H3 j Hin') as [s [Hs Ej]]. apply in_map_iff.
             exists (nth s index3 0, nth s temp3 c0). split; [exact Ej|].
             apply in_map_iff. exists s. split; [reflexivity|]. apply in_seq. lia.
      + rewrite app_nth1 by lia. apply Hrows. lia.
    - rewrite E. cbn [bind]. destruct H as [_ [_ [_ [_ [rows [Lr [HB Hrows]]]]]]]. simpl in Lr.
      rewrite (bld_finish _ _ _ _ _ _ HB) by exact Lr. eexists. split; [reflexivity|]. split.
      + rewrite <- Lr. apply of_rows_is.
        * apply Forall_forall. intros r Hr. apply (In_nth _ _ []) in Hr.
          destruct Hr as [k [Hk <-]]. apply Hrows. lia.
        * intros i j Hi Hj. destruct (Hrows i) as [_ [_ He]]; [lia|]. rewrite He.
          apply prod_row_elem; [exact WA|unfold n in Lr; lia|exact Hd].
      + apply of_rows_nodup. intros i Hi. apply Hrows. lia.
  Qed.

  (** ---------------------------------------------------------------- *)
  (** Linear combination. *)
  Definition prow (M : crs R) (i : nat) : list (nat * R) :=
    if i <? c_nrow M then crs_row M i else [].

  Lemma prow_elem M i j : crs_wf M -> row_elem (prow M i) j = pad_elem M i j.
  Proof.
    intros W. unfold prow. destruct (Nat.ltb_spec i (c_nrow M)) as [H|H].
    - rewrite pad_elem_row by assumption. reflexivity.
    - rewrite pad_elem_out by exact H. reflexivity.
  Qed.

  Lemma prow_col M i e : crs_wf M -> In e (prow M i) -> fst e < c_ncol M.
  Proof.
    intros W. unfold prow. destruct (Nat.ltb_spec i (c_nrow M)) as [H|H]; [|intros []].
    apply crs_row_col; assumption.
  Qed.

  (** Start and end of a row, both 0 beyond the last row. *)
  Definition ks (M : crs R) i := if i <? c_nrow M then rp M i else 0.
  Definition ke (M : crs R) i := if i <? c_nrow M then rp M (S i) else 0.

  Lemma ks_ok M i : crs_wf M -> (if i <? c_nrow M then getRowPtr R M i else Ok 0) = Ok (ks M i).
  Proof.
    intros W. unfold ks. destruct (Nat.ltb_spec i (c_nrow M)); [|reflexivity]. apply wf_rp; assumption.
  Qed.

  Lemma ke_ok M i : crs_wf M -> (if i <? c_nrow M then getRowPtr R M (i + 1) else Ok 0) = Ok (ke M i).
  Proof.
    intros W. unfold ke. destruct (Nat.ltb_spec i (c_nrow M)); [|reflexivity]. apply wf_rp_S; assumption.
  Qed.

  Lemma prow_length M i : length (prow M i) = ke M i - ks M i.
  Proof.
    unfold prow, ke, ks. destruct (i <? c_nrow M); [apply crs_row_length|reflexivity].
  Qed.

  Lemma prow_forL {T : Type} M i (F : nat -> T -> res T) (G : nat * R -> T -> res T) s :
    crs_wf M ->
    (forall k t, k < length (c_colind M) ->
       F k t = G (nth k (c_colind M) 0, nth k (c_values M) c0) t) ->
    forR (ks M i) (ke M i) F s = forL (prow M i) G s.
  Proof.
    intros W H. unfold ks, ke, prow. destruct (Nat.ltb_spec i (c_nrow M)) as [Hi|Hi].
    - apply row_forL; auto.
    - reflexivity.
  Qed.

  Lemma plus_add_ok M t i vt c : crs_wf M -> c_ncol M <= c -> length vt = c ->
    exists vt', plus_add R M t (ks M i) (ke M i) vt = Ok vt' /\ length vt' = c /\
      forall j, j < c -> nth j vt' c0 = (nth j vt c0 + pad_elem M i j * t)%C.
  Proof.
    intros W Hc L. unfold plus_add.
    rewrite (prow_forL M i _ (fun e vt => do v <- vget vt (fst e) ;; vset vt (fst e) (v + snd e * t)%C)).
    - loopL (fun P (u : list R) => length u = c /\
               forall j, j < c -> nth j u c0 = (nth j vt c0 + row_elem P j * t)%C) as vt' E H.
      + split; [exact L|]. intros j Hj. unfold row_elem. simpl. ring.
      + intros P [b v] post u HL [Lu Hu]. cbn [fst snd].
        assert (Hb : b < c).
        { enough (fst (b, v) < c_ncol M) by (simpl in *; lia). apply (prow_col M i); auto.
          rewrite HL. apply in_elt. }
        rewrite (vget_ok u c0) by lia. cbn [bind]. rewrite vset_ok by lia.
        eexists. split; [reflexivity|]. rewrite upd_length. split; [exact Lu|].
        intros j Hj. rewrite row_elem_app. unfold row_elem at 2. simpl.
        destruct (Nat.eq_dec j b) as [->|Hne].
        * rewrite nth_upd_eq by lia. rewrite Hu, Nat.eqb_refl by exact Hj. ring.
        * rewrite nth_upd_neq by exact Hne. rewrite Hu by exact Hj.
          destruct (Nat.eqb_spec b j); [congruence|]. ring.
      + exists vt'. split; [exact E|]. destruct H as [H1 H2]. split; [exact H1|].
        intros j Hj. rewrite H2 by exact Hj. rewrite prow_elem by exact W. reflexivity.
    - exact W.
    - intros k u Hk. rewrite wf_getCol, wf_getValue by assumption. reflexivity.
  Qed.

  Definition copy_inv c n rows (vt : list R) (P : list (nat * R)) (st : crs R * nat * list bool) : Prop :=
    let '(A, cnt, ex) := st in
    exists row, bldr c n rows row A cnt /\ length ex = c /\
      (forall j, j < c -> (nth j ex false = true <-> In j (map fst P))) /\
      NoDup (map fst row) /\
      (forall j v, In (j, v) row -> v = nth j vt c0 /\ v <> c0 /\ In j (map fst P)) /\
      (forall j, In j (map fst P) -> nth j vt c0 <> c0 -> In j (map fst row)).

  Lemma copy_inv_init c n rows vt A cnt ex :
    bldr c n rows [] A cnt -> length ex = c -> (forall j, j < c -> nth j ex false = false) ->
    copy_inv c n rows vt [] (A, cnt, ex).
  Proof.
    intros H L He. exists []. split; [exact H|]. split; [exact L|]. split.
    - intros j Hj. rewrite He by exact Hj. simpl. split; [discriminate|tauto].
    - split; [constructor|]. split; intros j; [intros v []|intros []].
  Qed.

  Lemma plus_copy_ok M i vt c n rows P st :
    crs_wf M -> c_ncol M <= c -> length vt = c -> copy_inv c n rows vt P st ->
    exists st', plus_copy R M (ks M i) (ke M i) vt st = Ok st' /\
      copy_inv c n rows vt (P ++ prow M i) st'.
  Proof.
    intros W Hc L H0. unfold plus_copy.
    rewrite (prow_forL M i _ (fun e '(A, counter, examined) =>
      do b <- vget examined (fst e) ;;
      if negb b then
        do examined <- vset examined (fst e) true ;;
        do aij <- vget vt (fst e) ;;
        if negb (ceqb aij c0)
        then Ok (pushValue R (pushCol R A (fst e)) aij, S counter, examined)
        else Ok (A, counter, examined)
      else Ok (A, counter, examined))).
    - loopL (fun Q st => copy_inv c n rows vt (P ++ Q) st) as st' E H.
      + rewrite app_nil_r. exact H0.
      + intros Q [b v] post [[A cnt] ex] HL [row [I1 [I2 [I3 [I4 [I5 I6]]]]]]. cbn [fst snd].
        assert (Hb : b < c).
        { enough (fst (b, v) < c_ncol M) by (simpl in *; lia). apply (prow_col M i); auto.
          rewrite HL. apply in_elt. }
        rewrite (vget_ok ex false) by lia. cbn [bind].
        assert (Hin : forall k, In k (map fst (P ++ Q ++ [(b, v)])) <-> In k (map fst (P ++ Q)) \/ k = b).
        { intros k. rewrite app_assoc, map_app, in_app_iff. simpl. intuition. }
        destruct (nth b ex false) eqn:Eb; cbn [negb].
        * eexists. split; [reflexivity|]. exists row.
          assert (Hb' : In b (map fst (P ++ Q))) by (apply I3; assumption).
          split; [exact I1|]. split; [exact I2|]. split.
          { intros j Hj. rewrite I3 by exact Hj. rewrite Hin. split; [auto|intros [?| ->]; assumption]. }
          split; [exact I4|]. split.
          { intros j x Hj. destruct (I5 j x Hj) as [Ha [Hb2 Hc2]]. repeat split; auto. apply Hin. auto. }
          { intros j Hj Hv. apply Hin in Hj. apply I6; [|exact Hv]. destruct Hj as [?| ->]; assumption. }
        * assert (Hb' : ~ In b (map fst (P ++ Q))).
          { intros X. apply I3 in X; [congruence|exact Hb]. }
          rewrite vset_ok by lia. cbn [bind]. rewrite (vget_ok vt c0) by lia. cbn [bind].
          assert (I3' : forall j, j < c -> (nth j (upd ex b true) false = true <->
                         In j (map fst (P ++ Q ++ [(b, v)])))).
          { intros j Hj. rewrite Hin. destruct (Nat.eq_dec j b) as [->|Hne].
            - rewrite nth_upd_eq by lia. tauto.
            - rewrite nth_upd_neq by exact Hne. rewrite I3 by exact Hj. tauto. }
          destruct (ceqb_spec R (nth b vt c0) c0) as [E0|E0]; cbn [negb].
          -- eexists. split; [reflexivity|]. exists row. split; [exact I1|].
             split; [rewrite upd_length; exact I2|]. split; [exact I3'|]. split; [exact I4|]. split.
             ++ intros j x Hj. destruct (I5 j x Hj) as [Ha [Hb2 Hc2]]. repeat split; auto. apply Hin. auto.
             ++ intros j Hj Hv. apply Hin in Hj. destruct Hj as [Hj| ->]; [|contradiction]. apply I6; assumption.
          -- eexists. split; [reflexivity|]. exists (row ++ [(b, nth b vt c0)]).
             split; [apply bldr_push; exact I1|].
             split; [rewrite upd_length; exact I2|]. split; [exact I3'|]. split; [|split].
             ++ rewrite map_app. simpl. apply (Permutation_NoDup (l := b :: map fst row)).
                ** apply Permutation_cons_append.
                ** constructor; [|exact I4]. intros X. apply in_map_iff in X.
                   destruct X as [[b' v'] [Eb' X]]. simpl in Eb'. subst b'.
                   destruct (I5 b v' X) as [_ [_ X2]]. contradiction.
             ++ intros j x Hj. apply in_app_or in Hj. destruct Hj as [Hj|[[= <- <-]|[]]].
                ** destruct (I5 j x Hj) as [Ha [Hb2 Hc2]]. repeat split; auto. apply Hin. auto.
                ** repeat split; auto. apply Hin. auto.
             ++ intros j Hj Hv. rewrite map_app, in_app_iff. simpl. apply Hin in Hj.
                destruct Hj as [Hj| ->]; [left; apply I6; assumption|auto].
      + exists st'. split; [exact E|exact H].
    - exact W.
    - intros k [[A cnt] ex] Hk. rewrite wf_getCol by assumption. reflexivity.
  Qed.

  Lemma plus_reset_ok M i c vt ex (Z : nat -> Prop) :
    crs_wf M -> c_ncol M <= c -> length vt = c -> length ex = c ->
    (forall j, j < c -> Z j -> nth j vt c0 = c0 /\ nth j ex false = false) ->
    exists vt' ex', plus_reset R M (ks M i) (ke M i) (vt, ex) = Ok (vt', ex') /\
      length vt' = c /\ length ex' = c /\
      (forall j, j < c -> Z j \/ In j (map fst (prow M i)) ->
         nth j vt' c0 = c0 /\ nth j ex' false = false).
  Proof.
    intros W Hc L1 L2 H0. unfold plus_reset.
    rewrite (prow_forL M i _ (fun e '(vt, ex) =>
      do vt <- vset vt (fst e) c0 ;; do ex <- vset ex (fst e) false ;; Ok (vt, ex))).
    - loopL (fun Q (st : list R * list bool) => let '(vt', ex') := st in
               length vt' = c /\ length ex' = c /\
               (forall j, j < c -> Z j \/ In j (map fst Q) ->
                  nth j vt' c0 = c0 /\ nth j ex' false = false)) as [vt' ex'] E H.
      + split; [exact L1|]. split; [exact L2|]. intros j Hj [Hz|[]]. apply H0; assumption.
      + intros Q [b v] post [vt1 ex1] HL [I1 [I2 I3]]. cbn [fst snd].
        assert (Hb : b < c).
        { enough (fst (b, v) < c_ncol M) by (simpl in *; lia). apply (prow_col M i); auto.
          rewrite HL. apply in_elt. }
        repeat (rewrite vset_ok by lia; cbn [bind]).
        eexists. split; [reflexivity|]. cbv beta iota. rewrite !upd_length.
        split; [exact I1|]. split; [exact I2|]. intros j Hj Hin.
        destruct (Nat.eq_dec j b) as [->|Hne].
        * rewrite !nth_upd_eq by lia. auto.
        * rewrite !nth_upd_neq by exact Hne. apply I3; [exact Hj|].
          rewrite map_app, in_app_iff in Hin. simpl in Hin. intuition congruence.
      + exists vt', ex'. split; [exact E|exact H].
    - exact W.
    - intros k [vt1 ex1] Hk. rewrite wf_getCol by assumption. reflexivity.
  Qed.

  Lemma resize3_of_rows c rows : crs_resize3 R (of_rows c rows) (length rows) c (length (concat rows)) = of_rows c rows.
  Proof.
    unfold crs_resize3, of_rows, vresize. cbn [c_rowptr c_colind c_values c_nrow c_ncol]. f_equal.
    - rewrite firstn_all2 by (rewrite map_length, seq_length; lia).
      rewrite map_length, seq_length. replace (length rows + 1 - S (length rows)) with 0 by lia.
      apply app_nil_r.
    - rewrite firstn_all2 by (rewrite map_length; lia). rewrite map_length, Nat.sub_diag. apply app_nil_r.
    - rewrite firstn_all2 by (rewrite map_length; lia). rewrite map_length, Nat.sub_diag. apply app_nil_r.
  Qed.

  Lemma bld_cnt c n rows m cnt : bld c n rows m cnt -> cnt = length (concat rows).
  Proof. intros [v [_ [_ [-> _]]]]. reflexivity. Qed.

  Lemma operatorPlus_ok A0 B b C c' :
    crs_wf B -> crs_wf C ->
    exists A', operatorPlus R A0 B b C c' = Ok A' /\
      is_crs A' (Nat.max (c_nrow B) (c_nrow C)) (Nat.max (c_ncol B) (c_ncol C))
        (fun i j => (pad_elem B i j * b + pad_elem C i j * c')%C) /\
      crs_nodup A' /\ crs_nozero A'.
  Proof.
    intros WB WC. unfold operatorPlus.
    replace (if c_nrow C <=? c_nrow B then c_nrow B else c_nrow C) with (Nat.max (c_nrow B) (c_nrow C))
      by (destruct (Nat.leb_spec (c_nrow C) (c_nrow B)); lia).
    replace (if c_ncol C <=? c_ncol B then c_ncol B else c_ncol C) with (Nat.max (c_ncol B) (c_ncol C))
      by (destruct (Nat.leb_spec (c_ncol C) (c_ncol B)); lia).
    set (n := Nat.max (c_nrow B) (c_nrow C)). set (c := Nat.max (c_ncol B) (c_ncol C)).
    assert (HcB : c_ncol B <= c) by (unfold c; lia). assert (HcC : c_ncol C <= c) by (unfold c; lia).
    rewrite !crs_nonZeros_ok by assumption. cbn [bind].
    set (f := fun i j => (pad_elem B i j * b + pad_elem C i j * c')%C).
    loopM (fun i (st : crs R * nat * list R * list bool) =>
             let '(A, cnt, vt, ex) := st in
             length vt = c /\ length ex = c /\
             (forall j, j < c -> nth j vt c0 = c0 /\ nth j ex false = false) /\
             exists rows, length rows = i /\ bld c n rows A cnt /\
               forall k, k < i ->
                 Forall (fun e => fst e < c) (nth k rows []) /\
                 NoDup (map fst (nth k rows [])) /\
                 Forall (fun e => snd e <> c0) (nth k rows []) /\
                 forall j, j < c -> row_elem (nth k rows []) j = f k j)
      as [[[A' cnt'] vt'] ex'] E H.
    - rewrite !repeat_length. split; [reflexivity|]. split; [reflexivity|].
      split; [intros; split; apply nth_repeat_same|]. exists []. split; [reflexivity|].
      split; [apply bld_init|]. intros; lia.
    - intros i [[[A1 cnt1] vt1] ex1] [_ Hi] [L1 [L2 [Hz [rows [Lr [HB Hrows]]]]]]. simpl in Hi.
      destruct (bld_setRow _ _ _ _ _ _ HB) as [A2 [E2 HB2]]; [lia|].
      rewrite Lr in E2. rewrite E2. cbn [bind].
      repeat (first [rewrite ks_ok by assumption|rewrite ke_ok by assumption]; cbn [bind]).
      rewrite <- !prow_length.
      assert (Hext : forall row, (Forall (fun e => fst e < c) row /\ NoDup (map fst row) /\
                 Forall (fun e => snd e <> c0) row /\ forall j, j < c -> row_elem row j = f i j) ->
               forall k, k < S i ->
                 Forall (fun e => fst e < c) (nth k (rows ++ [row]) []) /\
                 NoDup (map fst (nth k (rows ++ [row]) [])) /\
                 Forall (fun e => snd e <> c0) (nth k (rows ++ [row]) []) /\
                 forall j, j < c -> row_elem (nth k (rows ++ [row]) []) j = f k j).
      { intros row Hrow k Hk. destruct (Nat.eq_dec k i) as [->|Hne].
        - rewrite app_nth2, Lr, Nat.sub_diag by lia. exact Hrow.
        - rewrite app_nth1 by lia. apply Hrows. lia. }
      destruct (Nat.leb_spec 1 (length (prow B i) + length (prow C i))) as [Hw|Hw]; cbn [negb].
      + destruct (plus_add_ok B b i vt1 c WB HcB L1) as [vt2 [E3 [L3 H3]]]. rewrite E3. cbn [bind].
        destruct (plus_add_ok C c' i vt2 c WC HcC L3) as [vt3 [E4 [L4 H4]]]. rewrite E4. cbn [bind].
        assert (Hvt : forall j, j < c -> nth j vt3 c0 = f i j).
        { intros j Hj. rewrite H4, H3 by exact Hj. destruct (Hz j Hj) as [-> _]. unfold f. ring. }
        destruct (plus_copy_ok B i vt3 c n rows [] (A2, cnt1, ex1) WB HcB L4) as [st1 [E5 H5]].
        { apply copy_inv_init; auto. intros j Hj. apply Hz. exact Hj. }
        rewrite E5. cbn [bind]. simpl in H5.
        destruct (plus_copy_ok C i vt3 c n rows _ st1 WC HcC L4 H5) as [[[A6 cnt6] ex6] [E6 H6]].
        rewrite E6. cbn [bind]. destruct H6 as [row [I1 [I2 [I3 [I4 [I5 I6]]]]]].
        assert (Hcols : forall j, In j (map fst (prow B i ++ prow C i)) -> j < c).
        { intros j Hj. apply in_map_iff in Hj. destruct Hj as [e [<- He]]. apply in_app_or in He.
          destruct He as [He|He]; apply prow_col in He; auto; lia. }
        assert (Hzero : forall j, j < c -> ~ In j (map fst (prow B i ++ prow C i)) -> f i j = c0).
        { intros j Hj Hin. rewrite map_app, in_app_iff in Hin. unfold f.
          rewrite <- !prow_elem by assumption. rewrite !row_elem_notin by tauto. ring. }
        destruct (plus_reset_ok B i c vt3 ex6
                    (fun j => ~ In j (map fst (prow B i ++ prow C i))) WB HcB L4 I2)
          as [vt7 [ex7 [E7 [L7 [L7' H7]]]]].
        { intros j Hj Hin. split.
          - rewrite Hvt by exact Hj. apply Hzero; assumption.
          - destruct (nth j ex6 false) eqn:Ex; [|reflexivity]. exfalso. apply Hin. apply I3; assumption. }
        rewrite E7. cbn [bind].
        destruct (plus_reset_ok C i c vt7 ex7 _ WC HcC L7 L7' H7) as [vt8 [ex8 [E8 [L8 [L8' H8]]]]].
        rewrite E8. cbn [bind]. eexists. split; [reflexivity|].
        split; [exact L8|]. split; [exact L8'|]. split.
        { intros j Hj. apply H8; [exact Hj|].
          destruct (in_dec Nat.eq_dec j (map fst (prow B i ++ prow C i))) as [Hin|Hin]; [|tauto].
          rewrite map_app, in_app_iff in Hin. tauto. }
        exists (rows ++ [row]). split; [rewrite app_length; simpl; lia|].
        split; [apply bldr_done; exact I1|]. apply Hext. split; [|split; [exact I4|split]].
        * apply Forall_forall. intros [j v] Hj. simpl. apply Hcols. apply (I5 j v Hj).
        * apply Forall_forall. intros [j v] Hj. simpl. apply (I5 j v Hj).
        * intros j Hj. rewrite <- Hvt by exact Hj. apply (row_elem_char R row (fun j => nth j vt3 c0)).
          -- exact I4.
          -- intros k v Hk. apply (I5 k v Hk).
          -- intros Hnot.
             destruct (in_dec Nat.eq_dec j (map fst (prow B i ++ prow C i))) as [Hin|Hin].
             ++ destruct (ceqb_spec R (nth j vt3 c0) c0) as [E0|E0]; [exact E0|].
                exfalso. apply Hnot. apply I6; assumption.
             ++ rewrite Hvt by exact Hj. apply Hzero; assumption.
      + eexists. split; [reflexivity|]. split; [exact L1|]. split; [exact L2|]. split; [exact Hz|].
        exists (rows ++ [[]]). split; [rewrite app_length; simpl; lia|].
        split; [apply bldr_done; exact HB2|]. apply Hext.
        split; [constructor|]. split; [constructor|]. split; [constructor|].
        intros j Hj. unfold f. rewrite <- !prow_elem by assumption.
        replace (prow B i) with (@nil (nat * R)) by (destruct (prow B i); simpl in *; [reflexivity|lia]).
        replace (prow C i) with (@nil (nat * R)) by (destruct (prow C i); simpl in *; [reflexivity|lia]).
        unfold row_elem. simpl. ring.
    - rewrite E. cbn [bind]. destruct H as [_ [_ [_ [rows [Lr [HB Hrows]]]]]]. simpl in Lr.
      rewrite (bld_finish _ _ _ _ _ _ HB) by exact Lr. cbn [bind].
      rewrite (bld_cnt _ _ _ _ _ HB). replace n with (length rows) by exact Lr. rewrite resize3_of_rows.
      eexists. split; [reflexivity|]. split; [|split].
      + apply of_rows_is.
        * apply Forall_forall. intros r Hr. apply (In_nth _ _ []) in Hr.
          destruct Hr as [k [Hk <-]]. apply Hrows. lia.
        * intros i j Hi Hj. apply Hrows; [lia|exact Hj].
      + apply of_rows_nodup. intros i Hi. apply Hrows. lia.
      + apply of_rows_nozero. apply Forall_forall. intros r Hr. apply (In_nth _ _ []) in Hr.
        destruct Hr as [k [Hk <-]]. apply Hrows. lia.
  Qed.

  Lemma is_crs_ext m r c (f g : nat -> nat -> R) :
    (forall i j, i < r -> j < c -> f i j = g i j) -> is_crs m r c f -> is_crs m r c g.
  Proof.
    intros H [X1 [X2 [X3 [X4 X5]]]]. split; [exact X1|]. split; [exact X2|]. split; [exact X3|].
    split; [exact X4|]. intros i j Hi Hj. rewrite X5 by assumption. auto.
  Qed.

  Lemma crs_add_ok this c m t : crs_wf this -> crs_wf m -> c_nrow m = c_ncol m ->
    exists A', crs_add R this c m t = Ok A' /\
      is_crs A' (Nat.max (c_nrow this) (c_nrow m)) (Nat.max (c_ncol this) (c_ncol m))
        (fun i j => (pad_elem this i j + pad_elem m i j * t)%C) /\
      crs_nodup A' /\ crs_nozero A'.
  Proof.
    intros W1 W2 Hsq. unfold crs_add.
    assert (Eb : (c_nrow m =? c_ncol m) = true) by (apply Nat.eqb_eq; exact Hsq). rewrite Eb. clear Eb.
    destruct (Nat.leb_spec (c_nrow m) (c_nrow this)) as [H|H].
    - destruct (operatorPlus_ok c this c1 m t W1 W2) as [A' [E [X X']]].
      exists A'. split; [exact E|]. split; [|exact X']. eapply is_crs_ext; [|exact X].
      intros i j Hi Hj. cbv beta. ring.
    - destruct (operatorPlus_ok c m t this c1 W2 W1) as [A' [E [X X']]].
      rewrite Nat.max_comm, (Nat.max_comm (c_ncol this)).
      exists A'. split; [exact E|]. split; [|exact X']. eapply is_crs_ext; [|exact X].
      intros i j Hi Hj. cbv beta. ring.
  Qed.
End Proofs.
