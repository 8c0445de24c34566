(** Block embedding, in-place changes, predicates, validity check, triplets. *)
From Verif Require Import Prelude Ring Vec_Model Vec_Spec Vec_Proofs Dense_Model Dense_Spec Dense_Proofs.
From Verif Require Import Sort_Model Sort_Spec Sort_Proofs.
From Verif Require Import Crs_Model Crs_Spec Crs_Base Crs_Proofs Crs_Proofs2 Crs_Proofs3.

Section Proofs4.
  Variable R : cring.
  Local Open Scope cring_scope.
  Add Ring Rring4 : (c_ring R).
  Local Open Scope nat_scope.
  Implicit Types (m A B C : crs R) (rows : list (list (nat * R))) (row : list (nat * R)).

  Lemma externalProduct2_ok C0 A B (signs : list R) (order : bool) (p : list nat) :
    crs_wf A -> crs_wf B -> c_nrow A = c_ncol A -> c_nrow B = c_ncol B ->
    is_perm p (c_nrow B * c_nrow A) ->
    length signs = (if order then c_nrow A else c_nrow B) ->
    let nf := c_nrow B * c_nrow A in
    exists C', externalProduct2 R C0 A B signs order p = Ok C' /\
      c_nrow C' = nf /\ c_ncol C' = nf /\ length (c_rowptr C') = S nf /\ crs_wf C' /\
      (forall a1 b1 a2 b2, a1 < c_nrow A -> b1 < c_nrow B -> a2 < c_nrow A -> b2 < c_nrow B ->
         crs_elem C' (nth (kidx order (c_nrow A) (c_nrow B) a1 b1) p 0)
                     (nth (kidx order (c_nrow A) (c_nrow B) a2 b2) p 0) =
         (crs_elem A a1 a2 * crs_elem B b1 b2 * nth (if order then a1 else b1) signs c0)%C) /\
      (crs_nodup A -> crs_nodup B -> crs_nodup C').
  Proof.
    intros WA WB HA HB Hp Ls nf. unfold externalProduct2.
    assert (Lp := perm_length _ _ Hp). rewrite Lp.
    destruct (inv_perm_ok _ _ Hp) as [q [E1 [Lq Hq]]].
    rewrite E1. cbn [bind].
    replace (c_nrow A =? c_ncol A) with true by (symmetry; apply Nat.eqb_eq; exact HA).
    replace (c_nrow B =? c_ncol B) with true by (symmetry; apply Nat.eqb_eq; exact HB).
    rewrite Nat.eqb_refl. destruct order; cbn [negb]; rewrite Ls, Nat.eqb_refl.
    - subst nf. rewrite (Nat.mul_comm (c_nrow B)) in *.
      destruct (ext2_core R A B signs p C0 q) as [C' [E [X1 [X2 [X3 [X4 [X5 X6]]]]]]]; auto.
      exists C'. split; [exact E|]. split; [exact X1|]. split; [exact X2|]. split; [exact X3|].
      split; [exact X4|]. split; [|exact X6]. intros a1 b1 a2 b2 H1 H2 H3 H4.
      unfold kidx. rewrite X5 by assumption. reflexivity.
    - subst nf.
      destruct (ext2_core R B A signs p C0 q) as [C' [E [X1 [X2 [X3 [X4 [X5 X6]]]]]]]; auto.
      exists C'. split; [exact E|]. split; [exact X1|]. split; [exact X2|]. split; [exact X3|].
      split; [exact X4|]. split; [|intros; apply X6; assumption]. intros a1 b1 a2 b2 H1 H2 H3 H4.
      unfold kidx. rewrite X5 by assumption. ring.
  Qed.

  (** ---------------------------------------------------------------- *)
  (** Embedding of a block. *)
  Definition shift_row (offset : nat) row : list (nat * R) := map (fun e => (fst e + offset, snd e)) row.

  Lemma repeat_snoc {T} (x : T) n : repeat x n ++ [x] = repeat x (S n).
  Proof. induction n; simpl in *; congruence. Qed.

  Definition block_rows B offset n : list (list (nat * R)) :=
    repeat [] offset ++ map (fun i => shift_row offset (crs_row B i)) (seq 0 (c_nrow B)) ++
    repeat [] (n - (c_nrow B + offset)).

  Lemma fromBlockToFull_rows Bf B offset : crs_wf B -> offset + c_nrow B <= c_nrow Bf ->
    fromBlockToFull R Bf B offset = Ok (of_rows (c_ncol Bf) (block_rows B offset (c_nrow Bf))).
  Proof.
    intros W Hn. unfold fromBlockToFull. rewrite crs_nonZeros_ok by exact W. cbn [bind].
    set (n := c_nrow Bf) in *. set (c := c_ncol Bf).
    loopM (fun i m => bld c n (repeat [] i) m 0) as m1 E1 H1.
    - apply bld_init.
    - intros i m [_ Hi] H. simpl in Hi.
      destruct (bld_setRow _ _ _ _ _ _ H) as [m' [E' H']]; [rewrite repeat_length; lia|].
      rewrite repeat_length in E'. rewrite E'. exists m'. split; [reflexivity|].
      rewrite <- repeat_snoc. apply bldr_done. exact H'.
    - rewrite E1. cbn [bind]. simpl in H1.
      loopM (fun i (st : crs R * nat) => let '(m, cnt) := st in
               bld c n (repeat [] offset ++ map (fun i => shift_row offset (crs_row B i)) (seq 0 i)) m cnt)
        as [m2 cnt2] E2 H2.
      + simpl. rewrite app_nil_r. exact H1.
      + intros i [m cnt] [_ Hi] H. simpl in Hi.
        set (rows := repeat [] offset ++ map (fun i => shift_row offset (crs_row B i)) (seq 0 i)) in *.
        assert (Lr : length rows = i + offset)
          by (unfold rows; rewrite app_length, repeat_length, map_length, seq_length; lia).
        destruct (bld_setRow _ _ _ _ _ _ H) as [m' [E' H']]; [lia|]. rewrite Lr in E'.
        rewrite E'. cbn [bind].
        rewrite (for_row_forL R B i _ (fun e '(m, cnt) =>
          Ok (pushValue R (pushCol R m (fst e + offset)) (snd e), S cnt))).
        * loopL (fun P (st : crs R * nat) => let '(m, cnt) := st in bldr c n rows (shift_row offset P) m cnt)
            as [m3 cnt3] E3 H3.
          -- exact H'.
          -- intros P [j v] post [m4 cnt4] HL H4. eexists. split; [reflexivity|].
             unfold shift_row. rewrite map_app. apply bldr_push. exact H4.
          -- exists (m3, cnt3). split; [exact E3|]. rewrite seq_S, map_app, app_assoc.
             apply bldr_done. exact H3.
        * exact W.
        * exact Hi.
        * intros k [m4 cnt4] _ Hk. rewrite wf_getCol, wf_getValue by assumption. reflexivity.
      + rewrite E2. cbn [bind]. simpl in H2.
        assert (Hd : c_nrow m2 = n) by (destruct H2 as [v [-> _]]; reflexivity). rewrite Hd.
        set (rows := repeat [] offset ++ map (fun i => shift_row offset (crs_row B i)) (seq 0 (c_nrow B))) in *.
        assert (Lr : length rows = c_nrow B + offset)
          by (unfold rows; rewrite app_length, repeat_length, map_length, seq_length; lia).
        loopR (fun i (m : crs R) => bld c n (rows ++ repeat [] (i - (c_nrow B + offset))) m cnt2) as m3 E3 H3.
        * lia.
        * rewrite Nat.sub_diag. simpl. rewrite app_nil_r. exact H2.
        * intros i m [Hi1 Hi2] H.
          assert (Lr2 : length (rows ++ repeat [] (i - (c_nrow B + offset))) = i)
            by (rewrite app_length, repeat_length; lia).
          destruct (bld_setRow _ _ _ _ _ _ H) as [m' [E' H']]; [lia|]. rewrite Lr2 in E'.
          rewrite E'. exists m'. split; [reflexivity|].
          replace (S i - (c_nrow B + offset)) with (S (i - (c_nrow B + offset))) by lia.
          rewrite <- repeat_snoc, app_assoc. apply bldr_done. exact H'.
        * rewrite E3. cbn [bind].
          assert (Hd3 : c_nrow m3 = n) by (destruct H3 as [v [-> _]]; reflexivity). rewrite Hd3.
          unfold block_rows. rewrite app_assoc. fold rows.
          apply bld_finish with (1 := H3). rewrite app_length, repeat_length, Lr. lia.
  Qed.

  Lemma fromBlockToFull_ok Bf B offset : crs_wf B ->
    offset + c_nrow B <= c_nrow Bf -> offset + c_ncol B <= c_ncol Bf ->
    exists M, fromBlockToFull R Bf B offset = Ok M /\
      is_crs M (c_nrow Bf) (c_ncol Bf)
        (fun i j => if (offset <=? i) && (offset <=? j) then pad_elem B (i - offset) (j - offset) else c0) /\
      (crs_nodup B -> crs_nodup M) /\ (crs_nozero B -> crs_nozero M).
  Proof.
    intros W Hn Hc. eexists. split; [apply fromBlockToFull_rows; assumption|].
    set (n := c_nrow Bf) in *. set (c := c_ncol Bf) in *.
    assert (Lr : length (block_rows B offset n) = n).
    { unfold block_rows. rewrite !app_length, !repeat_length, map_length, seq_length. lia. }
    assert (Hrow : forall i, i < n -> nth i (block_rows B offset n) [] =
       if offset <=? i then shift_row offset (prow R B (i - offset)) else []).
    { intros i Hi. unfold block_rows. destruct (Nat.leb_spec offset i) as [H|H].
      - rewrite app_nth2 by (rewrite repeat_length; exact H). rewrite repeat_length.
        unfold prow. destruct (Nat.ltb_spec (i - offset) (c_nrow B)) as [H'|H'].
        + rewrite app_nth1 by (rewrite map_length, seq_length; exact H').
          rewrite nth_map_seq by exact H'. reflexivity.
        + rewrite app_nth2 by (rewrite map_length, seq_length; exact H').
          apply nth_repeat_same.
      - rewrite app_nth1 by (rewrite repeat_length; exact H). apply nth_repeat_same. }
    split; [|split].
    - rewrite <- Lr at 2. apply of_rows_is.
      + apply Forall_forall. intros r Hr. apply (In_nth _ _ []) in Hr. destruct Hr as [i [Hi <-]].
        rewrite Lr in Hi. rewrite Hrow by exact Hi. destruct (offset <=? i); [|constructor].
        apply Forall_map, Forall_forall. intros e He. simpl. apply prow_col in He; [lia|exact W].
      + rewrite Lr. intros i j Hi Hj. rewrite Hrow by exact Hi.
        destruct (Nat.leb_spec offset i) as [H|H]; [|reflexivity]. simpl.
        unfold shift_row, row_elem. rewrite suml_map. cbn [fst snd].
        destruct (Nat.leb_spec offset j) as [H'|H'].
        * rewrite <- prow_elem by exact W. apply suml_ext. intros [b x]. simpl.
          destruct (Nat.eqb_spec (b + offset) j), (Nat.eqb_spec b (j - offset)); try lia; reflexivity.
        * apply suml_zero_in. intros [b x] _. simpl. destruct (Nat.eqb_spec (b + offset) j); [lia|reflexivity].
    - intros N. apply of_rows_nodup. rewrite Lr. intros i Hi. rewrite Hrow by exact Hi.
      destruct (offset <=? i); [|constructor]. unfold prow.
      destruct (Nat.ltb_spec (i - offset) (c_nrow B)) as [H|H]; [|constructor].
      unfold shift_row. rewrite map_map. cbn [fst]. specialize (N _ H).
      rewrite <- (map_map fst (fun k => k + offset)).
      apply FinFun.Injective_map_NoDup; [|exact N]. intros x y. lia.
    - intros N. apply of_rows_nozero. apply Forall_forall. intros r Hr. apply (In_nth _ _ []) in Hr.
      destruct Hr as [i [Hi <-]]. rewrite Lr in Hi. rewrite Hrow by exact Hi.
      destruct (offset <=? i); [|constructor]. unfold prow.
      destruct (Nat.ltb_spec (i - offset) (c_nrow B)) as [H|H]; [|constructor].
      apply Forall_map, Forall_forall. intros e He. simpl.
      unfold crs_nozero in N. destruct (crs_rows_all R B W) as [_ Hv]. rewrite <- Hv in N.
      rewrite Forall_forall in N. apply N. apply in_map. apply in_concat.
      exists (crs_row B (i - offset)). split; [|exact He]. apply in_map. apply in_seq. lia.
  Qed.

  (** ---------------------------------------------------------------- *)
  (** Changes of the values in place. *)
  Lemma map_values_row m vs (f : R -> R) i : f c0 = c0 -> vs = map f (c_values m) ->
    crs_row (mkcrs (c_rowptr m) (c_colind m) vs (c_nrow m) (c_ncol m)) i =
    map (fun e => (fst e, f (snd e))) (crs_row m i).
  Proof.
    intros H0 ->. unfold crs_row, rp. cbn [c_rowptr c_colind c_values]. rewrite map_map. apply map_ext.
    intros k. simpl. f_equal. rewrite <- H0 at 1. apply map_nth.
  Qed.

  Lemma map_values_ok m vs (f : R -> R) : f c0 = c0 -> vs = map f (c_values m) -> crs_wf m ->
    let m' := mkcrs (c_rowptr m) (c_colind m) vs (c_nrow m) (c_ncol m) in
    crs_wf m' /\ (forall i, map fst (crs_row m' i) = map fst (crs_row m i)) /\
    ((forall x y, f (x + y) = f x + f y)%C -> forall i j, crs_elem m' i j = f (crs_elem m i j)).
  Proof.
    intros H0 Hv W m'. split; [|split].
    - destruct W as [X1 [X2 [X3 [X4 [X5 X6]]]]]. unfold m', crs_wf, rp in *.
      cbn [c_rowptr c_colind c_values c_nrow c_ncol].
      split; [exact X1|]. split; [exact X2|]. split; [exact X3|]. split; [exact X4|]. split; [|exact X6].
      rewrite Hv, map_length. exact X5.
    - intros i. unfold m'. rewrite (map_values_row m vs f i H0 Hv). rewrite map_map. reflexivity.
    - intros Ha i j. unfold crs_elem, m'. rewrite (map_values_row m vs f i H0 Hv).
      unfold row_elem. induction (crs_row m i) as [|[b x] l IH]; simpl; [symmetry; exact H0|].
      rewrite IH, Ha. f_equal. destruct (b =? j); [reflexivity|symmetry; exact H0].
  Qed.

  Lemma is_vec_map (u v : list R) f : is_vec u (length v) (fun k => f (vel v k)) -> u = map f v.
  Proof.
    intros [L H]. apply (list_eq_nth _ _ c0); [rewrite map_length; exact L|].
    intros k Hk. rewrite (nth_indep (map f v) c0 (f c0)) by (rewrite map_length; lia).
    rewrite map_nth. apply H. lia.
  Qed.

  Lemma crs_scale_ok m x : crs_wf m ->
    exists m', crs_scale R m x = Ok m' /\ crs_wf m' /\ c_nrow m' = c_nrow m /\ c_ncol m' = c_ncol m /\
      (forall i j, crs_elem m' i j = (x * crs_elem m i j)%C) /\ (crs_nodup m -> crs_nodup m').
  Proof.
    intros W. unfold crs_scale. destruct (times_eq_ok R (c_values m) x) as [u [E H]]. rewrite E. cbn [bind].
    apply (is_vec_map _ _ (fun v => (x * v)%C)) in H.
    destruct (map_values_ok m u (fun v => (x * v)%C)) as [X1 [X2 X3]]; [ring|exact H|exact W|].
    eexists. split; [reflexivity|]. split; [exact X1|]. split; [reflexivity|]. split; [reflexivity|].
    split; [apply X3; intros; ring|]. intros N i Hi. rewrite X2. apply N. exact Hi.
  Qed.

  Lemma crs_conjugate_ok m : crs_wf m ->
    exists m', crs_conjugate R m = Ok m' /\ crs_wf m' /\ c_nrow m' = c_nrow m /\ c_ncol m' = c_ncol m /\
      (forall i j, crs_elem m' i j = cconj (crs_elem m i j)) /\ (crs_nodup m -> crs_nodup m').
  Proof.
    intros W. unfold crs_conjugate.
    destruct (each_spec R (fun i u => do x <- vget u i ;; Ok (cconj x)) (c_values m)
                (fun k => cconj (vel (c_values m) k))) as [u [E H]].
    { intros i u Hi Lu Hu. rewrite (vget_ok u c0) by lia. cbn [bind]. rewrite Hu by lia. reflexivity. }
    rewrite E. cbn [bind]. apply (is_vec_map _ _ cconj) in H.
    destruct (map_values_ok m u cconj) as [X1 [X2 X3]]; [apply cconj_0|exact H|exact W|].
    eexists. split; [reflexivity|]. split; [exact X1|]. split; [reflexivity|]. split; [reflexivity|].
    split; [apply X3; apply c_conj_add|]. intros N i Hi. rewrite X2. apply N. exact Hi.
  Qed.

  Lemma off_singletons (g : nat -> nat * R) n i : i <= n -> off (map (fun k => [g k]) (seq 0 n)) i = i.
  Proof.
    intros H. unfold off. rewrite firstn_map. rewrite <- (flat_map_concat_map). rewrite flat_map_singleton.
    rewrite map_length, firstn_length, seq_length. lia.
  Qed.

  Lemma makeDiagonal_rows m n x :
    makeDiagonal R m n x = Ok (of_rows n (map (fun i => [(i, x)]) (seq 0 n))).
  Proof.
    unfold makeDiagonal.
    match goal with |- bind (forM n 0 ?F ?S0) _ = _ =>
      assert (G : exists v, forM n 0 F S0 = Ok (mkcrs v (seq 0 n) (repeat x n) n n) /\
                length v = S n /\ forall k, k < n -> nth k v 0 = k) end.
    { loopM (fun i (m' : crs R) => c_nrow m' = n /\ c_ncol m' = n /\ length (c_rowptr m') = S n /\
               length (c_colind m') = n /\ length (c_values m') = n /\
               (forall k, k < i -> nth k (c_rowptr m') 0 = k /\ nth k (c_colind m') 0 = k /\
                                   nth k (c_values m') c0 = x)) as m' E H.
      - cbn [c_rowptr c_colind c_values c_nrow c_ncol]. rewrite !vresize_length.
        split; [reflexivity|]. split; [reflexivity|]. split; [lia|]. split; [reflexivity|].
        split; [reflexivity|]. intros; lia.
      - intros i [v ci vs nr nc] [_ Hi] [I1 [I2 [I3 [I4 [I5 I6]]]]]. simpl in Hi.
        cbn [c_rowptr c_colind c_values c_nrow c_ncol] in *.
        unfold setValues, setCol, setRow. cbn [c_rowptr c_colind c_values c_nrow c_ncol].
        rewrite vset_ok by lia. cbn [bind c_rowptr c_colind c_values c_nrow c_ncol].
        rewrite vset_ok by lia. cbn [bind c_rowptr c_colind c_values c_nrow c_ncol].
        rewrite vset_ok by lia. cbn [bind c_rowptr c_colind c_values c_nrow c_ncol].
        eexists. split; [reflexivity|]. cbn [c_rowptr c_colind c_values c_nrow c_ncol].
        rewrite !upd_length. do 5 (split; [assumption|]). intros k Hk.
        destruct (Nat.eq_dec k i) as [->|Hne].
        + rewrite !nth_upd_eq by lia. auto.
        + rewrite !nth_upd_neq by exact Hne. apply I6. lia.
      - destruct H as [I1 [I2 [I3 [I4 [I5 I6]]]]]. destruct m' as [v ci vs nr nc].
        cbn [c_rowptr c_colind c_values c_nrow c_ncol] in *. exists v. rewrite E. split; [|split].
        + f_equal. subst nr nc. f_equal.
          * apply (list_eq_nth _ _ 0); [rewrite seq_length; exact I4|]. intros k Hk.
            rewrite seq_nth by lia. apply I6. simpl. lia.
          * apply (list_eq_nth _ _ c0); [rewrite repeat_length; exact I5|]. intros k Hk.
            rewrite nth_repeat_in by lia. apply I6. simpl. lia.
        + exact I3.
        + intros k Hk. apply I6. exact Hk. }
    destruct G as [v [E [Lv Hv]]]. rewrite E. cbn [bind]. unfold setRow.
    cbn [c_rowptr c_colind c_values c_nrow c_ncol]. rewrite vset_ok by lia. cbn [bind].
    f_equal. unfold of_rows. rewrite map_length, seq_length. rewrite <- flat_map_concat_map, flat_map_singleton.
    rewrite !map_map. cbn [fst snd]. rewrite map_id. f_equal.
    - apply (list_eq_nth _ _ 0); [rewrite upd_length, map_length, seq_length; exact Lv|].
      intros k Hk. rewrite upd_length in Hk. rewrite nth_map_seq by lia. rewrite off_singletons by lia.
      destruct (Nat.eq_dec k n) as [->|Hne]; [apply nth_upd_eq; lia|].
      rewrite nth_upd_neq by exact Hne. apply Hv. lia.
    - apply (list_eq_nth _ _ c0); [rewrite repeat_length, map_length, seq_length; reflexivity|].
      intros k Hk. rewrite repeat_length in Hk. rewrite (nth_map_seq (fun _ => x)), nth_repeat_in by exact Hk.
      reflexivity.
  Qed.

  Lemma makeDiagonal_ok m n x :
    exists m', makeDiagonal R m n x = Ok m' /\
      is_crs m' n n (fun i j => if i =? j then x else c0) /\ crs_sorted m' /\ crs_nodup m'.
  Proof.
    eexists. split; [apply makeDiagonal_rows|]. split; [|split].
    - apply rows_is.
      + intros i Hi. repeat constructor. exact Hi.
      + intros i j Hi Hj. unfold row_elem. simpl. destruct (i =? j); ring.
    - apply rows_sorted. intros. simpl. repeat constructor.
    - apply rows_nodup. intros. simpl. repeat constructor. simpl. tauto.
  Qed.

  (** ---------------------------------------------------------------- *)
  (** checkValidity. *)
  Lemma forM_Ok_inv {T : Type} n (f : nat -> T -> res T) (P : nat -> T -> Prop) (Q : nat -> Prop) s s' :
    P 0 s ->
    (forall i t t', i < n -> P i t -> f i t = Ok t' -> Q i /\ P (S i) t') ->
    forM n 0 f s = Ok s' -> forall i, i < n -> Q i.
  Proof.
    intros H0 Hstep E.
    assert (G : forall k a t, a + k = n -> P a t -> forM k a f t = Ok s' -> forall i, a <= i < n -> Q i).
    { induction k as [|k IH]; intros a t Hak HP HE i Hi; [lia|]. simpl in HE.
      destruct (f a t) as [t'| | |] eqn:Ef; try discriminate. cbn [bind] in HE.
      destruct (Hstep a t t') as [HQ HP']; [lia|exact HP|exact Ef|].
      destruct (Nat.eq_dec i a) as [->|Hne]; [exact HQ|].
      apply (IH (S a) t'); try assumption; lia. }
    intros i Hi. apply (G n 0 s); try assumption; lia.
  Qed.

  Definition chk_mark (c : nat) (p : list nat) : res (list nat) :=
    guard (c <? length p) ;; do x <- vget p c ;; guard (x =? 0) ;; vset p c 1.

  Lemma mark_iff c (l : list nat) p : length p = c -> (forall j, j < c -> nth j p 0 = 0 \/ nth j p 0 = 1) ->
    (exists p', forL l chk_mark p = Ok p') <->
    Forall (fun j => j < c) l /\ NoDup l /\ (forall j, In j l -> nth j p 0 = 0).
  Proof.
    revert p; induction l as [|j l IH]; intros p Lp Hp; cbn [forL].
    - split; [|eauto]. intros _. split; [constructor|]. split; [constructor|]. intros j [].
    - unfold chk_mark at 1. rewrite Lp. destruct (Nat.ltb_spec j c) as [Hj|Hj].
      2:{ cbn [bind]. split; [intros [p' X]; discriminate|]. intros [X _]. inversion X; subst. lia. }
      rewrite (vget_ok p 0) by lia. cbn [bind]. destruct (Nat.eqb_spec (nth j p 0) 0) as [E0|E0].
      2:{ cbn [bind]. split; [intros [p' X]; discriminate|]. intros [_ [_ X]]. exfalso. apply E0, X. left. reflexivity. }
      rewrite vset_ok by lia. cbn [bind]. rewrite IH.
      + split.
        * intros [X1 [X2 X3]].
          assert (Hnin : ~ In j l).
          { intros Hin. specialize (X3 j Hin). rewrite nth_upd_eq in X3 by lia. discriminate. }
          split; [constructor; assumption|]. split; [constructor; assumption|].
          intros k [<-|Hk]; [exact E0|]. specialize (X3 k Hk).
          assert (k <> j) by congruence. rewrite nth_upd_neq in X3 by assumption. exact X3.
        * intros [X1 [X2 X3]]. inversion X1; subst. inversion X2 as [|? ? Hn X2']; subst.
          split; [assumption|]. split; [assumption|]. intros k Hk. assert (k <> j) by congruence.
          rewrite nth_upd_neq by assumption. apply X3. right. exact Hk.
      + rewrite upd_length. exact Lp.
      + intros k Hk. rewrite nth_upd. destruct (Nat.eqb_spec k j); simpl; [|apply Hp; exact Hk].
        destruct (j <? length p); [right; reflexivity|apply Hp; exact Hk].
  Qed.

  Lemma mark_result c (l : list nat) p p' : length p = c -> forL l chk_mark p = Ok p' ->
    length p' = c /\ forall j, j < c -> nth j p' 0 = if in_dec Nat.eq_dec j l then 1 else nth j p 0.
  Proof.
    revert p; induction l as [|j l IH]; intros p Lp E; cbn [forL] in E.
    - apply Ok_inj in E. subst. split; [reflexivity|]. intros. destruct (in_dec Nat.eq_dec j []) as [[]|]. reflexivity.
    - unfold chk_mark at 1 in E. rewrite Lp in E. destruct (Nat.ltb_spec j c) as [Hj|]; [|discriminate].
      rewrite (vget_ok p 0) in E by lia. cbn [bind] in E.
      destruct (Nat.eqb_spec (nth j p 0) 0); [|discriminate]. rewrite vset_ok in E by lia. cbn [bind] in E.
      apply IH in E; [|rewrite upd_length; exact Lp]. destruct E as [E1 E2]. split; [exact E1|].
      intros k Hk. rewrite E2 by exact Hk.
      destruct (in_dec Nat.eq_dec k l), (in_dec Nat.eq_dec k (j :: l)) as [H|H]; simpl in H; try tauto.
      + destruct H as [<-|H]; [|contradiction]. apply nth_upd_eq. lia.
      + apply nth_upd_neq. intros ->. tauto.
  Qed.

  Lemma unmark_ok c (l : list nat) p : length p = c -> Forall (fun j => j < c) l ->
    (forall j, j < c -> ~ In j l -> nth j p 0 = 0) ->
    forL l (fun j p => vset p j 0) p = Ok (repeat 0 c).
  Proof.
    intros Lp Hl Hp.
    loopL (fun P (q : list nat) => length q = c /\
             (forall j, j < c -> In j P \/ ~ In j l -> nth j q 0 = 0)) as q E H.
    - split; [exact Lp|]. intros j Hj [[]|Hn]. apply Hp; assumption.
    - intros P j post q HL [Lq Hq]. assert (Hj : j < c).
      { rewrite Forall_forall in Hl. apply Hl. rewrite HL. apply in_elt. }
      rewrite vset_ok by lia. eexists. split; [reflexivity|]. rewrite upd_length. split; [exact Lq|].
      intros k Hk Hin. destruct (Nat.eq_dec k j) as [->|Hne].
      + apply nth_upd_eq. lia.
      + rewrite nth_upd_neq by exact Hne. apply Hq; [exact Hk|].
        destruct Hin as [Hin|Hin]; [|auto]. apply in_app_or in Hin. destruct Hin as [?|[?|[]]]; [auto|congruence].
    - rewrite E. f_equal. destruct H as [Lq Hq]. apply (list_eq_nth _ _ 0); [rewrite repeat_length; exact Lq|].
      intros k Hk. rewrite nth_repeat_same. apply Hq; [lia|].
      destruct (in_dec Nat.eq_dec k l); auto.
  Qed.

  (** One row of the check: it succeeds iff the row is fine, and then leaves the
      scratch vector all zero. *)
  Lemma check_row m i : let c := c_ncol m in
    length (c_rowptr m) = S (c_nrow m) -> i < c_nrow m ->
    forall p',
    (do a <- vget (c_rowptr m) i ;; do b <- vget (c_rowptr m) (i + 1) ;;
      guard (a <=? b) ;;
      do p <- forR a b (fun k p =>
        do col <- vget (c_colind m) k ;;
        guard (col <? length p) ;;
        do x <- vget p col ;;
        guard (x =? 0) ;;
        vset p col 1) (repeat 0 c) ;;
      forR a b (fun k p => do col <- vget (c_colind m) k ;; vset p col 0) p) = Ok p' <->
    p' = repeat 0 c /\ rp m i <= rp m (S i) /\ 
    (rp m i < rp m (S i) -> rp m (S i) <= length (c_colind m)) /\
    Forall (fun e => fst e < c) (crs_row m i) /\ NoDup (map fst (crs_row m i)).
  Proof.
    intros c Lr Hi p'. rewrite (vget_ok (c_rowptr m) 0) by lia. cbn [bind].
    rewrite (vget_ok (c_rowptr m) 0) by lia. cbn [bind]. replace (i + 1) with (S i) by lia.
    fold (rp m i). fold (rp m (S i)).
    destruct (Nat.leb_spec (rp m i) (rp m (S i))) as [Hle|Hle].
    2:{ split; [discriminate|]. intros [_ [X _]]. lia. }
    set (a := rp m i) in *. set (b := rp m (S i)) in *.
    assert (Hcols : map fst (crs_row m i) = map (fun k => nth k (c_colind m) 0) (seq a (b - a))).
    { unfold crs_row. rewrite map_map. reflexivity. }
    assert (Hlen : repeat 0 c = repeat 0 c /\ length (repeat 0 c) = c) by (rewrite repeat_length; auto).
    destruct Hlen as [_ Hlen].
    assert (Hz : forall j, j < c -> nth j (repeat 0 c) 0 = 0) by (intros; apply nth_repeat_same).
    rewrite !forR_forL.
    destruct (le_lt_dec b (length (c_colind m))) as [Hb|Hb].
    - (* all indices in range *)
      rewrite (forL_ext_in _ _ (fun k p => chk_mark (nth k (c_colind m) 0) p)).
      2:{ intros k t Hk. apply in_seq in Hk. rewrite (vget_ok _ 0) by lia. reflexivity. }
      rewrite <- (forL_map (fun k => nth k (c_colind m) 0) (seq a (b - a)) chk_mark). rewrite <- Hcols.
      assert (Hun : forall p, forR a b (fun k p => do col <- vget (c_colind m) k ;; vset p col 0) p =
                    forL (map fst (crs_row m i)) (fun j p => vset p j 0) p).
      { intros p. rewrite Hcols, forL_map, forR_forL. apply forL_ext_in. intros k t Hk. apply in_seq in Hk.
        rewrite (vget_ok _ 0) by lia. reflexivity. }
      assert (Hiff := mark_iff c (map fst (crs_row m i)) (repeat 0 c) Hlen).
      assert (Hfm : Forall (fun e => fst e < c) (crs_row m i) <-> Forall (fun j => j < c) (map fst (crs_row m i)))
        by (rewrite Forall_map; reflexivity).
      split.
      + intros E. destruct (forL (map fst (crs_row m i)) chk_mark (repeat 0 c)) as [p1| | |] eqn:E1; try discriminate.
        destruct Hiff as [Hiff _]; [intros; left; apply Hz; assumption|].
        destruct Hiff as [X1 [X2 _]]; [eauto|]. cbn [bind] in E. rewrite Hun in E.
        destruct (mark_result _ _ _ _ Hlen E1) as [L1 R1].
        rewrite (unmark_ok c) in E; [|exact L1|exact X1|].
        * apply Ok_inj in E. subst p'. split; [reflexivity|]. split; [exact Hle|]. split; [auto|].
          split; [apply Hfm; exact X1|exact X2].
        * intros j Hj Hn. rewrite R1 by exact Hj. destruct (in_dec _ _ _); [contradiction|]. apply Hz. exact Hj.
      + intros [-> [_ [_ [X1 X2]]]]. apply Hfm in X1.
        destruct Hiff as [_ Hiff]; [intros; left; apply Hz; assumption|].
        destruct Hiff as [p1 E1].
        { split; [exact X1|]. split; [exact X2|]. intros j Hj. rewrite Forall_forall in X1. apply Hz, X1, Hj. }
        rewrite E1. cbn [bind]. rewrite Hun. destruct (mark_result _ _ _ _ Hlen E1) as [L1 R1].
        apply unmark_ok; [exact L1|exact X1|].
        intros j Hj Hn. rewrite R1 by exact Hj. destruct (in_dec _ _ _); [contradiction|]. apply Hz. exact Hj.
    - (* the last index is out of range *)
      destruct (Nat.eq_dec a b) as [Eab|Nab].
      + rewrite <- Eab, Nat.sub_diag. cbn [seq forL bind]. rewrite forR_forL, Nat.sub_diag. cbn [seq forL].
        assert (Hnil : crs_row m i = []).
        { unfold crs_row. fold a b. rewrite <- Eab, Nat.sub_diag. reflexivity. }
        rewrite Hnil. split.
        * intros E. apply Ok_inj in E. subst. split; [reflexivity|]. split; [lia|]. split; [lia|]. split; constructor.
        * intros [-> _]. reflexivity.
      + split.
        * intros E. exfalso.
          assert (G : forall (f : nat -> list nat -> res (list nat)) l k s r,
            (forall t, f k t = UB) -> In k l -> forL l f s <> Ok r).
          { intros f l k s r Hf. revert s. induction l as [|y l IH]; intros s Hin X; [destruct Hin|].
            cbn [forL] in X. destruct Hin as [->|Hin].
            - rewrite Hf in X. discriminate.
            - destruct (f y s) as [t| | |]; try discriminate. cbn [bind] in X. exact (IH t Hin X). }
          match type of E with bind ?X _ = _ => destruct X as [p1| | |] eqn:E1; try discriminate end.
          apply (G _ _ (b - 1)) in E1; [exact E1| |apply in_seq; lia].
          intros t. rewrite vget_ub by lia. reflexivity.
        * intros [_ [_ [X _]]]. lia.
  Qed.

  Lemma checkValidity_iff m : rp m 0 = 0 ->
    (checkValidity R m = Ok tt <->
     0 < c_nrow m /\ 0 < c_ncol m /\ crs_wf m /\ crs_nodup m).
  Proof.
    intros H0. unfold checkValidity.
    destruct (Nat.eqb_spec (c_nrow m + 1) (length (c_rowptr m))) as [L|L].
    2:{ split; [discriminate|]. intros [Hn [_ [[[X|[X _]] _] _]]]; lia. }
    rewrite (vget_ok (c_rowptr m) 0) by lia. cbn [bind]. fold (rp m (c_nrow m)).
    destruct (Nat.eqb_spec (rp m (c_nrow m)) (length (c_colind m))) as [H1|H1].
    2:{ split; [discriminate|]. intros [_ [_ [[_ [_ [_ [X _]]]] _]]]. contradiction. }
    destruct (Nat.eqb_spec (length (c_values m)) (length (c_colind m))) as [H2|H2].
    2:{ split; [discriminate|]. intros [_ [_ [[_ [_ [_ [_ [X _]]]]] _]]]. contradiction. }
    destruct (Nat.ltb_spec 0 (c_nrow m)) as [Hn|Hn].
    2:{ split; [discriminate|]. lia. }
    destruct (Nat.ltb_spec 0 (c_ncol m)) as [Hc|Hc].
    2:{ split; [discriminate|]. lia. }
    cbn [andb]. 
    assert (L' : length (c_rowptr m) = S (c_nrow m)) by lia.
    pose proof (check_row m) as CR. cbn zeta in CR.
    split.
    - intros E. split; [exact Hn|]. split; [exact Hc|].
      match type of E with bind (forM _ _ ?F _) _ = _ => set (F0 := F) in * end.
      destruct (forM (c_nrow m) 0 F0 (repeat 0 (c_ncol m))) as [p'| | |] eqn:E1; try discriminate.
      assert (G := forM_Ok_inv (c_nrow m) F0 (fun _ p => p = repeat 0 (c_ncol m))
        (fun i => rp m i <= rp m (S i) /\ (rp m i < rp m (S i) -> rp m (S i) <= length (c_colind m)) /\
           Forall (fun e => fst e < c_ncol m) (crs_row m i) /\ NoDup (map fst (crs_row m i)))
        (repeat 0 (c_ncol m)) p' eq_refl).
      assert (GG : forall i, i < c_nrow m -> rp m i <= rp m (S i) /\ (rp m i < rp m (S i) -> rp m (S i) <= length (c_colind m)) /\
           Forall (fun e => fst e < c_ncol m) (crs_row m i) /\ NoDup (map fst (crs_row m i))).
      { apply G; [|exact E1]. intros i t t' Hi -> Ef. apply (CR i L' Hi) in Ef. tauto. }
      assert (W0 : (forall i, i < c_nrow m -> rp m i <= rp m (S i))) by (intros; apply GG; assumption).
      split.
      + split; [left; lia|]. split; [exact H0|]. split; [exact W0|]. split; [exact H1|]. split; [exact H2|].
        (* columns: every stored index lies in some row *)
        apply Forall_forall. intros col Hcol. apply (In_nth _ _ 0) in Hcol. destruct Hcol as [k [Hk <-]].
        assert (Hrow : exists i, i < c_nrow m /\ rp m i <= k < rp m (S i)).
        { rewrite <- H1 in Hk. clear - H0 Hk W0.
          assert (Gn : forall n, n <= c_nrow m -> k < rp m n -> exists i, i < n /\ rp m i <= k < rp m (S i)).
          { induction n as [|n IH]; intros Hn Hkn; [lia|].
            destruct (le_lt_dec (rp m n) k) as [Hl|Hl]; [exists n; lia|].
            destruct (IH ltac:(lia) Hl) as [i [Hi Hik]]. exists i. lia. }
          apply Gn; [lia|exact Hk]. }
        destruct Hrow as [i [Hi [Hk1 Hk2]]]. destruct (GG i Hi) as [_ [_ [HF _]]].
        rewrite Forall_forall in HF.
        apply (HF (nth k (c_colind m) 0, nth k (c_values m) c0)).
        unfold crs_row. apply in_map_iff. exists k. split; [reflexivity|]. apply in_seq. lia.
      + intros i Hi. apply GG. exact Hi.
    - intros [_ [_ [W N]]].
      loopM (fun i (p : list nat) => p = repeat 0 (c_ncol m)) as p' E H.
      + reflexivity.
      + intros i p [_ Hi] ->. simpl in Hi. exists (repeat 0 (c_ncol m)). split; [|reflexivity].
        apply (CR i L' Hi). split; [reflexivity|]. split; [apply wf_mono; auto|].
        split; [intros _; apply wf_rp_le; auto|]. split; [|apply N; exact Hi].
        apply Forall_forall. intros e He. apply (crs_row_col R m i); assumption.
      + rewrite E. reflexivity.
  Qed.
End Proofs4.
