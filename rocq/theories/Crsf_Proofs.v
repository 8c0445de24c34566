(** Proofs about filling and assigning sparse matrices. *)
From Coq Require Import Sorted.
From Verif Require Import Prelude Ring Crs_Model Crs_Spec Crs_Proofs4 Crsf_Model.

(** ** Entries sorted by rows *)
Section SortedEntries.
  Context {E : Type}.
  Variable f : E -> nat.
  Definition below (i : nat) (es : list E) : list E := filter (fun e => f e <? i) es.
  Lemma all_ge a l : Forall (le a) (map f l) -> forall i, i <= a -> below i l = [].
  Proof.
    induction l as [|x l IH]; intros H i Hi; [reflexivity|]. cbn [map] in H. inversion H; subst. unfold below. cbn [filter].
    destruct (Nat.ltb_spec (f x) i); [lia|]. apply IH; auto.
  Qed.
  Lemma below_split es i : StronglySorted le (map f es) -> es = below i es ++ filter (fun e => negb (f e <? i)) es.
  Proof.
    induction es as [|x es IH]; intros S; [reflexivity|]. cbn [map] in S. inversion S; subst. unfold below. cbn [filter].
    destruct (Nat.ltb_spec (f x) i) as [L|L]; cbn [negb app].
    - f_equal. apply IH. auto.
    - fold (below i es). rewrite (all_ge (f x)) by auto. cbn [app]. f_equal. rewrite (IH H1) at 1. rewrite (all_ge (f x)) by auto. reflexivity.
  Qed.
  Lemma below_S es i : StronglySorted le (map f es) -> below (S i) es = below i es ++ filter (fun e => f e =? i) es.
  Proof.
    induction es as [|x es IH]; intros S; [reflexivity|]. cbn [map] in S. inversion S; subst. unfold below. cbn [filter].
    fold (below (Datatypes.S i) es). fold (below i es). specialize (IH H1).
    destruct (Nat.ltb_spec (f x) i), (Nat.ltb_spec (f x) (Datatypes.S i)), (Nat.eqb_spec (f x) i); try lia; cbn [app].
    - rewrite IH. reflexivity.
    - rewrite IH. rewrite (all_ge (f x) es H2 i) by lia. reflexivity.
    - exact IH.
  Qed.
  Lemma below_nth es i k e : StronglySorted le (map f es) -> nth_error es k = Some e -> (f e < i <-> k < length (below i es)).
  Proof.
    intros S Ek. split; intros H.
    - destruct (Nat.lt_ge_cases k (length (below i es))); auto. rewrite (below_split es i S), nth_error_app2 in Ek by auto.
      apply nth_error_In, filter_In in Ek. destruct Ek as (_ & Ek). apply negb_true_iff, Nat.ltb_ge in Ek. lia.
    - rewrite (below_split es i S), nth_error_app1 in Ek by auto. apply nth_error_In, filter_In in Ek. apply Nat.ltb_lt. apply Ek.
  Qed.
  Lemma below_all es n : Forall (fun e => f e < n) es -> below n es = es.
  Proof.
    induction 1 as [|x es Hx _ IH]; [reflexivity|]. unfold below. cbn [filter]. destruct (Nat.ltb_spec (f x) n); [|lia]. f_equal. exact IH.
  Qed.
  Lemma below_le es i : StronglySorted le (map f es) -> length (below i es) <= length (below (S i) es).
  Proof. intros S. rewrite (below_S es i S), app_length. lia. Qed.
  Lemma below_max es i : length (below i es) <= length es.
  Proof. unfold below. induction es as [|x es IH]; [auto|]. cbn [filter length]. destruct (f x <? i); cbn [length]; lia. Qed.
End SortedEntries.

Lemma segment {A B} (g : nat -> B) (l1 l2 l3 : list A) (d : A) (h : A -> B) :
  (forall k, k < length (l1 ++ l2 ++ l3) -> g k = h (nth k (l1 ++ l2 ++ l3) d)) ->
  map g (seq (length l1) (length l2)) = map h l2.
Proof.
  intros H. apply (@list_eq_nth _ _ _ (h d)); [rewrite !map_length, seq_length; auto|]. intros k Hk. rewrite map_length, seq_length in Hk.
  rewrite (map_nth h). rewrite nth_indep with (d' := g 0) by (rewrite map_length, seq_length; auto). rewrite (map_nth g), seq_nth by auto.
  rewrite H by (rewrite !app_length; lia). f_equal. rewrite app_nth2, app_nth1 by lia. f_equal. lia.
Qed.

Section Fill.
  Variable R : cring.
  Local Open Scope cring_scope.
  Notation row := (fun e : nat * nat * R => fst (fst e)).
  Notation col := (fun e : nat * nat * R => snd (fst e)).

  (** ** The assignment *)
  Section Assign.
    Variable m : sparse R.
    Notation es := (sp_entries m).
    Notation nnz := (length (sp_entries m)).
    Notation lo i := (length (below row i (sp_entries m))).
    Hypothesis HS : StronglySorted le (map row es).
    Hypothesis HR : Forall (fun e => row e < sp_rows m) es.

    (** After c entries *)
    Definition filled (c : nat) (C : crs R) : Prop :=
      c_nrow C = sp_rows m /\ c_ncol C = sp_cols m /\ length (c_rowptr C) = S (sp_rows m) /\
      length (c_colind C) = nnz /\ length (c_values C) = nnz /\
      forall k e, k < c -> nth_error es k = Some e -> nth k (c_colind C) 0%nat = col e /\ nth k (c_values C) c0 = snd e.

    Lemma assign_row_ok i fuel : forall C c, lo i <= c -> c <= lo (S i) -> lo (S i) - c < fuel -> filled c C ->
      exists C', assign_row R fuel m i C c = Ok (C', lo (S i)) /\ filled (lo (S i)) C' /\ c_rowptr C' = c_rowptr C.
    Proof.
      induction fuel as [|fuel IH]; intros C c H1 H2 H3 HF; [lia|]. cbn [assign_row].
      pose proof (below_max row es (S i)) as HM.
      destruct (Nat.ltb_spec c nnz) as [L|L]; cbn [negb].
      - unfold vget. destruct (nth_error es c) as [[rc v]|] eqn:Ee; [|apply nth_error_None in Ee; lia]. cbn [bind].
        pose proof (below_nth row es i c _ HS Ee) as B1. pose proof (below_nth row es (S i) c _ HS Ee) as B2. cbn [fst] in B1, B2.
        destruct (Nat.eqb_spec (fst rc) i) as [Q|Q]; cbn [negb].
        + destruct HF as (F1 & F2 & F3 & F4 & F5 & F6). unfold setCol. rewrite vset_ok by lia. cbn [bind]. unfold setValues. rewrite vset_ok by (cbn; lia). cbn [bind].
          assert (c < lo (S i)) by (apply B2; lia).
          edestruct (IH (mkcrs (c_rowptr C) (upd (c_colind C) c (snd rc)) (upd (c_values C) c v) (c_nrow C) (c_ncol C)) (S c)) as (C' & EC & FC & RC); [lia|lia|lia| |].
          * unfold filled. cbn. rewrite !upd_length. repeat split; auto.
            all: destruct (Nat.eq_dec k c) as [->|Nk].
            -- rewrite nth_upd_eq by lia. rewrite Ee in H4. injection H4 as <-. reflexivity.
            -- rewrite nth_upd_neq by auto. apply (F6 k e); auto. lia.
            -- rewrite nth_upd_eq by lia. rewrite Ee in H4. injection H4 as <-. reflexivity.
            -- rewrite nth_upd_neq by auto. apply (F6 k e); auto. lia.
          * exists C'. cbn [c_rowptr c_colind c_values c_nrow c_ncol] in *. auto.
        + assert (c = lo (S i)) as ->; [|eauto]. assert (~ (fst rc < i)) by (rewrite B1; lia).
          destruct (Nat.lt_ge_cases c (lo (S i))); [|lia]. assert (fst rc < S i) by (apply B2; auto). lia.
      - assert (c = lo (S i)) as -> by lia. eauto.
    Qed.

    Lemma rows_ok (this : crs R) : exists C,
      forM (sp_rows m) 0 (fun i '(C, counter) => do C <- setRow R C i counter ;; assign_row R (S nnz) m i C counter)
        (crs_resize3 R (crs_clear R this) (sp_rows m) (sp_cols m) nnz, 0%nat) = Ok (C, lo (sp_rows m)) /\
      filled (lo (sp_rows m)) C /\ forall i, i < sp_rows m -> nth i (c_rowptr C) 0%nat = lo i.
    Proof.
      loopM (fun i (st : crs R * nat) => snd st = lo i /\ filled (lo i) (fst st) /\ forall i', i' < i -> nth i' (c_rowptr (fst st)) 0%nat = lo i') as st Est H.
      - cbn [fst snd]. assert (Z : below row 0 es = []) by (apply (all_ge row 0); [apply Forall_forall; intros; lia|lia]). rewrite Z. cbn [length].
        split; [reflexivity|]. split; [|intros; lia]. unfold filled, crs_resize3. cbn [c_nrow c_ncol c_rowptr c_colind c_values crs_clear].
        rewrite !vresize_length. repeat split; auto; try lia.
      - intros i [C c] Hi (Hc & HF & Hr). cbn [fst snd] in *. subst c.
        pose proof HF as (F1 & F2 & F3 & F4 & F5 & F6). unfold setRow. rewrite vset_ok by lia. cbn [bind].
        edestruct (assign_row_ok i (S nnz) (mkcrs (upd (c_rowptr C) i (lo i)) (c_colind C) (c_values C) (c_nrow C) (c_ncol C)) (lo i)) as (C' & EC & FC & RC).
        + lia.
        + apply below_le; auto.
        + pose proof (below_max row es (S i)). lia.
        + unfold filled. cbn. rewrite upd_length. repeat split; auto; apply (F6 k e); auto.
        + rewrite EC. eexists. split; [reflexivity|]. cbn [fst snd]. split; [reflexivity|]. split; [auto|]. intros i' Hi'. rewrite RC. cbn [c_rowptr].
          destruct (Nat.eq_dec i' i) as [->|Ni]; [rewrite nth_upd_eq by lia; auto|]. rewrite nth_upd_neq by auto. apply Hr. lia.
      - destruct st as [C c]. cbn [fst snd Nat.add] in *. destruct H as (-> & HF & Hr). eauto.
    Qed.

    Lemma assign_shape (this : crs R) : sp_sorted m = true -> exists C,
      crs_assign R this m = (do _ <- checkValidity R C ;; Ok C) /\
      c_nrow C = sp_rows m /\ c_ncol C = sp_cols m /\ length (c_rowptr C) = S (sp_rows m) /\
      (forall i, i <= sp_rows m -> rp C i = lo i) /\
      c_colind C = map col es /\ c_values C = map snd es.
    Proof.
      intros Hs. unfold crs_assign. rewrite Hs. cbn [negb]. destruct (rows_ok this) as (C & E & HF & Hr). rewrite E. cbn [bind].
      destruct HF as (F1 & F2 & F3 & F4 & F5 & F6). unfold setRow. rewrite vset_ok by lia. cbn [bind].
      eexists. split; [reflexivity|]. cbn [c_nrow c_ncol c_rowptr c_colind c_values]. rewrite upd_length. split; [auto|]. split; [auto|]. split; [auto|].
      assert (Hall : lo (sp_rows m) = nnz) by (rewrite below_all; auto). split; [|split].
      - intros i Hi. unfold rp. cbn [c_rowptr]. destruct (Nat.eq_dec i (sp_rows m)) as [->|]; [rewrite nth_upd_eq by lia; auto|]. rewrite nth_upd_neq by auto. apply Hr. lia.
      - apply (@list_eq_nth _ _ _ 0%nat); [rewrite map_length; auto|]. intros k Hk. destruct (nth_error es k) as [e|] eqn:Ee; [|apply nth_error_None in Ee; lia].
        destruct (F6 k e ltac:(lia) Ee) as (-> & _). symmetry. apply nth_error_nth. rewrite nth_error_map, Ee. reflexivity.
      - apply (@list_eq_nth _ _ _ c0); [rewrite map_length; auto|]. intros k Hk. destruct (nth_error es k) as [e|] eqn:Ee; [|apply nth_error_None in Ee; lia].
        destruct (F6 k e ltac:(lia) Ee) as (_ & ->). symmetry. apply nth_error_nth. rewrite nth_error_map, Ee. reflexivity.
    Qed.
  End Assign.

  Lemma row_filter (m : sparse R) (C : crs R) i : StronglySorted le (map row (sp_entries m)) ->
    rp C i = length (below row i (sp_entries m)) -> rp C (S i) = length (below row (S i) (sp_entries m)) ->
    c_colind C = map col (sp_entries m) -> c_values C = map snd (sp_entries m) ->
    crs_row C i = map (fun e => (col e, snd e)) (filter (fun e => (row e =? i)%nat) (sp_entries m)).
  Proof.
    intros S R1 R2 Cc Cv. unfold crs_row. rewrite R1, R2, Cc, Cv. set (es := sp_entries m) in *.
    pose proof (below_S row es i S) as B. rewrite B, app_length.
    rewrite Nat.add_comm, Nat.add_sub.
    apply (segment _ _ _ (filter (fun e => negb (row e <? Datatypes.S i)) es) (0%nat, 0%nat, c0)). rewrite app_assoc, <- B, <- below_split by auto.
    intros k Hk. cbn [fst snd]. f_equal.
    - rewrite nth_indep with (d' := col (0%nat, 0%nat, c0)) by (rewrite map_length; auto). apply (map_nth col).
    - rewrite nth_indep with (d' := snd (0%nat, 0%nat, c0)) by (rewrite map_length; auto). apply (map_nth snd).
  Qed.
  Lemma row_sum (es : list (nat * nat * R)) i j :
    row_elem (map (fun e => (col e, snd e)) (filter (fun e => (row e =? i)%nat) es)) j =
    suml (fun e => if ((row e =? i) && (col e =? j))%nat then snd e else c0) es.
  Proof.
    unfold row_elem. induction es as [|e es IH]; [reflexivity|]. cbn [filter suml]. destruct (row e =? i)%nat eqn:Q; cbn [andb map suml].
    - rewrite <- IH. reflexivity.
    - rewrite <- IH, cadd_0_l. reflexivity.
  Qed.
End Fill.
