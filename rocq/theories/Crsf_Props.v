(** Theorems about filling and assigning sparse matrices (C103). *)
From Coq Require Import Sorted ZArith.
From Verif Require Import Prelude Ring Crs_Model Crs_Spec Crs_Proofs4 Crs_Props Crsf_Model Crsf_Proofs.
Local Open Scope cring_scope.
Local Open Scope nat_scope.

(** Assigning a list of entries (row, column, value), sorted by rows and with no position twice, gives the matrix with
    these elements and zeros elsewhere, whatever the matrix was before. Within a row the columns may be in any order. *)
Theorem C103_assign : forall (R : cring) (this : crs R) (m : sparse R),
  sp_sorted m = true -> StronglySorted le (map (fun e => fst (fst e)) (sp_entries m)) -> NoDup (map fst (sp_entries m)) ->
  Forall (fun e => fst (fst e) < sp_rows m /\ snd (fst e) < sp_cols m) (sp_entries m) -> 0 < sp_rows m -> 0 < sp_cols m ->
  exists C, crs_assign R this m = Ok C /\ crs_nodup C /\ c_values C = map snd (sp_entries m) /\
    is_crs C (sp_rows m) (sp_cols m)
      (fun i j => suml (fun e => if (fst (fst e) =? i) && (snd (fst e) =? j) then snd e else c0) (sp_entries m)).
Proof.
  intros R this m Hs HS ND HB Hr Hc.
  assert (HR : Forall (fun e => fst (fst e) < sp_rows m) (sp_entries m)) by (eapply Forall_impl; [|exact HB]; cbv beta; tauto).
  destruct (assign_shape R m HS HR this Hs) as (C & E & C1 & C2 & C3 & C4 & C5 & C6).
  assert (Row : forall i, i < sp_rows m -> crs_row C i = map (fun e => (snd (fst e), snd e)) (filter (fun e => fst (fst e) =? i) (sp_entries m)))
    by (intros; apply row_filter; auto; apply C4; lia).
  assert (Z : rp C 0 = 0).
  { rewrite C4 by lia. rewrite (all_ge (fun e => fst (fst e)) 0); [reflexivity|apply Forall_forall; intros; lia|lia]. }
  assert (W : crs_wf C).
  { unfold crs_wf. rewrite C1, C2, C5, C6, !map_length. split; [auto|]. split; [auto|]. split.
    { intros i Hi. rewrite !C4 by lia. apply below_le; auto. }
    split; [rewrite C4 by lia; rewrite below_all; auto|]. split; [auto|]. apply Forall_map. eapply Forall_impl; [|exact HB]. cbv beta. tauto. }
  assert (N : crs_nodup C).
  { intros i Hi. rewrite C1 in Hi. rewrite Row, map_map by auto. cbn [fst]. clear - ND. induction (sp_entries m) as [|[[r c] v] es IH]; [constructor|].
    cbn [map fst] in ND. inversion ND; subst. cbn [filter fst]. destruct (Nat.eqb_spec r i) as [->|]; [|auto]. cbn [map fst snd]. constructor; [|auto].
    intros Hin. apply in_map_iff in Hin. destruct Hin as ([[r' c'] v'] & Q & Hin). cbn in Q. subst c'. apply filter_In in Hin. destruct Hin as (Hin & Q).
    cbn in Q. apply Nat.eqb_eq in Q. subst r'. apply H1. apply in_map_iff. exists (i, c, v'). auto. }
  exists C. rewrite E. rewrite (proj2 (checkValidity_iff R C Z)) by (rewrite C1, C2; auto). cbn [bind]. split; [reflexivity|]. split; [auto|]. split; [auto|].
  unfold is_crs. split; [auto|]. split; [auto|]. split; [auto|]. split; [auto|]. intros i j Hi Hj. unfold crs_elem. rewrite Row by auto. apply row_sum.
Qed.
(** Entries that are not sorted are refused. *)
Theorem C103_unsorted : forall (R : cring) (this : crs R) (m : sparse R), sp_sorted m = false -> crs_assign R this m = Throw.
Proof. intros R this m H. unfold crs_assign. rewrite H. reflexivity. Qed.
Print Assumptions C103_assign.

(** The factors of a product can be the matrix that is assigned: [x = x * y] gives the product. *)
Theorem C103_product : forall (R : cring) (y z : crs R), crs_wf y -> crs_wf z -> c_ncol y = c_nrow z ->
  exists x, crs_of_product R y z = Ok x /\ crs_nodup x /\
    is_crs x (c_nrow y) (c_ncol z) (fun i j => sumn (c_ncol y) (fun k => crs_elem y i k * crs_elem z k j)%C).
Proof. intros R y z Wy Wz H. destruct (C20_multiply R (crs_empty R) y z Wy Wz H) as (x & E & I & N). exists x. auto. Qed.
(** [x = t * y] gives the matrix with its elements multiplied. *)
Theorem C103_scaled : forall (R : cring) (t : R) (y : crs R), crs_wf y ->
  exists x, crs_of_scaled R t y = Ok x /\ crs_wf x /\ c_nrow x = c_nrow y /\ c_ncol x = c_ncol y /\
    forall i j, crs_elem x i j = (t * crs_elem y i j)%C.
Proof. intros R t y W. exact (proj1 (C18_scale_conjugate R y t W)). Qed.
(** swap exchanges two matrices. *)
Theorem C103_swap : forall (R : cring) (a b : crs R), crs_swap R a b = (b, a).
Proof. intros R [] []. reflexivity. Qed.

(** The product written into its own left factor by multiply(x, x, y) is zero, whatever the factors. *)
Theorem C103_left_refuted : forall (R : cring) (A B : crs R),
  multiply_shared R (fun C => C) (fun _ => B) A = Ok (crs_new R (c_nrow A) (c_ncol B)) /\
  forall i j, crs_elem (crs_new R (c_nrow A) (c_ncol B)) i j = c0.
Proof.
  intros R A B. split.
  - unfold multiply_shared. set (Z := crs_resize2 R A (c_nrow A) (c_ncol B)).
    assert (EZ : Z = crs_new R (c_nrow A) (c_ncol B)) by reflexivity.
    assert (U : forall i, i <= c_nrow A -> setRow R Z i 0 = Ok Z).
    { intros i Hi. unfold setRow, Z, crs_resize2. cbn [c_rowptr c_colind c_values c_nrow c_ncol]. rewrite vset_ok by (rewrite repeat_length; lia). cbn [bind]. do 2 f_equal.
      apply (@list_eq_nth _ _ _ 0); [rewrite upd_length; auto|]. rewrite upd_length, repeat_length. intros k Hk. destruct (Nat.eq_dec k i) as [->|]; [rewrite nth_upd_eq by (rewrite repeat_length; lia)|rewrite nth_upd_neq by auto]; rewrite nth_repeat; auto. }
    assert (V : forall i, i <= c_nrow A -> getRowPtr R Z i = Ok 0).
    { intros i Hi. unfold getRowPtr, Z, crs_resize2. cbn [c_rowptr]. rewrite (@vget_ok _ _ _ 0) by (rewrite repeat_length; lia). rewrite nth_repeat. reflexivity. }
    assert (L : forall n a st, a + n <= c_nrow A -> (exists p ix t, st = (Z, 0, p, ix, t)) ->
      forall body, (forall i p ix t, i < c_nrow A -> body i (Z, 0, p, ix, t) = Ok (Z, 0, p, ix, t)) -> @forM (crs R * nat * list (option nat) * list nat * list R) n a body st = Ok st).
    { clear. induction n as [|n IH]; intros a st Hn (p & ix & t & ->) body Hb; [reflexivity|]. cbn [forM]. rewrite Hb by lia. cbn [bind]. apply IH; eauto. lia. }
    rewrite L; [cbn [bind]; rewrite U by lia; rewrite EZ; reflexivity|lia|eauto|].
    intros i p ix t Hi. rewrite U by lia. cbn [bind]. unfold for_row. rewrite !V by lia. cbn [bind forR Nat.sub forM]. reflexivity.
  - intros i j. unfold crs_elem, crs_row, crs_new, crs_resize2, rp. cbn [c_rowptr]. rewrite !nth_repeat. reflexivity.
Qed.
(** multiply without sharing is the product of C20. *)
Theorem C103_not_shared : forall (R : cring) (C A B : crs R), multiply_shared R (fun _ => A) (fun _ => B) C = multiply R C A B.
Proof. reflexivity. Qed.
(** Written into its right factor, it is zero too, if it has as many rows. *)
Theorem C103_right_refuted : forall (R : cring) (A B : crs R), crs_wf A -> c_ncol A = c_nrow B -> c_nrow A = c_nrow B -> 0 < c_nrow A ->
  multiply_shared R (fun _ => A) (fun C => C) B = Ok (crs_new R (c_nrow A) (c_ncol B)).
Proof.
  intros R A B W HC HR Hn. unfold multiply_shared. set (Z := crs_resize2 R B (c_nrow A) (c_ncol B)).
  assert (EZ : Z = crs_new R (c_nrow A) (c_ncol B)) by reflexivity.
  assert (U : forall i, i <= c_nrow A -> setRow R Z i 0 = Ok Z).
  { intros i Hi. unfold setRow, Z, crs_resize2. cbn [c_rowptr c_colind c_values c_nrow c_ncol]. rewrite vset_ok by (rewrite repeat_length; lia). cbn [bind]. do 2 f_equal.
    apply (@list_eq_nth _ _ _ 0); [rewrite upd_length; auto|]. rewrite upd_length, repeat_length. intros k Hk. destruct (Nat.eq_dec k i) as [->|]; [rewrite nth_upd_eq by (rewrite repeat_length; lia)|rewrite nth_upd_neq by auto]; rewrite nth_repeat; auto. }
  assert (V : forall i, i <= c_nrow A -> getRowPtr R Z i = Ok 0).
  { intros i Hi. unfold getRowPtr, Z, crs_resize2. cbn [c_rowptr]. rewrite (@vget_ok _ _ _ 0) by (rewrite repeat_length; lia). rewrite nth_repeat. reflexivity. }
  assert (L : forall n a st, a + n <= c_nrow A -> (exists p ix t, st = (Z, 0, p, ix, t)) ->
    forall body, (forall i p ix t, i < c_nrow A -> body i (Z, 0, p, ix, t) = Ok (Z, 0, p, ix, t)) -> @forM (crs R * nat * list (option nat) * list nat * list R) n a body st = Ok st).
  { clear. induction n as [|n IH]; intros a st Hl (p & ix & t & ->) body Hb; [reflexivity|]. cbn [forM]. rewrite Hb by lia. cbn [bind]. apply IH; eauto. lia. }
  rewrite L; [cbn [bind]; rewrite U by lia; rewrite EZ; reflexivity|lia|eauto|].
  intros i p ix t Hi. rewrite U by lia. cbn [bind].
  destruct W as (W1 & W2 & W3 & W4 & W5 & W6). assert (LR : length (c_rowptr A) = S (c_nrow A)) by (destruct W1 as [|(? & _)]; [auto|lia]).
  assert (Mono : forall k, k <= c_nrow A -> rp A k <= rp A (c_nrow A)).
  { intros k Hk. assert (G : forall d k, k + d = c_nrow A -> rp A k <= rp A (c_nrow A)).
    { induction d as [|d IHd]; intros k' E; [rewrite Nat.add_0_r in E; subst; auto|]. etransitivity; [apply W3; lia|]. apply IHd. lia. }
    apply (G (c_nrow A - k)). lia. }
  unfold for_row, getRowPtr at 1 2. rewrite !(@vget_ok _ _ _ 0) by lia. cbn [bind].
  fold (rp A i). fold (rp A (i + 1)).
  assert (F : forall body, (forall j, j < length (c_colind A) -> body j (0, p, ix, t) = Ok (0, p, ix, t)) ->
    @forR (nat * list (option nat) * list nat * list R) (rp A i) (rp A (i + 1)) body (0, p, ix, t) = Ok (0, p, ix, t)).
  { intros body Hb. assert (G : forall n a, a + n <= length (c_colind A) -> forM n a body (0, p, ix, t) = Ok (0, p, ix, t)).
    { induction n as [|n IH]; intros a Ha; [reflexivity|]. cbn [forM]. rewrite Hb by lia. cbn [bind]. apply IH. lia. }
    unfold forR. apply G. pose proof (Mono i ltac:(lia)). pose proof (Mono (i + 1) ltac:(lia)). rewrite <- W4. lia. }
  rewrite F.
  - cbn [bind forM]. reflexivity.
  - intros j Hj. unfold getCol. rewrite (@vget_ok _ _ _ 0) by auto. cbn [bind].
    assert (nth j (c_colind A) 0 < c_ncol A) by (apply Forall_nth; auto).
    rewrite !V by lia. cbn [bind forR Nat.sub forM]. reflexivity.
Qed.
Print Assumptions C103_left_refuted.
Print Assumptions C103_right_refuted.

(** setCol_check and setValues_check do not append at the end: storing at the first place that is not there is undefined,
    and storing at the second puts it in the first. *)
Theorem C103_append_refuted : forall (R : cring) (m : crs R) (c : nat) (v : R),
  setCol_check R m (length (c_colind m)) c = UB /\ setValues_check R m (length (c_values m)) v = UB /\
  (exists m', setCol_check R m (S (length (c_colind m))) c = Ok m' /\ nth_error (c_colind m') (length (c_colind m)) = Some c /\
     nth_error (c_colind m') (S (length (c_colind m))) = None) /\
  (exists m', setValues_check R m (S (length (c_values m))) v = Ok m' /\ nth_error (c_values m') (length (c_values m)) = Some v /\
     nth_error (c_values m') (S (length (c_values m))) = None).
Proof.
  intros R m c v. unfold setCol_check, setValues_check. split; [|split; [|split]].
  - destruct (Nat.eqb_spec (length (c_colind m)) (length (c_colind m) + 1)); [lia|]. unfold setCol, vset. rewrite Nat.ltb_irrefl. reflexivity.
  - destruct (Nat.eqb_spec (length (c_values m)) (length (c_values m) + 1)); [lia|]. unfold setValues, vset. rewrite Nat.ltb_irrefl. reflexivity.
  - rewrite Nat.add_1_r, Nat.eqb_refl. eexists. split; [reflexivity|]. cbn [pushCol c_colind]. split; [rewrite nth_error_app2, Nat.sub_diag by lia; auto|].
    apply nth_error_None. rewrite app_length. cbn. lia.
  - rewrite Nat.add_1_r, Nat.eqb_refl. eexists. split; [reflexivity|]. cbn [pushValue c_values]. split; [rewrite nth_error_app2, Nat.sub_diag by lia; auto|].
    apply nth_error_None. rewrite app_length. cbn. lia.
Qed.
(** At a place that is there, they store. *)
Theorem C103_set_partial : forall (R : cring) (m : crs R) n (c : nat) (v : R), n < length (c_colind m) -> length (c_values m) = length (c_colind m) ->
  setCol_check R m n c = Ok (mkcrs (c_rowptr m) (upd (c_colind m) n c) (c_values m) (c_nrow m) (c_ncol m)) /\
  setValues_check R m n v = Ok (mkcrs (c_rowptr m) (c_colind m) (upd (c_values m) n v) (c_nrow m) (c_ncol m)).
Proof.
  intros R m n c v Hn HL. unfold setCol_check, setValues_check. split.
  - destruct (Nat.eqb_spec n (length (c_colind m) + 1)); [lia|]. unfold setCol. rewrite vset_ok by auto. reflexivity.
  - destruct (Nat.eqb_spec n (length (c_values m) + 1)); [lia|]. unfold setValues. rewrite vset_ok by lia. reflexivity.
Qed.
Print Assumptions C103_append_refuted.

(** Four entries of a three by three matrix, one row of which is empty; the square of a matrix and what multiply(x, x, x)
    would be with each sharing *)
Example C103_nonvacuous :
  let m := @mksparse Zring true 3 3 [(0, 2, 5%Z); (0, 1, 4%Z); (2, 0, 7%Z); (2, 2, 8%Z)] in
  let C := @mkcrs Zring [0; 2; 2; 4] [2; 1; 0; 2] [5; 4; 7; 8]%Z 3 3 in
  crs_assign Zring (@mkcrs Zring [0; 1] [0] [9]%Z 1 1) m = Ok C /\
  StronglySorted le (map (fun e => fst (fst e)) (sp_entries m)) /\ NoDup (map fst (sp_entries m)) /\
  crs_assign Zring C (@mksparse Zring true 2 2 [(0, 0, 5%Z); (2, 0, 6%Z)]) = UB /\
  crs_of_product Zring C C = Ok (@mkcrs Zring [0; 2; 2; 5] [0; 2; 2; 1; 0] [35; 40; 99; 28; 56]%Z 3 3) /\
  multiply_shared Zring (fun C => C) (fun _ => C) C = Ok (crs_new Zring 3 3).
Proof.
  cbv zeta. split; [vm_compute; reflexivity|]. split; [cbn; repeat constructor|]. split; [|vm_compute; auto].
  cbn. repeat constructor; cbn; intuition congruence.
Qed.
