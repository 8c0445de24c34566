(** C32, C33 sparse vectors; C34, C35 sparse rows; C77 chunks and partitions of
    sparse vectors; C78 sparse vector arithmetic. *)
From Verif Require Import Prelude Ring Sort_Model Sort_Spec Sort_Proofs Crs_Model Crs_Spec
  Sparse_Model Sparse_Spec Crs_Base Crs_Proofs Sparse_Proofs.
Local Open Scope nat_scope.
Local Open Scope cring_scope.

(** The additions [l], in order, to a vector, a row and a cached row. *)
Definition sv_adds {R : cring} (l : list (nat * R)) (s : svec R) : svec R :=
  fold_left (fun s e => snd (sv_add R s (fst e) (snd e))) l s.
Definition sr_adds {R : cring} (l : list (nat * R)) (r : srow R) : srow R :=
  fold_left (fun r e => sr_add R r (fst e) (snd e)) l r.
Definition rc_adds {R : cring} (l : list (nat * R)) (r : srowc R) : res (srowc R) :=
  forL l (fun e r => rc_add R r (fst e) (snd e)) r.

Lemma sv_adds_ok (R : cring) (l : list (nat * R)) (s : svec R) : sv_wf s ->
  sv_wf (sv_adds l s) /\ sv_size (sv_adds l s) = sv_size s /\
  sv_entries (sv_adds l s) = sv_entries s ++ l /\ (l <> [] -> sv_sorted (sv_adds l s) = false).
Proof.
  revert s. induction l as [|[k x] l IH]; intros s W.
  - rewrite app_nil_r. split; [exact W|]. split; [reflexivity|]. split; [reflexivity|]. congruence.
  - destruct (sv_add_ok R s k x W) as [W' [S' [Z' [_ E']]]].
    change (sv_adds ((k, x) :: l) s) with (sv_adds l (snd (sv_add R s k x))).
    destruct (IH _ W') as [A [B [C D]]]. split; [exact A|]. split; [congruence|]. split.
    + rewrite C, E', <- app_assoc. reflexivity.
    + intros _. destruct l as [|e l]; [exact S'|]. apply D. discriminate.
Qed.

Lemma sr_adds_ok (R : cring) (l : list (nat * R)) (r : srow R) :
  sr_adds l r = (fst r ++ map fst l, snd r ++ map snd l).
Proof.
  revert r. induction l as [|[k x] l IH]; intros [c v]; simpl.
  - rewrite !app_nil_r. reflexivity.
  - unfold sr_adds in *. rewrite IH. unfold sr_add. simpl. rewrite <- !app_assoc. reflexivity.
Qed.

Lemma rc_adds_ok (R : cring) (l : list (nat * R)) (r : srowc R) : rc_ok r ->
  exists r', rc_adds l r = Ok r' /\ rc_ok r' /\ rc_entries r' = rc_entries r ++ l.
Proof.
  revert r. induction l as [|[k x] l IH]; intros r W.
  - exists r. rewrite app_nil_r. split; [reflexivity|]. auto.
  - unfold rc_adds in *. simpl. destruct (rc_add_ok R r k x W) as [r1 [E1 [W1 N1]]]. rewrite E1. cbn [bind].
    destruct (IH r1 W1) as [r' [E' [W' N']]]. exists r'. split; [exact E'|]. split; [exact W'|].
    rewrite N', N1, <- app_assoc. reflexivity.
Qed.

(** C32. *)
Theorem C32_sort_partial : forall (R : cring) srt (big : R -> bool) (l : list (nat * R)) (n : nat),
  stdsort_ok Nat.ltb srt -> big c0 = false -> (2 <= length l)%nat ->
  exists s', sv_sort R srt big (sv_adds l (sv_new R n)) = Ok s' /\
    sv_normal s' /\ sv_size s' = n /\
    (forall k, sv_elem s' k = if big (row_elem l k) then row_elem l k else c0) /\
    (forall x, In x (sv_values s') -> big x = true) /\
    (forall k, In k (sv_indices s') -> In k (map fst l)).
Proof.
  intros R srt big l n Hsrt Hb Hl.
  destruct (sv_adds_ok R l (sv_new R n) eq_refl) as [W [Z [E N]]].
  assert (EL : sv_entries (sv_adds l (sv_new R n)) = l) by exact E.
  assert (L : length (sv_indices (sv_adds l (sv_new R n))) = length l).
  { rewrite <- EL at 2. unfold sv_entries. rewrite combine_length. unfold sv_wf in W. lia. }
  destruct (sv_sort_ok R srt Hsrt big (sv_adds l (sv_new R n)) W) as [s' [out [E1 [HM [HE [HN HZ]]]]]].
  { apply N. destruct l; [simpl in Hl; lia|discriminate]. }
  { lia. }
  rewrite EL in HM. exists s'. split; [exact E1|]. split; [exact HN|]. split; [rewrite HZ; exact Z|].
  assert (W' : sv_wf s') by apply HN.
  split; [|split].
  - intros k. unfold sv_elem. rewrite HE. apply filter_merge_elem; assumption.
  - intros x Hx. rewrite <- (combine_snd R (sv_indices s') (sv_values s') W') in Hx.
    apply in_map_iff in Hx. destruct Hx as [e [<- He]]. unfold sv_entries in HE. rewrite HE in He.
    apply filter_In in He. apply He.
  - intros k Hk. rewrite <- (combine_fst R (sv_indices s') (sv_values s') W') in Hk.
    apply in_map_iff in Hk. destruct Hk as [e [<- He]]. unfold sv_entries in HE. rewrite HE in He.
    apply filter_In in He. destruct HM as [_ [HM _]]. apply HM. apply in_map. apply He.
Qed.
Print Assumptions C32_sort_partial.

(** With an exact zero test the represented vector is unchanged, whatever the
    state of the vector, as long as it is not already marked as sorted. *)
Theorem C32_sort_exact_partial : forall (R : cring) srt (s : svec R),
  stdsort_ok Nat.ltb srt -> sv_wf s -> sv_sorted s = false -> (2 <= length (sv_indices s))%nat ->
  exists s', sv_sort R srt (fun x => negb (ceqb x c0)) s = Ok s' /\ sv_normal s' /\
    (forall k, sv_elem s' k = sv_elem s k) /\ ~ In c0 (sv_values s').
Proof.
  intros R srt s Hsrt W Hns Hl.
  destruct (sv_sort_ok R srt Hsrt (fun x => negb (ceqb x c0)) s W Hns Hl) as [s' [out [E1 [HM [HE [HN HZ]]]]]].
  exists s'. split; [exact E1|]. split; [exact HN|]. split.
  - intros k. unfold sv_elem. rewrite HE.
    etransitivity; [apply (filter_merge_elem R (fun x => negb (ceqb x c0)) (sv_entries s) out k HM);
                    rewrite ceqb_refl; reflexivity|].
    destruct (ceqb_spec R (row_elem (sv_entries s) k) c0) as [E|E]; [simpl; congruence|reflexivity].
  - intros H. rewrite <- (combine_snd R (sv_indices s') (sv_values s') (proj1 HN)) in H.
    apply in_map_iff in H. destruct H as [e [Ee He]]. unfold sv_entries in HE. rewrite HE in He.
    apply filter_In in He. destruct He as [_ He]. rewrite Ee, ceqb_refl in He. discriminate.
Qed.
Print Assumptions C32_sort_exact_partial.

(** sort() keeps a zero when there is only one entry, and does not mark the
    vector as sorted, so that operator== and scalarProduct then fail their asserts. *)
Theorem C32_single_zero_refuted : exists s : svec Zring,
  s = sv_adds [(3%nat, 0%Z)] (sv_new Zring 5) /\
  sv_sort Zring (isort Nat.ltb) (fun x => negb (Z.eqb x 0)) s = Ok s /\
  In 0%Z (sv_values s) /\ sv_sorted s = false /\
  sv_eqb Zring (fun x => Z.eqb x 0) s s = UB.
Proof.
  eexists. split; [reflexivity|]. split; [reflexivity|]. split; [left; reflexivity|].
  split; reflexivity.
Qed.
Print Assumptions C32_single_zero_refuted.

(** Filling a vector that was sorted before from a chunk leaves it marked as
    sorted, so that sort() keeps its zeros. *)
Theorem C32_sort_after_fromChunk_refuted : exists s s1 s2 : svec Zring,
  sv_sort Zring (isort Nat.ltb) (fun x => negb (Z.eqb x 0))
    (sv_adds [(3%nat, 1%Z); (1%nat, 1%Z)] (sv_new Zring 5)) = Ok s /\
  sv_fromChunk Zring s [7; 0; 0]%Z 1 5 = Ok s1 /\
  sv_sort Zring (isort Nat.ltb) (fun x => negb (Z.eqb x 0)) s1 = Ok s2 /\
  In 0%Z (sv_values s2).
Proof.
  eexists _, _, _. split; [vm_compute; reflexivity|]. split; [vm_compute; reflexivity|].
  split; [vm_compute; reflexivity|]. right. left. reflexivity.
Qed.
Print Assumptions C32_sort_after_fromChunk_refuted.

Example C32_nonvacuous :
  sv_sort Zring (isort Nat.ltb) (fun x => negb (Z.eqb x 0))
    (sv_adds [(3, 1%Z); (1, 4%Z); (3, 2%Z); (2, 5%Z); (2, (-5)%Z); (0, 9%Z)]%nat (sv_new Zring 5)) =
  Ok (mksv [9; 4; 3]%Z [0; 1; 3]%nat 5 true).
Proof. vm_compute. reflexivity. Qed.

(** C33. *)
Theorem C33_scalarProduct : forall (R : cring) (s v : svec R) (n : nat),
  sv_normal s -> sv_normal v -> Forall (fun k => (k < n)%nat) (sv_indices s) ->
  sv_scalarProduct R s v = Ok (sumn n (fun k => sv_elem s k * cconj (sv_elem v k))).
Proof.
  intros R s v n [Ws [Os Ss]] [Wv [Ov Sv]] HF.
  rewrite sv_scalarProduct_ok by auto. f_equal. symmetry. unfold sumn.
  assert (G : suml (fun k => sv_elem s k * cconj (sv_elem v k)) (seq 0 n) =
              suml (fun k => sv_elem s k * cconj (sv_elem v k))
                (filter (fun k => if in_dec Nat.eq_dec k (sv_indices s) then true else false) (seq 0 n))).
  { rewrite suml_filter. apply suml_ext. intros k. destruct (in_dec Nat.eq_dec k (sv_indices s)) as [|Hn]; [reflexivity|].
    rewrite elem_notin by assumption. apply cmul_0_l. }
  rewrite G. apply suml_perm. apply NoDup_Permutation.
  - apply NoDup_filter. apply seq_NoDup.
  - apply sorted_nodup. exact Ss.
  - intros k. rewrite filter_In, in_seq. rewrite Forall_forall in HF.
    destruct (in_dec Nat.eq_dec k (sv_indices s)) as [H|H].
    + specialize (HF k H). split; [auto|]. intros _. split; [lia|reflexivity].
    + split; [intros [_ H']; discriminate|]. intros H'. contradiction.
Qed.
Print Assumptions C33_scalarProduct.

(** One-entry vectors may also be used before being sorted. *)
Theorem C33_scalarProduct_single : forall (R : cring) (k q : nat) (x y : R) n,
  sv_scalarProduct R (sv_adds [(k, x)] (sv_new R n)) (sv_adds [(q, y)] (sv_new R n)) =
    Ok (if (k =? q)%nat then x * cconj y else c0).
Proof.
  intros. rewrite sv_scalarProduct_ok; try reflexivity; try (left; reflexivity); try (repeat constructor).
  unfold sv_adds, sv_elem, sv_entries, row_elem. simpl. rewrite Nat.eqb_refl. f_equal.
  rewrite (Nat.eqb_sym k q).
  rewrite !cadd_0_r. destruct (q =? k)%nat; rewrite ?cadd_0_r, ?cconj_0, ?cmul_0_r; reflexivity.
Qed.
Print Assumptions C33_scalarProduct_single.

(** Equality is right for two normalised vectors with the same number of stored entries. *)
Theorem C33_equality_partial : forall (R : cring) (small : R -> bool) (s v : svec R),
  (forall x, small x = true <-> x = c0) ->
  sv_normal s -> sv_normal v -> length (sv_indices s) = length (sv_indices v) ->
  exists b, sv_eqb R small s v = Ok b /\ (b = true <-> sv_entries s = sv_entries v).
Proof.
  intros R small s v Hsm [Ws [Os Ss]] [Wv [Ov Sv]] HL.
  destruct (sv_eqb_ok R small s v Ws Wv Os Ov) as [b [E H]]; [lia|].
  exists b. split; [exact E|]. rewrite H. unfold sv_wf, sv_entries in *. split.
  - intros HA. f_equal.
    + apply (list_eq_nth _ _ 0%nat); [exact HL|]. intros i Hi. apply HA. lia.
    + apply (list_eq_nth _ _ c0); [lia|]. intros i Hi. destruct (HA i) as [_ Hs]; [lia|].
      apply Hsm in Hs. set (a := nth i (sv_values s) c0) in *. set (b' := nth i (sv_values v) c0) in *.
      pose proof (c_ring R) as CR. destruct CR as [_ Ac Aa _ _ _ _ Sd Op].
      rewrite Sd in Hs. rewrite <- (cadd_0_r R a), <- (Op b'), (Ac b'), Aa, Hs, cadd_0_l. reflexivity.
  - intros HE i Hi. assert (Ei : sv_indices s = sv_indices v).
    { rewrite <- (combine_fst R _ _ Ws), HE. apply combine_fst. exact Wv. }
    assert (Ev : sv_values s = sv_values v).
    { rewrite <- (combine_snd R _ _ Ws), HE. apply combine_snd. exact Wv. }
    rewrite Ei, Ev. split; [reflexivity|]. apply Hsm. pose proof (c_ring R) as CR.
    destruct CR as [_ _ _ _ _ _ _ Sd Op]. rewrite Sd. apply Op.
Qed.
Print Assumptions C33_equality_partial.

(** operator== compares only as many entries as the right operand has: a vector
    equals each of its prefixes, and comparing with a longer vector reads past
    the end. *)
Theorem C33_equality_refuted : forall (R : cring) (small : R -> bool) (x y : R),
  small (x - x) = true ->
  sv_eqb R small (mksv [x; y] [0; 1]%nat 2 true) (mksv [x] [0]%nat 2 true) = Ok true /\
  sv_eqb R small (mksv [x] [0]%nat 2 true) (mksv [x; y] [0; 1]%nat 2 true) = UB.
Proof. intros R small x y H. unfold sv_eqb. simpl. unfold vget. simpl. rewrite H. split; reflexivity. Qed.
Print Assumptions C33_equality_refuted.

Example C33_nonvacuous :
  sv_normal (mksv (R := Zring) [2; 3; 4]%Z [0; 2; 5]%nat 6 true) /\
  sv_scalarProduct Zring (mksv [2; 3; 4]%Z [0; 2; 5]%nat 6 true) (mksv [7; 8; 9]%Z [1; 2; 5]%nat 6 true) = Ok 60%Z.
Proof. split; [|reflexivity]. split; [reflexivity|]. split; [reflexivity|]. repeat constructor; lia. Qed.

(** C34. *)
Theorem C34_finalize_partial : forall (R : cring) srt (l : list (nat * R)) (m : crs R),
  stdsort_ok Nat.ltb srt -> Forall (fun e => (fst e < c_ncol m)%nat) l ->
  exists out r', sr_finalize R srt (sr_adds l (sr_empty R)) m = Ok (length out, push_all m out, r') /\
    is_merge l out.
Proof.
  intros R srt l m Hsrt HF. rewrite sr_adds_ok. simpl.
  destruct (sr_finalize_ok R srt Hsrt (map fst l, map snd l) m) as [out [cols' [E HM]]].
  - simpl. rewrite !map_length. reflexivity.
  - simpl. rewrite Forall_forall in *. intros c Hc. apply in_map_iff in Hc. destruct Hc as [e [<- He]]. auto.
  - simpl in HM. rewrite combine_map_split in HM. exists out. eexists. split; [exact E|exact HM].
Qed.
Print Assumptions C34_finalize_partial.

(** Finalising every row of a matrix built in this way: setRow, finalize for each
    row, then the last row pointer. The row is a new object each time. *)
Fixpoint build_rows {R : cring} srt (rows : list (list (nat * R))) (i cnt : nat) (m : crs R) : res (crs R) :=
  match rows with
  | [] => setRow R m i cnt
  | l :: rows' =>
      do m <- setRow R m i cnt ;;
      do (k, m, _) <- sr_finalize R srt (sr_adds l (sr_empty R)) m ;;
      build_rows srt rows' (S i) (cnt + k) m
  end.

Lemma build_rows_ok (R : cring) srt (Hsrt : stdsort_ok Nat.ltb srt) n ncol :
  forall (rows : list (list (nat * R))) outs m cnt,
  bld ncol n outs m cnt -> (length outs + length rows)%nat = n ->
  Forall (Forall (fun e => (fst e < ncol)%nat)) rows ->
  exists outs', build_rows srt rows (length outs) cnt m = Ok (of_rows ncol (outs ++ outs')) /\
    Forall2 is_merge rows outs'.
Proof.
  induction rows as [|l rows IH]; intros outs m cnt HB HL HF.
  - exists []. simpl in *. rewrite app_nil_r. split; [|constructor].
    replace (length outs) with n by lia. apply bld_finish; [exact HB|lia].
  - cbn [build_rows]. simpl in HL. inversion HF as [|? ? HF1 HF2]; subst.
    destruct (bld_setRow R _ _ _ _ _ HB) as [m1 [E1 HB1]]; [lia|]. rewrite E1. cbn [bind].
    destruct (bldr_dims R _ _ _ _ _ _ HB1) as [_ Hc].
    destruct (C34_finalize_partial R srt l m1 Hsrt) as [out [r' [E2 HM]]]; [rewrite Hc; exact HF1|].
    rewrite E2. cbn [bind].
    assert (HB2 : bld ncol (length outs + S (length rows)) (outs ++ [out]) (push_all m1 out) (cnt + length out)).
    { destruct HB1 as [v [-> [Lv [-> Hv]]]]. apply (bldr_done R). exists v. rewrite app_nil_r in *.
      unfold push_all. cbn [c_rowptr c_colind c_values c_nrow c_ncol]. rewrite !map_app, app_length. auto. }
    destruct (IH _ _ _ HB2) as [outs' [E3 H3]].
    { rewrite app_length. simpl. lia. }
    { exact HF2. }
    rewrite app_length in E3. simpl in E3. rewrite Nat.add_1_r in E3. rewrite E3.
    exists (out :: outs'). rewrite <- app_assoc. split; [reflexivity|]. constructor; assumption.
Qed.

Theorem C34_matrix_from_rows : forall (R : cring) srt (rows : list (list (nat * R))) (ncol : nat),
  stdsort_ok Nat.ltb srt -> Forall (Forall (fun e => (fst e < ncol)%nat)) rows ->
  exists m, build_rows srt rows 0 0 (crs_new R (length rows) ncol) = Ok m /\
    is_crs m (length rows) ncol (fun i j => row_elem (nth i rows []) j) /\ crs_nodup m /\ crs_sorted m.
Proof.
  intros R srt rows ncol Hsrt HF.
  destruct (build_rows_ok R srt Hsrt (length rows) ncol rows [] (crs_new R (length rows) ncol) 0)
    as [outs [E H2]]; [apply bld_init|reflexivity|exact HF|].
  simpl in E. rewrite E. exists (of_rows ncol outs). split; [reflexivity|].
  assert (HL : length rows = length outs) by (clear -H2; induction H2; simpl; congruence).
  assert (HN : forall i, (i < length outs)%nat -> is_merge (nth i rows []) (nth i outs [])).
  { clear -H2. induction H2 as [|a b la lb Hab H2 IH]; intros i Hi; simpl in Hi; [lia|].
    destruct i; simpl; [exact Hab|apply IH; lia]. }
  assert (HC : Forall (fun row => Forall (fun e : nat * R => (fst e < ncol)%nat) row) outs).
  { clear -H2 HF. induction H2 as [|a b la lb Hab H2 IH]; constructor.
    - inversion HF as [|? ? Ha _]; subst. rewrite Forall_forall in *. intros e He.
      destruct Hab as [_ [Hab _]]. apply (in_map fst) in He. apply Hab in He. apply in_map_iff in He.
      destruct He as [e' [<- He']]. auto.
    - apply IH. inversion HF; assumption. }
  split; [|split].
  - rewrite HL. apply of_rows_is; [exact HC|]. intros i j Hi Hj. apply HN. exact Hi.
  - apply of_rows_nodup. intros i Hi. apply sorted_nodup. apply HN. exact Hi.
  - apply of_rows_sorted. intros i Hi. apply HN. exact Hi.
Qed.
Print Assumptions C34_matrix_from_rows.

(** finalize(y) and matrixVectorProduct(y) give the sum of value * y[column]. *)
Theorem C34_matrix_vector : forall (R : cring) (l : list (nat * R)) (y : list R),
  Forall (fun e => (fst e < length y)%nat) l ->
  sr_finalize_vector R (sr_adds l (sr_empty R)) y = Ok (suml (fun e => snd e * nth (fst e) y c0) l) /\
  sr_matrixVectorProduct R (sr_adds l (sr_empty R)) y =
    Ok (sumn (length y) (fun k => row_elem l k * nth k y c0)).
Proof.
  intros R l y HF. rewrite sr_adds_ok. simpl.
  assert (E : sr_matrixVectorProduct R (map fst l, map snd l) y = Ok (suml (fun e => snd e * nth (fst e) y c0) l)).
  { unfold sr_matrixVectorProduct. cbn [fst snd]. rewrite mvp_loop.
    - rewrite map_length. rewrite <- (map_length snd l) at 2. rewrite <- (map_length fst l) at 1. rewrite !firstn_all.
      rewrite combine_map_split. reflexivity.
    - lia.
    - rewrite !map_length. lia.
    - intros c Hc. rewrite firstn_all in Hc. apply in_map_iff in Hc. destruct Hc as [e [<- He]].
      rewrite Forall_forall in HF. auto. }
  split.
  - unfold sr_finalize_vector. cbn [fst snd]. rewrite !map_length, Nat.eqb_refl.
    destruct l as [|e l]; [reflexivity|]. cbn [length Nat.eqb]. exact E.
  - rewrite E. f_equal. unfold sumn. unfold row_elem.
    rewrite (suml_ext _ (fun k => suml (fun e => if (fst e =? k)%nat then snd e else c0) l * nth k y c0)
               (fun k => suml (fun e => if (fst e =? k)%nat then snd e * nth (fst e) y c0 else c0) l)).
    + rewrite suml_exchange. apply suml_ext_in. intros e He. rewrite Forall_forall in HF. specialize (HF e He).
      symmetry. apply (sumn_delta R (length y) (fun _ => snd e * nth (fst e) y c0) (fst e)). exact HF.
    + intros k. rewrite <- suml_mul_r. apply suml_ext. intros e.
      destruct (Nat.eqb_spec (fst e) k) as [->|]; [reflexivity|apply cmul_0_l].
Qed.
Print Assumptions C34_matrix_vector.

(** finalize leaves the columns of the row object sorted but not its values: a
    second finalize of the same row pairs them wrongly. *)
Theorem C34_finalize_twice_refuted : exists (m1 m2 : crs Zring) (r1 r2 : srow Zring),
  let l := [(1, 10%Z); (0, 20%Z)]%nat in
  let m := crs_new Zring 2 2 in
  let srt := isort Nat.ltb in
  sr_finalize Zring srt (sr_adds l (sr_empty Zring)) m = Ok (2%nat, m1, r1) /\
  sr_finalize Zring srt r1 m = Ok (2%nat, m2, r2) /\
  c_values m1 = [20; 10]%Z /\ c_values m2 = [10; 20]%Z /\ c_colind m2 = [0; 1]%nat.
Proof.
  eexists _, _, _, _. cbv zeta. split; [vm_compute; reflexivity|]. split; [vm_compute; reflexivity|].
  split; [reflexivity|]. split; reflexivity.
Qed.
Print Assumptions C34_finalize_twice_refuted.

Example C34_nonvacuous :
  build_rows (R := Zring) (isort Nat.ltb)
    [[(2, 1%Z); (0, 3%Z); (2, 4%Z)]; []; [(1, 5%Z)]]%nat 0 0 (crs_new Zring 3 3) =
  Ok (mkcrs [0; 2; 2; 3]%nat [0; 2; 1]%nat [3; 5; 5]%Z 3 3).
Proof. vm_compute. reflexivity. Qed.

(** C35. *)
Theorem C35_adds_partial : forall (R : cring) (cacheSize : nat) (l : list (nat * R)), (0 < cacheSize)%nat ->
  exists r, rc_adds l (rc_new R cacheSize) = Ok r /\ rc_ok r /\ rc_entries r = l.
Proof.
  intros R n l H. destruct (rc_new_ok R n H) as [W E]. destruct (rc_adds_ok R l _ W) as [r [E1 [W1 N1]]].
  exists r. rewrite E in N1. auto.
Qed.
Print Assumptions C35_adds_partial.

(** Same matrix and count as SparseRow, for every history of the cached row: it is
    used again after each finalize. *)
Theorem C35_agrees_with_SparseRow : forall (R : cring) srt (r : srowc R) (l : list (nat * R)) (m : crs R),
  stdsort_ok Nat.ltb srt -> rc_ok r -> rc_entries r = [] -> Forall (fun e => (fst e < c_ncol m)%nat) l ->
  exists r1 r2 k m' row',
    rc_adds l r = Ok r1 /\ rc_finalize R srt r1 m = Ok (k, m', r2) /\
    sr_finalize R srt (sr_adds l (sr_empty R)) m = Ok (k, m', row') /\
    rc_ok r2 /\ rc_entries r2 = [].
Proof.
  intros R srt r l m Hsrt W E HF. destruct (rc_adds_ok R l r W) as [r1 [E1 [W1 N1]]]. rewrite E in N1. simpl in N1.
  destruct (rc_finalize_ok R srt Hsrt r1 m W1) as [out [r2 [E2 [HM [W2 N2]]]]]. rewrite N1 in HM.
  destruct (C34_finalize_partial R srt l m Hsrt HF) as [out' [row' [E3 HM']]].
  rewrite (is_merge_unique R l out out' HM HM') in E2.
  exists r1, r2, (length out'), (push_all m out'), row'. auto.
Qed.
Print Assumptions C35_agrees_with_SparseRow.

Theorem C35_matrix_vector : forall (R : cring) (r : srowc R) (l : list (nat * R)) (y : list R),
  rc_ok r -> rc_entries r = [] -> Forall (fun e => (fst e < length y)%nat) l ->
  exists r1 r2 s, rc_adds l r = Ok r1 /\ rc_matrixVectorProduct R r1 y = Ok (s, r2) /\
    sr_matrixVectorProduct R (sr_adds l (sr_empty R)) y = Ok s /\ rc_ok r2 /\ rc_entries r2 = [].
Proof.
  intros R r l y W E HF. destruct (rc_adds_ok R l r W) as [r1 [E1 [[A [B C]] N1]]]. rewrite E in N1. simpl in N1.
  exists r1. eexists. eexists. split; [exact E1|]. split; [|split].
  - unfold rc_matrixVectorProduct. rewrite mvp_loop.
    + cbn [bind]. reflexivity.
    + lia.
    + lia.
    + intros c Hc. rewrite <- (combine_fst R _ (firstn (rc_counter r1) (rc_values r1))) in Hc
        by (rewrite !firstn_length; lia).
      change (In c (map fst (rc_entries r1))) in Hc. rewrite N1 in Hc. apply in_map_iff in Hc.
      destruct Hc as [e [<- He]]. rewrite Forall_forall in HF. auto.
  - change (combine (firstn (rc_counter r1) (rc_cols r1)) (firstn (rc_counter r1) (rc_values r1)))
      with (rc_entries r1). rewrite N1.
    destruct (C34_matrix_vector R l y HF) as [H1 _]. rewrite <- H1.
    unfold sr_finalize_vector. rewrite sr_adds_ok. simpl. rewrite !map_length, Nat.eqb_refl.
    destruct l; reflexivity.
  - split; [split; [exact A|split; [exact B|simpl; lia]]|reflexivity].
Qed.
Print Assumptions C35_matrix_vector.

(** With a cache of size zero the first add writes outside the buffers: doubling
    zero leaves no room. *)
Theorem C35_cache_zero_refuted : forall (R : cring) (c : nat) (x : R), rc_add R (rc_new R 0) c x = UB.
Proof. intros. reflexivity. Qed.
Print Assumptions C35_cache_zero_refuted.

Example C35_nonvacuous : exists r1 r2 m,
  rc_adds (R := Zring) [(2, 1%Z); (0, 3%Z); (2, 4%Z); (1, 0%Z); (0, 1%Z)]%nat (rc_new Zring 1) = Ok r1 /\
  rc_finalize Zring (isort Nat.ltb) r1 (crs_new Zring 1 3) = Ok (3%nat, m, r2) /\
  c_values m = [4; 0; 5]%Z /\ length (rc_cols r1) = 8%nat.
Proof.
  eexists _, _, _. split; [vm_compute; reflexivity|]. split; [vm_compute; reflexivity|]. split; reflexivity.
Qed.

(** C77. [parts] = partition(0), partition(1), ... increasing offsets. The vector
    lies in partition p, and its last index is not the first of the partition. *)
Theorem C77_findPartition_partial : forall (R : cring) (s : svec R) (parts : list nat) (p : nat),
  StronglySorted lt parts -> (S p < length parts)%nat -> sv_indices s <> [] ->
  (forall k, In k (sv_indices s) -> (nth p parts 0 <= k < nth (S p) parts 0)%nat) ->
  (exists k, In k (sv_indices s) /\ k <> nth p parts 0%nat) ->
  sv_findPartition R s parts = Ok p.
Proof.
  intros R s parts p HS Hp Hne HI [k0 [Hk0 Hk0n]]. unfold sv_findPartition.
  destruct (findFirstLast_ok R s Hne) as [a [b [E [Ha [Hb Hab]]]]]. rewrite E. cbn [bind].
  pose proof (HI a Ha). pose proof (HI b Hb). pose proof (HI k0 Hk0). pose proof (Hab k0 Hk0).
  rewrite (part_loop_in parts (fun q => q <=? a)%nat p 0 0 HS).
  - rewrite (part_loop_in parts (fun q => q <? b)%nat p 0 1 HS).
    + simpl. rewrite Nat.eqb_refl. reflexivity.
    + intros x y Hxy Hy. apply Nat.ltb_lt in Hy. apply Nat.ltb_lt. lia.
    + lia.
    + apply Nat.ltb_lt. lia.
    + intros _. apply Nat.ltb_ge. lia.
  - intros x y Hxy Hy. apply Nat.leb_le in Hy. apply Nat.leb_le. lia.
  - lia.
  - apply Nat.leb_le. lia.
  - intros _. apply Nat.leb_gt. lia.
Qed.
Print Assumptions C77_findPartition_partial.

(** A vector with indices in two partitions is rejected, when the last one is not
    the first index of its partition. *)
Theorem C77_two_partitions_rejected : forall (R : cring) (s : svec R) (parts : list nat) (p q a b : nat),
  StronglySorted lt parts -> (S p < length parts)%nat -> (S q < length parts)%nat -> (p < q)%nat ->
  In a (sv_indices s) -> (nth p parts 0 <= a < nth (S p) parts 0)%nat ->
  In b (sv_indices s) -> (nth q parts 0 < b < nth (S q) parts 0)%nat ->
  (forall k, In k (sv_indices s) -> (a <= k <= b)%nat) ->
  sv_findPartition R s parts = Throw.
Proof.
  intros R s parts p q a b HS Hp Hq Hpq Ha HA Hb HB Hab. unfold sv_findPartition.
  destruct (findFirstLast_ok R s) as [a' [b' [E [Ha' [Hb' Hab']]]]].
  { intros H0. rewrite H0 in Ha. destruct Ha. }
  pose proof (Hab a' Ha'). pose proof (Hab b' Hb'). pose proof (Hab' a Ha). pose proof (Hab' b Hb).
  assert (a' = a) by lia. assert (b' = b) by lia. subst a' b'. rewrite E. cbn [bind].
  rewrite (part_loop_in parts (fun q => q <=? a)%nat p 0 0 HS).
  - rewrite (part_loop_in parts (fun q => q <? b)%nat q 0 1 HS).
    + simpl. destruct (Nat.eqb_spec p q); [lia|]. reflexivity.
    + intros x y Hxy Hy. apply Nat.ltb_lt in Hy. apply Nat.ltb_lt. lia.
    + lia.
    + apply Nat.ltb_lt. lia.
    + intros _. apply Nat.ltb_ge. lia.
  - intros x y Hxy Hy. apply Nat.leb_le in Hy. apply Nat.leb_le. lia.
  - lia.
  - apply Nat.leb_le. lia.
  - intros _. apply Nat.leb_gt. lia.
Qed.
Print Assumptions C77_two_partitions_rejected.

(** A vector whose only index is the first one of a partition is rejected although
    it does not extend over more than one partition. A vector over two partitions
    whose last index is the first of the second one is accepted, and toChunk then
    writes past the end of the chunk. *)
Theorem C77_findPartition_refuted : forall (R : cring) (x y : R),
  sv_findPartition R (sv_adds [(4%nat, x)] (sv_new R 8)) [0; 4; 8]%nat = Throw /\
  sv_findPartition R (sv_adds [(1%nat, x); (4%nat, y)] (sv_new R 8)) [0; 4; 8]%nat = Ok 0%nat /\
  sv_toChunk_parts R (sv_adds [(1%nat, x); (4%nat, y)] (sv_new R 8)) [] [0; 4; 8]%nat = UB.
Proof. intros. split; [reflexivity|]. split; reflexivity. Qed.
Print Assumptions C77_findPartition_refuted.

(** toChunk(dest, parts) fills the chunk of the partition, whatever [dest] was. *)
Theorem C77_toChunk_parts_partial : forall (R : cring) (s : svec R) (dest : list R) (parts : list nat) (p : nat),
  sv_wf s -> NoDup (sv_indices s) ->
  StronglySorted lt parts -> (S p < length parts)%nat -> sv_indices s <> [] ->
  (forall k, In k (sv_indices s) -> (nth p parts 0 <= k < nth (S p) parts 0)%nat) ->
  (exists k, In k (sv_indices s) /\ k <> nth p parts 0%nat) ->
  exists d, sv_toChunk_parts R s dest parts = Ok (p, d) /\
    length d = (nth (S p) parts 0 - nth p parts 0)%nat /\
    forall j, (j < length d)%nat -> nth j d c0 = sv_elem s (nth p parts 0 + j)%nat.
Proof.
  intros R s dest parts p W N HS Hp Hne HI HK. unfold sv_toChunk_parts.
  rewrite (C77_findPartition_partial R s parts p HS Hp Hne HI HK). cbn [bind].
  rewrite (vget_ok parts 0%nat) by lia. cbn [bind].
  replace (p + 1)%nat with (S p) by lia. rewrite (vget_ok parts 0%nat) by lia. cbn [bind].
  set (o := nth p parts 0%nat) in *. set (o' := nth (S p) parts 0%nat) in *.
  assert (Ho : (o < o')%nat) by (apply sorted_nth_lt; [exact HS|lia|lia]).
  destruct (Nat.leb_spec o o'); [|lia].
  rewrite (forM_fill (fun _ => c0 : R)).
  2:{ rewrite vresize_length. lia. }
  2:{ intros i u Hi _ _. reflexivity. }
  cbn [bind]. rewrite skipn_all2 by (rewrite vresize_length; lia). rewrite app_nil_r.
  destruct (scatter_ok R (sv_indices s) (sv_values s) (map (fun _ => c0) (seq 0 (o' - o))) o W N) as [d [E [L H']]].
  { rewrite map_length, seq_length. rewrite Forall_forall. intros k Hk. specialize (HI k Hk). lia. }
  rewrite E. cbn [bind]. exists d. rewrite map_length, seq_length in L, H'. split; [reflexivity|].
  split; [exact L|]. intros j Hj. rewrite H' by lia.
  destruct (in_dec Nat.eq_dec (o + j)%nat (sv_indices s)) as [|Hn]; [reflexivity|].
  rewrite nth_map_seq by lia. symmetry. apply elem_notin; assumption.
Qed.
Print Assumptions C77_toChunk_parts_partial.

(** toChunk(dest, i0, total) sets the entries of the vector in the chunk... *)
Theorem C77_toChunk_partial : forall (R : cring) (s : svec R) (dest : list R) (i0 total : nat),
  sv_wf s -> NoDup (sv_indices s) -> (length dest = 0)%nat ->
  Forall (fun k => (i0 <= k < i0 + total)%nat) (sv_indices s) ->
  exists d, sv_toChunk R s dest i0 total false = Ok d /\ length d = total /\
    forall j, (j < total)%nat -> nth j d c0 = sv_elem s (i0 + j)%nat.
Proof.
  intros R s dest i0 total W N Hd HF. destruct dest; [|discriminate]. unfold sv_toChunk. cbn [bind].
  assert (Ev : vresize (@nil R) total c0 = repeat c0 total).
  { unfold vresize. rewrite firstn_nil. simpl. rewrite Nat.sub_0_r. reflexivity. }
  rewrite Ev. destruct (scatter_ok R (sv_indices s) (sv_values s) (repeat c0 total) i0 W N) as [d [E [L H']]].
  { rewrite repeat_length. exact HF. }
  rewrite E. rewrite repeat_length in L, H'. exists d. split; [reflexivity|]. split; [exact L|].
  intros j Hj. rewrite H' by exact Hj. destruct (in_dec Nat.eq_dec (i0 + j)%nat (sv_indices s)) as [|Hn]; [reflexivity|].
  rewrite nth_repeat_same. symmetry. apply elem_notin; assumption.
Qed.
Print Assumptions C77_toChunk_partial.

(** ... but keeps what [dest] held where the vector has no entry, and its check
    accepts an index one past the end of the chunk. *)
Theorem C77_toChunk_refuted : forall (R : cring) (x y z : R),
  sv_toChunk R (sv_adds [(1%nat, x)] (sv_new R 3)) [y; z] 0 2 true = Ok [y; x] /\
  sv_toChunk R (sv_adds [(2%nat, x)] (sv_new R 3)) [] 0 2 true = UB.
Proof. intros. split; reflexivity. Qed.
Print Assumptions C77_toChunk_refuted.

(** fromChunk and toChunk are inverse to each other. *)
Theorem C77_chunk_round_trip : forall (R : cring) (s : svec R) (v : list R) (offset total : nat),
  exists s', sv_fromChunk R s v offset total = Ok s' /\ sv_size s' = total /\
    (forall k, sv_elem s' k = if (offset <=? k)%nat then nth (k - offset) v c0 else c0) /\
    sv_toChunk R s' [] offset (length v) false = Ok v.
Proof.
  intros R s v offset total. destruct (sv_fromChunk_ok R s v offset total) as [s' [E [W [Z HE]]]].
  assert (Hi : sv_indices s' = seq offset (length v)).
  { rewrite <- (combine_fst R _ _ W). unfold sv_entries in HE. rewrite HE. apply combine_fst. apply seq_length. }
  assert (N : NoDup (sv_indices s')) by (rewrite Hi; apply seq_NoDup).
  assert (HEl : forall k, sv_elem s' k = if (offset <=? k)%nat then nth (k - offset) v c0 else c0).
  { intros k. unfold sv_elem. rewrite HE. destruct (Nat.leb_spec offset k) as [Hk|Hk].
    - destruct (Nat.lt_ge_cases (k - offset) (length v)) as [Hl|Hl].
      + apply row_elem_nodup; [rewrite combine_fst by apply seq_length; apply seq_NoDup|].
        assert (Hn : nth (k - offset) (combine (seq offset (length v)) v) (0%nat, c0) = (k, nth (k - offset) v c0)).
        { rewrite nth_combine' by apply seq_length. rewrite seq_nth by exact Hl. f_equal. lia. }
        rewrite <- Hn. apply nth_In. rewrite combine_length, seq_length. lia.
      + rewrite nth_overflow by exact Hl. apply row_elem_notin. rewrite combine_fst by apply seq_length.
        rewrite in_seq. lia.
    - apply row_elem_notin. rewrite combine_fst by apply seq_length. rewrite in_seq. lia. }
  exists s'. split; [exact E|]. split; [exact Z|]. split; [exact HEl|].
  destruct (C77_toChunk_partial R s' [] offset (length v) W N eq_refl) as [d [Ed [Ld Hd]]].
  { rewrite Forall_forall. intros k Hk. rewrite Hi in Hk. apply in_seq in Hk. lia. }
  rewrite Ed. f_equal. apply (list_eq_nth _ _ c0); [exact Ld|]. intros j Hj. rewrite Hd by lia. rewrite HEl.
  destruct (Nat.leb_spec offset (offset + j)); [|lia]. f_equal. lia.
Qed.
Print Assumptions C77_chunk_round_trip.

Example C77_nonvacuous :
  sv_toChunk_parts Zring (sv_adds [(5%nat, 7%Z); (4%nat, 2%Z)] (sv_new Zring 8)) [9]%Z [0; 4; 8]%nat =
  Ok (1%nat, [2; 7; 0; 0]%Z).
Proof. reflexivity. Qed.

(** C78. *)
Theorem C78_of_dense : forall (R : cring) (v : list R), exists s, sv_of_dense R v = Ok s /\
  sv_size s = length v /\ sv_wf s /\ StronglySorted lt (sv_indices s) /\ ~ In c0 (sv_values s) /\
  (forall k, sv_elem s k = nth k v c0) /\
  sv_toChunk R s [] 0 (length v) false = Ok v.
Proof.
  intros R v. destruct (sv_of_dense_ok R v) as [s [E [W [Z [S' [NZ H]]]]]].
  exists s. split; [exact E|]. split; [exact Z|]. split; [exact W|]. split; [exact S'|].
  rewrite Forall_forall in NZ. split; [intros Hin; apply (NZ _ Hin); reflexivity|]. split; [exact H|].
  assert (N : NoDup (sv_indices s)) by (apply sorted_nodup; exact S').
  destruct (C77_toChunk_partial R s [] 0 (length v) W N eq_refl) as [d [Ed [Ld Hd]]].
  { rewrite Forall_forall. intros k Hk. split; [lia|]. simpl.
    destruct (Nat.lt_ge_cases k (length v)) as [|Hge]; [assumption|]. exfalso.
    specialize (H k). rewrite nth_overflow in H by exact Hge.
    apply (In_nth _ _ 0%nat) in Hk. destruct Hk as [i [Hi Ei]]. rewrite <- Ei in H.
    rewrite (elem_nth R s i W S' Hi) in H. apply (NZ (nth i (sv_values s) c0)); [|exact H].
    apply nth_In. unfold sv_wf in W. lia. }
  rewrite Ed. f_equal. apply (list_eq_nth _ _ c0); [exact Ld|]. intros j Hj. rewrite Hd by lia. apply H.
Qed.
Print Assumptions C78_of_dense.

Theorem C78_scale : forall (R : cring) (s : svec R) (x : R), sv_wf s ->
  exists s', sv_scale R s x = Ok s' /\ sv_wf s' /\ sv_indices s' = sv_indices s /\
    sv_sorted s' = sv_sorted s /\ sv_size s' = sv_size s /\
    forall k, sv_elem s' k = sv_elem s k * x.
Proof. exact sv_scale_ok. Qed.
Print Assumptions C78_scale.

Theorem C78_minus : forall (R : cring) (s v : svec R), sv_wf s -> sv_wf v ->
  exists s', sv_minus R s v = Ok s' /\ sv_wf s' /\ sv_sorted s' = false /\ sv_size s' = sv_size s /\
    forall k, sv_elem s' k = sv_elem s k - sv_elem v k.
Proof. exact sv_minus_ok. Qed.
Print Assumptions C78_minus.

(** norm squared is the sum of the squares of all elements, when no index occurs twice. *)
Theorem C78_norm2 : forall (R : cring) (s : svec R) (n : nat), sv_wf s ->
  NoDup (sv_indices s) -> Forall (fun k => (k < n)%nat) (sv_indices s) ->
  sv_norm2 R s = Ok (sumn n (fun k => cconj (sv_elem s k) * sv_elem s k)).
Proof.
  intros R s n W N HF. unfold sv_norm2, sv_wf in *.
  rewrite (Vec_Proofs.forM_sum R _ _ (fun i => cconj (nth i (sv_values s) c0) * nth i (sv_values s) c0)).
  2:{ intros i acc Hi. rewrite (vget_ok _ c0) by lia. reflexivity. }
  rewrite cadd_0_l. f_equal. unfold sumn.
  assert (Hel : forall i, (i < length (sv_indices s))%nat -> sv_elem s (nth i (sv_indices s) 0%nat) = nth i (sv_values s) c0).
  { intros i Hi. unfold sv_elem, sv_entries. apply row_elem_nodup; [rewrite combine_fst by exact W; exact N|].
    rewrite <- nth_combine' by exact W. apply nth_In. rewrite combine_length. lia. }
  transitivity (suml (fun k => cconj (sv_elem s k) * sv_elem s k) (sv_indices s)).
  { rewrite <- (map_nth_seq (sv_indices s) 0%nat) at 2. rewrite suml_map. apply suml_ext_in.
    intros i Hi. apply in_seq in Hi. rewrite Hel by lia. reflexivity. }
  assert (G : suml (fun k => cconj (sv_elem s k) * sv_elem s k) (seq 0 n) =
              suml (fun k => cconj (sv_elem s k) * sv_elem s k)
                (filter (fun k => if in_dec Nat.eq_dec k (sv_indices s) then true else false) (seq 0 n))).
  { rewrite suml_filter. apply suml_ext. intros k. destruct (in_dec Nat.eq_dec k (sv_indices s)) as [|Hn]; [reflexivity|].
    rewrite elem_notin by assumption. apply cmul_0_r. }
  rewrite G. apply suml_perm. apply NoDup_Permutation.
  - exact N.
  - apply NoDup_filter. apply seq_NoDup.
  - intros k. rewrite filter_In, in_seq. rewrite Forall_forall in HF.
    destruct (in_dec Nat.eq_dec k (sv_indices s)) as [H|H].
    + specialize (HF k H). split; [|auto]. intros _. split; [lia|reflexivity].
    + split; [intros H'; contradiction|]. intros [_ H']. discriminate.
Qed.
Print Assumptions C78_norm2.

(** isOne() holds exactly when at most one entry is not negligible. *)
Theorem C78_isOne : forall (R : cring) (small : R -> bool) (s : svec R), sv_wf s ->
  sv_isOne R small s = Ok (length (filter (fun x => negb (small x)) (sv_values s)) <=? 1)%nat.
Proof.
  intros R small s W. unfold sv_isOne, sv_wf in *. rewrite W.
  set (f := fun x => negb (small x)).
  loopM (fun i (st : nat * bool) => let '(x, ok) := st in
           ok = (length (filter f (firstn i (sv_values s))) <=? 1)%nat /\
           (ok = true -> x = length (filter f (firstn i (sv_values s))))) as [x ok] E H.
  - split; reflexivity.
  - intros i [x ok] [_ Hi] [H1 H2]. simpl in Hi.
    rewrite (firstn_S_nth (sv_values s) c0) by exact Hi. rewrite filter_app, app_length.
    cbn [filter]. set (q := length (filter f (firstn i (sv_values s)))) in *.
    destruct ok; cbn [negb].
    + rewrite (vget_ok _ c0) by exact Hi. cbn [bind]. rewrite H2 by reflexivity.
      assert (Hq : (q <= 1)%nat) by (apply Nat.leb_le; auto).
      replace (f (nth i (sv_values s) c0)) with (negb (small (nth i (sv_values s) c0))) by reflexivity.
      destruct (small (nth i (sv_values s) c0)); cbn [negb length].
      * eexists. split; [reflexivity|]. cbv beta iota. rewrite Nat.add_0_r. auto.
      * eexists. split; [reflexivity|]. cbv beta iota. rewrite Nat.add_1_r. split; [|auto].
        destruct (Nat.ltb_spec 1 (S q)), (Nat.leb_spec (S q) 1); try lia; reflexivity.
    + eexists. split; [reflexivity|]. cbv beta iota. split; [|discriminate].
      symmetry in H1. apply Nat.leb_gt in H1. symmetry. apply Nat.leb_gt. lia.
  - rewrite E. cbn [bind]. destruct H as [-> _]. simpl. rewrite firstn_all. reflexivity.
Qed.
Print Assumptions C78_isOne.

Example C78_nonvacuous : exists s1 s2 s3,
  sv_of_dense Zring [0; 3; 0; 4]%Z = Ok s1 /\ sv_scale Zring s1 2%Z = Ok s2 /\
  sv_minus Zring s2 s1 = Ok s3 /\ sv_indices s3 = [1; 3; 1; 3]%nat /\
  sv_values s3 = [6; 8; -3; -4]%Z /\ sv_norm2 Zring s1 = Ok 25%Z.
Proof.
  eexists _, _, _. split; [reflexivity|]. split; [reflexivity|]. split; [reflexivity|].
  split; [reflexivity|]. split; reflexivity.
Qed.
