(** Theorems about formatted text: C29, C31 and C61. *)
From Coq Require Import Ascii String.
From Verif Require Import Prelude Ring Dense_Model Dense_Spec Dense_Proofs Crs_Model Crs_Spec
  Str_Model Str_Spec Str_Proofs Text_Model Text_Spec Text_Proofs.
Import List.

(** * C61 *)
(** Element types that can be read back: int, SizeType, words, pairs of SizeType, and
    vectors of such. *)
Theorem C61_elements :
  reads_back (fun x => -2147483648 <= x < 2147483648)%Z print_Z (lift_rd rd_int) /\
  reads_back (fun x => 0 <= x < 18446744073709551616)%Z print_Z (lift_rd rd_size) /\
  reads_back (fun w => w <> [] /\ forall c, In c w -> ~ is_space c) (fun w => w) (lift_rd rd_str) /\
  reads_back (fun p => 0 <= fst p < 18446744073709551616 /\ 0 <= snd p < 18446744073709551616)%Z pair_write pair_read /\
  (forall T (dflt : T) dom pr rd, reads_back dom pr rd ->
     reads_back (fun v => Forall dom v /\ (Z.of_nat (length v) < 2147483648)%Z) (vec_write pr) (vec_read dflt rd)).
Proof.
  split; [exact rb_int|]. split; [exact rb_size|]. split; [exact rb_str|]. split; [exact rb_pair|].
  intros. now apply rb_vec.
Qed.
Print Assumptions C61_elements.

(** Vectors of fewer than 2^31 such elements come back, whatever the target held. *)
Theorem C61_vector_partial : forall T (dflt : T) dom pr rd, reads_back dom pr rd ->
  forall v old ws rest, Forall dom v -> (Z.of_nat (length v) < 2147483648)%Z -> spaces ws ->
  exists ws', spaces ws' /\
    vec_read dflt rd (mkis (ws ++ vec_write pr v ++ rest) false) old = Ok (v, mkis (ws' ++ rest) false).
Proof. intros T dflt dom pr rd H v old ws rest. now apply vec_read_ok. Qed.
Print Assumptions C61_vector_partial.

(** Vectors of pairs have a format of their own, which is read as well. *)
Theorem C61_vector_of_pairs_partial : forall v old ws rest,
  Forall (fun p => 0 <= fst p < 18446744073709551616 /\ 0 <= snd p < 18446744073709551616)%Z v ->
  (Z.of_nat (length v) < 2147483648)%Z -> spaces ws ->
  exists ws', spaces ws' /\
    vec_read (0, 0)%Z pair_read (mkis (ws ++ vecpair_write v ++ rest) false) old = Ok (v, mkis (ws' ++ rest) false).
Proof.
  intros v old ws rest Hd Hl Hw. unfold vec_read, vecpair_write, print_nat. rewrite <- !app_assoc.
  rewrite rd_int_print by (auto using ends_nl; lia).
  destruct (Z.ltb_spec (Z.of_nat (length v)) 0); [lia|].
  assert (E : flat_map (fun p => print_Z (fst p) ++ sp ++ print_Z (snd p) ++ nl) v =
              flat_map (fun p => (print_Z (fst p) ++ sp ++ print_Z (snd p)) ++ nl) v).
  { clear. induction v as [|p v IH]; cbn [flat_map]; auto. rewrite IH. now rewrite <- !app_assoc. }
  rewrite E.
  apply (read_loop_ok (fun p => 0 <= fst p < 18446744073709551616 /\ 0 <= snd p < 18446744073709551616)%Z
    (fun p => print_Z (fst p) ++ sp ++ print_Z (snd p)) pair_read) with (sep := nl); auto using spaces_nl; [|discriminate|now rewrite vresize_length, Nat2Z.id].
  intros [a b] o w r [Ha Hb] Hw' He. exists []. split; [constructor|]. unfold pair_read. cbn [fst snd] in *.
  rewrite <- !app_assoc. rewrite rd_size_print by (auto using ends_sp).
  now rewrite rd_size_print by (auto using spaces_sp).
Qed.
Print Assumptions C61_vector_of_pairs_partial.

(** A stack comes back on top of what the target held. *)
Theorem C61_stack_partial : forall T (dflt : T) dom pr rd, reads_back dom pr rd ->
  forall st old ws rest, Forall dom st -> (Z.of_nat (length st) < 2147483648)%Z -> spaces ws ->
  exists ws', spaces ws' /\
    stack_read dflt rd (mkis (ws ++ stack_write pr st ++ rest) false) old = Ok (st ++ old, mkis (ws' ++ rest) false).
Proof. intros T dflt dom pr rd H st old ws rest. now apply stack_read_ok. Qed.
Print Assumptions C61_stack_partial.

(** A stack read into a stack that is not empty is not the one written. *)
Theorem C61_stack_refuted : forall T (dflt : T) dom pr rd, reads_back dom pr rd ->
  forall st old, Forall dom st -> (Z.of_nat (length st) < 2147483648)%Z -> old <> [] ->
  exists st' s, stack_read dflt rd (mkis (stack_write pr st) false) old = Ok (st', s) /\ st' <> st.
Proof.
  intros T dflt dom pr rd H st old Hd Hl Hne.
  destruct (stack_read_ok dflt dom pr rd H st old [] [] Hd Hl) as (ws & _ & E); [constructor|].
  cbn [app] in E. rewrite app_nil_r in E. do 2 eexists. split; [exact E|].
  intros K. apply (f_equal (@length T)) in K. rewrite app_length in K. destruct old; [congruence|]. simpl in K. lia.
Qed.
Print Assumptions C61_stack_refuted.

(** The element count is read as an int: longer vectors are not read back. *)
Theorem C61_long_vector_refuted : forall T (dflt : T) pr rd,
  (forall old s, is_fail s = true -> rd s old = Ok (old, s)) ->
  forall v rest, (2147483648 <= Z.of_nat (length v))%Z ->
  exists v' s, vec_read dflt rd (mkis (vec_write pr v ++ rest) false) [] = Ok (v', s) /\ v' <> v /\ is_fail s = true.
Proof.
  intros T dflt pr rd Hrd v rest Hl. unfold vec_read, vec_write, print_nat. rewrite <- !app_assoc.
  set (n := Z.of_nat (length v)) in *. set (tl := nl ++ _ ++ rest).
  assert (E : rd_int (mkis (print_Z n ++ tl) false) 0 = (2147483647%Z, mkis tl true)).
  { unfold rd_int, rd_num. cbn [is_fail is_buf]. unfold print_Z. destruct (Z.ltb_spec n 0); [lia|].
    destruct (digits_of_ok n) as (A & B & C); [lia|]. set (ds := digits_loop _ _) in *.
    destruct ds as [|d ds'] eqn:E; [congruence|].
    cbn [app]. cbn [skipws]. rewrite digit_not_space by (apply B; simpl; auto).
    destruct (digit_not_sign d) as [S1 S2]; [apply B; simpl; auto|]. rewrite S1, S2.
    change (d :: ds' ++ tl) with ((d :: ds') ++ tl). rewrite span_app.
    - rewrite C. unfold conv_int. destruct (Z.ltb_spec n (-2147483648)); [lia|].
      destruct (Z.ltb_spec 2147483647 n); [reflexivity|lia].
    - intros c Hin. apply isdigit_In. auto.
    - right. unfold tl. do 2 eexists. split; [reflexivity|]. reflexivity. }
  rewrite E. replace (2147483647 <? 0)%Z with false by reflexivity.
  set (v0 := vresize [] (Z.to_nat 2147483647) dflt).
  rewrite (read_loop_fail rd v0 (mkis tl true)) by auto. do 2 eexists. split; [reflexivity|]. split; [|reflexivity].
  intros K. apply (f_equal (fun l => Z.of_nat (length l))) in K. unfold v0 in K. rewrite vresize_length, Z2Nat.id in K by lia. lia.
Qed.
Print Assumptions C61_long_vector_refuted.

(** Words with white space, and empty words, are not read back. *)
Theorem C61_strings_refuted :
  vec_read [] (lift_rd rd_str) (mkis (vec_write (fun w => w) [lit "a b"; lit "c"]) false) [] =
    Ok ([lit "a"; lit "b"], mkis (nl ++ lit "c" ++ nl) false) /\
  vec_read [] (lift_rd rd_str) (mkis (vec_write (fun w => w) [lit ""; lit "c"]) false) [] =
    Ok ([lit "c"; lit ""], mkis [] true).
Proof. split; vm_compute; reflexivity. Qed.
Print Assumptions C61_strings_refuted.

(** A negative element count is rejected. *)
Theorem C61_negative : forall T (dflt : T) rd n old ws rest, (-2147483648 <= n < 0)%Z -> spaces ws -> ends_token rest ->
  vec_read dflt rd (mkis (ws ++ print_Z n ++ rest) false) old = Throw.
Proof.
  intros. unfold vec_read. rewrite rd_int_print by (auto; lia). destruct (Z.ltb_spec n 0); [reflexivity|lia].
Qed.
Print Assumptions C61_negative.

Example C61_nonvacuous :
  vec_write print_Z [10; -2]%Z = lit "2
10
-2
" /\
  vec_read 0%Z (lift_rd rd_int) (mkis (lit "2
10
-2
rest") false) [7; 7; 7]%Z = Ok ([10; -2]%Z, mkis (lit "
rest") false) /\
  vec_write (vec_write print_Z) [[1]; []]%Z = lit "2
1
1

0

".
Proof. repeat split; vm_compute; reflexivity. Qed.

(** * C31 *)
(** A matrix reads back unchanged from its text into a matrix that is empty or has the same number of rows. *)
Theorem C31_round_trip_partial : forall (R : cring) dom pr rd, reads_back dom pr rd ->
  forall (m A : mat R) ws rest, mat_wf m -> mat_wf A -> (m_nrow A = 0 \/ m_nrow A = m_nrow m) ->
  (Z.of_nat (m_nrow m) < 18446744073709551616)%Z -> (Z.of_nat (m_ncol m) < 18446744073709551616)%Z ->
  Forall dom (m_data m) -> spaces ws ->
  exists text ws', mat_write R pr m = Ok text /\ spaces ws' /\
    mat_read R rd (mkis (ws ++ text ++ rest) false) A = Ok (m, mkis (ws' ++ rest) false).
Proof.
  intros R dom pr rd H m A ws rest W WA HA Hr Hc Hd Hw.
  destruct (mat_read_ok R dom pr rd H m A ws rest W WA HA Hr Hc) as (A' & ws' & Hw' & HP & E); auto.
  { intros i j Hi Hj. rewrite Forall_forall in Hd. apply Hd. apply nth_In. rewrite W. now apply idx_lt. }
  exists (mat_text R pr m (fun x => x)), ws'. split; [now apply mat_write_ok|]. split; auto.
  rewrite E. f_equal. f_equal. eapply is_mat_unique; [exact HP|]. now apply is_mat_self.
Qed.
Print Assumptions C31_round_trip_partial.

(** Reading into a matrix with another, positive number of rows throws. *)
Theorem C31_other_rows_refuted : forall (R : cring) pr rd (m A : mat R) rest, mat_wf m ->
  (Z.of_nat (m_nrow m) < 18446744073709551616)%Z -> (Z.of_nat (m_ncol m) < 18446744073709551616)%Z ->
  0 < m_nrow A -> m_nrow A <> m_nrow m ->
  exists text, mat_write R pr m = Ok text /\ mat_read R rd (mkis (text ++ rest) false) A = Throw.
Proof.
  intros R pr rd m A rest W Hr Hc H0 Hne. eexists. split; [now apply mat_write_ok|].
  unfold mat_read, mat_text, print_nat. rewrite <- !app_assoc.
  rewrite rd_size_print0 by (auto using ends_sp; lia).
  rewrite rd_size_print by (auto using spaces_sp, ends_nl; lia). cbn [is_fail]. rewrite !Nat2Z.id.
  unfold mat_resize. destruct (Nat.ltb_spec 0 (m_nrow A)); [|lia].
  destruct (Nat.eqb_spec (m_nrow A) (m_nrow m)); [lia|]. reflexivity.
Qed.
Print Assumptions C31_other_rows_refuted.

(** The constructor from a file reads matrices that are not empty, and rejects the others. *)
Theorem C31_from_file : forall (R : cring) dom pr rd, reads_back dom pr rd ->
  forall (m : mat R) g1 g2 ws rest, mat_wf m ->
  (Z.of_nat (m_nrow m) < 18446744073709551616)%Z -> (Z.of_nat (m_ncol m) < 18446744073709551616)%Z ->
  Forall dom (m_data m) -> spaces ws ->
  exists text ws', mat_write R pr m = Ok text /\ spaces ws' /\
    mat_from_file R rd g1 g2 (mkis (ws ++ text ++ rest) false) =
      if (m_nrow m =? 0) || (m_ncol m =? 0) then Throw else Ok (m, mkis (ws' ++ rest) false).
Proof.
  intros R dom pr rd H m g1 g2 ws rest W Hr Hc Hd Hw.
  destruct ((m_nrow m =? 0) || (m_ncol m =? 0)) eqn:Z0.
  - exists (mat_text R pr m (fun x => x)), []. split; [now apply mat_write_ok|]. split; [constructor|].
    unfold mat_from_file, mat_text, print_nat. rewrite <- !app_assoc.
    rewrite rd_size_print by (auto using ends_sp; lia).
    rewrite rd_size_print by (auto using spaces_sp, ends_nl; lia).
    apply orb_true_iff in Z0 as [Z0|Z0]; apply Nat.eqb_eq in Z0; rewrite Z0; cbn; now rewrite ?orb_true_r.
  - apply orb_false_iff in Z0 as [Z1 Z2]. apply Nat.eqb_neq in Z1, Z2.
    destruct (mat_from_file_ok R dom pr rd H m g1 g2 ws rest W) as (A' & ws' & Hw' & HP & E); auto; try lia.
    { intros i j Hi Hj. rewrite Forall_forall in Hd. apply Hd. apply nth_In. rewrite W. now apply idx_lt. }
    exists (mat_text R pr m (fun x => x)), ws'. split; [now apply mat_write_ok|]. split; auto.
    rewrite E. f_equal. f_equal. eapply is_mat_unique; [exact HP|]. now apply is_mat_self.
Qed.
Print Assumptions C31_from_file.

(** print(os, eps) writes the text of the matrix with the small elements set to zero. *)
Theorem C31_print : forall (R : cring) pr (small : R -> bool) (m m' : mat R), mat_wf m ->
  is_mat m' (m_nrow m) (m_ncol m) (fun i j => if small (melem m i j) then c0 else melem m i j) ->
  mat_print R pr small m = mat_write R pr m'.
Proof.
  intros R pr small m m' W (A & B & W' & C). rewrite mat_print_ok, mat_write_ok by auto. f_equal. unfold mat_text.
  rewrite A, B. do 4 f_equal. rewrite !flat_map_concat_map. f_equal. apply map_ext_in. intros i Hi. apply in_seq in Hi.
  f_equal. rewrite !flat_map_concat_map. f_equal. apply map_ext_in. intros j Hj. apply in_seq in Hj. now rewrite C by lia.
Qed.
Print Assumptions C31_print.

Example C31_nonvacuous :
  let m := mkmat (R := Zring) 2 3 [1; 2; 3; -4; 50; 6]%Z in
  mat_wf m /\ mat_write Zring print_Z m = Ok (lit "2 3
1 3 50 
2 -4 6 
") /\ mat_read Zring (lift_rd (rd_num conv_Z)) (mkis (lit "2 3
1 3 50 
2 -4 6 
more") false) (mkmat 2 1 [7; 7]%Z) = Ok (m, mkis (lit " 
more") false).
Proof. repeat split; vm_compute; reflexivity. Qed.

(** * C29 *)
(** A matrix with rows and columns, of dimensions below 2^31, reads back unchanged from its text, whatever the target was; the text after it is left. *)
Theorem C29_text_partial : forall (R : cring) dom pr rd, reads_back dom pr rd ->
  forall (m old : crs R) g g' ws rest, crs_wf m -> 0 < c_nrow m -> 0 < c_ncol m ->
  (Z.of_nat (c_nrow m) < 2147483648)%Z -> (Z.of_nat (c_ncol m) < 2147483648)%Z ->
  (Z.of_nat (length (c_colind m)) < 2147483648)%Z -> Forall dom (c_values m) -> spaces ws ->
  exists text ws', crs_write R pr m = Ok text /\ spaces ws' /\
    crs_read R rd g g' (mkis (ws ++ text ++ rest) false) old = Ok (m, mkis (ws' ++ rest) false).
Proof.
  intros R dom pr rd H m old g g' ws rest W Hr0 Hc0 Hr Hc Hz Hd Hw.
  destruct (crs_read_ok R dom pr rd H m old g g' ws rest) as (ws' & Hw' & E); auto.
  exists (crs_text R pr m), ws'. split; [now apply crs_write_ok|]. auto.
Qed.
Print Assumptions C29_text_partial.

(** A matrix without rows, read into any matrix, leaves that matrix as it is. *)
Theorem C29_text_empty_refuted : forall (R : cring) pr rd (m old : crs R) g g' rest, c_nrow m = 0 ->
  exists text, crs_write R pr m = Ok text /\
    crs_read R rd g g' (mkis (text ++ rest) false) old = Ok (old, mkis (nl ++ rest) false).
Proof.
  intros R pr rd m old g g' rest H. unfold crs_write. rewrite H. cbn [Nat.eqb]. eexists. split; [reflexivity|].
  unfold crs_read. change (lit "0 0" ++ nl) with (print_Z 0 ++ sp ++ print_Z 0 ++ nl). rewrite <- !app_assoc.
  rewrite rd_int_print0 by (auto using ends_sp; lia).
  replace (0 <? 0)%Z with false by reflexivity.
  rewrite rd_int_print by (auto using spaces_sp, ends_nl; lia). reflexivity.
Qed.
Print Assumptions C29_text_empty_refuted.

(** With rows but no columns the old matrix also stays, and part of the text is not
    consumed. *)
Theorem C29_text_no_columns_refuted :
  let m := mkcrs (R := Zring) [0; 0; 0] [] [] 2 0 in
  let old := mkcrs (R := Zring) [0; 1] [0] [5%Z] 1 1 in
  crs_wf m /\ exists text, crs_write Zring print_Z m = Ok text /\
    crs_read Zring (lift_rd (rd_num conv_Z)) 0 0 (mkis text false) old = Ok (old, mkis (lit "
0 0 0 
0

0

") false).
Proof.
  split.
  - split; [left; reflexivity|]. split; [reflexivity|]. split; [|repeat split; constructor].
    intros i Hi. cbn [c_nrow] in Hi. assert (i = 0 \/ i = 1) as [-> | ->] by lia; apply le_n.
  - eexists. split; [vm_compute; reflexivity|vm_compute; reflexivity].
Qed.
Print Assumptions C29_text_no_columns_refuted.

Example C29_nonvacuous :
  let m := mkcrs (R := Zring) [0; 1; 3] [2; 0; 1] [5; -6; 7]%Z 2 3 in
  crs_write Zring print_Z m = Ok (lit "2 3
0 1 3 
3
2 0 1 
3
5 -6 7 
") /\ crs_read Zring (lift_rd (rd_num conv_Z)) 0 0 (mkis (lit "2 3
0 1 3 
3
2 0 1 
3
5 -6 7 
tail") false) (mkcrs [0] [] [] 0 0) = Ok (m, mkis (lit " 
tail") false).
Proof. split; vm_compute; reflexivity. Qed.
