(** Lemmas about formatted text. *)
From Coq Require Import Ascii String.
From Verif Require Import Prelude Ring Dense_Model Dense_Spec Dense_Proofs Crs_Model Crs_Spec
  Str_Model Str_Spec Str_Proofs Text_Model Text_Spec.
Import List.

Lemma isspace_In c : isspace c = true <-> is_space c.
Proof.
  split.
  - revert c. apply (fun H => H). intros c. destruct c as [[] [] [] [] [] [] [] []]; vm_compute; intros H; try discriminate H; tauto.
  - intros H. unfold is_space in H. simpl in H.
    repeat (destruct H as [<-|H]; [reflexivity|]). destruct H.
Qed.

Lemma skipws_app ws s : spaces ws -> skipws (ws ++ s) = skipws s.
Proof.
  induction 1 as [|c ws Hc _ IH]; [reflexivity|]. simpl. apply isspace_In in Hc. now rewrite Hc.
Qed.

Lemma spaces_app a b : spaces a -> spaces b -> spaces (a ++ b).
Proof. intros. now apply Forall_app. Qed.
Lemma spaces_nl : spaces nl.
Proof. constructor; [|constructor]. apply isspace_In. reflexivity. Qed.
Lemma spaces_sp : spaces sp.
Proof. constructor; [|constructor]. apply isspace_In. reflexivity. Qed.
Lemma ends_app sep rest : spaces sep -> sep <> [] -> ends_token (sep ++ rest).
Proof.
  intros H Hne. destruct sep as [|c sep]; [congruence|]. right. exists c, (sep ++ rest). split; auto.
  now inversion H.
Qed.
Lemma ends_nl rest : ends_token (nl ++ rest).
Proof. apply ends_app; [apply spaces_nl|discriminate]. Qed.
Lemma ends_sp rest : ends_token (sp ++ rest).
Proof. apply ends_app; [apply spaces_sp|discriminate]. Qed.
Lemma ends_app' ws rest : spaces ws -> ends_token rest -> ends_token (ws ++ rest).
Proof.
  intros H He. destruct ws as [|c ws]; [exact He|]. apply (ends_app (c :: ws)); auto. discriminate.
Qed.

Lemma span_app f a b : (forall c, In c a -> f c = true) ->
  (b = [] \/ exists c r, b = c :: r /\ f c = false) -> span f (a ++ b) = (a, b).
Proof.
  intros Ha Hb. induction a as [|c a IH].
  - destruct Hb as [->|(c & r & -> & Hc)]; simpl; [reflexivity|now rewrite Hc].
  - simpl. rewrite Ha by (simpl; auto). rewrite IH by (intros; apply Ha; simpl; auto). reflexivity.
Qed.

Lemma digit_chr_ok d : (0 <= d < 10)%Z -> is_digit (digit_chr d) /\ digit_val (digit_chr d) = d.
Proof.
  intros H. unfold digit_chr.
  assert (d = 0 \/ d = 1 \/ d = 2 \/ d = 3 \/ d = 4 \/ d = 5 \/ d = 6 \/ d = 7 \/ d = 8 \/ d = 9)%Z as D by lia.
  repeat (destruct D as [->|D]; [split; [vm_compute; tauto|reflexivity]|]).
  subst d. split; [vm_compute; tauto|reflexivity].
Qed.

Lemma dec_val_snoc s c : dec_val (s ++ [c]) = (10 * dec_val s + digit_val c)%Z.
Proof.
  induction s as [|x s IH]; [simpl; lia|]. cbn [app dec_val]. rewrite IH, app_length. cbn [length].
  rewrite Nat2Z.inj_add. change (Z.of_nat 1) with 1%Z. rewrite Z.pow_add_r by lia. lia.
Qed.

Lemma digits_loop_ok fuel : forall n, (0 <= n < 2 ^ Z.of_nat fuel)%Z -> (0 < fuel)%nat ->
  digits_loop fuel n <> [] /\ (forall c, In c (digits_loop fuel n) -> is_digit c) /\ dec_val (digits_loop fuel n) = n.
Proof.
  induction fuel as [|fuel IH]; [lia|]. intros n Hn _. cbn [digits_loop].
  destruct (Z.ltb_spec n 10).
  - destruct (digit_chr_ok n) as [A B]; [lia|]. split; [discriminate|]. split.
    + intros c [<-|[]]; auto.
    + cbn [dec_val length]. rewrite B. change (Z.of_nat 0) with 0%Z. rewrite Z.pow_0_r. lia.
  - assert (Hd : (0 <= n / 10 < 2 ^ Z.of_nat fuel)%Z).
    { split; [apply Z.div_pos; lia|]. apply Z.div_lt_upper_bound; [lia|].
      rewrite Nat2Z.inj_succ, Z.pow_succ_r in Hn by lia. pose proof (Z.pow_pos_nonneg 2 (Z.of_nat fuel)). lia. }
    assert (0 < fuel)%nat.
    { destruct fuel; [|lia]. simpl in Hn. change (2 ^ Z.of_nat 1)%Z with 2%Z in Hn. lia. }
    destruct (IH _ Hd) as (A & B & C); auto.
    destruct (digit_chr_ok (n mod 10)) as [D E]; [apply Z.mod_pos_bound; lia|].
    split; [destruct (digits_loop fuel (n / 10)); discriminate|]. split.
    + intros c Hc. apply in_app_or in Hc as [Hc|[<-|[]]]; auto.
    + rewrite dec_val_snoc, C, E. symmetry. apply Z.div_mod. lia.
Qed.

Lemma digits_of_ok n : (0 <= n)%Z -> let ds := digits_loop (S (Z.to_nat (Z.log2 n))) n in
  ds <> [] /\ (forall c, In c ds -> is_digit c) /\ atoi_digits ds 0 = n.
Proof.
  intros Hn ds. destruct (digits_loop_ok (S (Z.to_nat (Z.log2 n))) n) as (A & B & C); [|lia|].
  - split; auto. rewrite Nat2Z.inj_succ, Z2Nat.id by apply Z.log2_nonneg.
    destruct (Z.eq_dec n 0) as [->|]; [reflexivity|]. apply Z.log2_spec. lia.
  - split; auto. split; auto. unfold ds. rewrite atoi_digits_spec by auto. rewrite C. lia.
Qed.

Lemma digit_not_space c : is_digit c -> isspace c = false.
Proof. intros H. unfold is_digit in H. simpl in H. repeat (destruct H as [<-|H]; [reflexivity|]). destruct H. Qed.
Lemma digit_not_sign c : is_digit c -> (Ascii.eqb c "-" || Ascii.eqb c "+")%char = false /\ Ascii.eqb c "-" = false.
Proof. intros H. unfold is_digit in H. simpl in H. repeat (destruct H as [<-|H]; [split; reflexivity|]). destruct H. Qed.
Lemma space_not_digit c : is_space c -> isdigit c = false.
Proof. intros H. unfold is_space in H. simpl in H. repeat (destruct H as [<-|H]; [reflexivity|]). destruct H. Qed.

Lemma rd_num_print conv n old ws rest : conv (n <? 0)%Z (Z.abs n) = (n, false) -> spaces ws -> ends_token rest ->
  rd_num conv (mkis (ws ++ print_Z n ++ rest) false) old = (n, mkis rest false).
Proof.
  intros Hc Hw He. unfold rd_num. cbn [is_fail is_buf]. rewrite skipws_app by auto.
  assert (Hr : rest = [] \/ exists c r, rest = c :: r /\ isdigit c = false).
  { destruct He as [->|(c & r & -> & Hs)]; [now left|right]. exists c, r. split; auto. now apply space_not_digit. }
  unfold print_Z in *. destruct (Z.ltb_spec n 0).
  - destruct (digits_of_ok (- n)) as (A & B & C); [lia|]. set (ds := digits_loop _ _) in *.
    cbn [app]. cbn [skipws]. replace (isspace "-") with false by reflexivity. cbv beta iota.
    replace (Ascii.eqb "-" "-") with true by reflexivity. cbn [orb].
    rewrite span_app; auto. 2:{ intros c Hin. apply isdigit_In. auto. }
    destruct ds as [|d ds'] eqn:E; [congruence|]. rewrite <- E in *. rewrite C.
    replace (Z.abs n) with (- n)%Z in Hc by lia. now rewrite Hc.
  - destruct (digits_of_ok n) as (A & B & C); [lia|]. set (ds := digits_loop _ _) in *.
    destruct ds as [|d ds'] eqn:E; [congruence|].
    cbn [app]. cbn [skipws]. rewrite digit_not_space by (apply B; simpl; auto).
    destruct (digit_not_sign d) as [S1 S2]; [apply B; simpl; auto|]. rewrite S1, S2.
    change (d :: ds' ++ rest) with ((d :: ds') ++ rest). rewrite span_app; auto.
    2:{ intros c Hin. apply isdigit_In. auto. }
    rewrite C. replace (Z.abs n) with n in Hc by lia. now rewrite Hc.
Qed.

Lemma conv_int_ok n : (-2147483648 <= n < 2147483648)%Z -> conv_int (n <? 0)%Z (Z.abs n) = (n, false).
Proof.
  intros H. unfold conv_int. replace (if (n <? 0)%Z then (- Z.abs n)%Z else Z.abs n) with n by (destruct (Z.ltb_spec n 0); lia).
  destruct (Z.ltb_spec n (-2147483648)); [lia|]. destruct (Z.ltb_spec 2147483647 n); [lia|]. reflexivity.
Qed.
Lemma conv_size_ok n : (0 <= n < 18446744073709551616)%Z -> conv_size (n <? 0)%Z (Z.abs n) = (n, false).
Proof.
  intros H. unfold conv_size. destruct (Z.ltb_spec n 0); [lia|]. rewrite Z.abs_eq by lia.
  destruct (Z.ltb_spec 18446744073709551615 n); [lia|]. now rewrite Z.mod_small by lia.
Qed.
Lemma conv_Z_ok n : conv_Z (n <? 0)%Z (Z.abs n) = (n, false).
Proof. unfold conv_Z. f_equal. destruct (Z.ltb_spec n 0); lia. Qed.

Lemma rd_int_print n old ws rest : (-2147483648 <= n < 2147483648)%Z -> spaces ws -> ends_token rest ->
  rd_int (mkis (ws ++ print_Z n ++ rest) false) old = (n, mkis rest false).
Proof. intros. apply rd_num_print; auto. now apply conv_int_ok. Qed.
Lemma rd_size_print n old ws rest : (0 <= n < 18446744073709551616)%Z -> spaces ws -> ends_token rest ->
  rd_size (mkis (ws ++ print_Z n ++ rest) false) old = (n, mkis rest false).
Proof. intros. apply rd_num_print; auto. now apply conv_size_ok. Qed.

Lemma rd_int_print0 n old rest : (-2147483648 <= n < 2147483648)%Z -> ends_token rest ->
  rd_int (mkis (print_Z n ++ rest) false) old = (n, mkis rest false).
Proof. intros. apply (rd_int_print n old []); auto. constructor. Qed.
Lemma rd_size_print0 n old rest : (0 <= n < 18446744073709551616)%Z -> ends_token rest ->
  rd_size (mkis (print_Z n ++ rest) false) old = (n, mkis rest false).
Proof. intros. apply (rd_size_print n old []); auto. constructor. Qed.

Lemma rb_Z : reads_back (fun _ => True) print_Z (lift_rd (rd_num conv_Z)).
Proof.
  intros x old ws rest _ Hw He. exists []. split; [constructor|]. unfold lift_rd.
  rewrite rd_num_print; auto. apply conv_Z_ok.
Qed.
Lemma rb_int : reads_back (fun x => -2147483648 <= x < 2147483648)%Z print_Z (lift_rd rd_int).
Proof. intros x old ws rest Hx Hw He. exists []. split; [constructor|]. unfold lift_rd. now rewrite rd_int_print. Qed.
Lemma rb_size : reads_back (fun x => 0 <= x < 18446744073709551616)%Z print_Z (lift_rd rd_size).
Proof. intros x old ws rest Hx Hw He. exists []. split; [constructor|]. unfold lift_rd. now rewrite rd_size_print. Qed.
Lemma rb_int_nat : reads_back (fun x => Z.of_nat x < 2147483648)%Z print_nat rd_int_nat.
Proof.
  intros x old ws rest Hx Hw He. exists []. split; [constructor|]. unfold rd_int_nat, print_nat.
  rewrite rd_int_print by (auto; lia). destruct (Z.ltb_spec (Z.of_nat x) 0); [lia|]. now rewrite Nat2Z.id.
Qed.
Lemma rb_str : reads_back (fun w => w <> [] /\ forall c, In c w -> ~ is_space c) (fun w => w) (lift_rd rd_str).
Proof.
  intros w old ws rest [Hne Hw] Hs He. exists []. split; [constructor|]. unfold lift_rd, rd_str. cbn [is_fail is_buf].
  rewrite skipws_app by auto. destruct w as [|c w]; [congruence|]. cbn [app skipws].
  assert (N : forall x, In x (c :: w) -> isspace x = false).
  { intros x Hx. destruct (isspace x) eqn:E; auto. exfalso. apply (Hw x Hx). now apply isspace_In. }
  rewrite (N c) by (simpl; auto). change (c :: w ++ rest) with ((c :: w) ++ rest).
  rewrite span_app; [reflexivity| |].
  - intros x Hx. now rewrite N.
  - destruct He as [->|(x & r & -> & Hx)]; [now left|right]. exists x, r. split; auto.
    apply isspace_In in Hx. now rewrite Hx.
Qed.
Lemma rb_pair : reads_back (fun p => 0 <= fst p < 18446744073709551616 /\ 0 <= snd p < 18446744073709551616)%Z
  pair_write pair_read.
Proof.
  intros [a b] old ws rest [Ha Hb] Hw He. exists sp. split; [apply spaces_sp|]. unfold pair_read, pair_write. cbn [fst snd] in *.
  rewrite <- !app_assoc. rewrite rd_size_print by (auto using ends_sp).
  rewrite rd_size_print by (auto using spaces_sp, ends_sp). reflexivity.
Qed.

Section Lists.
  Context {T : Type}.
  Variable dflt : T.
  Variable dom : T -> Prop.
  Variable pr : T -> str.
  Variable rd : istream -> T -> res (T * istream).
  Hypothesis Hrb : reads_back dom pr rd.

  Lemma read_loop_ok sep vs v0 ws rest : spaces sep -> sep <> [] -> spaces ws -> length v0 = length vs -> Forall dom vs ->
    exists ws', spaces ws' /\
      read_loop rd v0 (mkis (ws ++ flat_map (fun x => pr x ++ sep) vs ++ rest) false) = Ok (vs, mkis (ws' ++ rest) false).
  Proof.
    intros Hsep Hne Hw Hlen Hd. unfold read_loop.
    loopM (fun k '(v, s) => v = firstn k vs ++ skipn k v0 /\ exists ws', spaces ws' /\
      s = mkis (ws' ++ flat_map (fun x => pr x ++ sep) (skipn k vs) ++ rest) false) as st E H.
    - split; [reflexivity|]. exists ws. split; auto.
    - intros k [v s] Hk [-> (ws' & Hw' & ->)].
      assert (Hk' : k < length vs) by lia.
      destruct (nth_error vs k) as [x|] eqn:Ex; [|apply nth_error_None in Ex; lia].
      rewrite (@skipn_nth _ vs k x Hk'). assert (nth k vs x = x) as -> by now apply nth_error_nth.
      cbn [flat_map]. rewrite <- !app_assoc.
      rewrite (@vget_ok _ _ _ x) by (rewrite app_length, firstn_length, skipn_length; lia). cbn [bind].
      destruct (Hrb x (nth k (firstn k vs ++ skipn k v0) x) ws' (sep ++ flat_map (fun x => pr x ++ sep) (skipn (S k) vs) ++ rest)) as (w2 & Hw2 & ->).
      { rewrite Forall_forall in Hd. apply Hd. now apply nth_error_In in Ex. }
      { auto. } { now apply ends_app. }
      cbn [bind]. rewrite vset_ok by (rewrite app_length, firstn_length, skipn_length; lia). cbn [bind].
      eexists. split; [reflexivity|]. split.
      + rewrite (@firstn_S_nth _ vs k x) by lia.
        assert (nth k vs x = x) as -> by now apply nth_error_nth.
        rewrite (@skipn_nth _ v0 k x) by lia.
        rewrite upd_app_mid by (rewrite firstn_length; lia). now rewrite <- app_assoc.
      + exists (w2 ++ sep). split; [now apply spaces_app|]. now rewrite <- app_assoc.
    - destruct st as [v s]. destruct H as [-> (ws' & Hw' & ->)]. exists ws'. split; auto.
      rewrite E. cbn [Nat.add]. rewrite (skipn_all v0). rewrite !Hlen, firstn_all, skipn_all, app_nil_r. reflexivity.
  Qed.

  Lemma vec_read_ok v old ws rest : Forall dom v -> (Z.of_nat (length v) < 2147483648)%Z -> spaces ws ->
    exists ws', spaces ws' /\
      vec_read dflt rd (mkis (ws ++ vec_write pr v ++ rest) false) old = Ok (v, mkis (ws' ++ rest) false).
  Proof.
    intros Hd Hl Hw. unfold vec_read, vec_write, print_nat. rewrite <- !app_assoc.
    rewrite rd_int_print by (auto using ends_nl; lia).
    destruct (Z.ltb_spec (Z.of_nat (length v)) 0); [lia|].
    apply (read_loop_ok nl); auto using spaces_nl; [discriminate|]. now rewrite vresize_length, Nat2Z.id.
  Qed.

  Lemma stack_read_ok st old ws rest : Forall dom st -> (Z.of_nat (length st) < 2147483648)%Z -> spaces ws ->
    exists ws', spaces ws' /\
      stack_read dflt rd (mkis (ws ++ stack_write pr st ++ rest) false) old = Ok (st ++ old, mkis (ws' ++ rest) false).
  Proof.
    intros Hd Hl Hw. destruct (vec_read_ok st [] ws rest Hd Hl Hw) as (ws' & Hw' & E). exists ws'. split; auto.
    unfold stack_read. change (stack_write pr st) with (vec_write pr st). rewrite E. cbn [bind].
    assert (P : forall k, k <= length st ->
      forL (rev (seq 0 k)) (fun i x => do e <- vget st i ;; Ok (e :: x)) (skipn k st ++ old) = Ok (st ++ old)).
    { induction k; intros Hk; [reflexivity|]. rewrite seq_S, rev_app_distr. cbn [rev app plus forL].
      destruct (nth_error st k) as [x|] eqn:Ex; [|apply nth_error_None in Ex; lia].
      rewrite (@vget_ok _ st _ x) by lia. cbn [bind].
      rewrite <- (IHk ltac:(lia)). f_equal. rewrite (@skipn_nth _ st k x) by lia. reflexivity. }
    specialize (P (length st) (le_n _)). rewrite skipn_all in P. cbn [app] in P. rewrite P. reflexivity.
  Qed.
End Lists.

Lemma rb_vec {T} (dflt : T) dom pr rd : reads_back dom pr rd ->
  reads_back (fun v => Forall dom v /\ (Z.of_nat (length v) < 2147483648)%Z) (vec_write pr) (vec_read dflt rd).
Proof. intros H v old ws rest [Hd Hl] Hw He. now apply vec_read_ok with (dom := dom). Qed.

(** A stream that has failed gives nothing. *)
Lemma read_loop_fail {T} (rd : istream -> T -> res (T * istream)) v s :
  (forall old s, is_fail s = true -> rd s old = Ok (old, s)) -> is_fail s = true ->
  read_loop rd v s = Ok (v, s).
Proof.
  intros Hrd Hf. unfold read_loop.
  loopM (fun (_ : nat) st => st = (v, s)) as st E H.
  - reflexivity.
  - intros k st Hk ->. destruct (nth_error v k) as [x|] eqn:Ex; [|apply nth_error_None in Ex; lia].
    rewrite (@vget_ok _ v _ x) by lia. cbn [bind]. rewrite Hrd by auto. cbn [bind].
    rewrite vset_ok by lia. cbn [bind]. eexists. split; [reflexivity|]. f_equal.
    apply (list_eq_nth _ _ x); [apply upd_length|]. intros j Hj. rewrite nth_upd. rewrite upd_length in Hj.
    destruct (Nat.eqb_spec j k) as [->|]; [|reflexivity]. destruct (Nat.ltb_spec k (length v)); [reflexivity|lia].
  - now subst st.
Qed.

Section Mats.
  Variable R : cring.
  Variable dom : R -> Prop.
  Variable pr : R -> str.
  Variable rd : istream -> R -> res (R * istream).
  Hypothesis Hrb : reads_back dom pr rd.

  (** The text of a matrix. *)
  Definition mat_text (m : mat R) (f : R -> R) : str :=
    print_nat (m_nrow m) ++ sp ++ print_nat (m_ncol m) ++ nl ++
    flat_map (fun i => flat_map (fun j => pr (f (melem m i j)) ++ sp) (seq 0 (m_ncol m)) ++ nl) (seq 0 (m_nrow m)).

  Lemma forM_text {A} n (g : nat -> res A) (h : nat -> A) (tx : A -> str) os :
    (forall i, i < n -> g i = Ok (h i)) ->
    forM n 0 (fun i os => do x <- g i ;; Ok (os ++ tx x ++ sp)) os =
    Ok (os ++ flat_map (fun i => tx (h i) ++ sp) (seq 0 n)).
  Proof.
    intros Hg. loopM (fun k t => t = os ++ flat_map (fun i => tx (h i) ++ sp) (seq 0 k)) as t E H.
    - now rewrite app_nil_r.
    - intros k t Hk ->. rewrite Hg by lia. cbn [bind]. eexists. split; [reflexivity|].
      rewrite seq_S, flat_map_app. cbn [flat_map Nat.add]. now rewrite app_nil_r, <- !app_assoc.
    - now subst t.
  Qed.

  Lemma mat_write_ok m : mat_wf m -> mat_write R pr m = Ok (mat_text m (fun x => x)).
  Proof.
    intros W. unfold mat_write, mat_text.
    loopM (fun k t => t = print_nat (m_nrow m) ++ sp ++ print_nat (m_ncol m) ++ nl ++
      flat_map (fun i => flat_map (fun j => pr (melem m i j) ++ sp) (seq 0 (m_ncol m)) ++ nl) (seq 0 k)) as t E H.
    - cbn [seq flat_map]. now rewrite app_nil_r.
    - intros k t Hk ->.
      rewrite (forM_text (m_ncol m) (mget R m k) (melem m k) pr).
      2:{ intros j Hj. apply mget_ok; auto; lia. }
      cbn [bind]. eexists. split; [reflexivity|].
      rewrite seq_S, flat_map_app. cbn [flat_map Nat.add]. now rewrite app_nil_r, <- !app_assoc.
    - now subst t.
  Qed.

  Lemma mat_print_ok small m : mat_wf m ->
    mat_print R pr small m = Ok (mat_text m (fun x => if small x then c0 else x)).
  Proof.
    intros W. unfold mat_print, mat_text.
    loopM (fun k t => t = print_nat (m_nrow m) ++ sp ++ print_nat (m_ncol m) ++ nl ++
      flat_map (fun i => flat_map (fun j => pr (if small (melem m i j) then c0 else melem m i j) ++ sp) (seq 0 (m_ncol m)) ++ nl) (seq 0 k)) as t E H.
    - cbn [seq flat_map]. now rewrite app_nil_r.
    - intros k t Hk ->.
      rewrite (forM_text (m_ncol m) (fun j => vget (m_data m) (k + j * m_nrow m)) (melem m k) (fun x => pr (if small x then c0 else x))).
      2:{ intros j Hj. apply vget_ok. rewrite W. apply idx_lt; lia. }
      cbn [bind]. eexists. split; [reflexivity|].
      rewrite seq_S, flat_map_app. cbn [flat_map Nat.add]. now rewrite app_nil_r, <- !app_assoc.
    - now subst t.
  Qed.

  (** Reading rows: used for both ways to read a matrix. *)
  Lemma rows_read_ok {S} (r c : nat) (f : nat -> nat -> R) (get : S -> nat -> nat -> res R) (set : S -> nat -> nat -> R -> res S)
      (P : (nat -> nat -> R) -> S -> Prop) s0 g0 ws rest :
    (forall g s i j, P g s -> i < r -> j < c -> get s i j = Ok (g i j)) ->
    (forall g s i j x, P g s -> i < r -> j < c -> exists s', set s i j x = Ok s' /\
        P (fun i' j' => if (i' =? i) && (j' =? j) then x else g i' j') s') ->
    (forall g g' s, P g s -> (forall i j, i < r -> j < c -> g i j = g' i j) -> P g' s) ->
    P g0 s0 -> (forall i j, i < r -> j < c -> dom (f i j)) -> spaces ws ->
    exists s1 ws', spaces ws' /\ P f s1 /\
      forM r 0 (fun i '(A, s) => forM c 0 (fun j '(A, s) =>
        do old <- get A i j ;; do (x, s) <- rd s old ;; do A <- set A i j x ;; Ok (A, s)) (A, s))
        (s0, mkis (ws ++ flat_map (fun i => flat_map (fun j => pr (f i j) ++ sp) (seq 0 c) ++ nl) (seq 0 r) ++ rest) false)
      = Ok (s1, mkis (ws' ++ rest) false).
  Proof.
    intros Hget Hset Hext H0 Hd Hw.
    loopM (fun k '(A, s) => P (fun i j => if i <? k then f i j else g0 i j) A /\ exists ws', spaces ws' /\
      s = mkis (ws' ++ flat_map (fun i => flat_map (fun j => pr (f i j) ++ sp) (seq 0 c) ++ nl) (seq k (r - k)) ++ rest) false)
      as st E H.
    - split; [exact H0|]. exists ws. split; auto. now rewrite Nat.sub_0_r.
    - intros i [A s] Hi [HP (ws1 & Hw1 & ->)].
      replace (r - i) with (Datatypes.S (r - Datatypes.S i)) by lia. cbn [seq flat_map]. rewrite <- !app_assoc.
      set (rest' := nl ++ flat_map _ (seq (Datatypes.S i) _) ++ rest).
      loopM (fun k '(A, s) => P (fun i' j' => if (i' <? i) || ((i' =? i) && (j' <? k)) then f i' j' else g0 i' j') A /\
        exists ws', spaces ws' /\ s = mkis (ws' ++ flat_map (fun j => pr (f i j) ++ sp) (seq k (c - k)) ++ rest') false)
        as st2 E2 H2.
      + split.
        * eapply Hext; [exact HP|]. intros i' j' _ _. cbn beta. destruct (Nat.ltb_spec j' 0); [lia|]. now rewrite andb_false_r, orb_false_r.
        * exists ws1. split; auto. now rewrite Nat.sub_0_r.
      + intros j [A' s'] Hj [HP' (ws2 & Hw2 & ->)].
        replace (c - j) with (Datatypes.S (c - Datatypes.S j)) by lia. cbn [seq flat_map]. rewrite <- !app_assoc.
        rewrite (Hget _ _ i j HP') by lia. cbn [bind].
        match goal with |- context [rd _ ?o] => destruct (Hrb (f i j) o ws2 (sp ++ flat_map (fun j => pr (f i j) ++ sp) (seq (Datatypes.S j) (c - Datatypes.S j)) ++ rest')) as (w3 & Hw3 & ->) end;
          [apply Hd; lia|auto|apply ends_sp|].
        cbn [bind]. destruct (Hset _ A' i j (f i j) HP') as (A2 & -> & HP2); [lia|lia|]. cbn [bind].
        eexists. split; [reflexivity|]. split.
        * eapply Hext; [exact HP2|]. intros i' j' _ _. cbn beta.
          destruct (Nat.eqb_spec i' i) as [->|]; cbn [andb].
          -- rewrite Nat.ltb_irrefl. cbn [orb]. destruct (Nat.eqb_spec j' j) as [->|].
             ++ now destruct (Nat.ltb_spec j (Datatypes.S j)); [|lia].
             ++ destruct (Nat.ltb_spec j' j), (Nat.ltb_spec j' (Datatypes.S j)); try lia; reflexivity.
          -- now rewrite !orb_false_r.
        * exists (w3 ++ sp). split; [apply spaces_app; auto using spaces_sp|]. now rewrite <- app_assoc.
      + destruct st2 as [A2 s2]. destruct H2 as [HP2 (ws2 & Hw2 & ->)]. rewrite E2. eexists. split; [reflexivity|]. split.
        * eapply Hext; [exact HP2|]. intros i' j' Hi' Hj'. cbn beta. cbn [Nat.add].
          destruct (Nat.ltb_spec j' c); [|lia]. rewrite andb_true_r.
          destruct (Nat.ltb_spec i' i), (Nat.eqb_spec i' i), (Nat.ltb_spec i' (Datatypes.S i)); cbn [orb]; try lia; reflexivity.
        * exists (ws2 ++ nl). split; [apply spaces_app; auto using spaces_nl|].
          cbn [Nat.add]. rewrite Nat.sub_diag. cbn [seq flat_map app]. unfold rest'. now rewrite <- !app_assoc.
    - destruct st as [A s]. destruct H as [HP (ws' & Hw' & ->)]. exists A, ws'. split; auto. split.
      + eapply Hext; [exact HP|]. intros i j Hi Hj. cbn beta. destruct (Nat.ltb_spec i (0 + r)); [reflexivity|lia].
      + rewrite E. cbn [Nat.add]. rewrite Nat.sub_diag. reflexivity.
  Qed.

  Lemma mat_read_ok m A ws rest : mat_wf m -> mat_wf A -> (m_nrow A = 0 \/ m_nrow A = m_nrow m) ->
    (Z.of_nat (m_nrow m) < 18446744073709551616)%Z -> (Z.of_nat (m_ncol m) < 18446744073709551616)%Z ->
    (forall i j, i < m_nrow m -> j < m_ncol m -> dom (melem m i j)) -> spaces ws ->
    exists A' ws', spaces ws' /\ is_mat A' (m_nrow m) (m_ncol m) (melem m) /\
      mat_read R rd (mkis (ws ++ mat_text m (fun x => x) ++ rest) false) A = Ok (A', mkis (ws' ++ rest) false).
  Proof.
    intros W WA HA Hr Hc Hd Hw. unfold mat_read, mat_text, print_nat. rewrite <- !app_assoc.
    rewrite rd_size_print by (auto using ends_sp; lia).
    rewrite rd_size_print by (auto using spaces_sp, ends_nl; lia). cbn [is_fail]. rewrite !Nat2Z.id.
    unfold mat_resize. replace ((0 <? m_nrow A)%nat && negb (m_nrow A =? m_nrow m)%nat) with false.
    2:{ destruct HA as [->| ->]; [reflexivity|]. now rewrite Nat.eqb_refl, andb_false_r. }
    cbn [bind m_nrow m_ncol]. set (A0 := mkmat (m_nrow m) (m_ncol m) _).
    destruct (rows_read_ok (m_nrow m) (m_ncol m) (melem m) (mget R) (mset R)
      (fun g A => is_mat A (m_nrow m) (m_ncol m) g) A0 (melem A0) nl rest) as (A' & ws' & Hw' & HP & E).
    - intros g B i j (B1 & B2 & B3 & B4) Hi Hj. rewrite mget_ok by (auto; lia). f_equal. now apply B4.
    - intros g B i j x (B1 & B2 & B3 & B4) Hi Hj. destruct (mset_ok R B i j x B3) as (B' & E & HB); [lia|lia|].
      exists B'. split; auto. rewrite B1, B2 in HB. eapply is_mat_ext; [|exact HB].
      intros i' j' Hi' Hj'. cbn beta. now rewrite B4.
    - intros g g' B HB Hg. eapply is_mat_ext; eauto.
    - unfold is_mat, A0, mat_wf. cbn. rewrite vresize_length. auto.
    - auto.
    - apply spaces_nl.
    - exists A', ws'. auto.
  Qed.

  Lemma mat_from_file_ok m g1 g2 ws rest : mat_wf m -> 0 < m_nrow m -> 0 < m_ncol m ->
    (Z.of_nat (m_nrow m) < 18446744073709551616)%Z -> (Z.of_nat (m_ncol m) < 18446744073709551616)%Z ->
    (forall i j, i < m_nrow m -> j < m_ncol m -> dom (melem m i j)) -> spaces ws ->
    exists A' ws', spaces ws' /\ is_mat A' (m_nrow m) (m_ncol m) (melem m) /\
      mat_from_file R rd g1 g2 (mkis (ws ++ mat_text m (fun x => x) ++ rest) false) = Ok (A', mkis (ws' ++ rest) false).
  Proof.
    intros W Hr0 Hc0 Hr Hc Hd Hw. unfold mat_from_file, mat_text, print_nat. rewrite <- !app_assoc.
    rewrite rd_size_print by (auto using ends_sp; lia).
    rewrite rd_size_print by (auto using spaces_sp, ends_nl; lia).
    destruct (Z.leb_spec (Z.of_nat (m_nrow m)) 0); [lia|]. destruct (Z.leb_spec (Z.of_nat (m_ncol m)) 0); [lia|].
    cbn [orb]. rewrite !Nat2Z.id. set (r := m_nrow m) in *. set (c := m_ncol m) in *.
    destruct (rows_read_ok r c (melem m) (fun d i j => vget d (i + j * r)) (fun d i j x => vset d (i + j * r) x)
      (fun g d => is_mat (mkmat r c d) r c g) (repeat c0 (r * c)) (fun i j => c0) nl rest) as (d & ws' & Hw' & HP & E).
    - intros g d i j (B1 & B2 & B3 & B4) Hi Hj. rewrite (vget_ok d c0).
      + f_equal. exact (B4 i j Hi Hj).
      + unfold mat_wf in B3. cbn in B3. rewrite B3. now apply idx_lt.
    - intros g d i j x (B1 & B2 & B3 & B4) Hi Hj.
      destruct (mset_ok R (mkmat r c d) i j x B3) as (B' & EB & HB); [auto|auto|].
      unfold mset in EB. cbn [m_nrow m_ncol m_data] in EB.
      destruct (Nat.ltb_spec i r); [|lia]. destruct (Nat.ltb_spec j c); [|lia]. cbn [andb] in EB.
      destruct (vset d (i + j * r) x) as [d'| | |]; try discriminate. cbn [bind] in EB. apply Ok_inj in EB. subst B'.
      exists d'. split; auto. eapply is_mat_ext; [|exact HB].
      intros i' j' Hi' Hj'. cbn beta. now rewrite B4.
    - intros g g' d HB Hg. eapply is_mat_ext; eauto.
    - split; [reflexivity|]. split; [reflexivity|]. split; [unfold mat_wf; cbn; apply repeat_length|].
      intros i j Hi Hj. unfold melem. cbn [m_nrow m_data]. apply nth_repeat.
    - auto.
    - apply spaces_nl.
    - exists (mkmat r c d), ws'. split; auto. split; auto.
      match goal with |- bind ?X _ = _ => replace X with (Ok (d, mkis (ws' ++ rest) false)) end. reflexivity.
  Qed.

  (** The text of a CRS matrix with rows. *)
  Definition crs_text (m : crs R) : str :=
    print_nat (c_nrow m) ++ sp ++ print_nat (c_ncol m) ++ nl ++
    flat_map (fun x => print_nat x ++ sp) (c_rowptr m) ++ nl ++
    print_nat (length (c_colind m)) ++ nl ++ flat_map (fun x => print_nat x ++ sp) (c_colind m) ++ nl ++
    print_nat (length (c_values m)) ++ nl ++ flat_map (fun x => pr x ++ sp) (c_values m) ++ nl.

  Lemma forM_text_list {A} (v : list A) n (tx : A -> str) os : length v = n ->
    forM n 0 (fun i os => do x <- vget v i ;; Ok (os ++ tx x ++ sp)) os =
    Ok (os ++ flat_map (fun x => tx x ++ sp) v).
  Proof.
    intros <-. destruct v as [|d v]; [cbn; now rewrite app_nil_r|]. set (w := d :: v).
    rewrite (forM_text (length w) (vget w) (fun i => nth i w d) tx).
    2:{ intros i Hi. now apply vget_ok. }
    f_equal. f_equal. rewrite <- (map_nth_seq w d) at 2. rewrite flat_map_concat_map, flat_map_concat_map, map_map. reflexivity.
  Qed.

  Lemma crs_write_ok m : crs_wf m -> 0 < c_nrow m -> crs_write R pr m = Ok (crs_text m).
  Proof.
    intros (H1 & H2 & H3 & H4 & H5 & H6) Hn. unfold crs_write.
    destruct (Nat.eqb_spec (c_nrow m) 0); [lia|].
    destruct H1 as [H1|[H1 _]]; [|lia]. rewrite forM_text_list by auto. cbn [bind].
    rewrite (vget_ok (c_rowptr m) 0) by lia. cbn [bind]. unfold rp in H4. rewrite H4, H1, H5, !Nat.eqb_refl. cbn [andb].
    rewrite forM_text_list by auto. cbn [bind]. rewrite forM_text_list by auto. cbn [bind].
    unfold crs_text. now rewrite H5, <- !app_assoc.
  Qed.

  Lemma crs_read_ok m old g g' ws rest : crs_wf m -> 0 < c_nrow m -> 0 < c_ncol m ->
    (Z.of_nat (c_nrow m) < 2147483648)%Z -> (Z.of_nat (c_ncol m) < 2147483648)%Z ->
    (Z.of_nat (length (c_colind m)) < 2147483648)%Z -> Forall dom (c_values m) -> spaces ws ->
    exists ws', spaces ws' /\
      crs_read R rd g g' (mkis (ws ++ crs_text m ++ rest) false) old = Ok (m, mkis (ws' ++ rest) false).
  Proof.
    intros (H1 & H2 & H3 & H4 & H5 & H6) Hr0 Hc0 Hr Hc Hz Hd Hw. destruct H1 as [H1|[H1 _]]; [|lia].
    unfold crs_read, crs_text. rewrite <- !app_assoc. unfold print_nat at 1 2.
    rewrite rd_int_print by (auto using ends_sp; lia).
    destruct (Z.ltb_spec (Z.of_nat (c_nrow m)) 0); [lia|].
    rewrite rd_int_print by (auto using spaces_sp, ends_nl; lia).
    destruct (Z.eqb_spec (Z.of_nat (c_nrow m)) 0); [lia|]. destruct (Z.eqb_spec (Z.of_nat (c_ncol m)) 0); [lia|].
    cbn [orb]. rewrite Z.mod_small by lia. rewrite !Nat2Z.id.
    assert (Hmono : forall i, i <= c_nrow m -> rp m i <= rp m (c_nrow m)).
    { intros i Hi. remember (c_nrow m - i) as k eqn:Ek. revert i Hi Ek. induction k; intros i Hi Ek.
      - replace i with (c_nrow m) by lia. lia.
      - specialize (IHk (S i) ltac:(lia) ltac:(lia)). specialize (H3 i ltac:(lia)). lia. }
    destruct (read_loop_ok (fun x => Z.of_nat x < 2147483648)%Z print_nat rd_int_nat rb_int_nat sp (c_rowptr m)
      (repeat 0 (S (c_nrow m))) nl (nl ++ print_nat (length (c_colind m)) ++ nl ++ flat_map (fun x => print_nat x ++ sp) (c_colind m) ++ nl ++
        print_nat (length (c_values m)) ++ nl ++ flat_map (fun x => pr x ++ sp) (c_values m) ++ nl ++ rest))
      as (w1 & Hw1 & ->); auto using spaces_sp, spaces_nl; [discriminate|now rewrite repeat_length| |].
    { apply Forall_forall. intros x Hx. apply (In_nth _ _ 0) in Hx as (i & Hi & <-).
      specialize (Hmono i ltac:(lia)). unfold rp in *. lia. }
    cbn [bind]. unfold print_nat at 1. rewrite (app_assoc w1). 
    rewrite rd_size_print by (auto using ends_nl, spaces_app, spaces_nl; lia). rewrite Nat2Z.id.
    destruct (read_loop_ok (fun x => Z.of_nat x < 2147483648)%Z print_nat rd_int_nat rb_int_nat sp (c_colind m)
      (repeat 0 (length (c_colind m))) nl (nl ++ 
        print_nat (length (c_values m)) ++ nl ++ flat_map (fun x => pr x ++ sp) (c_values m) ++ nl ++ rest))
      as (w2 & Hw2 & ->); auto using spaces_sp, spaces_nl; [discriminate|now rewrite repeat_length| |].
    { eapply Forall_impl; [|exact H6]. cbn. intros; lia. }
    cbn [bind]. unfold print_nat at 1. rewrite (app_assoc w2).
    rewrite rd_size_print by (auto using ends_nl, spaces_app, spaces_nl; lia). rewrite Nat2Z.id.
    destruct (read_loop_ok dom pr rd Hrb sp (c_values m)
      (repeat c0 (length (c_values m))) nl (nl ++ rest))
      as (w3 & Hw3 & ->); auto using spaces_sp, spaces_nl; [discriminate|now rewrite repeat_length|].
    cbn [bind]. exists (w3 ++ nl). split; [apply spaces_app; auto using spaces_nl|]. rewrite <- app_assoc.
    destruct m; reflexivity.
  Qed.
End Mats.
