(** C84, C85: vectors, matrices and complex numbers in Ainur input (src/Ainur/AinurConvert1.cpp, AinurComplex.hh). *)
From Coq Require Import Ascii String.
From Verif Require Import Prelude Ring Str_Model Str_Spec Str_Proofs Text_Model Input_Model Input_Spec Input_Proofs Solv_Spec Ainur_Model Ainur_Proofs Ainur_Props Strc_Model
  Avec_Model Avec_Spec Avec_Proofs.
Import List.

Lemma forM_throws {S} (P : nat -> S -> Prop) (f : nat -> S -> res S) j : forall n i s,
  P i s -> i <= j < i + n ->
  (forall k t, i <= k < i + n -> P k t -> (exists t', f k t = Ok t' /\ P (Datatypes.S k) t') \/ f k t = Throw) ->
  (forall t, P j t -> f j t = Throw) -> forM n i f s = Throw.
Proof.
  induction n as [|n IH]; intros i s Hs Hj Hf Ht; [lia|]. cbn [forM]. destruct (Nat.eq_dec i j) as [->|N]; [rewrite Ht; auto|].
  destruct (Hf i s) as [(t' & -> & Pt)| ->]; [lia|auto| |reflexivity]. cbn [bind]. apply IH; auto; [lia|]. intros k t Hk. apply Hf. lia.
Qed.

Section Vec.
  Variable apply : str -> str -> res str.
  Variable funcs : list str.
  Context {T : Type}.
  Variable dflt : T.
  Variable conv : str -> res T.

  Lemma copy_first_ok m (t : list T) x : 0 < m -> List.length t = m -> nth_error t 0 = Some x -> copy_first m t = Ok (repeat x m).
  Proof.
    intros Hm L N. unfold copy_first.
    loopR (fun i (s : list T) => List.length s = m /\ forall k, k < i -> nth_error s k = Some x) as s E H.
    - lia.
    - split; auto. intros k Hk. replace k with 0 by lia. auto.
    - intros j s Hj [Ls Hs]. assert (Lj : j < List.length s) by lia.
      assert (E0 : vget s 0 = Ok x). { unfold vget. rewrite (Hs 0) by lia. reflexivity. }
      rewrite E0. cbn [bind]. rewrite vset_ok by lia. eexists. split; [reflexivity|]. rewrite upd_length. split; auto.
      intros k Hk. destruct (Nat.eq_dec k j) as [->|Nk].
      + rewrite (nth_error_nth' _ x) by (rewrite upd_length; lia). rewrite nth_upd_eq; auto.
      + rewrite (nth_error_nth' _ x) by (rewrite upd_length; lia). rewrite nth_upd_neq by lia. rewrite <- (Hs k) by lia. symmetry. apply nth_error_nth'. lia.
    - destruct H as [Ls Hs]. rewrite E. f_equal. apply (list_eq_nth _ _ x); [rewrite repeat_length; auto|].
      intros i Hi. rewrite nth_repeat. apply nth_error_nth. apply Hs. lia.
  Qed.
  Lemma first_set (t : list T) x : 0 < List.length t -> vset t 0 x = Ok (upd t 0 x) /\ nth_error (upd t 0 x) 0 = Some x.
  Proof. intros L. split; [apply vset_ok; auto|]. destruct t; [cbn in L; lia|reflexivity]. Qed.

  Lemma action_listed t l : listed l -> av_action apply funcs dflt conv t l =
    forM (List.length l) 0 (fun i t => do a <- vget l i ;; do val <- valueFromFunction apply funcs a ;; do x <- conv val ;; vset t i x) (vresize t (List.length l) dflt).
  Proof.
    intros H. unfold av_action. destruct l as [|a [|b [|c l]]]; try reflexivity. cbn [nth List.length Nat.eqb andb].
    destruct (H a b eq_refl) as [H1 H2]. destruct (str_eqb_spec b (lit "...")) as [E|_]; [elim (H1 E)|].
    destruct (Nat.ltb_spec 4 (List.length b)) as [L|_]; [|reflexivity]. cbn [andb].
    destruct (str_eqb_spec (firstn 4 b) (lit "...x")) as [E|_]; [|reflexivity]. elim (H2 (skipn 4 b)).
    - intros K. apply (f_equal (@List.length ascii)) in K. rewrite skipn_length in K. cbn in K. lia.
    - unfold with_count. rewrite <- E. symmetry. apply firstn_skipn.
  Qed.

  Lemma list_ok t l vals : Forall no_call l -> Forall2 (fun x v => conv x = Ok v) l vals ->
    forM (List.length l) 0 (fun i t => do a <- vget l i ;; do val <- valueFromFunction apply funcs a ;; do x <- conv val ;; vset t i x) (vresize t (List.length l) dflt) = Ok vals.
  Proof.
    intros Hn F. assert (Lv : List.length vals = List.length l) by (clear -F; induction F; cbn; auto).
    rewrite (forM_fill (fun i => nth i vals dflt)).
    - rewrite skipn_all2 by (rewrite vresize_length; lia). rewrite app_nil_r, <- Lv, map_nth_seq. reflexivity.
    - rewrite vresize_length. lia.
    - intros i u Hi Lu _. rewrite (@vget_ok _ l i []) by auto. cbn [bind]. rewrite plain_value; [|rewrite Forall_forall in Hn; apply Hn, nth_In; auto]. cbn [bind].
      assert (E : conv (nth i l []) = Ok (nth i vals dflt)).
      { clear -F Hi. revert i Hi. induction F as [|x v l vs Hx F IH]; intros i Hi; cbn in Hi; [lia|]. destruct i; cbn; auto. apply IH. lia. }
      rewrite E. reflexivity.
  Qed.
End Vec.

(** A vector is read as its elements, whatever it held before and however the text is spaced. *)
Theorem C84_vector : forall apply funcs T (dflt : T) conv t value l vals,
  vector_value value l -> Forall no_call l -> listed l -> Forall2 (fun x v => conv x = Ok v) l vals ->
  convert_vector apply funcs dflt conv t value = Ok vals.
Proof.
  intros apply funcs T dflt conv t value l vals V N L F. apply vector_value_iff in V. destruct V as [r E]. unfold convert_vector. rewrite E, action_listed by auto.
  apply list_ok; auto.
Qed.
Print Assumptions C84_vector.

(** [x, ...] fills a vector whose size is known, and is an error for an empty one; [x, ...xN] gives N copies. *)
Theorem C84_fill : forall apply funcs T (dflt : T) conv t value x v,
  vector_value value [x; ellipsis] -> conv x = Ok v ->
  convert_vector apply funcs dflt conv t value = match t with [] => Throw | _ => Ok (repeat v (List.length t)) end.
Proof.
  intros apply funcs T dflt conv t value x v V C. apply vector_value_iff in V. destruct V as [r E]. unfold convert_vector. rewrite E. unfold av_action.
  cbn [nth List.length Nat.eqb andb]. replace (str_eqb ellipsis (lit "...")) with true by reflexivity.
  destruct t as [|y t]; [reflexivity|]. cbn [List.length Nat.eqb]. rewrite C. cbn [bind].
  destruct (first_set (y :: t) v) as [S1 S2]; [cbn; lia|]. rewrite S1. cbn [bind]. apply copy_first_ok; [lia|rewrite upd_length; reflexivity|exact S2].
Qed.
Print Assumptions C84_fill.

(** A value with a repeat count that is written in digits and is positive gives that many copies. *)
Theorem C84_repeat_partial : forall apply funcs T (dflt : T) conv t value x v n,
  vector_value value [x; with_count n] -> n <> [] -> (forall c, In c n -> is_digit c) -> (0 < dec_val n)%Z -> conv x = Ok v ->
  convert_vector apply funcs dflt conv t value = Ok (repeat v (Z.to_nat (dec_val n))).
Proof.
  intros apply funcs T dflt conv t value x v n V N D P C. apply vector_value_iff in V. destruct V as [r E]. unfold convert_vector. rewrite E. unfold av_action.
  cbn [nth List.length Nat.eqb andb].
  assert (E1 : str_eqb (with_count n) (lit "...") = false) by (destruct n; [congruence|reflexivity]). rewrite E1.
  assert (E2 : Nat.ltb 4 (List.length (with_count n)) = true). { apply Nat.ltb_lt. destruct n; [congruence|cbn; lia]. } rewrite E2.
  replace (firstn 4 (with_count n)) with (lit "...x") by reflexivity. replace (str_eqb (lit "...x") (lit "...x")) with true by reflexivity. cbn [andb].
  replace (skipn 4 (with_count n)) with n by reflexivity. rewrite atoi_nat by auto. cbn [bind].
  destruct (Z.ltb_spec (dec_val n) 0); [lia|]. destruct (Nat.ltb_spec 0 (Z.to_nat (dec_val n))); [|lia]. cbn [bind]. rewrite C. cbn [bind].
  destruct (first_set (vresize t (Z.to_nat (dec_val n)) dflt) v) as [S1 S2]; [rewrite vresize_length; lia|]. rewrite S1. cbn [bind].
  apply copy_first_ok; auto. rewrite upd_length, vresize_length. reflexivity.
Qed.
Print Assumptions C84_repeat_partial.

(** N = 0 writes outside the vector. *)
Theorem C84_repeat_refuted : forall apply funcs T (dflt : T) conv t value x,
  vector_value value [x; with_count (lit "0")] -> convert_vector apply funcs dflt conv t value = UB.
Proof. intros apply funcs T dflt conv t value x V. apply vector_value_iff in V. destruct V as [r E]. unfold convert_vector. rewrite E. reflexivity. Qed.
Print Assumptions C84_repeat_refuted.

(** A text that is not that of a vector, and an element that is not a number, are errors. A text is that of one vector
    at most. *)
Theorem C84_vector_errors_partial : forall apply funcs T (dflt : T) conv t value,
  ((forall l, ~ vector_value value l) -> convert_vector apply funcs dflt conv t value = Throw) /\
  (forall l, vector_value value l -> Forall no_call l -> listed l -> (forall x, In x l -> (exists v, conv x = Ok v) \/ conv x = Throw) ->
    (exists x, In x l /\ conv x = Throw) -> convert_vector apply funcs dflt conv t value = Throw) /\
  (forall l l', vector_value value l -> vector_value value l' -> l = l').
Proof.
  intros apply funcs T dflt conv t value. split; [|split].
  - intros H. unfold convert_vector. destruct (p_row value) as [[l r]|] eqn:E; auto. elim (H l). apply vector_value_iff. eauto.
  - intros l V N L H [x [Hx C]]. apply vector_value_iff in V. destruct V as [r E]. unfold convert_vector. rewrite E, action_listed by auto.
    destruct (In_nth l x [] Hx) as (j & Hj & Ej). rewrite Forall_forall in N.
    apply (forM_throws (fun _ u => List.length u = List.length l) _ j).
    + rewrite vresize_length. reflexivity.
    + lia.
    + intros k u Hk Lu. rewrite (@vget_ok _ l k []) by lia. cbn [bind]. assert (I : In (nth k l []) l) by (apply nth_In; lia). rewrite plain_value by (apply N; auto). cbn [bind].
      destruct (H _ I) as [[v ->]| ->]; [left|right; reflexivity]. cbn [bind]. rewrite vset_ok by lia. eexists. split; [reflexivity|]. rewrite upd_length. auto.
    + intros u Lu. rewrite (@vget_ok _ l j []) by lia. cbn [bind]. rewrite Ej, plain_value by (apply N; auto). cbn [bind]. rewrite C. reflexivity.
  - intros l l' V V'. apply vector_value_iff in V, V'. destruct V as [r V], V' as [r' V']. congruence.
Qed.
Print Assumptions C84_vector_errors_partial.

(** But text after the closing bracket is ignored: two vectors are read as the first one. And the first element of
    [x, ...] is not looked up as a function. *)
Definition some_apply (name arg : str) : res str := Ok (lit "7").
(** Text after the closing bracket is ignored, and a function name is looked up in one form of a vector and not in the other. *)
Theorem C84_vector_errors_refuted :
  convert_vector some_apply [] 0%Z atoi [] (lit "[1,2],[3]x") = Ok [1; 2]%Z /\
  convert_vector some_apply [lit "(f)"] 0%Z atoi [0; 0]%Z (lit "[(f)(1),3,4]") = Ok [7; 3; 4]%Z /\
  convert_vector some_apply [lit "(f)"] 0%Z atoi [0; 0]%Z (lit "[(f)(1),...]") = Throw.
Proof. vm_compute. auto. Qed.
Print Assumptions C84_vector_errors_refuted.

Section Mat.
  Variable apply : str -> str -> res str.
  Variable funcs : list str.
  Context {T : Type}.
  Variable dflt : T.
  Variable conv : str -> res T.

  Definition am_ok (t : amat T) : Prop := List.length (am_data t) = am_nrow t * am_ncol t.
  Lemma am_index i j n m : i < n -> j < m -> i + j * n < n * m.
  Proof. intros. nia. Qed.
  Lemma am_index_inj i j i' j' n : i < n -> i' < n -> i + j * n = i' + j' * n -> i = i' /\ j = j'.
  Proof. intros. assert (j = j') by nia. subst. split; [lia|auto]. Qed.
  Lemma am_set_ok (t : amat T) i j x : am_ok t -> i < am_nrow t -> j < am_ncol t ->
    exists t', am_set t i j x = Ok t' /\ am_ok t' /\ am_nrow t' = am_nrow t /\ am_ncol t' = am_ncol t /\
      forall k l, k < am_nrow t -> l < am_ncol t -> am_get t' k l = if (k =? i) && (l =? j) then Ok x else am_get t k l.
  Proof.
    intros O Hi Hj. assert (B : i + j * am_nrow t < List.length (am_data t)) by (rewrite O; apply am_index; auto).
    unfold am_set. rewrite (proj2 (Nat.ltb_lt _ _) Hi), (proj2 (Nat.ltb_lt _ _) Hj). cbn [andb]. rewrite vset_ok by auto. cbn [bind].
    eexists. split; [reflexivity|]. split; [unfold am_ok; cbn; rewrite upd_length; auto|]. split; auto. split; auto.
    intros k l Hk Hl. unfold am_get. cbn [am_nrow am_ncol am_data]. rewrite (proj2 (Nat.ltb_lt _ _) Hk), (proj2 (Nat.ltb_lt _ _) Hl). cbn [andb].
    assert (B2 : k + l * am_nrow t < List.length (am_data t)) by (rewrite O; apply am_index; auto).
    rewrite (@vget_ok _ (upd _ _ _) _ x) by (rewrite upd_length; auto). rewrite (@vget_ok _ (am_data t) _ x) by auto.
    destruct (Nat.eqb_spec k i) as [->|Nk]; [destruct (Nat.eqb_spec l j) as [->|Nl]|]; cbn [andb].
    - rewrite nth_upd_eq; auto.
    - rewrite nth_upd_neq; auto. intros K. apply am_index_inj in K; auto. tauto.
    - rewrite nth_upd_neq; auto. intros K. apply am_index_inj in K; auto. tauto.
  Qed.
  Lemma vresize_len_mul (d : list T) n m : List.length (vresize d (n * m) dflt) = n * m.
  Proof. apply vresize_length. Qed.

  Lemma row_loop (row : list str) i : Forall no_call row -> forall vals, Forall2 (fun x v => conv x = Ok v) row vals -> forall t : amat T, am_ok t -> i < am_nrow t -> am_ncol t = List.length row ->
    exists t', forM (am_ncol t) 0 (fun j t => do a <- vget row j ;; do val <- valueFromFunction apply funcs a ;; do x <- conv val ;; am_set t i j x) t = Ok t' /\
      am_ok t' /\ am_nrow t' = am_nrow t /\ am_ncol t' = am_ncol t /\
      forall k l, k < am_nrow t -> l < am_ncol t -> am_get t' k l = if k =? i then Ok (nth l vals dflt) else am_get t k l.
  Proof.
    intros N vals F t O Hi Hc. rewrite Forall_forall in N.
    loopM (fun j (u : amat T) => am_ok u /\ am_nrow u = am_nrow t /\ am_ncol u = am_ncol t /\
      forall k l, k < am_nrow t -> l < am_ncol t -> am_get u k l = if (k =? i) && (l <? j) then Ok (nth l vals dflt) else am_get t k l) as u E H.
    - split; auto. split; auto. split; auto. intros k l Hk Hl. rewrite andb_false_r. reflexivity.
    - intros j u Hj (Ou & Un & Uc & Ug). assert (Lj : j < List.length row) by lia. rewrite (@vget_ok _ row j []) by auto. cbn [bind].
      rewrite plain_value by (apply N, nth_In; auto). cbn [bind].
      assert (E : conv (nth j row []) = Ok (nth j vals dflt)).
      { clear -F Lj. revert j Lj. induction F as [|x v l vs Hx F IH]; intros i Hi; cbn in Hi; [lia|]. destruct i; cbn; auto. apply IH. lia. }
      rewrite E. cbn [bind]. destruct (am_set_ok u i j (nth j vals dflt)) as (u' & E' & O' & N' & C' & G'); [auto|lia|lia|].
      exists u'. split; auto. split; auto. split; [congruence|]. split; [congruence|]. intros k l Hk Hl. rewrite G' by lia.
      destruct (Nat.eqb_spec k i) as [->|Nk]; cbn [andb].
      + destruct (Nat.eqb_spec l j) as [->|Nl].
        * destruct (Nat.ltb_spec j (S j)); [reflexivity|lia].
        * rewrite Ug by auto. rewrite Nat.eqb_refl. cbn [andb]. destruct (Nat.ltb_spec l j), (Nat.ltb_spec l (S j)); auto; lia.
      + rewrite Ug by auto. destruct (Nat.eqb_spec k i); [congruence|reflexivity].
    - destruct H as (Ou & Un & Uc & Ug). exists u. split; auto. split; auto. split; auto. split; auto. intros k l Hk Hl. rewrite Ug by auto.
      destruct (Nat.ltb_spec l (0 + am_ncol t)); [rewrite andb_true_r; reflexivity|lia].
  Qed.
End Mat.

(** A matrix is read row by row. It must be empty before, or have as many rows. *)
Theorem C84_matrix_partial : forall apply funcs T (dflt : T) conv (t : amat T) value m ncol vals,
  matrix_value value m -> m <> [] -> Forall (fun r => List.length r = ncol) m -> Forall (Forall no_call) m ->
  Forall2 (Forall2 (fun x v => conv x = Ok v)) m vals -> am_nrow t = 0 \/ am_nrow t = List.length m ->
  exists t', convert_matrix apply funcs dflt conv t value = Ok t' /\ am_nrow t' = List.length m /\ am_ncol t' = ncol /\
    forall i j, i < List.length m -> j < ncol -> am_get t' i j = Ok (nth j (nth i vals []) dflt).
Proof.
  intros apply funcs T dflt conv t value m ncol vals V Nm R N F Ht. apply matrix_value_iff in V. destruct V as [r E]. unfold convert_matrix. rewrite E. unfold am_action.
  rewrite Forall_forall in R, N. assert (Lm : 0 < List.length m) by (destruct m; [congruence|cbn; lia]).
  destruct (Nat.eqb_spec (List.length m) 0); [lia|]. rewrite (R (nth 0 m [])) by (apply nth_In; auto).
  unfold am_resize. replace (Nat.ltb 0 (am_nrow t) && negb (Nat.eqb (am_nrow t) (List.length m))) with false
    by (destruct Ht as [-> | ->]; [reflexivity|rewrite Nat.eqb_refl, andb_false_r; reflexivity]). cbn [bind].
  set (t0 := mkam (List.length m) ncol (vresize (am_data t) (List.length m * ncol) dflt)).
  assert (O0 : am_ok t0) by (unfold am_ok; cbn; apply vresize_length).
  loopM (fun i (u : amat T) => am_ok u /\ am_nrow u = List.length m /\ am_ncol u = ncol /\
    forall k l, k < i -> l < ncol -> am_get u k l = Ok (nth l (nth k vals []) dflt)) as u Eu H.
  - split; auto. split; auto. split; auto. intros; lia.
  - intros i u Hi (Ou & Un & Uc & Ug). rewrite (@vget_ok _ m i []) by lia. cbn [bind]. assert (I : In (nth i m []) m) by (apply nth_In; lia).
    rewrite (R _ I), Nat.eqb_refl. cbn [negb].
    assert (Fi : Forall2 (fun x v => conv x = Ok v) (nth i m []) (nth i vals [])).
    { assert (Hl : i < List.length m) by lia. clear -F Hl. revert i Hl. induction F as [|x v l vs Hx F IH]; intros i Hi; cbn in Hi; [lia|]. destruct i; cbn; auto. apply IH. lia. }
    destruct (row_loop apply funcs dflt conv (nth i m []) i (N _ I) _ Fi u Ou) as (u' & E' & O' & N' & C' & G'); [lia|rewrite (R _ I); auto|].
    rewrite Uc in E'. exists u'. split; [exact E'|]. split; auto. split; [congruence|]. split; [congruence|]. intros k l Hk Hl. rewrite G' by lia.
    destruct (Nat.eqb_spec k i) as [->|]; [reflexivity|]. apply Ug; lia.
  - destruct H as (Ou & Un & Uc & Ug). exists u. split; auto.
Qed.
Print Assumptions C84_matrix_partial.

(** Rows of different sizes, an element that is not a number and a text that is not that of a matrix are errors; text after
    the closing bracket is not. *)
Theorem C84_matrix_errors_partial : forall apply funcs T (dflt : T) conv (t : amat T) value,
  ((forall m, ~ matrix_value value m) -> convert_matrix apply funcs dflt conv t value = Throw) /\
  (forall m, matrix_value value m -> Forall (Forall no_call) m -> (forall l x, In l m -> In x l -> (exists v, conv x = Ok v) \/ conv x = Throw) ->
    (exists l l', In l m /\ In l' m /\ List.length l <> List.length l') \/ (exists l x, In l m /\ In x l /\ conv x = Throw) ->
    convert_matrix apply funcs dflt conv t value = Throw).
Proof.
  intros apply funcs T dflt conv t value. split.
  - intros H. unfold convert_matrix. destruct (p_matrix value) as [[m r]|] eqn:E; auto. elim (H m). apply matrix_value_iff. eauto.
  - intros m V N C B. apply matrix_value_iff in V. destruct V as [r E]. unfold convert_matrix. rewrite E. unfold am_action. rewrite Forall_forall in N.
    assert (Nm : m <> []) by (destruct B as [(l & _ & I & _)|(l & x & I & _)]; intros ->; destruct I).
    assert (Lm : 0 < List.length m) by (destruct m; [congruence|cbn; lia]).
    destruct (Nat.eqb_spec (List.length m) 0); [lia|]. set (cols := List.length (nth 0 m [])). unfold am_resize.
    destruct (Nat.ltb 0 (am_nrow t) && negb (Nat.eqb (am_nrow t) (List.length m))); [reflexivity|]. cbn [bind].
    set (t0 := mkam (List.length m) cols (vresize (am_data t) (List.length m * cols) dflt)).
    assert (O0 : am_ok t0) by (unfold am_ok; cbn; apply vresize_length).
    set (P := fun (_ : nat) (u : amat T) => am_ok u /\ am_nrow u = List.length m /\ am_ncol u = cols).
    assert (J : exists l, In l m /\ (List.length l <> cols \/ List.length l = cols /\ exists x, In x l /\ conv x = Throw)).
    { destruct B as [(l & l' & I & I' & D)|(l & x & I & Ix & Cx)].
      - destruct (Nat.eq_dec (List.length l) cols) as [K|K]; [|exists l; auto]. exists l'. split; auto. left. congruence.
      - exists l. split; auto. destruct (Nat.eq_dec (List.length l) cols); eauto 6. }
    destruct J as (l & I & J). destruct (In_nth m l [] I) as (i & Hi & Ei).
    assert (Step : forall row i j u, In row m -> i < List.length m -> j < cols -> List.length row = cols -> P 0 u ->
      (exists u', (do a <- vget row j ;; do val <- valueFromFunction apply funcs a ;; do x <- conv val ;; am_set u i j x) = Ok u' /\ P 0 u') \/
      (do a <- vget row j ;; do val <- valueFromFunction apply funcs a ;; do x <- conv val ;; am_set u i j x) = Throw).
    { intros row i' j u Ir Hi' Hj Lr (Ou & Un & Uc). rewrite (@vget_ok _ row j []) by lia. cbn [bind]. assert (Ij : In (nth j row []) row) by (apply nth_In; lia).
      assert (Nr := N row Ir). rewrite Forall_forall in Nr. rewrite plain_value by (apply Nr; auto). cbn [bind].
      destruct (C row _ Ir Ij) as [[v Ev]|Ev]; rewrite Ev; cbn [bind]; [left|right; reflexivity].
      destruct (am_set_ok u i' j v) as (u' & Eu & O' & N' & C' & _); [auto|lia|lia|]. exists u'. split; auto. split; auto. split; congruence. }
    apply (forM_throws P _ i).
    + split; auto.
    + lia.
    + intros k u Hk Pu. rewrite (@vget_ok _ m k []) by lia. cbn [bind]. assert (Ik : In (nth k m []) m) by (apply nth_In; lia).
      destruct (Nat.eqb_spec (List.length (nth k m [])) cols) as [Lk|Lk]; cbn [negb]; [|right; reflexivity].
      assert (D : forall n j u, j + n <= cols -> P 0 u -> (exists u', forM n j (fun j t => do a <- vget (nth k m []) j ;; do val <- valueFromFunction apply funcs a ;; do x <- conv val ;; am_set t k j x) u = Ok u' /\ P 0 u') \/
        forM n j (fun j t => do a <- vget (nth k m []) j ;; do val <- valueFromFunction apply funcs a ;; do x <- conv val ;; am_set t k j x) u = Throw).
      { induction n0 as [|n0 IH]; intros j w Hn Pw; cbn [forM]; [left; eauto|]. destruct (Step (nth k m []) k j w) as [(w' & Ew & Pw')|Ew]; [auto|lia|lia|auto|auto| |].
        - rewrite Ew. cbn [bind]. apply IH; [lia|auto].
        - rewrite Ew. right. reflexivity. }
      apply D; [lia|exact Pu].
    + intros u Pu. rewrite (@vget_ok _ m i []) by lia. cbn [bind]. rewrite Ei. destruct J as [J|(J & x & Ix & Cx)].
      * destruct (Nat.eqb_spec (List.length l) cols); [congruence|reflexivity].
      * rewrite J, Nat.eqb_refl. cbn [negb]. destruct (In_nth l x [] Ix) as (j & Hj & Ej). apply (forM_throws P _ j); auto; [lia| |].
        { intros k w Hk Pw. apply (Step l i k w); auto; lia. }
        intros w (Ow & Wn & Wc). rewrite (@vget_ok _ l j []) by lia. cbn [bind]. assert (Nr := N l I). rewrite Forall_forall in Nr. rewrite Ej, plain_value by (apply Nr; auto). cbn [bind]. rewrite Cx. reflexivity.
Qed.
Print Assumptions C84_matrix_errors_partial.

(** Reading [] leaves the matrix as it was; reading a matrix with another number of rows is an error. *)
Definition one_by_one : amat Z := mkam 1 1 [5%Z].
(** Reading [] leaves the matrix as it was; reading a matrix with another number of rows is an error. *)
Theorem C84_matrix_refuted :
  convert_matrix some_apply [] 0%Z atoi one_by_one (lit "[]") = Ok one_by_one /\
  convert_matrix some_apply [] 0%Z atoi one_by_one (lit "[[1],[2]]") = Throw.
Proof. vm_compute. auto. Qed.
Print Assumptions C84_matrix_refuted.

Example C84_nonvacuous :
  vector_value (lit " [ 1, -2 ,3]") [lit "1"; lit "-2"; lit "3"] /\ listed [lit "1"; lit "-2"; lit "3"] /\
  convert_vector some_apply [] 0%Z atoi [] (lit " [ 1, -2 ,3]") = Ok [1; -2; 3]%Z /\
  convert_vector some_apply [] 0%Z atoi [0; 0; 0]%Z (lit "[4,...]") = Ok [4; 4; 4]%Z /\
  convert_vector some_apply [] 0%Z atoi [] (lit "[4, ...x5]") = Ok [4; 4; 4; 4; 4]%Z /\
  vector_value (lit "[4, ...x5]") [lit "4"; with_count (lit "5")] /\
  matrix_value (lit "[[1,2], [3,4],[5,6]]") [[lit "1"; lit "2"]; [lit "3"; lit "4"]; [lit "5"; lit "6"]] /\
  convert_matrix some_apply [] 0%Z atoi (mkam 0 0 []) (lit "[[1,2], [3,4],[5,6]]") = Ok (mkam 3 2 [1; 3; 5; 2; 4; 6]%Z).
Proof.
  split; [apply vector_value_iff; vm_compute; eauto|]. split; [intros x y K; discriminate|].
  split; [vm_compute; reflexivity|]. split; [vm_compute; reflexivity|]. split; [vm_compute; reflexivity|].
  split; [apply vector_value_iff; vm_compute; eauto|]. split; [apply matrix_value_iff; vm_compute; eauto|vm_compute; reflexivity].
Qed.

(** ** Complex numbers *)
Section Complex.
  Variable R : cring.
  Variable std_atof : str -> R.
  Lemma tc_plain s : (forall c, In c s -> c <> "i"%char) -> forall t flag real1 buffer, tc_loop R std_atof (s ++ t) flag real1 buffer = tc_loop R std_atof t flag real1 (buffer ++ s).
  Proof.
    induction s as [|c s IH]; intros H t flag real1 buffer; [rewrite app_nil_r; reflexivity|]. cbn [app tc_loop].
    destruct (Ascii.eqb_spec c "i") as [E|_]; [elim (H c); cbn; auto|]. rewrite IH by (intros; apply H; right; auto). rewrite <- app_assoc. reflexivity.
  Qed.
  Lemma real_no_i s : real_like s -> forall c, In c s -> c <> "i"%char.
  Proof. intros [_ H] c Hc. destruct (H c Hc) as [K|K]; [apply isdigit_In in K|apply mem_chr_In in K]; intros ->; discriminate. Qed.
  Lemma real_atof s : real_like s -> atof R std_atof (c_str s) = Ok (std_atof s).
  Proof.
    intros H. destruct (number_plain s) as [_ C]; [destruct H as [(c & Hc & _) _]; intros ->; destruct Hc|exact (proj2 H)|]. rewrite C.
    unfold atof. rewrite (proj2 (isAfloat_spec s) H). reflexivity.
  Qed.
  Lemma tc_ends s : forall flag real1 buffer,
    tc_loop R std_atof (s ++ lit "i") flag real1 buffer = Throw \/ exists real2, tc_loop R std_atof (s ++ lit "i") flag real1 buffer = Ok (true, real2, []).
  Proof.
    assert (A : forall b, (exists r : R, match b with [] => Ok (c0 : R) | _ => atof R std_atof (c_str b) end = Ok r) \/ match b with [] => Ok (c0 : R) | _ => atof R std_atof (c_str b) end = Throw).
    { intros b. unfold atof. destruct b; [eauto|]. destruct (isAfloat _); eauto. }
    induction s as [|c s IH]; intros flag real1 buffer; cbn [app tc_loop lit list_ascii_of_string].
    - destruct (Ascii.eqb_spec "i" "i") as [_|K]; [|congruence]. destruct flag; auto. destruct (A buffer) as [[r E]|E]; rewrite E; cbn [bind]; auto. right. exists r. reflexivity.
    - destruct (Ascii.eqb_spec c "i") as [_|_]; [|apply IH]. destruct flag; auto. destruct (A buffer) as [[r E]|E]; rewrite E; cbn [bind]; auto.
  Qed.
End Complex.

(** The texts that are read as complex numbers: a number, i, -i, and the imaginary part after the letter i. *)
Theorem C85_complex_partial : forall (R : cring) std_atof a b, real_like a -> real_like b ->
  toComplex R std_atof (lit "i") = Ok (c0, c1) /\
  toComplex R std_atof (lit "-i") = Ok (c0, copp c1) /\
  toComplex R std_atof a = Ok (std_atof a, c0) /\
  toComplex R std_atof (lit "i" ++ b) = Ok (c0, std_atof b) /\
  toComplex R std_atof (a ++ lit "i" ++ b) = Ok (std_atof a, std_atof b).
Proof.
  intros R std_atof a b Ha Hb. split; [reflexivity|]. split; [reflexivity|].
  assert (D : forall s, real_like s -> forall t, s ++ t <> lit "i" /\ (s ++ t = lit "-i" -> False)).
  { intros s H t. destruct H as [(c & Hc & Dc) H2]. split.
    - intros K. destruct s as [|x [|y s]]; [destruct Hc| |discriminate]. injection K as -> _. apply (real_no_i _ (conj (ex_intro _ c (conj Hc Dc)) H2) "i"%char); cbn; auto.
    - intros K. destruct s as [|x [|y [|z s]]]; [destruct Hc| | |discriminate].
      + injection K as -> _. destruct Hc as [<-|[]]. apply isdigit_In in Dc. discriminate.
      + injection K as -> -> _. destruct (H2 "i"%char) as [K|K]; [cbn; auto|apply isdigit_In in K; discriminate|apply mem_chr_In in K; discriminate]. }
  assert (Q : forall s t : str, s <> t -> str_eqb s t = false) by (intros s t N; destruct (str_eqb_spec s t); congruence).
  split; [|split].
  - unfold toComplex. destruct (D a Ha []) as [D1 D2]. rewrite app_nil_r in D1, D2. rewrite (Q _ _ D1), (Q a (lit "-i")) by auto.
    pose proof (tc_plain R std_atof a (real_no_i a Ha) [] false c0 []) as T. rewrite app_nil_r in T. rewrite T. cbn [tc_loop bind app]. rewrite (real_atof R std_atof a Ha). reflexivity.
  - unfold toComplex. assert (Nb : b <> []) by (destruct Hb as [(c & Hc & _) _]; intros ->; destruct Hc).
    rewrite (Q (lit "i" ++ b)) by (destruct b; [congruence|discriminate]). rewrite (Q (lit "i" ++ b)) by (destruct b; discriminate).
    change (lit "i" ++ b) with ("i"%char :: b). cbn [tc_loop]. destruct (Ascii.eqb_spec "i" "i") as [_|K]; [|congruence]. cbn [bind].
    pose proof (tc_plain R std_atof b (real_no_i b Hb) [] true c0 []) as T. rewrite app_nil_r in T. rewrite T. cbn [tc_loop bind app]. rewrite (real_atof R std_atof b Hb). reflexivity.
  - unfold toComplex. destruct (D a Ha (lit "i" ++ b)) as [D1 D2]. rewrite (Q _ _ D1), (Q (a ++ _) (lit "-i")) by auto. rewrite (tc_plain R std_atof a (real_no_i a Ha)).
    change (lit "i" ++ b) with ("i"%char :: b). cbn [tc_loop]. destruct (Ascii.eqb_spec "i" "i") as [_|K]; [|congruence].
    cbn [app]. assert (Na : match a with [] => Ok (c0 : R) | _ => atof R std_atof (c_str a) end = Ok (std_atof a)).
    { destruct a as [|x a]; [destruct Ha as [(c & Hc & _) _]; destruct Hc|]. apply real_atof. auto. }
    rewrite Na. cbn [bind].
    pose proof (tc_plain R std_atof b (real_no_i b Hb) [] true (std_atof a) []) as T. rewrite app_nil_r in T. rewrite T. cbn [tc_loop bind app]. rewrite (real_atof R std_atof b Hb). reflexivity.
Qed.
Print Assumptions C85_complex_partial.

(** So the usual texts of complex numbers, which end in the letter i, are errors, except i and -i. *)
Theorem C85_complex_refuted : forall (R : cring) std_atof s, s <> [] -> s <> lit "-" -> toComplex R std_atof (s ++ lit "i") = Throw.
Proof.
  intros R std_atof s N1 N2. unfold toComplex. destruct (str_eqb_spec (s ++ lit "i") (lit "i")) as [E|_].
  { destruct s as [|x [|y s]]; try discriminate; congruence. }
  destruct (str_eqb_spec (s ++ lit "i") (lit "-i")) as [E|_].
  { destruct s as [|x [|y [|z s]]]; try discriminate. injection E as ->. elim N2. reflexivity. }
  destruct (tc_ends R std_atof s false c0 []) as [-> |[r ->]]; reflexivity.
Qed.
Print Assumptions C85_complex_refuted.

Example C85_nonvacuous : real_like (lit "1.5") /\ real_like (lit "-2") /\
  toComplex Zring std_atoi (lit "1i-2") = Ok (1, -2)%Z /\ toComplex Zring std_atoi (lit "1-2i") = Throw /\ toComplex Zring std_atoi (lit "2i") = Throw.
Proof.
  split; [apply isAfloat_spec; reflexivity|]. split; [apply isAfloat_spec; reflexivity|]. vm_compute. auto.
Qed.
