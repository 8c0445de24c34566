(** C43-C46: input files (src/InputNg.h). *)
From Coq Require Import Ascii String.
From Verif Require Import Prelude Ring Str_Model Str_Spec Str_Proofs Text_Model Text_Proofs Ng_Proofs Dense_Model Dense_Spec Input_Model Input_Spec Input_Proofs Input_Parse Input_Read.
Import List.

(** ** C43: the order of labels *)
(** On labels in which only numbers follow '@', the order is a strict weak order. *)
Definition good_label (l : str) : Prop := comparable l /\ ~ In zero l.
(** On labels in which only numbers follow the at sign, the order is a strict weak order. *)
Theorem C43_order_partial : forall x y z, good_label x -> good_label y -> good_label z ->
  (exists b, mycompare x y = Ok b) /\
  mycompare x x = Ok false /\
  (mycompare x y = Ok true -> mycompare y x = Ok false) /\
  (mycompare x y = Ok true -> mycompare y z = Ok true -> mycompare x z = Ok true) /\
  (mycompare x y = Ok false -> mycompare y x = Ok false -> mycompare y z = Ok false -> mycompare z y = Ok false ->
   mycompare x z = Ok false /\ mycompare z x = Ok false).
Proof.
  intros x y z [X1 X2] [Y1 Y2] [Z1 Z2].
  assert (N : forall l, ~ In zero l -> forall c, In c l -> c <> zero) by (intros l H c Hc ->; auto).
  destruct (comparable_split x X1 (N _ X2)) as (fx & nx & Ex).
  destruct (comparable_split y Y1 (N _ Y2)) as (fy & ny & Ey).
  destruct (comparable_split z Z1 (N _ Z2)) as (fz & nz & Ez).
  rewrite (compare_rank x y _ _ _ _ Ex Ey), (compare_rank x x _ _ _ _ Ex Ex), (compare_rank y x _ _ _ _ Ey Ex),
    (compare_rank y z _ _ _ _ Ey Ez), (compare_rank x z _ _ _ _ Ex Ez), (compare_rank z y _ _ _ _ Ez Ey), (compare_rank z x _ _ _ _ Ez Ex).
  split; [eauto|]. split; [rewrite rank_irrefl; auto|]. split; [intros H; apply Ok_inj in H; rewrite (rank_asym _ _ H); auto|].
  split.
  - intros H K. apply Ok_inj in H. apply Ok_inj in K. rewrite (rank_trans _ _ _ H K). auto.
  - intros A B C D. apply Ok_inj in A. apply Ok_inj in B. apply Ok_inj in C. apply Ok_inj in D.
    rewrite (rank_total _ _ A B), (rank_total _ _ C D), rank_irrefl. auto.
Qed.
Print Assumptions C43_order_partial.
(** Labels name@n of one name are in the order of n; labels without '@' are equivalent only if they are equal, and
    come before the others; name@n and name'@n' are equivalent only if they are equal. *)
Definition numbered (l : str) (n : nat) : str := l ++ "@"%char :: print_nat n.
Theorem C43_numbers : forall l l' i j, ~ In "@"%char l -> ~ In "@"%char l' ->
  (0 < i)%nat -> (0 < j)%nat -> (Z.of_nat i < 2147483648)%Z -> (Z.of_nat j < 2147483648)%Z ->
  mycompare (numbered l i) (numbered l j) = Ok (i <? j)%nat /\
  mycompare l (numbered l' j) = Ok true /\ mycompare (numbered l' j) l = Ok false /\
  (mycompare l l' = Ok false /\ mycompare l' l = Ok false <-> l = l') /\
  (mycompare (numbered l i) (numbered l' j) = Ok false /\ mycompare (numbered l' j) (numbered l i) = Ok false <-> l = l' /\ i = j).
Proof.
  intros l l' i j Hl Hl' Li Lj Bi Bj. destruct i as [|i]; [lia|]. destruct j as [|j]; [lia|].
  change (numbered l (S i)) with (key l (S i)). change (numbered l (S j)) with (key l (S j)). change (numbered l' (S j)) with (key l' (S j)).
  assert (R0 : forall x, ~ In "@"%char x -> ranked x (krank x 0)) by (intros x H; apply (key_ranked x 0 H); lia).
  assert (RS : forall x n, ~ In "@"%char x -> (Z.of_nat n < 2147483648)%Z -> ranked (key x n) (krank x n)) by (intros x n H B; apply key_ranked; auto; lia).
  rewrite (ranked_compare _ _ _ _ (RS l (S i) Hl Bi) (RS l (S j) Hl Bj)), (ranked_compare _ _ _ _ (R0 l Hl) (RS l' (S j) Hl' Bj)),
    (ranked_compare _ _ _ _ (RS l' (S j) Hl' Bj) (R0 l Hl)), (ranked_compare _ _ _ _ (R0 l Hl) (R0 l' Hl')), (ranked_compare _ _ _ _ (R0 l' Hl') (R0 l Hl)),
    (ranked_compare _ _ _ _ (RS l (S i) Hl Bi) (RS l' (S j) Hl' Bj)), (ranked_compare _ _ _ _ (RS l' (S j) Hl' Bj) (RS l (S i) Hl Bi)).
  split; [|split; [reflexivity|split; [reflexivity|split]]].
  - f_equal. destruct (Nat.ltb_spec (S i) (S j)) as [H|H]; [apply krank_lt; auto|].
    destruct (Nat.eq_dec i j) as [-> |N]; [apply rank_irrefl|]. apply rank_asym. apply krank_lt. lia.
  - split; [intros [A B]|intros ->; rewrite rank_irrefl; auto]. apply Ok_inj in A. apply Ok_inj in B. pose proof (rank_total _ _ A B) as E. apply krank_inj in E. apply E.
  - split; [intros [A B]|intros [-> E]; injection E as ->; rewrite rank_irrefl; auto]. apply Ok_inj in A. apply Ok_inj in B. pose proof (rank_total _ _ A B) as E. apply krank_inj in E. auto.
Qed.
Print Assumptions C43_numbers.
(** With anything else after '@' the comparison throws, so it is not an order of all labels. *)
Theorem C43_throw_refuted : mycompare (lit "a@b") (lit "c") = Throw.
Proof. vm_compute. reflexivity. Qed.
Print Assumptions C43_throw_refuted.
Example C43_nonvacuous : good_label (lit "site@12") /\ good_label (lit "site@9") /\ mycompare (lit "site@9") (lit "site@12") = Ok true /\
  mycompare (lit "sites") (lit "site@9") = Ok true.
Proof.
  assert (G : forall a n, ~ In "@"%char a -> ~ In zero a -> good_label (numbered a n)).
  { intros a n A Z. destruct (pnat_digits n) as (_ & D & _). split.
    - intros x y E c Hc. unfold numbered in E.
      assert (X : y = print_nat n).
      { clear - E A. revert x E. induction a as [|a0 a IH]; intros [|x0 x] E; cbn [app] in E.
        - injection E as E. auto.
        - injection E as _ E. exfalso. apply (proj1 (print_nat_at n)). rewrite E. apply in_or_app; right; left; auto.
        - injection E as E _. subst a0. elim A. left; auto.
        - injection E as _ E. apply (IH (fun H => A (or_intror H)) x E). }
      subst y. apply D in Hc. apply isdigit_In in Hc. clear - Hc. destruct c as [[] [] [] [] [] [] [] []]; try discriminate; vm_compute; tauto.
    - unfold numbered. rewrite in_app_iff. intros [H|[H|H]]; [auto|discriminate|]. apply (proj2 (print_nat_at n) _ H). auto. }
  split; [apply (G (lit "site") 12%nat); cbn; intuition discriminate|].
  split; [apply (G (lit "site") 9%nat); cbn; intuition discriminate|]. vm_compute. auto.
Qed.

(** ** C44, C45: reading a file *)
(** A series of requests; errors leave the reader as it was. [old] is what the vectors held before; [eq] ends the label. *)
Fixpoint session (old : list str) (eq : str) (r : rst) (l : list request) : res (list (option answer) * rst) :=
  match l with
  | [] => Ok ([], r)
  | a :: l' =>
    match (match a with
           | AskText l => do (v, r) <- readline r (l ++ eq) true false ;; Ok (AText v, r)
           | AskVec l => do (v, r) <- read_strings r (l ++ eq) old ;; Ok (AVec v, r)
           end) with
    | Ok (v, r1) => do (x, r') <- session old eq r1 l' ;; Ok (Some v :: x, r')
    | Throw => do (x, r') <- session old eq r l' ;; Ok (None :: x, r')
    | UB => UB
    | OutOfFuel => OutOfFuel
    end
  end.
Definition may_ask (a : request) : Prop := label_of a <> [] /\ ~ In "="%char (label_of a).
Definition eq_or_not (eq : str) : Prop := eq = [] \/ eq = lit "=".

Lemma asked_ok a eq : may_ask a -> eq_or_not eq -> asked (label_of a) (label_of a ++ eq).
Proof. intros [A B] [-> | ->]; split; auto; split; auto. left. apply app_nil_r. Qed.
Lemma session_expects old eq l : forall q r, RInv q r -> (forall a, In a l -> may_ask a) -> eq_or_not eq ->
  exists r', session old eq r l = Ok (fst (expects q l), r') /\ RInv (snd (expects q l)) r'.
Proof.
  induction l as [|a l IH]; intros q r I M Q; [exists r; auto|]. cbn [session expects].
  pose proof (asked_ok a eq (M a (or_introl eq_refl)) Q) as A. assert (M' : forall a, In a l -> may_ask a) by (intros; apply M; right; auto).
  destruct a as [l0|l0]; cbn [label_of] in A; cbn [expect].
  - pose proof (read_text q r l0 _ I A) as H. destruct (left_t q l0) as [|v t] eqn:E.
    + rewrite H. cbn [bind]. destruct (IH q r I M' Q) as (r' & S & I'). rewrite S. cbn [bind]. destruct (expects q l). cbn in *. eauto.
    + destruct H as (r1 & H & I1). rewrite H. cbn [bind]. destruct (IH _ r1 I1 M' Q) as (r' & S & I'). rewrite S. cbn [bind]. destruct (expects _ l). cbn in *. eauto.
  - pose proof (read_vec q r l0 _ old I A) as H. destruct (left_v q l0) as [|v t] eqn:E.
    + rewrite H. cbn [bind]. destruct (IH q r I M' Q) as (r' & S & I'). rewrite S. cbn [bind]. destruct (expects q l). cbn in *. eauto.
    + destruct H as (r1 & H & I1). rewrite H. cbn [bind]. destruct (IH _ r1 I1 M' Q) as (r' & S & I'). rewrite S. cbn [bind]. destruct (expects _ l). cbn in *. eauto.
Qed.
Lemma start_inv f p : (forall x, In x f -> item_ok x) -> separate f -> Rep (flat_map texts1 f) (p_ss p) -> Rep (flat_map vecs1 f) (p_sv p) ->
  (forall l, count_occ sdec (p_rem p) l = removals (flat_map texts1 f) (flat_map vecs1 f) l) -> RInv (start f) (readable p).
Proof.
  intros I S T V C. assert (K : forall A (vs : list A) l, map snd (keyed l vs) = vs).
  { intros A vs l. unfold keyed. assert (L : List.length (map (key l) (seq 0 (List.length vs))) = List.length vs) by (rewrite map_length, seq_length; auto).
    revert L. generalize (map (key l) (seq 0 (List.length vs))). induction vs as [|v vs IH]; intros [|k ks] L; try discriminate; auto. cbn. f_equal. apply IH. injection L as L. auto. }
  assert (Z : forall v, (forall c, In c v -> ~ special c) -> clean_str v).
  { intros v H c Hc ->. apply (H _ Hc). right; right; right. reflexivity. }
  constructor; cbn [r_ss r_sv r_rem readable start left_t left_v].
  - intros l. rewrite (rep_part _ _ T). apply K.
  - intros l. rewrite (rep_part _ _ V). apply K.
  - apply C.
  - apply S.
  - intros l v H. apply in_map_iff in H. destruct H as ([l' v'] & <- & H). apply filter_In in H. destruct H as [H _]. apply in_flat_map in H.
    destruct H as (x & Hx & H). apply I in Hx. destruct x as [l0 bf w af rm| |a b vs| |]; try (destruct H; fail).
    + destruct H as [H|[]]. injection H as <- <-. destruct Hx as (_ & _ & [_ Hw] & _). apply Z. auto.
    + destruct Hx as (_ & _ & _ & _ & Hw). assert (X : In v' vs).
      { clear - H. cbn [texts1] in H. revert H. generalize 0%nat. induction vs as [|w vs IH]; intros i H; [destruct H|]. destruct H as [H|H]; [injection H as _ H; left; auto|right; eauto]. }
      destruct (Hw _ X) as [_ Hv]. apply Z. auto.
  - intros l v H. apply in_map_iff in H. destruct H as ([l' v'] & <- & H). apply filter_In in H. destruct H as [H _]. apply in_flat_map in H.
    destruct H as (x & Hx & H). apply I in Hx. destruct x as [|l0 ns af| | |]; try (destruct H; fail).
    destruct H as [H|[]]. injection H as <- <-. destruct Hx as (_ & L & Hw & _). cbn [snd]. split; [rewrite map_length; auto|].
    intros s Hs. apply in_map_iff in Hs. destruct Hs as (pq & <- & Hp). destruct (Hw _ Hp) as [_ [_ Hn]]. apply Z. intros c Hc. apply Hn. auto.
Qed.

(** Any file that is well formed is read, and any series of requests gets the values of the labels. It is assumed that
    the file ends with a newline, that no comment is next after a vector, that remarks have a blank before '#', and
    that no label has both values and vectors. *)
Theorem C44_file_partial : forall chk_label chk_text chk_vec f old eq reqs,
  checks_accept chk_label chk_text -> file_ok chk_vec f -> f <> [] -> separate f ->
  (forall a, In a reqs -> may_ask a) -> eq_or_not eq ->
  exists p r, writeable_file chk_label chk_text chk_vec (Some (render f)) = Ok p /\
    session old eq (readable p) reqs = Ok (fst (expects (start f) reqs), r).
Proof.
  intros cl ct cv f old eq reqs A F N S M Q. destruct (file_parsed cl ct cv f A F N) as (p & E & T & V & C). destruct F as (I & _).
  destruct (session_expects old eq reqs (start f) (readable p) (start_inv f p I S T V C) M Q) as (r & E2 & _). eauto.
Qed.
Print Assumptions C44_file_partial.
(** The same for a text given as a string. *)
Theorem C44_data_partial : forall chk_label chk_text chk_vec f old eq reqs,
  checks_accept chk_label chk_text -> file_ok chk_vec f -> f <> [] -> separate f ->
  (forall a, In a reqs -> may_ask a) -> eq_or_not eq ->
  exists p r, writeable_data chk_label chk_text chk_vec (render f) = Ok p /\
    session old eq (readable p) reqs = Ok (fst (expects (start f) reqs), r).
Proof.
  intros cl ct cv f old eq reqs A F N S M Q. destruct (data_parsed cl ct cv f 0 A F N) as (p & E & T & V & C). cbn [repeat] in E. rewrite app_nil_r in E. destruct F as (I & _).
  destruct (session_expects old eq reqs (start f) (readable p) (start_inv f p I S T V C) M Q) as (r & E2 & _). eauto.
Qed.
Print Assumptions C44_data_partial.

(** After any requests: an integer, a vector of numbers, a matrix (row by row, after its numbers of rows and columns). *)
Theorem C44_numbers_partial : forall (R : cring) (std_atof : str -> R) chk_label chk_text chk_vec f old eq reqs,
  checks_accept chk_label chk_text -> file_ok chk_vec f -> f <> [] -> separate f ->
  (forall a, In a reqs -> may_ask a) -> eq_or_not eq ->
  exists p x r, writeable_file chk_label chk_text chk_vec (Some (render f)) = Ok p /\ session old eq (readable p) reqs = Ok (x, r) /\
    let q := snd (expects (start f) reqs) in
    forall l, l <> [] -> ~ In "="%char l ->
      (forall v t n, left_t q l = v :: t -> written v n -> exists r', readline_int r (l ++ eq) = Ok (n, r')) /\
      (forall v t val, left_v q l = v :: t -> (forall s, In s (tl v) -> forallb real_chr s = true /\ isAfloat s = true) ->
        exists r', read_reals R std_atof r (l ++ eq) val = Ok (map std_atof (tl v), r')) /\
      (forall v t nrow ncol m, left_v q l = v :: t -> (0 < nrow)%nat -> (0 < ncol)%nat ->
        nth 0 v [] = print_nat nrow -> nth 1 v [] = print_nat ncol -> (2 + nrow * ncol <= List.length v)%nat ->
        (forall s, In s v -> isAfloat s = true) -> m_nrow m = 0%nat \/ m_nrow m = nrow ->
        exists r' M, read_matrix R std_atof r (l ++ eq) m = Ok (M, r') /\
          is_mat M nrow ncol (fun i j => std_atof (nth (2 + i * ncol + j) v []))).
Proof.
  intros R at_f cl ct cv f old eq reqs A F N S M Q. destruct (file_parsed cl ct cv f A F N) as (p & E & T & V & C). destruct F as (I & _).
  destruct (session_expects old eq reqs (start f) (readable p) (start_inv f p I S T V C) M Q) as (r & E2 & IR).
  exists p, (fst (expects (start f) reqs)), r. split; auto. split; auto. cbv zeta. intros l L1 L2.
  assert (As : asked l (l ++ eq)) by (apply (asked_ok (AskText l) eq); [split; auto|auto]).
  split; [|split].
  - intros v t n Ev W. destruct (read_int _ r l _ v t n IR As Ev W) as (r' & H & _). eauto.
  - intros v t val Ev W. destruct (read_reals_ok R at_f _ r l _ v t val IR As Ev) as (r' & H & _); eauto.
    intros s Hs. destruct (W s Hs) as [W1 W2]. unfold stringToReal. rewrite W1.
    assert (X : clean_str s).
    { destruct IR as [_ _ _ _ _ Cv]. destruct (Cv l v) as [_ Cl]; [rewrite Ev; left; auto|]. apply Cl. destruct v; [destruct Hs|right; auto]. }
    rewrite c_str_id by auto. unfold atof. rewrite W2. auto.
  - intros v t nrow ncol m Ev H1 H2 H3 H4 H5 H6 H7. destruct (read_matrix_ok R at_f _ r l _ v t m nrow ncol IR As Ev H1 H2 H3 H4 H5 H6 H7) as (r' & M' & X1 & _ & X3). eauto.
Qed.
Print Assumptions C44_numbers_partial.

(** The k-th request of a label gets its k-th value, and the last one again when there are no more, whatever
    is asked in between. *)
Definition before (l : str) (reqs : list request) (i : nat) : nat :=
  List.length (filter (fun a => match a with AskText l' => str_eqb l l' | _ => false end) (firstn i reqs)).
Definition before_vec (l : str) (reqs : list request) (i : nat) : nat :=
  List.length (filter (fun a => match a with AskVec l' => str_eqb l l' | _ => false end) (firstn i reqs)).
Lemma take_skip {V} (q : str -> list V) l l' (k : nat) vs : q l' = skipn (min k (List.length vs - 1)) vs ->
  take q l l' = skipn (min (if str_eqb l' l then S k else k) (List.length vs - 1)) vs.
Proof.
  intros E. unfold take. destruct (str_eqb l' l) eqn:El.
  - apply str_eqb_eq in El. subst l'. rewrite str_eqb_refl. pose proof (skipn_length (min k (List.length vs - 1)) vs) as L. rewrite <- E in L.
    destruct (q l) as [|a [|b t]] eqn:Eq; cbn [List.length] in L.
    + assert (List.length vs = 0%nat) by lia. destruct vs; [|discriminate]. rewrite skipn_nil. auto.
    + rewrite E. f_equal. lia.
    + replace (min (S k) (List.length vs - 1)) with (1 + min k (List.length vs - 1))%nat by lia.
      assert (G : forall A (u : list A) n, skipn (1 + n) u = tl (skipn n u)).
      { intros A u n. revert u. induction n as [|n IHn]; intros [|x u]; auto. cbn [skipn Nat.add] in *. rewrite <- IHn. auto. }
      rewrite G, <- E. auto.
  - rewrite (str_eqb_neq l l'); [auto|]. apply str_eqb_false in El. auto.
Qed.
Lemma expects_nth l reqs : forall q vs k0 i, left_t q l = skipn (min k0 (List.length vs - 1)) vs -> nth_error reqs i = Some (AskText l) -> vs <> [] ->
  nth_error (fst (expects q reqs)) i = Some (Some (AText (nth (min (k0 + before l reqs i) (List.length vs - 1)) vs []))).
Proof.
  induction reqs as [|a reqs IH]; intros q vs k0 i Hq Hi Nv; [destruct i; discriminate|].
  cbn [expects]. destruct i as [|i].
  - injection Hi as ->. cbn [expect]. destruct vs as [|v0 vs0] eqn:Evs; [contradiction|]. rewrite <- Evs in *.
    assert (Lv : (0 < List.length vs)%nat) by (subst; simpl; lia).
    rewrite Hq, (skipn_nth vs []) by lia. destruct (expects _ reqs). cbn [fst nth_error]. unfold before. cbn [firstn filter List.length]. rewrite Nat.add_0_r. auto.
  - cbn [nth_error] in Hi.
    assert (Bf : before l (a :: reqs) (S i) = ((match a with AskText l' => if str_eqb l l' then 1 else 0 | _ => 0 end) + before l reqs i)%nat).
    { unfold before. cbn [firstn filter]. destruct a as [l'|l']; [destruct (str_eqb l l')|]; cbn [List.length]; lia. }
    rewrite Bf. destruct a as [l'|l']; cbn [expect].
    + destruct (left_t q l') as [|v t] eqn:El.
      * destruct (str_eqb l l') eqn:E.
        { apply str_eqb_eq in E. subst l'. exfalso. rewrite El in Hq. apply (f_equal (@List.length str)) in Hq. rewrite skipn_length in Hq. cbn in Hq. destruct vs; [contradiction|cbn [List.length] in Hq; lia]. }
        specialize (IH q vs k0 i Hq Hi Nv). destruct (expects q reqs). cbn [fst nth_error] in *. rewrite IH. auto.
      * specialize (IH (mkrest (take (left_t q) l') (left_v q)) vs (if str_eqb l l' then S k0 else k0) i).
        assert (X : left_t (mkrest (take (left_t q) l') (left_v q)) l = skipn (min (if str_eqb l l' then S k0 else k0) (List.length vs - 1)) vs) by (apply take_skip; auto).
        specialize (IH X Hi Nv). destruct (expects _ reqs). cbn [fst nth_error] in *. rewrite IH. do 4 f_equal. destruct (str_eqb l l'); lia.
    + destruct (left_v q l') as [|v t] eqn:El.
      * specialize (IH q vs k0 i Hq Hi Nv). destruct (expects q reqs). cbn [fst nth_error] in *. rewrite IH. auto.
      * specialize (IH (mkrest (left_t q) (take (left_v q) l')) vs k0 i Hq Hi Nv). destruct (expects _ reqs). cbn [fst nth_error] in *. rewrite IH. auto.
Qed.
Lemma expects_nth_vec l reqs : forall q vs k0 i, left_v q l = skipn (min k0 (List.length vs - 1)) vs -> nth_error reqs i = Some (AskVec l) -> vs <> [] ->
  nth_error (fst (expects q reqs)) i = Some (Some (AVec (tl (nth (min (k0 + before_vec l reqs i) (List.length vs - 1)) vs [])))).
Proof.
  induction reqs as [|a reqs IH]; intros q vs k0 i Hq Hi Nv; [destruct i; discriminate|].
  cbn [expects]. destruct i as [|i].
  - injection Hi as ->. cbn [expect]. destruct vs as [|v0 vs0] eqn:Evs; [contradiction|]. rewrite <- Evs in *.
    assert (Lv : (0 < List.length vs)%nat) by (subst; simpl; lia).
    rewrite Hq, (skipn_nth vs []) by lia. destruct (expects _ reqs). cbn [fst nth_error]. unfold before_vec. cbn [firstn filter List.length]. rewrite Nat.add_0_r. auto.
  - cbn [nth_error] in Hi.
    assert (Bf : before_vec l (a :: reqs) (S i) = ((match a with AskVec l' => if str_eqb l l' then 1 else 0 | _ => 0 end) + before_vec l reqs i)%nat).
    { unfold before_vec. cbn [firstn filter]. destruct a as [l'|l']; [|destruct (str_eqb l l')]; cbn [List.length]; lia. }
    rewrite Bf. destruct a as [l'|l']; cbn [expect].
    + destruct (left_t q l') as [|v t] eqn:El.
      * specialize (IH q vs k0 i Hq Hi Nv). destruct (expects q reqs). cbn [fst nth_error] in *. rewrite IH. auto.
      * specialize (IH (mkrest (take (left_t q) l') (left_v q)) vs k0 i Hq Hi Nv). destruct (expects _ reqs). cbn [fst nth_error] in *. rewrite IH. auto.
    + destruct (left_v q l') as [|v t] eqn:El.
      * destruct (str_eqb l l') eqn:E.
        { apply str_eqb_eq in E. subst l'. exfalso. rewrite El in Hq. apply (f_equal (@List.length (list str))) in Hq. rewrite skipn_length in Hq. cbn in Hq. destruct vs; [contradiction|cbn [List.length] in Hq; lia]. }
        specialize (IH q vs k0 i Hq Hi Nv). destruct (expects q reqs). cbn [fst nth_error] in *. rewrite IH. auto.
      * specialize (IH (mkrest (left_t q) (take (left_v q) l')) vs (if str_eqb l l' then S k0 else k0) i).
        assert (X : left_v (mkrest (left_t q) (take (left_v q) l')) l = skipn (min (if str_eqb l l' then S k0 else k0) (List.length vs - 1)) vs) by (apply take_skip; auto).
        specialize (IH X Hi Nv). destruct (expects _ reqs). cbn [fst nth_error] in *. rewrite IH. do 5 f_equal. destruct (str_eqb l l'); lia.
Qed.

(** For files in which no label is used both for a text and for a vector: the i-th request for a label gets its i-th value, and the last one when there are no more. *)
Theorem C45_in_order_partial : forall chk_label chk_text chk_vec f old eq reqs,
  checks_accept chk_label chk_text -> file_ok chk_vec f -> f <> [] -> separate f ->
  (forall a, In a reqs -> may_ask a) -> eq_or_not eq ->
  exists p x r, writeable_file chk_label chk_text chk_vec (Some (render f)) = Ok p /\
    session old eq (readable p) reqs = Ok (x, r) /\
    (forall i l, nth_error reqs i = Some (AskText l) -> texts f l <> [] ->
      nth_error x i = Some (Some (AText (nth (min (before l reqs i) (List.length (texts f l) - 1)) (texts f l) [])))) /\
    (forall i l, nth_error reqs i = Some (AskVec l) -> vecs f l <> [] ->
      nth_error x i = Some (Some (AVec (tl (nth (min (before_vec l reqs i) (List.length (vecs f l) - 1)) (vecs f l) []))))).
Proof.
  intros cl ct cv f old eq reqs A F N S M Q. destruct (C44_file_partial cl ct cv f old eq reqs A F N S M Q) as (p & r & E & E2).
  exists p. eexists. exists r. split; auto. split; [exact E2|]. split.
  - intros i l Hi Hv. apply (expects_nth l reqs (start f) (texts f l) 0 i); auto.
  - intros i l Hi Hv. apply (expects_nth_vec l reqs (start f) (vecs f l) 0 i); auto.
Qed.
Print Assumptions C45_in_order_partial.

(** A file that meets the hypotheses, and what is read from it *)
Definition accept_label (_ : str) (_ : nat) : res unit := Ok tt.
Definition accept_text (_ _ : str) (_ : nat) : res unit := Ok tt.
Definition count_only (_ : str) (_ : list str) (_ : nat) : res bool := Ok false.
Definition nl : str := [newline].
Definition sp : str := lit " ".
Definition example_file : list item :=
  [ IComment [] (lit " an example");
    IText (lit "Sites") [] (lit "16") sp (Some (lit "how many"));
    IBlank sp;
    IText (lit "Model") sp (lit "x=y") [] None;
    IVec (lit "hop") [(sp, lit "2"); (nl ++ sp, lit "1.0"); (sp, lit "-2.5e1")] sp;
    IText (lit "Sites") [] (lit "-8") [] None;
    IMany (lit "U") (lit "v") [lit "5"; lit "6"];
    IVec (lit "hop") [(sp, lit "3"); (nl, lit "1"); (nl, lit "2"); (nl, lit "3")] [] ].
Definition example_text : str := lit "# an example" ++ nl ++ lit "Sites=16 #how many" ++ nl ++ lit " " ++ nl ++ lit "Model= x=y" ++ nl ++
  lit "hop 2" ++ nl ++ lit " 1.0 -2.5e1 " ++ nl ++ lit "Sites=-8" ++ nl ++ lit "!U$iv 5 6" ++ nl ++ lit "hop 3" ++ nl ++ lit "1" ++ nl ++ lit "2" ++ nl ++ lit "3" ++ nl.

Definition plain_chr (c : ascii) : bool :=
  negb (Ascii.eqb c " " || Ascii.eqb c (ascii_of_nat 9) || Ascii.eqb c newline || Ascii.eqb c "#" || Ascii.eqb c (ascii_of_nat 0)).
Lemma plain_chr_ok c : plain_chr c = true -> ~ special c.
Proof. intros H S. destruct S as [[-> | ->]|[-> |[-> | ->]]]; discriminate. Qed.
Definition labelb (l : str) : bool :=
  match l with
  | [] => false
  | c :: _ => negb (mem_chr c (lit "0123456789:.+-(),!")) && forallb (fun c => plain_chr c && negb (Ascii.eqb c "=") && negb (Ascii.eqb c "@")) l
  end.
Lemma labelb_ok l : labelb l = true -> label_ok l.
Proof.
  destruct l as [|c s]; [discriminate|]. intros H. cbn [labelb] in H. apply andb_prop in H. destruct H as [H1 H2]. split.
  - exists c, s. split; auto. apply negb_true_iff in H1. split.
    + intros N. assert (X : mem_chr c (lit "0123456789:.+-(),!") = true); [|congruence]. apply mem_chr_In. unfold numeric in N. cbn in N |- *. tauto.
    + intros ->. discriminate.
  - intros x Hx. rewrite forallb_forall in H2. specialize (H2 x Hx). apply andb_prop in H2. destruct H2 as [H2 H3]. apply andb_prop in H2. destruct H2 as [H2 H4].
    split; [apply plain_chr_ok; auto|]. split; intros ->; discriminate.
Qed.
Definition valueb (l : str) : bool := match l with [] => false | c :: _ => negb (Ascii.eqb c "=") && forallb plain_chr l end.
Lemma valueb_ok l : valueb l = true -> value_ok l.
Proof.
  destruct l as [|c s]; [discriminate|]. intros H. cbn [valueb] in H. apply andb_prop in H. destruct H as [H1 H2]. split.
  - exists c, s. split; auto. intros ->. discriminate.
  - intros x Hx. rewrite forallb_forall in H2. apply plain_chr_ok. auto.
Qed.
Definition numberb (l : str) : bool :=
  match l with [] => false | c :: _ => mem_chr c (lit "0123456789:.+-(),") && forallb (fun c => plain_chr c && negb (Ascii.eqb c "=")) l end.
Lemma numberb_ok l : numberb l = true -> number_ok l.
Proof.
  destruct l as [|c s]; [discriminate|]. intros H. cbn [numberb] in H. apply andb_prop in H. destruct H as [H1 H2]. split.
  - exists c, s. split; auto. apply mem_chr_In in H1. exact H1.
  - intros x Hx. rewrite forallb_forall in H2. specialize (H2 x Hx). apply andb_prop in H2. destruct H2 as [H2 H4]. split; [apply plain_chr_ok; auto|]. intros ->. discriminate.
Qed.

Example C44_nonvacuous :
  render example_file = example_text /\ checks_accept accept_label accept_text /\ file_ok count_only example_file /\ separate example_file /\
  fst (expects (start example_file) [AskText (lit "Sites"); AskVec (lit "hop"); AskText (lit "U1v"); AskText (lit "Sites"); AskText (lit "none"); AskVec (lit "hop"); AskText (lit "Sites"); AskText (lit "Model")]) =
    [Some (AText (lit "16")); Some (AVec [lit "1.0"; lit "-2.5e1"]); Some (AText (lit "6")); Some (AText (lit "-8")); None;
     Some (AVec [lit "1"; lit "2"; lit "3"]); Some (AText (lit "-8")); Some (AText (lit "x=y"))].
Proof.
  assert (Bl : forall s, forallb (fun c => Ascii.eqb c " ") s = true -> blanks s).
  { intros s H c Hc. rewrite forallb_forall in H. specialize (H c Hc). apply Ascii.eqb_eq in H. left. auto. }
  assert (Gp : forall s, s <> [] -> forallb (fun c => Ascii.eqb c " " || Ascii.eqb c newline) s = true -> gap s).
  { intros s N H. split; auto. intros c Hc. rewrite forallb_forall in H. specialize (H c Hc). apply orb_prop in H. destruct H as [H|H]; apply Ascii.eqb_eq in H; [left; left|right]; auto. }
  assert (Nn : forall s, forallb (fun c => negb (Ascii.eqb c newline)) s = true -> ~ In newline s).
  { intros s H Hc. rewrite forallb_forall in H. specialize (H _ Hc). discriminate. }
  assert (Io : forall x, In x example_file -> item_ok x).
  { intros x H. unfold example_file in H. repeat (destruct H as [<-|H]); [..|destruct H]; cbn [item_ok].
    - split; [apply Bl|apply Nn]; reflexivity.
    - split; [apply labelb_ok; reflexivity|]. split; [apply Bl; reflexivity|]. split; [apply valueb_ok; reflexivity|]. split; [apply Bl; reflexivity|]. split; [discriminate|apply Nn; reflexivity].
    - apply Bl. reflexivity.
    - split; [apply labelb_ok; reflexivity|]. split; [apply Bl; reflexivity|]. split; [apply valueb_ok; reflexivity|]. split; [apply Bl; reflexivity|exact Logic.I].
    - split; [apply labelb_ok; reflexivity|]. split; [simpl; lia|]. split; [|apply Bl; reflexivity].
      intros p H. repeat (destruct H as [<-|H]); [..|destruct H]; (split; [apply Gp; [discriminate|reflexivity]|apply numberb_ok; reflexivity]).
    - split; [apply labelb_ok; reflexivity|]. split; [apply Bl; reflexivity|]. split; [apply valueb_ok; reflexivity|]. split; [apply Bl; reflexivity|exact Logic.I].
    - split; [discriminate|]. split; [|split; [|split; [discriminate|]]].
      + intros i. destruct (pnat_digits i) as (_ & D & _). split.
        * eexists. eexists. split; [reflexivity|]. split; [|discriminate]. intros N. cbn in N. repeat (destruct N as [N|N]; [discriminate|]). destruct N.
        * intros c Hc. apply in_app_iff in Hc. destruct Hc as [Hc|Hc]; [|apply in_app_iff in Hc; destruct Hc as [Hc|Hc]].
          -- destruct Hc as [<-|[]]. split; [apply plain_chr_ok; reflexivity|split; discriminate].
          -- apply D in Hc. apply isdigit_In in Hc. clear - Hc. split; [apply plain_chr_ok|split]; destruct c as [[] [] [] [] [] [] [] []]; try discriminate; reflexivity.
          -- destruct Hc as [<-|[]]. split; [apply plain_chr_ok; reflexivity|split; discriminate].
      + cbn. intuition discriminate.
      + intros v [<-|[<-|[]]]; apply valueb_ok; reflexivity.
    - split; [apply labelb_ok; reflexivity|]. split; [simpl; lia|]. split; [|apply Bl; reflexivity].
      intros p H. repeat (destruct H as [<-|H]); [..|destruct H]; (split; [apply Gp; [discriminate|reflexivity]|apply numberb_ok; reflexivity]). }
  split; [vm_compute; reflexivity|]. split; [split; reflexivity|]. split.
  - split; [exact Io|]. split; [cbn; auto|]. split; [|split].
    + intros l ns after H. unfold example_file in H. repeat (destruct H as [H|H]; [try discriminate H|]); [..|destruct H]; injection H as <- <- <-.
      * split; [exists 2%nat; vm_compute; reflexivity|]. intros n. exists false. split; auto. right. eexists. eexists. split; [reflexivity|]. vm_compute. reflexivity.
      * split; [exists 3%nat; vm_compute; reflexivity|]. intros n. exists false. split; auto. right. eexists. eexists. split; [reflexivity|]. vm_compute. reflexivity.
    + vm_compute. reflexivity.
    + intros [s H]. vm_compute in H. discriminate.
  - split.
    + intros l. unfold texts, vecs, values_of. destruct (str_eqb l (lit "hop")) eqn:E.
      * apply str_eqb_eq in E. subst l. left. vm_compute. reflexivity.
      * right. cbn [example_file flat_map vecs1 app filter fst]. rewrite E. reflexivity.
    + vm_compute. reflexivity.
Qed.

(** What goes wrong outside these hypotheses, with a checker that accepts every label *)
Definition run_file (text : str) (reqs : list request) : res (list (option answer)) :=
  do p <- writeable_file accept_label accept_text count_only (Some text) ;;
  do (x, _) <- session [] [] (readable p) reqs ;; Ok x.
(** A last line without a newline: the last character is read twice. *)
Theorem C44_no_newline_refuted : run_file (lit "a=12") [AskText (lit "a")] = Ok [Some (AText (lit "122"))].
Proof. vm_compute. reflexivity. Qed.
Print Assumptions C44_no_newline_refuted.
(** A comment after a vector: the vector is given to the label of the last line. *)
Theorem C44_comment_refuted :
  run_file (lit "v 2 1 2" ++ nl ++ lit "#c" ++ nl ++ lit "w=3" ++ nl) [AskVec (lit "v"); AskVec (lit "w")] = Ok [None; Some (AVec [lit "1"; lit "2"])].
Proof. vm_compute. reflexivity. Qed.
Print Assumptions C44_comment_refuted.
(** A remark with no blank before it: the value is lost. *)
Theorem C44_remark_refuted :
  run_file (lit "a=3#c" ++ nl ++ lit "b=1" ++ nl) [AskText (lit "a"); AskText (lit "b"); AskText (lit "3b")] = Ok [None; None; Some (AText (lit "1"))].
Proof. vm_compute. reflexivity. Qed.
Print Assumptions C44_remark_refuted.
(** A repeated label that is also the label of a vector: the vector is gone after the first read. *)
Theorem C45_shared_refuted :
  run_file (lit "a=1" ++ nl ++ lit "a=2" ++ nl ++ lit "a 1 7" ++ nl) [AskVec (lit "a"); AskVec (lit "a"); AskText (lit "a"); AskText (lit "a")]
  = Ok [Some (AVec [lit "7"]); None; Some (AText (lit "1")); Some (AText (lit "1"))].
Proof. vm_compute. reflexivity. Qed.
Print Assumptions C45_shared_refuted.
(** Forcing the removal of a label that is not repeated erases past the end of a vector. *)
Theorem C45_force_refuted :
  (do p <- writeable_file accept_label accept_text count_only (Some (lit "a=1" ++ nl)) ;; readline (readable p) (lit "a") true true) = UB.
Proof. vm_compute. reflexivity. Qed.
Print Assumptions C45_force_refuted.

(** ** C46: readFile *)
(** What is appended is the file and its last character once more. *)
Theorem C46_readFile_partial : forall data file c, readFile data (Some (file ++ [c])) = Ok (data ++ file ++ [c] ++ [c]) /\ readFile data None = Throw.
Proof. intros data file c. split; auto. unfold readFile. rewrite readFile_app. auto. Qed.
Print Assumptions C46_readFile_partial.
(** So no file is read as it is; an empty one gives a zero byte. *)
Theorem C46_readFile_refuted : (forall data file, readFile data (Some file) <> Ok (data ++ file)) /\ readFile [] (Some []) = Ok [zero].
Proof.
  split; [|reflexivity]. intros data file H. unfold readFile in H. destruct (list_eq_dec ascii_dec file []) as [-> |N].
  - apply Ok_inj in H. apply (f_equal (@List.length ascii)) in H. cbn [readFile_loop] in H. rewrite !app_length in H. cbn in H. lia.
  - destruct (exists_last N) as (s & c & ->). rewrite readFile_app in H. apply Ok_inj in H. apply (f_equal (@List.length ascii)) in H. rewrite !app_length in H. cbn in H. lia.
Qed.
Print Assumptions C46_readFile_refuted.
