From Coq Require Import Ascii String Reals Lia Ring.
From Verif Require Import Prelude Ring Str_Model Str_Proofs Text_Model Dense_Model Dense_Spec Dense_Proofs Crs_Model Mpr_Model Mpr_Spec.
Import List.
Local Open Scope nat_scope.

Lemma all_S n f : all (S n) f = all n f ++ f n.
Proof. unfold all. rewrite seq_S, map_app, concat_app. cbn [map concat Nat.add]. rewrite app_nil_r. reflexivity. Qed.
Lemma all_ext n f g : (forall i, i < n -> f i = g i) -> all n f = all n g.
Proof. intros H. unfold all. f_equal. apply map_ext_in. intros i Hi. apply in_seq in Hi. apply H. lia. Qed.
Lemma row_S {T} n (f : nat -> T) : row_of (S n) f = row_of n f ++ [f n].
Proof. unfold row_of. rewrite seq_S, map_app. reflexivity. Qed.
Lemma row_len {T} n (f : nat -> T) : List.length (row_of n f) = n.
Proof. unfold row_of. rewrite map_length, seq_length. reflexivity. Qed.
Lemma join_app sep l x : l <> [] -> join sep (l ++ [x]) = join sep l ++ sep ++ x.
Proof.
  induction l as [|a l IH]; [congruence|]. intros _. destruct l as [|b l]; [reflexivity|].
  change ((a :: b :: l) ++ [x]) with (a :: ((b :: l) ++ [x])).
  assert (E : join sep (a :: ((b :: l) ++ [x])) = a ++ sep ++ join sep ((b :: l) ++ [x])) by reflexivity. rewrite E, IH by discriminate.
  change (join sep (a :: b :: l)) with (a ++ sep ++ join sep (b :: l)). rewrite <- !app_assoc. reflexivity.
Qed.
(** What a loop that puts a separator after all but the last leaves *)
Definition upto (sep : str) (n k : nat) (f : nat -> str) : str :=
  if (k =? 0) then [] else if k <? n then join sep (row_of k f) ++ sep else join sep (row_of k f).
Lemma upto_S sep n k f : k < n -> upto sep n (S k) f = upto sep n k f ++ f k ++ (if k + 1 <? n then sep else []).
Proof.
  intros H. unfold upto. cbn [Nat.eqb]. replace (k + 1) with (S k) by lia. destruct k as [|k].
  - cbn [Nat.eqb app]. change (join sep (row_of 1 f)) with (f 0). destruct (1 <? n); [reflexivity|rewrite app_nil_r; reflexivity].
  - cbn [Nat.eqb]. rewrite (row_S (S k)), join_app by (rewrite row_S; destruct (row_of k f); discriminate).
    assert (Q : (S k <? n) = true) by (apply Nat.ltb_lt; exact H). rewrite Q. destruct (S (S k) <? n); rewrite <- !app_assoc, ?app_nil_r; reflexivity.
Qed.
Lemma upto_end sep n f : upto sep n n f = join sep (row_of n f).
Proof. unfold upto. destruct (Nat.eqb_spec n 0) as [->|]; [reflexivity|]. rewrite Nat.ltb_irrefl. reflexivity. Qed.

Section P.
  Variable K : cring.
  Variable nrm : K -> Reals.Rdefinitions.R.
  Variable show : K -> str.
  Add Ring KR : (c_ring K).

  Lemma math_ok (A : mat K) : mat_wf A ->
    mathematicaPrint K show A = Ok (math_text (m_nrow A) (m_ncol A) (fun i j => show (melem A i j))).
  Proof.
    intros W. unfold mathematicaPrint. set (g := fun i j => show (melem A i j)). set (rt := fun i => lit "{" ++ join (lit ",") (row_of (m_ncol A) (g i)) ++ lit "}").
    loopM (fun i os => os = lit "m:={" ++ upto (lit "," ++ nl) (m_nrow A) i rt) as os E H.
    - cbn [upto Nat.eqb]. rewrite app_nil_r. reflexivity.
    - intros i os Hi ->. rewrite Nat.add_0_l in Hi. set (pre := lit "m:={" ++ upto (lit "," ++ nl) (m_nrow A) i rt).
      loopM (fun j os => os = (pre ++ lit "{") ++ upto (lit ",") (m_ncol A) j (g i)) as os2 E2 H2.
      + cbn [upto Nat.eqb]. rewrite app_nil_r. reflexivity.
      + intros j os Hj ->. rewrite (mget_ok K A i j W) by lia. cbn [bind]. eexists. split; [reflexivity|]. rewrite upto_S by lia. unfold g at 2. destruct (j + 1 <? m_ncol A); rewrite <- !app_assoc, ?app_nil_r; reflexivity.
      + rewrite E2. cbn [bind]. eexists. split; [reflexivity|]. rewrite H2, Nat.add_0_l, upto_end, upto_S by lia. unfold rt at 2, pre. destruct (i + 1 <? m_nrow A); rewrite <- !app_assoc, ?app_nil_r; reflexivity.
    - rewrite E. cbn [bind]. rewrite H, Nat.add_0_l, upto_end. unfold math_text. rewrite <- !app_assoc. reflexivity.
  Qed.

  Lemma sub_opp (v x : K) : csub (copp v) x = copp (cadd v x). Proof. ring. Qed.
  Lemma sub_zero (x : K) : csub c0 x = copp x. Proof. ring. Qed.
  Lemma sub_self (x : K) : csub x x = c0. Proof. ring. Qed.
  Lemma tiny_iff x : tiny K nrm x = true <-> (nrm x < 1 / 1000000)%R.
  Proof. unfold tiny. destruct (Rlt_dec _ _); split; auto; discriminate. Qed.
  Lemma first_spec f l : (first K f l < List.length l -> exists v, nth_error l (first K f l) = Some v /\ f v = true) /\
    (first K f l = List.length l -> forall v, In v l -> f v = false) /\ first K f l <= List.length l.
  Proof.
    induction l as [|a l IH]; cbn [first List.length]; [split; [lia|]; split; [intros _ v []|lia]|]. destruct (f a) eqn:E.
    - split; [intros _; exists a; auto|]. split; [discriminate|lia].
    - destruct IH as (I1 & I2 & I3). split; [intros H; destruct (I1 ltac:(lia)) as (v & ? & ?); exists v; auto|]. split; [|lia]. intros H v [<-|Hv]; [exact E|]. apply I2; [lia|exact Hv].
  Qed.

  (** Letters: values far from each other, and marks that stand for the numbers *)
  Definition far (x y : K) : Prop := tiny K nrm (csub x y) = false /\ tiny K nrm (cadd x y) = false.
  Definition good_values (A : mat K) (values : list K) : Prop :=
    (forall v, In v values -> (exists i j, i < m_nrow A /\ j < m_ncol A /\ v = melem A i j) /\ tiny K nrm v = false) /\
    (forall k l v w, k < l -> nth_error values k = Some v -> nth_error values l = Some w -> far v w).
  Definition stands (values : list K) (m : mark) (x : K) : Prop :=
    match m with
    | Zero => tiny K nrm x = true
    | Plus k => exists v, nth_error values k = Some v /\ k < 25 /\ (x = v \/ tiny K nrm (csub v x) = true)
    | Minus k => exists v, nth_error values k = Some v /\ k < 25 /\ tiny K nrm (cadd v x) = true
    end.
  Lemma stands_app values more m x : stands values m x -> stands (values ++ more) m x.
  Proof.
    destruct m as [|k|k]; cbn [stands]; auto; intros (v & H1 & H2); exists v; (split; [|exact H2]); rewrite nth_error_app1; auto; apply nth_error_Some; congruence.
  Qed.
  Lemma capital_ok k : k < 25 -> [chark k] = capital k.
  Proof. intros H. do 25 (destruct k as [|k]; [reflexivity|]). lia. Qed.
  Lemma good_push A values val i j : i < m_nrow A -> j < m_ncol A -> val = melem A i j -> tiny K nrm val = false -> good_values A values ->
    (forall v, In v values -> tiny K nrm (csub v val) = false) -> (forall v, In v values -> tiny K nrm (cadd v val) = false) -> good_values A (values ++ [val]).
  Proof.
    intros Hi Hj E Ht [G1 G2] F1 F2. split.
    - intros v Hv. apply in_app_or in Hv. destruct Hv as [Hv|[<-|[]]]; [auto|]. split; [exists i, j; auto|exact Ht].
    - intros k l v w Hkl Hk Hl. assert (Ll : l < List.length (values ++ [val])) by (apply nth_error_Some; congruence). rewrite app_length in Ll. cbn [List.length] in Ll.
      rewrite nth_error_app1 in Hk by lia. destruct (Nat.eq_dec l (List.length values)) as [->|].
      + rewrite nth_error_app2, Nat.sub_diag in Hl by lia. injection Hl as <-. apply nth_error_In in Hk. split; [apply F1|apply F2]; exact Hk.
      + rewrite nth_error_app1 in Hl by lia. apply (G2 k l); auto.
  Qed.

  Definition text_of (r c : nat) (marks : nat -> nat -> mark) (i j : nat) : str :=
    all i (fun a => all c (fun b => mark_text (marks a b)) ++ endl) ++ all j (fun b => mark_text (marks i b)).
  Definition Inv (A : mat K) (hdr : str) (i j : nat) (y : sym K) : Prop :=
    good_values A (y_values y) /\
    if y_thrown y then List.length (y_values y) = 26
    else List.length (y_values y) <= 25 /\ exists marks, y_os y = hdr ++ text_of (m_nrow A) (m_ncol A) marks i j /\
      forall a b, a < i /\ b < m_ncol A \/ a = i /\ b < j -> stands (y_values y) (marks a b) (melem A a b).
  Lemma text_ext r c m1 m2 i j : (forall a b, a < i /\ b < c \/ a = i /\ b < j -> m1 a b = m2 a b) -> text_of r c m1 i j = text_of r c m2 i j.
  Proof.
    intros H. unfold text_of. f_equal.
    - apply all_ext. intros a Ha. f_equal. apply all_ext. intros b Hb. rewrite H by auto. reflexivity.
    - apply all_ext. intros b Hb. rewrite H by auto. reflexivity.
  Qed.
  (** One more mark *)
  Lemma Inv_mark A hdr i j os values m more os' :
    good_values A values -> List.length values <= 25 -> i < m_nrow A -> j < m_ncol A ->
    (exists marks, os = hdr ++ text_of (m_nrow A) (m_ncol A) marks i j /\ forall a b, a < i /\ b < m_ncol A \/ a = i /\ b < j -> stands values (marks a b) (melem A a b)) ->
    good_values A (values ++ more) -> List.length (values ++ more) <= 25 -> stands (values ++ more) m (melem A i j) -> os' = os ++ mark_text m ->
    Inv A hdr i (S j) (mksym os' (values ++ more) false).
  Proof.
    intros G L Hi Hj (marks & -> & Hs) G' L' Hm ->. split; [exact G'|]. cbn [y_thrown y_values y_os]. split; [exact L'|].
    exists (fun a b => if (a =? i) && (b =? j) then m else marks a b). split.
    - rewrite <- app_assoc. f_equal. unfold text_of at 2. rewrite all_S, app_assoc. fold (text_of (m_nrow A) (m_ncol A) (fun a b => if (a =? i) && (b =? j) then m else marks a b) i j).
      f_equal; [|rewrite !Nat.eqb_refl; reflexivity]. apply text_ext. intros a b Hab. destruct (Nat.eqb_spec a i); [|reflexivity]. destruct (Nat.eqb_spec b j); [lia|reflexivity].
    - intros a b Hab. destruct (Nat.eqb_spec a i) as [->|].
      + destruct (Nat.eqb_spec b j) as [->|]; cbn [andb]; [exact Hm|]. apply stands_app, Hs. lia.
      + cbn [andb]. apply stands_app, Hs. lia.
  Qed.
  Lemma sym_loop (A : mat K) : mat_wf A -> exists y, symbolicPrint K nrm show A = Ok y /\ good_values A (y_values y) /\
    if y_thrown y then List.length (y_values y) = 26
    else List.length (y_values y) <= 25 /\ exists marks,
      y_os y = letters_text (print_nat (m_nrow A) ++ lit " " ++ print_nat (m_ncol A)) (m_nrow A) (m_ncol A) marks (map show (y_values y)) /\
      forall a b, a < m_nrow A -> b < m_ncol A -> stands (y_values y) (marks a b) (melem A a b).
  Proof.
    intros W. unfold symbolicPrint. set (hdr := print_nat (m_nrow A) ++ sp ++ print_nat (m_ncol A) ++ nl).
    loopM (fun i y => Inv A hdr i 0 y) as y E H.
    - split; [split; [intros ? []|]|]. { intros k l v w Hkl. destruct k; discriminate. } cbn [y_thrown y_values y_os List.length]. split; [lia|]. exists (fun _ _ => Zero). split; [unfold text_of, all; cbn; rewrite app_nil_r; reflexivity|]. intros a b [[? _]|[_ ?]]; lia.
    - intros i y0 Hi I0. rewrite Nat.add_0_l in Hi.
      loopM (fun j y => Inv A hdr i j y) as y2 E2 H2; [exact I0| |].
      + intros j [os values thr] Hj I. destruct Hj as [_ Hj]. rewrite Nat.add_0_l in Hj. cbn [y_thrown y_os y_values]. destruct I as [G I]. cbn [y_thrown y_values y_os] in G, I. destruct thr.
        { eexists. split; [reflexivity|]. split; auto. }
        destruct I as [L M]. rewrite (mget_ok K A i j W) by lia. cbn [bind]. set (val := melem A i j).
        destruct (tiny K nrm val) eqn:T.
        { eexists. split; [reflexivity|]. rewrite <- (app_nil_r values). apply Inv_mark with (os := os) (m := Zero); rewrite ?app_nil_r; auto; lia. }
        set (f1 := fun v => tiny K nrm (csub v val)). set (f2 := fun v => tiny K nrm (cadd v val)).
        destruct (first_spec f1 values) as (A1 & A2 & A3). destruct (first_spec f2 values) as (B1 & B2 & B3).
        destruct (Nat.eqb_spec (first K f1 values) (List.length values)) as [E1|N1].
        * destruct (Nat.eqb_spec (first K f2 values) (List.length values)) as [E2|N2].
          -- assert (GP : good_values A (values ++ [val])) by (apply (good_push A values val i j); [lia|lia|reflexivity|exact T|exact G|exact (A2 E1)|exact (B2 E2)]).
             destruct (Nat.ltb_spec 25 (List.length (values ++ [val]))) as [Lt|Ge].
             ++ eexists. split; [reflexivity|]. split; [exact GP|]. cbn [y_thrown y_values]. rewrite app_length in *. cbn [List.length] in *. lia.
             ++ eexists. split; [reflexivity|]. assert (Lk : List.length values < 25) by (rewrite app_length in Ge; cbn [List.length] in Ge; lia).
                apply Inv_mark with (os := os) (m := Plus (List.length values)); auto; try lia.
                ** exists val. rewrite nth_error_app2, Nat.sub_diag by lia. auto.
                ** rewrite E1. cbn [mark_text]. rewrite <- capital_ok by exact Lk. reflexivity.
          -- eexists. split; [reflexivity|]. destruct (B1 ltac:(lia)) as (v & V1 & V2). rewrite <- (app_nil_r values) at 2. apply Inv_mark with (os := os) (m := Minus (first K f2 values)); rewrite ?app_nil_r; auto; try lia.
             ++ exists v. split; [exact V1|]. split; [lia|exact V2].
             ++ cbn [mark_text]. rewrite <- capital_ok by lia. reflexivity.
        * eexists. split; [reflexivity|]. destruct (A1 ltac:(lia)) as (v & V1 & V2). rewrite <- (app_nil_r values) at 2. apply Inv_mark with (os := os) (m := Plus (first K f1 values)); rewrite ?app_nil_r; auto; try lia.
          -- exists v. split; [exact V1|]. split; [lia|auto].
          -- cbn [mark_text]. rewrite <- capital_ok by lia. reflexivity.
      + rewrite E2. cbn [bind]. rewrite Nat.add_0_l in H2. destruct y2 as [os values thr]. destruct H2 as [G I]. cbn [y_thrown y_values y_os] in *. destruct thr; eexists; (split; [reflexivity|]); (split; [exact G|]); [exact I|].
        cbn [y_thrown y_values y_os]. destruct I as (L & marks & -> & Hs). split; [exact L|]. exists marks. split.
        * rewrite <- app_assoc. f_equal. unfold text_of. rewrite all_S. cbn [all]. unfold all at 5. cbn [seq map concat]. rewrite app_nil_r, <- app_assoc. reflexivity.
        * intros a b Hab. apply Hs. lia.
    - rewrite E. cbn [bind]. rewrite Nat.add_0_l in H. destruct y as [os values thr]. destruct H as [G I]. cbn [y_thrown y_values y_os] in *. destruct thr.
      { eexists. split; [reflexivity|]. split; [exact G|exact I]. }
      destruct I as (L & marks & -> & Hs).
      set (pre := (hdr ++ text_of (m_nrow A) (m_ncol A) marks (m_nrow A) 0) ++ lit "---------------------------" ++ nl).
      loopM (fun i os => os = pre ++ all i (fun k => capital k ++ lit "=" ++ nth k (map show values) [] ++ lit " ")) as os3 E3 H3.
      + unfold all. cbn. rewrite app_nil_r. reflexivity.
      + intros k os [_ Hk] ->. rewrite Nat.add_0_l in Hk. rewrite (@vget_ok _ values k c0) by lia. cbn [bind]. eexists. split; [reflexivity|]. rewrite all_S, <- app_assoc. f_equal. f_equal.
        rewrite capital_ok by lia. rewrite nth_indep with (d' := show c0) by (rewrite map_length; lia). rewrite map_nth. reflexivity.
      + rewrite E3. cbn [bind]. eexists. split; [reflexivity|]. cbn [y_thrown y_values y_os]. split; [exact G|]. split; [exact L|]. exists marks. split.
        * rewrite H3, Nat.add_0_l. unfold letters_text, pre, hdr, text_of. rewrite map_length. unfold all at 2. cbn [seq map concat]. rewrite app_nil_r. unfold sp, nl, endl. rewrite <- !app_assoc. reflexivity.
        * intros a b Ha Hb. apply Hs. lia.
  Qed.

  Lemma print_ok (A : mat K) eps : mat_wf A ->
    print_eps K nrm show A eps = Ok (print_nat (m_nrow A) ++ lit " " ++ print_nat (m_ncol A) ++ endl ++
      all (m_nrow A) (fun i => all (m_ncol A) (fun j => show (if Rlt_dec (nrm (melem A i j)) eps then c0 else melem A i j) ++ lit " ") ++ endl)).
  Proof.
    intros W. unfold print_eps. set (hdr := print_nat (m_nrow A) ++ sp ++ print_nat (m_ncol A) ++ nl).
    set (cell := fun i j => show (if Rlt_dec (nrm (melem A i j)) eps then c0 else melem A i j) ++ lit " ").
    loopM (fun i os => os = hdr ++ all i (fun i => all (m_ncol A) (cell i) ++ endl)) as os E H.
    - unfold all. cbn. rewrite app_nil_r. reflexivity.
    - intros i os [_ Hi] ->. rewrite Nat.add_0_l in Hi. set (pre := hdr ++ all i (fun i => all (m_ncol A) (cell i) ++ endl)).
      loopM (fun j os => os = pre ++ all j (cell i)) as os2 E2 H2.
      + unfold all. cbn. rewrite app_nil_r. reflexivity.
      + intros j os [_ Hj] ->. rewrite Nat.add_0_l in Hj. rewrite (@vget_ok _ (m_data A) (i + j * m_nrow A) c0).
        * cbn [bind]. eexists. split; [reflexivity|]. rewrite all_S, <- app_assoc. reflexivity.
        * rewrite W. clear -Hi Hj. nia.
      + rewrite E2. cbn [bind]. eexists. split; [reflexivity|]. rewrite H2, Nat.add_0_l, all_S. unfold pre. rewrite <- !app_assoc. reflexivity.
    - rewrite E, H, Nat.add_0_l. unfold hdr. rewrite <- !app_assoc. reflexivity.
  Qed.
  Lemma nonzero_ok (A : mat K) : mat_wf A -> m_nrow A <= m_ncol A ->
    let cell i j := if ceqb (melem A i j) c0 then [] else show (melem A i j) ++ lit " " in
    printNonZero K show A = Ok (lit "#size=" ++ print_nat (m_nrow A) ++ lit "x" ++ print_nat (m_ncol A) ++ endl ++
      all (m_nrow A) (fun i => all (m_ncol A) (cell i) ++ if forallb (fun j => ceqb (melem A i j) c0) (seq 0 (m_ncol A)) then [] else endl) ++
      lit "#diagonal non-zero" ++ endl ++ all (m_nrow A) (fun i => cell i i) ++ endl).
  Proof.
    intros W Hrc cell. unfold printNonZero. set (hdr := lit "#size=" ++ print_nat (m_nrow A) ++ lit "x" ++ print_nat (m_ncol A) ++ nl).
    set (line := fun i => all (m_ncol A) (cell i) ++ if forallb (fun j => ceqb (melem A i j) c0) (seq 0 (m_ncol A)) then [] else endl).
    loopM (fun i os => os = hdr ++ all i line) as os E H.
    - unfold all. cbn. rewrite app_nil_r. reflexivity.
    - intros i os [_ Hi] ->. rewrite Nat.add_0_l in Hi.
      loopM (fun j p => fst p = (hdr ++ all i line) ++ all j (cell i) /\ (0 <? snd p) = negb (forallb (fun j => ceqb (melem A i j) c0) (seq 0 j))) as p E2 H2.
      + unfold all. cbn. rewrite !app_nil_r. auto.
      + intros j [os nz] [_ Hj] [H1 H2]. cbn [fst snd] in *. subst os. rewrite (mget_ok K A i j W) by lia. cbn [bind]. rewrite all_S. unfold cell at 3 4. rewrite seq_S, forallb_app. cbn [forallb]. rewrite andb_true_r. rewrite !Nat.add_0_l.
        destruct (ceqb (melem A i j) c0) eqn:C; cbn [negb]; eexists; (split; [reflexivity|]); cbn [fst snd].
        * rewrite app_nil_r, andb_true_r. auto.
        * rewrite andb_false_r. split; [rewrite <- !app_assoc; reflexivity|reflexivity].
      + rewrite E2. cbn [bind]. destruct p as [os nz]. cbn [fst snd] in H2. rewrite Nat.add_0_l in H2. destruct H2 as [-> H2]. eexists. split; [reflexivity|]. rewrite H2, all_S.
        assert (Ln : line i = all (m_ncol A) (cell i) ++ if forallb (fun j => ceqb (melem A i j) c0) (seq 0 (m_ncol A)) then [] else endl) by reflexivity. rewrite Ln. clearbody line cell.
        destruct (forallb _ _); cbn [negb]; rewrite <- !app_assoc, ?app_nil_r; reflexivity.
    - rewrite E. cbn [bind]. rewrite H, Nat.add_0_l.
      loopM (fun i os => os = ((hdr ++ all (m_nrow A) line) ++ lit "#diagonal non-zero" ++ nl) ++ all i (fun i => cell i i)) as os3 E3 H3.
      + unfold all at 2. cbn. rewrite app_nil_r. reflexivity.
      + intros i os' [_ Hi] ->. rewrite (mget_ok K A i i W) by lia. cbn [bind]. rewrite (all_S i). assert (Cn : cell i i = if ceqb (melem A i i) c0 then [] else show (melem A i i) ++ lit " ") by reflexivity. rewrite Cn. clearbody line cell. eexists. split; [reflexivity|].
        destruct (ceqb (melem A i i) c0); cbn [negb]; rewrite <- ?app_assoc, ?app_nil_r; reflexivity.
      + rewrite E3. cbn [bind]. rewrite H3, Nat.add_0_l. unfold hdr. rewrite <- !app_assoc. reflexivity.
  Qed.
End P.
