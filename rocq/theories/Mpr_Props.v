(** Theorems about matrices that are printed (C111). *)
From Coq Require Import Ascii String Reals Lra Lia Ring FunctionalExtensionality.
From Verif Require Import Prelude Ring Str_Model Str_Proofs Text_Model Dense_Model Dense_Spec Dense_Proofs Crs_Model Mpr_Model Mpr_Spec Mpr_Proofs.
Import List.
Local Open Scope nat_scope.

(** The text for mathematica has the rows in order, and in each row the elements, with commas between and not after. *)
Theorem C111_mathematica : forall (K : cring) (show : K -> str) (A : mat K), mat_wf A ->
  mathematicaPrint K show A = Ok (math_text (m_nrow A) (m_ncol A) (fun i j => show (melem A i j))).
Proof. exact math_ok. Qed.
Print Assumptions C111_mathematica.

Lemma split_at (c : ascii) s1 s2 t1 t2 : ~ In c s1 -> ~ In c s2 -> s1 ++ c :: t1 = s2 ++ c :: t2 -> s1 = s2 /\ t1 = t2.
Proof.
  revert s2. induction s1 as [|a s1 IH]; intros [|b s2] H1 H2 E; cbn [app] in E.
  - injection E as <-. auto.
  - injection E as -> _. exfalso. apply H2. left. reflexivity.
  - injection E as <- _. exfalso. apply H1. left. reflexivity.
  - injection E as <- E. destruct (IH s2) as [-> ->]; auto; [intros H; apply H1; right; exact H|intros H; apply H2; right; exact H].
Qed.
Lemma join_inj c s1 s2 t1 t2 : forall l1 l2, (forall x, In x l1 -> ~ In c x /\ ~ In s1 x) -> (forall x, In x l2 -> ~ In c x /\ ~ In s1 x) -> c <> s1 -> l1 <> [] -> l2 <> [] ->
  join (c :: s2) l1 ++ s1 :: t1 = join (c :: s2) l2 ++ s1 :: t2 -> l1 = l2 /\ t1 = t2.
Proof.
  assert (Cut : forall x y u v, ~ In c x -> ~ In s1 x -> ~ In c y -> ~ In s1 y -> c <> s1 -> x ++ c :: u = y ++ s1 :: v -> False).
  { induction x as [|a x IH]; intros [|b y] u v H1 H2 H3 H4 N E; cbn [app] in E.
    - injection E as -> _. congruence.
    - injection E as -> _. apply H3. left. reflexivity.
    - injection E as -> _. apply H2. left. reflexivity.
    - injection E as _ E. apply (IH y u v); auto; intros H; [apply H1|apply H2|apply H3|apply H4]; right; exact H. }
  induction l1 as [|x l1 IH]; intros l2 H1 H2 N N1 N2 E; [congruence|]. destruct l2 as [|y l2]; [congruence|].
  destruct (H1 x (or_introl eq_refl)) as [X1 X2]. destruct (H2 y (or_introl eq_refl)) as [Y1 Y2].
  destruct l1 as [|x' l1]; destruct l2 as [|y' l2].
  - cbn [join] in E. destruct (split_at s1 x y t1 t2 X2 Y2 E) as [-> ->]. auto.
  - exfalso. change (join (c :: s2) (y :: y' :: l2)) with (y ++ (c :: s2) ++ join (c :: s2) (y' :: l2)) in E. cbn [join] in E. rewrite <- !app_assoc in E. cbn [app] in E. symmetry in E. apply (Cut y x _ _ Y1 Y2 X1 X2 N E).
  - exfalso. change (join (c :: s2) (x :: x' :: l1)) with (x ++ (c :: s2) ++ join (c :: s2) (x' :: l1)) in E. cbn [join] in E. rewrite <- !app_assoc in E. cbn [app] in E. apply (Cut x y _ _ X1 X2 Y1 Y2 N E).
  - change (join (c :: s2) (x :: x' :: l1)) with (x ++ (c :: s2) ++ join (c :: s2) (x' :: l1)) in E.
    change (join (c :: s2) (y :: y' :: l2)) with (y ++ (c :: s2) ++ join (c :: s2) (y' :: l2)) in E. rewrite <- !app_assoc in E. cbn [app] in E.
    destruct (split_at c x y _ _ X1 Y1 E) as [-> E']. apply app_inv_head in E'.
    destruct (IH (y' :: l2)) as [-> ->]; auto; try discriminate; intros z Hz; [apply H1|apply H2]; right; exact Hz.
Qed.
Lemma row_inj {T} n1 n2 (f g : nat -> T) : row_of n1 f = row_of n2 g -> n1 = n2 /\ forall i, i < n1 -> f i = g i.
Proof.
  intros E. assert (L : n1 = n2) by (rewrite <- (row_len n1 f), E, row_len; reflexivity). subst n2. split; [reflexivity|]. intros i Hi.
  assert (X : forall h : nat -> T, nth_error (row_of n1 h) i = Some (h i)).
  { intros h. unfold row_of. rewrite nth_error_map. replace (nth_error (seq 0 n1) i) with (Some i); [reflexivity|]. symmetry.
    rewrite nth_error_nth' with (d := 0) by (rewrite seq_length; exact Hi). rewrite seq_nth by exact Hi. reflexivity. }
  pose proof (X f) as X1. rewrite E, X in X1. congruence.
Qed.
Lemma row_text_free c f (b : ascii) : (forall j, j < c -> plain (f j)) -> b = "{"%char \/ b = "}"%char \/ b = ascii_of_nat 10 -> ~ In b (join (lit ",") (row_of c f)).
Proof.
  intros H Hb. assert (G : forall l, (forall x, In x l -> plain x) -> ~ In b (join (lit ",") l)).
  { induction l as [|x l IH]; intros Hl; [intros []|]. destruct (Hl x (or_introl eq_refl)) as (_ & P1 & P2 & P3 & P4).
    assert (~ In b x) by (destruct Hb as [->|[->| ->]]; auto). destruct l as [|y l]; [auto|]. change (join (lit ",") (x :: y :: l)) with (x ++ lit "," ++ join (lit ",") (y :: l)).
    intros Hi. apply in_app_or in Hi. destruct Hi as [Hi|Hi]; [auto|]. apply in_app_or in Hi. destruct Hi as [[<-|[]]|Hi]; [destruct Hb as [E|[E|E]]; discriminate E|]. apply (IH ltac:(intros z Hz; apply Hl; right; exact Hz) Hi). }
  apply G. intros x Hx. unfold row_of in Hx. apply in_map_iff in Hx. destruct Hx as (j & <- & Hj). apply in_seq in Hj. apply H. lia.
Qed.
(** It determines the matrix, if there are rows and columns and the numbers are printed without commas and braces. *)
Theorem C111_mathematica_unique : forall (K : cring) (show : K -> str) (A B : mat K), mat_wf A -> mat_wf B ->
  0 < m_nrow A -> 0 < m_ncol A -> 0 < m_nrow B -> 0 < m_ncol B ->
  (forall i j, i < m_nrow A -> j < m_ncol A -> plain (show (melem A i j))) -> (forall i j, i < m_nrow B -> j < m_ncol B -> plain (show (melem B i j))) ->
  mathematicaPrint K show A = mathematicaPrint K show B ->
  m_nrow A = m_nrow B /\ m_ncol A = m_ncol B /\ forall i j, i < m_nrow A -> j < m_ncol A -> show (melem A i j) = show (melem B i j).
Proof.
  intros K show A B WA WB RA CA RB CB PA PB E. rewrite !math_ok in E by auto. apply Ok_inj in E. set (ra := m_nrow A) in *. set (ca := m_ncol A) in *. set (rb := m_nrow B) in *. set (cb := m_ncol B) in *.
  set (f := fun i j => show (melem A i j)) in *. set (g := fun i j => show (melem B i j)) in *.
  assert (G : forall r1 c1 r2 c2 (f g : nat -> nat -> str), 0 < r1 -> 0 < c1 -> 0 < r2 -> 0 < c2 -> (forall i j, i < r1 -> j < c1 -> plain (f i j)) -> (forall i j, i < r2 -> j < c2 -> plain (g i j)) ->
    math_text r1 c1 f = math_text r2 c2 g -> r1 = r2 /\ c1 = c2 /\ forall i j, i < r1 -> j < c1 -> f i j = g i j).
  { clear. intros r1 c1 r2 c2 f g R1 C1 R2 C2 P1 P2 E. unfold math_text in E. apply app_inv_head in E.
    set (F := fun i => lit "{" ++ join (lit ",") (row_of c1 (f i)) ++ lit "}") in *. set (G := fun i => lit "{" ++ join (lit ",") (row_of c2 (g i)) ++ lit "}") in *.
    assert (Rows : forall n1 n2, n1 <= r1 -> n2 <= r2 -> join (lit "," ++ endl) (map F (seq (r1 - n1) n1)) ++ lit "}" ++ endl = join (lit "," ++ endl) (map G (seq (r2 - n2) n2)) ++ lit "}" ++ endl ->
      0 < n1 -> 0 < n2 -> n1 = n2 /\ forall k, k < n1 -> row_of c1 (f (r1 - n1 + k)) = row_of c2 (g (r2 - n2 + k))).
    { intros n1. induction n1 as [|n1 IH]; intros n2 L1 L2 Er N1 N2; [lia|]. destruct n2 as [|n2]; [lia|].
      cbn [seq map] in Er.
      assert (Jn : forall x l, join (lit "," ++ endl) (x :: l) ++ lit "}" ++ endl = x ++ (if l then lit "}" ++ endl else (lit "," ++ endl) ++ join (lit "," ++ endl) l ++ lit "}" ++ endl)).
      { intros x l. destruct l; [reflexivity|]. change (join (lit "," ++ endl) (x :: l :: l0)) with (x ++ (lit "," ++ endl) ++ join (lit "," ++ endl) (l :: l0)). rewrite <- !app_assoc. reflexivity. }
      rewrite !Jn in Er. unfold F at 1, G at 1 in Er. rewrite <- !app_assoc in Er. apply app_inv_head in Er.
      assert (Row : row_of c1 (f (r1 - S n1)) = row_of c2 (g (r2 - S n2)) /\ (if map F (seq (S (r1 - S n1)) n1) then lit "}" ++ endl else (lit "," ++ endl) ++ join (lit "," ++ endl) (map F (seq (S (r1 - S n1)) n1)) ++ lit "}" ++ endl) =
        (if map G (seq (S (r2 - S n2)) n2) then lit "}" ++ endl else (lit "," ++ endl) ++ join (lit "," ++ endl) (map G (seq (S (r2 - S n2)) n2)) ++ lit "}" ++ endl)).
      { apply (join_inj ","%char "}"%char []) in Er; auto; try discriminate.
        - intros x Hx. unfold row_of in Hx. apply in_map_iff in Hx. destruct Hx as (j & <- & Hj). apply in_seq in Hj. destruct (P1 (r1 - S n1) j) as (_ & Q1 & _ & Q3 & _); [lia|lia|]. split; assumption.
        - intros x Hx. unfold row_of in Hx. apply in_map_iff in Hx. destruct Hx as (j & <- & Hj). apply in_seq in Hj. destruct (P2 (r2 - S n2) j) as (_ & Q1 & _ & Q3 & _); [lia|lia|]. split; assumption.
        - destruct c1; [lia|discriminate].
        - destruct c2; [lia|discriminate]. }
      destruct Row as [Row Er2]. destruct n1 as [|n1]; destruct n2 as [|n2].
      - split; [reflexivity|]. intros k Hk. replace k with 0 by lia. rewrite !Nat.add_0_r. exact Row.
      - discriminate Er2.
      - discriminate Er2.
      - cbn [seq map] in Er2. rewrite <- !app_assoc in Er2. apply app_inv_head, app_inv_head in Er2.
        destruct (IH (S n2)) as [I1 I2]; try lia.
        + replace (r1 - S n1) with (S (r1 - S (S n1))) by lia. replace (r2 - S n2) with (S (r2 - S (S n2))) by lia. exact Er2.
        + split; [lia|]. intros k Hk. destruct k as [|k]; [rewrite !Nat.add_0_r; exact Row|]. specialize (I2 k ltac:(lia)).
          replace (r1 - S (S n1) + S k) with (r1 - S n1 + k) by lia. replace (r2 - S (S n2) + S k) with (r2 - S n2 + k) by lia. exact I2. }
    destruct (Rows r1 r2) as [I1 I2]; try lia; [rewrite !Nat.sub_diag; exact E|]. subst r2. rewrite !Nat.sub_diag in I2. cbn [Nat.add] in I2.
    assert (Hc : c1 = c2) by (apply (row_inj _ _ _ _ (I2 0 R1))). split; [reflexivity|]. split; [exact Hc|]. intros i j Hi Hj. apply (row_inj _ _ _ _ (I2 i Hi)). exact Hj. }
  exact (G ra ca rb cb f g RA CA RB CB PA PB E).
Qed.
Print Assumptions C111_mathematica_unique.

(** The text with letters: each mark stands for the element of its place up to 1e-6, each letter has a value that is an
    element, no two letters have the same or opposite values up to 1e-6, and there are at most 25. *)
Theorem C111_letters : forall (K : cring) (nrm : K -> Rdefinitions.R) (show : K -> str) (A : mat K), mat_wf A ->
  (forall x, nrm (copp x) = nrm x) -> (nrm c0 = 0)%R ->
  forall y, symbolicPrint K nrm show A = Ok y -> y_thrown y = false -> exists marks values,
  y_os y = letters_text (print_nat (m_nrow A) ++ lit " " ++ print_nat (m_ncol A)) (m_nrow A) (m_ncol A) marks (map show values) /\
  List.length values <= 25 /\
  (forall i j, i < m_nrow A -> j < m_ncol A -> exists x, meaning values (marks i j) x /\ (nrm (csub x (melem A i j)) < 1 / 1000000)%R) /\
  (forall v, In v values -> exists i j, i < m_nrow A /\ j < m_ncol A /\ v = melem A i j) /\
  (forall k l v w, k < l -> nth_error values k = Some v -> nth_error values l = Some w -> (1 / 1000000 <= nrm (csub v w) /\ 1 / 1000000 <= nrm (cadd v w))%R).
Proof.
  intros K nrm show A W No N0 y E T. destruct (sym_loop K nrm show A W) as (y' & E' & [G1 G2] & H). rewrite E in E'. injection E' as <-. rewrite T in H. destruct H as (L & marks & Ho & Hs).
  assert (Nt : forall x, tiny K nrm x = false -> (1 / 1000000 <= nrm x)%R).
  { intros x Hx. destruct (Rlt_dec (nrm x) (1 / 1000000)) as [Q|Q]; [|lra]. apply tiny_iff in Q. congruence. }
  exists marks, (y_values y). split; [exact Ho|]. split; [exact L|]. split; [|split].
  - intros i j Hi Hj. specialize (Hs i j Hi Hj). destruct (marks i j) as [|k|k]; cbn [stands meaning] in *.
    + exists c0. split; [reflexivity|]. rewrite sub_zero, No. apply tiny_iff. exact Hs.
    + destruct Hs as (v & V1 & _ & V2). exists v. split; [exact V1|]. destruct V2 as [->|V2]; [rewrite sub_self, N0; lra|apply tiny_iff; exact V2].
    + destruct Hs as (v & V1 & _ & V2). exists (copp v). split; [exists v; auto|]. rewrite sub_opp, No. apply tiny_iff. exact V2.
  - intros v Hv. apply G1, Hv.
  - intros k l v w Hkl Hk Hl. destruct (G2 k l v w Hkl Hk Hl) as [F1 F2]. split; apply Nt; assumption.
Qed.
Print Assumptions C111_letters.
(** It is refused only if there are 26 elements no two of which are the same or opposite up to 1e-6. *)
Theorem C111_letters_refused : forall (K : cring) (nrm : K -> Rdefinitions.R) (show : K -> str) (A : mat K), mat_wf A ->
  exists y, symbolicPrint K nrm show A = Ok y /\ (y_thrown y = true -> exists values, List.length values = 26 /\
  (forall v, In v values -> (1 / 1000000 <= nrm v)%R /\ exists i j, i < m_nrow A /\ j < m_ncol A /\ v = melem A i j) /\
  (forall k l v w, k < l -> nth_error values k = Some v -> nth_error values l = Some w -> (1 / 1000000 <= nrm (csub v w) /\ 1 / 1000000 <= nrm (cadd v w))%R)).
Proof.
  intros K nrm show A W. destruct (sym_loop K nrm show A W) as (y & E & [G1 G2] & H). exists y. split; [exact E|]. intros T. rewrite T in H.
  assert (Nt : forall x, tiny K nrm x = false -> (1 / 1000000 <= nrm x)%R).
  { intros x Hx. destruct (Rlt_dec (nrm x) (1 / 1000000)) as [Q|Q]; [|lra]. apply tiny_iff in Q. congruence. }
  exists (y_values y). split; [exact H|]. split.
  - intros v Hv. destruct (G1 v Hv) as [? ?]. auto.
  - intros k l v w Hkl Hk Hl. destruct (G2 k l v w Hkl Hk Hl). auto.
Qed.
Print Assumptions C111_letters_refused.

(** The numbers that are not zero are printed row by row, a line for each row that has some, then those of the diagonal, if
    there are at least as many columns as rows... *)
Theorem C111_nonzero_partial : forall (K : cring) (show : K -> str) (A : mat K), mat_wf A -> m_nrow A <= m_ncol A ->
  let cell i j := if ceqb (melem A i j) c0 then [] else show (melem A i j) ++ lit " " in
  printNonZero K show A = Ok (lit "#size=" ++ print_nat (m_nrow A) ++ lit "x" ++ print_nat (m_ncol A) ++ endl ++
    all (m_nrow A) (fun i => all (m_ncol A) (cell i) ++ if forallb (fun j => ceqb (melem A i j) c0) (seq 0 (m_ncol A)) then [] else endl) ++
    lit "#diagonal non-zero" ++ endl ++ all (m_nrow A) (fun i => cell i i) ++ endl).
Proof. exact nonzero_ok. Qed.
Print Assumptions C111_nonzero_partial.
(** ... else it goes outside of the matrix. *)
Theorem C111_nonzero_refuted : forall (K : cring) (show : K -> str) (A : mat K), mat_wf A -> m_ncol A < m_nrow A -> printNonZero K show A = UB.
Proof.
  intros K show A W H. unfold printNonZero.
  loopM (fun (i : nat) (os : str) => True) as os E Q; [exact I| |].
  - intros i os Hi _. loopM (fun (j : nat) (p : str * nat) => True) as p E2 Q2; [exact I| |].
    + intros j [os' nz] Hj _. rewrite (mget_ok K A i j W) by lia. cbn [bind]. destruct (negb _); eexists; (split; [reflexivity|exact I]).
    + rewrite E2. cbn [bind]. destruct p. eexists. split; [reflexivity|exact I].
  - rewrite E. cbn [bind]. clear E. set (n := m_nrow A - m_ncol A). replace (m_nrow A) with (m_ncol A + n) at 1 by lia. rewrite forM_app.
    loopM (fun (i : nat) (os : str) => True) as os3 E3 Q3; [exact I| |].
    + intros i os' Hi _. rewrite (mget_ok K A i i W) by lia. cbn [bind]. eexists. split; [reflexivity|exact I].
    + rewrite E3. cbn [bind]. destruct n as [|n'] eqn:En; [lia|]. cbn [forM]. rewrite mget_out by lia. reflexivity.
Qed.
Print Assumptions C111_nonzero_refuted.
(** Different matrices have the same text: the columns are not printed. *)
Theorem C111_nonzero_ambiguous_refuted : forall (K : cring) (show : K -> str), @c1 K <> c0 ->
  let A := @mkmat K 2 3 [c0; c0; c1; c0; c0; c0] in let B := @mkmat K 2 3 [c0; c0; c0; c0; c1; c0] in
  mat_wf A /\ mat_wf B /\ printNonZero K show A = printNonZero K show B /\ A <> B.
Proof.
  intros K show N A B. assert (Z : ceqb (@c0 K) c0 = true) by (apply c_eqb_eq; reflexivity).
  assert (Y : ceqb (@c1 K) c0 = false) by (destruct (ceqb (@c1 K) c0) eqn:Q; [apply c_eqb_eq in Q; contradiction|reflexivity]).
  split; [reflexivity|]. split; [reflexivity|]. split.
  - rewrite !nonzero_ok by (reflexivity || (cbn; lia)). unfold A, B, all, melem. cbn [m_nrow m_ncol m_data seq map nth Nat.add Nat.mul forallb List.concat]. rewrite Z, Y. reflexivity.
  - intros E. injection E as E _. congruence.
Qed.
Print Assumptions C111_nonzero_ambiguous_refuted.

(** With a cutoff, each element is printed in its place, as zero if its norm is below the cutoff. *)
Theorem C111_cutoff : forall (K : cring) (nrm : K -> Rdefinitions.R) (show : K -> str) (A : mat K) eps, mat_wf A ->
  print_eps K nrm show A eps = Ok (print_nat (m_nrow A) ++ lit " " ++ print_nat (m_ncol A) ++ endl ++
    all (m_nrow A) (fun i => all (m_ncol A) (fun j => show (if Rlt_dec (nrm (melem A i j)) eps then c0 else melem A i j) ++ lit " ") ++ endl)).
Proof. exact print_ok. Qed.
Print Assumptions C111_cutoff.

(** A sparse matrix is printed like the dense one it stands for, after a line with its name and size; with 0 with the cutoff,
    with 1 for mathematica, and with a number above 2 not at all. *)
Theorem C111_sparse : forall (K : cring) (nrm : K -> Rdefinitions.R) (show : K -> str) (s : crs K) name how eps fullm t,
  crsMatrixToFullMatrix K (mat_new K (c_nrow s) (c_ncol s)) s = Ok fullm ->
  match how with 0 => print_eps K nrm show fullm eps = Ok t | 1 => mathematicaPrint K show fullm = Ok t | 2 => exists y, symbolicPrint K nrm show fullm = Ok y /\ t = y_os y | _ => t = [] end ->
  printFullMatrix K nrm show s name how eps =
    Ok (lit "--------->   " ++ name ++ lit " rank=" ++ print_nat (c_nrow s) ++ lit "x" ++ print_nat (c_ncol s) ++ lit " <----------" ++ endl ++ t).
Proof.
  intros K nrm show s name how eps fullm t E H. unfold printFullMatrix. rewrite E. cbn [bind]. destruct how as [|[|[|how]]]; cbn [Nat.eqb].
  - cbn [bind]. rewrite H. cbn [bind app]. rewrite <- !app_assoc. reflexivity.
  - rewrite H. cbn [bind app]. rewrite <- !app_assoc, app_nil_r. reflexivity.
  - destruct H as (y & H & ->). cbn [bind]. rewrite H. cbn [bind app]. rewrite <- !app_assoc, app_nil_r. reflexivity.
  - subst t. cbn [bind app]. rewrite <- !app_assoc. reflexivity.
Qed.
Print Assumptions C111_sparse.
(** A sparse matrix that is printed with letters and has too many values is cut off, and no error is reported. *)
Theorem C111_sparse_refuted : forall (K : cring) (nrm : K -> Rdefinitions.R) (show : K -> str) (s : crs K) name eps fullm y,
  crsMatrixToFullMatrix K (mat_new K (c_nrow s) (c_ncol s)) s = Ok fullm -> symbolicPrint K nrm show fullm = Ok y -> y_thrown y = true ->
  exists t, printFullMatrix K nrm show s name 2 eps = Ok t.
Proof. intros K nrm show s name eps fullm y E1 E2 _. unfold printFullMatrix. rewrite E1. cbn [bind Nat.eqb]. rewrite E2. cbn [bind]. eexists. reflexivity. Qed.
Print Assumptions C111_sparse_refuted.

Lemma Zabs_show_opp x : (IZR (Z.abs (@copp Zring x)) = IZR (Z.abs x))%R.
Proof. f_equal. apply Z.abs_opp. Qed.
Lemma Zabs_tiny : tiny Zring (fun x => IZR (Z.abs x)) = fun z => (Z.abs z <? 1)%Z.
Proof.
  assert (T : forall z : Z, tiny Zring (fun x => IZR (Z.abs x)) z = (Z.abs z <? 1)%Z).
  { intros z. destruct (tiny Zring _ z) eqn:Q.
    - apply tiny_iff in Q. destruct (Z.ltb_spec (Z.abs z) 1) as [|L]; [reflexivity|]. apply IZR_le in L. lra.
    - destruct (Z.ltb_spec (Z.abs z) 1) as [L|]; [|reflexivity]. assert (z = 0%Z) by lia. subst z. assert (tiny Zring (fun x : Zring => IZR (Z.abs x)) 0%Z = true) by (apply tiny_iff; cbn; lra). congruence. }
  apply FunctionalExtensionality.functional_extensionality in T. exact T.
Qed.
(** A matrix with a number, its opposite and another one *)
Example C111_nonvacuous : let A := @mkmat Zring 2 2 [3; -3; 0; 5]%Z in
  mat_wf A /\ mathematicaPrint Zring print_Z A = Ok (lit "m:={{3,0}," ++ endl ++ lit "{-3,5}}" ++ endl) /\
  plain (print_Z (-3)) /\
  exists y, symbolicPrint Zring (fun x => IZR (Z.abs x)) print_Z A = Ok y /\ y_thrown y = false /\
    y_os y = lit "2 2" ++ endl ++ lit " A  0 " ++ endl ++ lit "-A  B " ++ endl ++ lit "---------------------------" ++ endl ++ lit "A=3 B=5 " ++ endl.
Proof.
  intros A. split; [reflexivity|]. split; [rewrite math_ok by reflexivity; reflexivity|]. split.
  { split; [discriminate|]. split; [|split; [|split]]; intros H; cbn in H; repeat (destruct H as [H|H]; [discriminate H|]); exact H. }
  unfold symbolicPrint. rewrite Zabs_tiny.
  eexists. split; [vm_compute; reflexivity|]. split; reflexivity.
Qed.

(** A sparse matrix with one row and the numbers from 1 to 26: the text ends after Y *)
Example C111_sparse_witness : let s := @mkcrs Zring [0; 26]%nat (seq 0 26) (map Z.of_nat (seq 1 26)) 1 26 in
  exists fullm y, crsMatrixToFullMatrix Zring (mat_new Zring 1 26) s = Ok fullm /\
    symbolicPrint Zring (fun x => IZR (Z.abs x)) print_Z fullm = Ok y /\ y_thrown y = true /\
    y_os y = lit "1 26" ++ endl ++ concat (map (fun k => lit " " ++ [ascii_of_nat (65 + k)] ++ lit " ") (seq 0 25)).
Proof.
  intros s. eexists. eexists. split; [vm_compute; reflexivity|]. unfold symbolicPrint. rewrite Zabs_tiny.
  split; [vm_compute; reflexivity|]. split; reflexivity.
Qed.
