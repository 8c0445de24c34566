From Coq Require Import QArith Qcanon Lia Ascii String.
From Verif Require Import Prelude Ring Dense_Model Dense_Spec Dense_Proofs Str_Model Str_Proofs Geo_Model Geo_Proofs4
  Lrange_Model Lrange_Spec.
Import List.
Local Open Scope nat_scope.

Lemma Q2Qc_Z z : this (Q2Qc (inject_Z z)) = inject_Z z.
Proof. unfold Q2Qc. cbn [this]. apply Qred_identity. cbn [inject_Z Qnum Qden]. apply Z.gcd_1_r. Qed.

Lemma complexToInteger_num n : (Z.of_nat n < 2 ^ 63)%Z -> complexToInteger (num n) = Ok n.
Proof.
  intros H. unfold complexToInteger, num. cbn [snd fst].
  assert (E : Qceqb 0%Qc 0%Qc = true) by (apply Qceqb_eq; reflexivity). rewrite E. cbn [negb].
  unfold isInt64. rewrite Q2Qc_Z. cbn [inject_Z Qden Qnum].
  destruct (Z.leb_spec (- 2 ^ 63) (Z.of_nat n)); [|lia].
  destruct (Z.ltb_spec (Z.of_nat n) (2 ^ 63)); [|lia].
  destruct (Z.ltb_spec (Z.of_nat n) 0); [lia|]. cbn [negb andb Z.eqb Pos.eqb]. rewrite Nat2Z.id. reflexivity.
Qed.

Lemma listed_snoc rs r s0 o0 s1 o1 :
  listed (rs ++ [r]) s0 o0 s1 o1 =
  if (r_site0 r =? s0) && (r_orb0 r =? o0) && (r_site1 r =? s1) && (r_orb1 r =? o1)
  then r_value r else listed rs s0 o0 s1 o1.
Proof. unfold listed. rewrite fold_left_app. reflexivity. Qed.

(** The matrix that the rows stand for. *)
Definition asked (dofs : nat) (rs : list row) (i j : nat) : QGring :=
  listed rs (i / dofs) (i mod dofs) (j / dofs) (j mod dofs).

Lemma divmod_key dofs i o s : o < dofs ->
  (s =? i / dofs) && (o =? i mod dofs) = (i =? o + s * dofs).
Proof.
  intros Ho. assert (dofs <> 0) by lia.
  destruct (Nat.eqb_spec i (o + s * dofs)) as [->|N].
  - rewrite Nat.div_add, Nat.mod_add, Nat.div_small, Nat.mod_small by lia.
    rewrite Nat.add_0_l, !Nat.eqb_refl. reflexivity.
  - destruct (Nat.eqb_spec s (i / dofs)); cbn; [|reflexivity].
    destruct (Nat.eqb_spec o (i mod dofs)); [|reflexivity].
    exfalso. apply N. subst. rewrite (Nat.div_mod i dofs) at 1 by lia. lia.
Qed.

Lemma firstn_S_nth {A} (l : list A) i d : i < List.length l -> firstn (S i) l = firstn i l ++ [nth i l d].
Proof.
  revert i. induction l as [|x l IH]; intros i H; cbn in H; [lia|].
  destruct i; cbn; [reflexivity|]. f_equal. apply IH. lia.
Qed.

Lemma lr_idx_lt o s dofs L : o < dofs -> s < L -> o + s * dofs < L * dofs.
Proof. intros. nia. Qed.

(** One row more. *)
Lemma asked_step L dofs rs r m :
  0 < dofs -> row_ok L dofs r ->
  is_mat m (L * dofs) (L * dofs) (asked dofs rs) ->
  exists m', mset QGring m (r_orb0 r + r_site0 r * dofs) (r_orb1 r + r_site1 r * dofs) (r_value r) = Ok m' /\
    is_mat m' (L * dofs) (L * dofs) (asked dofs (rs ++ [r])).
Proof.
  intros Hd (H0 & H1 & H2 & H3) (N1 & N2 & W & E).
  destruct (mset_ok QGring m (r_orb0 r + r_site0 r * dofs) (r_orb1 r + r_site1 r * dofs) (r_value r) W)
    as (m' & E1 & E2).
  { rewrite N1. apply lr_idx_lt; assumption. }
  { rewrite N2. apply lr_idx_lt; assumption. }
  exists m'. split; [exact E1|]. rewrite N1, N2 in E2.
  eapply is_mat_ext; [|exact E2]. intros i j Hi Hj. cbn beta.
  rewrite (E i j Hi Hj). unfold asked. rewrite listed_snoc.
  rewrite <- (divmod_key dofs i _ _ H1), <- (divmod_key dofs j _ _ H3).
  rewrite !andb_assoc. reflexivity.
Qed.

Lemma reinterpret_ok L dofs values rs :
  0 < L -> 0 < dofs -> (Z.of_nat L <= 2 ^ 63)%Z -> (Z.of_nat dofs <= 2 ^ 63)%Z ->
  Forall (row_ok L dofs) rs -> is_table dofs values rs ->
  exists m, reinterpretMatrix L dofs values = Ok m /\ is_mat m (L * dofs) (L * dofs) (asked dofs rs).
Proof.
  intros HL Hd BL Bd Hrs T. unfold reinterpretMatrix.
  destruct (Nat.ltb_spec 0 L); [|lia]. destruct (Nat.ltb_spec 0 dofs); [|lia]. cbn [negb].
  assert (M0 : is_mat (mat_new QGring (L * dofs) (L * dofs)) (L * dofs) (L * dofs) (asked dofs (firstn 0 rs))).
  { eapply is_mat_ext; [|apply mat_new_is]. intros i j _ _. reflexivity. }
  unfold is_table, columns, cells in T. destruct (1 <? dofs) eqn:Ed.
  - destruct T as (T1 & T2 & T3 & T4). rewrite T2. cbn [Nat.eqb].
    loopM (fun j m => is_mat m (L * dofs) (L * dofs) (asked dofs (firstn j rs))) as m E HH.
    + exact M0.
    + intros j m Hj Hm. rewrite T1 in Hj.
      assert (Hr : row_ok L dofs (nth j rs dummy)).
      { rewrite Forall_forall in Hrs. apply Hrs, nth_In. lia. }
      pose proof Hr as (R0 & R1 & R2 & R3).
      rewrite !(mget_ok QGring) by (try exact T3; rewrite ?T1, ?T2; lia).
      rewrite !T4 by lia. cbn [nth bind].
      rewrite !complexToInteger_num by lia. cbn [bind].
      destruct (asked_step L dofs _ _ m Hd Hr Hm) as (m' & E1 & E2).
      exists m'. split; [exact E1|]. rewrite (firstn_S_nth rs j dummy) by lia. exact E2.
    + exists m. split; [exact E|]. rewrite T1, Nat.add_0_l, firstn_all in HH. exact HH.
  - destruct T as (T1 & T2 & T3 & T4). rewrite T2. cbn [Nat.eqb].
    assert (dofs = 1) by (apply Nat.ltb_ge in Ed; lia).
    loopM (fun j m => is_mat m (L * dofs) (L * dofs) (asked dofs (firstn j rs))) as m E HH.
    + exact M0.
    + intros j m Hj Hm. rewrite T1 in Hj.
      assert (Hr : row_ok L dofs (nth j rs dummy)).
      { rewrite Forall_forall in Hrs. apply Hrs, nth_In. lia. }
      pose proof Hr as (R0 & R1 & R2 & R3).
      rewrite !(mget_ok QGring) by (try exact T3; rewrite ?T1, ?T2; lia).
      rewrite !T4 by lia. cbn [nth bind].
      rewrite !complexToInteger_num by lia. cbn [bind].
      destruct (asked_step L dofs _ _ m Hd Hr Hm) as (m' & E1 & E2).
      replace (r_orb0 (nth j rs dummy) + r_site0 (nth j rs dummy) * dofs)
        with (r_site0 (nth j rs dummy)) in E1 by nia.
      replace (r_orb1 (nth j rs dummy) + r_site1 (nth j rs dummy) * dofs)
        with (r_site1 (nth j rs dummy)) in E1 by nia.
      exists m'. split; [exact E1|]. rewrite (firstn_S_nth rs j dummy) by lia. exact E2.
    + exists m. split; [exact E|]. rewrite T1, Nat.add_0_l, firstn_all in HH. exact HH.
Qed.

(** The checks read inside a square matrix, whatever is in it. *)
Lemma checkConnectors_ok m L : mat_wf m -> m_nrow m = m_ncol m -> 0 < L ->
  exists w, checkConnectors m L = Ok w.
Proof.
  intros W Q HL. unfold checkConnectors. destruct (Nat.eqb_spec L 0); [lia|]. cbn [negb].
  assert (D : exists b, hasDiagonal m = Ok b).
  { unfold hasDiagonal. rewrite Q, Nat.eqb_refl. cbn [negb].
    loopM (fun _ (_ : bool) => True) as b E _.
    - exact I.
    - intros j s Hj _. destruct s; [eexists; split; [reflexivity|trivial]|].
      rewrite mget_ok by (auto; lia). cbn [bind]. eexists; split; [reflexivity|trivial].
    - exists b. exact E. }
  assert (T : exists b, hasLowerTriangle m = Ok b).
  { unfold hasLowerTriangle.
    loopM (fun _ (_ : bool) => True) as b E _.
    - exact I.
    - intros i s Hi _.
      loopM (fun _ (_ : bool) => True) as b E _.
      + exact I.
      + intros j s' Hj _. destruct s'; [eexists; split; [reflexivity|trivial]|].
        rewrite mget_ok by (auto; lia). cbn [bind]. eexists; split; [reflexivity|trivial].
      + exists b. split; [exact E|trivial].
    - exists b. exact E. }
  destruct D as [b1 ->], T as [b2 ->]. cbn [bind]. eexists. reflexivity.
Qed.

Lemma setEntangler_ok n v :
  exists m, setEntangler (mat_new QGring n n) v = Ok m /\
    is_mat m n n (fun i j => if i <? j then v else c0).
Proof.
  unfold setEntangler. cbn [m_nrow mat_new].
  loopM (fun k m => is_mat m n n (fun i j => if (i <? k) && (i <? j) then v else c0)) as m E H.
  - eapply is_mat_ext; [|apply mat_new_is]. intros i j _ _. reflexivity.
  - intros i m Hi Hm.
    edestruct (@forR_inv _ (fun k m => is_mat m n n (fun i' j' =>
        if (i' <? i) && (i' <? j') || (i' =? i) && (i <? j') && (j' <? k) then v else c0)) (i + 1) n)
      as (m' & E & H).
    + lia.
    + eapply is_mat_ext; [|exact Hm]. intros i' j' _ _. cbn beta.
      destruct (Nat.eqb_spec i' i) as [->|Ni]; cbn [andb].
      * destruct (Nat.ltb_spec i j'); cbn [andb]; [|rewrite orb_false_r; reflexivity].
        destruct (Nat.ltb_spec j' (i + 1)); [lia|]. rewrite orb_false_r. reflexivity.
      * rewrite orb_false_r. reflexivity.
    + intros j s Hj Hs. destruct Hs as (S1 & S2 & S3 & S4).
      destruct (mset_ok QGring s i j v S3) as (s' & E1 & E2); [lia|lia|].
      exists s'. split; [exact E1|]. rewrite S1, S2 in E2.
      eapply is_mat_ext; [|exact E2]. intros i' j' Hi' Hj'. cbn beta. rewrite (S4 i' j' Hi' Hj').
      destruct (Nat.eqb_spec i' i) as [->|Ni]; cbn [andb].
      * destruct (Nat.eqb_spec j' j) as [->|Nj].
        { destruct (Nat.ltb_spec i j); [|lia]. destruct (Nat.ltb_spec j (S j)); [|lia].
          rewrite orb_true_r. reflexivity. }
        { replace (j' <? S j) with (j' <? j); [reflexivity|].
          destruct (Nat.ltb_spec j' j), (Nat.ltb_spec j' (S j)); auto; lia. }
      * reflexivity.
    + exists m'. split; [exact E|]. eapply is_mat_ext; [|exact H].
      intros i' j' Hi' Hj'. cbn beta.
      destruct (Nat.ltb_spec j' n); [|lia]. rewrite andb_true_r.
      destruct (Nat.eqb_spec i' i) as [->|Ni]; cbn [andb].
      * destruct (Nat.ltb_spec i i); [lia|]. destruct (Nat.ltb_spec i (S i)); [|lia]. reflexivity.
      * rewrite orb_false_r. replace (i' <? S i) with (i' <? i); [reflexivity|].
        destruct (Nat.ltb_spec i' i), (Nat.ltb_spec i' (S i)); auto; lia.
  - exists m. split; [exact E|]. eapply is_mat_ext; [|exact H]. intros i j Hi Hj. cbn beta.
    destruct (Nat.ltb_spec i (0 + n)); [reflexivity|lia].
Qed.

Lemma lr_translate_loop_ok L fuel : 0 < L -> forall site, site / L < fuel ->
  lr_translate_loop fuel L site = Ok (site mod L).
Proof.
  intros HL. induction fuel as [|fuel IH]; intros site H; [destruct (Nat.nlt_0_r _ H)|]. cbn [lr_translate_loop].
  destruct (Nat.leb_spec L site) as [Hs|Hs].
  - rewrite IH.
    + rewrite <- (Nat.mod_add (site - L) 1 L) by lia. do 2 f_equal. lia.
    + assert (site / L = S ((site - L) / L)).
      { replace site with ((site - L) + 1 * L) at 1 by lia. rewrite Nat.div_add by lia. apply Nat.add_1_r. }
      lia.
  - rewrite Nat.mod_small by lia. reflexivity.
Qed.

Lemma term_matrix_ok L dofs m f :
  is_mat m (L * dofs) (L * dofs) f ->
  exists t, term_matrix L dofs m = Ok t /\
    forall s0 o0 s1 o1, s0 < L -> o0 < dofs -> s1 < L -> o1 < dofs ->
      gt_value QGring (base_index dofs) t s0 o0 s1 o1 = Ok (f (o0 + s0 * dofs) (o1 + s1 * dofs)).
Proof.
  intros (N1 & N2 & W & F).
  set (ix := fun i e => Some (e + i * dofs)%nat).
  assert (Hi : forall i e, i < L -> e < dofs -> base_index dofs i e = Ok (ix i e)).
  { intros i e _ He. unfold base_index. destruct (Nat.ltb_spec e dofs); [reflexivity|lia]. }
  assert (Hr : forall i e k, i < L -> e < dofs -> ix i e = Some k -> k < L * dofs).
  { intros i e k Hi' He E. injection E as <-. nia. }
  assert (Hj : forall i e i' e' k, i < L -> e < dofs -> i' < L -> e' < dofs ->
    ix i e = Some k -> ix i' e' = Some k -> i = i' /\ e = e').
  { intros i e i' e' k Hi1 He1 Hi2 He2 E1 E2. injection E1 as <-. injection E2 as E2.
    destruct (idx_inj e i e' i' dofs He1 He2) as [-> ->]; [lia|]. auto. }
  set (v := fun i e j f' => f (e + i * dofs) (f' + j * dofs)).
  set (V := fun _ : nat => gdir_value QGring (fun i j => Ok (Nat.min i j)) (fun _ _ => Ok c1)
       (mkgdir dofs false true [] [] m)).
  assert (Hv : forall i j e f, i < L -> j < L -> e < dofs -> f < dofs -> true = true ->
    ix i e <> None -> ix j f <> None ->
    gt_calcValue QGring (fun _ _ => Ok true) (fun _ _ => Ok 0) V i e j f = Ok (v i e j f)).
  { intros i j e e' Hi' Hj' He Hf _ _ _. unfold gt_calcValue, V, gdir_value. cbn [bind negb gd_general gd_orbitals gd_raw].
    destruct (Nat.ltb_spec e dofs); [|lia]. destruct (Nat.ltb_spec e' dofs); [|lia]. cbn [andb negb].
    assert (e + i * dofs < L * dofs) by nia. assert (e' + j * dofs < L * dofs) by nia.
    rewrite mget_ok by (auto; lia). f_equal. apply F; lia. }
  destruct (cacheValues_ok QGring L dofs (L * dofs) ix (fun _ _ => true) v
    (base_index dofs) (fun _ _ => Ok true) (fun _ _ => Ok 0) V Hi Hr Hj (fun _ _ _ _ => eq_refl) Hv) as (t & E & A & B & Wt & H).
  exists t. split; [exact E|]. intros s0 o0 s1 o1 Hs0 Ho0 Hs1 Ho1.
  rewrite (gt_value_ok QGring L dofs (L * dofs) ix (fun _ _ => true) v
    (base_index dofs) (fun _ _ => Ok true) (fun _ _ => Ok 0) V Hi Hr Hj (fun _ _ _ _ => eq_refl) Hv t s0 o0 s1 o1 (o0 + s0 * dofs) (o1 + s1 * dofs)); auto.
  f_equal. now apply H.
Qed.

Lemma complexToInteger_throw v : not_integer v -> complexToInteger v = Throw.
Proof.
  intros H. unfold complexToInteger. destruct v as [re im]. cbn [fst snd].
  destruct (Qceqb im 0%Qc) eqn:E0; cbn [negb]; [|reflexivity].
  destruct (isInt64 re) eqn:E1; cbn [negb]; [|reflexivity]. exfalso.
  unfold isInt64 in E1. apply andb_prop in E1 as [E1 E3]. apply andb_prop in E1 as [E1 E2].
  apply Z.eqb_eq in E1. apply Z.leb_le in E2. apply Z.ltb_lt in E3.
  apply (H (Qnum re)); [lia|]. apply Qceqb_eq in E0. rewrite E0. f_equal.
  apply Qc_is_canon. unfold Q2Qc. cbn [this]. rewrite Qred_correct.
  unfold Qeq, inject_Z. cbn [Qnum Qden]. rewrite E1. reflexivity.
Qed.

(** The rows before the [k]-th are in order, and a cell that names a site or an
    orbital in the [k]-th is not an integer. *)
Lemma reinterpret_throw L dofs values rs k c :
  0 < L -> 0 < dofs -> (Z.of_nat L <= 2 ^ 63)%Z -> (Z.of_nat dofs <= 2 ^ 63)%Z ->
  mat_wf values -> m_ncol values = columns dofs -> k < m_nrow values ->
  List.length rs = k -> Forall (row_ok L dofs) rs ->
  (forall i c', i < k -> c' < columns dofs -> melem values i c' = nth c' (cells dofs (nth i rs dummy)) c0) ->
  S c < columns dofs -> not_integer (melem values k c) ->
  (forall c', c' < c -> exists n, (Z.of_nat n < 2 ^ 63)%Z /\ melem values k c' = num n) ->
  reinterpretMatrix L dofs values = Throw.
Proof.
  intros HL Hd BL Bd W NC Hk Lk Hrs T Hc Hn Hb. unfold reinterpretMatrix.
  destruct (Nat.ltb_spec 0 L); [|lia]. destruct (Nat.ltb_spec 0 dofs); [|lia]. cbn [negb].
  assert (M0 : is_mat (mat_new QGring (L * dofs) (L * dofs)) (L * dofs) (L * dofs) (asked dofs (firstn 0 rs))).
  { eapply is_mat_ext; [|apply mat_new_is]. intros i j _ _. reflexivity. }
  apply complexToInteger_throw in Hn.
  replace (m_nrow values) with (k + S (m_nrow values - S k)) by lia.
  unfold columns, cells in *. destruct (1 <? dofs) eqn:Ed.
  - rewrite NC. cbn [Nat.eqb negb]. rewrite forM_app.
    loopM (fun j m => is_mat m (L * dofs) (L * dofs) (asked dofs (firstn j rs))) as m E HH.
    + exact M0.
    + intros j m Hj Hm.
      assert (Hr : row_ok L dofs (nth j rs dummy)).
      { rewrite Forall_forall in Hrs. apply Hrs, nth_In. lia. }
      pose proof Hr as (R0 & R1 & R2 & R3).
      rewrite !(mget_ok QGring) by (try exact W; rewrite ?NC; lia).
      rewrite !T by lia. cbn [nth bind].
      rewrite !complexToInteger_num by lia. cbn [bind].
      destruct (asked_step L dofs _ _ m Hd Hr Hm) as (m' & E1 & E2).
      exists m'. split; [exact E1|]. rewrite (firstn_S_nth rs j dummy) by lia. exact E2.
    + rewrite E. cbn [bind forM]. rewrite !(mget_ok QGring) by (try exact W; rewrite ?NC; lia).
      cbn [bind Nat.add].
      assert (Hg : forall c', c' < c -> exists n, complexToInteger (melem values k c') = Ok n).
      { intros c' Hc'. destruct (Hb c' Hc') as (n & Bn & ->). exists n. apply complexToInteger_num. exact Bn. }
      destruct c as [|[|[|[|c]]]]; [| | | |lia].
      * rewrite Hn. reflexivity.
      * destruct (Hg 0) as [n0 E0]; [lia|]. rewrite E0. cbn [bind]. rewrite Hn. reflexivity.
      * destruct (Hg 0) as [n0 E0]; [lia|]. rewrite E0. cbn [bind].
        destruct (Hg 1) as [n1 E1]; [lia|]. rewrite E1. cbn [bind]. rewrite Hn. reflexivity.
      * destruct (Hg 0) as [n0 E0]; [lia|]. rewrite E0. cbn [bind].
        destruct (Hg 1) as [n1 E1]; [lia|]. rewrite E1. cbn [bind].
        destruct (Hg 2) as [n2 E2]; [lia|]. rewrite E2. cbn [bind]. rewrite Hn. reflexivity.
  - assert (dofs = 1) by (apply Nat.ltb_ge in Ed; lia).
    rewrite NC. cbn [Nat.eqb negb]. rewrite forM_app.
    loopM (fun j m => is_mat m (L * dofs) (L * dofs) (asked dofs (firstn j rs))) as m E HH.
    + exact M0.
    + intros j m Hj Hm.
      assert (Hr : row_ok L dofs (nth j rs dummy)).
      { rewrite Forall_forall in Hrs. apply Hrs, nth_In. lia. }
      pose proof Hr as (R0 & R1 & R2 & R3).
      rewrite !(mget_ok QGring) by (try exact W; rewrite ?NC; lia).
      rewrite !T by lia. cbn [nth bind].
      rewrite !complexToInteger_num by lia. cbn [bind].
      destruct (asked_step L dofs _ _ m Hd Hr Hm) as (m' & E1 & E2).
      replace (r_orb0 (nth j rs dummy) + r_site0 (nth j rs dummy) * dofs)
        with (r_site0 (nth j rs dummy)) in E1 by nia.
      replace (r_orb1 (nth j rs dummy) + r_site1 (nth j rs dummy) * dofs)
        with (r_site1 (nth j rs dummy)) in E1 by nia.
      exists m'. split; [exact E1|]. rewrite (firstn_S_nth rs j dummy) by lia. exact E2.
    + rewrite E. cbn [bind forM]. rewrite !(mget_ok QGring) by (try exact W; rewrite ?NC; lia).
      cbn [bind Nat.add].
      assert (Hg : forall c', c' < c -> exists n, complexToInteger (melem values k c') = Ok n).
      { intros c' Hc'. destruct (Hb c' Hc') as (n & Bn & ->). exists n. apply complexToInteger_num. exact Bn. }
      destruct c as [|[|c]]; [| |lia].
      * rewrite Hn. reflexivity.
      * destruct (Hg 0) as [n0 E0]; [lia|]. rewrite E0. cbn [bind]. rewrite Hn. reflexivity.
Qed.

Lemma str_eqb_neq a b : str_eqb a b = false <-> a <> b.
Proof.
  split.
  - intros E ->. rewrite str_eqb_refl in E. discriminate E.
  - intros N. destruct (str_eqb a b) eqn:E; [|reflexivity]. apply str_eqb_eq in E. contradiction.
Qed.
