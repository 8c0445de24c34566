From Coq Require Import Reals Lra.
From Verif Require Import Prelude Ring Cplx Dense_Model Dense_Spec Dense_Proofs Tri_Model Tri_Proofs Cf_Model Cf_Spec.
Local Open Scope R_scope.

Lemma cdiv_checked_ok a b : b <> c0 -> cdiv_checked a b = Ok (Cdiv a b).
Proof. intros H. unfold cdiv_checked. destruct (C_eq_dec b c0); [contradiction|reflexivity]. Qed.

Lemma nonreal (z : Cring) r : snd z <> 0 -> csub z (RtoC r) <> c0.
Proof. intros H E. apply H. apply (f_equal snd) in E. cbn in E. lra. Qed.

Lemma iOfOmega_ok cf z E s : length (cf_eigs cf) = length (cf_intensity cf) ->
  (forall e, In e (cf_eigs cf) -> csub z (RtoC (IZR s * (E - e))) <> c0) ->
  iOfOmega cf z E s = Ok (spectral (cf_weight cf) (cf_intensity cf) (cf_eigs cf) E s z).
Proof.
  intros L Hd. unfold iOfOmega, spectral. destruct (ceqb_spec Cring (cf_weight cf) c0) as [->|_]; [f_equal; symmetry; apply cmul_0_r|].
  set (I := cf_intensity cf) in *. set (G := cf_eigs cf) in *. set (t := fun ie : R * R => Cdiv (RtoC (fst ie)) (csub z (RtoC (IZR s * (E - snd ie))))).
  destruct (forR_inv (fun k sum => sum = suml t (firstn k (combine I G))) (a := 0) (b := length I) (fun l sum =>
      do i <- vget I l ;; do e <- vget G l ;;
      do q <- cdiv_checked (RtoC i) (csub z (RtoC (IZR s * (E - e)))) ;;
      Ok (cadd sum q)) c0) as (sum & Es & Hs).
  - lia.
  - reflexivity.
  - intros j sum Hj ->. rewrite (@vget_ok _ I j 0), (@vget_ok _ G j 0) by lia. cbn [bind].
    rewrite cdiv_checked_ok by (apply Hd; apply nth_In; lia). cbn [bind]. eexists. split; [reflexivity|].
    rewrite (@firstn_S_nth _ (combine I G) j (0, 0)) by (rewrite combine_length; lia). rewrite suml_app. cbn [suml]. rewrite cadd_0_r.
    rewrite combine_nth by lia. reflexivity.
  - rewrite Es. cbn [bind]. subst sum. rewrite firstn_all2 by (rewrite combine_length; lia). reflexivity.
Qed.

Section Plot.
  Variables (cf : cfrac) (pp : plotparams).
  Hypothesis L : length (cf_eigs cf) = length (cf_intensity cf).
  Notation G := (spectral (cf_weight cf) (cf_intensity cf) (cf_eigs cf) (cf_Eg cf) (cf_isign cf)).
  Notation w1 := (pp_omega1 pp).
  Notation dw := (pp_deltaOmega pp).

  Lemma loopReal k : forall fuel c result, (k < fuel)%nat -> (0 < k)%nat -> length result = (c + k)%nat -> pp_delta pp <> 0 ->
    0 < dw -> w1 + INR (c + k) * dw <= pp_omega2 pp ->
    plotReal_loop fuel cf pp (w1 + INR c * dw) c result = Ok (firstn c result ++ map (fun j => (w1 + INR j * dw, G (w1 + INR j * dw, pp_delta pp))) (seq c k)).
  Proof.
    induction k as [|k IH]; intros fuel c result Hf Hk Hl Hd Hw Hn; [lia|]. destruct fuel as [|fuel]; [lia|]. cbn [plotReal_loop].
    assert (Hc : INR c + 1 <= INR (c + S k)) by (rewrite <- S_INR; apply le_INR; lia).
    destruct (Rlt_dec (w1 + INR c * dw) (pp_omega2 pp)) as [Hlt|Hlt]; [|exfalso; nra].
    rewrite iOfOmega_ok by (auto; intros e _; apply nonreal; exact Hd). cbn [bind]. rewrite vset_ok by lia. cbn [bind]. rewrite upd_length.
    destruct (@upd_split _ result c (w1 + INR c * dw, G (w1 + INR c * dw, pp_delta pp)) (0, c0)) as [E _]; [lia|].
    destruct (Nat.leb_spec (length result) (c + 1)).
    - assert (k = 0%nat) by lia. subst k. rewrite E. rewrite (skipn_all2 (n := S c)) by lia. reflexivity.
    - replace (w1 + INR c * dw + dw) with (w1 + INR (c + 1) * dw) by (rewrite plus_INR; cbn; ring).
      rewrite IH; try lia; auto; [|rewrite upd_length; lia|replace (c + 1 + k)%nat with (c + S k)%nat by lia; auto].
      f_equal. replace (c + 1)%nat with (S c) by lia. rewrite (@firstn_S_nth _ (upd result c (w1 + INR c * dw, G (w1 + INR c * dw, pp_delta pp))) c (0, c0)) by (rewrite upd_length; lia).
      rewrite nth_upd_eq by lia. rewrite E. rewrite firstn_app, firstn_firstn, firstn_length.
      replace (c - Nat.min c (length result))%nat with 0%nat by lia. rewrite Nat.min_id. cbn [firstn]. rewrite app_nil_r, <- app_assoc. reflexivity.
  Qed.

  Lemma plotReal_ok n : pp_delta pp <> 0 -> 0 < dw -> (0 < n)%nat -> INR n <= (pp_omega2 pp - w1) / dw < INR n + 1 ->
    plotReal cf [] pp = Ok (map (fun j => (w1 + INR j * dw, G (w1 + INR j * dw, pp_delta pp))) (seq 0 n)).
  Proof.
    intros Hd Hw Hn Hq. unfold plotReal. destruct (Req_EM_T dw 0); [lra|].
    assert (E : Int_part ((pp_omega2 pp - w1) / dw) = Z.of_nat n).
    { unfold Int_part. rewrite <- (tech_up _ (Z.of_nat n + 1)); [lia| |]; rewrite plus_IZR, <- INR_IZR_INZ; lra. }
    rewrite E. cbv zeta. destruct (Z.leb_spec 0 (Z.of_nat n)); [|lia]. rewrite Nat2Z.id. cbn [length Nat.eqb].
    pose proof (loopReal n (n + 1) 0 (repeat (0, c0) n)) as H0. rewrite repeat_length. cbn [INR firstn app] in H0. rewrite Rmult_0_l, Rplus_0_r in H0.
    apply H0; try lia; auto; [apply repeat_length|]. cbn [Nat.add].
    assert (INR n * dw <= (pp_omega2 pp - w1) / dw * dw) by (apply Rmult_le_compat_r; lra).
    replace ((pp_omega2 pp - w1) / dw * dw) with (pp_omega2 pp - w1) in H1 by (field; lra). lra.
  Qed.

  Notation mz := (fun j => (pp_delta pp, matsubara j pp)).
  Lemma matsubara_pos j : pp_beta pp <> 0 -> matsubara j pp <> 0.
  Proof.
    intros Hb E. unfold matsubara in E. pose proof (pos_INR j). pose proof PI_RGT_0.
    assert ((2 * INR j + 1) * PI = 0). { replace ((2 * INR j + 1) * PI) with ((2 * INR j + 1) * PI / pp_beta pp * pp_beta pp) by (field; auto). rewrite E. ring. }
    nra.
  Qed.
  Lemma loopMats k : forall c result, length result = (c + k)%nat -> pp_beta pp <> 0 ->
    plotMatsubara_loop k cf pp c result = Ok (firstn c result ++ map (fun j => (matsubara j pp, G (mz j))) (seq c k)).
  Proof.
    induction k as [|k IH]; intros c result Hl Hb; cbn [plotMatsubara_loop].
    - cbn [seq map]. rewrite app_nil_r, firstn_all2 by lia. reflexivity.
    - rewrite iOfOmega_ok by (auto; intros e _; apply nonreal; apply matsubara_pos; exact Hb). cbn [bind]. rewrite vset_ok by lia. cbn [bind snd]. rewrite upd_length.
      destruct (@upd_split _ result c (matsubara c pp, G (mz c)) (0, c0)) as [E _]; [lia|].
      destruct (Nat.leb_spec (length result) (c + 1)).
      + assert (k = 0%nat) by lia. subst k. rewrite E. rewrite (skipn_all2 (n := S c)) by lia. reflexivity.
      + rewrite IH; auto; [|rewrite upd_length; lia].
        f_equal. replace (c + 1)%nat with (S c) by lia. rewrite (@firstn_S_nth _ (upd result c (matsubara c pp, G (mz c))) c (0, c0)) by (rewrite upd_length; lia).
        rewrite nth_upd_eq by lia. rewrite E. rewrite firstn_app, firstn_firstn, firstn_length.
        replace (c - Nat.min c (length result))%nat with 0%nat by lia. rewrite Nat.min_id. cbn [firstn]. rewrite app_nil_r, <- app_assoc. reflexivity.
  Qed.
  Lemma plotMatsubara_ok : pp_beta pp <> 0 ->
    plotMatsubara cf [] pp = Ok (map (fun j => (matsubara j pp, G (mz j))) (seq 0 (pp_matsubaras pp))).
  Proof. intros Hb. unfold plotMatsubara. cbn [length Nat.eqb]. rewrite loopMats; [reflexivity|rewrite repeat_length; reflexivity|auto]. Qed.
End Plot.

Lemma accumulate_empty v2 : accumulate [] v2 = Ok v2.
Proof.
  unfold accumulate. cbn [length Nat.eqb negb andb]. rewrite repeat_length. cbv zeta.
  destruct (forR_inv (fun i v => length v = length v2 /\ forall k, (k < i)%nat -> nth k v (0, c0) = nth k v2 (0, c0)) (a := 0) (b := length v2)
    (fun i (v1 : plotdata) => do p1 <- vget v1 i ;; do p2 <- vget v2 i ;; vset v1 i p2) (repeat (0, c0) (length v2))) as (v & E & Lv & Hv).
  - lia.
  - rewrite repeat_length. split; [auto|intros; lia].
  - intros j v Hj [Lv Hv]. rewrite (@vget_ok _ v j (0, c0)), (@vget_ok _ v2 j (0, c0)) by lia. cbn [bind]. rewrite vset_ok by lia. eexists. split; [reflexivity|].
    rewrite upd_length. split; [auto|]. intros k Hk. destruct (Nat.eq_dec k j) as [->|]; [rewrite nth_upd_eq by lia; auto|]. rewrite nth_upd_neq by auto. apply Hv. lia.
  - etransitivity; [exact E|]. f_equal. apply (list_eq_nth _ _ (0, c0)); auto. intros k Hk. apply Hv. lia.
Qed.

Lemma accumulate_same n X (f g : nat -> Cring) : (0 < n)%nat ->
  accumulate (map (fun j => (X j, f j)) (seq 0 n)) (map (fun j => (X j, g j)) (seq 0 n)) = Ok (map (fun j => (X j, cadd (f j) (g j))) (seq 0 n)).
Proof.
  intros Hn. unfold accumulate. rewrite !map_length, !seq_length, Nat.eqb_refl. destruct (Nat.eqb_spec n 0); [lia|]. cbn [negb andb]. cbv zeta. rewrite map_length, seq_length.
  set (u := map (fun j => (X j, f j)) (seq 0 n)). set (v := map (fun j => (X j, g j)) (seq 0 n)). set (w := map (fun j => (X j, cadd (f j) (g j))) (seq 0 n)).
  assert (Lu : length u = n) by (unfold u; rewrite map_length, seq_length; auto).
  assert (Lv : length v = n) by (unfold v; rewrite map_length, seq_length; auto).
  assert (Lw : length w = n) by (unfold w; rewrite map_length, seq_length; auto).
  assert (N : forall (h : nat -> R * Cring) k, (k < n)%nat -> nth k (map h (seq 0 n)) (0, c0) = h k).
  { intros h k Hk. rewrite (nth_indep _ (0, c0) (h 0%nat)) by (rewrite map_length, seq_length; auto). rewrite map_nth, seq_nth by auto. reflexivity. }
  destruct (forR_inv (fun i t => length t = n /\ forall k, (k < n)%nat -> nth k t (0, c0) = if (k <? i)%nat then nth k w (0, c0) else nth k u (0, c0)) (a := 0) (b := n)
    (fun i (v1 : plotdata) => do p1 <- vget v1 i ;; do p2 <- vget v i ;;
      if Rceqb (fst p1) (fst p2) then vset v1 i (fst p1, cadd (snd p1) (snd p2)) else Throw) u) as (t & E & Lt & Ht).
  - lia.
  - split; [auto|]. intros k Hk. destruct (Nat.ltb_spec k 0); [lia|reflexivity].
  - intros j t Hj [Lt Ht]. rewrite (@vget_ok _ t j (0, c0)), (@vget_ok _ v j (0, c0)) by lia. cbn [bind]. rewrite Ht by lia. destruct (Nat.ltb_spec j j); [lia|].
    unfold u, v. rewrite !N by lia. cbn [fst snd]. replace (Rceqb (X j) (X j)) with true by (symmetry; apply Rceqb_eq; reflexivity).
    rewrite vset_ok by lia. eexists. split; [reflexivity|]. rewrite upd_length. split; [auto|]. intros k Hk. destruct (Nat.eq_dec k j) as [->|].
    + rewrite nth_upd_eq by lia. destruct (Nat.ltb_spec j (S j)); [|lia]. unfold w. rewrite N by lia. reflexivity.
    + rewrite nth_upd_neq by auto. rewrite Ht by lia. destruct (Nat.ltb_spec k j), (Nat.ltb_spec k (S j)); try lia; reflexivity.
  - etransitivity; [exact E|]. f_equal. apply (list_eq_nth _ _ (0, c0)); [lia|]. intros k Hk. rewrite Ht by lia. destruct (Nat.ltb_spec k n); [reflexivity|lia].
Qed.

Lemma accumulate_diff v1 v2 : v1 <> [] -> length v1 <> length v2 \/ (exists i, (i < length v1)%nat /\ fst (nth i v1 (0, c0)) <> fst (nth i v2 (0, c0))) ->
  accumulate v1 v2 = Throw.
Proof.
  intros Hne H. unfold accumulate. destruct (Nat.eqb_spec (length v1) 0) as [E|_]; [destruct v1; [congruence|discriminate]|]. cbn [negb andb].
  destruct (Nat.eqb_spec (length v1) (length v2)) as [El|]; [|reflexivity]. cbn [negb]. destruct H as [H|(i & Hi & Hd)]; [contradiction|]. cbv zeta.
  (* the loop throws at the first difference *)
  enough (G : forall k j (t : plotdata), (j + k = length v1)%nat -> length t = length v1 -> (j <= i)%nat ->
    (forall a, (j <= a)%nat -> nth a t (0, c0) = nth a v1 (0, c0)) ->
    forM k j (fun i (v1 : plotdata) => do p1 <- vget v1 i ;; do p2 <- vget v2 i ;;
      if Rceqb (fst p1) (fst p2) then vset v1 i (fst p1, cadd (snd p1) (snd p2)) else Throw) t = Throw).
  { unfold forR. apply G; auto; lia. }
  induction k as [|k IH]; intros j t Hj Lt Hji Ht; [lia|]. cbn [forM].
  rewrite (@vget_ok _ t j (0, c0)), (@vget_ok _ v2 j (0, c0)) by lia. cbn [bind]. rewrite Ht by lia.
  destruct (Rceqb _ _) eqn:E; [|reflexivity]. apply Rceqb_eq in E. rewrite vset_ok by lia. cbn [bind].
  assert (j <> i) by (intros ->; contradiction). apply IH; try lia; [rewrite upd_length; auto|]. intros a Ha. rewrite nth_upd_neq by lia. apply Ht. lia.
Qed.

Lemma cfc_plot_add pp n X (Gf : cfrac -> nat -> Cring) data : (0 < n)%nat ->
  (forall cf, In cf data -> cf_plot cf [] pp = Ok (map (fun j => (X j, Gf cf j)) (seq 0 n))) ->
  forall f, cfc_plot data (map (fun j => (X j, f j)) (seq 0 n)) pp = Ok (map (fun j => (X j, cadd (f j) (suml (fun cf => Gf cf j) data))) (seq 0 n)).
Proof.
  intros Hn. induction data as [|cf data IH]; intros Hp f; unfold cfc_plot in *; cbn [forL].
  - f_equal. apply map_ext. intros j. cbn [suml]. rewrite cadd_0_r. reflexivity.
  - rewrite Hp by (left; auto). cbn [bind]. rewrite accumulate_same by auto. cbn [bind].
    rewrite IH by (intros; apply Hp; right; auto). f_equal. apply map_ext. intros j. cbn [suml]. rewrite cadd_assoc. reflexivity.
Qed.
Lemma cfc_plot_new pp n X (Gf : cfrac -> nat -> Cring) data : (0 < n)%nat -> data <> [] ->
  (forall cf, In cf data -> cf_plot cf [] pp = Ok (map (fun j => (X j, Gf cf j)) (seq 0 n))) ->
  cfc_plot data [] pp = Ok (map (fun j => (X j, suml (fun cf => Gf cf j) data)) (seq 0 n)).
Proof.
  intros Hn Hne Hp. destruct data as [|cf data]; [congruence|]. unfold cfc_plot. cbn [forL]. rewrite Hp by (left; auto). cbn [bind].
  rewrite accumulate_empty. cbn [bind]. apply (cfc_plot_add pp n X Gf data Hn (fun c H => Hp c (or_intror H)) (fun j => Gf cf j)).
Qed.

(** ------------------------------------------------------------------ *)
(** The resolvent. *)
Section Resolvent.
  Add Ring Cr : (c_ring Cring).
  Local Open Scope cring_scope.
  Variable n : nat.
  Variables (T Q : nat -> nat -> R) (e : nat -> R).
  Variables w s : Cring.
  Hypothesis QQt : forall i j, (i < n)%nat -> (j < n)%nat -> sumn (R := Rring) n (fun l => Rmult (Q i l) (Q j l)) = if (i =? j)%nat then 1%R else 0%R.
  Hypothesis TQ : forall i l, (i < n)%nat -> (l < n)%nat -> sumn (R := Rring) n (fun j => Rmult (T i j) (Q j l)) = Rmult (e l) (Q i l).
  Notation lam := (fun l => w + s * RtoC (e l)).
  Hypothesis Hlam : forall l, (l < n)%nat -> lam l <> c0.
  Hypothesis Hn : (0 < n)%nat.

  Lemma sumn_RtoC m (f : nat -> R) : RtoC (sumn (R := Rring) m f) = sumn m (fun k => RtoC (f k)).
  Proof. induction m as [|m IH]; [reflexivity|]. rewrite !sumn_S. rewrite <- IH. apply RtoC_add. Qed.

  Definition xsol (i : nat) : Cring := sumn n (fun l => RtoC (Q i l) * Cdiv (RtoC (Q 0%nat l)) (lam l)).

  Lemma xsol_solves : solves n w s T xsol.
  Proof.
    intros i Hi. unfold xsol.
    transitivity (sumn n (fun l => RtoC (Q i l) * RtoC (Q 0%nat l))).
    - rewrite <- sumn_mul_l.
      assert (E : sumn n (fun j => RtoC (T i j) * sumn n (fun l => RtoC (Q j l) * Cdiv (RtoC (Q 0%nat l)) (lam l)))
        = sumn n (fun l => RtoC (e l) * RtoC (Q i l) * Cdiv (RtoC (Q 0%nat l)) (lam l))).
      { transitivity (sumn n (fun j => sumn n (fun l => RtoC (T i j) * (RtoC (Q j l) * Cdiv (RtoC (Q 0%nat l)) (lam l))))).
        { apply sumn_ext. intros j Hj. rewrite sumn_mul_l. reflexivity. }
        rewrite sumn_exchange. apply sumn_ext. intros l Hl.
        rewrite <- RtoC_mul, <- (TQ i l Hi Hl), sumn_RtoC, <- sumn_mul_r. apply sumn_ext. intros j Hj. rewrite RtoC_mul. ring. }
      rewrite E, <- sumn_mul_l, <- sumn_add. apply sumn_ext. intros l Hl.
      transitivity (RtoC (Q i l) * (lam l * Cdiv (RtoC (Q 0%nat l)) (lam l))); [ring|]. rewrite Cmul_div by auto. reflexivity.
    - transitivity (RtoC (sumn (R := Rring) n (fun l => Rmult (Q i l) (Q 0%nat l)))).
      { rewrite sumn_RtoC. apply sumn_ext. intros l Hl. rewrite RtoC_mul. reflexivity. }
      rewrite QQt by auto. destruct (i =? 0)%nat; reflexivity.
  Qed.

  Lemma xsol_0 : xsol 0 = sumn n (fun l => Cdiv (RtoC (Q 0%nat l * Q 0%nat l)%R) (lam l)).
  Proof. unfold xsol. apply sumn_ext. intros l Hl. unfold Cdiv. rewrite RtoC_mul. ring. Qed.

  (** uniqueness: T is symmetric and the columns of Q are orthonormal *)
  Hypothesis QtQ : forall k l, (k < n)%nat -> (l < n)%nat -> sumn (R := Rring) n (fun i => Rmult (Q i k) (Q i l)) = if (k =? l)%nat then 1%R else 0%R.
  Hypothesis Tsym : forall i j, (i < n)%nat -> (j < n)%nat -> T i j = T j i.

  Lemma solves_0 x : solves n w s T x -> x 0%nat = xsol 0.
  Proof.
    intros H.
    (* the components along the eigenvectors *)
    set (y := fun l => sumn n (fun i => RtoC (Q i l) * x i)).
    assert (Hy : forall l, (l < n)%nat -> y l = Cdiv (RtoC (Q 0%nat l)) (lam l)).
    { intros l Hl. symmetry. apply Cdiv_eq; [apply Hlam; auto|]. unfold y.
      transitivity (sumn n (fun i => RtoC (Q i l) * (if (i =? 0)%nat then c1 else c0))).
      - transitivity (sumn n (fun i => RtoC (Q i l) * (w * x i + s * sumn n (fun j => RtoC (T i j) * x j)))).
        + transitivity (w * sumn n (fun i => RtoC (Q i l) * x i) + s * sumn n (fun i => RtoC (Q i l) * sumn n (fun j => RtoC (T i j) * x j))).
          * assert (E : sumn n (fun i => RtoC (Q i l) * sumn n (fun j => RtoC (T i j) * x j)) = RtoC (e l) * sumn n (fun i => RtoC (Q i l) * x i)).
            { transitivity (sumn n (fun i => sumn n (fun j => RtoC (Q i l) * (RtoC (T i j) * x j)))).
              { apply sumn_ext. intros i Hi. rewrite sumn_mul_l. reflexivity. }
              rewrite sumn_exchange, <- sumn_mul_l. apply sumn_ext. intros j Hj.
              transitivity (RtoC (e l * Q j l)%R * x j); [|rewrite RtoC_mul; ring].
              rewrite <- (TQ j l Hj Hl), sumn_RtoC, <- sumn_mul_r. apply sumn_ext. intros i Hi. rewrite RtoC_mul, (Tsym j i) by auto. ring. }
            rewrite E. ring.
          * rewrite <- !sumn_mul_l, <- sumn_add. apply sumn_ext. intros i Hi. ring.
        + apply sumn_ext. intros i Hi. rewrite (H i Hi). reflexivity.
      - rewrite (sumn_ext _ n _ (fun i => (if (i =? 0)%nat then c1 else c0) * RtoC (Q i l))) by (intros; ring).
        transitivity (sumn n (fun i => if (i =? 0)%nat then RtoC (Q i l) else c0)).
        { apply sumn_ext. intros i Hi. destruct (i =? 0)%nat; ring. }
        destruct n as [|m]; [lia|]. clear. induction m as [|m IH]; [cbn [sumn seq suml Nat.eqb]; ring|].
        rewrite sumn_S, IH. cbn [Nat.eqb]. ring. }
    transitivity (sumn n (fun l => RtoC (Q 0%nat l) * y l)).
    - unfold y. transitivity (sumn n (fun l => sumn n (fun i => RtoC (Q 0%nat l) * (RtoC (Q i l) * x i)))).
      + rewrite sumn_exchange. transitivity (sumn n (fun i => (if (0 =? i)%nat then c1 else c0) * x i)).
        * destruct n as [|m]; [lia|]. clear. induction m as [|m IH]; [cbn [sumn seq suml Nat.eqb]; ring|]. rewrite sumn_S, <- IH. cbn [Nat.eqb]. ring.
        * apply sumn_ext. intros i Hi. transitivity (RtoC (sumn (R := Rring) n (fun l => Rmult (Q 0%nat l) (Q i l))) * x i).
          { rewrite QQt by auto. destruct (0 =? i)%nat; reflexivity. }
          rewrite sumn_RtoC, <- sumn_mul_r. apply sumn_ext. intros l Hl. rewrite RtoC_mul. ring.
      + apply sumn_ext. intros l Hl. rewrite sumn_mul_l. reflexivity.
    - unfold xsol. apply sumn_ext. intros l Hl. rewrite Hy by auto. reflexivity.
  Qed.
End Resolvent.

(** ------------------------------------------------------------------ *)
(** The continued fraction. *)
Section Fraction.
  Add Ring Cr2 : (c_ring Cring).
  Local Open Scope cring_scope.
  Variable n : nat.
  Variables a b : nat -> R.
  Variables w s : Cring.
  Hypothesis Hn : (0 < n)%nat.
  Notation T := (fun i j => if (i =? j)%nat then a i else if (j =? i + 1)%nat then b (i + 1)%nat else if (i =? j + 1)%nat then b (j + 1)%nat else 0%R).
  Notation d := (fun k => w + s * RtoC (a k)).
  Notation f := (fun k => (s * RtoC (b k)) * (s * RtoC (b k))).

  (** a row of the product with a tridiagonal matrix *)
  Lemma tri_row x i : (i < n)%nat -> sumn n (fun j => RtoC (T i j) * x j) =
    (if (i =? 0)%nat then c0 else RtoC (b i) * x (i - 1)%nat) + RtoC (a i) * x i + (if (S i <? n)%nat then RtoC (b (S i)) * x (S i) else c0).
  Proof.
    intros Hi.
    assert (G : forall m, sumn m (fun j => RtoC (T i j) * x j) =
      (if (i =? 0)%nat then c0 else if (i - 1 <? m)%nat then RtoC (b i) * x (i - 1)%nat else c0) + (if (i <? m)%nat then RtoC (a i) * x i else c0) + (if (S i <? m)%nat then RtoC (b (S i)) * x (S i) else c0)).
    { induction m as [|m IH].
      - cbn [sumn seq suml Nat.ltb Nat.leb]. destruct (i =? 0)%nat; ring.
      - rewrite sumn_S, IH. clear IH.
        destruct (Nat.eqb_spec i 0); destruct (Nat.eqb_spec i m); destruct (Nat.eqb_spec m (i + 1)); destruct (Nat.eqb_spec i (m + 1));
        repeat match goal with |- context [Nat.ltb ?p ?q] => destruct (Nat.ltb_spec p q) end; try (exfalso; lia);
        try (subst m); try (replace (i + 1)%nat with (S i) by lia); try (replace (i - 1)%nat with m by lia); try (replace (m + 1)%nat with i by lia);
        try ring; change (RtoC 0) with (c0 : Cring); ring. }
    rewrite G. destruct (Nat.eqb_spec i 0); destruct (Nat.ltb_spec (i - 1) n); destruct (Nat.ltb_spec i n); try (exfalso; lia); reflexivity.
  Qed.

  Lemma fraction x : solves n w s T x -> (forall m k, (m + k = n - 1)%nat -> cf_den d f m k <> c0) ->
    x 0%nat = Cdiv c1 (cf_den d f (n - 1) 0).
  Proof.
    intros H Hden.
    assert (G : forall m k, (m + k = n - 1)%nat -> (0 < k)%nat -> cf_den d f m k * x k = - (s * RtoC (b k) * x (k - 1)%nat)).
    { induction m as [|m IH]; intros k Hk Hk0.
      - cbn [cf_den]. pose proof (H k ltac:(lia)) as E. cbv beta in E. rewrite tri_row in E by lia.
        destruct (Nat.eqb_spec k 0); [lia|]. destruct (Nat.ltb_spec (S k) n); [lia|].
        transitivity (w * x k + s * (RtoC (b k) * x (k - 1)%nat + RtoC (a k) * x k + c0) - s * RtoC (b k) * x (k - 1)%nat); [ring|]. rewrite E. ring.
      - cbn [cf_den]. pose proof (H k ltac:(lia)) as E. cbv beta in E. rewrite tri_row in E by lia.
        destruct (Nat.eqb_spec k 0); [lia|]. destruct (Nat.ltb_spec (S k) n); [|lia].
        pose proof (IH (S k) ltac:(lia) ltac:(lia)) as E2. replace (S k - 1)%nat with k in E2 by lia. pose proof (Hden m (S k) ltac:(lia)) as Hd.
        assert (E3 : Cdiv (f (S k)) (cf_den d f m (S k)) * x k = - (s * RtoC (b (S k)) * x (S k))).
        { cbv beta. unfold Cdiv. transitivity (- (s * RtoC (b (S k)) * Cinv (cf_den d f m (S k)) * - (s * RtoC (b (S k)) * x k))); [ring|].
          rewrite <- E2. transitivity (- (s * RtoC (b (S k)) * (Cinv (cf_den d f m (S k)) * cf_den d f m (S k)) * x (S k))); [ring|]. rewrite Cinv_l by auto. ring. }
        transitivity (w * x k + s * (RtoC (b k) * x (k - 1)%nat + RtoC (a k) * x k + RtoC (b (S k)) * x (S k)) - s * RtoC (b k) * x (k - 1)%nat
          - (s * RtoC (b (S k)) * x (S k)) - Cdiv (f (S k)) (cf_den d f m (S k)) * x k); [ring|]. rewrite E, E3. ring. }
    symmetry. apply Cdiv_eq; [apply Hden; lia|].
    pose proof (H 0%nat Hn) as E. cbv beta in E. rewrite tri_row in E by lia. cbn [Nat.eqb] in E.
    destruct (n - 1)%nat as [|m] eqn:En.
    - cbn [cf_den]. destruct (Nat.ltb_spec 1 n); [lia|]. rewrite <- E. ring.
    - destruct (Nat.ltb_spec 1 n); [|lia]. cbn [cf_den]. pose proof (G m 1%nat ltac:(lia) ltac:(lia)) as E2. change (1 - 1)%nat with 0%nat in E2. pose proof (Hden m 1%nat ltac:(lia)) as Hd.
      assert (E3 : Cdiv (f 1%nat) (cf_den d f m 1) * x 0%nat = - (s * RtoC (b 1%nat) * x 1%nat)).
      { cbv beta. unfold Cdiv. transitivity (- (s * RtoC (b 1%nat) * Cinv (cf_den d f m 1) * - (s * RtoC (b 1%nat) * x 0%nat))); [ring|].
        rewrite <- E2. transitivity (- (s * RtoC (b 1%nat) * (Cinv (cf_den d f m 1) * cf_den d f m 1) * x 1%nat)); [ring|]. rewrite Cinv_l by auto. ring. }
      transitivity (w * x 0%nat + s * (c0 + RtoC (a 0%nat) * x 0%nat + RtoC (b 1%nat) * x 1%nat) - s * RtoC (b 1%nat) * x 1%nat - Cdiv (f 1%nat) (cf_den d f m 1) * x 0%nat); [ring|].
      rewrite E, E3. ring.
  Qed.
End Fraction.

(** Off the real axis no denominator vanishes. *)
Lemma sq_pos (c : Cring) : c <> c0 -> 0 < fst c * fst c + snd c * snd c.
Proof.
  destruct c as [p q]. cbn [fst snd]. intros H. destruct (Req_dec p 0) as [->|]; [destruct (Req_dec q 0) as [->|]; [exfalso; apply H; reflexivity|nra]|nra].
Qed.
Lemma den_im (a b : nat -> R) (z : Cring) (Eg sg : R) sigma : sigma * snd z > 0 -> forall m k,
  sigma * snd (cf_den (fun k => cadd (csub z (RtoC (sg * Eg))) (cmul (RtoC sg) (RtoC (a k)))) (fun k => cmul (cmul (RtoC sg) (RtoC (b k))) (cmul (RtoC sg) (RtoC (b k)))) m k) > 0.
Proof.
  intros Hz m. induction m as [|m IH]; intros k; cbn [cf_den].
  - rewrite <- RtoC_mul. destruct z as [zr zi]. cbn in *. replace (zi - 0 + 0) with zi by ring. exact Hz.
  - specialize (IH (S k)). set (D := cf_den _ _ m (S k)) in *.
    assert (HD : D <> c0). { intros E. rewrite E in IH. cbn in IH. lra. }
    pose proof (sq_pos D HD) as Hs.
    rewrite <- !RtoC_mul. set (p := sg * b (S k)). destruct z as [zr zi]. destruct D as [dr di]. unfold Cdiv, Cinv. cbn in *.
    replace (sigma * (zi - 0 + 0 - (p * p * (- di / (dr * dr + di * di)) + 0 * (dr / (dr * dr + di * di)))))
      with (sigma * zi + p * p * (sigma * di) / (dr * dr + di * di)) by (field; lra).
    assert (0 <= p * p * (sigma * di) / (dr * dr + di * di)).
    { apply Rmult_le_pos; [apply Rmult_le_pos; [nra|lra]|left; apply Rinv_0_lt_compat; lra]. }
    lra.
Qed.
Lemma den_nonzero (a b : nat -> R) (z : Cring) (Eg sg : R) m k : snd z <> 0 ->
  cf_den (fun k => cadd (csub z (RtoC (sg * Eg))) (cmul (RtoC sg) (RtoC (a k)))) (fun k => cmul (cmul (RtoC sg) (RtoC (b k))) (cmul (RtoC sg) (RtoC (b k)))) m k <> c0.
Proof.
  intros Hz E. pose proof (den_im a b z Eg sg (snd z) ltac:(nra) m k) as H. rewrite E in H. cbn in H. lra.
Qed.

(** what set stores *)
Lemma cf_set_ok diag cf ab Eg weight isign Q eigs q :
  (0 < length (t_a ab))%nat -> length (t_b ab) = length (t_a ab) ->
  (forall T, buildDenseMatrix Rring ab (mat_empty Rring) 0 = Ok T -> diag T = (Q, eigs)) ->
  is_mat Q (length (t_a ab)) (length (t_a ab)) q ->
  exists cf', cf_set diag cf ab Eg weight isign = Ok cf' /\ cf_Eg cf' = Eg /\ cf_isign cf' = isign /\ cf_weight cf' = RtoC weight /\
    (weight <> 0 -> cf_eigs cf' = eigs /\ cf_intensity cf' = map (fun l => q 0%nat l * q 0%nat l) (seq 0 (length (t_a ab)))).
Proof.
  intros Hn Hb Hd (Q1 & Q2 & Q3 & Q4). set (n := length (t_a ab)) in *. unfold cf_set.
  destruct (ceqb_spec Cring (RtoC weight) c0) as [E|E].
  - eexists. split; [reflexivity|]. cbn. do 3 (split; [reflexivity|]). intros Hw. exfalso. apply Hw. apply (f_equal fst) in E. exact E.
  - destruct (buildDense_gen Rring ab (mat_empty Rring) n) as (T & ET & _); [lia|lia|lia|]. rewrite build_zero. fold n. rewrite ET. cbn [bind].
    rewrite Hd by (rewrite build_zero; exact ET). rewrite Q1.
    destruct (forR_inv (fun i v => length v = n /\ forall k, (k < i)%nat -> nth k v 0 = q 0%nat k * q 0%nat k) (a := 0) (b := n)
      (fun i v => do q <- mget Rring Q 0 i ;; vset v i (q * q)) (vresize (cf_intensity cf) n 0)) as (v & Ev & Lv & Hv).
    + lia.
    + split; [apply vresize_length|intros; lia].
    + intros j v Hj [Lv Hv]. rewrite mget_ok by (auto; lia). cbn [bind]. rewrite vset_ok by lia. eexists. split; [reflexivity|]. rewrite upd_length. split; [auto|].
      intros k Hk. destruct (Nat.eq_dec k j) as [->|]; [rewrite nth_upd_eq by lia; rewrite Q4 by lia; reflexivity|]. rewrite nth_upd_neq by auto. apply Hv. lia.
    + match goal with |- exists _, bind ?m _ = _ /\ _ => replace m with (Ok v) by (symmetry; exact Ev) end. cbn [bind].
      eexists. split; [reflexivity|]. cbn. do 3 (split; [reflexivity|]). intros _. split; [reflexivity|].
      apply (list_eq_nth _ _ 0); [rewrite map_length, seq_length; auto|]. intros k Hk. rewrite Hv by lia.
      rewrite (nth_indep _ 0 ((fun l => q 0%nat l * q 0%nat l) 0%nat)) by (rewrite map_length, seq_length; lia). rewrite (map_nth (fun l => q 0%nat l * q 0%nat l)), seq_nth by lia. reflexivity.
Qed.

Lemma spectral_sum n (q : nat -> R) eigs weight Eg sg z : length eigs = n ->
  spectral weight (map (fun l => q l * q l) (seq 0 n)) eigs Eg sg z =
  cmul (sumn n (fun l => Cdiv (RtoC (q l * q l)) (cadd (csub z (RtoC (IZR sg * Eg))) (cmul (RtoC (IZR sg)) (RtoC (nth l eigs 0)))))) weight.
Proof.
  intros L. unfold spectral. f_equal.
  assert (E : combine (map (fun l => q l * q l) (seq 0 n)) eigs = map (fun l => (q l * q l, nth l eigs 0)) (seq 0 n)).
  { subst n. rewrite <- (map_nth_seq eigs 0) at 2. clear.
    induction (seq 0 (length eigs)) as [|i l IH]; [reflexivity|]. cbn. rewrite IH. reflexivity. }
  rewrite E, suml_map. unfold sumn. apply suml_ext. intros l. cbn [fst snd]. f_equal.
  rewrite <- RtoC_mul. destruct z as [zr zi]. cbn. unfold Csub, Cadd. cbn. apply f_equal2; ring.
Qed.
