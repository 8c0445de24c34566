From Coq Require Import Reals Lra.
From Verif Require Import Prelude Ring Cplx Tri_Model Lanczos_Model Lanczos_Spec.
Local Open Scope nat_scope.
Add Ring RCr : (c_ring Cring).

(** Complex numbers. *)
Lemma RtoC_inj a b : RtoC a = RtoC b -> a = b.
Proof. intros E. apply (f_equal fst) in E. exact E. Qed.
Lemma RtoC_0 : RtoC 0 = c0. Proof. reflexivity. Qed.
Lemma RtoC_1 : RtoC 1 = c1. Proof. reflexivity. Qed.
Lemma conj_RtoC a : cconj (RtoC a) = RtoC a.
Proof. unfold RtoC. cbn. unfold Cconj. cbn [fst snd]. rewrite Ropp_0. reflexivity. Qed.
Lemma real_conj (z : Cring) : cconj z = z -> z = RtoC (fst z).
Proof.
  destruct z as [x y]. cbn. unfold Cconj, RtoC. cbn [fst snd]. intros E. apply (f_equal snd) in E. cbn in E.
  apply f_equal2; [reflexivity|lra].
Qed.
Lemma fst_sumn n (f : nat -> Cring) : fst (sumn n f) = @sumn Rring n (fun i => fst (f i)).
Proof. induction n as [|n IH]; [reflexivity|]. rewrite !sumn_S, <- IH. reflexivity. Qed.
Lemma conj_prod_0 (x : Cring) : fst (cmul x (cconj x)) = (fst x * fst x + snd x * snd x)%R.
Proof. cbn. lra. Qed.
Lemma Rsumn_nonneg n (f : nat -> R) : (forall i, i < n -> (0 <= f i)%R) -> (0 <= @sumn Rring n f)%R.
Proof.
  induction n as [|n IH]; intros Hf; [unfold sumn; cbn; lra|]. rewrite sumn_S. cbn.
  assert (0 <= f n)%R by (apply Hf; lia). assert (0 <= @sumn Rring n f)%R by (apply IH; intros; apply Hf; lia). lra.
Qed.
Lemma Rsumn_zero n (f : nat -> R) : (forall i, i < n -> (0 <= f i)%R) -> @sumn Rring n f = 0%R ->
  forall i, i < n -> f i = 0%R.
Proof.
  induction n as [|n IH]; intros Hf E i Hi; [lia|]. rewrite sumn_S in E. cbn in E.
  assert (0 <= f n)%R by (apply Hf; lia).
  assert (0 <= @sumn Rring n f)%R by (apply Rsumn_nonneg; intros; apply Hf; lia).
  destruct (Nat.eq_dec i n) as [->|]; [lra|]. apply IH; [intros; apply Hf; lia|lra|lia].
Qed.

(** Vectors. *)
Lemma vec_length n f : length (vec n f) = n.
Proof. unfold vec. rewrite map_length, seq_length. reflexivity. Qed.
Lemma vec_nth n f i : i < n -> nth i (vec n f) c0 = f i.
Proof.
  intros Hi. unfold vec. rewrite (nth_indep _ c0 (f 0)) by (rewrite map_length, seq_length; lia).
  rewrite (map_nth f), seq_nth by lia. reflexivity.
Qed.
Lemma vec_eq n f (v : vector) : length v = n -> (forall i, i < n -> f i = nth i v c0) -> vec n f = v.
Proof.
  intros Hl Hf. apply (list_eq_nth _ _ c0); [rewrite vec_length; auto|].
  intros i. rewrite vec_length. intros Hi. rewrite vec_nth by auto. auto.
Qed.

(** Inner products. *)
Section Inner.
  Variable n : nat.
  Notation "<< u , v >>" := (inner n u v).
  Lemma inner_conj u v : cconj << u, v >> = << v, u >>.
  Proof.
    unfold inner. rewrite sumn_conj. apply sumn_ext. intros i Hi. rewrite c_conj_mul, c_conj_inv. apply cmul_comm.
  Qed.
  Lemma inner_lin u w x y z (al be ga : Cring) :
    (forall i, i < n -> nth i w c0 = cadd (cmul al (nth i x c0)) (cadd (cmul be (nth i y c0)) (cmul ga (nth i z c0)))) ->
    << u, w >> = cadd (cmul al << u, x >>) (cadd (cmul be << u, y >>) (cmul ga << u, z >>)).
  Proof.
    intros Hw. unfold inner. rewrite <- !sumn_mul_l, <- !sumn_add. apply sumn_ext. intros i Hi. cbv beta.
    rewrite Hw by auto. ring.
  Qed.
  Lemma inner_scale u w x (al : Cring) :
    (forall i, i < n -> nth i w c0 = cmul al (nth i x c0)) -> << u, w >> = cmul al << u, x >>.
  Proof.
    intros Hw. unfold inner. rewrite <- sumn_mul_l. apply sumn_ext. intros i Hi. rewrite Hw by auto. ring.
  Qed.
  Lemma inner_zero u w : (forall i, i < n -> nth i w c0 = c0) -> << u, w >> = c0.
  Proof. intros Hw. apply sumn_zero. intros i Hi. rewrite Hw by auto. ring. Qed.
  Lemma inner_self v : << v, v >> = RtoC (sum_re n v v).
  Proof.
    rewrite (real_conj << v, v >>) by apply inner_conj. f_equal. unfold inner. rewrite fst_sumn. unfold sum_re.
    apply (sumn_ext Rring). intros i Hi. unfold at_. rewrite cmul_comm. reflexivity.
  Qed.
  Lemma sum_re_inner x y : sum_re n x y = fst << y, x >>.
  Proof.
    unfold inner. rewrite fst_sumn. apply (sumn_ext Rring). intros i Hi. unfold at_. rewrite cmul_comm. reflexivity.
  Qed.
  Lemma sum_re_nonneg v : (0 <= sum_re n v v)%R.
  Proof.
    apply Rsumn_nonneg. intros i Hi. rewrite conj_prod_0. nra.
  Qed.
  Lemma sum_re_zero v : sum_re n v v = 0%R -> forall i, i < n -> nth i v c0 = c0.
  Proof.
    intros E i Hi. assert (F : fst (cmul (at_ v i) (cconj (at_ v i))) = 0%R).
    { revert i Hi. apply Rsumn_zero; [|exact E]. intros i Hi. rewrite conj_prod_0. nra. }
    rewrite conj_prod_0 in F. unfold at_ in F. destruct (nth i v c0) as [x y]. cbn [fst snd] in F.
    assert (x = 0)%R by nra. assert (y = 0)%R by nra. subst. reflexivity.
  Qed.
  Lemma sum_re_of_zero v : (forall i, i < n -> nth i v c0 = c0) -> sum_re n v v = 0%R.
  Proof.
    intros Hv. apply RtoC_inj. rewrite <- inner_self. apply inner_zero. auto.
  Qed.

  Variable H : nat -> nat -> Cring.
  Hypothesis Hh : hermitian n H.
  Lemma sandwich_inner u v w : (forall i, i < n -> nth i w c0 = app_mat n H v i) -> sandwich n H u v = << u, w >>.
  Proof. intros Hw. apply sumn_ext. intros i Hi. rewrite Hw by auto. reflexivity. Qed.
  Lemma sandwich_conj u v : cconj (sandwich n H u v) = sandwich n H v u.
  Proof.
    unfold sandwich, app_mat. rewrite sumn_conj.
    transitivity (sumn n (fun i => sumn n (fun k => cmul (nth i u c0) (cmul (cconj (H i k)) (cconj (nth k v c0)))))).
    { apply sumn_ext. intros i Hi. rewrite c_conj_mul, c_conj_inv, sumn_conj, <- sumn_mul_l. apply sumn_ext.
      intros k Hk. rewrite c_conj_mul. reflexivity. }
    rewrite sumn_exchange. apply sumn_ext. intros k Hk. rewrite <- sumn_mul_l. apply sumn_ext. intros i Hi.
    rewrite (Hh k i) by auto. ring.
  Qed.
  Lemma sandwich_real v : sandwich n H v v = RtoC (fst (sandwich n H v v)).
  Proof. apply real_conj. apply sandwich_conj. Qed.
  Lemma app_mat_zero v i : (forall i, i < n -> nth i v c0 = c0) -> app_mat n H v i = c0.
  Proof. intros Hv. apply sumn_zero. intros k Hk. rewrite Hv by auto. ring. Qed.

  (** The state of the iteration after the vectors 0..j are known. *)
  Record inv (v : nat -> vector) (a b : nat -> R) (j k : nat) : Prop := {
    i_k : 1 <= k <= j + 1;
    i_on : forall i l, i < k -> l < k -> << v i, v l >> = if i =? l then c1 else c0;
    i_zero : forall i, k <= i <= j -> forall h, h < n -> nth h (v i) c0 = c0;
    i_rel : forall i, i < j -> forall h, h < n ->
      app_mat n H (v i) h =
      cadd (cmul (RtoC (a i)) (nth h (v i) c0))
       (cadd (cmul (RtoC (b (i + 1))) (nth h (v (i + 1)) c0))
             (if i =? 0 then c0 else cmul (RtoC (b i)) (nth h (v (i - 1)) c0)));
    i_a : forall i, i < j -> a i = fst (sandwich n H (v i) (v i));
    i_b : forall i, 1 <= i <= j -> (b i <> 0%R <-> i < k);
    i_p : forall i, 1 <= i <= j -> (0 <= b i)%R }.

  Lemma inv_inner v a b j k i l : inv v a b j k -> i <= j -> l <= j ->
    << v i, v l >> = if (i =? l) && (i <? k) then c1 else c0.
  Proof.
    intros I Hi Hl. destruct (Nat.ltb_spec i k) as [Hik|Hik].
    - destruct (Nat.ltb_spec l k) as [Hlk|Hlk].
      + rewrite (i_on _ _ _ _ _ I) by auto. rewrite andb_true_r. reflexivity.
      + rewrite inner_zero by (apply (i_zero _ _ _ _ _ I); lia). destruct (Nat.eqb_spec i l); [lia|reflexivity].
    - rewrite andb_false_r. rewrite <- inner_conj, inner_zero by (apply (i_zero _ _ _ _ _ I); lia). apply cconj_0.
  Qed.

  (** <v_l, H v_i> for a vector v_i for which the recurrence is known *)
  Lemma inv_sand v a b j k i l : inv v a b j k -> i < j -> l <= j ->
    sandwich n H (v l) (v i) =
    RtoC (if l =? i then a i else if l =? i + 1 then b (i + 1) else if i =? l + 1 then b i else 0%R).
  Proof.
    intros I Hi Hl.
    assert (E : sandwich n H (v l) (v i) =
      cadd (cmul (RtoC (a i)) << v l, v i >>) (cadd (cmul (RtoC (b (i + 1))) << v l, v (i + 1) >>)
        (cmul (if i =? 0 then c0 else RtoC (b i)) << v l, v (i - 1) >>))).
    { rewrite (sandwich_inner _ _ (vec n (app_mat n H (v i)))) by (intros; apply vec_nth; auto).
      apply inner_lin. intros h Hh'. rewrite vec_nth by auto. rewrite (i_rel _ _ _ _ _ I) by auto.
      destruct (i =? 0); ring. }
    rewrite E. rewrite !(inv_inner _ _ _ _ _ _ _ I) by lia. clear E.
    pose proof (i_b _ _ _ _ _ I (i + 1) ltac:(lia)) as B1.
    destruct (Nat.eqb_spec l i) as [->|Hli].
    { destruct (Nat.eqb_spec i (i + 1)); [lia|]. cbn [andb].
      assert (i = 0 \/ i =? i - 1 = false) as [->|E0] by (destruct (Nat.eqb_spec i (i - 1)); [left; lia|right; auto]).
      - cbn [Nat.eqb andb]. assert (0 <? k = true) as -> by (pose proof (i_k _ _ _ _ _ I); apply Nat.ltb_lt; lia). ring.
      - rewrite E0. cbn [andb]. destruct (Nat.ltb_spec i k) as [Hk|Hk]; [ring|].
        assert (a i = 0%R) as ->.
        { rewrite (i_a _ _ _ _ _ I) by auto. rewrite (sandwich_inner _ _ (vec n (app_mat n H (v i)))) by (intros; apply vec_nth; auto).
          rewrite inner_zero; [reflexivity|]. intros h Hh'. rewrite vec_nth by auto. apply app_mat_zero.
          apply (i_zero _ _ _ _ _ I). lia. }
        rewrite RtoC_0. ring. }
    cbn [andb]. destruct (Nat.eqb_spec l (i + 1)) as [->|Hl1].
    { destruct (Nat.eqb_spec (i + 1) (i - 1)); [lia|]. cbn [andb].
      destruct (Nat.ltb_spec (i + 1) k) as [Hk|Hk]; [ring|].
      assert (b (i + 1) = 0%R) as ->. { destruct (Req_dec (b (i + 1)) 0); auto. apply B1 in H0. lia. }
      rewrite RtoC_0. ring. }
    cbn [andb]. destruct (Nat.eqb_spec l (i - 1)) as [->|Hl2].
    { destruct (Nat.eqb_spec i 0) as [->|Hi0]; [lia|]. destruct (Nat.eqb_spec i (i - 1 + 1)); [|lia]. cbn [andb].
      pose proof (i_b _ _ _ _ _ I i ltac:(lia)) as B2.
      destruct (Nat.ltb_spec (i - 1) k) as [Hk|Hk]; [ring|].
      assert (b i = 0%R) as ->. { destruct (Req_dec (b i) 0); auto. apply B2 in H0. lia. }
      rewrite RtoC_0. ring. }
    cbn [andb]. destruct (Nat.eqb_spec i (l + 1)) as [->|Hl3]; [lia|]. rewrite RtoC_0. ring.
  Qed.

  Lemma inv_sand_all v a b j k i l : inv v a b j k -> a j = fst (sandwich n H (v j) (v j)) -> i <= j -> l <= j ->
    sandwich n H (v l) (v i) =
    RtoC (if l =? i then a i else if l =? i + 1 then b (i + 1) else if i =? l + 1 then b i else 0%R).
  Proof.
    intros I Ea Hi Hl. destruct (Nat.eq_dec i j) as [->|]; [|apply (inv_sand _ _ _ _ _ _ _ I); lia].
    destruct (Nat.eq_dec l j) as [->|].
    - rewrite Nat.eqb_refl, Ea. apply sandwich_real.
    - rewrite <- sandwich_conj. rewrite (inv_sand _ _ _ _ _ _ _ I) by lia. rewrite conj_RtoC. f_equal.
      destruct (Nat.eqb_spec j l); [lia|]. destruct (Nat.eqb_spec l j); [lia|].
      destruct (Nat.eqb_spec j (l + 1)) as [->|].
      + destruct (Nat.eqb_spec l (l + 1 + 1)); [lia|]. reflexivity.
      + destruct (Nat.eqb_spec l (j + 1)); [lia|]. reflexivity.
  Qed.

  (** The new direction is orthogonal to all the vectors so far. *)
  Lemma step_orth v a b j k W i : inv v a b j k -> k = j + 1 -> a j = fst (sandwich n H (v j) (v j)) ->
    (forall h, h < n -> nth h W c0 =
       csub (csub (app_mat n H (v j) h) (cmul (RtoC (a j)) (nth h (v j) c0)))
            (if j =? 0 then c0 else cmul (RtoC (b j)) (nth h (v (j - 1)) c0))) ->
    i <= j -> << v i, W >> = c0.
  Proof.
    intros I Ek Ea HW Hi.
    assert (E : << v i, W >> = cadd (cmul c1 (sandwich n H (v i) (v j)))
      (cadd (cmul (copp (RtoC (a j))) << v i, v j >>)
         (cmul (if j =? 0 then c0 else copp (RtoC (b j))) << v i, v (j - 1) >>))).
    { rewrite (sandwich_inner _ _ (vec n (app_mat n H (v j)))) by (intros; apply vec_nth; auto).
      apply inner_lin. intros h Hh'. rewrite HW, vec_nth by auto. destruct (j =? 0); ring. }
    rewrite E, (inv_sand_all _ _ _ _ _ _ _ I) by auto. rewrite !(inv_inner _ _ _ _ _ _ _ I) by lia.
    assert (i <? k = true) as -> by (apply Nat.ltb_lt; lia). rewrite !andb_true_r.
    destruct (Nat.eqb_spec i j) as [->|Hij].
    - destruct (Nat.eqb_spec j 0) as [->|]; [ring|]. destruct (Nat.eqb_spec j (j - 1)); [lia|]. ring.
    - destruct (Nat.eqb_spec i (j + 1)); [lia|]. destruct (Nat.eqb_spec j 0) as [->|]; [lia|].
      destruct (Nat.eqb_spec j (i + 1)) as [->|].
      + destruct (Nat.eqb_spec i (i + 1 - 1)); [ring|lia].
      + destruct (Nat.eqb_spec i (j - 1)); [lia|]. rewrite RtoC_0. ring.
  Qed.

  (** One step: the next vector and off-diagonal element. *)
  Definition nextv (W : vector) : vector :=
    let btmp := sqrt (sum_re n W W) in if Rlt_dec 0 btmp then scale n (1 / btmp) W else W.

  Lemma nextv_length W : length W = n -> length (nextv W) = n.
  Proof. unfold nextv. intros. destruct (Rlt_dec _ _); [apply vec_length|auto]. Qed.

  Lemma nextv_spec W : 
    (sqrt (sum_re n W W) = 0%R /\ nextv W = W /\ forall h, h < n -> nth h W c0 = c0) \/
    ((0 < sqrt (sum_re n W W))%R /\
     (forall h, h < n -> nth h (nextv W) c0 = cmul (RtoC (1 / sqrt (sum_re n W W))) (nth h W c0)) /\
     << nextv W, nextv W >> = c1).
  Proof.
    unfold nextv. pose proof (sum_re_nonneg W) as Hp. pose proof (sqrt_pos (sum_re n W W)) as Hs.
    destruct (Rlt_dec _ _) as [Hlt|Hlt].
    - right. split; [auto|].
      assert (HV : forall h, h < n -> nth h (scale n (1 / sqrt (sum_re n W W)) W) c0 = cmul (RtoC (1 / sqrt (sum_re n W W))) (nth h W c0)).
      { intros h Hh'. unfold scale. rewrite vec_nth by auto. unfold at_. apply cmul_comm. }
      split; [auto|]. rewrite (inner_scale _ _ _ _ HV), <- inner_conj, (inner_scale _ _ _ _ HV), inner_self.
      rewrite c_conj_mul, !conj_RtoC, <- !RtoC_mul, <- RtoC_1. f_equal.
      rewrite <- (sqrt_sqrt (sum_re n W W)) at 3 by auto. field. lra.
    - left. assert (sqrt (sum_re n W W) = 0%R) by lra. split; [auto|]. split; [auto|].
      apply sum_re_zero. apply sqrt_eq_0; auto.
  Qed.

  Lemma inv_step v a b j k W v' b' : inv v a b j k -> a j = fst (sandwich n H (v j) (v j)) ->
    (forall h, h < n -> nth h W c0 =
       csub (csub (app_mat n H (v j) h) (cmul (RtoC (a j)) (nth h (v j) c0)))
            (if j =? 0 then c0 else cmul (RtoC (b j)) (nth h (v (j - 1)) c0))) ->
    (forall i, i <= j -> v' i = v i) -> v' (j + 1) = nextv W ->
    (forall i, i <= j -> b' i = b i) -> b' (j + 1) = sqrt (sum_re n W W) ->
    inv v' a b' (j + 1) (if Rlt_dec 0 (sqrt (sum_re n W W)) then j + 2 else k).
  Proof.
    intros I Ea HW Hv Hv' Hb Hb'. pose proof (i_k _ _ _ _ _ I) as Ik.
    assert (Hrel : forall h, h < n -> app_mat n H (v j) h = cadd (cmul (RtoC (a j)) (nth h (v j) c0))
       (cadd (cmul (RtoC (b' (j + 1))) (nth h (v' (j + 1)) c0))
             (if j =? 0 then c0 else cmul (RtoC (b j)) (nth h (v (j - 1)) c0)))).
    { intros h Hh'. rewrite Hv', Hb'. destruct (nextv_spec W) as [(E & En & Ez)|(E & En & _)].
      - rewrite E, RtoC_0. pose proof (Ez h Hh') as Ez'. rewrite HW in Ez' by auto.
        match type of Ez' with csub (csub ?x ?y) ?z = c0 => transitivity (cadd (csub (csub x y) z) (cadd y z)) end; [ring|].
        rewrite Ez'. ring.
      - rewrite En by auto. rewrite (cmul_assoc Cring), <- RtoC_mul.
        replace (sqrt (sum_re n W W) * (1 / sqrt (sum_re n W W)))%R with 1%R by (field; lra).
        rewrite RtoC_1, cmul_1_l, HW by auto. ring. }
    assert (Hrels : forall i, i < j + 1 -> forall h, h < n ->
      app_mat n H (v' i) h =
      cadd (cmul (RtoC (a i)) (nth h (v' i) c0))
       (cadd (cmul (RtoC (b' (i + 1))) (nth h (v' (i + 1)) c0))
             (if i =? 0 then c0 else cmul (RtoC (b' i)) (nth h (v' (i - 1)) c0)))).
    { intros i Hi h Hh'. destruct (Nat.eq_dec i j) as [->|].
      - rewrite (Hv j), (Hv (j - 1)), (Hb j) by lia. apply Hrel. auto.
      - rewrite (Hv i), (Hv (i - 1)), (Hv (i + 1)), (Hb i), (Hb (i + 1)) by lia. apply (i_rel _ _ _ _ _ I); auto. lia. }
    assert (Hps : forall i, 1 <= i <= j + 1 -> (0 <= b' i)%R).
    { intros i Hi. destruct (Nat.eq_dec i (j + 1)) as [->|]; [rewrite Hb'; apply sqrt_pos|]. rewrite Hb by lia. apply (i_p _ _ _ _ _ I). lia. }
    assert (Has : forall i, i < j + 1 -> a i = fst (sandwich n H (v' i) (v' i))).
    { intros i Hi. rewrite Hv by lia. destruct (Nat.eq_dec i j) as [->|]; [auto|]. apply (i_a _ _ _ _ _ I). lia. }
    destruct (nextv_spec W) as [(E & En & Ez)|(E & En & E1)].
    - rewrite E. destruct (Rlt_dec 0 0); [lra|]. constructor; auto.
      + lia.
      + intros i l Hi Hl. rewrite !Hv by lia. apply (i_on _ _ _ _ _ I); auto.
      + intros i Hi h Hh'. destruct (Nat.eq_dec i (j + 1)) as [->|].
        * rewrite Hv', En. auto.
        * rewrite Hv by lia. apply (i_zero _ _ _ _ _ I); auto. lia.
      + intros i Hi. destruct (Nat.eq_dec i (j + 1)) as [->|].
        * rewrite Hb', E. split; [intros []; reflexivity|lia].
        * rewrite Hb by lia. apply (i_b _ _ _ _ _ I). lia.
    - destruct (Rlt_dec _ _) as [_|]; [|lra].
      assert (Ek : k = j + 1).
      { destruct (Nat.eq_dec k (j + 1)); auto. exfalso.
        assert (Z : forall h, h < n -> nth h W c0 = c0).
        { intros h Hh'. rewrite HW by auto. rewrite app_mat_zero by (apply (i_zero _ _ _ _ _ I); lia).
          rewrite (i_zero _ _ _ _ _ I j) by lia. destruct (Nat.eqb_spec j 0); [lia|].
          assert (b j = 0%R) as ->. { destruct (Req_dec (b j) 0) as [|Hn]; auto. apply (i_b _ _ _ _ _ I) in Hn; lia. }
          rewrite RtoC_0. ring. }
        rewrite (sum_re_of_zero _ Z), sqrt_0 in E. lra. }
      assert (Ho : forall i, i <= j -> << v i, nextv W >> = c0).
      { intros i Hi. rewrite (inner_scale _ _ _ _ En). rewrite (step_orth _ _ _ _ _ _ _ I Ek Ea HW Hi). ring. }
      constructor; auto.
      + lia.
      + intros i l Hi Hl. destruct (Nat.eq_dec i (j + 1)) as [->|Hij], (Nat.eq_dec l (j + 1)) as [->|Hlj].
        * rewrite Nat.eqb_refl, Hv'. auto.
        * destruct (Nat.eqb_spec (j + 1) l); [lia|]. rewrite Hv', Hv by lia. rewrite <- inner_conj, Ho by lia. apply cconj_0.
        * destruct (Nat.eqb_spec i (j + 1)); [lia|]. rewrite Hv', Hv by lia. apply Ho; lia.
        * rewrite !Hv by lia. apply (i_on _ _ _ _ _ I); lia.
      + intros i Hi. lia.
      + intros i Hi. destruct (Nat.eq_dec i (j + 1)) as [->|].
        * rewrite Hb'. split; [lia|lra].
        * rewrite Hb by lia. rewrite (i_b _ _ _ _ _ I) by lia. lia.
  Qed.

  Lemma inv_ext v a b j k v' a' b' : inv v a b j k ->
    (forall i, i <= j -> v' i = v i) -> (forall i, i < j -> a' i = a i) -> (forall i, i <= j -> b' i = b i) -> inv v' a' b' j k.
  Proof.
    intros I Hv Ha Hb. pose proof (i_k _ _ _ _ _ I). constructor; auto.
    - intros i l Hi Hl. rewrite !Hv by lia. apply (i_on _ _ _ _ _ I); auto.
    - intros i Hi h Hh'. rewrite Hv by lia. apply (i_zero _ _ _ _ _ I i); auto.
    - intros i Hi h Hh'. rewrite (Hv i), (Hv (i + 1)), (Hv (i - 1)), (Ha i), (Hb i), (Hb (i + 1)) by lia. apply (i_rel _ _ _ _ _ I); auto.
    - intros i Hi. rewrite Ha, Hv by lia. apply (i_a _ _ _ _ _ I); auto.
    - intros i Hi. rewrite Hb by lia. apply (i_b _ _ _ _ _ I); auto.
    - intros i Hi. rewrite Hb by lia. apply (i_p _ _ _ _ _ I); auto.
  Qed.
End Inner.

(** The loop. *)
Section Loop.
  Variable rows : nat.
  Variable H : nat -> nat -> Cring.
  Hypothesis Hh : hermitian rows H.
  Variable mvp : vector -> vector -> vector.
  Hypothesis Hm : multiplies rows H mvp.
  Variable stedc : nat -> list R -> list R -> option (list R).
  Variable tolerance : R.
  Variable minSteps excitedForStop : nat.
  Variable isReortho : bool.

  Definition col (data : list vector) (i : nat) : vector := nth i data [].
  Definition rl (a : list R) (i : nat) : R := nth i a 0%R.

  (** Gram-Schmidt does nothing to a vector that is orthogonal already. *)
  Lemma reortho_ok m data V2 iter : length V2 = rows -> iter < m -> iter < length data ->
    (forall i, i <= iter -> inner rows (col data i) V2 = c0) ->
    inner rows V2 V2 = c1 \/ (forall h, h < rows -> nth h V2 c0 = c0) ->
    exists o, reortho rows isReortho m data V2 iter = Ok o /\
      (forall V, o = Some V -> V = V2) /\ (isReortho = false \/ inner rows V2 V2 = c1 -> o = Some V2).
  Proof.
    intros Hl Him Hid Ho Hn. unfold reortho. destruct isReortho; cbn [negb].
    2: { eexists. split; [reflexivity|]. split; [intros V E; injection E; auto|auto]. }
    destruct (Nat.leb_spec m iter); [lia|].
    cbv zeta. match goal with |- context [forM ?n ?i ?f ?s] => assert (E : forM n i f s = Ok V2) end.
    { loopM (fun _ V => V = V2) as V E EV; [reflexivity| |rewrite EV in E; exact E].
      intros i V Hi ->. exists V2. split; [|reflexivity].
      rewrite (@vget_ok _ data i []) by lia. cbn [bind]. f_equal. apply vec_eq; [auto|].
      intros h Hh'. unfold at_. pose proof (Ho i ltac:(lia)) as Ho'. unfold inner, col in Ho'. rewrite Ho'. ring. }
    - rewrite E. cbn [bind]. clear E. destruct (Req_EM_T _ _) as [E0|E0].
      + eexists. split; [reflexivity|]. split; [discriminate|]. intros [|E1]; [discriminate|].
        rewrite inner_self, E0 in E1. exfalso. apply (RtoC_inj 0 1) in E1. lra.
      + destruct Hn as [Hn|Hn]; [|exfalso; apply E0; apply sum_re_of_zero; auto].
        assert (E1 : sum_re rows V2 V2 = 1%R) by (rewrite inner_self in Hn; apply RtoC_inj in Hn; auto).
        assert (scale rows (1 / sqrt (sum_re rows V2 V2)) V2 = V2) as ->.
        { unfold scale. apply vec_eq; [auto|]. intros h Hh'. rewrite E1, sqrt_1. unfold at_.
          replace (1 / 1)%R with 1%R by field. rewrite RtoC_1. ring. }
        eexists. split; [reflexivity|]. split; [intros V E; injection E; auto|auto].
  Qed.

  Definition cols_ok (data : list vector) : Prop := forall i, i < length data -> length (col data i) = rows.

  Lemma inner_nextv_one_or_zero W : inner rows (nextv rows W) (nextv rows W) = c1 \/ (forall h, h < rows -> nth h (nextv rows W) c0 = c0).
  Proof.
    destruct (nextv_spec rows W) as [(E & En & Ez)|(E & En & E1)]; [right; rewrite En; auto|left; auto].
  Qed.

  Lemma oneStep_ok m data a b j k : 1 <= j < m -> length data = m -> length a = m -> length b = m -> cols_ok data ->
    inv rows H (col data) (rl a) (rl b) j k ->
    exists W o a' b', oneStep rows mvp isReortho m data (col data (j - 1)) (col data j) a b j = Ok (o, a', b') /\
      a' = upd a j (fst (sandwich rows H (col data j) (col data j))) /\
      length W = rows /\
      (forall h, h < rows -> nth h W c0 = csub (csub (app_mat rows H (col data j) h) (cmul (RtoC (rl a' j)) (nth h (col data j) c0)))
            (if j =? 0 then c0 else cmul (RtoC (rl b j)) (nth h (col data (j - 1)) c0))) /\
      b' = (if j + 1 <? m then upd b (j + 1) (sqrt (sum_re rows W W)) else b) /\
      (forall V, o = Some V -> V = nextv rows W) /\
      (isReortho = false -> o = Some (nextv rows W)).
  Proof.
    intros Hj Hd Ha Hb Hc I. unfold oneStep.
    set (HV := mvp (vec rows (fun _ => c0)) (col data j)).
    destruct (Hm (vec rows (fun _ => c0)) (col data j)) as [HVl HVn]; [apply vec_length|apply Hc; lia|].
    fold HV in HVl, HVn.
    assert (HV' : forall h, h < rows -> nth h HV c0 = app_mat rows H (col data j) h).
    { intros h Hh'. rewrite HVn, vec_nth by auto. ring. }
    assert (Es : sum_re rows HV (col data j) = fst (sandwich rows H (col data j) (col data j))).
    { rewrite sum_re_inner, (sandwich_inner rows H _ _ HV HV'). reflexivity. }
    rewrite Es. cbv zeta. rewrite vset_ok by lia. cbn [bind]. rewrite (@vget_ok _ _ j 0%R) by (rewrite upd_length; lia). cbn [bind].
    rewrite (@vget_ok _ b j 0%R) by lia. cbn [bind]. rewrite nth_upd_eq by lia.
    match goal with |- context [vec rows ?f] => set (W := vec rows f) end.
    rewrite upd_length, Ha.
    set (a' := upd a j (fst (sandwich rows H (col data j) (col data j)))).
    assert (HW : forall h, h < rows -> nth h W c0 = csub (csub (app_mat rows H (col data j) h) (cmul (RtoC (rl a' j)) (nth h (col data j) c0)))
            (if j =? 0 then c0 else cmul (RtoC (rl b j)) (nth h (col data (j - 1)) c0))).
    { intros h Hh'. unfold W. rewrite vec_nth by auto. unfold at_. rewrite HV' by auto.
      unfold rl, a'. rewrite nth_upd_eq by lia. destruct (Nat.eqb_spec j 0); [lia|]. reflexivity. }
    assert (HWl : length W = rows) by apply vec_length.
    set (b' := if j + 1 <? m then upd b (j + 1) (sqrt (sum_re rows W W)) else b).
    assert (Eb : (if j + 1 <? m then vset b (j + 1) (sqrt (sum_re rows W W)) else Ok b) = Ok b').
    { unfold b'. destruct (Nat.ltb_spec (j + 1) m); [rewrite vset_ok by lia|]; reflexivity. }
    rewrite Eb. cbn [bind].
    change (if Rlt_dec 0 (sqrt (sum_re rows W W)) then scale rows (1 / sqrt (sum_re rows W W)) W else W) with (nextv rows W).
    assert (I' : inv rows H (col data) (rl a') (rl b) j k).
    { apply (inv_ext _ _ _ _ _ _ _ _ _ _ I); auto. intros i Hi. unfold rl, a'. apply nth_upd_neq. lia. }
    pose (v2 := fun i => if i =? j + 1 then nextv rows W else col data i).
    pose (b2 := fun i => if i =? j + 1 then sqrt (sum_re rows W W) else rl b i).
    assert (I2 : inv rows H v2 (rl a') b2 (j + 1) (if Rlt_dec 0 (sqrt (sum_re rows W W)) then j + 2 else k)).
    { apply (inv_step rows H Hh _ _ _ _ _ W v2 b2 I'); auto.
      - unfold rl, a'. rewrite nth_upd_eq by lia. reflexivity.
      - intros i Hi. unfold v2. destruct (Nat.eqb_spec i (j + 1)); [lia|auto].
      - unfold v2. rewrite Nat.eqb_refl. auto.
      - intros i Hi. unfold b2. destruct (Nat.eqb_spec i (j + 1)); [lia|auto].
      - unfold b2. rewrite Nat.eqb_refl. auto. }
    destruct (reortho_ok m data (nextv rows W) j) as (o & Eo & Ho1 & Ho2).
    - apply nextv_length. auto.
    - lia.
    - lia.
    - intros i Hi. pose proof (inv_inner _ _ _ _ _ _ _ i (j + 1) I2 ltac:(lia) ltac:(lia)) as E.
      unfold v2 in E. rewrite Nat.eqb_refl in E. destruct (Nat.eqb_spec i (j + 1)); [lia|]. exact E.
    - apply inner_nextv_one_or_zero.
    - rewrite Eo. cbn [bind]. exists W, o, a', b'. repeat split; auto.
  Qed.

  Lemma deltas_ok e o : length e = length o -> exists o' d, deltas excitedForStop e o = Ok (o', d) /\ length o' = length o /\
    (excitedForStop = 0 -> d = 0%R).
  Proof.
    intros Hl. unfold deltas.
    loopM (fun i (s : list R * R) => length (fst s) = length o /\ (i = 0 -> snd s = 0%R)) as [o' d] E [H1 H2].
    - split; auto.
    - intros i [o1 d1] Hi [H1 H2]. cbn [fst snd] in *.
      rewrite (@vget_ok _ e i 0%R) by lia. cbn [bind]. rewrite (@vget_ok _ o1 i 0%R) by lia. cbn [bind].
      rewrite vset_ok by lia. cbn [bind]. eexists. split; [reflexivity|]. cbn [fst snd]. rewrite upd_length.
      split; [auto|discriminate].
    - cbn [fst snd] in *. exists o', d. split; [exact E|]. split; [auto|]. intros ->. apply H2. reflexivity.
  Qed.

  Lemma loop_ok n : forall m j data a b eold ex k j' data' a' b', n + j = m -> 1 <= j < m ->
    length data = m -> length a = m -> length b = m -> length eold = m -> cols_ok data ->
    inv rows H (col data) (rl a) (rl b) j k ->
    lanczos_loop rows mvp stedc tolerance minSteps excitedForStop isReortho m n j data (col data (j - 1)) (col data j) a b eold ex
      = Ok (j', data', a', b') ->
    j <= j' < m /\ length data' = m /\ length a' = m /\ length b' = m /\ cols_ok data' /\
    col data' 0 = col data 0 /\ rl b' 0 = rl b 0 /\
    exists k', inv rows H (col data') (rl a') (rl b') j' k' /\
      rl a' j' = fst (sandwich rows H (col data' j') (col data' j')).
  Proof.
    induction n as [|n IH]; intros m j data a b eold ex k j' data' a' b' Hn Hj Hd Ha Hb He Hc I E; [lia|].
    cbn [lanczos_loop] in E.
    destruct (oneStep_ok m data a b j k Hj Hd Ha Hb Hc I) as (W & o & a1 & b1 & Eo & Ea1 & HWl & HW & Eb1 & Ho & _).
    rewrite Eo in E. cbn [bind] in E.
    assert (La : length a1 = m) by (rewrite Ea1, upd_length; auto).
    assert (Lb : length b1 = m) by (rewrite Eb1; destruct (j + 1 <? m); rewrite ?upd_length; auto).
    assert (I1 : inv rows H (col data) (rl a1) (rl b) j k).
    { apply (inv_ext _ _ _ _ _ _ _ _ _ _ I); auto. intros i Hi. unfold rl. rewrite Ea1. apply nth_upd_neq. lia. }
    assert (Haj : rl a1 j = fst (sandwich rows H (col data j) (col data j))).
    { unfold rl. rewrite Ea1. apply nth_upd_eq. lia. }
    assert (Hbi : forall i, i <= j -> rl b1 i = rl b i).
    { intros i Hi. unfold rl. rewrite Eb1. destruct (j + 1 <? m); [apply nth_upd_neq; lia|auto]. }
    assert (I1' : inv rows H (col data) (rl a1) (rl b1) j k) by (apply (inv_ext _ _ _ _ _ _ _ _ _ _ I1); auto).
    apply bind_ok in E. destruct E as (te & Et & E).
    assert (Lt : length te = m).
    { unfold tri_diag in Et. destruct (stedc _ _ _); [|discriminate]. injection Et as <-. rewrite map_length, seq_length. auto. }
    destruct (deltas_ok te eold) as (o' & d & Ed & Lo & _); [congruence|]. rewrite Ed in E. cbn [bind] in E.
    set (ex1 := if Rlt_dec d tolerance then true else ex) in *.
    set (ex2 := if j =? m - 1 then true else ex1) in *.
    assert (Hbreak : Ok (j, data, a1, b1) = Ok (j', data', a', b') -> j <= j' < m /\ length data' = m /\ length a' = m /\ length b' = m /\ cols_ok data' /\
      col data' 0 = col data 0 /\ rl b' 0 = rl b 0 /\
      exists k', inv rows H (col data') (rl a') (rl b') j' k' /\
        rl a' j' = fst (sandwich rows H (col data' j') (col data' j'))).
    { intros E'. injection E' as <- <- <- <-. repeat split; auto; try lia. apply Hbi; lia. exists k. auto. }
    destruct (ex2 && (rows <=? 4)); [auto|]. destruct (ex2 && (minSteps <=? j)); [auto|].
    destruct o as [V2|]; [|discriminate].
    specialize (Ho _ eq_refl). subst V2.
    unfold vset in E. destruct (Nat.ltb_spec (j + 1) (length data)) as [Hlt|]; [|discriminate]. cbn [bind] in E.
    rewrite Hd in Hlt. destruct (Nat.ltb_spec (j + 1) m); [|lia].
    set (data1 := upd data (j + 1) (nextv rows W)) in *.
    assert (C1 : forall i, i <= j -> col data1 i = col data i).
    { intros i Hi. unfold col, data1. apply nth_upd_neq. lia. }
    assert (C2 : col data1 (j + 1) = nextv rows W).
    { unfold col, data1. apply nth_upd_eq. lia. }
    assert (C3 : col data j = col data1 (j + 1 - 1)) by (rewrite C1 by lia; f_equal; lia).
    rewrite <- C2, C3 in E.
    apply (IH m (j + 1)) with (k := if Rlt_dec 0 (sqrt (sum_re rows W W)) then j + 2 else k) in E; auto; try lia.
    - destruct E as (Hj' & R2 & R3 & R4 & R5 & R6 & R7 & R8). repeat split; auto; try lia.
      + rewrite R6. apply C1. lia.
      + rewrite R7. apply Hbi. lia.
    - unfold data1. rewrite upd_length. auto.
    - intros i. unfold data1. rewrite upd_length. intros Hi. unfold col. rewrite nth_upd.
      destruct ((i =? j + 1) && (j + 1 <? length data)); [apply nextv_length; auto|apply Hc; auto].
    - apply (inv_step rows H Hh _ _ _ _ _ W _ _ I1); auto.
      unfold rl. rewrite Eb1. apply nth_upd_eq. lia.
  Qed.

  (** Without re-orthogonalisation the loop comes to an end. *)
  Lemma loop_total n : isReortho = false -> (forall i x y, stedc i x y <> None) ->
    forall m j data a b eold ex k, n + j = m -> 1 <= j < m -> (rows <= 4 \/ minSteps < m) ->
    length data = m -> length a = m -> length b = m -> length eold = m -> cols_ok data ->
    inv rows H (col data) (rl a) (rl b) j k ->
    exists r,
    lanczos_loop rows mvp stedc tolerance minSteps excitedForStop isReortho m n j data (col data (j - 1)) (col data j) a b eold ex
      = Ok r /\
      ((0 < tolerance)%R -> excitedForStop = 0 -> rows > 4 -> j <= Nat.max 1 minSteps -> fst (fst (fst r)) = Nat.max 1 minSteps).
  Proof.
    intros Hr Hs. induction n as [|n IH]; intros m j data a b eold ex k Hn Hj Hterm Hd Ha Hb He Hc I; [lia|].
    cbn [lanczos_loop].
    destruct (oneStep_ok m data a b j k Hj Hd Ha Hb Hc I) as (W & o & a1 & b1 & Eo & Ea1 & HWl & HW & Eb1 & _ & Ho).
    rewrite Eo. cbn [bind]. rewrite (Ho Hr). clear Ho Eo.
    assert (La : length a1 = m) by (rewrite Ea1, upd_length; auto).
    assert (Lb : length b1 = m) by (rewrite Eb1; destruct (j + 1 <? m); rewrite ?upd_length; auto).
    unfold tri_diag at 1. destruct (stedc (j + 1) a1 b1) as [ev|] eqn:Es; [|exfalso; eapply Hs; eauto]. cbn [bind].
    match goal with |- context [deltas _ ?e _] => destruct (deltas_ok e eold) as (o' & d & Ed & Lo & Hd0) end.
    { rewrite map_length, seq_length. congruence. }
    rewrite Ed. cbn [bind].
    set (ex1 := if Rlt_dec d tolerance then true else ex) in *.
    set (ex2 := if j =? m - 1 then true else ex1) in *.
    assert (Hex : j = m - 1 -> ex2 = true).
    { intros E'. unfold ex2. destruct (Nat.eqb_spec j (m - 1)); [auto|lia]. }
    assert (Hex0 : (0 < tolerance)%R -> excitedForStop = 0 -> ex2 = true).
    { intros Ht Hz. unfold ex2, ex1. rewrite (Hd0 Hz). destruct (Rlt_dec 0 tolerance); [|lra]. destruct (j =? m - 1); auto. }
    assert (Er4 : (rows <=? 4) = false -> rows > 4) by (intros E; apply Nat.leb_gt in E; lia).
    clearbody ex2. clear ex1.
    destruct (ex2 && (rows <=? 4)) eqn:B1.
    { apply andb_true_iff in B1. destruct B1 as [_ B1]. apply Nat.leb_le in B1. eexists. split; [reflexivity|]. intros; lia. }
    destruct (ex2 && (minSteps <=? j)) eqn:B2.
    { apply andb_true_iff in B2. destruct B2 as [_ B2]. apply Nat.leb_le in B2. eexists. split; [reflexivity|]. cbn [fst]. intros; lia. }
    assert (Hlt : j + 1 < m).
    { destruct (Nat.eq_dec j (m - 1)) as [E'|]; [|lia]. rewrite (Hex E') in B1, B2. cbn [andb] in B1, B2.
      apply Nat.leb_gt in B1, B2. lia. }
    rewrite vset_ok by lia. cbn [bind].
    destruct (Nat.ltb_spec (j + 1) m); [|lia].
    set (data1 := upd data (j + 1) (nextv rows W)) in *.
    assert (C1 : forall i, i <= j -> col data1 i = col data i).
    { intros i Hi. unfold col, data1. apply nth_upd_neq. lia. }
    assert (C2 : col data1 (j + 1) = nextv rows W).
    { unfold col, data1. apply nth_upd_eq. lia. }
    assert (C3 : col data j = col data1 (j + 1 - 1)) by (rewrite C1 by lia; f_equal; lia).
    rewrite <- C2, C3.
    destruct (IH m (j + 1) data1 a1 b1 o' ex2 (if Rlt_dec 0 (sqrt (sum_re rows W W)) then j + 2 else k)) as (r & Er & Hr'); auto; try lia.
    - unfold data1. rewrite upd_length. auto.
    - intros i. unfold data1. rewrite upd_length. intros Hi. unfold col. rewrite nth_upd.
      destruct ((i =? j + 1) && (j + 1 <? length data)); [apply nextv_length; auto|apply Hc; auto].
    - apply (inv_step rows H Hh (col data) (rl a1) (rl b) j k W); auto.
      + apply (inv_ext _ _ _ _ _ _ _ _ _ _ I); auto. intros i Hi. unfold rl. rewrite Ea1. apply nth_upd_neq. lia.
      + unfold rl. rewrite Ea1. apply nth_upd_eq. lia.
      + intros i Hi. unfold rl. rewrite Eb1. apply nth_upd_neq. lia.
      + unfold rl. rewrite Eb1. apply nth_upd_eq. lia.
    - exists r. split; [exact Er|]. intros Ht Hz H4 Hjm. apply Hr'; auto.
      rewrite (Hex0 Ht Hz) in B2. cbn [andb] in B2. apply Nat.leb_gt in B2. lia.
  Qed.
End Loop.

From Verif Require Import Tri_Proofs.
Section Decomposition.
  Variable rows : nat.
  Variable H : nat -> nat -> Cring.
  Hypothesis Hh : hermitian rows H.
  Variable mvp : vector -> vector -> vector.
  Hypothesis Hm : multiplies rows H mvp.
  Variable stedc : nat -> list R -> list R -> option (list R).
  Variable tolerance : R.
  Variable minSteps excitedForStop : nat.
  Variable isReortho : bool.

  Notation loop := (lanczos_loop rows mvp stedc tolerance minSteps excitedForStop isReortho).

  (** What is done with the result of the loop. *)
  Definition finish (m : nat) (r : nat * list vector * list R * list R) : res (list vector * tri Rring) :=
    let '(j, data, a, b) := r in
    if j <? m then
      do ab <- tri_resize Rring (@mktri Rring a b) (j + 1) ;;
      Ok (vresize data (j + 1) (vec rows (fun _ => c0)), ab)
    else Ok (vresize data m (vec rows (fun _ => c0)), @mktri Rring a b).

  Lemma decomp_start steps init : length init = rows -> sum_re rows init init <> 0%R ->
    let m := if rows <? steps then rows else steps in 2 <= m ->
    exists data a b k, length data = m /\ length a = m /\ length b = m /\ cols_ok rows data /\
      inv rows H (col data) (rl a) (rl b) 1 k /\ rl b 0 = 0%R /\
      col data 0 = scale rows (1 / sqrt (sum_re rows init init)) init /\
      decomposition rows mvp stedc tolerance minSteps excitedForStop isReortho steps init =
      bind (loop m (m - 1) 1 data (col data (1 - 1)) (col data 1) a b (repeat 0%R m) false) (finish m).
  Proof.
    intros Hl Hz m Hm2. unfold decomposition. fold m. rewrite Hl, Nat.eqb_refl. cbn [negb].
    destruct (Req_EM_T _ _) as [|_]; [contradiction|]. cbv iota.
    set (V0 := scale rows (1 / sqrt (sum_re rows init init)) init).
    rewrite resize_val_ok by lia. cbn [bind t_a t_b]. rewrite !vset_ok by (rewrite ?repeat_length; lia). cbn [bind].
    set (HV := mvp (vec rows (fun _ => c0)) V0).
    assert (LV0 : length V0 = rows) by apply vec_length.
    destruct (Hm (vec rows (fun _ => c0)) V0) as [HVl HVn]; [apply vec_length|auto|].
    fold HV in HVl, HVn.
    assert (HV' : forall h, h < rows -> nth h HV c0 = app_mat rows H V0 h).
    { intros h Hh'. rewrite HVn, vec_nth by auto. ring. }
    assert (Es : sum_re rows HV V0 = fst (sandwich rows H V0 V0)).
    { rewrite sum_re_inner, (sandwich_inner rows H _ _ HV HV'). reflexivity. }
    rewrite Es. set (atmp := fst (sandwich rows H V0 V0)).
    set (W := vec rows (fun i => csub (at_ HV i) (cmul (RtoC atmp) (at_ V0 i)))).
    rewrite vset_ok by (rewrite upd_length, repeat_length; lia). cbn [bind].
    destruct (Nat.ltb_spec 1 m); [|lia]. rewrite vset_ok by (rewrite upd_length, repeat_length; lia). cbn [bind].
    change (if Rlt_dec 0 (sqrt (sum_re rows W W)) then scale rows (1 / sqrt (sum_re rows W W)) W else W) with (nextv rows W).
    set (data := upd (upd (repeat (vec rows (fun _ => c0)) m) 0 V0) 1 (nextv rows W)).
    set (a := upd (repeat (0%R : Rring) m) 0 atmp).
    set (b := upd (upd (repeat (0%R : Rring) m) 0 (0%R : Rring)) 1 (sqrt (sum_re rows W W))).
    assert (Ld : length data = m) by (unfold data; rewrite !upd_length, repeat_length; auto).
    assert (C0 : col data 0 = V0).
    { unfold col, data. rewrite nth_upd_neq by lia. apply nth_upd_eq. rewrite repeat_length. lia. }
    assert (C1 : col data 1 = nextv rows W).
    { unfold col, data. apply nth_upd_eq. rewrite upd_length, repeat_length. lia. }
    assert (N1 : inner rows V0 V0 = c1).
    { destruct (nextv_spec rows init) as [(E & _)|(E & _ & E1)].
      - exfalso. apply Hz. apply sqrt_eq_0; [apply sum_re_nonneg|auto].
      - unfold nextv in E1. destruct (Rlt_dec _ _); [|lra]. exact E1. }
    assert (A0 : rl a 0 = atmp) by (apply nth_upd_eq; rewrite repeat_length; lia).
    assert (I0 : inv rows H (fun _ => V0) (rl a) (fun _ => 0%R) 0 1).
    { constructor; try (intros; lia). intros i l Hi Hl'. replace i with 0 by lia. replace l with 0 by lia. exact N1. }
    assert (B0 : rl b 0 = 0%R).
    { unfold rl, b. rewrite nth_upd_neq by lia. apply nth_upd_eq. rewrite repeat_length. lia. }
    exists data, a, b, (if Rlt_dec 0 (sqrt (sum_re rows W W)) then 2 else 1).
    split; [auto|]. split; [unfold a; rewrite upd_length, repeat_length; auto|].
    split; [unfold b; rewrite !upd_length, repeat_length; auto|]. split.
    { intros i Hi. rewrite Ld in Hi. unfold col, data. rewrite !nth_upd, !upd_length, !repeat_length.
      destruct ((i =? 1) && (1 <? m)); [apply nextv_length, vec_length|]. destruct ((i =? 0) && (0 <? m)); [auto|].
      rewrite nth_repeat_in by auto. apply vec_length. }
    split.
    { apply (inv_step rows H Hh _ _ _ _ _ W _ _ I0); auto.
      - intros h Hh'. unfold W. rewrite vec_nth by auto. unfold at_. rewrite HV', A0 by auto. cbn [Nat.eqb]. ring.
      - intros i Hi. replace i with 0 by lia. exact C0.
      - intros i Hi. replace i with 0 by lia. exact B0.
      - unfold rl, b. apply nth_upd_eq. rewrite upd_length, repeat_length. lia. }
    split; [auto|]. split; [auto|]. change (1 - 1) with 0. rewrite C0, C1. 
    match goal with |- bind ?x ?f = bind ?y ?g => change x with y; destruct y as [[[[? ?] ?] ?]| | |]; reflexivity end.
  Qed.

  Lemma decomp_short steps init : length init = rows -> sum_re rows init init <> 0%R ->
    (if rows <? steps then rows else steps) < 2 ->
    decomposition rows mvp stedc tolerance minSteps excitedForStop isReortho steps init = UB.
  Proof.
    intros Hl Hz Hm2. unfold decomposition. set (m := if rows <? steps then rows else steps) in *. rewrite Hl, Nat.eqb_refl. cbn [negb].
    destruct (Req_EM_T _ _) as [|_]; [contradiction|]. cbv iota.
    destruct (Nat.eq_dec m 0) as [->|].
    - reflexivity.
    - assert (Em : m = 1) by lia. rewrite resize_val_ok by lia. cbn [bind t_a t_b]. rewrite !vset_ok by (rewrite ?repeat_length; lia). cbn [bind].
      rewrite vset_ub by (rewrite upd_length, repeat_length; lia). reflexivity.
  Qed.

  Lemma decomp_ok steps init V ab :
    decomposition rows mvp stedc tolerance minSteps excitedForStop isReortho steps init = Ok (V, ab) ->
    length V <= rows /\ length V <= steps /\ 2 <= length V /\ length (t_a ab) = length V /\ length (t_b ab) = length V /\ cols_ok rows V /\
    exists k, lanczos_ok rows H init V (t_a ab) (t_b ab) k.
  Proof.
    intros E.
    assert (Hl : length init = rows).
    { unfold decomposition in E. destruct (Nat.eqb_spec (length init) rows); [auto|discriminate]. }
    assert (Hz : sum_re rows init init <> 0%R).
    { unfold decomposition in E. rewrite Hl, Nat.eqb_refl in E. cbn [negb] in E. destruct (Req_EM_T _ _); [discriminate|auto]. }
    set (m := if rows <? steps then rows else steps).
    assert (Hm2 : 2 <= m).
    { destruct (le_lt_dec 2 m); [auto|]. rewrite decomp_short in E; auto. discriminate. }
    assert (Hms : m <= rows /\ m <= steps) by (unfold m; destruct (Nat.ltb_spec rows steps); lia).
    destruct (decomp_start steps init Hl Hz Hm2) as (data & a & b & k0 & Ld & La & Lb & Hc & I & B0 & C0 & Ed).
    fold m in Ld, La, Lb, Ed. rewrite Ed in E. apply bind_ok in E. destruct E as ([[[j d'] a'] b'] & El & E).
    apply (loop_ok rows H Hh mvp Hm) with (k := k0) in El; auto; try lia; [|apply repeat_length].
    destruct El as (Hj & Ld' & La' & Lb' & Hc' & C0' & B0' & k & I' & Haj).
    unfold finish in E. destruct (Nat.ltb_spec j m); [|lia]. unfold tri_resize in E.
    destruct (Nat.ltb_spec 0 (j + 1)); [|lia]. cbn [bind] in E. injection E as <- <-. cbn [t_a t_b].
    rewrite !vresize_length.
    assert (NV : forall i, i <= j -> nth i (vresize d' (j + 1) (vec rows (fun _ => c0))) [] = col d' i).
    { intros i Hi. rewrite nth_vresize by lia. destruct (Nat.ltb_spec i (length d')); [reflexivity|lia]. }
    assert (NA : forall i, i <= j -> nth i (vresize (a' : list Rring) (j + 1) (c0 : Rring)) 0%R = rl a' i).
    { intros i Hi. rewrite nth_vresize by lia. match goal with |- (if ?c then _ else _) = _ => destruct c eqn:Q end; [reflexivity|].
      exfalso. apply Nat.ltb_ge in Q. change (car Rring) with R in Q. lia. }
    assert (NB : forall i, i <= j -> nth i (vresize (b' : list Rring) (j + 1) (c0 : Rring)) 0%R = rl b' i).
    { intros i Hi. rewrite nth_vresize by lia. match goal with |- (if ?c then _ else _) = _ => destruct c eqn:Q end; [reflexivity|].
      exfalso. apply Nat.ltb_ge in Q. change (car Rring) with R in Q. lia. }
    repeat (split; [lia|]). split.
    { intros i. rewrite vresize_length. intros Hi. unfold col. rewrite NV by lia. apply Hc'. lia. }
    exists k. pose proof (i_k _ _ _ _ _ _ _ I'). unfold lanczos_ok. rewrite vresize_length. split; [lia|]. split.
    { exists (sqrt (sum_re rows init init)).
      assert (Hp : (0 < sqrt (sum_re rows init init))%R).
      { apply sqrt_lt_R0. pose proof (sum_re_nonneg rows init). lra. }
      split; [auto|]. intros i Hi. rewrite NV by lia. rewrite C0', C0. unfold scale. rewrite vec_nth by auto. unfold at_.
      rewrite (cmul_comm Cring (nth i init c0)), (cmul_assoc Cring), <- RtoC_mul.
      match goal with |- _ = cmul (RtoC ?x) _ => replace x with 1%R by (field; lra) end. rewrite RtoC_1. ring. }
    split.
    { intros i l Hi Hl'. rewrite !NV by lia. apply (i_on _ _ _ _ _ _ _ I'); auto. }
    split.
    { intros i Hi. rewrite NV by lia. apply (i_zero _ _ _ _ _ _ _ I'). lia. }
    split.
    { intros i l Hi Hl'. rewrite !NV by lia. rewrite (inv_sand_all rows H Hh _ _ _ _ _ _ _ I' Haj) by lia. f_equal.
      unfold tri_elem. destruct (Nat.eqb_spec i l) as [->|]; [rewrite NA by lia; reflexivity|].
      destruct (Nat.eqb_spec l (i + 1)) as [->|].
      - destruct (Nat.eqb_spec i (i + 1 + 1)); [lia|]. rewrite NB by lia. reflexivity.
      - destruct (Nat.eqb_spec i (l + 1)) as [->|]; [rewrite NB by lia|]; reflexivity. }
    split.
    { intros i Hi h Hh'. rewrite !NV, NA, !NB by lia. apply (i_rel _ _ _ _ _ _ _ I'); auto. lia. }
    split; [rewrite NB by lia; congruence|].
    intros i Hi. rewrite NB by lia. split; [apply (i_p _ _ _ _ _ _ _ I')|apply (i_b _ _ _ _ _ _ _ I')]; lia.
  Qed.

  Lemma decomp_total steps init : length init = rows -> sum_re rows init init <> 0%R -> 
    isReortho = false -> (forall i x y, stedc i x y <> None) ->
    2 <= rows -> 2 <= steps -> (rows <= 4 \/ minSteps < rows /\ minSteps < steps) ->
    exists V ab, decomposition rows mvp stedc tolerance minSteps excitedForStop isReortho steps init = Ok (V, ab) /\
      ((0 < tolerance)%R -> excitedForStop = 0 -> rows > 4 -> length V = Nat.max 1 minSteps + 1).
  Proof.
    intros Hl Hz Hr Hs H2r H2s Hterm.
    set (m := if rows <? steps then rows else steps).
    assert (Hms : 2 <= m /\ (rows <= 4 \/ minSteps < m)) by (unfold m; destruct (Nat.ltb_spec rows steps); lia).
    destruct (decomp_start steps init Hl Hz ltac:(apply Hms)) as (data & a & b & k0 & Ld & La & Lb & Hc & I & B0 & C0 & Ed).
    fold m in Ld, La, Lb, Ed. 
    destruct (loop_total rows H Hh mvp Hm stedc tolerance minSteps excitedForStop isReortho (m - 1) Hr Hs m 1 data a b (repeat 0%R m) false k0) as (r & Er & Hsz);
      auto; try lia; [apply repeat_length|].
    rewrite Ed, Er. destruct r as [[[j d'] a'] b']. cbn [bind]. cbn [fst] in Hsz.
    apply (loop_ok rows H Hh mvp Hm) with (k := k0) in Er; auto; try lia; [|apply repeat_length].
    destruct Er as (Hj & _). unfold finish. destruct (Nat.ltb_spec j m); [|lia]. unfold tri_resize.
    destruct (Nat.ltb_spec 0 (j + 1)); [|lia]. cbn [bind]. eexists _, _. split; [reflexivity|].
    intros Ht He H4. rewrite vresize_length. rewrite Hsz; auto. lia.
  Qed.

  (** With minSteps too large, the loop writes behind the last column. *)
  Lemma loop_over n : rows > 4 -> (forall i x y, stedc i x y <> None) ->
    forall m j data a b eold ex k, n + j = m -> 1 <= j < m -> m <= minSteps ->
    length data = m -> length a = m -> length b = m -> length eold = m -> cols_ok rows data ->
    inv rows H (col data) (rl a) (rl b) j k ->
    loop m n j data (col data (j - 1)) (col data j) a b eold ex = UB.
  Proof.
    intros H4 Hs. induction n as [|n IH]; intros m j data a b eold ex k Hn Hj Hmin Hd Ha Hb He Hc I; [lia|].
    cbn [lanczos_loop].
    destruct (oneStep_ok rows H Hh mvp Hm stedc isReortho m data a b j k Hj Hd Ha Hb Hc I) as (W & o & a1 & b1 & Eo & Ea1 & HWl & HW & Eb1 & Ho & _).
    rewrite Eo. cbn [bind]. clear Eo.
    assert (La : length a1 = m) by (rewrite Ea1, upd_length; auto).
    assert (Lb : length b1 = m) by (rewrite Eb1; destruct (j + 1 <? m); rewrite ?upd_length; auto).
    unfold tri_diag at 1. destruct (stedc (j + 1) a1 b1) as [ev|] eqn:Es; [|exfalso; eapply Hs; eauto]. cbn [bind].
    match goal with |- context [deltas _ ?e _] => destruct (deltas_ok stedc excitedForStop e eold) as (o' & d & Ed & Lo & Hd0) end.
    { rewrite map_length, seq_length. congruence. }
    rewrite Ed. cbn [bind]. destruct (Nat.leb_spec rows 4); [lia|]. destruct (Nat.leb_spec minSteps j); [lia|].
    rewrite !andb_false_r. destruct o as [V2|]; [|reflexivity]. specialize (Ho _ eq_refl). subst V2.
    destruct (Nat.eq_dec (j + 1) m) as [Ejm|].
    { rewrite vset_ub by lia. reflexivity. }
    rewrite vset_ok by lia. cbn [bind].
    destruct (Nat.ltb_spec (j + 1) m); [|lia].
    set (data1 := upd data (j + 1) (nextv rows W)) in *.
    assert (C1 : forall i, i <= j -> col data1 i = col data i).
    { intros i Hi. unfold col, data1. apply nth_upd_neq. lia. }
    assert (C2 : col data1 (j + 1) = nextv rows W).
    { unfold col, data1. apply nth_upd_eq. lia. }
    assert (C3 : col data j = col data1 (j + 1 - 1)) by (rewrite C1 by lia; f_equal; lia).
    rewrite <- C2, C3.
    apply (IH m (j + 1) data1 a1 b1 o' _ (if Rlt_dec 0 (sqrt (sum_re rows W W)) then j + 2 else k)); auto; try lia.
    - unfold data1. rewrite upd_length. auto.
    - intros i. unfold data1. rewrite upd_length. intros Hi. unfold col. rewrite nth_upd.
      destruct ((i =? j + 1) && (j + 1 <? length data)); [apply nextv_length; auto|apply Hc; auto].
    - apply (inv_step rows H Hh (col data) (rl a1) (rl b) j k W); auto.
      + apply (inv_ext _ _ _ _ _ _ _ _ _ _ I); auto. intros i Hi. unfold rl. rewrite Ea1. apply nth_upd_neq. lia.
      + unfold rl. rewrite Ea1. apply nth_upd_eq. lia.
      + intros i Hi. unfold rl. rewrite Eb1. apply nth_upd_neq. lia.
      + unfold rl. rewrite Eb1. apply nth_upd_eq. lia.
  Qed.

  Lemma decomp_over steps init : length init = rows -> sum_re rows init init <> 0%R ->
    (forall i x y, stedc i x y <> None) -> rows > 4 -> 2 <= steps -> (rows <= minSteps \/ steps <= minSteps) ->
    decomposition rows mvp stedc tolerance minSteps excitedForStop isReortho steps init = UB.
  Proof.
    intros Hl Hz Hs H4 H2s Hmin.
    set (m := if rows <? steps then rows else steps).
    assert (Hms : 2 <= m /\ m <= minSteps) by (unfold m; destruct (Nat.ltb_spec rows steps); lia).
    destruct (decomp_start steps init Hl Hz ltac:(apply Hms)) as (data & a & b & k0 & Ld & La & Lb & Hc & I & B0 & C0 & Ed).
    fold m in Ld, La, Lb, Ed. rewrite Ed.
    rewrite (loop_over (m - 1) H4 Hs m 1 data a b (repeat 0%R m) false k0); auto; try lia. apply repeat_length.
  Qed.
End Decomposition.
