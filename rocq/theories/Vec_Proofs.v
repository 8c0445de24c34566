(** Proofs about the vector arithmetic model. *)
From Verif Require Import Prelude Ring Vec_Model Vec_Spec.
From Coq Require Import Ring.

Section Proofs.
  Variable R : cring.
  Local Open Scope cring_scope.
  Add Ring Rring : (c_ring R).
  Implicit Types (u v : list R).

  (** [each] applied to a body that, at step i, only depends on elements
      that have not been changed yet. *)
  Lemma each_spec (body : nat -> list R -> res R) v (f : nat -> R) :
    (forall i u, (i < length v)%nat -> length u = length v ->
       (forall k, (i <= k)%nat -> nth k u c0 = nth k v c0) -> body i u = Ok (f i)) ->
    exists u, each R body v = Ok u /\ is_vec u (length v) f.
  Proof.
    intros Hb. unfold each.
    loopM (fun i u => length u = length v /\
             (forall k, (k < i)%nat -> nth k u c0 = f k) /\
             (forall k, (i <= k)%nat -> nth k u c0 = nth k v c0)) as u E H.
    - split; [reflexivity|split; intros; [lia|reflexivity]].
    - intros j t Hj [Hl [H1 H2]]. rewrite Hb by (auto; lia). simpl.
      rewrite vset_ok by lia. eexists. split; [reflexivity|].
      rewrite upd_length. repeat split; [exact Hl| |].
      + intros k Hk. rewrite nth_upd. destruct (Nat.eqb_spec k j) as [->|N]; simpl.
        * destruct (Nat.ltb_spec j (length t)); [reflexivity|lia].
        * apply H1. lia.
      + intros k Hk. rewrite nth_upd_neq by lia. apply H2. lia.
    - exists u. split; [exact E|]. destruct H as [H1 [H2 H3]]. split; auto.
  Qed.

  Lemma vget_el u i : (i < length u)%nat -> vget u i = Ok (vel u i).
  Proof. intros H. apply vget_ok. exact H. Qed.

  Lemma deref_length s v n : length v = n -> length (deref s v) = n ->
    forall u, length u = n -> length (deref s u) = n.
  Proof. destruct s; simpl; auto. Qed.

  (** An operand of the right length reads, at steps before it is overwritten,
      what it denoted at the start. *)
  Lemma deref_read s v n i u :
    length v = n -> length (deref s v) = n -> length u = n ->
    (i < n)%nat -> (forall k, (i <= k)%nat -> nth k u c0 = nth k v c0) ->
    vget (deref s u) i = Ok (vel (deref s v) i).
  Proof.
    intros Hv Hs Hu Hi H. destruct s as [|w]; simpl in *.
    - rewrite (vget_ok u c0) by lia. unfold vel. rewrite H by lia. reflexivity.
    - apply vget_el. lia.
  Qed.

  (** Resizing to the length of an operand does not change the operands when all
      have that length. *)
  Lemma deref_resize s v n :
    length (deref s v) = n -> length (deref s (vresize v n c0)) = n /\
    deref s (vresize v n c0) = deref s v.
  Proof.
    destruct s as [|w]; simpl; intros H; [|auto].
    rewrite vresize_length. split; [reflexivity|].
    unfold vresize. subst n. rewrite firstn_all, Nat.sub_diag. apply app_nil_r.
  Qed.

  Lemma assign_scale_ok v t w :
    exists u, assign_scale R v t w = Ok u /\
      is_vec u (length (deref w v)) (fun k => t * vel (deref w v) k).
  Proof.
    unfold assign_scale. apply each_spec. intros i u Hi Hu H.
    rewrite (vget_ok u c0) by lia. simpl. f_equal. rewrite H by lia. unfold vel. ring.
  Qed.

  Lemma assign_scale2_ok v t1 t2 w :
    exists u, assign_scale2 R v t1 t2 w = Ok u /\
      is_vec u (length (deref w v)) (fun k => t1 * t2 * vel (deref w v) k).
  Proof.
    unfold assign_scale2. apply each_spec. intros i u Hi Hu H.
    rewrite (vget_ok u c0) by lia. simpl. f_equal. rewrite H by lia. unfold vel. ring.
  Qed.

  Lemma is_vec_ext u n f g : (forall k, (k < n)%nat -> f k = g k) -> is_vec u n f -> is_vec u n g.
  Proof. intros H [H1 H2]. split; auto. intros k Hk. rewrite H2, H; auto. Qed.

  Lemma assign2_ok (op : R -> R -> R) v n a b :
    length (deref a v) = n -> length (deref b v) = n ->
    exists u,
      each R (fun i u => do x <- vget (deref a u) i ;; do y <- vget (deref b u) i ;; Ok (op x y))
           (vresize v n c0) = Ok u /\
      is_vec u n (fun k => op (vel (deref a v) k) (vel (deref b v) k)).
  Proof.
    intros Ha Hb.
    destruct (deref_resize a v n Ha) as [Ha2 Ha3].
    destruct (deref_resize b v n Hb) as [Hb2 Hb3].
    destruct (each_spec (fun i u => do x <- vget (deref a u) i ;; do y <- vget (deref b u) i ;; Ok (op x y))
                (vresize v n c0) (fun k => op (vel (deref a v) k) (vel (deref b v) k))) as [u [E H]].
    - intros i u Hi Hu H. rewrite vresize_length in *.
      rewrite (deref_read a (vresize v n c0) n); auto using vresize_length. simpl.
      rewrite (deref_read b (vresize v n c0) n); auto using vresize_length. simpl.
      rewrite Ha3, Hb3. reflexivity.
    - exists u. rewrite vresize_length in H. auto.
  Qed.

  Lemma assign3_ok (op : R -> R -> R -> R) v n a b c :
    length (deref a v) = n -> length (deref b v) = n -> length (deref c v) = n ->
    exists u,
      each R (fun i u => do x <- vget (deref a u) i ;; do y <- vget (deref b u) i ;;
                         do z <- vget (deref c u) i ;; Ok (op x y z))
           (vresize v n c0) = Ok u /\
      is_vec u n (fun k => op (vel (deref a v) k) (vel (deref b v) k) (vel (deref c v) k)).
  Proof.
    intros Ha Hb Hc.
    destruct (deref_resize a v n Ha) as [Ha2 Ha3].
    destruct (deref_resize b v n Hb) as [Hb2 Hb3].
    destruct (deref_resize c v n Hc) as [Hc2 Hc3].
    destruct (each_spec (fun i u => do x <- vget (deref a u) i ;; do y <- vget (deref b u) i ;;
                         do z <- vget (deref c u) i ;; Ok (op x y z))
                (vresize v n c0)
                (fun k => op (vel (deref a v) k) (vel (deref b v) k) (vel (deref c v) k))) as [u [E H]].
    - intros i u Hi Hu H. rewrite vresize_length in *.
      rewrite (deref_read a (vresize v n c0) n); auto using vresize_length. simpl.
      rewrite (deref_read b (vresize v n c0) n); auto using vresize_length. simpl.
      rewrite (deref_read c (vresize v n c0) n); auto using vresize_length. simpl.
      rewrite Ha3, Hb3, Hc3. reflexivity.
    - exists u. rewrite vresize_length in H. auto.
  Qed.

  Lemma assign4_ok (op : R -> R -> R -> R -> R) v n a b c d :
    length (deref a v) = n -> length (deref b v) = n -> length (deref c v) = n ->
    length (deref d v) = n ->
    exists u,
      each R (fun i u => do x <- vget (deref a u) i ;; do y <- vget (deref b u) i ;;
                         do z <- vget (deref c u) i ;; do t <- vget (deref d u) i ;;
                         Ok (op x y z t))
           (vresize v n c0) = Ok u /\
      is_vec u n (fun k => op (vel (deref a v) k) (vel (deref b v) k) (vel (deref c v) k)
                              (vel (deref d v) k)).
  Proof.
    intros Ha Hb Hc Hd.
    destruct (deref_resize a v n Ha) as [Ha2 Ha3].
    destruct (deref_resize b v n Hb) as [Hb2 Hb3].
    destruct (deref_resize c v n Hc) as [Hc2 Hc3].
    destruct (deref_resize d v n Hd) as [Hd2 Hd3].
    destruct (each_spec (fun i u => do x <- vget (deref a u) i ;; do y <- vget (deref b u) i ;;
                         do z <- vget (deref c u) i ;; do t <- vget (deref d u) i ;;
                         Ok (op x y z t))
                (vresize v n c0)
                (fun k => op (vel (deref a v) k) (vel (deref b v) k) (vel (deref c v) k)
                             (vel (deref d v) k))) as [u [E H]].
    - intros i u Hi Hu H. rewrite vresize_length in *.
      rewrite (deref_read a (vresize v n c0) n); auto using vresize_length. simpl.
      rewrite (deref_read b (vresize v n c0) n); auto using vresize_length. simpl.
      rewrite (deref_read c (vresize v n c0) n); auto using vresize_length. simpl.
      rewrite (deref_read d (vresize v n c0) n); auto using vresize_length. simpl.
      rewrite Ha3, Hb3, Hc3, Hd3. reflexivity.
    - exists u. rewrite vresize_length in H. auto.
  Qed.

  Lemma assign_plus_ok v n a b :
    length (deref a v) = n -> length (deref b v) = n ->
    exists u, assign_plus R v a b = Ok u /\
      is_vec u n (fun k => vel (deref a v) k + vel (deref b v) k).
  Proof. intros Ha Hb. unfold assign_plus. rewrite Ha. apply (assign2_ok cadd); assumption. Qed.

  Lemma assign_minus_ok v n a b :
    length (deref a v) = n -> length (deref b v) = n ->
    exists u, assign_minus R v a b = Ok u /\
      is_vec u n (fun k => vel (deref a v) k - vel (deref b v) k).
  Proof. intros Ha Hb. unfold assign_minus. rewrite Ha. apply (assign2_ok csub); assumption. Qed.

  Lemma assign_axpy_ok v n a t b :
    length (deref a v) = n -> length (deref b v) = n ->
    exists u, assign_axpy R v a t b = Ok u /\
      is_vec u n (fun k => vel (deref a v) k + t * vel (deref b v) k).
  Proof.
    intros Ha Hb. unfold assign_axpy. rewrite Ha. apply (assign2_ok (fun x y => x + t * y)); assumption.
  Qed.

  Lemma assign_axpy'_ok v n t a b :
    length (deref a v) = n -> length (deref b v) = n ->
    exists u, assign_axpy' R v t a b = Ok u /\
      is_vec u n (fun k => t * vel (deref a v) k + vel (deref b v) k).
  Proof.
    intros Ha Hb. unfold assign_axpy'. rewrite Hb. apply (assign2_ok (fun x y => t * x + y)); assumption.
  Qed.

  Lemma assign_scale_plus_ok v n t a b :
    length (deref a v) = n -> length (deref b v) = n ->
    exists u, assign_scale_plus R v t a b = Ok u /\
      is_vec u n (fun k => t * (vel (deref a v) k + vel (deref b v) k)).
  Proof.
    intros Ha Hb. unfold assign_scale_plus. rewrite Hb.
    apply (assign2_ok (fun x y => t * (x + y))); assumption.
  Qed.

  Lemma assign_scale_minus_ok v n t a b :
    length (deref a v) = n -> length (deref b v) = n ->
    exists u, assign_scale_minus R v t a b = Ok u /\
      is_vec u n (fun k => t * (vel (deref a v) k - vel (deref b v) k)).
  Proof.
    intros Ha Hb. unfold assign_scale_minus. rewrite Hb.
    apply (assign2_ok (fun x y => t * (x - y))); assumption.
  Qed.

  Lemma assign_maxpy_ok v n a t b :
    length (deref a v) = n -> length (deref b v) = n ->
    exists u, assign_maxpy R v a t b = Ok u /\
      is_vec u n (fun k => vel (deref a v) k - t * vel (deref b v) k).
  Proof.
    intros Ha Hb. unfold assign_maxpy. rewrite Ha. apply (assign2_ok (fun x y => x - t * y)); assumption.
  Qed.

  Lemma assign_comb3_ok v n k1 m2 k2 m3 k3 :
    length (deref k1 v) = n -> length (deref k2 v) = n -> length (deref k3 v) = n ->
    exists u, assign_comb3 R v k1 m2 k2 m3 k3 = Ok u /\
      is_vec u n (fun k => vel (deref k1 v) k - m2 * vel (deref k2 v) k + m3 * vel (deref k3 v) k).
  Proof.
    intros H1 H2 H3. unfold assign_comb3. rewrite H1.
    apply (assign3_ok (fun x y z => x - m2 * y + m3 * z)); assumption.
  Qed.

  Lemma assign_comb4_ok v n m4 k4 m3 k3 m2 k2 m1 k1 :
    length (deref k1 v) = n -> length (deref k2 v) = n -> length (deref k3 v) = n ->
    length (deref k4 v) = n ->
    exists u, assign_comb4 R v m4 k4 m3 k3 m2 k2 m1 k1 = Ok u /\
      is_vec u n (fun k => m4 * vel (deref k4 v) k + m3 * vel (deref k3 v) k +
                           m2 * vel (deref k2 v) k + m1 * vel (deref k1 v) k).
  Proof.
    intros H1 H2 H3 H4. unfold assign_comb4. rewrite H1.
    destruct (assign4_ok (fun x1 x2 x3 x4 => m1 * x1 + m2 * x2 + m3 * x3 + m4 * x4)
                v n k1 k2 k3 k4 H1 H2 H3 H4) as [u [E H]].
    exists u. split; [exact E|]. eapply is_vec_ext; [|exact H]. intros k _. cbn beta. ring.
  Qed.

  Lemma times_eq_ok v t :
    exists u, times_eq R v t = Ok u /\ is_vec u (length v) (fun k => t * vel v k).
  Proof.
    unfold times_eq. apply each_spec. intros i u Hi Hu H.
    rewrite (vget_ok u c0) by lia. simpl. f_equal. rewrite H by lia. unfold vel. ring.
  Qed.

  Lemma plus_eq_scaled_ok v t w :
    length (deref w v) = length v ->
    exists u, plus_eq_scaled R v t w = Ok u /\
      is_vec u (length v) (fun k => vel v k + t * vel (deref w v) k).
  Proof.
    intros Hw. unfold plus_eq_scaled. apply each_spec. intros i u Hi Hu H.
    rewrite (vget_ok u c0) by lia. simpl.
    rewrite (deref_read w v (length v)) by auto. simpl. rewrite H by lia. reflexivity.
  Qed.

  Lemma minus_eq_scaled_ok v t w :
    length (deref w v) = length v ->
    exists u, minus_eq_scaled R v t w = Ok u /\
      is_vec u (length v) (fun k => vel v k - t * vel (deref w v) k).
  Proof.
    intros Hw. unfold minus_eq_scaled. apply each_spec. intros i u Hi Hu H.
    rewrite (vget_ok u c0) by lia. simpl.
    rewrite (deref_read w v (length v)) by auto. simpl. rewrite H by lia. reflexivity.
  Qed.

  (** += and -= run over the size of the right operand. *)
  Lemma op_eq_ok (op : R -> R -> R) v w :
    (length (deref w v) <= length v)%nat ->
    exists u,
      forM (length (deref w v)) 0
        (fun i u => do x <- vget u i ;; do y <- vget (deref w u) i ;; vset u i (op x y)) v = Ok u /\
      is_vec u (length v) (fun k => if (k <? length (deref w v))%nat
                                    then op (vel v k) (vel (deref w v) k) else vel v k).
  Proof.
    intros Hw.
    loopM (fun i u => length u = length v /\
             (forall k, (k < i)%nat -> nth k u c0 = op (vel v k) (vel (deref w v) k)) /\
             (forall k, (i <= k)%nat -> nth k u c0 = nth k v c0)) as u E H.
    - split; [reflexivity|split; intros; [lia|reflexivity]].
    - intros j t Hj [Hl [H1 H2]]. rewrite (vget_ok t c0) by lia. simpl.
      assert (Ew : vget (deref w t) j = Ok (vel (deref w v) j)).
      { destruct w as [|w]; simpl in *.
        - rewrite (vget_ok t c0) by lia. unfold vel. rewrite H2 by lia. reflexivity.
        - apply vget_el. lia. }
      rewrite Ew. simpl. rewrite vset_ok by lia. eexists. split; [reflexivity|].
      rewrite upd_length. repeat split; [exact Hl| |].
      + intros k Hk. rewrite nth_upd. destruct (Nat.eqb_spec k j) as [->|N]; simpl.
        * destruct (Nat.ltb_spec j (length t)); [|lia]. rewrite H2 by lia. reflexivity.
        * apply H1. lia.
      + intros k Hk. rewrite nth_upd_neq by lia. apply H2. lia.
    - exists u. split; [exact E|]. destruct H as [H1 [H2 H3]]. split; auto.
      intros k Hk. simpl in *. destruct (Nat.ltb_spec k (length (deref w v))).
      + apply H2. lia.
      + apply H3. lia.
  Qed.

  Lemma plus_eq_ok v w :
    (length (deref w v) <= length v)%nat ->
    exists u, plus_eq R v w = Ok u /\
      is_vec u (length v) (fun k => if (k <? length (deref w v))%nat
                                    then vel v k + vel (deref w v) k else vel v k).
  Proof. apply (op_eq_ok cadd). Qed.

  Lemma minus_eq_ok v w :
    (length (deref w v) <= length v)%nat ->
    exists u, minus_eq R v w = Ok u /\
      is_vec u (length v) (fun k => if (k <? length (deref w v))%nat
                                    then vel v k - vel (deref w v) k else vel v k).
  Proof. apply (op_eq_ok csub). Qed.

  Lemma plus_eq_longer v (w : list R) :
    (length v < length w)%nat -> plus_eq R v (Other w) = UB.
  Proof.
    intros H. unfold plus_eq. simpl.
    replace (length w) with (length v + (length w - length v))%nat by lia.
    rewrite forM_app.
    assert (Hs : exists u, forM (length v) 0
             (fun i u => do x <- vget u i ;; do y <- vget w i ;; vset u i (x + y)) v = Ok u /\
             length u = length v).
    { loopM (fun _ u => length u = length v) as u E L.
      - reflexivity.
      - intros j t Hj Ht. rewrite (vget_ok t c0) by lia. simpl.
        rewrite (vget_ok w c0) by lia. simpl. rewrite vset_ok by lia.
        eexists. split; [reflexivity|]. rewrite upd_length. exact Ht.
      - eauto. }
    destruct Hs as [u [-> Hu]]. simpl.
    destruct (length w - length v)%nat eqn:E; [lia|]. simpl.
    rewrite vget_ub by lia. reflexivity.
  Qed.

  (** Sums accumulated by a loop. *)
  Lemma forM_sum n (f : nat -> R -> res R) (g : nat -> R) (a : R) :
    (forall i acc, (i < n)%nat -> f i acc = Ok (acc + g i)) ->
    forM n 0 f a = Ok (a + sumn n g).
  Proof.
    intros H.
    destruct (forM_inv (fun i acc => acc = a + sumn i g) n f a (i := 0%nat)) as [s [E Hs]].
    - unfold sumn. simpl. ring.
    - intros j t Hj ->. rewrite H by lia. eexists. split; [reflexivity|].
      rewrite sumn_S. ring.
    - rewrite E, Hs. reflexivity.
  Qed.

  Lemma scalarProduct_ok v w :
    scalarProduct R v w = if (length v =? length w)%nat then Ok (inner v w) else Throw.
  Proof.
    unfold scalarProduct. destruct (Nat.eqb_spec (length v) (length w)) as [L|L]; simpl; [|reflexivity].
    rewrite (forM_sum _ _ (fun k => cconj (vel v k) * vel w k)).
    - unfold inner. rewrite cadd_0_l. reflexivity.
    - intros i acc Hi. rewrite !vget_el by lia. reflexivity.
  Qed.

  Lemma vec_mul_ok v w :
    vec_mul R v w = if (length v =? length w)%nat then Ok (inner w v) else Throw.
  Proof.
    unfold vec_mul. destruct (Nat.eqb_spec (length v) (length w)) as [L|L]; simpl; [|reflexivity].
    rewrite (forM_sum _ _ (fun k => cconj (vel w k) * vel v k)).
    - unfold inner. rewrite cadd_0_l, L. reflexivity.
    - intros i acc Hi. rewrite !vget_el by lia. simpl. f_equal. f_equal. ring.
  Qed.

  Lemma inner_conj v w : length v = length w -> inner w v = cconj (inner v w).
  Proof.
    intros L. unfold inner. rewrite sumn_conj, L. apply sumn_ext. intros k Hk.
    rewrite c_conj_mul, c_conj_inv. ring.
  Qed.

  Lemma sumn_nth v : sumn (length v) (fun k => nth k v c0) = suml (fun x => x) v.
  Proof.
    unfold sumn. induction v as [|a v IH]; [reflexivity|].
    simpl length. rewrite <- cons_seq. simpl. f_equal. rewrite <- IH.
    rewrite <- seq_shift, suml_map. reflexivity.
  Qed.

  Lemma vec_sum_ok v : vec_sum R v = Ok (suml (fun x => x) v).
  Proof.
    unfold vec_sum. rewrite (forM_sum _ _ (fun k => vel v k)).
    - rewrite cadd_0_l. unfold vel. rewrite sumn_nth. reflexivity.
    - intros i acc Hi. rewrite vget_el by lia. reflexivity.
  Qed.

  Lemma index_ok v x :
    match indexOrMinusOne R v x with
    | Some i => (i < length v)%nat /\ nth i v c0 = x /\
                forall k, (k < i)%nat -> nth k v c0 <> x
    | None => ~ In x v
    end.
  Proof.
    induction v as [|a v IH]; simpl; [intros []|].
    destruct (ceqb_spec R a x) as [->|N].
    - repeat split; [lia|]. intros k Hk. lia.
    - destruct (indexOrMinusOne R v x) as [i|]; simpl.
      + destruct IH as [H1 [H2 H3]]. repeat split; [lia|exact H2|].
        intros [|k] Hk; [exact N|]. apply H3. lia.
      + intros [H|H]; [exact (N H)|exact (IH H)].
  Qed.

  (** The product vector<vector> * vector cannot return. *)
  Lemma vecvec_inner_never fuel (v1 : list (list R)) v2 i j acc :
    (i < length v2)%nat ->
    (exists r, vecvec_inner R fuel v1 v2 i j acc = Ok r) -> False.
  Proof.
    intros Hi. revert j acc. induction fuel as [|fuel IH]; intros j acc [r H]; simpl in H.
    - discriminate.
    - destruct (Nat.ltb_spec i (length v2)); [|lia].
      destruct (vget v1 i) as [row| | |]; simpl in H; try discriminate.
      destruct (vget row j) as [a| | |]; simpl in H; try discriminate.
      destruct (vget v2 j) as [b| | |]; simpl in H; try discriminate.
      eapply IH. eauto.
  Qed.

  Lemma vecvec_never fuel (v1 : list (list R)) v2 : v2 <> [] -> forall r, vecvec_mul R fuel v1 v2 <> Ok r.
  Proof.
    intros Hne r H. unfold vecvec_mul in H. destruct v2 as [|b v2]; [contradiction|].
    cbn [length forM] in H.
    destruct (vecvec_inner R fuel v1 (b :: v2) 0 0 c0) as [x| | |] eqn:E; simpl in H; try discriminate.
    eapply vecvec_inner_never; [|eauto]. simpl. lia.
  Qed.
End Proofs.
