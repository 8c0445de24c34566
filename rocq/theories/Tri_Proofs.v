From Verif Require Import Prelude Ring Dense_Model Dense_Spec Dense_Proofs Tri_Model.

Definition normal {A} (r : res A) : Prop := r <> Throw /\ r <> OutOfFuel.
Lemma normal_bind {A B} (r : res A) (f : A -> res B) : normal r -> (forall a, normal (f a)) -> normal (bind r f).
Proof. intros [H1 H2] H. destruct r; cbn; [apply H|congruence|split; discriminate|congruence]. Qed.
Lemma normal_forM {A} (f : nat -> A -> res A) : (forall j s, normal (f j s)) -> forall k i s, normal (forM k i f s).
Proof. intros H. induction k as [|k IH]; intros i s; cbn [forM]; [split; discriminate|]. apply normal_bind; auto. Qed.
Lemma normal_vget {A} (v : list A) i : normal (vget v i).
Proof. unfold vget. destruct (nth_error v i); split; discriminate. Qed.
Lemma normal_mset (R : cring) (m : mat R) i j x : normal (mset R m i j x).
Proof. unfold mset, vset. destruct (_ && _); [|split; discriminate]. destruct (_ <? _); split; discriminate. Qed.

Section P.
  Variable R : cring.

  Definition band (a b : nat -> R) (i j : nat) : option R :=
    if i =? j then Some (a i) else if j =? i + 1 then Some (b j) else if i =? j + 1 then Some (cconj (b i)) else None.

  Lemma buildDense_gen (t : tri R) (m : mat R) n : 0 < n -> n <= length (t_a t) -> n <= length (t_b t) -> 
    exists m', buildDenseMatrix R t m n = Ok m' /\ is_mat m' n n (fun i j =>
      match band (fun k => nth k (t_a t) c0) (fun k => nth k (t_b t) c0) i j with
      | Some v => v
      | None => nth (i + j * n) (vresize (m_data m) (n * n) c0) c0
      end).
  Proof.
    intros Hn Ha Hb. unfold buildDenseMatrix. cbv zeta.
    replace (n =? 0) with false by (symmetry; apply Nat.eqb_neq; lia). replace (0 <? n) with true by (symmetry; apply Nat.ltb_lt; lia).
    set (m0 := mat_resize_val R m n n c0).
    set (A := fun k => nth k (t_a t) c0). set (B := fun k => nth k (t_b t) c0).
    assert (W0 : is_mat m0 n n (fun i j => nth (i + j * n) (vresize (m_data m) (n * n) c0) c0)).
    { unfold is_mat, mat_wf, melem, m0, mat_resize_val. cbn [m_nrow m_ncol m_data]. rewrite vresize_length. auto. }
    destruct (forR_inv (fun k mm => is_mat mm n n (fun i j => match (if (Nat.min i j <? k) && (Nat.max i j <=? k) && negb ((i =? k) && (j =? k)) then band A B i j else None) with
      | Some v => v | None => nth (i + j * n) (vresize (m_data m) (n * n) c0) c0 end)) (a := 0) (b := n - 1) (fun i m =>
      do a <- vget (t_a t) i ;; do m <- mset R m i i a ;;
      do b <- vget (t_b t) (i + 1) ;; do m <- mset R m i (i + 1) b ;;
      do b <- vget (t_b t) (i + 1) ;; mset R m (i + 1) i (cconj b)) m0) as (m1 & E & W1).
    - lia.
    - destruct W0 as (W1 & W2 & W3 & W4). split; [auto|]. split; [auto|]. split; [auto|]. intros i j Hi Hj. rewrite W4 by auto.
      destruct (Nat.ltb_spec (Nat.min i j) 0); [lia|]. reflexivity.
    - intros k mm Hk (W1 & W2 & W3 & W4).
      rewrite (@vget_ok _ (t_a t) k c0) by lia. cbn [bind].
      destruct (mset_ok R mm k k (nth k (t_a t) c0)) as (m2 & -> & V1 & V2 & V3 & V4); [auto|lia|lia|]. cbn [bind].
      rewrite (@vget_ok _ (t_b t) (k + 1) c0) by lia. cbn [bind].
      destruct (mset_ok R m2 k (k + 1) (nth (k + 1) (t_b t) c0)) as (m3 & -> & U1 & U2 & U3 & U4); [auto|lia|lia|]. cbn [bind].
      destruct (mset_ok R m3 (k + 1) k (cconj (nth (k + 1) (t_b t) c0))) as (m4 & -> & T1 & T2 & T3 & T4); [auto|lia|lia|].
      eexists. split; [reflexivity|]. split; [lia|]. split; [lia|]. split; [auto|]. intros i j Hi Hj.
      rewrite T4 by lia. rewrite U4 by lia. rewrite V4 by lia. rewrite W4 by lia. unfold band, A, B.
      repeat match goal with
      | |- context [Nat.eqb ?a ?b] => destruct (Nat.eqb_spec a b)
      | |- context [Nat.ltb ?a ?b] => destruct (Nat.ltb_spec a b)
      | |- context [Nat.leb ?a ?b] => destruct (Nat.leb_spec a b)
      end; cbn [andb negb]; try (exfalso; lia); try reflexivity; subst; try reflexivity.
    - rewrite E. cbn [bind]. rewrite (@vget_ok _ (t_a t) (n - 1) c0) by lia. cbn [bind]. destruct W1 as (W1 & W2 & W3 & W4).
      destruct (mset_ok R m1 (n - 1) (n - 1) (nth (n - 1) (t_a t) c0)) as (m2 & -> & V1 & V2 & V3 & V4); [auto|lia|lia|].
      eexists. split; [reflexivity|]. split; [lia|]. split; [lia|]. split; [auto|]. intros i j Hi Hj. rewrite V4 by lia. rewrite W4 by lia. unfold band, A, B.
      repeat match goal with
      | |- context [Nat.eqb ?a ?b] => destruct (Nat.eqb_spec a b)
      | |- context [Nat.ltb ?a ?b] => destruct (Nat.ltb_spec a b)
      | |- context [Nat.leb ?a ?b] => destruct (Nat.leb_spec a b)
      end; cbn [andb negb]; try (exfalso; lia); try reflexivity; subst; try reflexivity.
  Qed.

  Lemma build_zero (t : tri R) (m : mat R) : buildDenseMatrix R t m 0 = buildDenseMatrix R t m (length (t_a t)).
  Proof. unfold buildDenseMatrix. cbn. destruct (Nat.eqb_spec (length (t_a t)) 0) as [->|]; reflexivity. Qed.

  Lemma nth_vresize_nil n k : nth k (vresize (@nil R) n c0) c0 = c0.
  Proof. unfold vresize. rewrite firstn_nil. cbn. rewrite Nat.sub_0_r. apply nth_repeat_same. Qed.

  Lemma pushes (l : list (R * R)) : forall t, fold_left (fun t ab => tri_push R t (fst ab) (snd ab)) l t = mktri (t_a t ++ map fst l) (t_b t ++ map snd l).
  Proof.
    induction l as [|[a b] l IH]; intros [ta tb]; [cbn; rewrite !app_nil_r; reflexivity|]. cbn [fold_left]. rewrite IH. cbn. rewrite <- !app_assoc. reflexivity.
  Qed.

  Lemma resize_val_ok (t : tri R) n v : 0 < n -> tri_resize_val R t n v = Ok (mktri (repeat v n) (repeat v n)).
  Proof.
    intros Hn. unfold tri_resize_val, tri_resize. replace (0 <? n) with true by (symmetry; apply Nat.ltb_lt; lia). cbn [bind].
    destruct (forR_inv (fun i (t : tri R) => length (t_a t) = n /\ length (t_b t) = n /\ forall k, k < i -> nth k (t_a t) c0 = v /\ nth k (t_b t) c0 = v) (a := 0) (b := n)
      (fun i t => do b <- vset (t_b t) i v ;; do a <- vset (t_a t) i v ;; Ok (mktri a b)) (mktri (vresize (t_a t) n c0) (vresize (t_b t) n c0))) as (t' & E & L1 & L2 & H).
    - lia.
    - cbn. rewrite !vresize_length. split; [auto|]. split; [auto|]. intros; lia.
    - intros j [a b] Hj (L1 & L2 & H). cbn [t_a t_b] in *. rewrite !vset_ok by lia. cbn [bind]. eexists. split; [reflexivity|]. cbn [t_a t_b]. rewrite !upd_length.
      split; [auto|]. split; [auto|]. intros k Hk. destruct (Nat.eq_dec k j) as [->|]; [rewrite !nth_upd_eq by lia; auto|]. rewrite !nth_upd_neq by auto. apply H. lia.
    - rewrite E. destruct t' as [a b]. cbn [t_a t_b] in *. f_equal. f_equal; apply (list_eq_nth _ _ c0); rewrite ?repeat_length; auto; intros k Hk; rewrite nth_repeat_in by lia; apply H; lia.
  Qed.
End P.
