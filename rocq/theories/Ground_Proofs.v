From Coq Require Import Reals Lra Permutation.
From Verif Require Import Prelude Rsum Ring Cplx Tri_Model Ground_Model Ground_Spec.
Local Open Scope R_scope.

(** Rotations of the coordinates i and i+1. *)
Section Rot.
  Variables (i : nat) (c s : R).
  Hypothesis cs : c * c + s * s = 1.
  (** (u_i, u_(i+1)) becomes (c u_i - s u_(i+1), s u_i + c u_(i+1)) *)
  Definition rot (u : nat -> R) (j : nat) : R :=
    if (j =? i)%nat then c * u i - s * u (S i) else if (j =? S i)%nat then s * u i + c * u (S i) else u j.
  Definition rotm (A : nat -> nat -> R) (j k : nat) : R := rot (fun j => rot (A j) k) j.
  Definition rotv (q : nat -> nat -> R) (k x : nat) : R := rot (fun k => q k x) k.

  Lemma rot_ext u v j : (forall k, u k = v k) -> rot u j = rot v j.
  Proof. intros E. unfold rot. rewrite !E. reflexivity. Qed.
  Lemma rot_sum n (u v : nat -> R) : (S i < n)%nat -> rsum n (fun j => rot u j * rot v j) = rsum n (fun j => u j * v j).
  Proof.
    intros H.
    transitivity (rsum n (fun j => u j * v j + ((if (j =? i)%nat then (c * u i - s * u (S i)) * (c * v i - s * v (S i)) - u i * v i else 0) +
      (if (j =? S i)%nat then (s * u i + c * u (S i)) * (s * v i + c * v (S i)) - u (S i) * v (S i) else 0)))).
    { apply rsum_ext. intros j Hj. unfold rot. repeat match goal with |- context [(?a =? ?b)%nat] => destruct (Nat.eqb_spec a b) end; subst; try lia; ring. }
    rewrite !rsum_add, (rsum_delta n i), (rsum_delta n (S i)) by lia.
    assert (E : (c * u i - s * u (S i)) * (c * v i - s * v (S i)) - u i * v i + ((s * u i + c * u (S i)) * (s * v i + c * v (S i)) - u (S i) * v (S i)) =
      (c * c + s * s - 1) * (u i * v i + u (S i) * v (S i))) by ring.
    rewrite E, cs. ring.
  Qed.
  Lemma rot_lin n (B : nat -> nat -> R) (w : nat -> R) k : rot (fun k => rsum n (fun y => w y * B k y)) k = rsum n (fun y => w y * rot (fun k => B k y) k).
  Proof.
    clear cs. unfold rot. destruct (k =? i)%nat; [|destruct (k =? S i)%nat; [|reflexivity]].
    - rewrite <- !rsum_scal, <- rsum_sub. apply rsum_ext. intros; ring.
    - rewrite <- !rsum_scal, <- rsum_add. apply rsum_ext. intros; ring.
  Qed.
End Rot.

Section Sim.
  Variable n : nat.
  Definition ortho (q : nat -> nat -> R) : Prop := forall j k, (j < n)%nat -> (k < n)%nat -> dot n (q j) (q k) = if (j =? k)%nat then 1 else 0.
  Definition rel (M q A : nat -> nat -> R) : Prop := forall k x, (k < n)%nat -> (x < n)%nat -> mv n M (q k) x = rsum n (fun j => A j k * q j x).

  Lemma rel_ext M q A A' : (forall j k, (j < n)%nat -> (k < n)%nat -> A j k = A' j k) -> rel M q A -> rel M q A'.
  Proof. intros E R k x Hk Hx. rewrite R by auto. apply rsum_ext. intros j Hj. rewrite E by auto. reflexivity. Qed.

  Lemma rot_ortho i c s q : c * c + s * s = 1 -> (S i < n)%nat -> ortho q -> ortho (rotv i c s q).
  Proof.
    intros cs H O j k Hj Hk. unfold dot.
    assert (D : forall a b, (a < n)%nat -> (b < n)%nat -> rsum n (fun x => q a x * q b x) = if (a =? b)%nat then 1 else 0) by (intros; apply O; auto).
    transitivity (rot i c s (fun j => rot i c s (fun k => rsum n (fun x => q j x * q k x)) k) j).
    - rewrite (rot_ext i c s (fun j => rot i c s (fun k => rsum n (fun x => q j x * q k x)) k) (fun j => rsum n (fun x => rotv i c s q k x * q j x))).
      + rewrite rot_lin. apply rsum_ext. intros x Hx. unfold rotv. ring.
      + intros a. rewrite rot_lin. apply rsum_ext. intros x Hx. unfold rotv. ring.
    - unfold rot. repeat match goal with |- context [(?a =? ?b)%nat] => destruct (Nat.eqb_spec a b) end; subst; try lia; rewrite ?D by lia;
        repeat match goal with |- context [(?a =? ?b)%nat] => destruct (Nat.eqb_spec a b) end; try lia; try lra.
  Qed.
  Lemma rot_rel i c s M q A : c * c + s * s = 1 -> (S i < n)%nat -> rel M q A -> rel M (rotv i c s q) (rotm i c s A).
  Proof.
    intros cs H R k x Hk Hx. unfold mv.
    transitivity (rot i c s (fun k => mv n M (q k) x) k).
    { unfold mv. rewrite (rot_lin i c s n q (M x) k). reflexivity. }
    transitivity (rot i c s (fun k => rsum n (fun j => q j x * A j k)) k).
    { assert (E : forall k, (k < n)%nat -> mv n M (q k) x = rsum n (fun j => q j x * A j k)).
      { intros a Ha. rewrite R by auto. apply rsum_ext. intros; ring. }
      unfold rot. rewrite !E by lia. reflexivity. }
    rewrite (rot_lin i c s n (fun k j => A j k) (fun j => q j x) k).
    symmetry. rewrite (rsum_ext n _ (fun j => rot i c s (fun j => q j x) j * rot i c s (fun j => rot i c s (A j) k) j)).
    - rewrite rot_sum by auto. apply rsum_ext. intros j Hj. reflexivity.
    - intros j Hj. unfold rotm, rotv. ring.
  Qed.

  (** A coupling that is dropped changes the matrix. *)
  Definition dropped (M q : nat -> nat -> R) (e : R) (m : nat) (x y : nat) : R := M x y - e * (q m x * q (S m) y + q (S m) x * q m y).
  Lemma mv_dropped M q e m v x : mv n (dropped M q e m) v x = mv n M v x - e * (q m x * dot n (q (S m)) v + q (S m) x * dot n (q m) v).
  Proof.
    unfold mv, dropped, dot. rewrite <- !rsum_scal, <- rsum_add, <- rsum_scal, <- rsum_sub. apply rsum_ext. intros; ring.
  Qed.
  Lemma drop_rel M q A e m : ortho q -> (S m < n)%nat -> rel M q A ->
    rel (dropped M q e m) q (fun j k => A j k - (if ((j =? m) && (k =? S m))%nat then e else if ((j =? S m) && (k =? m))%nat then e else 0)).
  Proof.
    intros O H R k x Hk Hx. rewrite mv_dropped, R by auto. rewrite !O by lia.
    transitivity (rsum n (fun j => A j k * q j x - ((if (j =? m)%nat then (if (k =? S m)%nat then e * q m x else 0) else 0) + (if (j =? S m)%nat then (if (k =? m)%nat then e * q (S m) x else 0) else 0)))).
    - rewrite rsum_sub, rsum_add, (rsum_delta n m (fun _ => _)), (rsum_delta n (S m) (fun _ => _)) by lia.
      rewrite (Nat.eqb_sym (S m) k), (Nat.eqb_sym m k). destruct (k =? m)%nat; destruct (k =? S m)%nat; ring.
    - apply rsum_ext. intros j Hj. repeat match goal with |- context [(?a =? ?b)%nat] => destruct (Nat.eqb_spec a b) end; subst; try lia; cbn [andb]; ring.
  Qed.
  Lemma bessel q v m : ortho q -> (S m < n)%nat -> 2 * Rabs (dot n (q m) v * dot n (q (S m)) v) <= dot n v v.
  Proof.
    intros O H. set (a := dot n (q m) v). set (b := dot n (q (S m)) v).
    assert (E : 0 <= rsum n (fun x => (v x - a * q m x - b * q (S m) x) * (v x - a * q m x - b * q (S m) x))) by (apply rsum_nonneg; intros; apply Rle_0_sqr).
    assert (F : rsum n (fun x => (v x - a * q m x - b * q (S m) x) * (v x - a * q m x - b * q (S m) x)) = dot n v v - a * a - b * b).
    { rewrite (rsum_ext n _ (fun x => v x * v x + (a * a) * (q m x * q m x) + (b * b) * (q (S m) x * q (S m) x) + (- (2 * a)) * (q m x * v x) + (- (2 * b)) * (q (S m) x * v x) + (2 * a * b) * (q m x * q (S m) x))) by (intros; ring).
      rewrite !rsum_add, !rsum_scal. fold (dot n v v) (dot n (q m) v) (dot n (q (S m)) v) (dot n (q m) (q m)) (dot n (q (S m)) (q (S m))) (dot n (q m) (q (S m))). fold a b.
      rewrite !O by lia. rewrite !Nat.eqb_refl. destruct (Nat.eqb_spec m (S m)); [lia|]. ring. }
    rewrite F in E. destruct (Rle_dec 0 (a * b)); [rewrite Rabs_right by lra|rewrite Rabs_left by lra]; [pose proof (Rle_0_sqr (a - b))|pose proof (Rle_0_sqr (a + b))]; unfold Rsqr in *; lra.
  Qed.
  Lemma form_dropped M q e m v : form n (dropped M q e m) v = form n M v - 2 * e * (dot n (q m) v * dot n (q (S m)) v).
  Proof.
    unfold form. transitivity (rsum n (fun x => v x * mv n M v x - (e * dot n (q (S m)) v * (q m x * v x) + e * dot n (q m) v * (q (S m) x * v x)))).
    - unfold dot at 1. apply rsum_ext. intros x Hx. rewrite mv_dropped. ring.
    - rewrite rsum_sub, rsum_add, !rsum_scal. fold (dot n (q m) v) (dot n (q (S m)) v). change (rsum n (fun x => v x * mv n M v x)) with (dot n v (mv n M v)). ring.
  Qed.
  Lemma diag_form M q A k : ortho q -> rel M q A -> (k < n)%nat -> form n M (q k) = A k k.
  Proof.
    intros O R Hk. unfold form, dot. rewrite (rsum_ext n _ (fun x => rsum n (fun j => A j k * (q k x * q j x)))).
    - rewrite rsum_exchange. rewrite (rsum_ext n _ (fun j => if (j =? k)%nat then A j k else 0)); [apply (rsum_delta n k (fun j => A j k)); auto|].
      intros j Hj. rewrite rsum_scal. fold (dot n (q k) (q j)). rewrite O by auto. rewrite (Nat.eqb_sym k j). destruct (j =? k)%nat; ring.
    - intros x Hx. rewrite R by auto. rewrite <- rsum_scal. apply rsum_ext. intros; ring.
  Qed.
End Sim.

Ltac eqbs := repeat match goal with
  | |- context [(?a =? ?b)%nat] => first
    [ replace (a =? b)%nat with true by (symmetry; apply Nat.eqb_eq; lia)
    | replace (a =? b)%nat with false by (symmetry; apply Nat.eqb_neq; lia)
    | destruct (Nat.eqb_spec a b) ]
  | |- context [(?a <? ?b)%nat] => first
    [ replace (a <? b)%nat with true by (symmetry; apply Nat.ltb_lt; lia)
    | replace (a <? b)%nat with false by (symmetry; apply Nat.ltb_ge; lia)
    | destruct (Nat.ltb_spec a b) ]
  end; cbn [andb orb].

(** A tridiagonal matrix with one more element, between top-1 and top+1. *)
Definition shape (dg of : nat -> R) (bl : R) (top j k : nat) : R :=
  if (j =? k)%nat then dg j else if (k =? S j)%nat then of j else if (j =? S k)%nat then of k
  else if ((S j =? top) && (k =? S top))%nat then bl else if ((S k =? top) && (j =? S top))%nat then bl else 0.
Lemma shape_ext n dg of bl top dg' of' bl' : (forall j, (j < n)%nat -> dg j = dg' j) -> (forall j, (S j < n)%nat -> of j = of' j) ->
  ((0 < top)%nat -> (S top < n)%nat -> bl = bl') -> forall j k, (j < n)%nat -> (k < n)%nat -> shape dg of bl top j k = shape dg' of' bl' top j k.
Proof.
  intros H1 H2 H3 j k Hj Hk. unfold shape. destruct (Nat.eqb_spec j k); [apply H1; auto|]. destruct (Nat.eqb_spec k (S j)); [apply H2; lia|]. destruct (Nat.eqb_spec j (S k)); [apply H2; lia|].
  destruct (Nat.eqb_spec (S j) top); destruct (Nat.eqb_spec k (S top)); cbn [andb]; try (apply H3; lia).
  all: destruct (Nat.eqb_spec (S k) top); destruct (Nat.eqb_spec j (S top)); cbn [andb]; try (apply H3; lia); reflexivity.
Qed.
Lemma shape_no_bulge dg of top top' j k : shape dg of 0 top j k = shape dg of 0 top' j k.
Proof. unfold shape. repeat match goal with |- context [(?a =? ?b)%nat] => destruct (Nat.eqb_spec a b) end; reflexivity. Qed.

Lemma rot_shape i c s dg of bl : c * bl - s * of (S i) = 0 -> forall j k,
  rotm i c s (shape dg of bl (S i)) j k =
  shape (fun j => if (j =? i)%nat then c * c * dg i - 2 * c * s * of i + s * s * dg (S i) else if (j =? S i)%nat then s * s * dg i + 2 * c * s * of i + c * c * dg (S i) else dg j)
    (fun j => if (S j =? i)%nat then c * of j else if (j =? i)%nat then c * s * dg i + (c * c - s * s) * of i - c * s * dg (S i) else if (j =? S i)%nat then s * bl + c * of (S i) else of j)
    (s * of (i - 1)%nat) i j k.
Proof.
  intros K j k. unfold rotm, rot, shape.
  assert (J : (S j < i \/ S j = i \/ j = i \/ j = S i \/ j = S (S i) \/ S (S i) < j)%nat) by lia.
  assert (L : (S k < i \/ S k = i \/ k = i \/ k = S i \/ k = S (S i) \/ S (S i) < k)%nat) by lia.
  destruct J as [J|[J|[J|[J|[J|J]]]]]; destruct L as [L|[L|[L|[L|[L|L]]]]]; eqbs; subst; try ring; try lra; try (cbn [Nat.sub]; rewrite ?Nat.sub_0_r; ring).
Qed.

Section Prog.
  Variable n : nat.
  Notation el v j := (nth j v 0).

  Lemma get (v : list R) j : length v = n -> (j < n)%nat -> vget v j = Ok (el v j).
  Proof. intros H Hj. apply vget_ok. lia. Qed.
  Lemma set (v : list R) j x : length v = n -> (j < n)%nat -> vset v j x = Ok (upd v j x).
  Proof. intros H Hj. apply vset_ok. lia. Qed.
  Lemma el_upd (v : list R) i x j : length v = n -> (i < n)%nat -> el (upd v i x) j = if (j =? i)%nat then x else el v j.
  Proof. intros H Hi. destruct (Nat.eqb_spec j i) as [->|]; [apply nth_upd_eq; lia|apply nth_upd_neq; auto]. Qed.

  (** The tridiagonal matrix (d, e) without its first l couplings *)
  Definition T (l : nat) (d e : list R) : nat -> nat -> R := shape (fun j => el d j) (fun j => if (j <? l)%nat then 0 else el e j) 0 0.
  (** While the bulge is chased *)
  Definition C (k l m : nat) (s c p g : R) (d e : list R) : nat -> nat -> R :=
    shape (fun j => if (j =? l + k)%nat then el d (l + k) - p else el d j)
      (fun j => if (j <? l)%nat then 0 else if (j =? m)%nat then 0 else if (j =? l + k)%nat then g else if (S j =? l + k)%nat then c * el e j else el e j)
      (if (l + k =? m)%nat then 0 else if (k =? 0)%nat then 0 else s * el e (l + k - 1)) (l + k).

  Lemma chase_ok M l m k : forall s c p g d e q, (l + k <= m)%nat -> (m < n)%nat -> length d = n -> length e = n -> s <> 0 ->
    (forall j, (l <= j < l + k)%nat -> el e j <> 0) -> ortho n q -> rel n M q (C k l m s c p g d e) ->
    exists p' g' d' e' q' s' c', chase k l m s c p g d e = Ok (false, p', g', d', e') /\ length d' = n /\ length e' = n /\ ortho n q' /\ rel n M q' (C 0 l m s' c' p' g' d' e') /\
      (forall j, (m < j)%nat -> el e' j = el e j).
  Proof.
    induction k as [|k IH]; intros s c p g d e q Hk Hm Ld Le Hs Ne O R.
    - exists p, g, d, e, q, s, c. repeat split; auto.
    - cbn [chase]. set (i := (l + k)%nat). assert (Ei : (l + S k = S i)%nat) by (unfold i; lia).
      rewrite (get e i) by (auto; unfold i; lia). cbn [bind]. set (f := s * el e i). set (h := c * el e i). set (r := sqrt (f * f + g * g)).
      assert (Hf : f <> 0). { unfold f. apply Rmult_integral_contrapositive_currified; auto. apply Ne. unfold i. lia. }
      assert (Fp : 0 < f * f + g * g). { assert (0 < f * f) by (apply Rsqr_pos_lt; auto). assert (0 <= g * g) by apply Rle_0_sqr. lra. }
      assert (Hr : 0 < r) by (apply sqrt_lt_R0; auto). assert (Rr : r * r = f * f + g * g) by (apply sqrt_sqrt; lra).
      rewrite (set e (i + 1)) by (auto; unfold i; lia). cbn [bind]. destruct (Req_EM_T r 0); [lra|].
      rewrite (get d (i + 1)), (get d i) by (auto; unfold i; lia). cbn [bind]. replace (i + 1)%nat with (S i) by lia.
      set (s1 := f / r). set (c1 := g / r). set (g1 := el d (S i) - p). set (r1 := (el d i - g1) * s1 + 2 * c1 * h). set (p1 := s1 * r1).
      rewrite (set d (S i)) by (auto; unfold i; lia). cbn [bind].
      assert (cs : c1 * c1 + s1 * s1 = 1). { unfold c1, s1. replace (g / r * (g / r) + f / r * (f / r)) with ((f * f + g * g) / (r * r)) by (field; lra). rewrite Rr. field. lra. }
      assert (Sf : s1 * f + c1 * g = r). { unfold c1, s1. replace (f / r * f + g / r * g) with ((f * f + g * g) / r) by (field; lra). rewrite <- Rr. field. lra. }
      assert (Kf : c1 * f - s1 * g = 0) by (unfold c1, s1; field; lra).
      assert (R' : rel n M (rotv i c1 s1 q) (C k l m s1 c1 p1 (c1 * r1 - h) (upd d (S i) (g1 + p1)) (upd e (S i) r))).
      { assert (Hi : (S i < n)%nat) by (unfold i; lia).
        apply rel_ext with (rotm i c1 s1 (C (S k) l m s c p g d e)); [|apply rot_rel; auto].
        intros j k' Hj Hk'. unfold C. rewrite Ei. rewrite rot_shape.
        - fold i. apply (shape_ext n); auto.
          + intros a Ha. rewrite !(el_upd d) by auto. eqbs; subst; try lia; fold i; fold h; fold g1.
            * assert (E : c1 * c1 = 1 - s1 * s1) by lra. unfold p1, r1. rewrite E. ring_simplify.
              replace (c1 * h * s1) with (c1 * s1 * h) by ring. ring.
            * assert (E : c1 * c1 = 1 - s1 * s1) by lra. unfold p1, r1. rewrite E. ring.
            * reflexivity.
          + intros a Ha. rewrite !(el_upd e) by auto. eqbs; subst; try lia; fold i; fold h; fold g1; try ring; try reflexivity; try lia.
            all: try (assert (E : s1 * s1 = 1 - c1 * c1) by lra; unfold r1; rewrite E; ring).
            all: try (replace (S i - 1)%nat with i by lia; fold f; lra).
          + intros H0 Hn. rewrite !(el_upd e) by auto. eqbs; subst; try lia; try ring. all: try (f_equal; f_equal; lia).
        - eqbs; subst; try lia; try ring. all: replace (S i - 1)%nat with i by lia; fold f; lra. }
      destruct (IH s1 c1 p1 (c1 * r1 - h) (upd d (S i) (g1 + p1)) (upd e (S i) r) (rotv i c1 s1 q)) as (p' & g' & d' & e' & q' & s' & c' & E1 & L1 & L2 & O' & R'' & Un); auto; try lia.
      + rewrite upd_length; auto.
      + rewrite upd_length; auto.
      + unfold s1. intros Z. apply Hf. replace f with (f / r * r) by (field; lra). rewrite Z. ring.
      + intros j Hj. rewrite (el_upd e) by (auto; unfold i; lia). destruct (Nat.eqb_spec j (S i)); [unfold i in *; lia|]. apply Ne. lia.
      + apply rot_ortho; auto. unfold i; lia.
      + exists p', g', d', e', q', s', c'. repeat split; auto. intros j Hj. rewrite Un by auto. rewrite (el_upd e) by (auto; unfold i; lia). destruct (Nat.eqb_spec j (S i)); [unfold i in *; lia|reflexivity].
  Qed.

  Fixpoint cnt (dr : nat -> bool) (k : nat) : nat := match k with 0%nat => 0%nat | S k => ((if dr k then 1 else 0) + cnt dr k)%nat end.
  Lemma cnt_le dr k : (cnt dr k <= k)%nat.
  Proof. induction k; cbn [cnt]; [lia|]. destruct (dr k); lia. Qed.
  Lemma cnt_ext dr dr' k : (forall j, (j < k)%nat -> dr j = dr' j) -> cnt dr k = cnt dr' k.
  Proof. induction k; intros H; cbn [cnt]; [reflexivity|]. rewrite IHk by (intros; apply H; lia). rewrite H by lia. reflexivity. Qed.
  Lemma cnt_add dr m k : (m < k)%nat -> dr m = false -> cnt (fun j => dr j || (j =? m)%nat) k = S (cnt dr k).
  Proof.
    induction k; intros H E; [lia|]. cbn [cnt]. destruct (Nat.eq_dec m k) as [->|].
    - rewrite E, Nat.eqb_refl. cbn [orb]. rewrite (cnt_ext _ dr); [lia|]. intros j Hj. replace (j =? k)%nat with false by (symmetry; apply Nat.eqb_neq; lia). apply orb_false_r.
    - rewrite IHk by (auto; lia). replace (k =? m)%nat with false by (symmetry; apply Nat.eqb_neq; lia). rewrite orb_false_r. lia.
  Qed.

  Variables (tiny : R -> R -> bool) (maxCounter : nat) (u B : R) (M0 : nat -> nat -> R).
  Hypothesis u0 : 0 <= u.
  Hypothesis B0 : 0 <= B.
  Hypothesis tiny_small : forall e dd, tiny e dd = true -> Rabs e <= u * dd.
  Hypothesis tiny_0 : forall dd, tiny 0 dd = true.
  Hypothesis M0B : bounded n M0 B.
  Hypothesis M0s : forall x y, M0 x y = M0 y x.

  Definition Inv (l : nat) (d e : list R) : Prop := length d = n /\ length e = n /\
    exists M q dr, ortho n q /\ rel n M q (T l d e) /\ (forall j, (S j < n)%nat -> dr j = true -> (j < l)%nat \/ el e j = 0) /\
      (forall v, Rabs (form n M0 v - form n M v) <= B * ((1 + 2 * u) ^ cnt dr (n - 1) - 1) * dot n v v) /\
      (forall x y, M x y = M y x) /\ (u = 0 -> forall x y, M x y = M0 x y).

  Lemma T_ext l d e l' d' e' M q : (forall j, (j < n)%nat -> el d j = el d' j) ->
    (forall j, (S j < n)%nat -> (if (j <? l)%nat then 0 else el e j) = (if (j <? l')%nat then 0 else el e' j)) -> rel n M q (T l d e) -> rel n M q (T l' d' e').
  Proof. intros H1 H2. apply rel_ext. intros j k Hj Hk. unfold T. apply (shape_ext n); auto. Qed.

  Lemma drop l m d e : Inv l d e -> (l <= m)%nat -> (S m < n)%nat -> tiny (el e m) (Rabs (el d m) + Rabs (el d (S m))) = true -> Inv l d (upd e m 0).
  Proof.
    intros (Ld & Le & M & q & dr & O & Rl & Dr & Cl & Sy & U0) Hl Hm Ht. split; [auto|]. split; [rewrite upd_length; auto|].
    assert (Td : forall k, (k < n)%nat -> form n M (q k) = el d k).
    { intros k Hk. rewrite (diag_form n M q (T l d e)) by auto. unfold T, shape. rewrite Nat.eqb_refl. reflexivity. }
    destruct (dr m) eqn:Em.
    - assert (Z : el e m = 0) by (destruct (Dr m Hm Em); [lia|auto]).
      exists M, q, dr. split; [auto|]. split; [|split; [|auto]].
      + apply T_ext with l d e; auto. intros j Hj. rewrite (el_upd e) by (auto; lia). eqbs; subst; auto.
      + intros j Sj Hj. rewrite (el_upd e) by (auto; lia). destruct (Nat.eqb_spec j m); auto.
    - exists (dropped M q (el e m) m), q, (fun j => dr j || (j =? m)%nat). split; [auto|].
      pose proof (tiny_small _ _ Ht) as Hs. split; [|split; [|split; [|split]]].
      + apply rel_ext with (2 := drop_rel n M q (T l d e) (el e m) m O Hm Rl). intros j k Hj Hk. unfold T, shape.
        rewrite !(el_upd e) by (auto; lia). eqbs; subst; try lia; try ring. replace k with m by lia. ring.
      + intros j Sj Hj. rewrite (el_upd e) by (auto; lia). destruct (Nat.eqb_spec j m); [auto|]. apply Dr; auto. rewrite orb_false_r in Hj. auto.
      + rewrite cnt_add by (auto; lia). set (w := (1 + 2 * u) ^ cnt dr (n - 1)).
        assert (Db : forall k, (k < n)%nat -> Rabs (el d k) <= B * w).
        { intros k Hk. rewrite <- Td by auto. specialize (Cl (q k)). specialize (M0B (q k)). rewrite O in * by auto. rewrite Nat.eqb_refl in *. fold w in Cl.
          replace (form n M (q k)) with (form n M0 (q k) - (form n M0 (q k) - form n M (q k))) by ring.
          eapply Rle_trans; [apply Rabs_triang|]. rewrite Rabs_Ropp. lra. }
        assert (Eb : Rabs (el e m) <= 2 * u * (B * w)).
        { eapply Rle_trans; [exact Hs|]. pose proof (Db m ltac:(lia)). pose proof (Db (S m) ltac:(lia)). replace (2 * u * (B * w)) with (u * (B * w + B * w)) by ring. apply Rmult_le_compat_l; lra. }
        intros v. rewrite form_dropped.
        replace (form n M0 v - (form n M v - 2 * el e m * (dot n (q m) v * dot n (q (S m)) v))) with
          ((form n M0 v - form n M v) + el e m * (2 * (dot n (q m) v * dot n (q (S m)) v))) by ring.
        eapply Rle_trans; [apply Rabs_triang|]. rewrite Rabs_mult.
        assert (Bs : Rabs (2 * (dot n (q m) v * dot n (q (S m)) v)) <= dot n v v) by (rewrite Rabs_mult, (Rabs_right 2) by lra; apply bessel; auto).
        specialize (Cl v). fold w in Cl.
        assert (P : Rabs (el e m) * Rabs (2 * (dot n (q m) v * dot n (q (S m)) v)) <= 2 * u * (B * w) * dot n v v) by (apply Rmult_le_compat; auto using Rabs_pos).
        eapply Rle_trans; [apply Rplus_le_compat; [exact Cl|exact P]|]. cbn [pow]. fold w. right. ring.
      + intros x y. unfold dropped. rewrite Sy. ring.
      + intros Z x y. unfold dropped. rewrite U0 by auto. rewrite Z in Hs. rewrite Rmult_0_l in Hs.
        assert (el e m = 0). { destruct (Req_dec (el e m) 0); auto. apply Rabs_pos_lt in H. lra. } rewrite H. ring.
  Qed.

  Lemma find_m_ok d e k : forall m, length d = n -> length e = n -> (m + k = n - 1)%nat -> (m < n)%nat ->
    exists m', find_m tiny k m d e = Ok m' /\ (m <= m' < n)%nat /\ (forall j, (m <= j < m')%nat -> tiny (el e j) (Rabs (el d j) + Rabs (el d (S j))) = false) /\
      (m' = n - 1 \/ (S m' < n /\ tiny (el e m') (Rabs (el d m') + Rabs (el d (S m'))) = true))%nat.
  Proof.
    induction k as [|k IH]; intros m Ld Le H Hm; cbn [find_m].
    - exists m. split; [reflexivity|]. split; [lia|]. split; [intros; lia|]. left; lia.
    - rewrite !get by (auto; lia). cbn [bind]. replace (m + 1)%nat with (S m) by lia. destruct (tiny _ _) eqn:E.
      + exists m. split; [reflexivity|]. split; [lia|]. split; [intros; lia|]. right; split; [lia|auto].
      + destruct (IH (S m)) as (m' & F & Hm' & N & X); auto; try lia. exists m'. split; [auto|]. split; [lia|]. split; [|auto].
        intros j Hj. destruct (Nat.eq_dec j m) as [->|]; [auto|]. apply N. lia.
  Qed.

  Lemma sweep_ok l m d e e0 : Inv l d e0 -> length e = n -> (forall j, (S j < n)%nat -> j <> m -> el e j = el e0 j) -> ((S m < n)%nat -> el e0 m = 0) ->
    (l < m < n)%nat -> (forall j, (l <= j < m)%nat -> el e j <> 0) -> exists d' e', sweep l m d e = Ok (d', e') /\ Inv l d' e'.
  Proof.
    intros (Ld & L0 & M & q & dr & O & Rl & Dr & Cl & Sy & U0) Le He Hz Hm Ne. unfold sweep.
    rewrite (get d (l + 1)), (get d l), (get e l), (get d m) by (auto; lia). cbn [bind].
    assert (E0 : el e l <> 0) by (apply Ne; lia). destruct (Req_EM_T (2 * el e l) 0) as [Z|_]; [lra|].
    set (g := (el d (l + 1) - el d l) / (2 * el e l)). set (r := sqrt (g * g + 1)).
    assert (Rp : 0 < r) by (apply sqrt_lt_R0; pose proof (Rle_0_sqr g); unfold Rsqr in *; lra).
    rewrite (Rabs_right r) by lra. cbn [bind].
    destruct (Req_EM_T (g + (if Rle_dec 0 g then r else - r)) 0) as [Z|_]; [destruct (Rle_dec 0 g); lra|].
    set (g1 := el d m - el d l + _).
    destruct (chase_ok M l m (m - l) 1 1 0 g1 d e q) as (p' & g' & d' & e' & q' & s' & c' & E1 & L1 & L2 & O' & R' & Un); auto; try lia; try lra.
    - intros j Hj. apply Ne. lia.
    - replace (l + (m - l))%nat with m by lia. apply rel_ext with (2 := Rl). intros j k Hj Hk. unfold C, T. replace (l + (m - l))%nat with m by lia.
      rewrite (shape_no_bulge (fun j => el d j) _ 0 m). apply (shape_ext n); auto.
      + intros a Ha. destruct (Nat.eqb_spec a m); [subst; ring|reflexivity].
      + intros a Ha. destruct (Nat.ltb_spec a l); [reflexivity|]. destruct (Nat.eqb_spec a m); [subst; apply Hz; auto|]. rewrite <- He by auto. destruct (S a =? m)%nat; ring.
      + intros _ _. rewrite Nat.eqb_refl. reflexivity.
    - rewrite E1. cbn [bind]. rewrite (get d' l) by (auto; lia). cbn [bind]. rewrite (set d' l) by (auto; lia). cbn [bind]. rewrite (set e' l) by (auto; lia). cbn [bind]. rewrite set by (rewrite ?upd_length; auto; lia). cbn [bind].
      eexists _, _. split; [reflexivity|].
      assert (Ee : forall j, el (upd (upd e' l g') m 0) j = if (j =? m)%nat then 0 else if (j =? l)%nat then g' else el e' j).
      { intros j. rewrite el_upd by (rewrite ?upd_length; auto; lia). rewrite el_upd by (auto; lia). reflexivity. }
      split; [rewrite upd_length; auto|]. split; [rewrite !upd_length; auto|]. exists M, q', dr. split; [auto|]. split; [|split; [|auto]].
      + apply rel_ext with (2 := R'). intros j k Hj Hk. unfold C, T. rewrite Nat.add_0_r. rewrite Nat.eqb_refl.
        replace (if (l =? m)%nat then 0 else 0) with 0 by (destruct (l =? m)%nat; reflexivity).
        rewrite (shape_no_bulge _ _ l 0). apply (shape_ext n); auto.
        * intros a Ha. rewrite el_upd by (auto; lia). destruct (a =? l)%nat; reflexivity.
        * intros a Ha. rewrite Ee. eqbs; subst; try lia; reflexivity.
      + intros j Sj Hj. rewrite Ee. destruct (Nat.eqb_spec j m); [auto|]. destruct (Dr j Sj Hj) as [|Z]; [auto|].
        destruct (Nat.lt_ge_cases j l); [auto|]. right.
        rewrite <- He in Z by auto. destruct (Nat.lt_ge_cases j m); [exfalso; apply (Ne j); auto; lia|].
        replace (j =? l)%nat with false by (symmetry; apply Nat.eqb_neq; lia). rewrite Un by lia. auto.
  Qed.

  Lemma Inv_next l d e : Inv l d (upd e l 0) -> (l < n)%nat -> length e = n -> Inv (S l) d e.
  Proof.
    intros (Ld & L0 & M & q & dr & O & Rl & Dr & Cl & Sy & U0) Hl Le. split; [auto|]. split; [auto|]. exists M, q, dr. split; [auto|]. split; [|split; [|auto]].
    - apply T_ext with l d (upd e l 0); auto. intros j Hj. rewrite el_upd by (auto; lia). eqbs; subst; try lia; reflexivity.
    - intros j Sj Hj. destruct (Dr j Sj Hj) as [|Z]; [left; lia|]. rewrite el_upd in Z by (auto; lia). destruct (Nat.eqb_spec j l); [left; lia|right; auto].
  Qed.
  Lemma Inv_last l d e : Inv l d e -> S l = n -> Inv (S l) d e.
  Proof.
    intros (Ld & L0 & M & q & dr & O & Rl & Dr & Cl & Sy & U0) Hl. split; [auto|]. split; [auto|]. exists M, q, dr. split; [auto|]. split; [|split; [|auto]].
    - apply T_ext with l d e; auto. intros j Hj. eqbs; subst; try lia; reflexivity.
    - intros j Sj Hj. left; lia.
  Qed.

  Lemma do_loop_ok l fuel : (l < n)%nat -> forall ic d e, (1 <= fuel)%nat -> (maxCounter + 1 <= fuel + ic)%nat -> (maxCounter < ic)%nat \/ Inv l d e ->
    exists ic' d' e', do_loop tiny maxCounter fuel n l ic d e = Ok (ic', d', e') /\ ((maxCounter < ic')%nat \/ Inv (S l) d' e').
  Proof.
    intros Hl. induction fuel as [|fuel IH]; intros ic d e F1 F2 I; [lia|]. cbn [do_loop].
    destruct (Nat.ltb_spec maxCounter (ic + 1)).
    - exists (ic + 1)%nat, d, e. split; [reflexivity|]. left; lia.
    - destruct I as [|I]; [lia|]. pose proof I as (Ld & Le & _).
      destruct (find_m_ok d e (n - 1 - l) l) as (m & Fm & Hm & Nt & X); auto; try lia. rewrite Fm. cbn [bind].
      destruct (Nat.eqb_spec m l) as [->|].
      + exists (ic + 1)%nat, d, e. split; [reflexivity|]. right. destruct X as [X|[X1 X2]].
        * apply Inv_last; auto; lia.
        * apply Inv_next; auto. apply drop; auto.
      + assert (Ne : forall j, (l <= j < m)%nat -> el e j <> 0).
        { intros j Hj Z. specialize (Nt j Hj). rewrite Z, tiny_0 in Nt. discriminate. }
        assert (Sw : exists d' e', sweep l m d e = Ok (d', e') /\ Inv l d' e').
        { destruct X as [X|[X1 X2]].
          - apply sweep_ok with e; auto; try lia.
          - apply sweep_ok with (upd e m 0); auto; try lia.
            + apply drop; auto; lia.
            + intros j Hj Hn. rewrite el_upd by (auto; lia). replace (j =? m)%nat with false by (symmetry; apply Nat.eqb_neq; lia). reflexivity.
            + intros _. rewrite el_upd by (auto; lia). rewrite Nat.eqb_refl. reflexivity. }
        destruct Sw as (d' & e' & Es & I'). rewrite Es. cbn [bind]. apply IH; auto; lia.
  Qed.

  Lemma Inv_end d e : Inv n d e -> exists M, eigenvalues n M d /\ (forall v, Rabs (form n M0 v - form n M v) <= B * ((1 + 2 * u) ^ (n - 1) - 1) * dot n v v) /\
      (forall x y, M x y = M y x) /\ (u = 0 -> forall x y, M x y = M0 x y).
  Proof.
    intros (Ld & Le & M & q & dr & O & Rl & Dr & Cl & Sy & U0). exists M. split; [|split; [|auto]].
    - split; [auto|]. exists q. split; [exact O|]. intros k Hk x Hx. rewrite Rl by auto.
      rewrite (rsum_ext n _ (fun j => if (j =? k)%nat then el d j * q j x else 0)); [apply (rsum_delta n k (fun j => el d j * q j x)); auto|].
      intros j Hj. unfold T, shape. eqbs; subst; try lia; ring.
    - intros v. eapply Rle_trans; [apply Cl|]. apply Rmult_le_compat_r; [apply rsum_nonneg; intros; apply Rle_0_sqr|]. apply Rmult_le_compat_l; auto.
      apply Rplus_le_compat_r. apply Rle_pow; [lra|]. apply cnt_le.
  Qed.
End Prog.

(** Sorting *)
Lemma insert_perm x l : Permutation (x :: l) (insert_sorted x l).
Proof.
  induction l as [|y l IH]; cbn [insert_sorted]; [apply Permutation_refl|]. destruct (Rle_dec x y); [apply Permutation_refl|].
  eapply perm_trans; [apply perm_swap|]. apply perm_skip; auto.
Qed.
Lemma sort_perm l : Permutation l (std_sort l).
Proof. induction l as [|x l IH]; cbn [std_sort]; [constructor|]. eapply perm_trans; [apply perm_skip; exact IH|apply insert_perm]. Qed.
Lemma sorted_cons x l : sorted (x :: l) <-> (forall y, In y l -> x <= y) /\ sorted l.
Proof.
  split.
  - intros H. split.
    + intros y Hy. destruct (In_nth l y 0 Hy) as (k & Hk & <-). apply (H 0%nat (S k)). cbn [length]. lia.
    + intros i j Hij. apply (H (S i) (S j)). cbn [length]. lia.
  - intros [H1 H2] i j Hij. destruct j; [lia|]. cbn [length] in Hij. destruct i; cbn [nth]; [apply H1, nth_In; lia|apply H2; lia].
Qed.
Lemma insert_ok x l : sorted l -> sorted (insert_sorted x l).
Proof.
  induction l as [|y l IH]; intros H; cbn [insert_sorted].
  - intros i j Hij. cbn [length] in Hij. lia.
  - pose proof (proj1 (sorted_cons y l) H) as [H1 H2]. destruct (Rle_dec x y).
    + apply sorted_cons. split; [|auto]. intros z [<-|Hz]; [auto|]. apply Rle_trans with y; auto.
    + apply sorted_cons. split; [|auto]. intros z Hz. apply (Permutation_in z (Permutation_sym (insert_perm x l))) in Hz. destruct Hz as [<-|Hz]; [lra|auto].
Qed.
Lemma sort_ok l : sorted (std_sort l).
Proof. induction l as [|x l IH]; cbn [std_sort]; [intros i j Hij; cbn [length] in Hij; lia|apply insert_ok; auto]. Qed.

Lemma eigenvalues_perm n M D D' : Permutation D D' -> eigenvalues n M D -> eigenvalues n M D'.
Proof.
  intros P (L & q & O & E). destruct (proj1 (Permutation_nth D D' 0) P) as (L' & f & Bf & If & Hf). cbn zeta in *. rewrite L in *.
  split; [auto|]. exists (fun k => q (f k)). split.
  - intros j k Hj Hk. rewrite O by (apply Bf; auto). destruct (Nat.eqb_spec j k) as [->|N]; [rewrite Nat.eqb_refl; reflexivity|].
    destruct (Nat.eqb_spec (f j) (f k)) as [Z|]; [|reflexivity]. exfalso. apply N. apply If; auto.
  - intros k Hk x Hx. rewrite E by (auto). rewrite Hf by auto. reflexivity.
Qed.

Lemma ground_ok tiny mc u B (t : tri Rring) n : 0 <= u -> 0 <= B -> (forall e dd, tiny e dd = true -> Rabs e <= u * dd) -> (forall dd, tiny 0 dd = true) ->
  (n <= length (t_a t))%nat -> (n <= length (t_b t))%nat -> let M0 := tridiagonal (t_a t) (fun i => nth i (t_b t) 0) in bounded n M0 B ->
  ground tiny mc t n = Throw \/ exists D M, ground tiny mc t n = Ok D /\ sorted D /\ eigenvalues n M D /\ (forall x y, M x y = M y x) /\
    (forall v, Rabs (form n M0 v - form n M v) <= B * ((1 + 2 * u) ^ (n - 1) - 1) * dot n v v) /\ (u = 0 -> forall x y, M x y = M0 x y).
Proof.
  intros u0 B0 H1 H2 La Lb M0 HB. unfold ground. replace ((n <=? length (t_a t))%nat) with true by (symmetry; apply Nat.leb_le; auto). replace ((n <=? length (t_b t))%nat) with true by (symmetry; apply Nat.leb_le; auto). cbn [andb].
  assert (M0s : forall x y, M0 x y = M0 y x). { intros x y. unfold M0, tridiagonal. eqbs; subst; try lia; reflexivity. }
  assert (I0 : Inv n u B M0 0 (firstn n (t_a t)) (firstn n (t_b t))).
  { assert (Fn : forall (v : list R) j, (j < n)%nat -> nth j (firstn n v) 0 = nth j v 0).
    { intros v j Hj. rewrite <- (firstn_skipn n v) at 2. destruct (Nat.lt_ge_cases j (length (firstn n v))); [rewrite app_nth1 by auto; reflexivity|].
      assert (length v <= j)%nat by (rewrite firstn_length in *; lia). rewrite firstn_skipn. rewrite !nth_overflow by (rewrite ?firstn_length; lia). reflexivity. }
    split; [rewrite firstn_length; apply Nat.min_l; auto|]. split; [rewrite firstn_length; apply Nat.min_l; auto|].
    exists M0, (fun k x => if (x =? k)%nat then 1 else 0), (fun _ => false). split; [|split; [|split; [|split; [|split]]]].
    - intros j k Hj Hk. unfold dot. rewrite (rsum_ext n _ (fun x => if (x =? j)%nat then (if (x =? k)%nat then 1 else 0) else 0)); [apply (rsum_delta n j (fun x => if (x =? k)%nat then 1 else 0)); auto|].
      intros x Hx. destruct (x =? j)%nat; ring.
    - intros k x Hk Hx. unfold mv. rewrite (rsum_ext n _ (fun y => if (y =? k)%nat then M0 x y else 0)) by (intros y Hy; destruct (y =? k)%nat; ring).
      rewrite (rsum_delta n k (fun y => M0 x y)) by auto.
      rewrite (rsum_ext n (fun j => _ * _) (fun j => if (j =? x)%nat then T 0 (firstn n (t_a t)) (firstn n (t_b t)) j k else 0)) by (intros y Hy; rewrite (Nat.eqb_sym x y); destruct (y =? x)%nat; ring).
      rewrite (rsum_delta n x (fun j => T 0 (firstn n (t_a t)) (firstn n (t_b t)) j k)) by auto.
      unfold M0, tridiagonal, T, shape. eqbs; subst; try lia; rewrite ?Fn by lia; reflexivity.
    - intros j Sj Hj. discriminate.
    - intros v. replace (form n M0 v - form n M0 v) with 0 by ring. rewrite Rabs_R0. replace (cnt (fun _ => false) (n - 1)) with 0%nat by (symmetry; clear; induction (n - 1)%nat; cbn [cnt]; auto).
      cbn [pow]. right. ring.
    - exact M0s.
    - reflexivity. }
  cbn [bind].
  match goal with |- context [forM n 0 ?f ?s] => set (F := f); set (s0 := s) end.
  assert (L : exists ic d e, forM n 0 F s0 = Ok (ic, d, e) /\ ((mc < ic)%nat \/ Inv n u B M0 n d e)).
  { assert (G : exists s, forM n 0 F s0 = Ok s /\ let '(ic, d, e) := s in (mc < ic)%nat \/ Inv n u B M0 (0 + n) d e).
    { apply forM_inv with (P := fun l (s : nat * list R * list R) => let '(ic, d, e) := s in (mc < ic)%nat \/ Inv n u B M0 l d e).
      - right. exact I0.
      - intros l [[ic d] e] Hl I. destruct (do_loop_ok n tiny mc u B M0 u0 H1 H2 HB M0s l (mc + 2) ltac:(lia) ic d e) as (ic' & d' & e' & E & I'); try lia; auto.
        exists (ic', d', e'). split; [exact E|exact I']. }
    destruct G as ([[ic d] e] & E & I). exists ic, d, e. auto. }
  destruct L as (ic & d & e & E & I). rewrite E. cbn [bind]. destruct (Nat.ltb_spec mc ic); [left; reflexivity|].
  destruct I as [|I]; [lia|]. destruct (Inv_end n tiny u B M0 u0 B0 H1 H2 HB M0s d e I) as (M & Ev & Cl & Sy & U0). right.
  exists (std_sort d), M. split; [reflexivity|]. split; [apply sort_ok|]. split; [apply eigenvalues_perm with d; auto; apply sort_perm|]. auto.
Qed.

Lemma bounded_ex n M : exists B, 0 <= B /\ bounded n M B.
Proof.
  exists (rsum n (fun x => rsum n (fun y => Rabs (M x y)))). split; [apply rsum_nonneg; intros; apply rsum_nonneg; intros; apply Rabs_pos|].
  intros v. set (N := dot n v v).
  assert (Sq : forall x, (x < n)%nat -> v x * v x <= N).
  { intros x Hx. unfold N, dot. clear -Hx. induction n as [|k IH]; [lia|]. cbn [rsum]. destruct (Nat.eq_dec x k) as [->|].
    - assert (0 <= rsum k (fun x => v x * v x)) by (apply rsum_nonneg; intros; apply Rle_0_sqr). lra.
    - pose proof (Rle_0_sqr (v k)). unfold Rsqr in *. assert (x < k)%nat by lia. specialize (IH H0). lra. }
  assert (Pr : forall x y, (x < n)%nat -> (y < n)%nat -> Rabs (v x * v y) <= N).
  { intros x y Hx Hy. pose proof (Sq x Hx). pose proof (Sq y Hy). apply Rabs_le. pose proof (Rle_0_sqr (v x - v y)). pose proof (Rle_0_sqr (v x + v y)). unfold Rsqr in *. lra. }
  assert (Ab : forall k f, Rabs (rsum k f) <= rsum k (fun x => Rabs (f x))).
  { intros k f. induction k as [|k IH]; cbn [rsum]; [rewrite Rabs_R0; lra|]. eapply Rle_trans; [apply Rabs_triang|lra]. }
  assert (Le : forall k f g, (forall x, (x < k)%nat -> f x <= g x) -> rsum k f <= rsum k g).
  { intros k f g H. induction k as [|k IH]; cbn [rsum]; [lra|]. assert (f k <= g k) by (apply H; lia). assert (rsum k f <= rsum k g) by (apply IH; intros; apply H; lia). lra. }
  unfold form, dot, mv. eapply Rle_trans; [apply Ab|]. rewrite Rmult_comm, <- rsum_scal. apply Le. intros x Hx.
  rewrite <- rsum_scal. eapply Rle_trans; [apply Ab|]. rewrite <- rsum_scal. apply Le. intros y Hy.
  replace (v x * (M x y * v y)) with (v x * v y * M x y) by ring. rewrite Rabs_mult. apply Rmult_le_compat_r; [apply Rabs_pos|]. apply Pr; auto.
Qed.
