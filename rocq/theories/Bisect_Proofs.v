From Coq Require Import Reals Lra.
From Verif Require Import Prelude Bisect_Model.
Local Open Scope R_scope.

Definition between (a b x : R) : Prop := Rmin a b <= x <= Rmax a b.
Lemma between_iff a b x : between a b x <-> a <= x <= b \/ b <= x <= a.
Proof. unfold between, Rmin, Rmax. destruct (Rle_dec a b); lra. Qed.

Lemma loop_inv f tol n : forall a b fa seen r seen' l u,
  between l u a -> between l u b -> bisect_loop f tol n a b fa seen = (r, seen') ->
  (length seen' <= length seen + n)%nat /\ (forall x, In x seen' -> In x seen \/ between l u x) /\
  (r = Throw \/ exists c, r = Ok c /\ Rabs (f c) < tol /\ between l u c /\ In c seen').
Proof.
  induction n as [|n IH]; intros a b fa seen r seen' l u Ha Hb E; cbn [bisect_loop] in E.
  - inversion E; subst. split; [lia|]. split; [auto|left; auto].
  - assert (Hc : between l u ((a + b) / 2)) by (rewrite between_iff in *; lra).
    destruct (Rlt_dec (Rabs (f ((a + b) / 2))) tol) as [Ht|Ht].
    + inversion E; subst. split; [cbn; lia|]. split; [intros x [<-|Hx]; auto|]. right. eexists. split; [reflexivity|].
      split; [exact Ht|]. split; [exact Hc|left; auto].
    + destruct (Bool.eqb _ _).
      * apply (IH _ _ _ _ _ _ l u Hc Hb) in E. destruct E as (E1 & E2 & E3). cbn in E1. split; [lia|]. split; [|exact E3].
        intros x Hx. destruct (E2 x Hx) as [[<-|]|]; auto.
      * apply (IH _ _ _ _ _ _ l u Ha Hc) in E. destruct E as (E1 & E2 & E3). cbn in E1. split; [lia|]. split; [|exact E3].
        intros x Hx. destruct (E2 x Hx) as [[<-|]|]; auto.
Qed.

Lemma opposite_small p q tol : bsign p <> bsign q -> Rabs (p - q) < tol -> Rabs p < tol.
Proof.
  unfold bsign. destruct (Rle_dec 0 p), (Rle_dec 0 q); intros H; try congruence; unfold Rabs; destruct (Rcase_abs (p - q)), (Rcase_abs p); lra.
Qed.

Lemma loop_conv f tol d l u n :
  (forall x y, between l u x -> between l u y -> Rabs (x - y) <= d -> Rabs (f x - f y) < tol) ->
  forall a b fa seen, between l u a -> between l u b -> fa = f a -> bsign (f a) <> bsign (f b) ->
  Rabs (b - a) <= d * 2 ^ n -> (0 < n)%nat ->
  exists c seen', bisect_loop f tol n a b fa seen = (Ok c, seen').
Proof.
  intros Hf. induction n as [|n IH]; intros a b fa seen Ha Hb Hfa Hs Hw Hn; [lia|]. cbn [bisect_loop].
  set (c := (a + b) / 2).
  assert (Hc : between l u c) by (unfold c; rewrite between_iff in *; lra).
  assert (E1 : Rabs (b - c) = Rabs (b - a) / 2) by (unfold c; unfold Rabs; destruct (Rcase_abs _), (Rcase_abs _); lra).
  assert (E2 : Rabs (c - a) = Rabs (b - a) / 2) by (unfold c; unfold Rabs; destruct (Rcase_abs _), (Rcase_abs _); lra).
  cbn [pow] in Hw.
  destruct (Rlt_dec (Rabs (f c)) tol) as [Ht|Ht]; [eauto|].
  destruct n as [|n].
  { exfalso. apply Ht. cbn [pow] in Hw.
    destruct (bool_dec (bsign (f c)) (bsign (f a))) as [Es|Es].
    - apply (opposite_small _ (f b)); [congruence|]. apply Hf; auto. rewrite Rabs_minus_sym. lra.
    - apply (opposite_small _ (f a)); [auto|]. apply Hf; auto. lra. }
  subst fa. destruct (Bool.eqb (bsign (f c)) (bsign (f a))) eqn:Es.
  - apply Bool.eqb_prop in Es. apply IH; auto; [congruence|lra|lia].
  - apply Bool.eqb_false_iff in Es. apply IH; auto; [lra|lia].
Qed.

Lemma new_ok f a b : f a * f b < 0 -> bisect_new f a b = Ok tt.
Proof. intros H. unfold bisect_new. destruct (Rle_dec 0 (f a * f b)); [lra|reflexivity]. Qed.
Lemma sign_opp p q : p * q < 0 -> bsign p <> bsign q.
Proof.
  intros H. unfold bsign. destruct (Rle_dec 0 p), (Rle_dec 0 q); try discriminate.
  - exfalso. pose proof (Rmult_le_pos p q). lra.
  - exfalso. assert (0 < p * q) by (replace (p * q) with ((-p) * (-q)) by ring; apply Rmult_lt_0_compat; lra). lra.
Qed.

Lemma run_conv f tol d a b n :
  (forall x y, between a b x -> between a b y -> Rabs (x - y) <= d -> Rabs (f x - f y) < tol) ->
  f a * f b < 0 -> Rabs (b - a) <= d * 2 ^ n -> (0 < n)%nat -> exists c, bisect f a b n tol = Ok c.
Proof.
  intros Hf Hs Hw Hn. unfold bisect. rewrite new_ok by auto. cbn [bind]. unfold bisect_run.
  destruct (loop_conv f tol d a b n Hf a b (f a) [a]) as (c & s & E); auto.
  - apply between_iff; lra.
  - apply between_iff; lra.
  - apply sign_opp; auto.
  - rewrite E. cbn. eauto.
Qed.

Lemma bisect_ok f a b n tol c : bisect f a b n tol = Ok c -> f a * f b < 0 /\ Rabs (f c) < tol /\ between a b c.
Proof.
  unfold bisect, bisect_new. destruct (Rle_dec 0 (f a * f b)); [discriminate|]. cbn [bind]. intros E. split; [lra|].
  unfold bisect_run in E. destruct (bisect_loop f tol n a b (f a) [a]) as [r s] eqn:L. cbn in E. subst r.
  destruct (loop_inv f tol n a b (f a) [a] (Ok c) s a b) as (_ & _ & [D|(c' & D & D1 & D2 & _)]); auto; try (apply between_iff; lra).
  - discriminate.
  - apply Ok_inj in D. subst c'. auto.
Qed.
