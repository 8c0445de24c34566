(** Proofs about norms. *)
From Coq Require Import Reals Lra Lia.
From Verif Require Import Prelude Ring Cplx Rsum Vec_Model Vec_Spec Vec_Proofs Nrm_Model Nrm_Spec.
Local Open Scope R_scope.

Definition cip (n : nat) (f g : nat -> Cring) : Cring := sumn n (fun k => cmul (cconj (f k)) (g k)).

Lemma cip_self n f : cip n f f = (rsum n (fun k => abs2 (f k)), 0).
Proof.
  unfold cip. induction n as [|n IH]; [reflexivity|]. rewrite sumn_S, IH. cbn [rsum]. unfold abs2. destruct (f n) as [a b]. cbn. unfold Cadd, Cmul, Cconj. cbn [fst snd].
  apply f_equal2; ring.
Qed.
Lemma abs2_nonneg z : 0 <= abs2 z.
Proof. unfold abs2. nra. Qed.
Lemma abs2_zero z : abs2 z = 0 <-> z = (c0 : Cring).
Proof.
  destruct z as [a b]. unfold abs2. cbn [fst snd]. split; [|intros E; injection E as -> ->; ring].
  intros H. assert (a = 0) by nra. assert (b = 0) by nra. subst. reflexivity.
Qed.
Lemma abs2_mul (z w : Cring) : abs2 (cmul z w) = abs2 z * abs2 w.
Proof. destruct z, w. unfold abs2. cbn. ring. Qed.
Lemma abs2_conj (z : Cring) : abs2 (cconj z) = abs2 z.
Proof. destruct z. unfold abs2. cbn. ring. Qed.
Lemma abs2_add (z w : Cring) : abs2 (cadd z w) = abs2 z + abs2 w + 2 * (fst z * fst w + snd z * snd w).
Proof. destruct z, w. unfold abs2. cbn. ring. Qed.
Lemma re_bound (z w : Cring) : (fst z * fst w + snd z * snd w) * (fst z * fst w + snd z * snd w) <= abs2 z * abs2 w.
Proof. destruct z as [a b], w as [c d]. unfold abs2. cbn [fst snd]. pose proof (Rle_0_sqr (a * d - b * c)) as H. unfold Rsqr in H. nra. Qed.
Lemma sq_le x y : 0 <= y -> x * x <= y * y -> x <= y.
Proof. intros Hy H. destruct (Rle_lt_dec x y) as [|L]; [assumption|]. exfalso. assert (y * y < x * x) by nra. lra. Qed.

Lemma schwarz n f g : abs2 (cip n f g) <= rsum n (fun k => abs2 (f k)) * rsum n (fun k => abs2 (g k)).
Proof.
  induction n as [|n IH]; [unfold cip, abs2; cbn; lra|]. unfold cip in *. rewrite sumn_S. cbn [rsum]. set (S := sumn n _) in *. set (A := rsum n (fun k => abs2 (f k))) in *.
  set (B := rsum n (fun k => abs2 (g k))) in *. set (s := cmul (cconj (f n)) (g n)). rewrite abs2_add.
  assert (Es : abs2 s = abs2 (f n) * abs2 (g n)) by (unfold s; rewrite abs2_mul, abs2_conj; reflexivity).
  assert (HA : 0 <= A) by (apply rsum_nonneg; intros; apply abs2_nonneg). assert (HB : 0 <= B) by (apply rsum_nonneg; intros; apply abs2_nonneg).
  pose proof (abs2_nonneg (f n)) as Ha. pose proof (abs2_nonneg (g n)) as Hb. pose proof (re_bound S s) as Hr. rewrite Es in *.
  set (a := abs2 (f n)) in *. set (b := abs2 (g n)) in *. set (r := fst S * fst s + snd S * snd s) in *. pose proof (abs2_nonneg S) as HS.
  assert (0 <= a * b) by (apply Rmult_le_pos; assumption).
  assert (H1 : r * r <= (A * B) * (a * b)) by (apply Rle_trans with (abs2 S * (a * b)); [exact Hr|apply Rmult_le_compat_r; assumption]).
  assert (H2 : 2 * r <= A * b + B * a).
  { apply sq_le; [assert (0 <= A * b) by (apply Rmult_le_pos; assumption); assert (0 <= B * a) by (apply Rmult_le_pos; assumption); lra|].
    pose proof (Rle_0_sqr (A * b - B * a)) as Q. unfold Rsqr in Q. replace ((A * b + B * a) * (A * b + B * a)) with ((A * b - B * a) * (A * b - B * a) + 4 * ((A * B) * (a * b))) by ring.
    replace (2 * r * (2 * r)) with (4 * (r * r)) by ring. lra. }
  replace ((A + a) * (B + b)) with (A * B + (A * b + B * a) + a * b) by ring. lra.
Qed.

Lemma re_cip n f g : fst (cip n f g) = rsum n (fun k => fst (f k) * fst (g k) + snd (f k) * snd (g k)).
Proof. unfold cip. induction n as [|n IH]; [reflexivity|]. rewrite sumn_S. cbn [rsum]. rewrite <- IH. cbn. ring. Qed.
Lemma sum_add n (f g : nat -> Cring) : rsum n (fun k => abs2 (cadd (f k) (g k))) = rsum n (fun k => abs2 (f k)) + rsum n (fun k => abs2 (g k)) + 2 * fst (cip n f g).
Proof. rewrite re_cip, <- rsum_scal, <- !rsum_add. apply rsum_ext. intros k _. apply abs2_add. Qed.

Lemma squares_nonneg v : 0 <= squares v.
Proof. apply rsum_nonneg. intros. apply abs2_nonneg. Qed.
Lemma norm_value v : norm_cplx v = Ok (sqrt (squares v)).
Proof.
  unfold norm_cplx. rewrite vec_mul_ok, Nat.eqb_refl. cbn [bind]. change (inner v v) with (cip (length v) (vel v) (vel v)). rewrite cip_self. cbn [fst snd].
  rewrite Rabs_R0. destruct (Rlt_dec (/ 100000) 0) as [H|_]; [lra|reflexivity].
Qed.
Lemma squares_of u n f : is_vec u n f -> squares u = rsum n (fun k => abs2 (f k)).
Proof. intros [L H]. unfold squares. rewrite L. apply rsum_ext. intros k Hk. unfold vel. rewrite H by exact Hk. reflexivity. Qed.
Lemma rsum_zero_inv n f : (forall k, 0 <= f k) -> rsum n f = 0 -> forall k, (k < n)%nat -> f k = 0.
Proof.
  intros P. induction n as [|n IH]; intros H k Hk; [lia|]. cbn [rsum] in H. assert (0 <= rsum n f) by (apply rsum_nonneg; auto). pose proof (P n).
  destruct (Nat.eq_dec k n) as [->|]; [lra|]. apply IH; [lra|lia].
Qed.
Lemma divide_ok v t : t <> 0 -> exists w, divide_eq v t = Ok w /\ is_vec w (length v) (fun k => Cdiv (vel v k) (RtoC t)).
Proof.
  intros Ht. unfold divide_eq. apply each_spec. intros i u Hi Hu H. rewrite (@vget_ok _ u i c0) by lia. cbn [bind]. destruct (Req_EM_T t 0); [contradiction|].
  unfold vel. rewrite H by lia. reflexivity.
Qed.
Lemma is_vec_eq {R : cring} (u v : list R) n f : is_vec u n f -> is_vec v n f -> u = v.
Proof. intros [A B] [C D]. apply nth_ext with (d := c0) (d' := c0); [congruence|]. intros k Hk. rewrite B, D by lia. reflexivity. Qed.
