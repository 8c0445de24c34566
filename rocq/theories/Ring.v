(** The numbers stored in matrices and vectors.

    The C++ classes are templates over the element type ([double],
    [std::complex<double>], ...). The models are stated for every commutative
    ring with a conjugation and a decidable equality, that is for exact
    arithmetic: rounding of floating-point numbers is not modelled.
    [Zring] (conjugation is the identity, like a real type) and [Gring]
    (Gaussian integers, like a complex type) are two instances, so every
    theorem quantified over [cring] applies to concrete matrices. *)
From Verif Require Import Prelude.
From Coq Require Import Ring.

Record cring : Type := mkring {
  car :> Type;
  c0 : car;                       (* T(0)  *)
  c1 : car;                       (* T(1)  *)
  cadd : car -> car -> car;       (* a + b *)
  cmul : car -> car -> car;       (* a * b *)
  csub : car -> car -> car;       (* a - b *)
  copp : car -> car;              (* -a    *)
  cconj : car -> car;             (* PsimagLite::conj(a) *)
  ceqb : car -> car -> bool;      (* a == b *)
  c_ring : ring_theory c0 c1 cadd cmul csub copp (@eq car);
  c_eqb_eq : forall a b, ceqb a b = true <-> a = b;
  c_conj_add : forall a b, cconj (cadd a b) = cadd (cconj a) (cconj b);
  c_conj_mul : forall a b, cconj (cmul a b) = cmul (cconj a) (cconj b);
  c_conj_inv : forall a, cconj (cconj a) = a;
  c_conj_1 : cconj c1 = c1
}.
Arguments c0 {c}.
Arguments c1 {c}.
Arguments cadd {c} _ _.
Arguments cmul {c} _ _.
Arguments csub {c} _ _.
Arguments copp {c} _.
Arguments cconj {c} _.
Arguments ceqb {c} _ _.

Declare Scope cring_scope.
Delimit Scope cring_scope with C.
Infix "+" := cadd : cring_scope.
Infix "*" := cmul : cring_scope.
Infix "-" := csub : cring_scope.
Notation "- a" := (copp a) : cring_scope.

(** Sum of [f a] over a list. *)
Fixpoint suml {R : cring} {A : Type} (f : A -> R) (l : list A) : R :=
  match l with
  | [] => c0
  | a :: l' => cadd (f a) (suml f l')
  end.

(** Sum of [f 0 .. f (n-1)]. *)
Definition sumn {R : cring} (n : nat) (f : nat -> R) : R := suml f (seq 0 n).

(** The reals-like instance. *)
Lemma Zring_th : ring_theory 0%Z 1%Z Z.add Z.mul Z.sub Z.opp (@eq Z).
Proof. constructor; intros; ring. Qed.

Lemma Z_conj_add (a b : Z) : (a + b = a + b)%Z. Proof. reflexivity. Qed.
Lemma Z_conj_mul (a b : Z) : (a * b = a * b)%Z. Proof. reflexivity. Qed.
Lemma Z_conj_inv (a : Z) : a = a. Proof. reflexivity. Qed.
Lemma Z_conj_1 : 1%Z = 1%Z. Proof. reflexivity. Qed.

Definition Zring : cring :=
  @mkring Z 0%Z 1%Z Z.add Z.mul Z.sub Z.opp (fun a => a) Z.eqb Zring_th
    Z.eqb_eq Z_conj_add Z_conj_mul Z_conj_inv Z_conj_1.
Canonical Structure Zring.

(** The complex-like instance: pairs (re, im) of integers. *)
Definition Gadd (a b : Z * Z) : Z * Z := ((fst a + fst b)%Z, (snd a + snd b)%Z).
Definition Gmul (a b : Z * Z) : Z * Z :=
  ((fst a * fst b - snd a * snd b)%Z, (fst a * snd b + snd a * fst b)%Z).
Definition Gopp (a : Z * Z) : Z * Z := ((- fst a)%Z, (- snd a)%Z).
Definition Gsub (a b : Z * Z) : Z * Z := ((fst a - fst b)%Z, (snd a - snd b)%Z).
Definition Gconj (a : Z * Z) : Z * Z := (fst a, (- snd a)%Z).
Definition Geqb (a b : Z * Z) : bool := Z.eqb (fst a) (fst b) && Z.eqb (snd a) (snd b).

Lemma Gring_th : ring_theory (0, 0)%Z (1, 0)%Z Gadd Gmul Gsub Gopp (@eq (Z * Z)).
Proof.
  constructor; intros; repeat match goal with a : (Z * Z)%type |- _ => destruct a end;
    unfold Gadd, Gmul, Gopp, Gsub; cbn [fst snd]; f_equal; ring.
Qed.

Lemma G_eqb_eq a b : Geqb a b = true <-> a = b.
Proof.
  destruct a as [a b'], b as [c d]. unfold Geqb. cbn [fst snd].
  rewrite andb_true_iff, !Z.eqb_eq.
  split; [intros [-> ->]; reflexivity|intros H; inversion H; auto].
Qed.
Lemma G_conj_add a b : Gconj (Gadd a b) = Gadd (Gconj a) (Gconj b).
Proof. destruct a, b. unfold Gconj, Gadd. cbn [fst snd]. f_equal; ring. Qed.
Lemma G_conj_mul a b : Gconj (Gmul a b) = Gmul (Gconj a) (Gconj b).
Proof. destruct a, b. unfold Gconj, Gmul. cbn [fst snd]. f_equal; ring. Qed.
Lemma G_conj_inv a : Gconj (Gconj a) = a.
Proof. destruct a. unfold Gconj. cbn [fst snd]. f_equal; ring. Qed.
Lemma G_conj_1 : Gconj (1, 0)%Z = (1, 0)%Z. Proof. reflexivity. Qed.

Definition Gring : cring :=
  @mkring (Z * Z) (0, 0)%Z (1, 0)%Z Gadd Gmul Gsub Gopp Gconj Geqb Gring_th
    G_eqb_eq G_conj_add G_conj_mul G_conj_inv G_conj_1.
Canonical Structure Gring.

(** ------------------------------------------------------------------ *)
(** Facts. *)
Section Facts.
  Variable R : cring.
  Local Open Scope cring_scope.
  Add Ring Rring : (c_ring R).

  Lemma ceqb_refl (a : R) : ceqb a a = true.
  Proof. apply c_eqb_eq. reflexivity. Qed.

  Lemma ceqb_spec (a b : R) : reflect (a = b) (ceqb a b).
  Proof. apply iff_reflect. symmetry. apply c_eqb_eq. Qed.

  Lemma cadd_0_l (a : R) : c0 + a = a. Proof. ring. Qed.
  Lemma cadd_0_r (a : R) : a + c0 = a. Proof. ring. Qed.
  Lemma cadd_comm (a b : R) : a + b = b + a. Proof. ring. Qed.
  Lemma cadd_assoc (a b c : R) : a + (b + c) = a + b + c. Proof. ring. Qed.
  Lemma cmul_0_l (a : R) : c0 * a = c0. Proof. ring. Qed.
  Lemma cmul_0_r (a : R) : a * c0 = c0. Proof. ring. Qed.
  Lemma cmul_1_l (a : R) : c1 * a = a. Proof. ring. Qed.
  Lemma cmul_1_r (a : R) : a * c1 = a. Proof. ring. Qed.
  Lemma cmul_comm (a b : R) : a * b = b * a. Proof. ring. Qed.
  Lemma cmul_assoc (a b c : R) : a * (b * c) = a * b * c. Proof. ring. Qed.
  Lemma cmul_add_l (a b c : R) : (a + b) * c = a * c + b * c. Proof. ring. Qed.
  Lemma cmul_add_r (a b c : R) : a * (b + c) = a * b + a * c. Proof. ring. Qed.

  Lemma cconj_0 : cconj c0 = @c0 R.
  Proof.
    assert (H : cconj (@c0 R) + cconj c0 = cconj c0)
      by (rewrite <- c_conj_add; f_equal; ring).
    transitivity (cconj (@c0 R) + cconj c0 - cconj c0); [ring|rewrite H; ring].
  Qed.

  Lemma suml_app {A} (f : A -> R) u v : suml f (u ++ v) = suml f u + suml f v.
  Proof. induction u; simpl; [ring|rewrite IHu; ring]. Qed.

  Lemma suml_ext_in {A} (f g : A -> R) l :
    (forall a, In a l -> f a = g a) -> suml f l = suml g l.
  Proof.
    induction l as [|a l IH]; intros H; simpl; [reflexivity|].
    rewrite H, IH; auto with datatypes.
  Qed.

  Lemma suml_ext {A} (f g : A -> R) l : (forall a, f a = g a) -> suml f l = suml g l.
  Proof. intros H. apply suml_ext_in. auto. Qed.

  Lemma suml_map {A B} (f : B -> R) (g : A -> B) l : suml f (map g l) = suml (fun a => f (g a)) l.
  Proof. induction l; simpl; congruence. Qed.

  Lemma suml_zero_in {A} (f : A -> R) l : (forall a, In a l -> f a = c0) -> suml f l = c0.
  Proof.
    induction l as [|a l IH]; intros H; simpl; [reflexivity|].
    rewrite H, IH; auto with datatypes. ring.
  Qed.

  Lemma suml_add {A} (f g : A -> R) l : suml (fun a => f a + g a) l = suml f l + suml g l.
  Proof. induction l; simpl; [ring|rewrite IHl; ring]. Qed.

  Lemma suml_mul_l {A} (f : A -> R) c l : suml (fun a => c * f a) l = c * suml f l.
  Proof. induction l; simpl; [ring|rewrite IHl; ring]. Qed.

  Lemma suml_mul_r {A} (f : A -> R) c l : suml (fun a => f a * c) l = suml f l * c.
  Proof. induction l; simpl; [ring|rewrite IHl; ring]. Qed.

  Lemma suml_conj {A} (f : A -> R) l : cconj (suml f l) = suml (fun a => cconj (f a)) l.
  Proof. induction l; simpl; [apply cconj_0|rewrite c_conj_add, IHl; reflexivity]. Qed.

  Lemma suml_opp {A} (f : A -> R) l : suml (fun a => - f a) l = - suml f l.
  Proof. induction l; simpl; [ring|rewrite IHl; ring]. Qed.

  Lemma suml_perm {A} (f : A -> R) u v : Permutation u v -> suml f u = suml f v.
  Proof.
    induction 1; simpl; [reflexivity|rewrite IHPermutation; reflexivity|ring|congruence].
  Qed.

  Lemma suml_concat {A} (f : A -> R) ll : suml f (concat ll) = suml (suml f) ll.
  Proof. induction ll; simpl; [reflexivity|rewrite suml_app, IHll; reflexivity]. Qed.

  Lemma suml_flat_map {A B} (f : B -> R) (g : A -> list B) l :
    suml f (flat_map g l) = suml (fun a => suml f (g a)) l.
  Proof. induction l; simpl; [reflexivity|rewrite suml_app, IHl; reflexivity]. Qed.

  Lemma suml_exchange {A B} (f : A -> B -> R) u v :
    suml (fun a => suml (f a) v) u = suml (fun b => suml (fun a => f a b) u) v.
  Proof.
    induction u as [|a u IH]; simpl.
    - symmetry. apply suml_zero_in. reflexivity.
    - rewrite IH, <- suml_add. reflexivity.
  Qed.

  Lemma suml_filter {A} (p : A -> bool) (f : A -> R) l :
    suml f (filter p l) = suml (fun a => if p a then f a else c0) l.
  Proof.
    induction l as [|a l IH]; simpl; [reflexivity|].
    destruct (p a); simpl; rewrite IH; ring.
  Qed.

  (** Only one index contributes. *)
  Lemma suml_single {A} (f : A -> R) l a :
    NoDup l -> In a l -> (forall b, In b l -> b <> a -> f b = c0) -> suml f l = f a.
  Proof.
    induction l as [|x l IH]; intros Hn Hin Hz; [destruct Hin|].
    inversion Hn as [|? ? Hx Hn']; subst. simpl. destruct Hin as [->|Hin].
    - rewrite suml_zero_in; [ring|]. intros b Hb. apply Hz; [right; exact Hb|].
      intros ->. contradiction.
    - rewrite IH; auto with datatypes.
      rewrite Hz; [ring|left; reflexivity|]. intros ->. contradiction.
  Qed.

  Lemma sumn_S (n : nat) (f : nat -> R) : sumn (S n) f = sumn n f + f n.
  Proof. unfold sumn. rewrite seq_S, suml_app. simpl. ring. Qed.

  Lemma sumn_ext (n : nat) (f g : nat -> R) :
    (forall k, (k < n)%nat -> f k = g k) -> sumn n f = sumn n g.
  Proof.
    intros H. apply suml_ext_in. intros a Ha. apply in_seq in Ha. apply H. lia.
  Qed.

  Lemma sumn_zero (n : nat) (f : nat -> R) :
    (forall k, (k < n)%nat -> f k = c0) -> sumn n f = c0.
  Proof.
    intros H. apply suml_zero_in. intros a Ha. apply in_seq in Ha. apply H. lia.
  Qed.

  Lemma sumn_delta (n : nat) (f : nat -> R) j :
    (j < n)%nat -> sumn n (fun k => if Nat.eqb j k then f k else c0) = f j.
  Proof.
    intros H. unfold sumn. rewrite (suml_single _ _ j).
    - rewrite Nat.eqb_refl. reflexivity.
    - apply seq_NoDup.
    - apply in_seq. lia.
    - intros b _ Hb. destruct (Nat.eqb_spec j b); [congruence|reflexivity].
  Qed.

  Lemma sumn_delta_out (n : nat) (f : nat -> R) j :
    (n <= j)%nat -> sumn n (fun k => if Nat.eqb j k then f k else c0) = c0.
  Proof.
    intros H. apply sumn_zero. intros k Hk.
    destruct (Nat.eqb_spec j k); [lia|reflexivity].
  Qed.

  Lemma sumn_add (n : nat) (f g : nat -> R) : sumn n (fun k => f k + g k) = sumn n f + sumn n g.
  Proof. apply suml_add. Qed.
  Lemma sumn_mul_l (n : nat) (f : nat -> R) c : sumn n (fun k => c * f k) = c * sumn n f.
  Proof. apply suml_mul_l. Qed.
  Lemma sumn_mul_r (n : nat) (f : nat -> R) c : sumn n (fun k => f k * c) = sumn n f * c.
  Proof. apply suml_mul_r. Qed.
  Lemma sumn_conj (n : nat) (f : nat -> R) : cconj (sumn n f) = sumn n (fun k => cconj (f k)).
  Proof. apply suml_conj. Qed.
  Lemma sumn_exchange (n m : nat) (f : nat -> nat -> R) :
    sumn n (fun i => sumn m (f i)) = sumn m (fun j => sumn n (fun i => f i j)).
  Proof. apply suml_exchange. Qed.

  (** Sum over a list grouped by a key. *)
  Lemma suml_group {A} (key : A -> nat) (f : A -> R) l n :
    (forall a, In a l -> (key a < n)%nat) ->
    suml f l = sumn n (fun k => suml (fun a => if Nat.eqb (key a) k then f a else c0) l).
  Proof.
    intros H. unfold sumn. rewrite suml_exchange. apply suml_ext_in. intros a Ha.
    symmetry. exact (sumn_delta n (fun _ => f a) (key a) (H a Ha)).
  Qed.
End Facts.

(** Gaussian rationals: the complex-like instance in which unitary matrices with
    more than one non-zero element per row exist. *)
From Coq Require Import QArith Qcanon.

Definition QGadd (a b : Qc * Qc) : Qc * Qc := ((fst a + fst b)%Qc, (snd a + snd b)%Qc).
Definition QGmul (a b : Qc * Qc) : Qc * Qc :=
  ((fst a * fst b - snd a * snd b)%Qc, (fst a * snd b + snd a * fst b)%Qc).
Definition QGopp (a : Qc * Qc) : Qc * Qc := ((- fst a)%Qc, (- snd a)%Qc).
Definition QGsub (a b : Qc * Qc) : Qc * Qc := ((fst a - fst b)%Qc, (snd a - snd b)%Qc).
Definition QGconj (a : Qc * Qc) : Qc * Qc := (fst a, (- snd a)%Qc).
Definition Qceqb (x y : Qc) : bool := if Qc_eq_dec x y then true else false.
Definition QGeqb (a b : Qc * Qc) : bool := Qceqb (fst a) (fst b) && Qceqb (snd a) (snd b).

Lemma Qceqb_eq x y : Qceqb x y = true <-> x = y.
Proof. unfold Qceqb. destruct (Qc_eq_dec x y); split; congruence. Qed.

Lemma QGring_th : ring_theory (0, 0)%Qc (1, 0)%Qc QGadd QGmul QGsub QGopp (@eq (Qc * Qc)).
Proof.
  constructor; intros; repeat match goal with a : (Qc * Qc)%type |- _ => destruct a end;
    unfold QGadd, QGmul, QGopp, QGsub; cbn [fst snd]; f_equal; ring.
Qed.
Lemma QG_eqb_eq a b : QGeqb a b = true <-> a = b.
Proof.
  destruct a as [a b'], b as [c d]. unfold QGeqb. cbn [fst snd].
  rewrite andb_true_iff, !Qceqb_eq.
  split; [intros [-> ->]; reflexivity|intros H; inversion H; auto].
Qed.
Lemma QG_conj_add a b : QGconj (QGadd a b) = QGadd (QGconj a) (QGconj b).
Proof. destruct a, b. unfold QGconj, QGadd. cbn [fst snd]. f_equal; ring. Qed.
Lemma QG_conj_mul a b : QGconj (QGmul a b) = QGmul (QGconj a) (QGconj b).
Proof. destruct a, b. unfold QGconj, QGmul. cbn [fst snd]. f_equal; ring. Qed.
Lemma QG_conj_inv a : QGconj (QGconj a) = a.
Proof. destruct a. unfold QGconj. cbn [fst snd]. f_equal; ring. Qed.
Lemma QG_conj_1 : QGconj (1, 0)%Qc = (1, 0)%Qc.
Proof. unfold QGconj. cbn [fst snd]. f_equal. Qed.

Definition QGring : cring :=
  @mkring (Qc * Qc) (0, 0)%Qc (1, 0)%Qc QGadd QGmul QGsub QGopp QGconj QGeqb QGring_th
    QG_eqb_eq QG_conj_add QG_conj_mul QG_conj_inv QG_conj_1.
