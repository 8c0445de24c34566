(** C105: decompositions of dense matrices. *)
From Coq Require Import Ascii String ZArith QArith Qcanon.
From Verif Require Import Prelude Ring Dense_Model Dense_Spec Dense_Proofs Lap_Model Lap_Spec Lap_Proofs.
Import List.
Local Close Scope Qc_scope.
Local Close Scope Q_scope.

(** diag of a Hermitian matrix with rows: LAPACK gets valid arguments and enough memory whatever the size; an error of
    LAPACK is thrown; else the values are the eigenvalues, and with V the matrix has become the eigenvectors. *)
Theorem C105_diag_partial : forall (T R : cring) (ofR : R -> T) le (L : lapack T R) m eigs option n, lapack_ok ofR le L ->
  mat_wf m -> m_nrow m = n -> m_ncol m = n -> (1 <= n)%nat -> hermitian n (melem m) ->
  (258 * Z.of_nat n <= INT_MAX)%Z -> (lp_syev_opt L option (Z.of_nat n) < INT_MAX)%Z -> option = "N"%char \/ option = "V"%char ->
  match diag T R L m eigs option with
  | Ok (v, e) => mat_wf v /\ m_nrow v = n /\ m_ncol v = n /\ List.length e = n /\
      (option = "V"%char -> eigen ofR le n (melem m) (melem v) (fun k => nth k e c0)) /\
      exists v', eigen ofR le n (melem m) v' (fun k => nth k e c0)
  | Throw => exists lwork, snd (lp_syev L lwork option n (triangle true n (melem m))) <> 0%Z
  | _ => False
  end.
Proof.
  intros T R ofR le L m eigs op n H W Hr Hc Hn Hh Hb Ho J. destruct (diag_ok T R L ofR le H m eigs op n W Hr Hc Hn Hb Ho J) as (lw & E). rewrite E.
  assert (La : List.length (m_data m) = (n * n)%nat) by (unfold mat_wf in W; rewrite W, Hr, Hc; reflexivity).
  destruct (lp_syev L lw op n (triangle true n (melem m))) as [[v e] info] eqn:Es. destruct (Z.eqb_spec info 0) as [-> |Hi]; cbn [negb].
  2:{ exists lw. rewrite Es. exact Hi. }
  assert (G : forall v1, eigen ofR le n (melem m) v1 e -> eigen ofR le n (melem m) v1 (fun k => nth k (write (vresize eigs n c0) n e c0) c0)).
  { intros v1 (G1 & G2 & G3). assert (X : forall k, (k < n)%nat -> nth k (write (vresize eigs n c0) n e c0) c0 = e k) by (intros k Hk; apply nth_write; rewrite ?vresize_length; auto).
    split; auto. split.
    - intros i j Hi Hj. rewrite G2 by auto. apply sumn_ext. intros k Hk. rewrite X by lia. reflexivity.
    - intros i j Hi Hj. rewrite !X by lia. auto. }
  split; [unfold mat_wf; cbn [m_data m_nrow m_ncol]; rewrite store_length; exact La|]. split; [reflexivity|]. split; [reflexivity|]. split; [rewrite write_length, vresize_length; reflexivity|].
  split.
  - intros ->. apply G. pose proof (ok_syev_v _ _ _ _ _ H lw n (melem m) v e Hn Hh Es) as (O & D & A).
    assert (X : forall i j, (i < n)%nat -> (j < n)%nat -> melem (mkmat n n (store T (m_data m) (Z.of_nat n) n n v)) i j = v i j) by (intros; apply melem_store; auto).
    split; [|split; [|exact A]].
    + intros p q Hp Hq. rewrite <- (O p q Hp Hq). apply sumn_ext. intros k Hk. rewrite !X by lia. reflexivity.
    + intros i j Hi Hj. rewrite (D i j Hi Hj). apply sumn_ext. intros k Hk. rewrite !X by lia. reflexivity.
  - destruct J as [-> | ->].
    + destruct (ok_syev_n _ _ _ _ _ H lw n (melem m) v e Hn Hh Es) as (v' & Hv). exists v'. auto.
    + exists v. apply G. exact (ok_syev_v _ _ _ _ _ H lw n (melem m) v e Hn Hh Es).
Qed.
Print Assumptions C105_diag_partial.

(** geev of a square matrix, with room for the values and vectors: memory and errors as for diag; the values are
    eigenvalues and the vectors that are asked for are theirs. *)
Theorem C105_geev_partial : forall (T R : cring) (ofR : R -> T) le (L : lapack T R) jobvl jobvr a w vl vr n, lapack_ok ofR le L ->
  mat_wf a -> mat_wf vl -> mat_wf vr -> m_nrow a = n -> m_ncol a = n -> m_nrow vl = n -> m_ncol vl = n -> m_nrow vr = n -> m_ncol vr = n ->
  List.length w = n -> (1 <= n)%nat -> (258 * Z.of_nat n <= INT_MAX)%Z -> (lp_geev_opt L jobvl jobvr (Z.of_nat n) < INT_MAX)%Z ->
  jobvl = "N"%char \/ jobvl = "V"%char -> jobvr = "N"%char \/ jobvr = "V"%char ->
  match geev T R L jobvl jobvr a w vl vr with
  | Ok (_, e, l, r) => List.length e = n /\
      (jobvl = "V"%char -> left_eigen n (melem a) (fun k => nth k e c0) (melem l)) /\ (jobvl = "N"%char -> l = vl) /\
      (jobvr = "V"%char -> right_eigen n (melem a) (fun k => nth k e c0) (melem r)) /\ (jobvr = "N"%char -> r = vr) /\
      exists v, right_eigen n (melem a) (fun k => nth k e c0) v
  | Throw => exists lwork, snd (lp_geev L lwork jobvl jobvr n (columns n n (melem a))) <> 0%Z
  | _ => False
  end.
Proof.
  intros T R ofR le L jl jr a w vl vr n H Wa Wl Wr A1 A2 L1 L2 R1 R2 Hw Hn Hb Ho J1 J2.
  destruct (geev_ok T R L ofR le H jl jr a w vl vr n Wa Wl Wr A1 A2 L1 L2 R1 R2 ltac:(lia) Hn Hb Ho J1 J2) as (lw & E). rewrite E.
  unfold mat_wf in Wl, Wr. rewrite L1, L2 in Wl. rewrite R1, R2 in Wr.
  destruct (lp_geev L lw jl jr n (columns n n (melem a))) as [[[[a' e] x] y] info] eqn:Es. destruct (Z.eqb_spec info 0) as [-> |Hi]; cbn [negb].
  2:{ exists lw. rewrite Es. exact Hi. }
  destruct (ok_geev _ _ _ _ _ H lw jl jr n (melem a) a' e x y Hn Es) as (Gl & Gr & Gv).
  assert (X : forall k, (k < n)%nat -> nth k (write w n e c0) c0 = e k) by (intros k Hk; apply nth_write; lia).
  split; [rewrite write_length; exact Hw|]. split; [|split; [|split; [|split]]].
  - intros ->. intros k Hk. destruct (Gl eq_refl k Hk) as [G1 G2]. cbn [Ascii.eqb Bool.eqb].
    assert (Y : forall i, (i < n)%nat -> melem (mkmat n n (store T (m_data vl) (Z.of_nat n) n n x)) i k = x i k) by (intros i Hi; apply melem_store; auto).
    split; [rewrite <- G1; apply sumn_ext; intros i Hi; rewrite !Y by lia; reflexivity|].
    intros j Hj. rewrite X, Y by auto. rewrite <- (G2 j Hj). apply sumn_ext. intros i Hi. rewrite Y by lia. reflexivity.
  - intros ->. cbn [Ascii.eqb Bool.eqb]. destruct vl as [r c d]. cbn in *. subst. reflexivity.
  - intros ->. intros k Hk. destruct (Gr eq_refl k Hk) as [G1 G2]. cbn [Ascii.eqb Bool.eqb].
    assert (Y : forall i, (i < n)%nat -> melem (mkmat n n (store T (m_data vr) (Z.of_nat n) n n y)) i k = y i k) by (intros i Hi; apply melem_store; auto).
    split; [rewrite <- G1; apply sumn_ext; intros i Hi; rewrite !Y by lia; reflexivity|].
    intros j Hj. rewrite X, Y by auto. rewrite <- (G2 j Hj). apply sumn_ext. intros i Hi. rewrite Y by lia. reflexivity.
  - intros ->. cbn [Ascii.eqb Bool.eqb]. destruct vr as [r c d]. cbn in *. subst. reflexivity.
  - destruct Gv as (v & Gv). exists v. intros k Hk. rewrite X by auto. apply Gv. exact Hk.
Qed.
Print Assumptions C105_geev_partial.

(** inverse of a square matrix gives its inverse, or throws; so it throws for every matrix that has none. *)
Theorem C105_inverse_partial : forall (T R : cring) (ofR : R -> T) le (L : lapack T R) m n, lapack_ok ofR le L ->
  mat_wf m -> m_nrow m = n -> m_ncol m = n -> (1 <= n)%nat -> (Z.of_nat n <= INT_MAX)%Z -> (lp_getri_opt L (Z.of_nat n) + 2 <= INT_MAX)%Z ->
  match inverse T R L m with
  | Ok g => mat_wf g /\ m_nrow g = n /\ m_ncol g = n /\ inverse_of n (melem m) (melem g)
  | Throw => exists lwork, let '(lu, piv, _) := lp_getrf L n (columns n n (melem m)) in snd (lp_getri L lwork n (columns n n lu) (map piv (seq 0 n))) <> 0%Z
  | _ => False
  end.
Proof.
  intros T R ofR le L m n H W Hr Hc Hn Hb Ho. destruct (inverse_ok T R L ofR le H m n W Hr Hc Hn Hb Ho) as (lw & E). rewrite E.
  assert (La : List.length (m_data m) = (n * n)%nat) by (unfold mat_wf in W; rewrite W, Hr, Hc; reflexivity).
  destruct (lp_getrf L n (columns n n (melem m))) as [[lu p] i1] eqn:E1. destruct (lp_getri L lw n (columns n n lu) (map p (seq 0 n))) as [g info] eqn:E2.
  destruct (Z.eqb_spec info 0) as [-> |Hi]; cbn [negb].
  2:{ exists lw. rewrite E2. exact Hi. }
  split; [unfold mat_wf; cbn [m_data m_nrow m_ncol]; rewrite !store_length; exact La|]. split; [reflexivity|]. split; [reflexivity|].
  pose proof (ok_getri _ _ _ _ _ H lw n (melem m) lu p i1 g Hn E1 E2) as G.
  assert (X : forall i j, (i < n)%nat -> (j < n)%nat -> melem (mkmat n n (store T (store T (m_data m) (Z.of_nat n) n n lu) (Z.of_nat n) n n g)) i j = g i j)
    by (intros i j Hi Hj; apply melem_store; rewrite ?store_length; auto).
  intros i j Hi Hj. destruct (G i j Hi Hj) as [G1 G2]. split; [rewrite <- G1|rewrite <- G2]; apply sumn_ext; intros k Hk; rewrite X by lia; reflexivity.
Qed.
Print Assumptions C105_inverse_partial.

(** Svd with A or S, gesdd or gesvd, of every matrix with elements for which the numbers of workspace are ints: if LAPACK
    ends with INFO 0, the matrix has become the left vectors, and there are the singular values and the right vectors. It
    throws only if INFO is negative. The third argument must be empty or have the right number of rows. *)
Theorem C105_svd_partial : forall (T R : cring) (ofR : R -> T) le (L : lapack T R) name dd jobz a s vt m n, lapack_ok ofR le L ->
  (name = "gesdd"%string /\ dd = true) \/ (name = "gesvd"%string /\ dd = false) -> jobz = "A"%char \/ jobz = "S"%char ->
  mat_wf a -> m_nrow a = m -> m_ncol a = n -> (1 <= m)%nat -> (1 <= n)%nat ->
  let p := if Ascii.eqb jobz "A" then m else Nat.min m n in
  let q := if Ascii.eqb jobz "A" then n else Nat.min m n in
  m_nrow vt = 0%nat \/ m_nrow vt = q ->
  (let k := Z.of_nat (Nat.min m n) in 2 * k * Z.max (5 * k + 7) (2 * Z.of_nat (Nat.max m n) + 2 * k + 1) <= INT_MAX)%Z ->
  (lp_svd_opt L dd jobz (Z.of_nat m) (Z.of_nat n) + (Z.of_nat m + Z.of_nat n) * 256 + 10 <= INT_MAX)%Z ->
  exists lwork, let info := snd (lp_svd L dd lwork jobz m n (columns m n (melem a))) in
  match svd T R L name jobz a s vt with
  | Ok (u, e, v) => (0 <= info)%Z /\ mat_wf u /\ m_nrow u = m /\ m_ncol u = p /\ mat_wf v /\ m_nrow v = q /\ m_ncol v = n /\ List.length e = Nat.min m n /\
      (info = 0%Z -> singular ofR le m n p q (melem a) (melem u) (fun k => nth k e c0) (melem v))
  | Throw => (info < 0)%Z
  | _ => False
  end.
Proof.
  intros T R ofR le L name dd c a s vt m n H Hd J W Hr Hc Hm Hn p q Hvt Hre Ho.
  assert (Dd : dd_of name = Some dd) by (destruct Hd as [[-> ->]|[-> ->]]; reflexivity).
  assert (Hre' : (svd_reals m n <= INT_MAX)%Z) by (unfold svd_reals; cbv zeta in Hre; rewrite Nat2Z.inj_min, Nat2Z.inj_max in Hre; exact Hre).
  destruct (svd_ok T R L ofR le H name dd c a s vt m n Dd J W Hr Hc Hm Hn Hvt Hre' Ho) as (lw & E). exists lw. cbv zeta. rewrite E.
  fold p in E |- *. change (ucols c m n) with p. change (vrows c m n) with q. clear E.
  destruct (lp_svd L dd lw c m n (columns m n (melem a))) as [[[[a' e] x] y] info] eqn:Es. cbn [snd].
  destruct (Z.ltb_spec info 0); [assumption|]. split; [assumption|].
  split; [unfold mat_wf; cbn [m_data m_nrow m_ncol]; rewrite store_length; apply repeat_length|]. split; [reflexivity|]. split; [reflexivity|].
  split; [unfold mat_wf; cbn [m_data m_nrow m_ncol]; rewrite store_length; apply vresize_length|]. split; [reflexivity|]. split; [reflexivity|].
  split; [rewrite write_length; apply vresize_length|]. intros ->.
  destruct (ok_svd _ _ _ _ _ H dd lw c m n (melem a) a' e x y Hm Hn Es) as (G1 & G2 & G3 & G4 & G5). fold p in G1. fold q in G2.
  assert (Hp : (Nat.min m n <= p)%nat) by (unfold p; destruct (Ascii.eqb c "A"); lia).
  assert (Hq : (Nat.min m n <= q)%nat) by (unfold q; destruct (Ascii.eqb c "A"); lia).
  assert (X : forall i j, (i < m)%nat -> (j < p)%nat -> melem (mkmat m p (store T (repeat c0 (m * p)) (Z.of_nat m) m p x)) i j = x i j)
    by (intros i j Hi Hj; apply melem_store; auto; apply repeat_length).
  assert (Y : forall i j, (i < q)%nat -> (j < n)%nat -> melem (mkmat q n (store T (vresize (m_data vt) (q * n) c0) (Z.of_nat q) q n y)) i j = y i j)
    by (intros i j Hi Hj; apply melem_store; auto; apply vresize_length).
  assert (Z : forall k, (k < Nat.min m n)%nat -> nth k (write (vresize s (Nat.min m n) c0) (Nat.min m n) e c0) c0 = e k)
    by (intros k Hk; apply nth_write; rewrite ?vresize_length; auto).
  split; [|split; [|split; [|split]]].
  - intros i j Hi Hj. rewrite <- (G1 i j Hi Hj). apply sumn_ext. intros k Hk. rewrite !X by lia. reflexivity.
  - intros i j Hi Hj. rewrite <- (G2 i j Hi Hj). apply sumn_ext. intros k Hk. rewrite !Y by lia. reflexivity.
  - intros i j Hi Hj. rewrite (G3 i j Hi Hj). apply sumn_ext. intros k Hk. rewrite X, Y, Z by lia. reflexivity.
  - intros i j Hi Hj. rewrite !Z by lia. auto.
  - intros i Hi. rewrite Z by lia. auto.
Qed.
Print Assumptions C105_svd_partial.

(** Options other than A and S, and other backends, are refused. *)
Theorem C105_svd_refused : forall (T R : cring) (L : lapack T R) name jobz a s vt,
  (jobz <> "A"%char -> jobz <> "S"%char -> svd T R L name jobz a s vt = Throw) /\
  (name <> "gesdd"%string -> name <> "gesvd"%string -> forall r, svd T R L name jobz a s vt <> Ok r).
Proof.
  intros T R L name c a s vt. split.
  - intros H1 H2. unfold svd. apply Ascii.eqb_neq in H1, H2. rewrite H1, H2. reflexivity.
  - intros H1 H2 r. unfold svd, mycall. apply String.eqb_neq in H1, H2. rewrite H1, H2.
    repeat match goal with |- context [if ?b then _ else _] => destruct b; try discriminate end;
    repeat match goal with |- bind ?x _ <> _ => destruct x; cbn [bind]; try discriminate end.
Qed.
Print Assumptions C105_svd_refused.

(** ** What goes wrong *)
(** A library for the examples: it knows a Hermitian matrix, a matrix with singular values and one with an inverse, and
    fails for all others. *)
Definition qc (n : Z) (d : positive) : Qc := Q2Qc (Qmake n d).
Definition re (n : Z) (d : positive) : QGring := (qc n d, qc 0 1).
Definition im (n : Z) (d : positive) : QGring := (qc 0 1, qc n d).
Definition el (l : list QGring) (i j : nat) : QGring := nth (i + j * 2) l c0.
Definition rot : list QGring := [re 3 5; im 4 5; im 4 5; re 3 5].
Definition herm : list QGring := [re 41 25; im (-12) 25; im 12 25; re 34 25].
Definition some : list QGring := [re 2 25; im 36 25; im 36 25; re (-23) 25].
Definition shear : list QGring := [re 1 1; re 0 1; re 1 1; re 1 1].
Definition back : list QGring := [re 1 1; re 0 1; re (-1) 1; re 1 1].
Definition ne {A} (a b : A) (k : nat) : A := match k with O => a | _ => b end.
Definition zero2 : nat -> nat -> QGring := fun _ _ => c0.
Definition id_re (x : QGring) : QGring := x.
Definition le_re (x y : QGring) : Prop := Qcle (fst x) (fst y).
Definition toy : lapack QGring QGring :=
  mklapack true
    (fun _ n => 3 * n)%Z
    (fun _ _ n l => if (n =? 2)%nat && list_eqb QGring l [re 41 25; im 12 25; re 34 25] then (el rot, ne (re 1 1) (re 2 1), 0%Z) else (zero2, fun _ => c0, 1%Z))
    (fun _ _ n => 2 * n)%Z
    (fun _ _ _ n l => if (n =? 2)%nat && list_eqb QGring l herm then (zero2, ne (re 1 1) (re 2 1), el rot, el rot, 0%Z) else (zero2, fun _ => c0, zero2, zero2, 1%Z))
    (fun n l => if (n =? 2)%nat && list_eqb QGring l shear then (el shear, ne 1 2, 0)%Z else (zero2, ne 1 2, 1)%Z)
    (fun n => n)
    (fun _ n l p => if (n =? 2)%nat && list_eqb QGring l shear then (el back, 0%Z) else (zero2, 1%Z))
    (fun _ _ m n => Z.min m n * Z.min m n + 2 * Z.min m n + Z.max m n)%Z
    (fun _ _ _ m n l => if (m =? 2)%nat && (n =? 2)%nat && list_eqb QGring l some then (zero2, ne (re 2 1) (re 1 1), el rot, el rot, 0%Z)
                        else (zero2, fun _ => c0, zero2, zero2, 1%Z)).
Lemma list_eqb_true (R : cring) (u : list R) : forall v, list_eqb R u v = true -> u = v.
Proof. induction u as [|x u IH]; intros [|y v] H; cbn in H; try discriminate; auto. apply andb_prop in H. destruct H as [H1 H2]. apply c_eqb_eq in H1. apply IH in H2. congruence. Qed.
Ltac qg := apply c_eqb_eq; vm_compute; reflexivity.
Lemma toy_ok : lapack_ok id_re le_re toy.
Proof.
  assert (Er : eigen id_re le_re 2 (el herm) (el rot) (ne (re 1 1) (re 2 1))).
  { split; [|split].
    - intros p q Hp Hq. destruct p as [|[|p]], q as [|[|q]]; try lia; qg.
    - intros p q Hp Hq. destruct p as [|[|p]], q as [|[|q]]; try lia; qg.
    - intros i j Hi Hj. destruct i as [|[|i]], j as [|[|j]]; try lia; vm_compute; discriminate. }
  assert (Eh : forall f, hermitian 2 f -> triangle true 2 f = [re 41 25; im 12 25; re 34 25] -> forall i j, (i < 2)%nat -> (j < 2)%nat -> f i j = el herm i j).
  { intros f Hh H2. cbv [triangle seq map flat_map app] in H2. injection H2 as H00 H01 H11. intros i j Hi Hj.
    destruct i as [|[|i]], j as [|[|j]]; try lia; cbn [el herm nth Nat.mul Nat.add]; auto. rewrite (Hh 0%nat 1%nat) by lia. rewrite H01. qg. }
  assert (Ee : forall f v e, eigen id_re le_re 2 (el herm) v e -> (forall i j, (i < 2)%nat -> (j < 2)%nat -> f i j = el herm i j) -> eigen id_re le_re 2 f v e).
  { intros f v e (A & B & C) Hf. split; auto. split; auto. intros i j Hi Hj. rewrite Hf by auto. auto. }
  assert (Ec : forall f l, columns 2 2 f = l -> List.length l = 4%nat -> forall i j, (i < 2)%nat -> (j < 2)%nat -> f i j = el l i j).
  { intros f l <- _ i j Hi Hj. destruct i as [|[|i]], j as [|[|j]]; try lia; reflexivity. }
  assert (Hs : forall f g : nat -> QGring, (forall k, (k < 2)%nat -> f k = g k) -> sumn 2 f = sumn 2 g) by (intros; apply sumn_ext; auto).
  constructor; cbn [lp_complex lp_syev_opt lp_syev lp_geev_opt lp_geev lp_getrf lp_getri_opt lp_getri lp_svd_opt lp_svd toy].
  - intros _ n Hn. lia.
  - intros _ n f v e Hn Hh H. destruct ((n =? 2)%nat && list_eqb QGring (triangle true n f) _)%bool eqn:E; [|discriminate].
    apply andb_prop in E. destruct E as [E1 E2]. apply Nat.eqb_eq in E1. subst n. apply list_eqb_true in E2. injection H as <- <-. apply Ee; auto.
  - intros _ n f v e Hn Hh H. destruct ((n =? 2)%nat && list_eqb QGring (triangle true n f) _)%bool eqn:E; [|discriminate].
    apply andb_prop in E. destruct E as [E1 E2]. apply Nat.eqb_eq in E1. subst n. apply list_eqb_true in E2. injection H as _ <-. exists (el rot). apply Ee; auto.
  - intros _ _ n Hn. lia.
  - intros _ jl jr n f a w vl vr Hn H. destruct ((n =? 2)%nat && list_eqb QGring (columns n n f) herm)%bool eqn:E; [|discriminate].
    apply andb_prop in E. destruct E as [E1 E2]. apply Nat.eqb_eq in E1. subst n. apply list_eqb_true in E2. injection H as _ <- <- <-.
    pose proof (Ec f herm E2 eq_refl) as Hf.
    assert (Hr : right_eigen 2 f (ne (re 1 1) (re 2 1)) (el rot)).
    { intros k Hk. split; [destruct k as [|[|k]]; try lia; qg|]. intros i Hi. rewrite (Hs _ (fun j => (el herm i j * el rot j k)%C)) by (intros j Hj; rewrite Hf by auto; reflexivity).
      destruct k as [|[|k]], i as [|[|i]]; try lia; qg. }
    split; [|split; eauto]. intros _ k Hk. split; [destruct k as [|[|k]]; try lia; qg|]. intros j Hj.
    rewrite (Hs _ (fun i => (cconj (el rot i k) * el herm i j)%C)) by (intros i Hi; rewrite Hf by auto; reflexivity).
    destruct k as [|[|k]], j as [|[|j]]; try lia; qg.
  - intros n Hn. lia.
  - intros _ n f lu piv info g Hn H1 H2. destruct ((n =? 2)%nat && list_eqb QGring (columns n n f) shear)%bool eqn:E.
    + apply andb_prop in E. destruct E as [E1 E2]. apply Nat.eqb_eq in E1. subst n. apply list_eqb_true in E2. injection H1 as <- <- <-.
      pose proof (Ec f shear E2 eq_refl) as Hf.
      destruct ((2 =? 2)%nat && list_eqb QGring (columns 2 2 (el shear)) shear)%bool; [|discriminate]. injection H2 as <-.
      intros i j Hi Hj. split.
      * rewrite (Hs _ (fun k => (el shear i k * el back k j)%C)) by (intros k Hk; rewrite Hf by auto; reflexivity). destruct i as [|[|i]], j as [|[|j]]; try lia; qg.
      * rewrite (Hs _ (fun k => (el back i k * el shear k j)%C)) by (intros k Hk; rewrite Hf by auto; reflexivity). destruct i as [|[|i]], j as [|[|j]]; try lia; qg.
    + injection H1 as <- <- <-. destruct (n =? 2)%nat eqn:E2; [|discriminate]. apply Nat.eqb_eq in E2. subst n.
      exfalso. change (list_eqb QGring (columns 2 2 zero2) shear) with false in H2. discriminate.
  - intros dd _ m n Hm Hn. unfold svd_lwork. cbn [lp_complex toy]. destruct dd; lia.
  - intros dd _ c m n f a s u vt Hm Hn H. destruct ((m =? 2)%nat && (n =? 2)%nat && list_eqb QGring (columns m n f) some)%bool eqn:E; [|discriminate].
    apply andb_prop in E. destruct E as [E E2]. apply andb_prop in E. destruct E as [E0 E1]. apply Nat.eqb_eq in E0, E1. subst m n. apply list_eqb_true in E2. injection H as _ <- <- <-.
    pose proof (Ec f some E2 eq_refl) as Hf. cbn [Nat.min].
    assert (E3 : (if Ascii.eqb c "A" then 2 else 2)%nat = 2%nat) by (destruct (Ascii.eqb c "A"); auto). rewrite E3.
    split; [|split; [|split; [|split]]].
    + intros p q Hp Hq. destruct p as [|[|p]], q as [|[|q]]; try lia; qg.
    + intros p q Hp Hq. destruct p as [|[|p]], q as [|[|q]]; try lia; qg.
    + intros i j Hi Hj. rewrite Hf by auto. destruct i as [|[|i]], j as [|[|j]]; try lia; qg.
    + intros i j Hi Hj. cbn [Nat.min] in Hj. destruct i as [|[|i]], j as [|[|j]]; try lia; vm_compute; discriminate.
    + intros i Hi. cbn [Nat.min] in Hi. destruct i as [|[|i]]; try lia; vm_compute; discriminate.
Qed.

(** A matrix that is not square is not refused: of a 2 by 3 matrix, diag decomposes another matrix, made of the first,
    fourth and fifth of the six elements, and inverse inverts the first two columns; inverse of a 2 by 1 matrix is
    undefined. *)
Theorem C105_square_refuted : forall x y z,
  (do (_, e) <- diag QGring QGring toy (mkmat 2 3 [re 41 25; x; y; im 12 25; re 34 25; z]) [] "V" ;; Ok e) = Ok [re 1 1; re 2 1] /\
  (do g <- inverse QGring QGring toy (mkmat 2 3 (shear ++ [y; z])) ;; Ok (firstn 4 (m_data g))) = Ok back /\
  inverse QGring QGring toy (mkmat 2 1 [x; y]) = UB.
Proof. intros x y z. split; [vm_compute; reflexivity|]. split; [vm_compute; reflexivity|reflexivity]. Qed.
Print Assumptions C105_square_refuted.

(** A matrix that is not Hermitian is not refused by diag: what is below the diagonal is not looked at. *)
Theorem C105_hermitian_refuted : forall x,
  (do (_, e) <- diag QGring QGring toy (mkmat 2 2 [re 41 25; x; im 12 25; re 34 25]) [] "V" ;; Ok e) = Ok [re 1 1; re 2 1].
Proof. intros x. vm_compute. reflexivity. Qed.
Print Assumptions C105_hermitian_refuted.

(** diag of a matrix without rows throws for real elements, and is undefined for complex ones; so are inverse and Svd. *)
Theorem C105_empty_refuted : forall (T R : cring) (L : lapack T R) eigs option s vt,
  diag T R L (mat_empty T) eigs option = (if lp_complex L then UB else Throw) /\ inverse T R L (mat_empty T) = UB /\
  (m_nrow vt = 0%nat -> svd T R L "gesdd" "S" (mat_empty T) s vt = UB).
Proof.
  intros T R L eigs op s vt. split; [unfold diag; destruct (lp_complex L); reflexivity|]. split; [reflexivity|].
  intros H. unfold svd, mat_resize. rewrite H. reflexivity.
Qed.
Print Assumptions C105_empty_refuted.

(** geev does not make room for the values: with fewer values than rows it writes out of bounds. *)
Theorem C105_room_refuted :
  geev QGring QGring toy "N" "N" (mkmat 2 2 herm) [re 0 1] (mkmat 1 1 [re 0 1]) (mkmat 1 1 [re 0 1]) = UB.
Proof. reflexivity. Qed.
Print Assumptions C105_room_refuted.

(** A Svd that has not converged is not an error: INFO is positive for this matrix, and zeros come out. *)
Theorem C105_converged_refuted :
  (do (u, s, v) <- svd QGring QGring toy "gesdd" "S" (mkmat 2 2 herm) [] (mat_empty QGring) ;; Ok (m_data u, s, m_data v)) =
    Ok (repeat c0 4, repeat c0 2, repeat c0 4).
Proof. vm_compute. reflexivity. Qed.
Print Assumptions C105_converged_refuted.

(** The workspace of the Svd of a large matrix is computed with an overflow, so from 14654 rows and columns on the call is
    undefined, whatever the library and even for real elements, which need no such workspace. *)
Theorem C105_large_refuted : forall (T R : cring) (L : lapack T R) name jobz a s n, jobz = "A"%char \/ jobz = "S"%char ->
  m_nrow a = n -> m_ncol a = n -> (14654 <= Z.of_nat n <= 1000000)%Z -> svd T R L name jobz a s (mat_empty T) = UB.
Proof.
  intros T R L name c a s n J Hr Hc Hn. unfold svd. rewrite Hr, Hc. rewrite as_int_id by (unfold INT_MAX; lia).
  assert (Jt : (negb (Ascii.eqb c "A") && negb (Ascii.eqb c "S"))%bool = false) by (destruct J as [-> | ->]; auto). rewrite Jt.
  rewrite Z.ltb_irrefl. destruct (Z.leb_spec 0 (Z.of_nat n)); [|lia]. unfold mat_resize. cbn [mat_empty m_nrow m_data Nat.ltb Nat.leb andb bind].
  rewrite Z.max_id. set (N := Z.of_nat n) in *. clearbody N.
  rewrite (to_int_ok (5 * N)) by (unfold INT_MAX; lia). cbn [bind]. rewrite (to_int_ok (5 * N + 7)) by (unfold INT_MAX; lia). cbn [bind].
  rewrite !(to_int_ok (2 * N)) by (unfold INT_MAX; lia). cbn [bind].
  rewrite (to_int_ok (2 * N + 2 * N)) by (unfold INT_MAX; lia). cbn [bind]. rewrite (to_int_ok (2 * N + 2 * N + 1)) by (unfold INT_MAX; lia). cbn [bind].
  rewrite Z.max_l by lia. rewrite to_int_big by (unfold INT_MAX; nia). reflexivity.
Qed.
Print Assumptions C105_large_refuted.

(** The right vectors of a Svd cannot be put into a matrix that was used for another number of them. *)
Theorem C105_reused_refuted : forall (T R : cring) (L : lapack T R) name a s vt,
  m_nrow a = 2%nat -> m_ncol a = 2%nat -> m_nrow vt = 3%nat -> svd T R L name "S" a s vt = Throw.
Proof. intros T R L name a s vt H1 H2 H3. unfold svd, mat_resize. rewrite H1, H2, H3. reflexivity. Qed.
Print Assumptions C105_reused_refuted.

(** LAPACK is thread safe from version 3.3 on. The test is right for versions before 4. *)
Theorem C105_thread_safe_partial : forall major minor patch, (major < 4)%Z -> (0 <= minor)%Z ->
  isThreadSafe major minor patch = true <-> (3 < major \/ (major = 3 /\ 3 <= minor))%Z.
Proof. intros a b c H H2. unfold isThreadSafe. destruct (Z.ltb_spec a 3); [split; [discriminate|lia]|]. rewrite Z.leb_le. lia. Qed.
Print Assumptions C105_thread_safe_partial.
(** It says no to version 4.0. *)
Theorem C105_thread_safe_refuted : isThreadSafe 4 0 0 = false.
Proof. reflexivity. Qed.
Print Assumptions C105_thread_safe_refuted.

(** The matrices the library of the examples knows *)
Example C105_nonvacuous : lapack_ok id_re le_re toy /\
  hermitian 2 (melem (mkmat 2 2 herm)) /\ (lp_syev_opt toy "V" 2 < INT_MAX)%Z /\ (lp_svd_opt toy true "S" 2 2 + (2 + 2) * 256 + 10 <= INT_MAX)%Z /\
  (do (v, e) <- diag QGring QGring toy (mkmat 2 2 herm) [] "V" ;; Ok (m_data v, e)) = Ok (rot, [re 1 1; re 2 1]) /\
  (do (x, r) <- geev QGring QGring toy "V" "V" (mkmat 2 2 herm) [c0; c0] (mat_new QGring 2 2) (mat_new QGring 2 2) ;; Ok (m_data r)) = Ok rot /\
  (do g <- inverse QGring QGring toy (mkmat 2 2 shear) ;; Ok (m_data g)) = Ok back /\
  (do (u, s, v) <- svd QGring QGring toy "gesvd" "A" (mkmat 2 2 some) [] (mat_empty QGring) ;; Ok (m_data u, s, m_data v)) = Ok (rot, [re 2 1; re 1 1], rot).
Proof.
  split; [exact toy_ok|]. split.
  { intros i j Hi Hj. destruct i as [|[|i]], j as [|[|j]]; try lia; qg. }
  split; [reflexivity|]. split; [vm_compute; discriminate|]. split; [vm_compute; reflexivity|]. split; [vm_compute; reflexivity|]. split; vm_compute; reflexivity.
Qed.
