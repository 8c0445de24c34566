(** C69: plots of continued fractions and of collections of them.
    C82: a continued fraction is the first diagonal element of the resolvent. *)
From Coq Require Import Reals Lra.
From Verif Require Import Prelude Ring Cplx Dense_Model Dense_Spec Dense_Proofs Tri_Model Tri_Proofs Cf_Model Cf_Spec Cf_Proofs.
Local Open Scope R_scope.

(** A collection is plotted, on n = floor((omega2-omega1)/deltaOmega) >= 1 real frequencies, as the sum of
    its members. *)
Theorem C69_real_partial : forall data pp n, data <> [] ->
  (forall cf, In cf data -> cf_matsubara cf = false /\ length (cf_eigs cf) = length (cf_intensity cf)) ->
  pp_matsubaras pp = 0%nat -> pp_delta pp <> 0 -> 0 < pp_deltaOmega pp ->
  (0 < n)%nat -> INR n <= (pp_omega2 pp - pp_omega1 pp) / pp_deltaOmega pp < INR n + 1 ->
  cfc_plot data [] pp = Ok (map (fun j => let omega := pp_omega1 pp + INR j * pp_deltaOmega pp in
    (omega, suml (fun cf => spectral (cf_weight cf) (cf_intensity cf) (cf_eigs cf) (cf_Eg cf) (cf_isign cf) (omega, pp_delta pp)) data)) (seq 0 n)).
Proof.
  intros data pp n Hne H Hm Hd Hw Hn Hq. apply (cfc_plot_new pp n (fun j => pp_omega1 pp + INR j * pp_deltaOmega pp)
    (fun cf j => spectral (cf_weight cf) (cf_intensity cf) (cf_eigs cf) (cf_Eg cf) (cf_isign cf) (pp_omega1 pp + INR j * pp_deltaOmega pp, pp_delta pp))); auto.
  intros cf Hcf. destruct (H cf Hcf) as [H1 H2]. unfold cf_plot. rewrite H1, Hm. cbn [orb Nat.ltb Nat.leb]. apply plotReal_ok; auto.
Qed.
Print Assumptions C69_real_partial.

(** With a positive number of Matsubara frequencies (2j+1) pi / beta the collection is their sum there. *)
Theorem C69_matsubara : forall data pp, data <> [] ->
  (forall cf, In cf data -> length (cf_eigs cf) = length (cf_intensity cf)) -> (0 < pp_matsubaras pp)%nat -> pp_beta pp <> 0 ->
  cfc_plot data [] pp = Ok (map (fun j => let omega := (2 * INR j + 1) * PI / pp_beta pp in
    (omega, suml (fun cf => spectral (cf_weight cf) (cf_intensity cf) (cf_eigs cf) (cf_Eg cf) (cf_isign cf) (pp_delta pp, omega)) data)) (seq 0 (pp_matsubaras pp))).
Proof.
  intros data pp Hne H Hm Hb. apply (cfc_plot_new pp (pp_matsubaras pp) (fun j => matsubara j pp)
    (fun cf j => spectral (cf_weight cf) (cf_intensity cf) (cf_eigs cf) (cf_Eg cf) (cf_isign cf) (pp_delta pp, matsubara j pp))); auto.
  intros cf Hcf. unfold cf_plot. apply Nat.ltb_lt in Hm. rewrite Hm, orb_true_r. apply plotMatsubara_ok; auto.
Qed.
Print Assumptions C69_matsubara.

(** Plotting on top of an existing plot with the same frequencies adds to it. *)
Theorem C69_adds : forall data pp n x old G, (0 < n)%nat ->
  (forall cf, In cf data -> cf_plot cf [] pp = Ok (map (fun j => (x j, G cf j)) (seq 0 n))) ->
  cfc_plot data (map (fun j => (x j, old j)) (seq 0 n)) pp = Ok (map (fun j => (x j, cadd (old j) (suml (fun cf => G cf j) data))) (seq 0 n)).
Proof. intros data pp n x old G Hn H. apply cfc_plot_add; auto. Qed.
Print Assumptions C69_adds.

(** Two plots that are not empty and differ in length or in a frequency are refused. *)
Theorem C69_grids_partial : forall cf1 cf2 rest pp v1 v2, cf_plot cf1 [] pp = Ok v1 -> cf_plot cf2 [] pp = Ok v2 -> v1 <> [] ->
  length v1 <> length v2 \/ (exists i, (i < length v1)%nat /\ fst (nth i v1 (0, c0)) <> fst (nth i v2 (0, c0))) ->
  cfc_plot (cf1 :: cf2 :: rest) [] pp = Throw.
Proof.
  intros cf1 cf2 rest pp v1 v2 E1 E2 Hne Hd. unfold cfc_plot. cbn [forL]. rewrite E1. cbn [bind]. rewrite accumulate_empty. cbn [bind].
  rewrite E2. cbn [bind]. rewrite accumulate_diff by auto. reflexivity.
Qed.
Print Assumptions C69_grids_partial.

(** A range shorter than one step makes the plot write outside its storage. *)
Theorem C69_short_range_refuted : forall cf pp, cf_matsubara cf = false -> pp_matsubaras pp = 0%nat -> length (cf_eigs cf) = length (cf_intensity cf) ->
  pp_delta pp <> 0 -> 0 < pp_omega2 pp - pp_omega1 pp < pp_deltaOmega pp -> cf_plot cf [] pp = UB.
Proof.
  intros cf pp Hc Hm HL Hd Hw. unfold cf_plot, plotReal. rewrite Hc, Hm. cbn [orb Nat.ltb Nat.leb]. destruct (Req_EM_T (pp_deltaOmega pp) 0); [lra|].
  assert (E : Int_part ((pp_omega2 pp - pp_omega1 pp) / pp_deltaOmega pp) = 0%Z).
  { unfold Int_part. rewrite <- (tech_up _ 1); [lia| |].
    - apply Rmult_lt_reg_r with (pp_deltaOmega pp); [lra|]. unfold Rdiv. rewrite Rmult_assoc, Rinv_l by lra. lra.
    - assert (0 <= (pp_omega2 pp - pp_omega1 pp) / pp_deltaOmega pp) by (apply Rmult_le_pos; [lra|left; apply Rinv_0_lt_compat; lra]). lra. }
  rewrite E. cbn [Z.leb Z.compare Z.to_nat repeat length Nat.eqb Nat.add plotReal_loop]. destruct (Rlt_dec _ _); [|lra].
  rewrite iOfOmega_ok by (auto; intros; apply nonreal; auto). reflexivity.
Qed.
Print Assumptions C69_short_range_refuted.

Definition ex_m := mkcf true 0 c0 1 [] [].
Definition ex_r := mkcf false 0 c0 1 [] [].
Definition ex_pp := mkpp 0 2 1 1 1 0.
(** The order matters: a fraction whose plot is empty is ignored when it comes first and refused when it comes second. *)
Theorem C69_order_refuted : (exists v, cfc_plot [ex_m; ex_r] [] ex_pp = Ok v /\ length v = 2%nat) /\ cfc_plot [ex_r; ex_m] [] ex_pp = Throw.
Proof.
  assert (Er : cf_plot ex_r [] ex_pp = Ok (map (fun j => (0 + INR j * 1, spectral c0 [] [] 0 1 (0 + INR j * 1, 1))) (seq 0 2))).
  { apply (plotReal_ok ex_r ex_pp eq_refl 2); cbn; try lra; try lia. }
  assert (Em : cf_plot ex_m [] ex_pp = Ok []) by reflexivity.
  split.
  - unfold cfc_plot. cbn [forL]. rewrite Em, Er. cbn [bind]. rewrite accumulate_empty. cbn [bind]. rewrite accumulate_empty. eexists. split; [reflexivity|]. reflexivity.
  - apply (C69_grids_partial _ _ _ _ _ _ Er Em); [discriminate|]. left. discriminate.
Qed.
Print Assumptions C69_order_refuted.

(** An exact diagonalisation: orthonormal eigenvectors in the columns. *)
Definition eigensystem (n : nat) (T Q : nat -> nat -> R) (e : nat -> R) : Prop :=
  (forall i j, (i < n)%nat -> (j < n)%nat -> sumn (R := Rring) n (fun l => Rmult (Q i l) (Q j l)) = if (i =? j)%nat then 1 else 0) /\
  (forall k l, (k < n)%nat -> (l < n)%nat -> sumn (R := Rring) n (fun i => Rmult (Q i k) (Q i l)) = if (k =? l)%nat then 1 else 0) /\
  (forall i l, (i < n)%nat -> (l < n)%nat -> sumn (R := Rring) n (fun j => Rmult (T i j) (Q j l)) = e l * Q i l).

(** If the diagonalisation is exact, then off the real axis the function is weight times the first element of
    the solution x of (z - s (Eg - T)) x = e_0, where T is the tridiagonal matrix with a on the diagonal and b
    next to it; and it is weight times the continued fraction
    1 / (z - s (Eg - a_0) - (s b_1)^2 / (z - s (Eg - a_1) - ...)). *)
Theorem C82_resolvent : forall diag cf (ab : tri Rring) Eg weight isign Q q eigs,
  let n := length (t_a ab) in
  let a i : R := nth i (t_a ab) 0 in
  let b i : R := nth i (t_b ab) 0 in
  let T i j : R := if (i =? j)%nat then a i else if (j =? i + 1)%nat then b (i + 1)%nat else if (i =? j + 1)%nat then b (j + 1)%nat else 0 in
  let s := RtoC (IZR isign) in
  let w z := csub z (RtoC (IZR isign * Eg)) in
  (0 < n)%nat -> length (t_b ab) = n -> length eigs = n ->
  (forall D : mat Rring, is_mat D n n T -> diag D = (Q, eigs)) -> is_mat (R := Rring) Q n n q -> eigensystem n T q (fun l => nth l eigs 0) ->
  exists cf', cf_set diag cf ab Eg weight isign = Ok cf' /\
    forall z, snd z <> 0 ->
      (exists x, solves n (w z) s T x) /\
      (forall x, solves n (w z) s T x -> iOfOmega cf' z Eg isign = Ok (cmul (x 0%nat) (RtoC weight))) /\
      iOfOmega cf' z Eg isign = Ok (cmul (Cdiv c1 (cf_den (fun k => cadd (w z) (cmul s (RtoC (a k))))
        (fun k => cmul (cmul s (RtoC (b k))) (cmul s (RtoC (b k)))) (n - 1) 0)) (RtoC weight)).
Proof.
  intros diag cf ab Eg weight isign Q q eigs n a b T s w Hn Hb He Hd HQ (E1 & E2 & E3).
  destruct (cf_set_ok diag cf ab Eg weight isign Q eigs q) as (cf' & Ec & F1 & F2 & F3 & F4); auto.
  { intros D ED. apply Hd. rewrite build_zero in ED. destruct (buildDense_gen Rring ab (mat_empty Rring) n) as (D' & ED' & W1 & W2 & W3 & W4); [lia|lia|lia|].
    unfold n in *. rewrite ED in ED'. apply Ok_inj in ED'. subst D'. split; [auto|]. split; [auto|]. split; [auto|]. intros i j Hi Hj. rewrite W4 by auto. unfold band, T, a, b.
    destruct (Nat.eqb_spec i j); [reflexivity|]. destruct (Nat.eqb_spec j (i + 1)) as [->|]; [reflexivity|]. destruct (Nat.eqb_spec i (j + 1)) as [->|]; [reflexivity|]. apply (nth_vresize_nil Rring). }
  exists cf'. split; [exact Ec|]. intros z Hz.
  assert (Hlam : forall l, (l < n)%nat -> cadd (w z) (cmul s (RtoC (nth l eigs 0))) <> c0).
  { intros l Hl. unfold w, s. rewrite <- RtoC_mul. destruct z as [zr zi]. intros E. apply (f_equal snd) in E. cbn in *. lra. }
  assert (Tsym : forall i j, (i < n)%nat -> (j < n)%nat -> T i j = T j i).
  { intros i j _ _. unfold T. destruct (Nat.eqb_spec i j); destruct (Nat.eqb_spec j i); try (exfalso; lia); [subst; reflexivity|].
    destruct (Nat.eqb_spec j (i + 1)), (Nat.eqb_spec i (j + 1)); try (exfalso; lia); reflexivity. }
  set (xs := xsol n q (fun l => nth l eigs 0) (w z) s).
  assert (Hxs : solves n (w z) s T xs) by (apply xsol_solves; auto).
  assert (G : forall x, solves n (w z) s T x -> iOfOmega cf' z Eg isign = Ok (cmul (x 0%nat) (RtoC weight))).
  { intros x Hx. destruct (Req_dec weight 0) as [->|Hw].
    - unfold iOfOmega. rewrite F3. destruct (ceqb_spec Cring (RtoC 0) c0) as [_|N]; [|exfalso; apply N; reflexivity]. f_equal. symmetry. apply cmul_0_r.
    - destruct (F4 Hw) as [F5 F6]. rewrite iOfOmega_ok.
      + rewrite F3, F5, F6, spectral_sum by auto. f_equal. f_equal. rewrite (solves_0 n T q (fun l => nth l eigs 0) (w z) s E1 E3 Hlam Hn E2 Tsym x Hx).
        rewrite xsol_0. reflexivity.
      + rewrite F5, F6, map_length, seq_length. exact He.
      + intros e _. apply nonreal. exact Hz. }
  split; [exists xs; exact Hxs|]. split; [exact G|].
  rewrite (G xs Hxs). f_equal. f_equal. apply (fraction n a b (w z) s Hn xs Hxs). intros m k _. apply (den_nonzero a b z Eg (IZR isign) m k Hz).
Qed.
Print Assumptions C82_resolvent.

(** The matrix [[9, 12], [12, 16]] has eigenvalues 25 and 0 with eigenvectors (3/5, 4/5) and (4/5, -3/5). *)
Definition ex_q (i j : nat) : R := nth j (nth i [[3 / 5; 4 / 5]; [4 / 5; - (3 / 5)]] []) 0.
Definition ex_ab : tri Rring := mktri (R := Rring) [9; 16] [0; 12].
Example C82_nonvacuous :
  eigensystem 2 (fun i j => if (i =? j)%nat then nth i [9; 16] 0 else if (j =? i + 1)%nat then nth (i + 1) [0; 12] 0 else if (i =? j + 1)%nat then nth (j + 1) [0; 12] 0 else 0)
    ex_q (fun l => nth l [25; 0] 0) /\
  is_mat (R := Rring) (mkmat (R := Rring) 2 2 [3 / 5; 4 / 5; 4 / 5; - (3 / 5)]) 2 2 ex_q /\
  spectral (RtoC 2) [9 / 25; 16 / 25] [25; 0] 0 1 (0, 1) = (225 / 626 * 2 / 25, -10025 / 15650 * 2).
Proof.
  split; [|split].
  - repeat split; intros i j Hi Hj; destruct i as [|[|i]]; try lia; destruct j as [|[|j]]; try lia; cbn; try lra.
  - repeat split. intros i j Hi Hj. destruct i as [|[|i]]; try lia; destruct j as [|[|j]]; try lia; reflexivity.
  - unfold spectral. cbn. unfold Cmul, Cadd, RtoC, Cinv, Csub. cbn. apply f_equal2; field.
Qed.
Example C69_nonvacuous : exists v, cfc_plot [ex_r; mkcf false 1 (RtoC 2) 1 [25; 0] [9 / 25; 16 / 25]] [] (mkpp 0 3 1 (1 / 10) 1 0) = Ok v /\ length v = 3%nat.
Proof.
  eexists. split.
  - apply (C69_real_partial _ _ 3); cbn; try lra; try lia; try discriminate; try reflexivity. intros cf [<-|[<-|[]]]; split; reflexivity.
  - reflexivity.
Qed.
