From Coq Require Import Reals Lra.
From Verif Require Import Prelude Rsum Ring Cplx Dense_Model Dense_Spec Tri_Model Tri_Props Ground_Model Ground_Spec Ground_Proofs.
Local Open Scope R_scope.

(** With exact numbers the method either gives up after maxCounter steps or returns the eigenvalues in ascending order, of
    the matrix where b(i) couples i and i+1. It reads nothing outside its vectors and does not divide by zero. Missing:
    that it does not give up. *)
Theorem C88_ground_partial : forall (maxCounter n : nat) (t : tri Rring), (n <= length (t_a t))%nat -> (n <= length (t_b t))%nat ->
  let r := ground (fun e _ => if Req_EM_T e 0 then true else false) maxCounter t n in
  r = Throw \/ exists D, r = Ok D /\ sorted D /\ eigenvalues n (tridiagonal (t_a t) (fun i => nth i (t_b t) 0)) D.
Proof.
  intros mc n t La Lb r. set (M0 := tridiagonal (t_a t) (fun i => nth i (t_b t) 0)).
  assert (HB : exists B, 0 <= B /\ bounded n M0 B) by apply bounded_ex. destruct HB as (B & B0 & HB).
  destruct (ground_ok (fun e _ => if Req_EM_T e 0 then true else false) mc 0 B t n) as [E|(D & M & E & S & Ev & Sy & Cl & U0)]; auto.
  - lra.
  - intros e dd H. destruct (Req_EM_T e 0) as [->|]; [|discriminate]. rewrite Rabs_R0. lra.
  - intros dd. destruct (Req_EM_T 0 0); [reflexivity|lra].
  - right. exists D. split; [exact E|]. split; [exact S|]. destruct Ev as (L & q & O & Ev). split; [exact L|]. exists q. split; [exact O|].
    intros k Hk x Hx. rewrite <- Ev by auto. unfold mv. apply rsum_ext. intros y Hy. rewrite U0 by reflexivity. reflexivity.
Qed.
Print Assumptions C88_ground_partial.

(** The test for a negligible element is |e| + dd == dd. If it only accepts elements up to u*dd, and accepts zero, then the
    values are the eigenvalues of a symmetric matrix close to the given one. *)
Theorem C88_backward_partial : forall (tiny : R -> R -> bool) (u B : R) (maxCounter n : nat) (t : tri Rring), 0 <= u -> 0 <= B ->
  (forall e dd, tiny e dd = true -> Rabs e <= u * dd) -> (forall dd, tiny 0 dd = true) -> (n <= length (t_a t))%nat -> (n <= length (t_b t))%nat ->
  let M := tridiagonal (t_a t) (fun i => nth i (t_b t) 0) in bounded n M B -> let r := ground tiny maxCounter t n in
  r = Throw \/ exists D M', r = Ok D /\ sorted D /\ eigenvalues n M' D /\ (forall x y, M' x y = M' y x) /\
    forall v, Rabs (form n M v - form n M' v) <= B * ((1 + 2 * u) ^ (n - 1) - 1) * dot n v v.
Proof.
  intros tiny u B mc n t u0 B0 H1 H2 La Lb M HB r. destruct (ground_ok tiny mc u B t n) as [E|(D & M' & E & S & Ev & Sy & Cl & U0)]; auto.
  right. exists D, M'. auto.
Qed.
Print Assumptions C88_backward_partial.

(** The matrix is not the one buildDenseMatrix gives, which LAPACK gets: there b(i+1) couples i and i+1. *)
Theorem C88_dense_refuted : exists (t : tri Rring) D m, length (t_b t) = length (t_a t) /\
  (forall maxCounter, (2 <= maxCounter)%nat -> ground (fun e _ => if Req_EM_T e 0 then true else false) maxCounter t (length (t_a t)) = Ok D) /\
  buildDenseMatrix Rring t (mat_empty Rring) (length (t_a t)) = Ok m /\ ~ eigenvalues (length (t_a t)) (fun i j => melem m i j) D.
Proof.
  set (t := @mktri Rring [0; 0] [0; 1]). destruct (C58_dense_partial Rring t 2 eq_refl) as (m & Em & W); [cbn; lia|cbn; lia|].
  exists t, [0; 0], m. split; [reflexivity|]. split; [|split; [exact Em|]].
  - intros mc Hmc. destruct mc as [|[|mc]]; [lia|lia|]. unfold ground.
    cbn [t t_a t_b length Nat.leb andb firstn bind forM Nat.add do_loop Nat.ltb Nat.sub find_m vget nth_error].
    destruct (Req_EM_T 0 0); [|lra]. cbn [bind Nat.eqb Nat.add do_loop Nat.ltb Nat.leb find_m Nat.sub std_sort insert_sorted].
    destruct (Rle_dec 0 0); [|lra]. reflexivity.
  - intros (_ & q & O & Ev). cbn [t t_a length] in *.
    destruct W as (_ & _ & _ & W). cbn [t t_a t_b length Nat.eqb nth] in W.
    assert (E0 : q 0%nat 1%nat = 0).
    { specialize (Ev 0%nat ltac:(lia) 0%nat ltac:(lia)). unfold mv in Ev. cbn [rsum nth] in Ev. rewrite !W in Ev by lia. cbn [Nat.eqb Nat.add nth c0 c1 Rring] in Ev. lra. }
    assert (E1 : q 0%nat 0%nat = 0).
    { specialize (Ev 0%nat ltac:(lia) 1%nat ltac:(lia)). unfold mv in Ev. cbn [rsum nth] in Ev. rewrite !W in Ev by lia. cbn [Nat.eqb Nat.add nth c0 c1 Rring cconj] in Ev. lra. }
    specialize (O 0%nat 0%nat ltac:(lia) ltac:(lia)). unfold dot in O. cbn [rsum Nat.eqb] in O. rewrite E0, E1 in O. lra.
Qed.
Print Assumptions C88_dense_refuted.

(** One step with exact numbers: the eigenvalues of [[0, 1], [1, 0]] *)
Example C88_nonvacuous : (forall maxCounter, (3 <= maxCounter)%nat ->
    ground (fun e _ => if Req_EM_T e 0 then true else false) maxCounter (@mktri Rring [0; 0] [1; 7]) 2 = Ok [-1; 1]) /\
  bounded 2 (tridiagonal [0; 0] (fun i => nth i [1; 7] 0)) 1.
Proof.
  split.
  - intros mc Hmc. destruct mc as [|[|[|mc]]]; [lia|lia|lia|].
    assert (S2 : sqrt 2 * sqrt 2 = 2) by (apply sqrt_sqrt; lra). assert (S0 : 0 < sqrt 2) by (apply sqrt_lt_R0; lra).
    assert (Sw : sweep 0 1 [0; 0] [1; 7] = Ok ([-1; 1], [0; 0])).
    { unfold sweep. cbn [vget nth_error Nat.add Nat.sub bind chase].
      destruct (Req_EM_T (2 * 1) 0); [lra|]. cbn [bind]. replace ((0 - 0) / (2 * 1)) with 0 by field. replace (0 * 0 + 1) with 1 by ring. rewrite sqrt_1, Rabs_R1.
      destruct (Rle_dec 0 0); [|lra]. destruct (Req_EM_T (0 + 1) 0); [lra|]. cbn [bind].
      replace (0 - 0 + 1 / (0 + 1)) with 1 by field. replace (1 * 1 * (1 * 1) + 1 * 1) with 2 by ring. cbn [vset length Nat.ltb Nat.leb upd bind firstn skipn app vget nth_error].
      destruct (Req_EM_T (sqrt 2) 0); [lra|].
      set (s2 := sqrt 2) in *. cbn [vset length Nat.ltb Nat.leb upd bind firstn skipn app vget nth_error].
      unfold vset. cbn [length Nat.ltb Nat.leb upd bind vget nth_error Nat.add].
      f_equal. f_equal; f_equal; try f_equal; field_simplify_eq; try lra. all: rewrite ?S2; ring. }
    unfold ground. cbn [t_a t_b length Nat.leb andb firstn bind forM Nat.add do_loop Nat.ltb Nat.sub find_m vget nth_error].
    destruct (Req_EM_T 1 0); [lra|]. cbn [bind Nat.eqb Nat.add]. change (car Rring) with R. rewrite Sw.
    cbn [bind do_loop Nat.add Nat.ltb Nat.leb find_m Nat.sub vget nth_error]. destruct (Req_EM_T 0 0); [|lra].
    cbn [bind Nat.eqb Nat.add do_loop Nat.ltb Nat.leb find_m Nat.sub std_sort insert_sorted].
    destruct (Rle_dec (-1) 1); [|lra]. reflexivity.
  - intros v. unfold form, dot, mv, tridiagonal. cbn [rsum Nat.eqb Nat.add nth].
    apply Rabs_le. pose proof (Rle_0_sqr (v 0%nat - v 1%nat)). pose proof (Rle_0_sqr (v 0%nat + v 1%nat)). unfold Rsqr in *. lra.
Qed.
