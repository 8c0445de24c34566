(** C64: linear prediction continues recurrences. *)
From Verif Require Import Prelude Ring Linpred_Model Linpred_Spec Linpred_Proofs.
Local Open Scope nat_scope.

Section Opp.
  Variable F : cring.
  Add Ring Fc : (c_ring F).
  Lemma copp_copp (x : F) : copp (copp x) = x.
  Proof. ring. Qed.
End Opp.

(** The constructor fits by least squares: for 2n data and an order p <= n, if
    the data determine the coefficients and LAPACK solves, the errors of the
    forecasts of the second half are orthogonal to the data that make them, and
    any other coefficients [c] have the squared error of [d] plus a sum of
    squares. *)
Theorem C64_fit : forall (F : cring) solve (y : list F) n p,
  solver_ok F p solve -> 1 <= p <= n -> length y = 2 * n -> determined F y n p ->
  exists d, ctor F solve y p = Ok (y, d) /\ length d = p /\
    (forall l, l < p ->
      suml (fun i => cmul (nth (i - 1 - l) y c0) (csub (nth i y c0) (forecast F d y i))) (seq n n) = c0) /\
    forall c, length c = p ->
      error2 F c y n = cadd (error2 F d y n)
        (suml (fun i => cmul (csub (forecast F c y i) (forecast F d y i))
                             (csub (forecast F c y i) (forecast F d y i))) (seq n n)).
Proof.
  intros F solve y n p Hs Hp Hy Hd.
  destruct (ctor_ok F solve y p n Hs Hp Hy Hd) as [d [E [L N]]].
  exists d. split; [exact E|]. split; [exact L|].
  assert (O : forall l, l < p ->
      suml (fun i => cmul (nth (i - 1 - l) y c0) (csub (nth i y c0) (forecast F d y i))) (seq n n) = c0).
  { intros l Hl. apply (normal_orthogonal F y n p d l L). apply N. exact Hl. }
  split; [exact O|]. intros c Hc. apply least_squares; [congruence|]. rewrite L. exact O.
Qed.
Print Assumptions C64_fit.

(** Data that obey a recurrence of order p are continued by it, for as long as
    asked. *)
Theorem C64_recurrence : forall (F : cring) solve (y c : list F) n p q,
  solver_ok F p solve -> 1 <= p <= n -> length y = 2 * n -> determined F y n p ->
  length c = p -> obeys F c y n ->
  ctor F solve y p = Ok (y, c) /\
  exists y', predict F y c q = Ok y' /\ length y' = 2 * n + q /\ firstn (2 * n) y' = y /\
    forall i, n <= i < 2 * n + q -> nth i y' c0 = forecast F c y' i.
Proof.
  intros F solve y c n p q Hs Hp Hy Hd Lc Ob.
  destruct (ctor_ok F solve y p n Hs Hp Hy Hd) as [d [E [L N]]].
  assert (d = c).
  { apply (recurrence_found F y n p c d Hd Lc L Ob). intros l Hl.
    apply (normal_orthogonal F y n p d l L). apply N. exact Hl. }
  subst d. split; [exact E|].
  destruct (predict_ok F y c q) as [y' [E' [L' [F' R']]]]; [lia|].
  exists y'. split; [exact E'|]. rewrite Hy in L', F', R'. split; [exact L'|]. split; [exact F'|].
  intros i Hi. destruct (Nat.lt_ge_cases i (2 * n)) as [Hlt|Hge]; [|apply R'; lia].
  assert (P : forall k, k < 2 * n -> nth k y' c0 = nth k y c0).
  { intros k Hk. rewrite <- (firstn_skipn (2 * n) y'), F'. apply app_nth1. lia. }
  rewrite P, (Ob i) by lia. apply forecast_ext; [lia|]. intros k Hk. symmetry. apply P. lia.
Qed.
Print Assumptions C64_recurrence.

(** predict appends exactly the values that follow from the coefficients,
    keeping the data, and in only one way. *)
Theorem C64_predict : forall (F : cring) (y d : list F) q, length d <= length y ->
  exists y', predict F y d q = Ok y' /\ continues F d y y' q /\
    forall z, continues F d y z q -> z = y'.
Proof.
  intros F y d q H. destruct (predict_ok F y d q H) as [y' [E C]].
  exists y'. split; [exact E|]. split; [exact C|]. intros z Hz.
  eapply continues_unique; eauto.
Qed.
Print Assumptions C64_predict.

(** The coefficients rebuilt from roots are those of the product of the (x - r). *)
Theorem C64_polynomial : forall (K : cring) (roots : list K), roots <> [] ->
  exists ab, from_roots K (length roots) roots = Ok ab /\
    length ab = length roots + 1 /\ nth (length roots) ab c0 = c1 /\
    ab = monic K roots /\ forall x, eval K ab x = product_at K roots x.
Proof.
  intros K roots H. exists (monic K roots). split; [apply from_roots_ok; exact H|].
  split; [rewrite monic_length; lia|]. split; [apply monic_top|]. split; [reflexivity|].
  intros x. unfold monic. rewrite eval_monic_from. cbn [eval].
  rewrite (cmul_0_r K), (cadd_0_r K), (cmul_1_r K). reflexivity.
Qed.
Print Assumptions C64_polynomial.

(** predict2 continues the data by the recurrence whose characteristic
    polynomial is (the real part of) the product of the (x - r), roots outside
    the unit circle being replaced by 0. *)
Theorem C64_predict2 : forall (F K : cring) (solve : list F -> list K) (outside : K -> bool) (re : K -> F) (y d : list F),
  d <> [] -> length d <= length y ->
  (forall aa, length aa = length d + 1 -> length (solve aa) = length d) ->
  let roots := map (fun r => if outside r then c0 else r) (solve (map copp (rev d) ++ [c1])) in
  exists nd y', predict2 F K (Some solve) outside re y d (length d) = Ok y' /\
    length nd = length d /\ continues F nd y y' (length d) /\
    forall j, j < length d -> nth j nd c0 = copp (re (nth (length d - 1 - j) (monic K roots) c0)).
Proof.
  intros F K solve outside re y d Hd Hy Hs roots. unfold predict2. rewrite char_poly_ok. cbn [bind].
  unfold fix_roots. fold roots.
  assert (LR : length roots = length d).
  { unfold roots. rewrite map_length. apply Hs. rewrite app_length, map_length, rev_length. reflexivity. }
  assert (NE : roots <> []) by (destruct roots; [destruct d; [contradiction|discriminate]|discriminate]).
  rewrite <- LR. rewrite from_roots_ok by exact NE. cbn [bind].
  destruct (new_d_ok F K re (length roots) (monic K roots)) as [nd [E [L N]]]; [rewrite monic_length; lia|].
  rewrite E. cbn [bind].
  destruct (predict2_loop F y d nd (length roots)) as [y' [E' C']]; [lia|lia|].
  exists nd, y'. split; [exact E'|]. split; [exact L|]. split; [exact C'|]. exact N.
Qed.
Print Assumptions C64_predict2.

(** When the root finder is exact and no root lies outside the unit circle,
    predict2 does what predict does. *)
Theorem C64_predict2_stable : forall (F K : cring) (solve : list F -> list K) (outside : K -> bool) (re : K -> F)
    (emb : F -> K) (y d : list F),
  d <> [] -> length d <= length y -> (forall x, re (emb x) = x) ->
  (forall aa, length aa = length d + 1 -> nth (length d) aa c0 = c1 ->
     length (solve aa) = length d /\ monic K (solve aa) = map emb aa) ->
  Forall (fun r => outside r = false) (solve (map copp (rev d) ++ [c1])) ->
  predict2 F K (Some solve) outside re y d (length d) = predict F y d (length d).
Proof.
  intros F K solve outside re emb y d Hd Hy He Hs Ho.
  set (aa := map copp (rev d) ++ [c1]).
  assert (La : length aa = length d + 1) by (unfold aa; rewrite app_length, map_length, rev_length; reflexivity).
  assert (Ta : nth (length d) aa c0 = c1).
  { unfold aa. rewrite app_nth2 by (rewrite map_length, rev_length; lia).
    rewrite map_length, rev_length, Nat.sub_diag. reflexivity. }
  destruct (Hs aa La Ta) as [Ls Ms].
  assert (FR : fix_roots K outside (solve aa) = solve aa).
  { fold aa in Ho. unfold fix_roots. clear - Ho. induction Ho as [|r l H Hl IH]; [reflexivity|].
    cbn [map]. rewrite H, IH. reflexivity. }
  unfold predict2. rewrite char_poly_ok. cbn [bind]. fold aa. rewrite FR.
  assert (NE : solve aa <> []) by (destruct (solve aa); [destruct d; [contradiction|discriminate]|discriminate]).
  rewrite <- Ls. rewrite from_roots_ok by exact NE. cbn [bind]. rewrite Ms.
  destruct (new_d_ok F K re (length (solve aa)) (map emb aa)) as [nd [E [L N]]]; [rewrite map_length; lia|].
  rewrite E. cbn [bind].
  assert (nd = d).
  { apply list_eq_nth with (d := c0); [lia|]. intros j Hj. rewrite N by lia.
    rewrite (nth_indep _ c0 (emb c0)) by (rewrite map_length; lia). rewrite map_nth, He.
    rewrite L, Ls in Hj. rewrite Ls. unfold aa. rewrite app_nth1 by (rewrite map_length, rev_length; lia).
    rewrite (nth_indep (map copp (rev d)) c0 (copp c0)) by (rewrite map_length, rev_length; lia).
    rewrite map_nth, rev_nth by lia.
    replace (length d - S (length d - 1 - j)) with j by lia.
    apply copp_copp. }
  subst nd.
  destruct (predict2_loop F y d d (length (solve aa))) as [y' [E' C']]; [lia|lia|].
  rewrite E'. destruct (predict_ok F y d (length (solve aa)) Hy) as [z [Ez Cz]].
  rewrite Ez. f_equal. eapply continues_unique; eauto.
Qed.
Print Assumptions C64_predict2_stable.

Lemma forM_head_ub {A : Type} n i (f : nat -> A -> res A) s : 0 < n -> f i s = UB -> forM n i f s = UB.
Proof. destruct n as [|n]; [lia|]. intros _ H. cbn [forM]. rewrite H. reflexivity. Qed.

(** An order above half the number of data reads before the first datum. *)
Theorem C64_order_refuted : forall (F : cring) solve (y : list F) n p,
  1 <= n -> n < p -> length y = 2 * n -> ctor F solve y p = UB.
Proof.
  intros F solve y n p Hn Hp Hy. unfold ctor, refit.
  assert (O : Nat.odd (length y) = false) by (rewrite Hy, Nat.odd_mul; reflexivity).
  rewrite O. replace (length y / 2) with n by (rewrite Hy, Nat.mul_comm, Nat.div_mul by lia; reflexivity).
  enough (X : computeA F y p n = UB) by (rewrite X; reflexivity).
  unfold computeA. apply forM_head_ub; [lia|].
  set (P := p). assert (HP : P = n + (1 + (P - n - 1))) by (unfold P; lia).
  match goal with |- forM ?a 0 ?f ?s0 = _ =>
    replace (forM a 0 f s0) with (forM (n + (1 + (P - n - 1))) 0 f s0) by (rewrite <- HP; reflexivity) end.
  rewrite forM_app.
  match goal with |- (do s <- forM n 0 ?f ?s0 ;; _) = _ =>
    destruct (forM_inv (fun _ A => length A = P * P) n f s0 (i := 0)) as [A [E H]] end.
  - apply repeat_length.
  - intros j A [_ Hj] HA. cbn [Nat.add] in Hj. rewrite vset_ok by (unfold P in *; nia). cbn [bind].
    rewrite acc_cell with (pos := 0 + j * P)
          (g := fun i => cmul (nth (i - 1 - 0) y c0) (nth (i - 1 - j) y c0)).
    + eexists. split; [reflexivity|]. rewrite !upd_length. exact HA.
    + lia.
    + rewrite upd_length. unfold P in *. nia.
    + intros i A' Hi HL. rewrite upd_length in HL.
      rewrite (@vget_ok _ A' _ c0) by (unfold P in *; nia). cbn [bind].
      rewrite !sub1_ok by lia. reflexivity.
  - rewrite E. cbn [bind Nat.add forM].
    match goal with |- (do s <- ?m ;; _) = _ => enough (X : m = UB) by (rewrite X; reflexivity) end.
    rewrite vset_ok by (unfold P in *; nia). cbn [bind].
    unfold forR. replace (2 * n - n) with (S (n - 1)) by lia. cbn [forM].
    rewrite (@vget_ok _ (upd A (n * P) c0) _ c0) by (rewrite upd_length; unfold P in *; nia). cbn [bind].
    rewrite sub1_ok by lia. cbn [bind]. unfold sub1. rewrite Nat.leb_refl. reflexivity.
Qed.
Print Assumptions C64_order_refuted.

(** predict2 with a number of points other than the order reads out of range. *)
Theorem C64_predict2_count_refuted : forall (F K : cring) (solve : list F -> list K) (outside : K -> bool) (re : K -> F) (y d : list F) q,
  length d <= length y -> q <> length d ->
  (forall aa, length aa = q + 1 -> length (solve aa) = q) ->
  predict2 F K (Some solve) outside re y d q = UB.
Proof.
  intros F K solve outside re y d q Hd Hq Hs. unfold predict2.
  destruct (Nat.lt_ge_cases (length d) q) as [Hlt|Hge].
  - enough (X : char_poly F d q = UB) by (rewrite X; reflexivity).
    unfold char_poly. rewrite vset_ok by (rewrite repeat_length; lia). cbn [bind].
    destruct q as [|q']; [lia|]. cbn [forM]. unfold vget.
    destruct (nth_error d (S q' - 1 - 0)) eqn:E; [|reflexivity].
    exfalso. assert (X : nth_error d (S q' - 1 - 0) <> None) by congruence. apply nth_error_Some in X. lia.
  - assert (C : exists aa, char_poly F d q = Ok aa /\ length aa = q + 1).
    { unfold char_poly. rewrite vset_ok by (rewrite repeat_length; lia). cbn [bind].
      rewrite forM_fill with (g := fun j => copp (nth (q - 1 - j) d c0)).
      - eexists. split; [reflexivity|].
        rewrite app_length, map_length, seq_length, skipn_length, upd_length, repeat_length. lia.
      - rewrite upd_length, repeat_length. lia.
      - intros i u Hi Hu _. rewrite (@vget_ok _ d _ c0) by lia. reflexivity. }
    destruct C as [aa [E L]]. rewrite E. cbn [bind].
    specialize (Hs aa L). set (roots := fix_roots K outside (solve aa)).
    assert (LR : length roots = q) by (unfold roots, fix_roots; rewrite map_length; exact Hs).
    destruct (Nat.eq_dec q 0) as [->|Nz].
    + destruct roots; [reflexivity|discriminate].
    + rewrite <- LR. rewrite from_roots_ok by (destruct roots; [simpl in LR; lia|discriminate]). cbn [bind].
      destruct (new_d_ok F K re (length roots) (monic K roots)) as [nd [En [Ln _]]]; [rewrite monic_length; lia|].
      rewrite En. cbn [bind]. unfold forR.
      replace (length y + length roots - length y) with (S (q - 1)) by lia. cbn [forM].
      match goal with |- (do s <- ?m ;; _) = _ => enough (X : m = UB) by (rewrite X; reflexivity) end.
      match goal with |- (do s <- ?m ;; _) = _ => enough (X : m = UB) by (rewrite X; reflexivity) end.
      set (z := vresize y (length y + length roots) c0).
      assert (Lz : length z = length y + q) by (unfold z; rewrite vresize_length; lia).
      unfold next. replace (length d) with (q + (1 + (length d - q - 1))) by lia.
      rewrite forM_app.
      match goal with |- (do s <- forM q 0 ?f ?s0 ;; _) = _ =>
        destruct (forM_inv (fun _ _ => True) q f s0 (i := 0)) as [A [EA _]] end.
      * exact I.
      * intros j t [_ Hj] _. cbn [Nat.add] in Hj. rewrite (@vget_ok _ nd _ c0) by lia. cbn [bind].
        rewrite sub1_ok by lia. cbn [bind]. eauto.
      * rewrite EA. cbn [bind Nat.add forM]. unfold vget at 1.
        destruct (nth_error nd q) eqn:E2; [|reflexivity].
        exfalso. assert (X : nth_error nd q <> None) by congruence. apply nth_error_Some in X. lia.
Qed.
Print Assumptions C64_predict2_count_refuted.

(** linearPredictionfunction(y, p) on an existing object looks only at how many
    values y has, not at the values. *)
Theorem C64_refit_refuted : forall (F : cring) solve (y_ y z : list F) p, length y = length z ->
  refit F solve y_ y p = refit F solve y_ z p.
Proof. intros F solve y_ y z p H. unfold refit. rewrite H. reflexivity. Qed.
Print Assumptions C64_refit_refuted.

(** An odd number of values is refused. *)
Theorem C64_odd : forall (F : cring) solve (y : list F) p, Nat.Odd (length y) -> ctor F solve y p = Throw.
Proof. intros F solve y p H. unfold ctor, refit. apply Nat.odd_spec in H. rewrite H. reflexivity. Qed.
Print Assumptions C64_odd.

(** A concrete case: Fibonacci numbers, order 2, with Cramer's rule as solver. *)
Definition fib4 : list Zring := [1; 1; 2; 3]%Z.
Definition cramer (p : nat) (A B : list Zring) : list Zring :=
  match A, B with
  | [a; c; b; d], [u; v] =>
    let det := (a * d - b * c)%Z in [det * (d * u - b * v); det * (a * v - c * u)]%Z
  | _, _ => []
  end.
Example C64_nonvacuous :
  solver_ok Zring 2 cramer /\
  length fib4 = 2 * 2 /\ obeys Zring [1; 1]%Z fib4 2 /\ determined Zring fib4 2 2 /\
  ctor Zring cramer fib4 2 = Ok (fib4, [1; 1]%Z) /\
  predict Zring fib4 [1; 1]%Z 4 = Ok [1; 1; 2; 3; 5; 8; 13; 21]%Z /\
  from_roots Zring 3 [2; 3; -1]%Z = Ok [6; 1; -4; 1]%Z /\
  predict2 Zring Zring (Some (fun _ => [2; -1]%Z)) (fun z => (1 <? Z.abs z)%Z) (fun z => z)
    [1; 1; 3; 5]%Z [1; 2]%Z 2 = Ok [1; 1; 3; 5; -5; 5]%Z.
Proof.
  split.
  { intros A B LA LB [X HX].
    destruct A as [|a [|c [|b [|d [|]]]]]; try discriminate LA.
    destruct B as [|u [|v [|]]]; try discriminate LB.
    pose proof (HX 0 0 ltac:(lia) ltac:(lia)) as H00. pose proof (HX 0 1 ltac:(lia) ltac:(lia)) as H01.
    pose proof (HX 1 0 ltac:(lia) ltac:(lia)) as H10. pose proof (HX 1 1 ltac:(lia) ltac:(lia)) as H11.
    cbn in H00, H01, H10, H11.
    generalize (X 0 0) (X 0 1) (X 1 0) (X 1 1) H00 H01 H10 H11. clear.
    intros x y z w H00 H01 H10 H11.
    change (car Zring) with Z in *.
    assert (D : ((a * d - b * c) * (x * w - y * z) = 1)%Z).
    { transitivity (((x * a + (y * c + 0)) * (z * b + (w * d + 0)) - (x * b + (y * d + 0)) * (z * a + (w * c + 0)))%Z); [ring|].
      rewrite H00, H01, H10, H11. reflexivity. }
    assert (S : ((a * d - b * c) * (a * d - b * c) = 1)%Z).
    { apply Z.eq_mul_1 in D. destruct D as [-> | ->]; reflexivity. }
    split; [reflexivity|]. intros l Hl. assert (l = 0 \/ l = 1) as [-> | ->] by lia.
    - transitivity ((a * d - b * c) * (a * d - b * c) * u)%Z; [cbn; ring|]. rewrite S. exact (Z.mul_1_l u).
    - transitivity ((a * d - b * c) * (a * d - b * c) * v)%Z; [cbn; ring|]. rewrite S. exact (Z.mul_1_l v). }
  split; [reflexivity|]. split.
  { intros i Hi. assert (i = 2 \/ i = 3) as [-> | ->] by lia; reflexivity. }
  split.
  { (* the matrix of the normal equations is [[5, 3], [3, 2]] *)
    exists (fun l k => match l, k with 0, 0 => 2%Z | 0, _ => (-3)%Z | _, 0 => (-3)%Z | _, _ => 5%Z end).
    intros l j Hl Hj. assert (l = 0 \/ l = 1) as [-> | ->] by lia;
    assert (j = 0 \/ j = 1) as [-> | ->] by lia; reflexivity. }
  repeat split; reflexivity.
Qed.
