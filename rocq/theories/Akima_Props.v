(** C57: the Akima spline. *)
From Coq Require Import Reals Lra.
From Verif Require Import Prelude Akima_Model Akima_Spec Akima_Proofs.
Local Open Scope R_scope.

(** On strictly increasing nodes the spline exists and is a function F defined exactly on the interval of the
    nodes. F takes the given values at the nodes, is a cubic between neighbouring nodes with Akima's
    derivatives at both ends, and has a continuous derivative. *)
Theorem C57_spline : forall xs ss, length ss = length xs -> (3 <= length xs)%nat ->
  let n := length xs in
  let x i := nth i xs 0 in
  let s i := nth i ss 0 in
  (forall i, (S i < n)%nat -> x i < x (S i)) ->
  exists A F F',
    akima_new xs ss = Ok A /\
    ak_interval A = (x 0%nat, x (n - 1)%nat) /\
    (forall t, x 0%nat <= t <= x (n - 1)%nat -> akima_eval A t = Ok (F t)) /\
    (forall t, t < x 0%nat \/ x (n - 1)%nat < t -> akima_eval A t = Throw) /\
    (forall i, (i < n)%nat -> F (x i) = s i) /\
    (forall i, (S i < n)%nat -> exists c2 c3,
       (forall t, x i <= t <= x (S i) -> F t = s i + akima_slope n x s i * (t - x i) + c2 * (t - x i) ^ 2 + c3 * (t - x i) ^ 3) /\
       akima_slope n x s i + 2 * c2 * (x (S i) - x i) + 3 * c3 * (x (S i) - x i) ^ 2 = akima_slope n x s (S i)) /\
    (forall t, x 0%nat < t < x (n - 1)%nat -> derivable_pt_lim F t (F' t) /\ continuity_pt F' t).
Proof.
  intros xs ss Hs Hn n x s Hx. exists (spline xs ss), (F xs ss), (dF xs ss).
  split; [apply akima_new_ok; auto|]. split; [reflexivity|]. split; [intros; apply eval_F; auto|]. split; [intros; apply eval_out; auto|].
  split; [|split; [|intros t Ht; apply F_deriv; auto]].
  - intros i Hi. destruct i as [|i].
    + rewrite (F_piece xs ss Hs Hn Hx 0); [apply piece_left|lia|]. pose proof (Hx 0%nat ltac:(lia)). unfold x in *. lra.
    + rewrite (F_piece xs ss Hs Hn Hx i); [apply piece_right; auto|fold n; lia|]. pose proof (Hx i ltac:(lia)). unfold x in *. lra.
  - intros i Hi. exists (a2 xs ss i), (a3 xs ss i). split.
    + intros t Ht. rewrite (F_piece xs ss Hs Hn Hx i) by (auto; fold n; lia). reflexivity.
    + apply dpiece_right; auto.
Qed.
Print Assumptions C57_spline.

(** Straight lines are reproduced. *)
Theorem C57_line : forall xs ss a b, length ss = length xs -> (3 <= length xs)%nat ->
  (forall i, (S i < length xs)%nat -> nth i xs 0 < nth (S i) xs 0) ->
  (forall i, (i < length xs)%nat -> nth i ss 0 = a + b * nth i xs 0) ->
  exists A, akima_new xs ss = Ok A /\
    forall t, nth 0 xs 0 <= t <= nth (length xs - 1) xs 0 -> akima_eval A t = Ok (a + b * t).
Proof.
  intros xs ss a b Hs Hn Hx Hl. exists (spline xs ss). split; [apply akima_new_ok; auto|].
  intros t Ht. rewrite eval_F by auto. f_equal. apply line_F; auto.
Qed.
Print Assumptions C57_line.

(** Vectors of different sizes or with fewer than three points are refused. *)
Theorem C57_refused : forall xs ss, length xs <> length ss \/ (length xs < 3)%nat -> akima_new xs ss = Throw.
Proof.
  intros xs ss H. unfold akima_new. destruct (Nat.eqb_spec (length xs) (length ss)); [|reflexivity].
  destruct H as [H|H]; [contradiction|]. apply Nat.ltb_lt in H. cbn [negb]. rewrite H. reflexivity.
Qed.
Print Assumptions C57_refused.

(** Nodes 0, 1, 3, 4 with values 0, 1, 0, 2: slopes 1, -1/2, 2 with extrapolations 4, 5/2, 9/2, 7. *)
Example C57_nonvacuous :
  (forall i, (S i < 4)%nat -> nth i [0; 1; 3; 4] 0 < nth (S i) [0; 1; 3; 4] 0) /\
  (exists A, akima_new [0; 1; 3; 4] [0; 1; 0; 2] = Ok A /\ akima_eval A 3 = Ok 0 /\ akima_eval A 5 = Throw) /\
  akima_slope 4 (fun i => nth i [0; 1; 3; 4] 0) (fun i => nth i [0; 1; 0; 2] 0) 1 = 7 / 16.
Proof.
  assert (H : forall i, (S i < 4)%nat -> nth i [0; 1; 3; 4] 0 < nth (S i) [0; 1; 3; 4] 0).
  { intros [|[|[|i]]] Hi; cbn; try lra. lia. }
  split; [exact H|]. split.
  - destruct (C57_spline [0; 1; 3; 4] [0; 1; 0; 2] eq_refl ltac:(cbn; lia) H) as (A & F & F' & E1 & _ & E2 & E3 & E4 & _).
    exists A. split; [exact E1|]. split.
    + rewrite E2 by (cbn; lra). f_equal. apply (E4 2%nat). cbn. lia.
    + apply E3. cbn. lra.
  - set (X := fun i => nth i [0; 1; 3; 4] 0). set (Y := fun i => nth i [0; 1; 0; 2] 0).
    assert (E0 : slope X Y 0 = 1) by (unfold slope, X, Y; cbn [nth]; field).
    assert (E1 : slope X Y 1 = -1 / 2) by (unfold slope, X, Y; cbn [nth]; field; lra).
    assert (E2 : slope X Y 2 = 2) by (unfold slope, X, Y; cbn [nth]; field; lra).
    unfold akima_slope, ext_slope. change (4 - 2)%nat with 2%nat. change (4 - 3)%nat with 1%nat.
    cbn [Z.of_nat Pos.of_succ_nat Pos.succ Z.add Z.opp Z.ltb Z.leb Z.compare Z.sub Z.pos_sub Pos.compare Pos.compare_cont Z.to_nat Pos.to_nat Pos.iter_op Pos.add Nat.add CompOpp Pos.pred_double Z.succ_double Z.pred_double Z.double].
    change (Pos.to_nat 1) with 1%nat. change (Pos.to_nat 2) with 2%nat. rewrite E0, E1, E2.
    rewrite Rabs_right by lra. rewrite Rabs_left by lra. destruct (Req_EM_T _ _); [lra|field; lra].
Qed.
