From Coq Require Import Reals Lra.
From Verif Require Import Prelude Akima_Model Akima_Spec.
Local Open Scope R_scope.
Notation rn := (fun v i => nth i v 0).

Lemma rdiv_ok a b : b <> 0 -> rdiv a b = Ok (a / b).
Proof. intros H. unfold rdiv. destruct (Req_EM_T b 0); [contradiction|reflexivity]. Qed.

Section P.
  Variables x s : list R.
  Let n := length x.
  Hypothesis Hs : length s = n.
  Hypothesis Hn : (3 <= n)%nat.
  Hypothesis Hx : forall i, (S i < n)%nat -> nth i x 0 < nth (S i) x 0.
  Notation X := (fun i => nth i x 0).
  Notation S_ := (fun i => nth i s 0).
  Notation m := (ext_slope n X S_).
  Notation sl := (slope X S_).

  Lemma calculateD_ok : exists d, calculateD x s = Ok d /\ length d = (n + 3)%nat /\ forall j, (j < n + 3)%nat -> nth j d 0 = m (Z.of_nat j - 2).
  Proof.
    unfold calculateD. fold n.
    destruct (forR_inv (fun i (d : list R) => length d = (n + 3)%nat /\ forall j, (2 <= j < i)%nat -> nth j d 0 = sl (j - 2))
      (a := 2) (b := (n + 1)%nat) (fun i d =>
    do s1 <- vget s (i - 1) ;; do s2 <- vget s (i - 2) ;; do x1 <- vget x (i - 1) ;; do x2 <- vget x (i - 2) ;;
    do q <- rdiv (s1 - s2) (x1 - x2) ;; vset d i q) (repeat 0 (n + 3))) as (d & E & Ld & Hd).
    - lia.
    - rewrite repeat_length. split; [reflexivity|intros; lia].
    - intros j d Hj [Ld Hd].
      rewrite (@vget_ok _ s (j - 1) 0), (@vget_ok _ s (j - 2) 0), (@vget_ok _ x (j - 1) 0), (@vget_ok _ x (j - 2) 0) by (fold n; lia). cbn [bind].
      assert (Hlt : nth (j - 2) x 0 < nth (j - 1) x 0) by (replace (j - 1)%nat with (S (j - 2)) by lia; apply Hx; lia).
      rewrite rdiv_ok by lra. cbn [bind]. rewrite vset_ok by lia. eexists. split; [reflexivity|]. rewrite upd_length. split; [exact Ld|].
      intros k Hk. destruct (Nat.eq_dec k j) as [->|].
      + rewrite nth_upd_eq by lia. unfold slope. replace (S (j - 2)) with (j - 1)%nat by lia. reflexivity.
      + rewrite nth_upd_neq by auto. apply Hd. lia.
    - rewrite E. cbn [bind].
      repeat first [rewrite vset_ok by (rewrite ?upd_length; lia) | rewrite (@vget_ok _ _ _ 0) by (rewrite ?upd_length; lia) | progress cbn [bind]].
      eexists. split; [reflexivity|]. rewrite !upd_length. split; [exact Ld|]. intros j Hj.
      rewrite !nth_upd, !upd_length, Ld.
      repeat match goal with |- context [Nat.eqb ?a ?b] => destruct (Nat.eqb_spec a b); try (exfalso; lia) end;
      repeat match goal with |- context [Nat.ltb ?a ?b] => destruct (Nat.ltb_spec a b); try (exfalso; lia) end; cbn [andb];
      rewrite ?Hd by lia; unfold ext_slope;
      repeat match goal with |- context [Z.ltb ?a ?b] => destruct (Z.ltb_spec a b); try (exfalso; lia) end;
      repeat match goal with |- context [Z.leb ?a ?b] => destruct (Z.leb_spec a b); try (exfalso; lia) end.
      all: try (subst j; change (Z.of_nat 1 - 2)%Z with (-1)%Z; change (Z.of_nat 0 - 2)%Z with (-2)%Z; change (2 - 2)%nat with 0%nat; change (3 - 2)%nat with 1%nat; lra).
      all: try (subst j; replace (Z.of_nat (n + 2) - 2 - (Z.of_nat n - 2))%Z with 2%Z by lia; replace (n - 1 - 2)%nat with (n - 3)%nat by lia; lra).
      all: try (subst j; replace (Z.of_nat (n + 1) - 2 - (Z.of_nat n - 2))%Z with 1%Z by lia; replace (n - 1 - 2)%nat with (n - 3)%nat by lia; lra).
      all: try (f_equal; lia).
  Qed.

  Lemma calculateW_ok d : (1 <= length d)%nat -> exists w, calculateW d = Ok w /\ length w = (length d - 1)%nat /\
    forall j, (j < length d - 1)%nat -> nth j w 0 = Rabs (nth (S j) d 0 - nth j d 0).
  Proof.
    intros Ld. unfold calculateW.
    destruct (forR_inv (fun i (w : list R) => length w = (length d - 1)%nat /\ forall j, (j < i)%nat -> nth j w 0 = Rabs (nth (S j) d 0 - nth j d 0))
      (a := 0) (b := (length d - 1)%nat) (fun i w => do d1 <- vget d (i + 1) ;; do d0 <- vget d i ;; vset w i (Rabs (d1 - d0))) (repeat 0 (length d - 1))) as (w & E & Lw & Hw); [lia| | |eauto].
    - rewrite repeat_length. split; [reflexivity|intros; lia].
    - intros j w Hj [Lw Hw]. rewrite (@vget_ok _ d (j + 1) 0), (@vget_ok _ d j 0) by lia. cbn [bind]. rewrite vset_ok by lia.
      eexists. split; [reflexivity|]. rewrite upd_length. split; [exact Lw|]. intros k Hk. destruct (Nat.eq_dec k j) as [->|].
      + rewrite nth_upd_eq by lia. replace (j + 1)%nat with (S j) by lia. reflexivity.
      + rewrite nth_upd_neq by auto. apply Hw. lia.
  Qed.

  Notation M := (akima_slope n X S_).
  Lemma calculateSprime_ok : exists sp, calculateSprime x s = Ok sp /\ length sp = n /\ forall j, (j < n)%nat -> nth j sp 0 = M j.
  Proof.
    unfold calculateSprime. destruct calculateD_ok as (d & -> & Ld & Hd). cbn [bind].
    destruct (calculateW_ok d) as (w & -> & Lw & Hw); [lia|]. cbn [bind]. fold n.
    destruct (forR_inv (fun i (sp : list R) => length sp = n /\ forall j, (j < i)%nat -> nth j sp 0 = M j) (a := 0) (b := n)
      (fun i sp =>
    do w0 <- vget w i ;; do w2 <- vget w (i + 2) ;; do d1 <- vget d (i + 1) ;; do d2 <- vget d (i + 2) ;;
    let denom := w0 + w2 in
    if Req_EM_T denom 0 then vset sp i ((d1 + d2) * (1 / 2))
    else do q <- rdiv (w2 * d1 + w0 * d2) denom ;; vset sp i q) (repeat 0 n)) as (sp & E & Lsp & Hsp); [lia| | |eauto].
    - rewrite repeat_length. split; [reflexivity|intros; lia].
    - intros j sp Hj [Lsp Hsp].
      rewrite (@vget_ok _ w j 0), (@vget_ok _ w (j + 2) 0), (@vget_ok _ d (j + 1) 0), (@vget_ok _ d (j + 2) 0) by lia. cbn [bind]. cbv zeta.
      rewrite !Hw by lia. rewrite !Hd by lia.
      replace (Z.of_nat (S j) - 2)%Z with (Z.of_nat j + -1)%Z by lia. replace (Z.of_nat (j + 1) - 2)%Z with (Z.of_nat j + -1)%Z by lia.
      replace (Z.of_nat (j + 2) - 2)%Z with (Z.of_nat j + 0)%Z by lia. replace (Z.of_nat (S (j + 2)) - 2)%Z with (Z.of_nat j + 1)%Z by lia.
      replace (Z.of_nat j - 2)%Z with (Z.of_nat j + -2)%Z by lia.
      assert (G : forall v, v = M j -> exists t', vset sp j v = Ok t' /\ length t' = n /\ forall k, (k < S j)%nat -> nth k t' 0 = M k).
      { intros v ->. rewrite vset_ok by lia. eexists. split; [reflexivity|]. rewrite upd_length. split; [exact Lsp|]. intros k Hk.
        destruct (Nat.eq_dec k j) as [->|]; [rewrite nth_upd_eq by lia; reflexivity|]. rewrite nth_upd_neq by auto. apply Hsp. lia. }
      unfold akima_slope in G at 1. cbv zeta in G.
      set (mm := m) in *. set (A := Rabs (mm (Z.of_nat j + 1)%Z - mm (Z.of_nat j + 0)%Z)) in *. set (B := Rabs (mm (Z.of_nat j + -1)%Z - mm (Z.of_nat j + -2)%Z)) in *.
      destruct (Req_EM_T (B + A) 0) as [H0|H0].
      + destruct (Req_EM_T (A + B) 0) as [_|H1]; [|exfalso; lra]. apply G. lra.
      + destruct (Req_EM_T (A + B) 0) as [H1|_]; [exfalso; lra|]. rewrite rdiv_ok by auto. cbn [bind]. apply G. f_equal; lra.
  Qed.

  Definition ak_at (i : nat) : akima_struct :=
    let u := X (S i) - X i in
    let ds := S_ (S i) - S_ i in
    mkak (X i) (X (S i)) (S_ i) (M i) ((3 * ds - (2 * M i + M (S i)) * u) / (u * u)) (((M i + M (S i)) * u - 2 * ds) / (u * u * u)).

  Definition spline : akima := mkakima (map ak_at (seq 0 (n - 1))) (X 0%nat, X (n - 1)%nat).

  Lemma akima_new_ok : akima_new x s = Ok spline.
  Proof.
    unfold akima_new. fold n. rewrite Hs, Nat.eqb_refl. cbn [negb]. destruct (Nat.ltb_spec n 3); [lia|].
    destruct calculateSprime_ok as (sp & -> & Lsp & Hsp). cbn [bind].
    destruct (forR_inv (fun i aks => aks = map ak_at (seq 0 i)) (a := 0) (b := (n - 1)%nat) (fun i aks =>
      do x0 <- vget x i ;; do x1 <- vget x (i + 1) ;; do s0 <- vget s i ;; do s1 <- vget s (i + 1) ;;
      do p0 <- vget sp i ;; do p1 <- vget sp (i + 1) ;;
      let u := x1 - x0 in
      let ds := s1 - s0 in
      do a2 <- rdiv (3 * ds - (2 * p0 + p1) * u) (u * u) ;;
      do a3 <- rdiv ((p0 + p1) * u - 2 * ds) (u * u * u) ;;
      Ok (aks ++ [mkak x0 x1 s0 p0 a2 a3])) []) as (aks & E & Haks); [lia|reflexivity| |].
    - intros j aks Hj ->.
      rewrite (@vget_ok _ x j 0), (@vget_ok _ x (j + 1) 0), (@vget_ok _ s j 0), (@vget_ok _ s (j + 1) 0), (@vget_ok _ sp j 0), (@vget_ok _ sp (j + 1) 0) by (fold n; lia).
      cbn [bind]. cbv zeta. replace (j + 1)%nat with (S j) by lia. rewrite !Hsp by lia.
      pose proof (Hx j ltac:(lia)) as Hlt.
      assert (Hu : nth (S j) x 0 - nth j x 0 <> 0) by lra.
      rewrite rdiv_ok by (apply Rmult_integral_contrapositive_currified; auto). cbn [bind].
      rewrite rdiv_ok by (repeat apply Rmult_integral_contrapositive_currified; auto). cbn [bind].
      eexists. split; [reflexivity|]. rewrite seq_S, map_app. reflexivity.
    - lazymatch goal with |- bind ?mm _ = _ => replace mm with (Ok aks) by (symmetry; exact E) end. cbn [bind]. subst aks. rewrite map_length, seq_length.
      rewrite (@vget_ok _ _ 0 (ak_at 0)), (@vget_ok _ _ (n - 1 - 1) (ak_at 0)) by (rewrite map_length, seq_length; lia). cbn [bind].
      rewrite !map_nth, !seq_nth by lia. unfold spline. cbn [ak_at ak_x0 ak_x1 Nat.add]. replace (S (n - 1 - 1)) with (n - 1)%nat by lia. reflexivity.
  Qed.

  Lemma X_mono i j : (i < j < n)%nat -> X i < X j.
  Proof.
    intros H. induction j as [|j IH]; [lia|]. pose proof (Hx j ltac:(lia)) as H1.
    destruct (Nat.eq_dec i j) as [->|]; [exact H1|]. assert (X i < X j) by (apply IH; lia). cbv beta in *. lra.
  Qed.
  Lemma X_mono_le i j : (i <= j < n)%nat -> X i <= X j.
  Proof. intros H. destruct (Nat.eq_dec i j) as [->|]; [lra|]. left. apply X_mono. lia. Qed.

  (** the first interval that contains t *)
  Lemma loop_ok t k : forall j, (k + j = n - 1)%nat -> X j <= t -> t <= X (n - 1)%nat -> (0 < k)%nat ->
    exists i, (j <= i < n - 1)%nat /\ findRange_loop (map ak_at (seq j k)) j t = Ok i /\ X i <= t <= X (S i).
  Proof.
    induction k as [|k IH]; intros j Hj Ht Hl Hk; [lia|].
    cbn [seq map findRange_loop]. cbn [ak_at ak_x0 ak_x1].
    destruct (Rle_dec (nth j x 0) t) as [H1|H1]; [|contradiction].
    destruct (Rle_dec t (nth (S j) x 0)) as [H2|H2].
    - exists j. split; [lia|]. split; [reflexivity|]. auto.
    - destruct k as [|k]. { exfalso. apply H2. replace (S j) with (n - 1)%nat by lia. exact Hl. }
      destruct (IH (S j)) as (i & Hi & E & Hr); [lia|lra|exact Hl|lia|]. exists i. split; [lia|]. auto.
  Qed.

  Definition F (t : R) : R := match akima_eval spline t with Ok v => v | _ => 0 end.
  Definition a2 i := ak_a2 (ak_at i).
  Definition a3 i := ak_a3 (ak_at i).
  Definition piece (i : nat) (t : R) : R := let u := t - X i in S_ i + M i * u + a2 i * u ^ 2 + a3 i * u ^ 3.
  Definition dpiece (i : nat) (t : R) : R := let u := t - X i in M i + 2 * a2 i * u + 3 * a3 i * u ^ 2.

  Lemma piece_left i : piece i (X i) = S_ i.
  Proof. unfold piece. cbv zeta. ring. Qed.
  Lemma piece_right i : (S i < n)%nat -> piece i (X (S i)) = S_ (S i).
  Proof. intros H. pose proof (Hx i H). unfold piece, a2, a3, ak_at. cbn [ak_a2 ak_a3]. cbv beta zeta. field. lra. Qed.
  Lemma dpiece_left i : dpiece i (X i) = M i.
  Proof. unfold dpiece. cbv zeta. ring. Qed.
  Lemma dpiece_right i : (S i < n)%nat -> dpiece i (X (S i)) = M (S i).
  Proof. intros H. pose proof (Hx i H). unfold dpiece, a2, a3, ak_at. cbn [ak_a2 ak_a3]. cbv beta zeta. field. lra. Qed.
  Lemma functionFor_piece i t : functionFor (ak_at i) t = piece i t.
  Proof. unfold functionFor, piece, a2, a3. cbn [ak_x0 ak_a0 ak_a1 ak_at]. cbv beta zeta. ring. Qed.

  Lemma eval_in t : X 0%nat <= t <= X (n - 1)%nat -> exists i, (i < n - 1)%nat /\ X i <= t <= X (S i) /\ akima_eval spline t = Ok (piece i t).
  Proof.
    intros H. unfold akima_eval, findRange. cbn [ak_interval ak_structs spline fst snd].
    destruct (Rlt_dec t (nth 0 x 0)); [lra|]. destruct (Rlt_dec (nth (n - 1) x 0) t); [lra|].
    destruct (loop_ok t (n - 1) 0) as (i & Hi & E & Hr); [lia|lra|lra|lia|]. exists i. split; [lia|]. split; [exact Hr|].
    rewrite E. cbn [bind]. rewrite (@vget_ok _ _ i (ak_at 0)) by (rewrite map_length, seq_length; lia). cbn [bind].
    rewrite map_nth, seq_nth by lia. rewrite functionFor_piece. reflexivity.
  Qed.
  Lemma eval_out t : t < X 0%nat \/ X (n - 1)%nat < t -> akima_eval spline t = Throw.
  Proof.
    intros H. unfold akima_eval, findRange. cbn [ak_interval ak_structs spline fst snd].
    destruct (Rlt_dec t (nth 0 x 0)); [reflexivity|]. destruct (Rlt_dec (nth (n - 1) x 0) t); [reflexivity|lra].
  Qed.
  Lemma X_in i t : (i < n - 1)%nat -> X i <= t <= X (S i) -> X 0%nat <= t <= X (n - 1)%nat.
  Proof. intros Hi H. pose proof (X_mono_le 0 i ltac:(lia)). pose proof (X_mono_le (S i) (n - 1) ltac:(lia)). cbv beta in *. lra. Qed.
  Lemma eval_F t : X 0%nat <= t <= X (n - 1)%nat -> akima_eval spline t = Ok (F t).
  Proof. intros H. destruct (eval_in t H) as (i & _ & _ & E). unfold F. rewrite E. reflexivity. Qed.
  (** two pieces that contain t agree there *)
  Lemma F_piece i t : (i < n - 1)%nat -> X i <= t <= X (S i) -> F t = piece i t.
  Proof.
    intros Hi Ht. destruct (eval_in t (X_in i t Hi Ht)) as (k & Hk & Hkt & E). unfold F. rewrite E. clear E.
    destruct (Nat.lt_trichotomy i k) as [H|[->|H]]; [|reflexivity|].
    - pose proof (X_mono_le (S i) k ltac:(lia)) as H1. cbv beta in *. assert (t = X k) by (cbv beta; lra). assert (t = X (S i)) by (cbv beta; lra).
      assert (k = S i). { destruct (Nat.eq_dec k (S i)) as [|Hne]; [auto|]. exfalso. pose proof (X_mono (S i) k ltac:(lia)). cbv beta in *. lra. }
      subst k. subst t. rewrite piece_left. symmetry. apply piece_right. lia.
    - pose proof (X_mono_le (S k) i ltac:(lia)) as H1. cbv beta in *. assert (t = X i) by (cbv beta; lra). assert (t = X (S k)) by (cbv beta; lra).
      assert (i = S k). { destruct (Nat.eq_dec i (S k)) as [|Hne]; [auto|]. exfalso. pose proof (X_mono (S k) i ltac:(lia)). cbv beta in *. lra. }
      subst i. subst t. rewrite piece_left. apply piece_right. lia.
  Qed.

  (** the derivative: that of the first piece that contains t *)
  Definition dF (t : R) : R := match findRange spline t with Ok i => dpiece i t | _ => 0 end.
  Lemma dF_piece i t : (i < n - 1)%nat -> X i <= t <= X (S i) -> dF t = dpiece i t.
  Proof.
    intros Hi Ht. pose proof (X_in i t Hi Ht) as Hin. unfold dF, findRange. cbn [ak_interval ak_structs spline fst snd].
    destruct (Rlt_dec t (nth 0 x 0)); [cbv beta in *; lra|]. destruct (Rlt_dec (nth (n - 1) x 0) t); [cbv beta in *; lra|].
    destruct (loop_ok t (n - 1) 0) as (k & Hk & E & Hkt); [lia|lra|lra|lia|]. rewrite E. clear E.
    destruct (Nat.lt_trichotomy i k) as [H|[->|H]]; [|reflexivity|].
    - pose proof (X_mono_le (S i) k ltac:(lia)) as H1. cbv beta in *. assert (t = X k) by (cbv beta; lra). assert (t = X (S i)) by (cbv beta; lra).
      assert (k = S i). { destruct (Nat.eq_dec k (S i)) as [|Hne]; [auto|]. exfalso. pose proof (X_mono (S i) k ltac:(lia)). cbv beta in *. lra. }
      subst k. subst t. rewrite dpiece_left. symmetry. apply dpiece_right. lia.
    - pose proof (X_mono_le (S k) i ltac:(lia)) as H1. cbv beta in *. assert (t = X i) by (cbv beta; lra). assert (t = X (S k)) by (cbv beta; lra).
      assert (i = S k). { destruct (Nat.eq_dec i (S k)) as [|Hne]; [auto|]. exfalso. pose proof (X_mono (S k) i ltac:(lia)). cbv beta in *. lra. }
      subst i. subst t. rewrite dpiece_left. apply dpiece_right. lia.
  Qed.

  Lemma piece_deriv i t : derivable_pt_lim (piece i) t (dpiece i t).
  Proof.
    unfold piece, dpiece. cbv zeta.
    replace (M i + 2 * a2 i * (t - X i) + 3 * a3 i * (t - X i) ^ 2) with
      (0 + (0 * (t - X i) + M i * (1 - 0)) + (0 * (t - X i) ^ 2 + a2 i * (INR 2 * (t - X i) ^ Nat.pred 2 * (1 - 0)))
        + (0 * (t - X i) ^ 3 + a3 i * (INR 3 * (t - X i) ^ Nat.pred 3 * (1 - 0)))) by (cbn [INR Nat.pred]; ring).
    assert (Hu : derivable_pt_lim (fun t => t - X i) t (1 - 0)) by (apply derivable_pt_lim_minus; [apply derivable_pt_lim_id|apply derivable_pt_lim_const]).
    assert (Hp : forall k, derivable_pt_lim (fun t => (t - X i) ^ k) t (INR k * (t - X i) ^ Nat.pred k * (1 - 0))).
    { intros k. apply (derivable_pt_lim_comp (fun t => t - X i) (fun u => u ^ k) t (1 - 0) (INR k * (t - X i) ^ Nat.pred k) Hu). apply derivable_pt_lim_pow. }
    apply derivable_pt_lim_plus; [apply derivable_pt_lim_plus; [apply derivable_pt_lim_plus|]|].
    - apply derivable_pt_lim_const.
    - apply (derivable_pt_lim_mult (fun _ => M i) (fun t => t - X i)); [apply derivable_pt_lim_const|exact Hu].
    - apply (derivable_pt_lim_mult (fun _ => a2 i) (fun t => (t - X i) ^ 2)); [apply derivable_pt_lim_const|apply Hp].
    - apply (derivable_pt_lim_mult (fun _ => a3 i) (fun t => (t - X i) ^ 3)); [apply derivable_pt_lim_const|apply Hp].
  Qed.
  Lemma dpiece_cont i t : continuity_pt (dpiece i) t.
  Proof. unfold dpiece. cbv zeta. reg. Qed.

  (** near an interior point the spline is made of two pieces that agree there with their derivatives *)
  Lemma local t : X 0%nat < t < X (n - 1)%nat -> exists i j e, 0 < e /\
    (forall y, t - e < y <= t -> F y = piece i y /\ dF y = dpiece i y) /\
    (forall y, t <= y < t + e -> F y = piece j y /\ dF y = dpiece j y).
  Proof.
    intros Ht. destruct (eval_in t) as (i & Hi & Hit & _); [cbv beta in *; lra|]. cbv beta in *.
    assert (G : forall a b y, (a < n - 1)%nat -> (b < n - 1)%nat -> (X a <= y <= X (S a) \/ X b <= y <= X (S b)) -> True) by auto. clear G.
    assert (PP : forall a y, (a < n - 1)%nat -> nth a x 0 <= y <= nth (S a) x 0 -> F y = piece a y /\ dF y = dpiece a y).
    { intros a y Ha Hy. split; [apply F_piece|apply dF_piece]; auto. }
    destruct (Req_dec t (nth i x 0)) as [El|El]; [|destruct (Req_dec t (nth (S i) x 0)) as [Er|Er]].
    - destruct i as [|i]; [exfalso; lra|]. pose proof (Hx i ltac:(lia)). pose proof (Hx (S i) ltac:(lia)).
      exists i, (S i), (Rmin (nth (S i) x 0 - nth i x 0) (nth (S (S i)) x 0 - nth (S i) x 0)).
      unfold Rmin. destruct (Rle_dec _ _); (split; [lra|split; intros y Hy; apply PP; (lia || lra)]).
    - destruct (Nat.eq_dec (S i) (n - 1)) as [E|E]; [exfalso; rewrite <- E in Ht; lra|]. pose proof (Hx i ltac:(lia)). pose proof (Hx (S i) ltac:(lia)).
      exists i, (S i), (Rmin (nth (S i) x 0 - nth i x 0) (nth (S (S i)) x 0 - nth (S i) x 0)).
      unfold Rmin. destruct (Rle_dec _ _); (split; [lra|split; intros y Hy; apply PP; (lia || lra)]).
    - exists i, i, (Rmin (t - nth i x 0) (nth (S i) x 0 - t)).
      unfold Rmin. destruct (Rle_dec _ _); (split; [lra|split; intros y Hy; apply PP; (lia || lra)]).
  Qed.

  Lemma F_deriv t : X 0%nat < t < X (n - 1)%nat -> derivable_pt_lim F t (dF t) /\ continuity_pt dF t.
  Proof.
    intros Ht. destruct (local t Ht) as (i & j & e & He & Hl & Hr).
    destruct (Hl t ltac:(lra)) as [L1 L2]. destruct (Hr t ltac:(lra)) as [R1 R2].
    split.
    - intros eps Heps. destruct (piece_deriv i t eps Heps) as [[d1 Hd1] D1]. destruct (piece_deriv j t eps Heps) as [[d2 Hd2] D2]. cbn in D1, D2.
      assert (Hd : 0 < Rmin e (Rmin d1 d2)) by (repeat apply Rmin_glb_lt; auto).
      exists (mkposreal _ Hd). cbn. intros h Hh Hhd.
      assert (B : Rabs h < e /\ Rabs h < d1 /\ Rabs h < d2).
      { pose proof (Rmin_l e (Rmin d1 d2)). pose proof (Rmin_r e (Rmin d1 d2)). pose proof (Rmin_l d1 d2). pose proof (Rmin_r d1 d2). lra. }
      destruct B as (B1 & B2 & B3). destruct (Rle_dec h 0) as [Hn0|Hp0].
      + rewrite (Rabs_left1 h) in B1 by auto. destruct (Hl (t + h) ltac:(lra)) as [-> _]. rewrite L1, L2. apply D1; auto.
      + rewrite (Rabs_right h) in B1 by lra. destruct (Hr (t + h) ltac:(lra)) as [-> _]. rewrite R1, R2. apply D2; auto.
    - intros eps Heps. destruct (dpiece_cont i t eps Heps) as (d1 & Hd1 & D1). destruct (dpiece_cont j t eps Heps) as (d2 & Hd2 & D2).
      exists (Rmin e (Rmin d1 d2)). split; [repeat apply Rmin_glb_lt; auto|]. intros y [Hy Hyd]. cbn in *. unfold R_dist in *.
      assert (B : Rabs (y - t) < e /\ Rabs (y - t) < d1 /\ Rabs (y - t) < d2).
      { pose proof (Rmin_l e (Rmin d1 d2)). pose proof (Rmin_r e (Rmin d1 d2)). pose proof (Rmin_l d1 d2). pose proof (Rmin_r d1 d2). lra. }
      destruct B as (B1 & B2 & B3). apply Rabs_def2 in B1. destruct (Rle_dec y t) as [Hn0|Hp0].
      + destruct (Hl y ltac:(lra)) as [_ ->]. rewrite L2. apply D1. auto.
      + destruct (Hr y ltac:(lra)) as [_ ->]. rewrite R2. apply D2. auto.
  Qed.

  Lemma line_slope a b i : (forall i, (i < n)%nat -> S_ i = a + b * X i) -> M i = b.
  Proof.
    intros H.
    assert (Hsl : forall j, (S j < n)%nat -> sl j = b).
    { intros j Hj. pose proof (Hx j Hj). unfold slope. rewrite !H by lia. field. lra. }
    assert (Hm : forall j, m j = b).
    { intros j. unfold ext_slope. rewrite (Hsl 0%nat), (Hsl 1%nat), (Hsl (n - 2)%nat), (Hsl (n - 3)%nat) by lia.
      destruct (Z.ltb_spec j 0); [ring|]. destruct (Z.leb_spec j (Z.of_nat n - 2)); [apply Hsl; lia|ring]. }
    unfold akima_slope. cbv zeta. rewrite !Hm. rewrite Rminus_diag_eq by reflexivity. rewrite Rabs_R0.
    destruct (Req_EM_T (0 + 0) 0); [lra|lra].
  Qed.
  Lemma line_F a b t : (forall i, (i < n)%nat -> S_ i = a + b * X i) -> X 0%nat <= t <= X (n - 1)%nat -> F t = a + b * t.
  Proof.
    intros H Ht. destruct (eval_in t Ht) as (i & Hi & Hit & E). unfold F. rewrite E. pose proof (Hx i ltac:(lia)).
    unfold piece, a2, a3, ak_at. cbn [ak_a2 ak_a3]. cbv beta zeta in *. rewrite !(line_slope a b) by auto. rewrite !H by lia. field. lra.
  Qed.
End P.
