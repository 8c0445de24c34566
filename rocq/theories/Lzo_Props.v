(** Theorems about a Lanczos solver that is used more than once (C120). *)
From Coq Require Import Reals Lra.
From Verif Require Import Prelude Ring Cplx Tri_Model Tri_Proofs Lanczos_Model Lanczos_Spec Lanczos_Proofs Lanczos_Proofs2 Lanczos_Props Lzo_Model Lzo_Spec.
Local Open Scope nat_scope.

Definition agree (k : nat) (d1 d2 : list vector) : Prop := length d1 = length d2 /\ forall i, i < k -> nth_error d1 i = nth_error d2 i.

Lemma nth_error_upd {A} (l : list A) i x k : nth_error (upd l i x) k = if (k =? i) && (i <? length l) then Some x else nth_error l k.
Proof.
  revert i k. induction l as [|a l IH]; intros [|i] [|k]; cbn; try reflexivity.
  - rewrite Bool.andb_false_r. reflexivity.
  - exact (IH i k).
Qed.
Lemma agree_vset k d1 d2 x : agree k d1 d2 ->
  (exists d1' d2', vset d1 k x = Ok d1' /\ vset d2 k x = Ok d2' /\ agree (S k) d1' d2') \/ (vset d1 k x = UB /\ vset d2 k x = UB).
Proof.
  intros [L A]. unfold vset. rewrite <- L. destruct (Nat.ltb_spec k (length d1)) as [H|H]; [left|right; auto].
  do 2 eexists. do 2 (split; [reflexivity|]). split; [rewrite !upd_length; exact L|]. intros i Hi. rewrite !nth_error_upd, <- L.
  destruct (Nat.eqb_spec i k) as [->|N]; [|cbn [andb]; apply A; lia]. replace (k <? length d1) with true by (symmetry; apply Nat.ltb_lt; exact H). reflexivity.
Qed.
Lemma reortho_agree rows re m d1 d2 V2 j : agree (j + 1) d1 d2 -> reortho rows re m d1 V2 j = reortho rows re m d2 V2 j.
Proof.
  intros [_ A]. unfold reortho. destruct re; [|reflexivity]. cbn [negb]. destruct (m <=? j); [reflexivity|].
  match goal with |- bind (forM _ _ ?f _) _ = bind (forM _ _ ?g _) _ => set (F := f); set (G := g) end.
  assert (H : forall n i V, i + n <= j + 1 -> forM n i F V = forM n i G V).
  { induction n as [|n IH]; intros i V Hn; [reflexivity|]. cbn [forM]. unfold F at 1, G at 1. unfold vget. rewrite A by lia.
    destruct (nth_error d2 i); [|reflexivity]. cbn [bind]. apply IH. lia. }
  rewrite H by lia. reflexivity.
Qed.

Section Stale.
  Variable rows : nat.
  Variable mvp : vector -> vector -> vector.
  Variable stedc : nat -> list R -> list R -> option (list R).
  Variable tolerance : R.
  Variable minSteps excitedForStop : nat.
  Variable isReortho : bool.

  Definition same (x y : res (nat * list vector * list R * list R)) : Prop :=
    match x, y with
    | Ok (j1, d1, a1, b1), Ok (j2, d2, a2, b2) => j1 = j2 /\ a1 = a2 /\ b1 = b2 /\ agree (j1 + 1) d1 d2
    | Throw, Throw => True | UB, UB => True | OutOfFuel, OutOfFuel => True
    | _, _ => False
    end.

  Lemma loop_agree m : forall n j d1 d2 V0 V1 a b eold fl, agree (j + 1) d1 d2 ->
    same (lanczos_loop rows mvp stedc tolerance minSteps excitedForStop isReortho m n j d1 V0 V1 a b eold fl)
         (lanczos_loop rows mvp stedc tolerance minSteps excitedForStop isReortho m n j d2 V0 V1 a b eold fl).
  Proof.
    induction n as [|n IH]; intros j d1 d2 V0 V1 a b eold fl A; cbn [lanczos_loop]; [cbn; auto|].
    assert (E : oneStep rows mvp isReortho m d1 V0 V1 a b j = oneStep rows mvp isReortho m d2 V0 V1 a b j).
    { unfold oneStep. cbv zeta. destruct (vset a j _) as [a'| | |]; try reflexivity. cbn [bind]. destruct (vget a' j) as [ai| | |]; try reflexivity. cbn [bind].
      destruct (vget b j) as [bi| | |]; try reflexivity. cbn [bind]. match goal with |- bind ?x _ = bind ?x _ => destruct x; try reflexivity end. cbn [bind].
      rewrite (reortho_agree _ _ _ _ _ _ _ A). reflexivity. }
    rewrite E. destruct (oneStep rows mvp isReortho m d2 V0 V1 a b j) as [[[V2 a'] b']| | |]; cbn [bind same]; auto.
    destruct (tri_diag stedc a' b' (j + 1)) as [te| | |]; cbn [bind same]; auto.
    destruct (deltas excitedForStop te eold) as [[eo dm]| | |]; cbn [bind same]; auto. cbv zeta.
    match goal with |- same (if ?x && _ then _ else _) _ => destruct x end; cbn [andb].
    - destruct (rows <=? 4); [cbn; auto|]. destruct (minSteps <=? j); [cbn; auto|]. destruct V2 as [V2|]; cbn [same]; auto.
      destruct (agree_vset (j + 1) d1 d2 V2 A) as [(d1' & d2' & E1 & E2 & A')|[E1 E2]]; rewrite E1, E2; cbn [bind same]; auto.
      apply IH. replace (j + 1 + 1) with (S (j + 1)) by lia. exact A'.
    - destruct V2 as [V2|]; cbn [same]; auto.
      destruct (agree_vset (j + 1) d1 d2 V2 A) as [(d1' & d2' & E1 & E2 & A')|[E1 E2]]; rewrite E1, E2; cbn [bind same]; auto.
      apply IH. replace (j + 1 + 1) with (S (j + 1)) by lia. exact A'.
  Qed.

  Lemma agree_resize k d1 d2 x : agree k d1 d2 -> vresize d1 k x = vresize d2 k x.
  Proof.
    intros [L A]. unfold vresize. rewrite L. f_equal. clear L. revert d1 d2 A. induction k as [|k IH]; intros d1 d2 A; [reflexivity|].
    pose proof (A 0 ltac:(lia)) as A0. destruct d1 as [|x1 d1], d2 as [|x2 d2]; cbn in A0; try discriminate A0; [reflexivity|]. injection A0 as ->.
    cbn [firstn]. f_equal. apply IH. intros i Hi. exact (A (S i) ltac:(lia)).
  Qed.
  Lemma agree_le k l d1 d2 : agree k d1 d2 -> l <= k -> agree l d1 d2.
  Proof. intros [L A] H. split; [exact L|]. intros i Hi. apply A. lia. Qed.
  Lemma agree_0 d1 d2 : length d1 = length d2 -> agree 0 d1 d2.
  Proof. intros L. split; [exact L|]. intros i Hi. lia. Qed.

  (** the object is new, or it has been used *)
  Definition ready (o : lzobj) : Prop := match lz_data o with None => True | Some (r, d) => r = rows /\ length d = lz_steps o /\ lz_steps o <= rows end.

  Lemma reuse_step o init : ready o ->
    match lz_decomposition rows mvp stedc tolerance minSteps isReortho excitedForStop o init,
          decomposition rows mvp stedc tolerance minSteps excitedForStop isReortho (lz_steps o) init with
    | Ok (o', r), Ok r' => r = r' /\ o' = mklzobj (length (fst r)) (Some (rows, fst r)) /\ ready o' /\ lz_steps o' <= lz_steps o
    | Throw, Throw => True | UB, UB => True | OutOfFuel, OutOfFuel => True
    | _, _ => False
    end.
  Proof.
    intros Ro. unfold lz_decomposition, decomposition. destruct (negb (length init =? rows)); [exact I|]. cbv zeta.
    destruct (Req_EM_T (sum_re rows init init) 0); cbn [bind]; [exact I|].
    set (m := if rows <? lz_steps o then rows else lz_steps o).
    assert (Hm : m <= rows /\ m <= lz_steps o) by (unfold m; destruct (Nat.ltb_spec rows (lz_steps o)); lia).
    destruct (tri_resize_val Rring (tri_new Rring) m 0%R) as [ab| | |]; cbn [bind]; auto.
    assert (P : exists d, lz_prepare rows o m = Ok d /\ length d = m).
    { unfold lz_prepare. unfold ready in Ro. destruct (lz_data o) as [[r d]|]; [|eexists; split; [reflexivity|apply repeat_length]].
      destruct Ro as (-> & L & Le). replace m with (length d) by (unfold m; destruct (Nat.ltb_spec rows (lz_steps o)); lia). rewrite !Nat.eqb_refl. cbn. eauto. }
    destruct P as (d1 & -> & L1). cbn [bind]. set (d2 := repeat (vec rows (fun _ => c0)) m). assert (L2 : length d2 = m) by apply repeat_length.
    assert (A0 : agree 0 d1 d2) by (apply agree_0; congruence).
    destruct (vset (t_b ab) 0 0%R) as [b| | |]; cbn [bind]; auto.
    set (V0 := scale rows (1 / sqrt (sum_re rows init init)) init).
    destruct (agree_vset 0 d1 d2 V0 A0) as [(d3 & d4 & E1 & E2 & A1)|[E1 E2]]; rewrite E1, E2; cbn [bind]; auto.
    destruct (vset (t_a ab) 0 _) as [a| | |]; cbn [bind]; auto.
    match goal with |- context [vset b 1 ?x] => set (bt := x) end. destruct (vset b 1 bt) as [b'| | |]; cbn [bind]; auto.
    set (V1 := if Rlt_dec 0 bt then _ else _).
    assert (L3 : length d3 = m /\ length d4 = m). { unfold vset in E1, E2. destruct (0 <? length d1); [|discriminate]. destruct (0 <? length d2); [|discriminate]. injection E1 as <-. injection E2 as <-. rewrite !upd_length. auto. }
    assert (A2 : exists d5 d6, (if 1 <? m then vset d3 1 V1 else Ok d3) = Ok d5 /\ (if 1 <? m then vset d4 1 V1 else Ok d4) = Ok d6 /\ agree 2 d5 d6 /\ length d5 = m /\ length d6 = m).
    { destruct (Nat.ltb_spec 1 m) as [Lm|Lm].
      - destruct (agree_vset 1 d3 d4 V1 A1) as [(d5 & d6 & F1 & F2 & A2)|[F1 F2]].
        + exists d5, d6. repeat split; auto; try apply A2; (unfold vset in F1, F2; destruct (1 <? length d3), (1 <? length d4); try discriminate; injection F1 as <-; injection F2 as <-; rewrite upd_length; tauto).
        + unfold vset in F1. destruct (Nat.ltb_spec 1 (length d3)); [discriminate|]. lia.
      - exists d3, d4. repeat split; auto; try tauto; try (apply A1). intros i Hi. destruct i as [|i]; [apply A1; lia|].
        rewrite !(proj2 (nth_error_None _ _)) by lia. reflexivity. }
    destruct A2 as (d5 & d6 & -> & -> & A2 & L5 & L6). cbn [bind].
    pose proof (loop_agree m (m - 1) 1 d5 d6 V0 V1 a b' (repeat 0%R m) false A2) as S.
    destruct (lanczos_loop rows mvp stedc tolerance minSteps excitedForStop isReortho m (m - 1) 1 d5 V0 V1 a b' (repeat 0%R m) false) as [[[[j1 d7] a1] b1]| | |] eqn:E5;
    destruct (lanczos_loop rows mvp stedc tolerance minSteps excitedForStop isReortho m (m - 1) 1 d6 V0 V1 a b' (repeat 0%R m) false) as [[[[j2 d8] a2] b2]| | |] eqn:E6;
      cbn [same] in S; try contradiction; cbn [bind]; auto. destruct S as (<- & <- & <- & A3).
    destruct (Nat.ltb_spec j1 m) as [Lj|Lj].
    - destruct (tri_resize Rring _ (j1 + 1)) as [ab'| | |]; cbn [bind]; auto.
      rewrite (agree_resize _ _ _ (vec rows (fun _ => c0)) A3). split; [reflexivity|]. cbn [fst]. rewrite !vresize_length.
      split; [reflexivity|]. split; [|cbn; lia]. unfold ready. cbn [lz_data lz_steps]. rewrite vresize_length. repeat split. lia.
    - cbn [bind]. rewrite (agree_resize m d7 d8 (vec rows (fun _ => c0))) by (apply (agree_le (j1 + 1)); [exact A3|lia]). split; [reflexivity|]. cbn [fst]. rewrite !vresize_length.
      split; [reflexivity|]. split; [|cbn; lia]. unfold ready. cbn [lz_data lz_steps]. rewrite vresize_length. repeat split. lia.
  Qed.
End Stale.

Lemma last_cons {A} (l : list A) : forall a d, last (a :: l) d = last l a.
Proof. induction l as [|b l IH]; intros a d; [reflexivity|]. change (last (a :: b :: l) d) with (last (b :: l) d). rewrite !IH. reflexivity. Qed.

Section Calls.
  Variable rows : nat.
  Variable mvp : vector -> vector -> vector.
  Variable stedc : nat -> list R -> list R -> option (list R).
  Variable tolerance : R.
  Variable minSteps : nat.
  Variable isReortho : bool.
  Local Notation dec ex k v := (decomposition rows mvp stedc tolerance minSteps ex isReortho k v).
  Local Notation ldec ex o v := (lz_decomposition rows mvp stedc tolerance minSteps isReortho ex o v).
  Local Notation lcalls o xs := (lz_calls rows mvp stedc tolerance minSteps isReortho o xs).

  Lemma ldec_ok ex o init o' r : ready rows o -> ldec ex o init = Ok (o', r) ->
    dec ex (lz_steps o) init = Ok r /\ o' = mklzobj (length (fst r)) (Some (rows, fst r)) /\ ready rows o'.
  Proof.
    intros Ro E. pose proof (reuse_step rows mvp stedc tolerance minSteps ex isReortho o init Ro) as S. rewrite E in S.
    destruct (dec ex (lz_steps o) init) as [r'| | |]; try contradiction. destruct S as (<- & S1 & S2 & _). auto.
  Qed.
  Lemma ldec_eq ex o init : ready rows o -> (do (o', r) <- ldec ex o init ;; Ok r) = dec ex (lz_steps o) init.
  Proof.
    intros Ro. pose proof (reuse_step rows mvp stedc tolerance minSteps ex isReortho o init Ro) as S.
    destruct (ldec ex o init) as [[o' r]| | |], (dec ex (lz_steps o) init) as [r'| | |]; try contradiction; cbn [bind]; try reflexivity. destruct S as (<- & _). reflexivity.
  Qed.
  Lemma calls_ok xs : forall o o' rs, ready rows o -> lcalls o xs = Ok (o', rs) ->
    ready rows o' /\ one_by_one (fun k x r => dec (fst x) k (snd x) = Ok r) (lz_steps o) xs rs /\
    match rs with [] => o' = o | r :: rs => o' = mklzobj (length (fst (last rs r))) (Some (rows, fst (last rs r))) end.
  Proof.
    induction xs as [|[ex v] xs IH]; intros o o' rs Ro E; cbn [lz_calls] in E; [injection E as <- <-; cbn; auto|].
    destruct (ldec ex o v) as [[o1 r]| | |] eqn:E1; try discriminate E. cbn [bind] in E.
    destruct (lcalls o1 xs) as [[o2 rs2]| | |] eqn:E2; try discriminate E. cbn [bind] in E. injection E as <- <-.
    destruct (ldec_ok _ _ _ _ _ Ro E1) as (D & O1 & R1). destruct (IH o1 o2 rs2 R1 E2) as (R2 & B & L). split; [exact R2|]. split.
    - cbn [one_by_one fst snd]. split; [exact D|]. subst o1. exact B.
    - destruct rs2 as [|r2 rs2]; [subst; reflexivity|]. rewrite L, last_cons. reflexivity.
  Qed.
End Calls.

(** The calls of one solver, one after the other: the first gives what a new solver gives, and every other one what a new solver
    gives that is made for as many steps as the call before it took. *)
Theorem C120_calls : forall rows mvp stedc tolerance minSteps isReortho steps xs o rs,
  lz_calls rows mvp stedc tolerance minSteps isReortho (lz_new steps) xs = Ok (o, rs) ->
  one_by_one (fun k x r => decomposition rows mvp stedc tolerance minSteps (fst x) isReortho k (snd x) = Ok r) steps xs rs.
Proof.
  intros rows mvp stedc tol ms re steps xs o rs E. exact (proj1 (proj2 (calls_ok rows mvp stedc tol ms re xs (lz_new steps) o rs I E))).
Qed.
Print Assumptions C120_calls.

(** ... and the next call then fails in the same way as that of a new solver does. *)
Theorem C120_next : forall rows mvp stedc tolerance minSteps isReortho steps xs o rs ex init,
  lz_calls rows mvp stedc tolerance minSteps isReortho (lz_new steps) xs = Ok (o, rs) ->
  (do (o', r) <- lz_decomposition rows mvp stedc tolerance minSteps isReortho ex o init ;; Ok r) =
  decomposition rows mvp stedc tolerance minSteps ex isReortho (last (map (fun r => length (fst r)) rs) steps) init.
Proof.
  intros rows mvp stedc tol ms re steps xs o rs ex init E. destruct (calls_ok _ _ _ _ _ _ xs (lz_new steps) o rs I E) as (R & _ & L).
  rewrite ldec_eq by exact R. f_equal. destruct rs as [|r rs]; [subst o; reflexivity|]. rewrite L. cbn [lz_steps]. clear. revert r.
  induction rs as [|r' rs IH]; intros r; [reflexivity|]. rewrite last_cons, IH. reflexivity.
Qed.
Print Assumptions C120_next.

(** So a used solver gives Lanczos decompositions too, and the number of vectors never grows from call to call. *)
Theorem C120_lanczos : forall rows H mvp stedc tolerance minSteps isReortho steps xs o rs,
  hermitian rows H -> multiplies rows H mvp ->
  lz_calls rows mvp stedc tolerance minSteps isReortho (lz_new steps) xs = Ok (o, rs) ->
  one_by_one (fun k x r => 2 <= length (fst r) <= Nat.min rows k /\ exists p, lanczos_ok rows H (snd x) (fst r) (t_a (snd r)) (t_b (snd r)) p) steps xs rs.
Proof.
  intros rows H mvp stedc tol ms re steps xs o rs Hh Hm E. apply C120_calls in E. revert steps rs E.
  induction xs as [|x xs IH]; intros steps [|r rs] E; cbn [one_by_one] in *; auto. destruct E as [E1 E2]. split; [|apply IH, E2].
  destruct r as [V ab]. destruct (C60_lanczos _ _ _ _ _ _ _ _ _ _ _ _ Hh Hm E1) as (L1 & _ & _ & L2). cbn [fst snd]. auto.
Qed.
Print Assumptions C120_lanczos.

(** The claim that a solver can be used again for another state is false: the ground state is found with minSteps + 1 vectors
    (C60_tolerance_refuted), and after it no other call has more, even where a new solver takes more. *)
Theorem C120_reuse_refuted : forall rows H mvp stedc tolerance minSteps steps init init2 ex V2 ab2,
  hermitian rows H -> multiplies rows H mvp -> (forall i x y, stedc i x y <> None) ->
  length init = rows -> inner rows init init <> c0 -> (0 < tolerance)%R ->
  4 < rows -> 1 <= minSteps -> minSteps < rows -> minSteps < steps -> inner rows init2 init2 <> c0 ->
  decomposition rows mvp stedc tolerance minSteps ex false steps init2 = Ok (V2, ab2) -> minSteps + 1 < length V2 ->
  exists o r V ab, lz_calls rows mvp stedc tolerance minSteps false (lz_new steps) [(0, init); (ex, init2)] = Ok (o, [r; (V, ab)]) /\
    length V < length V2 /\ length V <= minSteps + 1.
Proof.
  intros rows H mvp stedc tol ms steps init init2 ex V2 ab2 Hh Hm Hs Hl Hz Ht H4 H1 Hr Hst Hz2 E2 L2.
  destruct (C60_tolerance_refuted rows H mvp stedc tol ms steps init Hh Hm Hs Hl Hz Ht H4 H1 Hr Hst) as (V1 & ab1 & E1 & L1).
  pose proof (reuse_step rows mvp stedc tol ms 0 false (lz_new steps) init I) as S1. cbn [lz_new lz_steps] in S1. rewrite E1 in S1.
  cbn [lz_calls]. destruct (lz_decomposition rows mvp stedc tol ms false 0 (lz_new steps) init) as [[o1 r1]| | |]; try contradiction.
  destruct S1 as (-> & O1 & R1 & _). cbn [fst] in O1. cbn [bind].
  assert (Hl2 : length init2 = rows) by (destruct (C60_size rows mvp stedc tol ms ex false steps init2) as [F|F]; [rewrite E2 in F; discriminate F|exact F]).
  destruct (C60_returns rows H mvp stedc tol ms ex (ms + 1) init2) as (V & ab & E); auto; try lia.
  pose proof (reuse_step rows mvp stedc tol ms ex false o1 init2 R1) as S2. assert (LS : lz_steps o1 = ms + 1) by (rewrite O1; exact L1). rewrite LS, E in S2.
  destruct (lz_decomposition rows mvp stedc tol ms false ex o1 init2) as [[o2 r2]| | |]; try contradiction. destruct S2 as (-> & _). cbn [bind].
  exists o2, (V1, ab1), V, ab. split; [reflexivity|]. destruct (C60_lanczos _ _ _ _ _ _ _ _ _ _ _ _ Hh Hm E) as (L & _). lia.
Qed.
Print Assumptions C120_reuse_refuted.

(** lanczosVectorsSwap gives the vectors of the last call, and throws if there was none; after it, if the matrix given had not the
    same size, every decomposition throws. *)
Theorem C120_swap : forall rows H mvp stedc tolerance minSteps isReortho steps xs o rs V ab W,
  hermitian rows H -> multiplies rows H mvp ->
  lz_calls rows mvp stedc tolerance minSteps isReortho (lz_new steps) xs = Ok (o, rs ++ [(V, ab)]) ->
  lz_swap (lz_new steps) W = Throw /\
  exists o', lz_swap o W = Ok (o', (rows, V)) /\
    (fst W <> rows \/ length (snd W) <> length V -> forall ex init, length init = rows -> inner rows init init <> c0 ->
     lz_decomposition rows mvp stedc tolerance minSteps isReortho ex o' init = Throw).
Proof.
  intros rows H mvp stedc tol ms re steps xs o rs V ab W Hh Hm E. split; [reflexivity|].
  pose proof (C120_lanczos _ _ _ _ _ _ _ _ _ _ _ Hh Hm E) as B.
  assert (LV : 2 <= length V <= rows).
  { clear E. revert steps rs B. induction xs as [|x xs IH]; intros steps [|r rs] B; cbn [one_by_one app] in B; try contradiction; [destruct B as [[B _] _]; change (2 <= length V <= Nat.min rows steps) in B; revert B; generalize (length V); intros; lia|].
    destruct B as [_ B]. exact (IH _ _ B). }
  destruct (calls_ok _ _ _ _ _ _ xs (lz_new steps) o (rs ++ [(V, ab)]) I E) as (R & _ & L).
  assert (Lo : o = mklzobj (length V) (Some (rows, V))).
  { destruct rs as [|r rs]; cbn [app] in L; [exact L|]. rewrite last_last in L. exact L. }
  subst o. unfold lz_swap. cbn [lz_data lz_steps]. eexists. split; [reflexivity|]. destruct W as [r W]. cbn [fst snd].
  intros Hne ex init Hl Hz. unfold lz_decomposition. rewrite Hl, Nat.eqb_refl. cbn [negb]. cbv zeta.
  destruct (Req_EM_T (sum_re rows init init) 0) as [Z|_]; [exfalso; apply Hz; rewrite inner_self, Z; reflexivity|]. cbn [bind lz_steps].
  replace (rows <? length V) with false by (symmetry; apply Nat.ltb_ge; lia).
  assert (T : exists t, tri_resize_val Rring (tri_new Rring) (length V) 0%R = Ok t).
  { eexists. apply Tri_Proofs.resize_val_ok. lia. }
  destruct T as (t & ->). cbn [bind]. unfold lz_prepare. cbn [lz_data].
  replace (negb (rows =? r) || negb (length V =? length W))%bool with true; [reflexivity|]. symmetry. apply Bool.orb_true_iff.
  destruct Hne as [N|N]; [left|right]; apply Bool.negb_true_iff, Nat.eqb_neq; congruence.
Qed.
Print Assumptions C120_swap.

(** A function of the block that never settles; with it, and the matrix 2 of size 6, a new solver takes all 5 steps for the
    first excited state, and one that was used for the ground state with minSteps = 2 takes 3. *)
Definition ex_grow (nn : nat) (a b : list R) : option (list R) := Some (repeat (INR nn) nn).
Example C120_nonvacuous :
  of_block ex_grow /\
  (exists V2 ab2, decomposition 6 (ex_imvp 6) ex_grow (1 / 2) 2 1 false 5 (ex_e0 6) = Ok (V2, ab2) /\ length V2 = 5) /\
  exists o r V ab, lz_calls 6 (ex_imvp 6) ex_grow (1 / 2) 2 false (lz_new 5) [(0, ex_e0 6); (1, ex_e0 6)] = Ok (o, [r; (V, ab)]) /\ length V <= 3.
Proof.
  assert (B : of_block ex_grow).
  { split; [intros nn a b ev E; injection E as <-; apply repeat_length|intros nn a b a' b' _ _; reflexivity]. }
  destruct (C60_refuted_nonvacuous 6 ltac:(lia)) as (Hh & Hm & Hl & Hn & _).
  assert (Hz : inner 6 (ex_e0 6) (ex_e0 6) <> c0).
  { rewrite Hn. intros E. injection E as E. lra. }
  assert (Hs : forall i x y, ex_grow i x y <> None) by (intros; discriminate).
  destruct (C60_returns 6 ex_I (ex_imvp 6) ex_grow (1 / 2) 2 1 5 (ex_e0 6)) as (V2 & ab2 & E2); auto; try lia.
  assert (L2 : length V2 = 5).
  { destruct (C60_stops 6 (ex_imvp 6) ex_grow (1 / 2) 2 1 false 5 (ex_e0 6) V2 ab2 B ltac:(lra) E2) as [[K|(s & Hs2 & S)] _]; [exact K|exfalso].
    destruct S as (ev & ev' & F1 & F2 & W). injection F1 as <-. specialize (W 0 ltac:(lia)). destruct s as [|[|s]]; try lia.
    destruct s as [|s].
    - cbn [Nat.eqb] in F2. subst ev'. cbn [repeat nth] in W. rewrite Rminus_0_r in W. cbn [INR] in W. rewrite Rabs_pos_eq in W by lra. lra.
    - cbn [Nat.eqb] in F2. replace (S (S (S s)) - 1) with (S (S s)) in F2 by lia. injection F2 as <-.
      assert (W' : (Rabs (INR (S (S (S s))) - INR (S (S s))) < 1 / 2)%R) by exact W. clear W. rename W' into W.
      rewrite (S_INR (S (S s))) in W. replace (INR (S (S s)) + 1 - INR (S (S s)))%R with 1%R in W by ring.
      rewrite Rabs_R1 in W. lra. }
  split; [exact B|]. split; [eauto|].
  destruct (C120_reuse_refuted 6 ex_I (ex_imvp 6) ex_grow (1 / 2) 2 5 (ex_e0 6) (ex_e0 6) 1 V2 ab2) as (o & r & V & ab & E & _ & L); auto; try lia; try lra.
  exists o, r, V, ab. auto.
Qed.
