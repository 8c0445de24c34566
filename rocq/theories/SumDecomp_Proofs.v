From Verif Require Import Prelude SumDecomp_Model SumDecomp_Spec Permutations_Spec.

(** The mathematical list. *)
Fixpoint comps (total sum : nat) : list (list nat) :=
  match total with
  | 0 => if sum =? 0 then [[]] else []
  | S t => flat_map (fun i => map (cons i) (comps t (sum - i))) (seq 0 (sum + 1))
  end.

Lemma comps_in total sum v : In v (comps total sum) <-> is_composition total sum v.
Proof.
  unfold is_composition. revert sum v. induction total as [|t IH]; intros sum v; cbn [comps].
  - destruct (Nat.eqb_spec sum 0) as [->|Hs]; simpl.
    + split; [intros [<-|[]]; auto|]. intros [L _]. destruct v; [auto|discriminate].
    + split; [contradiction|]. intros [L S]. destruct v; [simpl in S; lia|discriminate].
  - rewrite in_flat_map. split.
    + intros [i [Hi Hv]]. apply in_seq in Hi. apply in_map_iff in Hv.
      destruct Hv as [w [<- Hw]]. apply IH in Hw. simpl. lia.
    + destruct v as [|i w]; intros [L S]; [discriminate|]. simpl in L, S.
      exists i. split; [apply in_seq; lia|]. apply in_map. apply IH. lia.
Qed.

Lemma ss_app {A} (R : A -> A -> Prop) u v :
  StronglySorted R u -> StronglySorted R v -> (forall a b, In a u -> In b v -> R a b) ->
  StronglySorted R (u ++ v).
Proof.
  induction 1 as [|x u Hu IH HF]; simpl; intros Hv HR; auto. constructor.
  - apply IH; [exact Hv|]. intros a b Ha Hb. apply HR; [right; exact Ha|exact Hb].
  - apply Forall_app. split; auto. apply Forall_forall. intros y Hy. apply HR; simpl; auto.
Qed.

Lemma comps_sorted total sum : StronglySorted lexlt (comps total sum).
Proof.
  revert sum. induction total as [|t IH]; intros sum; cbn [comps].
  - destruct (sum =? 0); repeat constructor.
  - generalize (sum + 1) as m. intros m. generalize 0 as a. induction m as [|m IHm]; intros a; cbn [seq flat_map].
    + constructor.
    + apply ss_app.
      * specialize (IH (sum - a)). induction IH as [|x l Hl IHl HF]; simpl; constructor; auto.
        apply Forall_map. eapply Forall_impl; [|exact HF]. intros b Hb. apply lexlt_next. exact Hb.
      * apply IHm.
      * intros x y Hx Hy. apply in_map_iff in Hx. destruct Hx as [w [<- Hw]].
        apply in_flat_map in Hy. destruct Hy as [j [Hj Hy]]. apply in_seq in Hj.
        apply in_map_iff in Hy. destruct Hy as [z [<- Hz]].
        apply comps_in in Hw. apply comps_in in Hz. destruct Hw as [W _]. destruct Hz as [Z _].
        apply lexlt_here; [lia|congruence].
Qed.

Lemma fold_left_add l a : fold_left Nat.add l a = a + fold_right Nat.add 0 l.
Proof. revert a; induction l as [|x l IH]; intros a; simpl; [lia|]. rewrite IH. lia. Qed.

Lemma fold_right_add_app u v : fold_right Nat.add 0 (u ++ v) = fold_right Nat.add 0 u + fold_right Nat.add 0 v.
Proof. induction u; simpl; lia. Qed.

(** What one leaf adds to the state. *)
Definition keep (sel : SelEnum) (selection : Z) (k : nat) : bool :=
  match sel with
  | SEL_ALL => true
  | SEL_INDEX => (selection =? Z.of_nat k)%Z
  | SEL_SIZE => false
  end.

(** Adding a list of leaves one after the other. *)
Fixpoint add_leaves (sel : SelEnum) (selection : Z) (l : list (list nat)) (st : sdstate) : sdstate :=
  match l with
  | [] => st
  | v :: l' => add_leaves sel selection l'
      {| sd_stored := if keep sel selection (sd_size st) then sd_stored st ++ [v] else sd_stored st;
         sd_size := sd_size st + 1 |}
  end.

Lemma add_leaves_app sel k l1 l2 st :
  add_leaves sel k (l1 ++ l2) st = add_leaves sel k l2 (add_leaves sel k l1 st).
Proof. revert st; induction l1 as [|v l1 IH]; intros st; simpl; auto. Qed.

Lemma add_leaves_size sel k l st : sd_size (add_leaves sel k l st) = sd_size st + length l.
Proof. revert st; induction l as [|v l IH]; intros st; cbn [add_leaves length]; [lia|]. rewrite IH. simpl. lia. Qed.

Lemma reentrant1_spec sum_ sel selection fuel : forall data n x st pre,
  x <= length data -> length data - x < fuel -> firstn x data = pre ->
  fold_right Nat.add 0 pre + n = sum_ ->
  exists data', length data' = length data /\ firstn x data' = pre /\
    reentrant1 sum_ sel selection fuel data n x st =
    Ok (data', add_leaves sel selection (map (app pre) (comps (length data - x) n)) st).
Proof.
  induction fuel as [|fuel IH]; intros data n x st pre Hx Hf Hp Hs; [lia|].
  cbn [reentrant1]. destruct (Nat.leb_spec (length data) x) as [Hle|Hgt].
  - assert (x = length data) by lia. subst x. rewrite firstn_all in Hp. subst pre.
    exists data. split; [reflexivity|]. split; [apply firstn_all|].
    rewrite Nat.sub_diag. cbn [comps]. rewrite fold_left_add. cbn [Nat.add].
    destruct (Nat.eqb_spec (fold_right Nat.add 0 data) sum_) as [E|E]; cbn [negb].
    + replace (n =? 0) with true by (symmetry; apply Nat.eqb_eq; lia).
      cbn [map add_leaves]. rewrite app_nil_r. unfold keep. destruct sel; reflexivity.
    + replace (n =? 0) with false by (symmetry; apply Nat.eqb_neq; lia). reflexivity.
  - assert (Lp : length pre = x) by (rewrite <- Hp, firstn_length; lia).
    replace (length data - x) with (S (length data - (x + 1))) by lia. cbn [comps].
    destruct (forM_inv (fun i '(d, s) =>
       length d = length data /\ firstn x d = pre /\
       s = add_leaves sel selection
             (map (app pre) (flat_map (fun i => map (cons i) (comps (length data - (x + 1)) (n - i))) (seq 0 i))) st)
       (n + 1)
       (fun (i : nat) '(data0, st0) =>
          do data1 <- vset data0 x i;;
          reentrant1 sum_ sel selection fuel data1 (n - i) (x + 1) st0) (data, st) (i := 0))
      as [[d' s'] [H1 H2]].
    + split; [reflexivity|]. split; [exact Hp|reflexivity].
    + intros j [d s] [_ Hj] [Ld [Fd ->]]. cbn [Nat.add] in Hj.
      rewrite vset_ok by lia. cbn [bind].
      assert (F1 : firstn (x + 1) (upd d x j) = pre ++ [j]).
      { destruct (upd_split d j 0 (i := x)) as [U _]; [lia|]. rewrite U.
        rewrite Fd. rewrite firstn_app, Lp. replace (x + 1 - x) with 1 by lia.
        rewrite firstn_all2 by lia. cbn [firstn]. reflexivity. }
      destruct (IH (upd d x j) (n - j) (x + 1)
                  (add_leaves sel selection
                    (map (app pre)
                      (flat_map (fun i => map (cons i) (comps (length data - (x + 1)) (n - i))) (seq 0 j))) st)
                  (pre ++ [j])) as [d' [L' [F' E']]].
      * rewrite upd_length. lia.
      * rewrite upd_length. lia.
      * exact F1.
      * rewrite fold_right_add_app. simpl. lia.
      * rewrite E'. eexists. split; [reflexivity|].
        rewrite upd_length in *. split; [congruence|]. split.
        -- assert (G : firstn x (firstn (x + 1) d') = firstn x (pre ++ [j])) by (rewrite F'; reflexivity).
           rewrite firstn_firstn in G. replace (Nat.min x (x + 1)) with x in G by lia.
           rewrite G, firstn_app, Lp, Nat.sub_diag. cbn [firstn]. rewrite app_nil_r.
           apply firstn_all2. lia.
        -- rewrite seq_S, flat_map_app, map_app, add_leaves_app. cbn [flat_map Nat.add].
           rewrite app_nil_r. rewrite Ld. f_equal. rewrite map_map. apply map_ext.
           intros v. rewrite <- app_assoc. reflexivity.
    + cbv beta iota in H2. destruct H2 as [L' [F' ->]]. exists d'. split; [exact L'|]. split; [exact F'|].
      rewrite H1. reflexivity.
Qed.

Lemma sd_ctor_spec total sum sel selection :
  sd_ctor total sum sel selection =
  Ok (add_leaves sel selection (comps total sum) {| sd_stored := []; sd_size := 0 |}).
Proof.
  unfold sd_ctor.
  destruct (reentrant1_spec sum sel selection (total + 1) (repeat 0 total) sum 0
              {| sd_stored := []; sd_size := 0 |} []) as [d' [_ [_ E]]].
  - lia.
  - rewrite repeat_length. lia.
  - reflexivity.
  - reflexivity.
  - rewrite E. cbn [bind]. rewrite repeat_length, Nat.sub_0_r. f_equal. f_equal.
    rewrite <- (map_id (comps total sum)) at 2. apply map_ext. reflexivity.
Qed.

Lemma add_leaves_all k l st :
  add_leaves SEL_ALL k l st = {| sd_stored := sd_stored st ++ l; sd_size := sd_size st + length l |}.
Proof.
  revert st; induction l as [|v l IH]; intros [s n]; cbn [add_leaves keep sd_stored sd_size length].
  - rewrite app_nil_r, Nat.add_0_r. reflexivity.
  - rewrite IH. cbn [sd_stored sd_size]. rewrite <- app_assoc. f_equal. lia.
Qed.

Lemma add_leaves_none k l st :
  add_leaves SEL_SIZE k l st = {| sd_stored := sd_stored st; sd_size := sd_size st + length l |}.
Proof.
  revert st; induction l as [|v l IH]; intros [s n]; cbn [add_leaves keep sd_stored sd_size length].
  - rewrite Nat.add_0_r. reflexivity.
  - rewrite IH. cbn [sd_stored sd_size]. f_equal. lia.
Qed.

Lemma add_leaves_index k l st :
  add_leaves SEL_INDEX k l st =
  {| sd_stored := sd_stored st ++
       (if (Z.of_nat (sd_size st) <=? k)%Z
        then match nth_error l (Z.to_nat k - sd_size st) with Some v => [v] | None => [] end
        else []);
     sd_size := sd_size st + length l |}.
Proof.
  revert st; induction l as [|v l IH]; intros [s n]; cbn [add_leaves keep sd_stored sd_size length].
  - rewrite Nat.add_0_r. f_equal. destruct (Z.of_nat n <=? k)%Z; [|now rewrite app_nil_r].
    destruct (Z.to_nat k - n); simpl; now rewrite app_nil_r.
  - rewrite IH. cbn [sd_stored sd_size]. f_equal; [|lia].
    destruct (Z.eqb_spec k (Z.of_nat n)) as [->|Hne].
    + replace (Z.of_nat (n + 1) <=? Z.of_nat n)%Z with false by lia.
      replace (Z.of_nat n <=? Z.of_nat n)%Z with true by lia.
      rewrite Nat2Z.id, Nat.sub_diag. simpl. rewrite app_nil_r. reflexivity.
    + f_equal. destruct (Z.leb_spec (Z.of_nat (n + 1)) k); destruct (Z.leb_spec (Z.of_nat n) k);
        try lia; auto.
      replace (Z.to_nat k - n) with (S (Z.to_nat k - (n + 1))) by lia. reflexivity.
Qed.

Lemma sd_all total sum selection :
  exists L, sd_ctor total sum SEL_ALL selection = Ok {| sd_stored := L; sd_size := length L |} /\
    (forall v, In v L <-> is_composition total sum v) /\ StronglySorted lexlt L.
Proof.
  exists (comps total sum). rewrite sd_ctor_spec, add_leaves_all. split; [reflexivity|].
  split; [apply comps_in|apply comps_sorted].
Qed.

Lemma sd_other total sum selection L n :
  sd_ctor total sum SEL_ALL selection = Ok {| sd_stored := L; sd_size := n |} ->
  (forall k, sd_ctor total sum SEL_SIZE k = Ok {| sd_stored := []; sd_size := n |}) /\
  (forall k, sd_ctor total sum SEL_INDEX k =
     Ok {| sd_stored := if (0 <=? k)%Z then match nth_error L (Z.to_nat k) with Some v => [v] | None => [] end
                        else [];
           sd_size := n |}).
Proof.
  rewrite sd_ctor_spec, add_leaves_all. intros E. inversion E; subst; clear E. split; intros k.
  - rewrite sd_ctor_spec, add_leaves_none. reflexivity.
  - rewrite sd_ctor_spec, add_leaves_index. cbn [sd_stored sd_size app]. rewrite Nat.sub_0_r.
    reflexivity.
Qed.

(** Number of compositions. *)
Lemma binom_over n k : n < k -> binom n k = 0.
Proof.
  revert k; induction n as [|n IH]; intros [|k] H; simpl; try lia.
  rewrite (IH k), (IH (S k)) by lia. reflexivity.
Qed.
Lemma binom_0 n : binom n 0 = 1. Proof. destruct n; reflexivity. Qed.
Lemma binom_SS n k : binom (S n) (S k) = binom n k + binom n (S k). Proof. reflexivity. Qed.

Lemma flat_map_length_sum {A B} (f : A -> list B) l :
  length (flat_map f l) = fold_right Nat.add 0 (map (fun a => length (f a)) l).
Proof. induction l as [|a l IH]; simpl; auto. rewrite app_length, IH. reflexivity. Qed.

Lemma comps_count t sum : length (comps (S t) sum) = binom (sum + t) t.
Proof.
  revert sum. induction t as [|t IH]; intros sum.
  - rewrite Nat.add_0_r, binom_0. cbn [comps]. rewrite flat_map_length_sum.
    assert (G : forall m a, a + m = sum + 1 -> 0 < m ->
      fold_right Nat.add 0 (map (fun i => length (map (cons i) (if sum - i =? 0 then [[]] else []))) (seq a m)) = 1).
    { induction m as [|m IHm]; intros a Ha Hm; [lia|]. cbn [seq map fold_right]. rewrite map_length.
      destruct (Nat.eq_dec m 0) as [->|Hm'].
      - replace (sum - a =? 0) with true by lia. reflexivity.
      - replace (sum - a =? 0) with false by lia. cbn [length Nat.add]. apply IHm; lia. }
    apply G; lia.
  - cbn [comps]. fold (comps (S t)). rewrite flat_map_length_sum.
    assert (E : forall m a, a + m = sum + 1 ->
      fold_right Nat.add 0 (map (fun i => length (map (cons i) (comps (S t) (sum - i)))) (seq a m))
      = if m =? 0 then 0 else binom (m + t) (S t)).
    { induction m as [|m IHm]; intros a Ha; [reflexivity|]. cbn [seq map fold_right].
      rewrite map_length, IH, IHm by lia. cbn [Nat.eqb].
      replace (sum - a) with m by lia.
      destruct (Nat.eqb_spec m 0) as [Em|Hm].
      - rewrite Em. cbn [Nat.add]. rewrite binom_SS, (binom_over t (S t)) by lia. lia.
      - replace (S m + t) with (S (m + t)) by lia. rewrite binom_SS. reflexivity. }
    specialize (E (sum + 1) 0 eq_refl).
    replace (sum + 1 =? 0) with false in E by lia.
    replace (sum + S t) with (sum + 1 + t) by lia. rewrite <- E. reflexivity.
Qed.

Lemma sd_size_binom t sum sel selection :
  exists st, sd_ctor (S t) sum sel selection = Ok st /\ sd_size st = binom (sum + t) t.
Proof.
  rewrite sd_ctor_spec. eexists. split; [reflexivity|]. rewrite add_leaves_size, comps_count. reflexivity.
Qed.

(** ---------- PackIndices ---------- *)

Lemma unpack_ok n ind : (0 < n < 2 ^ 63)%Z -> (0 <= ind < 2 ^ 63)%Z ->
  unpack n ind = Ok (ind mod n, ind / n)%Z.
Proof.
  intros Hn Hi. unfold unpack, to_long.
  replace (ind <? 2 ^ 63)%Z with true by lia. replace (n <? 2 ^ 63)%Z with true by lia.
  replace (n =? 0)%Z with false by lia.
  replace ((ind =? - 2 ^ 63)%Z && (n =? -1)%Z) with false by lia.
  rewrite Z.rem_mod_nonneg, Z.quot_div_nonneg by lia. unfold to_size.
  pose proof (Z.mod_pos_bound ind n ltac:(lia)).
  pose proof (Z.div_pos ind n ltac:(lia) ltac:(lia)).
  pose proof (Z.div_le_upper_bound ind n ind ltac:(lia) ltac:(nia)).
  rewrite (Z.mod_small (ind mod n) (2 ^ 64)), (Z.mod_small (ind / n) (2 ^ 64)) by lia. reflexivity.
Qed.

Lemma pack_unpack n (perm inv : list Z) :
  (0 < n < 2 ^ 63)%Z ->
  (forall i, i < length perm -> (0 <= nth i perm 0 < 2 ^ 63)%Z /\
      Z.to_nat (nth i perm 0%Z) < length inv /\
      nth (Z.to_nat (nth i perm 0%Z)) inv 0%Z = Z.of_nat i) ->
  forall i, i < length perm ->
  exists x y, unpack n (nth i perm 0%Z) = Ok (x, y) /\ (0 <= x < n)%Z /\ (0 <= y)%Z /\
    (x + n * y = nth i perm 0%Z)%Z /\ pack n x y inv = Ok (Z.of_nat i).
Proof.
  intros Hn H i Hi. destruct (H i Hi) as [R [L E]]. set (p := nth i perm 0%Z) in *.
  exists (p mod n)%Z, (p / n)%Z. split; [apply unpack_ok; assumption|].
  pose proof (Z.mod_pos_bound p n ltac:(lia)). pose proof (Z.div_mod p n ltac:(lia)).
  pose proof (Z.div_pos p n ltac:(lia) ltac:(lia)).
  split; [lia|]. split; [lia|]. split; [lia|]. unfold pack.
  replace (p mod n + n * (p / n))%Z with p by lia.
  rewrite (vget_ok inv 0%Z) by exact L. rewrite E. reflexivity.
Qed.

Lemma nth_seq_Z i k : i < k -> nth i (map Z.of_nat (seq 0 k)) 0%Z = Z.of_nat i.
Proof.
  intros H. change 0%Z with (Z.of_nat 0). rewrite map_nth.
  rewrite seq_nth by exact H. reflexivity.
Qed.
