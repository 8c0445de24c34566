(** Proofs about messages between processes. *)
From Verif Require Import Prelude Ring Mpi_Model Mpi_Spec.

Section Star.
  Context {D A : Type}.
  Notation cproc := (proc D A).

  (** A process that only sends to d, and one that only receives *)
  Inductive sruns {B : Type} (d : nat) : proc D B -> list (nat * msg D) -> B -> Prop :=
  | sr_ret a : sruns d (Ret a) [] a
  | sr_snd t m k l a : sruns d k l a -> sruns d (Snd d t m k) ((t, m) :: l) a.
  Inductive rruns {B : Type} : proc D B -> list (nat * (nat * msg D)) -> B -> Prop :=
  | rr_ret a : rruns (Ret a) [] a
  | rr_rcv s t m k l a : rruns (k m) l a -> rruns (Rcv s t k) ((s, (t, m)) :: l) a.
  Lemma sruns_bind {B C} d (p : proc D B) (f : B -> proc D C) l1 l2 b c : sruns d p l1 b -> sruns d (f b) l2 c -> sruns d (pbind p f) (l1 ++ l2) c.
  Proof. intros H1 H2. induction H1; cbn; [auto|constructor; auto]. Qed.
  Lemma rruns_bind {B C} (p : proc D B) (f : B -> proc D C) l1 l2 b c : rruns p l1 b -> rruns (f b) l2 c -> rruns (pbind p f) (l1 ++ l2) c.
  Proof. intros H1 H2. induction H1; cbn; [auto|constructor; auto]. Qed.

  Definition from (s : nat) (l : list (nat * (nat * msg D))) : list (nat * msg D) := map snd (filter (fun x => Nat.eqb (fst x) s) l).
  Lemma from_app s l1 l2 : from s (l1 ++ l2) = from s l1 ++ from s l2.
  Proof. unfold from. rewrite filter_app, map_app. reflexivity. Qed.

  (** The state in which process d has still to receive [l], and process r to send [out r] *)
  Record star (p d : nat) (rs : nat -> A) (l : list (nat * (nat * msg D))) (out : nat -> list (nat * msg D)) (c : config D A) : Prop := {
    st_len : length (procs c) = p;
    st_d : d < p;
    st_recv : exists q, nth_error (procs c) d = Some q /\ rruns q l (rs d);
    st_send : forall r, r < p -> r <> d -> exists q, nth_error (procs c) r = Some q /\ sruns d q (out r) (rs r);
    st_src : forall x, In x l -> fst x < p /\ fst x <> d;
    st_chan : forall r, r < p -> r <> d -> chan c r d ++ out r = from r l;
    st_other : forall a b, (b <> d \/ p <= a \/ a = d) -> chan c a b = [] }.

  Definition total (p : nat) (out : nat -> list (nat * msg D)) : nat := list_sum (map (fun r => length (out r)) (seq 0 p)).
  Lemma total_dec p out r x rest : r < p -> out r = x :: rest -> total p out = 1 + total p (fun r' => if Nat.eqb r' r then rest else out r').
  Proof.
    unfold total. intros Hr E.
    assert (G : forall n i, i + n <= p -> list_sum (map (fun r => length (out r)) (seq i n)) =
      (if (Nat.leb i r && Nat.ltb r (i + n))%bool then 1 else 0) + list_sum (map (fun r' => length (if Nat.eqb r' r then rest else out r')) (seq i n))).
    { induction n as [|n IH]; intros i Hi.
      - destruct (Nat.leb_spec i r), (Nat.ltb_spec r (i + 0)); cbn; lia.
      - change (seq i (S n)) with (i :: seq (S i) n). cbn [map list_sum fold_right]. unfold list_sum in *. cbn [fold_right]. rewrite (IH (S i)) by lia.
        destruct (Nat.eqb_spec i r) as [->|Nir].
        + rewrite E. cbn [length]. destruct (Nat.leb_spec r r); [|lia]. destruct (Nat.ltb_spec r (r + S n)); [|lia].
          destruct (Nat.leb_spec (S r) r); [lia|]. cbn. lia.
        + destruct (Nat.leb_spec i r), (Nat.leb_spec (S i) r), (Nat.ltb_spec r (i + S n)), (Nat.ltb_spec r (S i + n)); cbn; lia. }
    rewrite (G p 0) by lia. destruct (Nat.leb_spec 0 r); [|lia]. destruct (Nat.ltb_spec r (0 + p)); [|lia]. reflexivity.
  Qed.

  Lemma take_head (t : nat) (m : msg D) c : take_tag t ((t, m) :: c) = Some (m, c).
  Proof. cbn. rewrite Nat.eqb_refl. reflexivity. Qed.
  Lemma set_same ch a b (c : list (nat * msg D)) : set_chan ch a b c a b = c.
  Proof. unfold set_chan. rewrite !Nat.eqb_refl. reflexivity. Qed.
  Lemma set_diff ch a b (c : list (nat * msg D)) x y : (x <> a \/ y <> b) -> set_chan ch a b c x y = ch x y.
  Proof. unfold set_chan. intros H. destruct (Nat.eqb_spec x a), (Nat.eqb_spec y b); cbn; auto. exfalso. lia. Qed.
  Lemma nth_error_upd_eq {B} (l : list B) i x : i < length l -> nth_error (upd l i x) i = Some x.
  Proof. revert i. induction l as [|a l IH]; intros [|i] H; cbn in *; try lia; auto. apply IH. lia. Qed.
  Lemma nth_error_upd_neq {B} (l : list B) i j x : i <> j -> nth_error (upd l i x) j = nth_error l j.
  Proof. revert i j. induction l as [|a l IH]; intros [|i] [|j] H; cbn; auto; try congruence. Qed.

  Lemma from_nil_src p d (l : list (nat * (nat * msg D))) s : (forall x, In x l -> fst x < p /\ fst x <> d) -> (p <= s \/ s = d) -> from s l = [].
  Proof.
    intros H Hs. unfold from. induction l as [|x l IH]; [reflexivity|]. cbn [filter]. destruct (H x (or_introl eq_refl)).
    destruct (Nat.eqb_spec (fst x) s); [exfalso; lia|]. apply IH. intros y Hy. apply H. right. auto.
  Qed.
  Lemma star_step p d rs l out c c' : star p d rs l out c -> step c c' ->
    exists l' out', star p d rs l' out' c' /\ 1 + length l' + total p out' <= length l + total p out.
  Proof.
    intros [Hl Hd Hr Hs Hsrc Hc Ho] St.
    destruct Hr as (q & Eq & Hq).
    (* a process that sends is not d *)
    assert (Snd_inv : forall a b t m k, nth_error (procs c) a = Some (Snd b t m k) ->
      a < p /\ a <> d /\ b = d /\ exists rest, out a = (t, m) :: rest /\ sruns d k rest (rs a)).
    { intros a b t m k E. assert (Ha : a < p) by (rewrite <- Hl; apply nth_error_Some; congruence).
      assert (Nd : a <> d). { intros ->. rewrite Eq in E. injection E as ->. inversion Hq. }
      destruct (Hs a Ha Nd) as (qa & Ea & Ha'). rewrite E in Ea. injection Ea as <-. inversion Ha'; subst. eauto 10. }
    assert (Rcv_inv : forall b a t k, nth_error (procs c) b = Some (Rcv a t k) ->
      b = d /\ exists m rest, l = (a, (t, m)) :: rest /\ rruns (k m) rest (rs d)).
    { intros b a t k E. assert (Hb : b < p) by (rewrite <- Hl; apply nth_error_Some; congruence).
      destruct (Nat.eq_dec b d) as [->|Nd].
      - rewrite Eq in E. injection E as ->. inversion Hq; subst. split; auto. eauto.
      - exfalso. destruct (Hs b Hb Nd) as (qb & Eb & Hb'). rewrite E in Eb. injection Eb as <-. inversion Hb'. }
    destruct St as [c c' M|c a b t m k Ea]; [destruct M as [c a b t k m rest Eb Et|c a b t m k k' Nab Ea Eb Et]|].
    - destruct (Rcv_inv _ _ _ _ Eb) as (-> & m' & l' & -> & Hk). destruct (Hsrc _ (or_introl eq_refl)) as [Ha Na]. cbn [fst] in *.
      pose proof (Hc a Ha Na) as Ec. unfold from in Ec. cbn [filter fst] in Ec. rewrite Nat.eqb_refl in Ec. cbn [map snd] in Ec.
      destruct (chan c a d) as [|x ch] eqn:Ech; [discriminate|]. cbn [app] in Ec. injection Ec as -> Ec. rewrite take_head in Et. injection Et as -> <-.
      exists l', out. split; [|cbn [length]; lia]. split; cbn [procs chan]; auto.
      + rewrite upd_length. auto.
      + exists (k m). split; auto. apply nth_error_upd_eq. lia.
      + intros r Hr Nr. destruct (Hs r Hr Nr) as (q' & E' & H'). exists q'. split; auto. rewrite nth_error_upd_neq by auto. auto.
      + intros x Hx. apply Hsrc. right. auto.
      + intros r Hr Nr. destruct (Nat.eq_dec r a) as [->|Nra].
        * rewrite set_same. exact Ec.
        * rewrite set_diff by auto. rewrite (Hc r Hr Nr). unfold from. cbn [filter fst]. destruct (Nat.eqb_spec a r); [congruence|reflexivity].
      + intros x y Hxy. rewrite set_diff; [apply Ho; auto|]. lia.
    - destruct (Snd_inv _ _ _ _ _ Ea) as (Ha & Na & -> & rest & Eo & Hk). destruct (Rcv_inv _ _ _ _ Eb) as (_ & m' & l' & -> & Hk').
      pose proof (Hc a Ha Na) as Ec. unfold from in Ec. cbn [filter fst] in Ec. rewrite Nat.eqb_refl in Ec. cbn [map snd] in Ec.
      destruct (chan c a d) as [|x ch] eqn:Ech.
      2: { cbn [app] in Ec. injection Ec as -> _. rewrite take_head in Et. discriminate. }
      cbn [app] in Ec. rewrite Eo in Ec. injection Ec as -> Ec.
      exists l', (fun r => if Nat.eqb r a then rest else out r). rewrite (total_dec p out a _ _ Ha Eo). split; [|cbn [length]; lia]. split; cbn [procs chan]; auto.
      + rewrite !upd_length. auto.
      + exists (k' m'). split; auto. apply nth_error_upd_eq. rewrite upd_length. lia.
      + intros r Hr Nr. rewrite nth_error_upd_neq by auto. destruct (Nat.eqb_spec r a) as [->|Nra].
        * exists k. split; auto. apply nth_error_upd_eq. lia.
        * destruct (Hs r Hr Nr) as (q' & E' & H'). exists q'. split; auto. rewrite nth_error_upd_neq by auto. auto.
      + intros x Hx. apply Hsrc. right. auto.
      + intros r Hr Nr. destruct (Nat.eqb_spec r a) as [->|Nra].
        * rewrite Ech. exact Ec.
        * rewrite (Hc r Hr Nr). unfold from. cbn [filter fst]. destruct (Nat.eqb_spec a r); [congruence|reflexivity].
    - destruct (Snd_inv _ _ _ _ _ Ea) as (Ha & Na & -> & rest & Eo & Hk).
      exists l, (fun r => if Nat.eqb r a then rest else out r). rewrite (total_dec p out a _ _ Ha Eo). split; [|lia]. split; cbn [procs chan]; auto.
      + rewrite upd_length. auto.
      + exists q. split; auto. rewrite nth_error_upd_neq by auto. auto.
      + intros r Hr Nr. destruct (Nat.eqb_spec r a) as [->|Nra].
        * exists k. split; auto. apply nth_error_upd_eq. lia.
        * destruct (Hs r Hr Nr) as (q' & E' & H'). exists q'. split; auto. rewrite nth_error_upd_neq by auto. auto.
      + intros r Hr Nr. destruct (Nat.eqb_spec r a) as [->|Nra].
        * rewrite set_same, <- app_assoc. cbn [app]. rewrite <- Eo. apply Hc; auto.
        * rewrite set_diff by auto. apply Hc; auto.
      + intros x y Hxy. rewrite set_diff; [apply Ho; auto|]. lia.
  Qed.
  Lemma star_progress p d rs l out c : star p d rs l out c ->
    (exists c', must c c') \/ (ended c (map rs (seq 0 p)) /\ forall a b, chan c a b = []).
  Proof.
    intros [Hl Hd Hr Hs Hsrc Hc Ho]. destruct Hr as (q & Eq & Hq). destruct l as [|[s [t m]] l].
    - right. inversion Hq; subst. split.
      + unfold ended. apply list_eq_nth with (d := Err); [rewrite !map_length, seq_length; auto|]. intros i Hi.
        rewrite map_map, nth_indep with (d' := Ret (rs 0)) by auto.
        assert (E : nth_error (procs c) i = Some (Ret (rs i))).
        { destruct (Nat.eq_dec i d) as [->|Nd]; [auto|]. destruct (Hs i Hi Nd) as (q' & E' & H').
          pose proof (Hc i Hi Nd) as Ec. unfold from in Ec. cbn in Ec. apply app_eq_nil in Ec. destruct Ec as [_ Ec]. rewrite Ec in H'. inversion H'; subst. auto. }
        rewrite (nth_error_nth _ _ _ E). symmetry. rewrite nth_indep with (d' := Ret (rs 0)) by (rewrite map_length, seq_length; auto).
        rewrite (map_nth (fun x => Ret (rs x)) (seq 0 (length (procs c))) 0 i). rewrite seq_nth by auto. reflexivity.
      + intros a b. destruct (Nat.eq_dec b d) as [->|]; [|apply Ho; auto]. destruct (Nat.eq_dec a d) as [->|Na]; [apply Ho; auto|].
        destruct (Nat.lt_ge_cases a (length (procs c))) as [La|La]; [|apply Ho; auto].
        pose proof (Hc a La Na) as Ec. unfold from in Ec. cbn in Ec. apply app_eq_nil in Ec. apply Ec.
    - left. inversion Hq; subst. destruct (Hsrc _ (or_introl eq_refl)) as [Ha Na]. cbn [fst] in *.
      pose proof (Hc s Ha Na) as Ec. unfold from in Ec. cbn [filter fst] in Ec. rewrite Nat.eqb_refl in Ec. cbn [map snd] in Ec.
      destruct (chan c s d) as [|x ch] eqn:Ech.
      + cbn [app] in Ec. destruct (Hs s Ha Na) as (q' & E' & H'). rewrite Ec in H'. inversion H'; subst.
        eexists. eapply must_meet; eauto. rewrite Ech. reflexivity.
      + cbn [app] in Ec. injection Ec as -> Ec. eexists. eapply must_recv; eauto. rewrite Ech. apply take_head.
  Qed.
  Lemma ended_inj (c : config D A) r1 r2 : ended c r1 -> ended c r2 -> r1 = r2.
  Proof.
    unfold ended. intros E1 E2. rewrite E1 in E2. clear E1. revert r2 E2. induction r1 as [|a r1 IH]; intros [|b r2] E; try discriminate; auto.
    cbn in E. injection E as -> E. f_equal. auto.
  Qed.
  Lemma must_not_ended (c c' : config D A) rs : ended c rs -> ~ must c c'.
  Proof.
    unfold ended. intros E M.
    assert (N : forall i q, nth_error (procs c) i = Some q -> exists a, q = Ret a).
    { intros i q H. rewrite E, nth_error_map in H. destruct (nth_error rs i); [|discriminate]. injection H as <-. eauto. }
    destruct M as [c a b t k m rest Eb _|c a b t m k k' _ Ea _ _]; [destruct (N _ _ Eb)|destruct (N _ _ Ea)]; discriminate.
  Qed.
  Lemma star_always p d rs l out c bound : star p d rs l out c -> length l + total p out <= bound -> always_ends c bound (fun r => r = map rs (seq 0 p)).
  Proof.
    intros H B n c' Hs.
    assert (G : exists l' out', star p d rs l' out' c' /\ n + length l' + total p out' <= bound).
    { clear - H B Hs. induction Hs as [c|n c c1 c2 Hs IH St].
      - exists l, out. split; auto.
      - destruct (IH H) as (l1 & o1 & H1 & B1). destruct (star_step _ _ _ _ _ _ _ H1 St) as (l2 & o2 & H2 & B2). exists l2, o2. split; auto. lia. }
    destruct G as (l' & o' & H' & B'). split; [lia|]. destruct (star_progress _ _ _ _ _ _ H') as [M|[E C]].
    - split; [auto|]. intros r Er. destruct M as (c2 & M). exfalso. apply (must_not_ended _ _ _ Er M).
    - split; [eauto|]. intros r Er. split; [apply (ended_inj c'); auto|auto].
  Qed.
End Star.

Lemma block_eq n p : 0 < p -> (if Nat.eqb (n mod p) 0 then n / p else S (n / p)) = block n p.
Proof.
  intros Hp. unfold block. pose proof (Nat.div_mod n p ltac:(lia)) as Ed. pose proof (Nat.mod_upper_bound n p ltac:(lia)) as Hm.
  set (q := n / p) in *. set (m := n mod p) in *. destruct (Nat.eqb_spec m 0) as [E0|N0].
  - apply Nat.div_unique with (r := p - 1); lia.
  - apply Nat.div_unique with (r := m - 1); nia.
Qed.
Lemma block_bound n p : 0 < p -> n <= p * block n p.
Proof.
  intros Hp. unfold block. pose proof (Nat.div_mod (n + p - 1) p ltac:(lia)) as Ed. pose proof (Nat.mod_upper_bound (n + p - 1) p ltac:(lia)) as Hm. lia.
Qed.
Lemma programs_nth {D E A} (g : nat -> nat -> list E -> proc D A) vs r v : nth_error vs r = Some v -> nth_error (programs g vs) r = Some (g r (length vs) v).
Proof.
  intros H.
  assert (G : forall p a, nth_error (map (fun '(r, v) => g r p v) (combine (seq a (length vs)) vs)) r = Some (g (a + r) p v)); [|apply (G (length vs) 0)].
  intros p.
  revert r H. induction vs as [|w vs IH]; intros r H a; [destruct r; discriminate|]. cbn [length seq combine map]. destruct r as [|r].
  - injection H as <-. cbn. rewrite Nat.add_0_r. reflexivity.
  - cbn [nth_error] in *. rewrite (IH r H (S a)). replace (a + S r) with (S a + r) by lia. reflexivity.
Qed.

(** ** Gathering *)
Section Gathering.
  Context {D E : Type}.
  Variable snd_elem : E -> nat -> nat -> proc D unit.
  Variable rcv_elem : E -> nat -> nat -> proc D E.
  Variable into : E -> E.
  Variable enc : E -> nat -> list (nat * msg D).
  Hypothesis snd_ok : forall x d t, sruns d (snd_elem x d t) (enc x t) tt.
  Hypothesis rcv_ok : forall old x s t, rruns (rcv_elem old s t) (map (pair s) (enc x t)) x.
  Notation id := (fun r : nat => r).

  Definition coded (v : list E) (t : nat) : list (nat * msg D) := match nth_error v t with Some x => enc x t | None => [] end.
  Definition part (v : list E) (a n : nat) : list (nat * msg D) := flat_map (coded v) (seq a (Nat.min n (length v - a))).

  Lemma gather_send_ok n p r bs v : sruns 0 (gather_send snd_elem id n p r bs v) (part v (r * bs + p) n) tt.
  Proof.
    clear rcv_ok rcv_elem into.
    revert p. induction n as [|n IH]; intros p; cbn [gather_send].
    - unfold part. cbn. constructor.
    - destruct (Nat.leb_spec (length v) (r * bs + p)) as [H|H].
      + unfold part. replace (Nat.min (S n) (length v - (r * bs + p))) with 0 by lia. constructor.
      + destruct (nth_error v (r * bs + p)) as [x|] eqn:Ex; [|apply nth_error_None in Ex; lia].
        assert (EP : part v (r * bs + p) (S n) = enc x (r * bs + p) ++ part v (r * bs + S p) n).
        { unfold part. replace (Nat.min (S n) (length v - (r * bs + p))) with (S (Nat.min n (length v - (r * bs + S p)))) by lia.
          cbn [seq flat_map]. unfold coded at 1. rewrite Ex. do 3 f_equal. lia. }
        rewrite EP. eapply sruns_bind; [apply snd_ok|apply IH].
  Qed.
  Lemma upd_length' (v : list E) i x : length (upd v i x) = length v.
  Proof. apply upd_length. Qed.
  Lemma gather_recv_ok n p r bs v w : length w = length v ->
    exists v', rruns (gather_recv rcv_elem id into n p r bs v) (map (pair r) (part w (r * bs + p) n)) v' /\ length v' = length v /\
      forall i, nth_error v' i = if (Nat.leb (r * bs + p) i && Nat.ltb i (r * bs + p + n))%bool then nth_error w i else nth_error v i.
  Proof.
    revert p v. induction n as [|n IH]; intros p v Hw; cbn [gather_recv].
    - exists v. unfold part. cbn [Nat.min seq flat_map map]. split; [constructor|]. split; [auto|]. intros i.
      destruct (Nat.leb_spec (r * bs + p) i), (Nat.ltb_spec i (r * bs + p + 0)); cbn; auto. lia.
    - destruct (Nat.leb_spec (length v) (r * bs + p)) as [H|H].
      + exists v. unfold part. replace (Nat.min (S n) (length w - (r * bs + p))) with 0 by lia. split; [constructor|]. split; [auto|].
        intros i. destruct (Nat.leb_spec (r * bs + p) i), (Nat.ltb_spec i (r * bs + p + S n)); cbn; auto.
        transitivity (@None E); [apply nth_error_None|symmetry; apply nth_error_None]; lia.
      + destruct (nth_error v (r * bs + p)) as [old|] eqn:Eo; [|apply nth_error_None in Eo; lia].
        destruct (nth_error w (r * bs + p)) as [x|] eqn:Ex; [|apply nth_error_None in Ex; lia].
        assert (EP : part w (r * bs + p) (S n) = enc x (r * bs + p) ++ part w (r * bs + S p) n).
        { unfold part. replace (Nat.min (S n) (length w - (r * bs + p))) with (S (Nat.min n (length w - (r * bs + S p)))) by lia.
          cbn [seq flat_map]. unfold coded at 1. rewrite Ex. do 3 f_equal. lia. }
        rewrite EP, map_app. destruct (IH (S p) (upd v (r * bs + p) x)) as (v' & Hr & Hl & Hv); [rewrite upd_length; auto|].
        exists v'. split; [eapply rruns_bind; [apply rcv_ok|exact Hr]|]. rewrite upd_length in Hl. split; [auto|].
        intros i. rewrite Hv. destruct (Nat.leb_spec (r * bs + S p) i), (Nat.leb_spec (r * bs + p) i), (Nat.ltb_spec i (r * bs + S p + n)), (Nat.ltb_spec i (r * bs + p + S n)); cbn [andb]; try lia;
          solve [reflexivity|rewrite nth_error_upd_neq by lia; reflexivity|assert (i = r * bs + p) as -> by lia; rewrite nth_error_upd_eq by lia; congruence].
  Qed.

  (** What the root receives from ranks r, r + 1, ... *)
  Definition stream (W : nat -> list E) (root bs n r : nat) : list (nat * (nat * msg D)) :=
    flat_map (fun s => if Nat.eqb s root then [] else map (pair s) (part (W s) (s * bs) bs)) (seq r n).
  Lemma gather_ranks_ok W root bs n r v : 0 < bs -> (forall s, r <= s < r + n -> s <> root -> length (W s) = length v) ->
    exists v', rruns (gather_ranks rcv_elem id into n r root bs v) (stream W root bs n r) v' /\ length v' = length v /\
      forall i, nth_error v' i = if (Nat.leb r (i / bs) && Nat.ltb (i / bs) (r + n) && negb (Nat.eqb (i / bs) root))%bool then nth_error (W (i / bs)) i else nth_error v i.
  Proof.
    intros Hb. revert r v. induction n as [|n IH]; intros r v HW; cbn [gather_ranks].
    - exists v. split; [constructor|]. split; [auto|]. intros i. destruct (Nat.leb_spec r (i / bs)), (Nat.ltb_spec (i / bs) (r + 0)); cbn; auto. lia.
    - unfold stream. cbn [seq flat_map]. destruct (Nat.eqb_spec r root) as [->|Nr].
      + destruct (IH (S root) v) as (v' & Hr & Hl & Hv); [intros; apply HW; lia|]. exists v'. split; [exact Hr|]. split; [auto|].
        intros i. rewrite Hv. destruct (Nat.leb_spec (S root) (i / bs)), (Nat.leb_spec root (i / bs)), (Nat.ltb_spec (i / bs) (S root + n)), (Nat.ltb_spec (i / bs) (root + S n)), (Nat.eqb_spec (i / bs) root); cbn; auto; lia.
      + destruct (gather_recv_ok bs 0 r bs v (W r)) as (v1 & Hr1 & Hl1 & Hv1); [apply HW; lia|].
        destruct (IH (S r) v1) as (v' & Hr & Hl & Hv); [intros; rewrite Hl1; apply HW; lia|].
        exists v'. split.
        { eapply rruns_bind; [|exact Hr]. rewrite Nat.add_0_r in Hr1. exact Hr1. }
        split; [lia|]. intros i. rewrite Hv, Hv1, Nat.add_0_r.
        assert (Hi : (Nat.leb (r * bs) i && Nat.ltb i (r * bs + bs))%bool = Nat.eqb (i / bs) r).
        { pose proof (Nat.div_mod i bs ltac:(lia)) as Ed. pose proof (Nat.mod_upper_bound i bs ltac:(lia)).
          destruct (Nat.eqb_spec (i / bs) r) as [Eq|Nq].
          - rewrite Eq in Ed. destruct (Nat.leb_spec (r * bs) i), (Nat.ltb_spec i (r * bs + bs)); cbn; auto; nia.
          - destruct (Nat.leb_spec (r * bs) i), (Nat.ltb_spec i (r * bs + bs)); cbn; auto. exfalso. apply Nq. symmetry. apply Nat.div_unique with (r := i - r * bs); nia. }
        rewrite Hi. destruct (Nat.eqb_spec (i / bs) r) as [Eq|Nq].
        * rewrite Eq. destruct (Nat.leb_spec (S r) r), (Nat.leb_spec r r), (Nat.ltb_spec r (r + S n)), (Nat.eqb_spec r root); cbn; auto; lia.
        * destruct (Nat.leb_spec (S r) (i / bs)), (Nat.leb_spec r (i / bs)), (Nat.ltb_spec (i / bs) (S r + n)), (Nat.ltb_spec (i / bs) (r + S n)), (Nat.eqb_spec (i / bs) root); cbn; auto; lia.
  Qed.

  Lemma from_pair s s' (l : list (nat * msg D)) : from s (map (pair s') l) = if Nat.eqb s' s then l else [].
  Proof.
    unfold from. induction l as [|x l IH]; cbn; [destruct (Nat.eqb s' s); auto|]. destruct (Nat.eqb_spec s' s); cbn; [f_equal|]; auto.
  Qed.
  Lemma from_stream W root bs n r s : s <> root -> from s (stream W root bs n r) = if (Nat.leb r s && Nat.ltb s (r + n))%bool then part (W s) (s * bs) bs else [].
  Proof.
    intros Ns. unfold stream. revert r. induction n as [|n IH]; intros r; cbn [seq flat_map].
    - destruct (Nat.leb_spec r s), (Nat.ltb_spec s (r + 0)); cbn; auto. lia.
    - rewrite from_app, IH. destruct (Nat.eqb_spec r root) as [->|Nr].
      + cbn [from filter map app]. destruct (Nat.leb_spec (S root) s), (Nat.leb_spec root s), (Nat.ltb_spec s (S root + n)), (Nat.ltb_spec s (root + S n)); cbn; auto; lia.
      + rewrite from_pair. destruct (Nat.eqb_spec r s) as [->|].
        * destruct (Nat.leb_spec (S s) s), (Nat.leb_spec s s), (Nat.ltb_spec s (s + S n)); cbn; try lia. apply app_nil_r.
        * destruct (Nat.leb_spec (S r) s), (Nat.leb_spec r s), (Nat.ltb_spec s (S r + n)), (Nat.ltb_spec s (r + S n)); cbn; auto; lia.
  Qed.
  Lemma stream_src W root bs n r x : In x (stream W root bs n r) -> r <= fst x < r + n /\ fst x <> root.
  Proof.
    unfold stream. intros H. apply in_flat_map in H. destruct H as (s & Hs & H). apply in_seq in Hs.
    destruct (Nat.eqb_spec s root); [destruct H|]. apply in_map_iff in H. destruct H as (y & <- & _). cbn. lia.
  Qed.

  Lemma gather_ok (vs : list (list E)) n : vs <> [] -> (forall v, In v vs -> length v = n) ->
    exists bound, always_ends (start (programs (fun r p => pointByPointGather snd_elem rcv_elem id into r p 0) vs)) bound
      (fun rs => exists v, gathered vs n v /\ rs = v :: tl vs).
  Proof.
    intros Nv Hn. assert (Ev : exists v0 vs', vs = v0 :: vs') by (destruct vs; [congruence|eauto]). destruct Ev as (v0 & vs' & Ev). clear Nv.
    set (p := length vs). assert (Hp : 0 < p) by (unfold p; rewrite Ev; cbn; lia).
    assert (L0 : length v0 = n) by (apply Hn; rewrite Ev; left; auto).
    assert (E0 : nth_error vs 0 = Some v0) by (rewrite Ev; auto).
    assert (HW : forall s, s < p -> length (nth s vs []) = n) by (intros s Hs; apply Hn, nth_In; auto).
    assert (EW : forall s, s < p -> nth_error vs s = Some (nth s vs [])) by (intros s Hs; apply nth_error_nth'; auto).
    (* the final vector *)
    assert (V : exists v', rruns (pointByPointGather snd_elem rcv_elem id into 0 p 0 v0) (if Nat.eqb n 0 then [] else stream (fun s => nth s vs []) 0 (block n p) p 0) v' /\ gathered vs n v').
    { unfold pointByPointGather. cbn [Nat.eqb negb]. rewrite L0, block_eq by auto.
      destruct (Nat.eqb_spec n 0) as [Hn0|Hn0].
      - exists v0. split.
        + assert (B0 : block n p = 0) by (unfold block; apply Nat.div_small; lia). rewrite B0.
          assert (G : forall q r, rruns (gather_ranks rcv_elem id into q r 0 0 v0) [] v0); [|apply G].
          induction q as [|q IH]; intros r; cbn; [constructor|]. destruct (Nat.eqb r 0); apply IH.
        + split; [auto|]. intros i Hi. lia.
      - assert (Hb : 0 < block n p) by (pose proof (block_bound n p Hp); nia).
        destruct (gather_ranks_ok (fun s => nth s vs []) 0 (block n p) p 0 v0 Hb) as (v' & Hr & Hl & Hv).
        { intros s Hs _. rewrite L0. apply HW. lia. }
        exists v'. split; [exact Hr|]. split; [lia|]. intros i Hi. unfold owner. fold p.
        assert (Hq : i / block n p < p) by (apply Nat.div_lt_upper_bound; [lia|]; pose proof (block_bound n p Hp); lia).
        exists (nth (i / block n p) vs []). split; [apply EW; auto|]. rewrite Hv.
        apply Nat.ltb_lt in Hq. cbn [Nat.leb Nat.add]. rewrite Hq. cbn [andb].
        destruct (Nat.eqb_spec (i / block n p) 0) as [Eq|]; cbn [negb]; [|auto]. rewrite Eq, Ev. reflexivity. }
    destruct V as (v' & Hr & Hg).
    set (l := if Nat.eqb n 0 then [] else stream (fun s => nth s vs []) 0 (block n p) p 0) in *.
    set (out := fun s => part (nth s vs []) (s * block n p) (block n p)).
    set (rs := fun s => if Nat.eqb s 0 then v' else nth s vs []).
    exists (length l + total p out).
    assert (S0 : star p 0 rs l out (start (programs (fun r p => pointByPointGather snd_elem rcv_elem id into r p 0) vs))).
    { split; cbn [procs chan start].
      - unfold programs. rewrite map_length, combine_length, seq_length. unfold p. lia.
      - auto.
      - eexists. split; [apply programs_nth; exact E0|]. exact Hr.
      - intros r Hr' Nr. eexists. split; [apply programs_nth, EW; auto|]. fold p. unfold pointByPointGather.
        destruct (Nat.eqb_spec r 0); [lia|]. cbn [negb]. rewrite HW, block_eq by auto.
        unfold out, rs. destruct (Nat.eqb_spec r 0); [lia|]. rewrite <- (app_nil_r (part _ _ _)). eapply sruns_bind; [|constructor].
        pose proof (gather_send_ok (block n p) 0 r (block n p) (nth r vs [])) as G. rewrite Nat.add_0_r in G. exact G.
      - intros x Hx. unfold l in Hx. destruct (Nat.eqb_spec n 0); [destruct Hx|]. apply stream_src in Hx. lia.
      - intros r Hr' Nr. cbn [app]. unfold l, out. destruct (Nat.eqb_spec n 0) as [Hn0|].
        + unfold part. rewrite HW by auto. rewrite Hn0. cbn. rewrite Nat.min_0_r. reflexivity.
        + rewrite from_stream by auto. destruct (Nat.leb_spec 0 r); [|lia]. destruct (Nat.ltb_spec r (0 + p)); [|lia]. reflexivity.
      - auto. }
    pose proof (star_always _ _ _ _ _ _ _ S0 (le_n _)) as G. intros k c' Hk. destruct (G k c' Hk) as (G1 & G2 & G3). split; [auto|]. split; [auto|].
    intros r Er. destruct (G3 r Er) as [G4 G5]. split; [|auto]. exists v'. split; [auto|]. rewrite G4. rewrite Ev. cbn [tl].
    assert (Hpp : p = S (length vs')) by (unfold p; rewrite Ev; auto). rewrite Hpp. cbn [seq map]. f_equal.
    apply list_eq_nth with (d := rs 0); [rewrite map_length, seq_length; auto|]. intros i Hi. rewrite map_length, seq_length in Hi.
    rewrite (map_nth rs (seq 1 (length vs')) 0 i), seq_nth by auto. unfold rs at 1. cbn [Nat.add Nat.eqb]. rewrite Ev. cbn [nth]. apply nth_indep. auto.
  Qed.
End Gathering.

(** A process that waits for a message from a process that never sends to it *)
Lemma stuck {D A} (b a : nat) (Q : proc D A -> Prop) (c : config D A) : a <> b ->
  (forall d t m k, Q (Snd d t m k) -> d <> b /\ Q k) -> (forall s t k, ~ Q (Rcv s t k)) ->
  (exists t k, nth_error (procs c) b = Some (Rcv a t k)) -> (exists q, nth_error (procs c) a = Some q /\ Q q) -> chan c a b = [] -> never_ends c.
Proof.
  intros Nab HS HR Hb Ha Hc n c' rs Hs.
  assert (G : (exists t k, nth_error (procs c') b = Some (Rcv a t k)) /\ (exists q, nth_error (procs c') a = Some q /\ Q q) /\ chan c' a b = []).
  { induction Hs as [c|n c c1 c2 Hs IH St]; [auto|]. destruct (IH Hb Ha Hc) as ((t & k & Eb) & (q & Ea & Hq) & Ec). clear - HS HR Nab St Eb Ea Hq Ec.
    assert (Lb : b < length (procs c1)) by (apply nth_error_Some; congruence). assert (La : a < length (procs c1)) by (apply nth_error_Some; congruence).
    destruct St as [c1 c2 M|c1 x y t' m' k' Ex]; [destruct M as [c1 x y t' k' m' rest Ey Et|c1 x y t' m' k' k'' Nxy Ex Ey Et]|]; cbn [procs chan].
    - assert (y <> b). { intros ->. rewrite Eb in Ey. injection Ey as <- <- <-. rewrite Ec in Et. discriminate. }
      assert (y <> a). { intros ->. rewrite Ea in Ey. injection Ey as ->. apply (HR _ _ _ Hq). }
      rewrite !nth_error_upd_neq by auto. rewrite set_diff by auto. eauto 10.
    - assert (y <> b). { intros ->. rewrite Eb in Ey. injection Ey as <- <- <-. rewrite Ea in Ex. injection Ex as ->. apply HS in Hq. destruct Hq; congruence. }
      assert (y <> a). { intros ->. rewrite Ea in Ey. injection Ey as ->. apply (HR _ _ _ Hq). }
      assert (x <> b) by (intros ->; congruence). rewrite !(nth_error_upd_neq _ y) by auto. rewrite (nth_error_upd_neq _ x b) by auto.
      split; [eauto|]. split; [|auto]. destruct (Nat.eq_dec x a) as [->|Nx].
      + rewrite nth_error_upd_eq by auto. rewrite Ea in Ex. injection Ex as ->. apply HS in Hq. destruct Hq. eauto.
      + rewrite nth_error_upd_neq by auto. eauto.
    - assert (x <> b) by (intros ->; congruence). rewrite (nth_error_upd_neq _ x b) by auto. split; [eauto|]. destruct (Nat.eq_dec x a) as [->|Nx].
      + rewrite nth_error_upd_eq by auto. rewrite Ea in Ex. injection Ex as ->. apply HS in Hq. destruct Hq. rewrite set_diff by auto. eauto.
      + rewrite nth_error_upd_neq by auto. rewrite set_diff by auto. eauto. }
  destruct G as ((t & k & Eb) & _). unfold ended. intros E. rewrite E, nth_error_map in Eb. destruct (nth_error rs b); discriminate.
Qed.

Lemma nth_error_ext_len {A} (l l' : list A) n : length l = n -> length l' = n -> (forall i, i < n -> nth_error l i = nth_error l' i) -> l = l'.
Proof.
  revert l' n. induction l as [|x l IH]; intros [|y l'] n H1 H2 H; cbn in *; try lia; auto. subst n. f_equal.
  - specialize (H 0 ltac:(lia)). cbn in H. congruence.
  - apply (IH l' (length l)); [auto|lia|]. intros i Hi. apply (H (S i)). lia.
Qed.
