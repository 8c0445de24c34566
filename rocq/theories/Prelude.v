(** Common vocabulary of all models: outcomes, checked vector access, loops,
    and small list facts. Nothing here models a particular file of /repo;
    it fixes what "the C++ code does" means in the other files:
    - [Ok a]       : the call returns normally with a;
    - [Throw]      : the call throws a C++ exception;
    - [UB]         : the call performs an out-of-range access, divides by zero,
                     or violates an assert (undefined behaviour under NDEBUG);
    - [OutOfFuel]  : the model ran out of its artificial step bound. *)
From Coq Require Export List Arith ZArith NArith Lia Bool Permutation Sorted.
From Coq Require Export ZifyBool ZifyNat ZifyN.
Export ListNotations.
Set Implicit Arguments.

Inductive res (A : Type) : Type :=
| Ok (a : A)
| Throw
| UB
| OutOfFuel.
Arguments Ok {A} a.
Arguments Throw {A}.
Arguments UB {A}.
Arguments OutOfFuel {A}.

Definition bind {A B} (m : res A) (f : A -> res B) : res B :=
  match m with
  | Ok a => f a
  | Throw => Throw
  | UB => UB
  | OutOfFuel => OutOfFuel
  end.

Declare Scope res_scope.
Notation "'do' x <- m ;; k" := (bind m (fun x => k))
  (at level 200, x pattern, m at level 100, k at level 200, right associativity) : res_scope.
Notation "'guard' b ;; k" := (if (b : bool) then k else UB)
  (at level 200, b at level 100, k at level 200, right associativity) : res_scope.
Open Scope res_scope.

(** [std::vector] access through [operator[]]: out of range is [UB]. *)
Definition vget {A} (v : list A) (i : nat) : res A :=
  match nth_error v i with
  | Some a => Ok a
  | None => UB
  end.

Fixpoint upd {A} (v : list A) (i : nat) (x : A) : list A :=
  match v, i with
  | [], _ => []
  | _ :: v', 0 => x :: v'
  | a :: v', S i' => a :: upd v' i' x
  end.

Definition vset {A} (v : list A) (i : nat) (x : A) : res (list A) :=
  if i <? length v then Ok (upd v i x) else UB.

(** [v.resize(n)] / [v.resize(n, x)]: keeps the first [n] old elements. *)
Definition vresize {A} (v : list A) (n : nat) (x : A) : list A :=
  firstn n v ++ repeat x (n - length v).

(** [for (k = i; k < i + n; ++k) s = f k s] *)
Fixpoint forM {S : Type} (n i : nat) (f : nat -> S -> res S) (s : S) : res S :=
  match n with
  | 0 => Ok s
  | S n' => do s' <- f i s ;; forM n' (Datatypes.S i) f s'
  end.

(** [for (k = a; k < b; ++k) s = f k s] *)
Definition forR {S : Type} (a b : nat) (f : nat -> S -> res S) (s : S) : res S :=
  forM (b - a) a f s.

(** Range-for over a vector. *)
Fixpoint forL {A S : Type} (l : list A) (f : A -> S -> res S) (s : S) : res S :=
  match l with
  | [] => Ok s
  | a :: l' => do s' <- f a s ;; forL l' f s'
  end.

(** ------------------------------------------------------------------ *)
(** Facts. *)

Lemma Ok_inj {A} (a b : A) : Ok a = Ok b -> a = b.
Proof. congruence. Qed.

Lemma bind_ok {A B} (m : res A) (f : A -> res B) b :
  bind m f = Ok b -> exists a, m = Ok a /\ f a = Ok b.
Proof. destruct m; simpl; try discriminate; eauto. Qed.

Lemma upd_length {A} (v : list A) i x : length (upd v i x) = length v.
Proof. revert i; induction v as [|a v IH]; intros [|i]; simpl; auto. Qed.

Lemma nth_error_upd {A} (v : list A) i x k :
  nth_error (upd v i x) k =
  if (k =? i) && (i <? length v) then Some x else nth_error v k.
Proof.
  revert i k; induction v as [|a v IH]; intros [|i] [|k]; simpl; auto.
  - destruct (k =? i); reflexivity.
  - rewrite IH. change (S i <? S (length v)) with (i <? length v). reflexivity.
Qed.

Lemma nth_upd {A} (v : list A) i x k d :
  nth k (upd v i x) d = if (k =? i) && (i <? length v) then x else nth k v d.
Proof.
  revert i k; induction v as [|a v IH]; intros [|i] [|k]; simpl; auto.
  - destruct (k =? i); reflexivity.
  - rewrite IH. change (S i <? S (length v)) with (i <? length v). reflexivity.
Qed.

Lemma nth_upd_eq {A} (v : list A) i x d : i < length v -> nth i (upd v i x) d = x.
Proof.
  intros H. rewrite nth_upd. rewrite Nat.eqb_refl.
  apply Nat.ltb_lt in H. rewrite H. reflexivity.
Qed.

Lemma nth_upd_neq {A} (v : list A) i x k d : k <> i -> nth k (upd v i x) d = nth k v d.
Proof.
  intros H. rewrite nth_upd. destruct (Nat.eqb_spec k i); [contradiction|reflexivity].
Qed.

Lemma upd_app_l {A} (u v : list A) i x :
  i < length u -> upd (u ++ v) i x = upd u i x ++ v.
Proof.
  revert i; induction u as [|a u IH]; intros [|i] H; simpl in *; try lia; auto.
  f_equal. apply IH. lia.
Qed.

Lemma upd_app_r {A} (u v : list A) i x :
  upd (u ++ v) (length u + i) x = u ++ upd v i x.
Proof. induction u as [|a u IH]; simpl; auto. f_equal; apply IH. Qed.

Lemma upd_app_mid {A} (u v : list A) i a x :
  length u = i -> upd (u ++ a :: v) i x = u ++ x :: v.
Proof.
  intros <-. replace (length u) with (length u + 0) by lia. rewrite upd_app_r. reflexivity.
Qed.

Lemma upd_split {A} (v : list A) i x d :
  i < length v -> upd v i x = firstn i v ++ x :: skipn (S i) v /\
                  v = firstn i v ++ nth i v d :: skipn (S i) v.
Proof.
  revert i; induction v as [|a v IH]; intros [|i] H; simpl in *; try lia; auto.
  destruct (IH i) as [H1 H2]; [lia|]. split; f_equal; assumption.
Qed.

Lemma upd_upd {A} (v : list A) i x y : upd (upd v i x) i y = upd v i y.
Proof. revert i; induction v as [|a v IH]; intros [|i]; simpl; auto. rewrite IH; auto. Qed.

Lemma vget_ok {A} (v : list A) i d : i < length v -> vget v i = Ok (nth i v d).
Proof.
  intros H. unfold vget. rewrite (nth_error_nth' v d H). reflexivity.
Qed.

Lemma vget_ub {A} (v : list A) i : length v <= i -> vget v i = UB.
Proof.
  intros H. unfold vget. apply nth_error_None in H. rewrite H. reflexivity.
Qed.

Lemma vget_inv {A} (v : list A) i a : vget v i = Ok a -> nth_error v i = Some a.
Proof. unfold vget. destruct (nth_error v i); congruence. Qed.

Lemma vget_some {A} (v : list A) i a : nth_error v i = Some a -> vget v i = Ok a.
Proof. unfold vget. intros ->. reflexivity. Qed.

Lemma vset_ok {A} (v : list A) i x : i < length v -> vset v i x = Ok (upd v i x).
Proof. intros H. unfold vset. apply Nat.ltb_lt in H. rewrite H. reflexivity. Qed.

Lemma vset_ub {A} (v : list A) i x : length v <= i -> vset v i x = UB.
Proof. intros H. unfold vset. apply Nat.ltb_ge in H. rewrite H. reflexivity. Qed.

Lemma vresize_length {A} (v : list A) n x : length (vresize v n x) = n.
Proof. unfold vresize. rewrite app_length, firstn_length, repeat_length. lia. Qed.

Lemma nth_vresize {A} (v : list A) n x k d :
  k < n -> nth k (vresize v n x) d = if k <? length v then nth k v d else x.
Proof.
  intros H. unfold vresize. destruct (Nat.ltb_spec k (length v)) as [Hk|Hk].
  - rewrite app_nth1 by (rewrite firstn_length; lia).
    rewrite <- (firstn_skipn n v) at 2. rewrite app_nth1; [reflexivity|].
    rewrite firstn_length; lia.
  - rewrite app_nth2 by (rewrite firstn_length; lia).
    rewrite firstn_length. replace (Nat.min n (length v)) with (length v) by lia.
    assert (Hin : nth (k - length v) (repeat x (n - length v)) d = x).
    { apply (repeat_spec (n - length v) x). apply nth_In. rewrite repeat_length. lia. }
    exact Hin.
Qed.

Lemma nth_repeat_in {A} (x : A) n k d : k < n -> nth k (repeat x n) d = x.
Proof.
  intros H. apply (repeat_spec n x). apply nth_In. rewrite repeat_length. exact H.
Qed.

Lemma nth_repeat_same {A} (x : A) n k : nth k (repeat x n) x = x.
Proof.
  destruct (Nat.lt_ge_cases k n).
  - apply nth_repeat_in; assumption.
  - apply nth_overflow. rewrite repeat_length. assumption.
Qed.

Lemma list_eq_nth {A} (u v : list A) d :
  length u = length v -> (forall k, k < length u -> nth k u d = nth k v d) -> u = v.
Proof. intros H1 H2. apply (nth_ext u v d d); assumption. Qed.

(** Loop rules. *)

Lemma forM_inv {S : Type} (P : nat -> S -> Prop) n i (f : nat -> S -> res S) s :
  P i s ->
  (forall j t, i <= j < i + n -> P j t -> exists t', f j t = Ok t' /\ P (Datatypes.S j) t') ->
  exists s', forM n i f s = Ok s' /\ P (i + n) s'.
Proof.
  revert i s; induction n as [|n IH]; intros i s H0 Hstep; simpl.
  - exists s. rewrite Nat.add_0_r. auto.
  - destruct (Hstep i s) as [t' [Hf Hp]]; [lia|assumption|].
    rewrite Hf. simpl. destruct (IH (Datatypes.S i) t') as [s' [H1 H2]].
    + assumption.
    + intros j t Hj. apply Hstep. lia.
    + exists s'. split; [assumption|]. replace (i + Datatypes.S n) with (Datatypes.S i + n) by lia.
      assumption.
Qed.

Lemma forR_inv {S : Type} (P : nat -> S -> Prop) a b (f : nat -> S -> res S) s :
  a <= b ->
  P a s ->
  (forall j t, a <= j < b -> P j t -> exists t', f j t = Ok t' /\ P (Datatypes.S j) t') ->
  exists s', forR a b f s = Ok s' /\ P b s'.
Proof.
  intros Hab H0 Hstep. unfold forR.
  destruct (forM_inv P (b - a) f s (i := a)) as [s' [H1 H2]]; auto.
  - intros j t Hj. apply Hstep. lia.
  - exists s'. split; auto. replace (a + (b - a)) with b in H2 by lia. assumption.
Qed.

Lemma forM_app {S : Type} n m i (f : nat -> S -> res S) s :
  forM (n + m) i f s = do s' <- forM n i f s ;; forM m (i + n) f s'.
Proof.
  revert i s; induction n as [|n IH]; intros i s; simpl.
  - rewrite Nat.add_0_r. reflexivity.
  - destruct (f i s); simpl; auto. rewrite IH. replace (i + Datatypes.S n) with (Datatypes.S i + n) by lia.
    reflexivity.
Qed.

Lemma forM_snoc {S : Type} n i (f : nat -> S -> res S) s :
  forM (Datatypes.S n) i f s = do s' <- forM n i f s ;; f (i + n) s'.
Proof.
  replace (Datatypes.S n) with (n + 1) by lia. rewrite forM_app.
  destruct (forM n i f s); simpl; auto. destruct (f (i + n) a); reflexivity.
Qed.

Lemma forM_ext {S : Type} n i (f g : nat -> S -> res S) s :
  (forall j t, i <= j < i + n -> f j t = g j t) -> forM n i f s = forM n i g s.
Proof.
  revert i s; induction n as [|n IH]; intros i s H; simpl; auto.
  rewrite H by lia. destruct (g i s); simpl; auto. apply IH. intros; apply H; lia.
Qed.

Lemma forL_inv {A S : Type} (P : list A -> S -> Prop) (l : list A) (f : A -> S -> res S) s :
  P [] s ->
  (forall pre a post t, l = pre ++ a :: post -> P pre t ->
     exists t', f a t = Ok t' /\ P (pre ++ [a]) t') ->
  exists s', forL l f s = Ok s' /\ P l s'.
Proof.
  intros H0 Hstep.
  assert (G : forall post pre t, l = pre ++ post -> P pre t ->
            exists s', forL post f t = Ok s' /\ P l s').
  { induction post as [|a post IH]; intros pre t Hl Hp; simpl.
    - rewrite app_nil_r in Hl. subst. eauto.
    - destruct (Hstep pre a post t Hl Hp) as [t' [Hf Hp']]. rewrite Hf. simpl.
      apply (IH (pre ++ [a])); auto. rewrite <- app_assoc. assumption. }
  apply (G l []); auto.
Qed.

Lemma skipn_cons_S {A} (v : list A) j a r : skipn j v = a :: r -> skipn (S j) v = r.
Proof.
  revert j; induction v as [|b v IH]; intros [|j] H; try discriminate.
  - simpl in *. congruence.
  - change (skipn (S (S j)) (b :: v)) with (skipn (S j) v). apply IH. exact H.
Qed.

Lemma firstn_S_nth {A} (v : list A) j d :
  j < length v -> firstn (S j) v = firstn j v ++ [nth j v d].
Proof.
  revert j; induction v as [|a v IH]; intros [|j] H; simpl in *; try lia; auto.
  f_equal. apply IH. lia.
Qed.

(** [for (i = 0; i < n; ++i) v[i] = g(i)] *)
Lemma forM_fill {A} (g : nat -> A) (f : nat -> list A -> res (list A)) v n :
  n <= length v ->
  (forall i u, i < n -> length u = length v -> skipn i u = skipn i v -> f i u = vset u i (g i)) ->
  forM n 0 f v = Ok (map g (seq 0 n) ++ skipn n v).
Proof.
  intros Hn Hf.
  destruct (forM_inv (fun i u => u = map g (seq 0 i) ++ skipn i v) n f v (i := 0)) as [s' [H1 H2]].
  - reflexivity.
  - intros j t [_ Hj] ->. simpl in Hj.
    assert (L : length (map g (seq 0 j)) = j) by (rewrite map_length, seq_length; reflexivity).
    eexists. split.
    + rewrite Hf.
      * apply vset_ok. rewrite app_length, L, skipn_length. lia.
      * lia.
      * rewrite app_length, L, skipn_length. lia.
      * rewrite skipn_app, L, Nat.sub_diag, skipn_O.
        rewrite skipn_all2 by lia. reflexivity.
    + rewrite seq_S, map_app, <- app_assoc.
      destruct (skipn j v) as [|a r] eqn:E.
      * assert (H : length (skipn j v) = length v - j) by apply skipn_length.
        rewrite E in H. simpl in H. lia.
      * rewrite upd_app_mid by exact L. cbn [app map Nat.add]. f_equal. f_equal. rewrite (skipn_cons_S _ _ E). reflexivity.
  - simpl in H2. rewrite H1, H2. reflexivity.
Qed.

Lemma skipn_nth {A} (v : list A) n d : n < length v -> skipn n v = nth n v d :: skipn (S n) v.
Proof.
  revert n; induction v as [|a v IH]; intros [|n] H; simpl in *; try lia; auto.
  apply IH. lia.
Qed.

Lemma map_nth_seq {A} (v : list A) d : map (fun i => nth i v d) (seq 0 (length v)) = v.
Proof.
  apply (list_eq_nth _ _ d).
  - rewrite map_length, seq_length. reflexivity.
  - intros k Hk. rewrite map_length, seq_length in Hk.
    rewrite (nth_indep _ d (nth 0 v d)) by (rewrite map_length, seq_length; exact Hk).
    rewrite (map_nth (fun i => nth i v d)). rewrite seq_nth by exact Hk. reflexivity.
Qed.

Lemma seq_split_at a b n : a <= b -> b <= a + n -> seq a n = seq a (b - a) ++ seq b (a + n - b).
Proof.
  intros H1 H2. replace n with ((b - a) + (a + n - b)) at 1 by lia.
  rewrite seq_app. f_equal. f_equal. lia.
Qed.

(** Use the loop rules on the first loop in the goal, with invariant [P]. *)
Tactic Notation "loopM" uconstr(P) "as" simple_intropattern(s) ident(E) simple_intropattern(H) :=
  match goal with |- context [forM ?n ?i ?f ?s0] =>
    destruct (@forM_inv _ P n i f s0) as [s [E H]] end.
Tactic Notation "loopR" uconstr(P) "as" simple_intropattern(s) ident(E) simple_intropattern(H) :=
  match goal with |- context [forR ?a ?b ?f ?s0] =>
    destruct (@forR_inv _ P a b f s0) as [s [E H]] end.
Tactic Notation "loopL" uconstr(P) "as" simple_intropattern(s) ident(E) simple_intropattern(H) :=
  match goal with |- context [forL ?l ?f ?s0] =>
    destruct (@forL_inv _ _ P l f s0) as [s [E H]] end.
