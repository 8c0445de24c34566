From Coq Require Import NArith.
From Verif Require Import Prelude Thr_Model Thr_Spec.
Local Opaque MAX_CPUS.

Lemma first_cpu_spec n : forall i s, first_cpu n i s = hd_error (filter (fun c => CPU_ISSET c s) (seq i n)).
Proof.
  induction n as [|n IH]; intros i s; cbn [first_cpu seq filter]; auto. destruct (CPU_ISSET i s); auto. rewrite IH, Nat.add_1_r. auto.
Qed.
Lemma count_zero s : length s = MAX_CPUS -> (CPU_COUNT s = 0 <-> processors s = []).
Proof.
  intros L. unfold CPU_COUNT, processors. split.
  - intros H. apply length_zero_iff_nil in H. destruct (filter (fun c => CPU_ISSET c s) (seq 0 MAX_CPUS)) as [|c l] eqn:E; auto.
    assert (Hc : In c (filter (fun c => CPU_ISSET c s) (seq 0 MAX_CPUS))) by (rewrite E; left; auto). apply filter_In in Hc. destruct Hc as [Hc Hs].
    apply in_seq in Hc. assert (X : In true (filter (fun b : bool => b) s)).
    { apply filter_In. split; auto. unfold CPU_ISSET in Hs. rewrite <- Hs. apply nth_In. lia. }
    rewrite H in X. destruct X.
  - intros H. apply length_zero_iff_nil. destruct (filter (fun b : bool => b) s) as [|b l] eqn:E; auto.
    assert (Hb : In b (filter (fun b : bool => b) s)) by (rewrite E; left; auto). apply filter_In in Hb. destruct Hb as [Hb Hs]. subst b.
    apply (In_nth _ _ false) in Hb. destruct Hb as (i & Hi & Hn).
    assert (X : In i (filter (fun c => CPU_ISSET c s) (seq 0 MAX_CPUS))) by (apply filter_In; split; [apply in_seq; lia|auto]). rewrite H in X. destruct X.
Qed.
Lemma getOne_spec s : length s = MAX_CPUS -> getOneCpuFromSet s = hd_error (processors s).
Proof.
  intros L. unfold getOneCpuFromSet. destruct (Nat.eqb_spec (CPU_COUNT s) 0) as [H|H].
  - apply count_zero in H; auto. rewrite H. auto.
  - apply first_cpu_spec.
Qed.
Lemma isset_upd s c b i : c < length s -> CPU_ISSET i (upd s c b) = if i =? c then b else CPU_ISSET i s.
Proof.
  intros H. unfold CPU_ISSET. destruct (Nat.eqb_spec i c) as [-> |N]; [apply nth_upd_eq; auto|apply nth_upd_neq; auto].
Qed.
Lemma only_set c : c < MAX_CPUS -> only c (CPU_SET c CPU_ZERO).
Proof.
  intros H. split; [unfold CPU_SET; rewrite upd_length; apply repeat_length|]. intros i. unfold CPU_SET. rewrite isset_upd by (unfold CPU_ZERO; rewrite repeat_length; auto).
  destruct (Nat.eqb_spec i c); [tauto|]. unfold CPU_ISSET, CPU_ZERO. rewrite nth_repeat. split; [discriminate|contradiction].
Qed.
Lemma clr_filter s c l : c < length s -> ~ In c l -> filter (fun i => CPU_ISSET i (CPU_CLR c s)) l = filter (fun i => CPU_ISSET i s) l.
Proof.
  intros H. induction l as [|i l IH]; intros N; cbn [filter]; auto. unfold CPU_CLR at 1. rewrite isset_upd by auto.
  destruct (Nat.eqb_spec i c) as [-> |]; [elim N; left; auto|]. rewrite IH by (intros X; apply N; right; auto). auto.
Qed.
Lemma clr_first s c l : NoDup l -> c < length s -> hd_error (filter (fun i => CPU_ISSET i s) l) = Some c ->
  filter (fun i => CPU_ISSET i (CPU_CLR c s)) l = tl (filter (fun i => CPU_ISSET i s) l).
Proof.
  intros Nd Hc. induction l as [|i l IH]; intros H; [discriminate|]. inversion Nd as [|x y Ni Nl]; subst. cbn [filter] in *.
  destruct (CPU_ISSET i s) eqn:E.
  - injection H as ->. cbn [tl]. unfold CPU_CLR at 1. rewrite isset_upd, Nat.eqb_refl by auto. apply clr_filter; auto.
  - unfold CPU_CLR at 1. rewrite isset_upd by auto. destruct (i =? c); [|rewrite E]; apply IH; auto.
Qed.
Lemma processors_clr s c l : length s = MAX_CPUS -> processors s = c :: l -> processors (CPU_CLR c s) = l.
Proof.
  intros L H. assert (Hc : In c (processors s)) by (rewrite H; left; auto). unfold processors in Hc. apply filter_In in Hc. destruct Hc as [Hc _]. apply in_seq in Hc.
  unfold processors in *. rewrite clr_first; [rewrite H; auto|apply seq_NoDup|lia|rewrite H; auto].
Qed.

(** Without affinities or with: the threads made so far, and the processors left *)
Definition expected (setA : bool) (set0 : cpuset) (succeeds : nat -> bool) (j : nat) (a : attr) : Prop :=
  match (if setA && succeeds j then nth_error (processors set0) (given succeeds j) else None) with
  | None => a = Init None None
  | Some c => exists s, a = Init None (Some s) /\ only c s
  end.
Lemma nth_error_skipn {A} n : forall (l : list A), nth_error l n = hd_error (skipn n l).
Proof. induction n as [|n IH]; intros [|x l]; auto. cbn. auto. Qed.
Lemma tl_skipn {A} n : forall (l : list A), tl (skipn n l) = skipn (S n) l.
Proof. induction n as [|n IH]; intros [|x l]; auto. cbn [skipn] in *. rewrite <- IH. auto. Qed.

Lemma loopCreate_ok nthreads ntasks setA os succeeds : (forall s, os = Some s -> length s = MAX_CPUS) ->
  exists attrs, loopCreate nthreads ntasks setA 0 os succeeds = Ok attrs /\ length attrs = Nat.min nthreads ntasks /\
    forall j, j < length attrs -> expected setA (getPidAffinity os) succeeds j (nth j attrs Raw).
Proof.
  intros L0. unfold loopCreate. change (0 <? 0)%N with false. cbn iota.
  set (set0 := getPidAffinity os).
  assert (Ls : length set0 = MAX_CPUS) by (unfold set0, getPidAffinity; destruct os; [auto|apply repeat_length]).
  assert (Hs0 : setA = true -> (if setA then set0 else CPU_ZERO) = set0) by (intros ->; auto).
  fold set0. set (s0 := if setA then set0 else CPU_ZERO) in *.
  loopM (fun j (st : list attr * cpuset) => length (fst st) = j /\ (forall i, i < j -> expected setA set0 succeeds i (nth i (fst st) Raw)) /\
    (setA = true -> length (snd st) = MAX_CPUS /\ processors (snd st) = skipn (given succeeds j) (processors set0))) as st E H.
  - cbn [fst snd]. split; auto. split; [intros; lia|]. intros H. rewrite Hs0 by auto. auto.
  - intros j [attrs set] Hj (H1 & H2 & H3). cbn [fst snd bind] in *. unfold attr_init.
    assert (G : given succeeds (S j) = (if succeeds j then S (given succeeds j) else given succeeds j)).
    { unfold given. rewrite seq_S, filter_app, app_length. cbn [filter Nat.add]. destruct (succeeds j); cbn [length]; lia. }
    assert (P : forall a, expected setA set0 succeeds j a -> length (attrs ++ [a]) = S j /\ forall i, i < S j -> expected setA set0 succeeds i (nth i (attrs ++ [a]) Raw)).
    { intros a Ha. split; [rewrite app_length; simpl; lia|]. intros i Hi. destruct (Nat.eq_dec i j) as [-> |N].
      - rewrite app_nth2, H1, Nat.sub_diag by lia. exact Ha.
      - rewrite app_nth1 by lia. apply H2. lia. }
    destruct setA.
    + destruct (H3 eq_refl) as [L P3]. unfold setAffinity. rewrite getOne_spec by auto. rewrite P3.
      pose proof (nth_error_skipn (given succeeds j) (processors set0)) as Ne.
      destruct (skipn (given succeeds j) (processors set0)) as [|c l] eqn:Sk; cbn [hd_error] in *.
      * cbn [bind]. eexists. split; [reflexivity|]. cbn [fst snd]. destruct (P (Init None None)) as [Pa Pb].
        { unfold expected. cbn [andb]. destruct (succeeds j); [rewrite Ne|]; auto. }
        split; [auto|]. split; [auto|]. intros _. split; auto. rewrite G. destruct (succeeds j); [|congruence]. rewrite <- tl_skipn, Sk. exact P3.
      * cbn [attr_setaffinity bind]. destruct (succeeds j) eqn:Sj; cbn [negb].
        -- cbn [bind]. eexists. split; [reflexivity|]. cbn [fst snd]. destruct (P (Init None (Some (CPU_SET c CPU_ZERO)))) as [Pa Pb].
           { unfold expected. rewrite Sj. cbn [andb]. rewrite Ne. eexists. split; [reflexivity|]. apply only_set.
             assert (Hc : In c (processors set0)) by (eapply nth_error_In; eauto). apply filter_In in Hc. destruct Hc as [Hc _]. apply in_seq in Hc. lia. }
           split; [auto|]. split; [auto|]. intros _. split; [unfold CPU_CLR; rewrite upd_length; auto|]. rewrite G, <- tl_skipn, Sk. apply processors_clr; auto.
        -- cbn [bind]. eexists. split; [reflexivity|]. cbn [fst snd]. destruct (P (Init None None)) as [Pa Pb].
           { unfold expected. rewrite Sj. reflexivity. }
           split; [auto|]. split; [auto|]. intros _. split; auto. rewrite G, Sk. exact P3.
    + cbn [bind]. eexists. split; [reflexivity|]. cbn [fst snd]. destruct (P (Init None None)) as [Pa Pb]; [reflexivity|]. split; [auto|]. split; [auto|]. discriminate.
  - rewrite E. destruct st as [attrs set]. cbn [bind fst snd] in *. destruct H as (H1 & H2 & _). exists attrs. split; auto. split; auto. intros j Hj. apply H2. lia.
Qed.
