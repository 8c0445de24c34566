(** Proofs about labels and maps of labels. *)
From Coq Require Import Ascii String Sorted.
From Verif Require Import Prelude Ring Str_Model Str_Spec Str_Proofs Text_Model Text_Proofs Dense_Model Input_Model Input_Spec Ng_Proofs.
Import List.

(** ** Order of strings *)
Lemma ascii_N_inj a b : N_of_ascii a = N_of_ascii b -> a = b.
Proof. intros H. rewrite <- (ascii_N_embedding a), <- (ascii_N_embedding b). congruence. Qed.
Lemma str_ltb_irrefl a : str_ltb a a = false.
Proof. induction a as [|x a IH]; simpl; auto. rewrite N.ltb_irrefl. auto. Qed.
Lemma str_ltb_trans a : forall b c, str_ltb a b = true -> str_ltb b c = true -> str_ltb a c = true.
Proof.
  induction a as [|x a IH]; intros [|y b] [|z c]; simpl; auto; try discriminate.
  destruct (N.ltb_spec (N_of_ascii x) (N_of_ascii y)), (N.ltb_spec (N_of_ascii y) (N_of_ascii x)),
    (N.ltb_spec (N_of_ascii y) (N_of_ascii z)), (N.ltb_spec (N_of_ascii z) (N_of_ascii y)),
    (N.ltb_spec (N_of_ascii x) (N_of_ascii z)), (N.ltb_spec (N_of_ascii z) (N_of_ascii x)); try lia; try discriminate; eauto.
Qed.
Lemma str_ltb_total a : forall b, str_ltb a b = false -> str_ltb b a = false -> a = b.
Proof.
  induction a as [|x a IH]; intros [|y b]; simpl; auto; try discriminate.
  destruct (N.ltb_spec (N_of_ascii x) (N_of_ascii y)), (N.ltb_spec (N_of_ascii y) (N_of_ascii x)); try lia; try discriminate.
  intros A B. f_equal; [apply ascii_N_inj; lia|apply IH; auto].
Qed.
(** The order of strings with different parts before '@' depends on these parts only. *)
Lemma str_ltb_at f1 : forall f2 t1 t2, ~ In at_ f1 -> ~ In at_ f2 -> f1 <> f2 ->
  str_ltb (f1 ++ at_ :: t1) (f2 ++ at_ :: t2) = str_ltb (f1 ++ [at_]) (f2 ++ [at_]).
Proof.
  induction f1 as [|x f1 IH]; intros [|y f2] t1 t2 A B C.
  - contradiction.
  - cbn [app str_ltb]. assert (at_ <> y) by (intros E; apply B; left; auto).
    destruct (N.ltb_spec (N_of_ascii at_) (N_of_ascii y)); auto.
    destruct (N.ltb_spec (N_of_ascii y) (N_of_ascii at_)); auto. elim H. apply ascii_N_inj. lia.
  - cbn [app str_ltb]. assert (at_ <> x) by (intros E; apply A; left; auto).
    destruct (N.ltb_spec (N_of_ascii x) (N_of_ascii at_)); auto.
    destruct (N.ltb_spec (N_of_ascii at_) (N_of_ascii x)); auto. elim H. apply ascii_N_inj. lia.
  - cbn [app str_ltb]. destruct (N.ltb_spec (N_of_ascii x) (N_of_ascii y)); auto.
    destruct (N.ltb_spec (N_of_ascii y) (N_of_ascii x)); auto.
    apply IH; [intros H'; apply A; right; auto|intros H'; apply B; right; auto|].
    intros ->. apply C. f_equal. apply ascii_N_inj. lia.
Qed.

(** ** The part of a label before '@' *)
Lemma until_acc stop l : forall buf, until stop l buf = (buf ++ fst (until stop l []), snd (until stop l [])).
Proof.
  induction l as [|c l IH]; intros buf; cbn [until]; [simpl; rewrite app_nil_r; auto|].
  destruct (stop c); [simpl; rewrite app_nil_r; auto|]. rewrite IH, (IH ([] ++ [c])). simpl. rewrite <- app_assoc. auto.
Qed.
Lemma until_app stop a c b : (forall x, In x a -> stop x = false) -> stop c = true -> until stop (a ++ c :: b) [] = (a, c :: b).
Proof.
  induction a as [|x a IH]; intros A C; cbn [until app].
  - rewrite C. auto.
  - rewrite A by (left; auto). rewrite until_acc, IH; auto. intros y Hy. apply A. right; auto.
Qed.
Lemma until_none stop a : (forall x, In x a -> stop x = false) -> until stop a [] = (a, []).
Proof.
  induction a as [|x a IH]; intros A; cbn [until]; auto.
  rewrite A by (left; auto). rewrite until_acc, IH; auto. intros y Hy. apply A. right; auto.
Qed.
Lemma at_eqb c : c <> at_ -> Ascii.eqb c at_ = false.
Proof. intros H. apply Ascii.eqb_neq. auto. Qed.
Lemma root_at l t : ~ In at_ l -> findRootLabel (l ++ at_ :: t) = l.
Proof. intros H. unfold findRootLabel. rewrite until_app; auto. intros x Hx. apply at_eqb. intros ->. auto. Qed.
Lemma root_none l : ~ In at_ l -> findRootLabel l = l.
Proof. intros H. unfold findRootLabel. rewrite until_none; auto. intros x Hx. apply at_eqb. intros ->. auto. Qed.
(** Every label is a part without '@', or such a part, '@', and more. *)
Lemma label_cases l : (~ In at_ l /\ findRootLabel l = l) \/
  exists r t, l = r ++ at_ :: t /\ ~ In at_ r /\ findRootLabel l = r.
Proof.
  assert (G : ~ In at_ l \/ exists r t, l = r ++ at_ :: t /\ ~ In at_ r).
  { induction l as [|c l IH]; [left; intros []|]. destruct (ascii_dec c at_) as [E|E].
    - right. exists [], l. split; [simpl; congruence|intros []].
    - destruct IH as [H|(r & t & -> & H)]; [left; intros [?|?]; auto|].
      right. exists (c :: r), t. split; auto. intros [?|?]; auto. }
  destruct G as [H|(r & t & -> & H)]; [left; split; auto; apply root_none; auto|].
  right. exists r, t. split; auto. split; auto. apply root_at. auto.
Qed.
Lemma root_noat l : ~ In at_ (findRootLabel l).
Proof. destruct (label_cases l) as [[H ->]|(r & t & _ & H & ->)]; auto. Qed.

Lemma mysplit_loop_first a : forall f s, ~ In at_ a -> mysplit_loop a false f s = (f ++ a, s).
Proof.
  induction a as [|c a IH]; intros f s H; cbn [mysplit_loop]; [rewrite app_nil_r; auto|].
  rewrite at_eqb by (intros ->; apply H; left; auto). rewrite IH by (intros X; apply H; right; auto). rewrite <- app_assoc. auto.
Qed.
Lemma mysplit_loop_app a : forall b f s, ~ In at_ a -> mysplit_loop (a ++ at_ :: b) false f s = mysplit_loop b true (f ++ a) s.
Proof.
  induction a as [|c a IH]; intros b f s H.
  - cbn [app mysplit_loop]. rewrite Ascii.eqb_refl, app_nil_r. auto.
  - cbn [app mysplit_loop]. rewrite at_eqb by (intros ->; apply H; left; auto).
    rewrite IH by (intros X; apply H; right; auto). rewrite <- app_assoc. auto.
Qed.
Definition noat (c : ascii) : bool := negb (Ascii.eqb c at_).
Lemma mysplit_loop_second b : forall f s, mysplit_loop b true f s = (f, s ++ filter noat b).
Proof.
  induction b as [|c b IH]; intros f s; cbn [mysplit_loop filter]; [rewrite app_nil_r; auto|].
  unfold noat. destruct (Ascii.eqb c at_); cbn [negb]; rewrite IH; auto. rewrite <- app_assoc. auto.
Qed.
Lemma mysplit_plain l : ~ In at_ l -> mysplit l = Ok (l, 0%Z).
Proof. intros H. unfold mysplit. rewrite mysplit_loop_first by auto. reflexivity. Qed.
Lemma mysplit_at r t : ~ In at_ r -> mysplit (r ++ at_ :: t) =
  match filter noat t with [] => Ok (r, 0%Z) | s => do n <- atoi (c_str s) ;; Ok (r, (n mod 18446744073709551616)%Z) end.
Proof. intros H. unfold mysplit. rewrite mysplit_loop_app, mysplit_loop_second by auto. cbn [app]. destruct (filter noat t); reflexivity. Qed.
Lemma mysplit_first l f n : mysplit l = Ok (f, n) -> f = findRootLabel l.
Proof.
  intros H. destruct (label_cases l) as [[A B]|(r & t & E & A & B)].
  - rewrite mysplit_plain in H by auto. inversion H. congruence.
  - rewrite B. subst l. rewrite mysplit_at in H by auto. destruct (filter noat t); [inversion H; auto|].
    apply bind_ok in H. destruct H as (z & _ & H). inversion H. auto.
Qed.

(** ** The order as an order of ranks *)
Definition rank (l : str) (n : Z) : bool * str * Z :=
  if (n =? 0)%Z then (false, l, 0%Z) else (true, findRootLabel l ++ [at_], n).
Definition rank_ltb (a b : bool * str * Z) : bool :=
  let '(b1, s1, n1) := a in
  let '(b2, s2, n2) := b in
  if negb b1 && b2 then true else if b1 && negb b2 then false
  else if str_ltb s1 s2 then true else if str_ltb s2 s1 then false else (n1 <? n2)%Z.
Lemma rank_irrefl a : rank_ltb a a = false.
Proof. destruct a as [[[|] s] n]; cbn; rewrite str_ltb_irrefl, Z.ltb_irrefl; auto. Qed.
Lemma str_lt_cases a b : (str_ltb a b = true /\ str_ltb b a = false) \/ (str_ltb a b = false /\ str_ltb b a = true) \/ (str_ltb a b = false /\ str_ltb b a = false /\ a = b).
Proof.
  destruct (str_ltb a b) eqn:A, (str_ltb b a) eqn:B; auto.
  - pose proof (str_ltb_trans _ _ _ A B) as H. rewrite str_ltb_irrefl in H. discriminate.
  - right; right. split; auto. split; auto. apply str_ltb_total; auto.
Qed.
Lemma rank_trans a b c : rank_ltb a b = true -> rank_ltb b c = true -> rank_ltb a c = true.
Proof.
  destruct a as [[b1 s1] n1], b as [[b2 s2] n2], c as [[b3 s3] n3]. unfold rank_ltb.
  destruct b1, b2, b3; cbn [negb andb]; auto; try discriminate.
  all: destruct (str_lt_cases s1 s2) as [[A B]|[[A B]|(A & B & E)]]; rewrite ?A, ?B; try discriminate;
    destruct (str_lt_cases s2 s3) as [[A' B']|[[A' B']|(A' & B' & E')]]; rewrite ?A', ?B'; try discriminate; subst; intros H1 H2;
    try (rewrite (str_ltb_trans _ _ _ A A'); auto; fail); rewrite ?A, ?A', ?B, ?B', ?str_ltb_irrefl; auto.
  all: apply Z.ltb_lt; apply Z.ltb_lt in H1; apply Z.ltb_lt in H2; lia.
Qed.
Lemma rank_total a b : rank_ltb a b = false -> rank_ltb b a = false -> a = b.
Proof.
  destruct a as [[b1 s1] n1], b as [[b2 s2] n2]. unfold rank_ltb.
  destruct b1, b2; cbn [negb andb]; auto; try discriminate;
    (destruct (str_lt_cases s1 s2) as [[A B]|[[A B]|(A & B & E)]]; rewrite ?A, ?B; try discriminate; intros H1 H2;
     apply Z.ltb_ge in H1; apply Z.ltb_ge in H2; f_equal; [congruence|lia]).
Qed.
Lemma rank_asym a b : rank_ltb a b = true -> rank_ltb b a = false.
Proof. intros H. destruct (rank_ltb b a) eqn:E; auto. pose proof (rank_trans _ _ _ H E). rewrite rank_irrefl in H0. discriminate. Qed.

Lemma mysplit_nonzero l f n : mysplit l = Ok (f, n) -> n <> 0%Z -> exists t, l = f ++ at_ :: t /\ ~ In at_ f.
Proof.
  intros H N. pose proof (mysplit_first _ _ _ H) as F. destruct (label_cases l) as [[A B]|(r & t & E & A & B)].
  - rewrite mysplit_plain in H by auto. inversion H. congruence.
  - exists t. subst f. rewrite B. auto.
Qed.
Lemma compare_rank x y fx nx fy ny : mysplit x = Ok (fx, nx) -> mysplit y = Ok (fy, ny) ->
  mycompare x y = Ok (rank_ltb (rank x nx) (rank y ny)).
Proof.
  intros X Y. unfold mycompare. rewrite X, Y. cbn [bind]. f_equal. unfold rank, rank_ltb.
  pose proof (mysplit_first _ _ _ X) as FX. pose proof (mysplit_first _ _ _ Y) as FY. rewrite <- FX, <- FY.
  destruct (Z.eqb_spec nx 0) as [Zx|Zx], (Z.eqb_spec ny 0) as [Zy|Zy]; cbn [andb negb]; auto.
  - destruct (str_lt_cases x y) as [[A B]|[[A B]|(A & B & E)]]; rewrite ?A, ?B; auto.
  - destruct (mysplit_nonzero _ _ _ X Zx) as (t1 & E1 & N1). destruct (mysplit_nonzero _ _ _ Y Zy) as (t2 & E2 & N2).
    destruct (str_eqb fx fy) eqn:E; cbn [negb].
    + apply str_eqb_eq in E. rewrite E, str_ltb_irrefl. auto.
    + apply str_eqb_false in E. rewrite E1, E2. rewrite str_ltb_at by auto.
      destruct (str_lt_cases (fx ++ [at_]) (fy ++ [at_])) as [[A B]|[[A B]|(A & B & C)]]; rewrite ?A, ?B; auto.
      apply app_inj_tail in C. destruct C. contradiction.
Qed.

Lemma comparable_split l : comparable l -> (forall c, In c l -> c <> zero) -> exists f n, mysplit l = Ok (f, n).
Proof.
  intros H NZ. destruct (label_cases l) as [[A B]|(r & t & E & A & B)].
  - rewrite mysplit_plain by auto. eauto.
  - subst l. rewrite mysplit_at by auto. destruct (filter noat t) as [|c s] eqn:F; eauto.
    assert (K : forall x, In x (c :: s) -> In x (lit "0123456789+-") /\ x <> zero).
    { intros x Hx. rewrite <- F in Hx. apply filter_In in Hx. destruct Hx as [H1 H2]. pose proof (H r t eq_refl x H1) as H3.
      split; [|apply NZ; apply in_or_app; right; right; auto]. cbn in H3. destruct H3 as [<-|H3]; [discriminate|exact H3]. }
    assert (C : c_str (c :: s) = c :: s).
    { clear - K. induction (c :: s) as [|x l IH]; cbn [c_str]; auto. destruct (K x (or_introl eq_refl)) as [_ Nx].
      rewrite (proj2 (Ascii.eqb_neq x zero) Nx). f_equal. apply IH. intros y Hy. apply K. right; auto. }
    rewrite C. destruct (atoi (c :: s)) eqn:E; cbn [bind]; eauto; exfalso.
    + apply atoi_throws in E. destruct E as (x & Hx & N1 & N2). destruct (K x Hx) as [K1 _].
      change (lit "0123456789+-") with (map ascii_of_nat (seq 48 10) ++ lit "+-") in K1. apply in_app_iff in K1. destruct K1; auto.
    + unfold atoi in E. destruct (atoi_check (c :: s)); discriminate.
    + unfold atoi in E. destruct (atoi_check (c :: s)); discriminate.
Qed.

(** ** Labels made for repeated labels *)
Lemma pnat_digits i : print_nat i <> [] /\ (forall c, In c (print_nat i) -> is_digit c) /\ atoi_digits (print_nat i) 0 = Z.of_nat i.
Proof.
  unfold print_nat, print_Z. destruct (Z.ltb_spec (Z.of_nat i) 0); [lia|]. apply digits_of_ok. lia.
Qed.
Definition key (l : str) (i : nat) : str := match i with O => l | _ => l ++ at_ :: print_nat i end.
Lemma print_nat_at i : ~ In at_ (print_nat i) /\ forall c, In c (print_nat i) -> c <> zero.
Proof.
  destruct (pnat_digits i) as (_ & D & _). split.
  - intros H. apply D in H. apply isdigit_In in H. discriminate.
  - intros c H ->. apply D in H. apply isdigit_In in H. discriminate.
Qed.
Lemma c_str_id s : (forall c, In c s -> c <> zero) -> c_str s = s.
Proof.
  induction s as [|x s IH]; cbn [c_str]; auto. intros H. rewrite (proj2 (Ascii.eqb_neq x zero)) by (apply H; left; auto).
  f_equal. apply IH. intros c Hc. apply H. right; auto.
Qed.
Lemma key_root l i : ~ In at_ l -> findRootLabel (key l i) = l.
Proof. intros H. destruct i; [apply root_none; auto|apply root_at; auto]. Qed.
Lemma print_nat_atoi i : atoi (c_str (print_nat i)) = Ok (Z.of_nat i).
Proof.
  destruct (pnat_digits i) as (E & D & _). rewrite c_str_id by apply print_nat_at.
  rewrite atoi_nat by auto. f_equal. destruct (pnat_digits i) as (_ & _ & A). rewrite atoi_digits_spec in A by auto. lia.
Qed.
Lemma filter_noat s : ~ In at_ s -> filter noat s = s.
Proof.
  induction s as [|c s IH]; intros H; cbn [filter]; auto. unfold noat at 1. rewrite at_eqb by (intros ->; apply H; left; auto).
  cbn [negb]. f_equal. apply IH. intros X. apply H. right; auto.
Qed.
Lemma key_split l i : ~ In at_ l -> (Z.of_nat i < 18446744073709551616)%Z -> mysplit (key l i) = Ok (l, Z.of_nat i).
Proof.
  intros H L. destruct i as [|i]; [apply mysplit_plain; auto|]. cbn [key]. rewrite mysplit_at by auto.
  rewrite filter_noat by apply print_nat_at. pose proof (print_nat_atoi (S i)) as A. destruct (print_nat (S i)) eqn:E.
  - destruct (pnat_digits (S i)). contradiction.
  - rewrite A. cbn [bind]. rewrite Z.mod_small by lia. auto.
Qed.
Definition krank (l : str) (i : nat) : bool * str * Z :=
  match i with O => (false, l, 0%Z) | _ => (true, l ++ [at_], Z.of_nat i) end.
Lemma key_rank l i : ~ In at_ l -> rank (key l i) (Z.of_nat i) = krank l i.
Proof.
  intros H. unfold rank. destruct i; [reflexivity|]. destruct (Z.eqb_spec (Z.of_nat (S i)) 0); [lia|].
  rewrite key_root by auto. reflexivity.
Qed.
Lemma krank_lt l i j : (i < j)%nat -> rank_ltb (krank l i) (krank l j) = true.
Proof.
  intros H. destruct j; [lia|]. destruct i; [reflexivity|]. unfold krank, rank_ltb. cbn [negb andb]. rewrite str_ltb_irrefl. apply Z.ltb_lt. lia.
Qed.
Lemma krank_inj l i l' j : krank l i = krank l' j -> l = l' /\ i = j.
Proof.
  destruct i, j; intros H; inversion H; auto. apply app_inj_tail in H1. split; [apply H1|lia].
Qed.

(** ** Maps of labels *)
Section Maps.
  Context {V : Type}.
  Implicit Types (m : list (str * V)) (E : list (str * V)).

  (** The rank of a key, when it can be compared. *)
  Definition ranked (k : str) (r : bool * str * Z) : Prop := exists f n, mysplit k = Ok (f, n) /\ r = rank k n.
  Lemma ranked_compare k k' r r' : ranked k r -> ranked k' r' -> mycompare k k' = Ok (rank_ltb r r').
  Proof. intros (f & n & A & ->) (f' & n' & A' & ->). eapply compare_rank; eauto. Qed.
  Lemma key_ranked l i : ~ In at_ l -> (Z.of_nat i < 18446744073709551616)%Z -> ranked (key l i) (krank l i).
  Proof. intros H L. exists l, (Z.of_nat i). split; [apply key_split; auto|]. rewrite key_rank; auto. Qed.

  Fixpoint sorted_above (lo : option (bool * str * Z)) m : Prop :=
    match m with
    | [] => True
    | e :: m' => exists r, ranked (fst e) r /\ match lo with None => True | Some q => rank_ltb q r = true end /\ sorted_above (Some r) m'
    end.
  Lemma sorted_weaken lo m : sorted_above lo m -> sorted_above None m.
  Proof. destruct m; auto. intros (r & A & B & C). exists r. auto. Qed.
  Lemma sorted_in q m e r : sorted_above (Some q) m -> In e m -> ranked (fst e) r -> rank_ltb q r = true.
  Proof.
    revert q. induction m as [|a m IH]; intros q S H Hr; [destruct H|]. destruct S as (r1 & A & B & C). destruct H as [<-|H].
    - destruct A as (f & n & A & ->), Hr as (f' & n' & A' & ->). rewrite A in A'. inversion A'. subst. auto.
    - eapply rank_trans; eauto.
  Qed.

  Lemma map_put_new m k v r : ranked k r -> (forall e r', In e m -> ranked (fst e) r' -> r' <> r) ->
    forall lo, sorted_above lo m -> match lo with None => True | Some q => rank_ltb q r = true end ->
    exists m1 m2, m = m1 ++ m2 /\ map_put m k v = Ok (m1 ++ (k, v) :: m2) /\ sorted_above lo (m1 ++ (k, v) :: m2) /\
      forall e r', In e m2 -> ranked (fst e) r' -> rank_ltb r r' = true.
  Proof.
    intros Hk. induction m as [|[k' v'] m IH]; intros N lo S L.
    - exists [], []. split; auto. split; [reflexivity|]. split; [|intros e r' []]. exists r. cbn [fst sorted_above]. auto.
    - destruct S as (r' & A & B & C). cbn [fst] in A. cbn [map_put]. rewrite (ranked_compare k' k r' r) by auto. cbn [bind].
      destruct (rank_ltb r' r) eqn:E.
      + destruct (IH (fun e q H => N e q (or_intror H)) (Some r') C E) as (m1 & m2 & -> & P & S' & G).
        rewrite P. cbn [bind]. exists ((k', v') :: m1), m2. split; auto. split; [reflexivity|]. split; auto.
        cbn [app sorted_above fst]. exists r'. auto.
      + rewrite (ranked_compare k k' r r') by auto. cbn [bind].
        assert (G : rank_ltb r r' = true).
        { destruct (rank_ltb r r') eqn:F; auto. exfalso. apply (N (k', v') r'); [left; auto|auto|]. apply rank_total; auto. }
        rewrite G. exists [], ((k', v') :: m). split; auto. split; [reflexivity|]. split.
        * cbn [app sorted_above fst]. exists r. split; auto. split; auto. exists r'. auto.
        * intros e q [<-|H] Hq.
          -- destruct Hq as (f & n & Q & ->), A as (f' & n' & A & ->). cbn [fst] in Q. rewrite A in Q. inversion Q. subst. auto.
          -- eapply rank_trans; [exact G|]. eapply sorted_in; eauto.
  Qed.

  Definition part (l : str) m : list (str * V) := filter (fun e => str_eqb l (findRootLabel (fst e))) m.
  Definition keyed (l : str) (vs : list V) : list (str * V) := combine (map (key l) (seq 0 (List.length vs))) vs.
  Lemma keyed_snoc l vs v : keyed l (vs ++ [v]) = keyed l vs ++ [(key l (List.length vs), v)].
  Proof.
    unfold keyed. rewrite app_length. cbn [List.length]. rewrite Nat.add_1_r, seq_S, map_app. cbn [map Nat.add].
    assert (G : forall (a : list str) b (c : list V) d, List.length a = List.length c -> combine (a ++ [b]) (c ++ [d]) = combine a c ++ [(b, d)]).
    { induction a as [|x a IH]; intros b [|y c] d H; try discriminate; auto. cbn [app combine]. rewrite IH; auto. }
    apply G. rewrite map_length, seq_length. auto.
  Qed.
  Lemma keyed_in l vs e : In e (keyed l vs) -> exists i, (i < List.length vs)%nat /\ fst e = key l i.
  Proof.
    unfold keyed. destruct e as [k v]. intros H. apply in_combine_l in H. apply in_map_iff in H. destruct H as (i & <- & Hi).
    apply in_seq in Hi. exists i. split; [lia|auto].
  Qed.
  Lemma part_app l m1 m2 : part l (m1 ++ m2) = part l m1 ++ part l m2.
  Proof. apply filter_app. Qed.
  Lemma last_occurrence l m : findLastOccurrence l m = (Z.of_nat (List.length (part l m)) - 1)%Z.
  Proof.
    unfold findLastOccurrence. assert (G : forall x, fold_left (fun x e => if str_eqb l (findRootLabel (fst e)) then (x + 1)%Z else x) m x
      = (x + Z.of_nat (List.length (part l m)))%Z); [|rewrite G; lia].
    induction m as [|e m IH]; intros x; cbn [fold_left part filter]; [simpl; lia|].
    rewrite IH. fold (part l m). destruct (str_eqb l (findRootLabel (fst e))); cbn [List.length]; lia.
  Qed.
  Lemma values_snoc l E l' v : values_of l (E ++ [(l', v)]) = if str_eqb l l' then values_of l E ++ [v] else values_of l E.
  Proof.
    unfold values_of. rewrite filter_app, map_app. cbn [filter fst]. destruct (str_eqb l l'); cbn [map snd]; auto. apply app_nil_r.
  Qed.
  Lemma values_len l E : (List.length (values_of l E) <= List.length E)%nat.
  Proof.
    unfold values_of. rewrite map_length. induction E as [|e E IH]; cbn [filter List.length]; auto.
    destruct (str_eqb l (fst e)); cbn [List.length]; lia.
  Qed.

  (** The map and the labels to remove after the entries [E]. *)
  Record Rep E m : Prop := {
    rep_sorted : sorted_above None m;
    rep_part : forall l, part l m = keyed l (values_of l E);
    rep_noat : forall e, In e E -> ~ In at_ (fst e)
  }.
  Lemma rep_nil : Rep [] [].
  Proof. constructor; simpl; auto. Qed.
  Lemma rep_put E m l v rem : Rep E m -> ~ In at_ l -> (Z.of_nat (List.length E) < 18446744073709551615)%Z ->
    exists m' k, adjLabelForDuplicates l m rem = (k, rem ++ (if (List.length (values_of l E) =? 0)%nat then [] else [l])) /\
      k = key l (List.length (values_of l E)) /\ map_put m k v = Ok m' /\ Rep (E ++ [(l, v)]) m'.
  Proof.
    intros [So P N] Hl L. pose proof (values_len l E) as LV. set (n := List.length (values_of l E)) in *.
    assert (Hk : ranked (key l n) (krank l n)) by (apply key_ranked; auto; lia).
    assert (Ap : adjLabelForDuplicates l m rem = (key l n, rem ++ (if (n =? 0)%nat then [] else [l]))).
    { unfold adjLabelForDuplicates. rewrite root_none by auto. rewrite last_occurrence, P.
      replace (List.length (keyed l (values_of l E))) with n by (unfold keyed; rewrite combine_length, map_length, seq_length; fold n; lia).
      destruct n as [|n'] eqn:En.
      - cbn [Z.of_nat]. change (0 - 1 <? 0)%Z with true. cbn [Nat.eqb]. rewrite app_nil_r. reflexivity.
      - destruct (Z.ltb_spec (Z.of_nat (S n') - 1) 0); [lia|]. cbn [Nat.eqb key]. f_equal. f_equal.
        unfold print_nat. cbn [app]. f_equal. f_equal. lia. }
    assert (Bd : forall e, In e m -> exists l' i, ~ In at_ l' /\ fst e = key l' i /\ (Z.of_nat i < 18446744073709551616)%Z /\ (i < List.length (values_of l' E))%nat).
    { intros e He. assert (He' : In e (part (findRootLabel (fst e)) m)) by (apply filter_In; split; auto; apply str_eqb_refl).
      rewrite P in He'. apply keyed_in in He'. destruct He' as (i & Hi & Ke). exists (findRootLabel (fst e)), i.
      pose proof (values_len (findRootLabel (fst e)) E). split; [apply root_noat|]. split; auto. split; [lia|auto]. }
    assert (Uq : forall k r r', ranked k r -> ranked k r' -> r = r').
    { intros k r r' (f & a & A & ->) (f' & a' & A' & ->). rewrite A in A'. inversion A'. auto. }
    destruct (map_put_new m (key l n) v (krank l n) Hk) with (lo := @None (bool * str * Z)) as (m1 & m2 & Em & Pu & Sm & G); auto.
    { intros e r' He Hr Er. destruct (Bd e He) as (l' & i & Nl & Ke & Li & Ln). subst r'.
      rewrite Ke in Hr. pose proof (Uq _ _ _ Hr (key_ranked l' i Nl Li)) as X. apply krank_inj in X. destruct X as [X1 X2]. subst l' i. unfold n in Ln. lia. }
    exists (m1 ++ (key l n, v) :: m2), (key l n). split; auto. split; auto. split; auto. constructor; auto.
    - intros l'. rewrite part_app. change ((key l n, v) :: m2) with ([(key l n, v)] ++ m2). rewrite part_app.
      assert (P' : part l' m1 ++ part l' m2 = keyed l' (values_of l' E)) by (rewrite <- part_app, <- Em; auto).
      rewrite values_snoc. unfold part at 2. cbn [filter fst]. rewrite key_root by auto. destruct (str_eqb l' l) eqn:El.
      + apply str_eqb_eq in El. subst l'. rewrite keyed_snoc. fold n.
        assert (X : part l m2 = []).
        { destruct (part l m2) as [|e t] eqn:Ep; auto. exfalso.
          assert (He : In e (part l m2)) by (rewrite Ep; left; auto). apply filter_In in He. destruct He as [He1 He2]. apply str_eqb_eq in He2.
          destruct (Bd e) as (l' & i & Nl & Ke & Li & Ln); [rewrite Em; apply in_or_app; auto|].
          rewrite Ke, key_root in He2 by auto. subst l'. pose proof (key_ranked l i Nl Li) as Hr. rewrite <- Ke in Hr.
          pose proof (G e _ He1 Hr) as X1. rewrite (rank_asym _ _ (krank_lt l i n Ln)) in X1. discriminate. }
        rewrite X in *. rewrite app_nil_r in P'. rewrite P'. auto.
      + cbn [app]. auto.
    - intros e He. apply in_app_iff in He. destruct He as [He|[<-|[]]]; auto.
  Qed.
End Maps.
