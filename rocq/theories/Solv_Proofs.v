From Coq Require Import Ascii String.
From Verif Require Import Prelude Ring Str_Model Str_Spec Str_Proofs Text_Model Input_Model Input_Spec Input_Proofs Input_Read Solv_Model Solv_Spec.
Import List.

Section Reader.
  Context {V : Type}.
  Variables (rd : reader V) (conv : str -> option V).

  Definition good_reader : Prop := forall q r l l1, RInv q r -> asked l l1 ->
    match left_t q l with
    | [] => rd r l1 = Throw
    | v :: _ => match conv v with
                | Some x => exists r', rd r l1 = Ok (x, r') /\ RInv (mkrest (take (left_t q) l) (left_v q)) r'
                | None => rd r l1 = Throw
                end
    end.
  Hypothesis G : good_reader.

  (** The labels and their values stay as in the file if each label occurs once. *)
  Variable q : rest.
  Hypothesis once : forall l, List.length (left_t q l) <= 1.
  Definition same (r : rst) : Prop := exists q', RInv q' r /\ forall l, left_t q' l = left_t q l.

  Fixpoint first_of (cands : list str) (t : V) : V :=
    match cands with
    | [] => t
    | l :: cands =>
      match left_t q l with
      | v :: _ => match conv v with Some x => x | None => first_of cands t end
      | [] => first_of cands t
      end
    end.

  Lemma try_ok r l k : same r -> l <> [] -> ~ In "="%char l ->
    (exists x r', try_read rd r (l ++ eqc) k = Ok (x, r') /\ same r' /\ (exists v t, left_t q l = v :: t /\ conv v = Some x)) \/
    (try_read rd r (l ++ eqc) k = k /\ (left_t q l = [] \/ exists v t, left_t q l = v :: t /\ conv v = None)).
  Proof.
    intros (q' & I & E) L1 L2. assert (A : asked l (l ++ eqc)) by (split; auto; split; auto).
    pose proof (G q' r l _ I A) as H. rewrite E in H. unfold try_read. destruct (left_t q l) as [|v t] eqn:El.
    - right. rewrite H. auto.
    - destruct (conv v) as [x|] eqn:Ec.
      + destruct H as (r' & H & I'). left. exists x, r'. rewrite H. split; [reflexivity|]. split; [|eauto]. eexists. split; [exact I'|].
        intros l'. cbn [left_t]. unfold take. destruct (str_eqb l l') eqn:K; [|apply E]. apply str_eqb_eq in K. subst l'. rewrite E, El.
        pose proof (once l) as O. rewrite El in O. destruct t; [reflexivity|cbn in O; lia].
      + right. rewrite H. split; [reflexivity|]. right. exists v, t. auto.
  Qed.

  Variables (prefix postfix : str).
  Hypothesis P1 : ~ In "="%char prefix.
  Hypothesis P2 : ~ In "="%char postfix.
  Hypothesis P3 : postfix <> [].

  Lemma plain_label : prefix ++ postfix <> [] /\ ~ In "="%char (prefix ++ postfix).
  Proof. split; [destruct prefix, postfix; try discriminate; congruence|]. rewrite in_app_iff. tauto. Qed.
  Lemma indexed_label j : prefix ++ print_nat j ++ postfix <> [] /\ ~ In "="%char (prefix ++ print_nat j ++ postfix).
  Proof.
    destruct (pnat_digits j) as (N & D & _). split.
    - destruct prefix; [|discriminate]. destruct (print_nat j); [congruence|discriminate].
    - rewrite !in_app_iff. intros [K|[K|K]]; [auto| |auto]. apply D in K. apply isdigit_In in K. discriminate.
  Qed.

  Lemma hare_ok t r : same r -> exists r', hare rd t prefix postfix r = Ok (first_of [prefix ++ postfix] t, r') /\ same r'.
  Proof.
    intros S0. destruct plain_label as [L1 L2]. unfold hare. replace (prefix ++ postfix ++ eqc) with ((prefix ++ postfix) ++ eqc) by (rewrite <- app_assoc; reflexivity).
    cbn [first_of]. destruct (try_ok r (prefix ++ postfix) (Ok (t, r)) S0 L1 L2) as [(x & r' & E & S' & v & u & El & Ec)|(E & [El|(v & u & El & Ec)])]; rewrite E, El, ?Ec; eauto.
  Qed.

  Lemma bunnie_loop_ok t ind r : same r -> forall n i, n + i = ind ->
    exists r', bunnie_loop rd t prefix ind postfix r n i = Ok (first_of (map (fun j => prefix ++ print_nat j ++ postfix) (rev (seq 0 n)) ++ [prefix ++ postfix]) t, r') /\ same r'.
  Proof.
    intros S0 n. induction n as [|n IH]; intros i Hi.
    - cbn [bunnie_loop seq rev map app]. apply hare_ok. auto.
    - cbn [bunnie_loop]. replace (ind - i - 1) with n by lia. rewrite seq_S, rev_app_distr. cbn [rev app map Nat.add].
      destruct (indexed_label n) as [L1 L2].
      replace (prefix ++ print_nat n ++ postfix ++ eqc) with ((prefix ++ print_nat n ++ postfix) ++ eqc) by (rewrite <- !app_assoc; reflexivity).
      cbn [first_of]. destruct (IH (S i) ltac:(lia)) as (r2 & E2 & S2).
      destruct (try_ok r (prefix ++ print_nat n ++ postfix) (bunnie_loop rd t prefix ind postfix r n (S i)) S0 L1 L2) as [(x & r' & E & S' & v & u & El & Ec)|(E & [El|(v & u & El & Ec)])]; rewrite E, El, ?Ec; eauto.
  Qed.

  Definition cands (ind : Z) : list str :=
    map (fun j => prefix ++ print_nat j ++ postfix) (rev (seq 0 (Z.to_nat (ind + 1)))) ++ [prefix ++ postfix].

  Lemma rabbit_ok t ind r : same r -> exists r', rabbitHole rd t prefix ind postfix r = Ok (first_of (cands ind) t, r') /\ same r'.
  Proof.
    intros S0. unfold rabbitHole, cands. destruct (Z.leb_spec 0 ind).
    - unfold bunnie. replace (Z.to_nat (ind + 1)) with (S (Z.to_nat ind)) by lia. rewrite seq_S, rev_app_distr. cbn [rev app map Nat.add].
      destruct (indexed_label (Z.to_nat ind)) as [L1 L2].
      replace (prefix ++ print_nat (Z.to_nat ind) ++ postfix ++ eqc) with ((prefix ++ print_nat (Z.to_nat ind) ++ postfix) ++ eqc) by (rewrite <- !app_assoc; reflexivity).
      destruct (bunnie_loop_ok t (Z.to_nat ind) r S0 (Z.to_nat ind) 0 ltac:(lia)) as (r2 & E2 & S2). cbn [first_of].
      destruct (try_ok r (prefix ++ print_nat (Z.to_nat ind) ++ postfix) (bunnie_loop rd t prefix (Z.to_nat ind) postfix r (Z.to_nat ind) 0) S0 L1 L2) as [(x & r' & E & S' & v & u & El & Ec)|(E & [El|(v & u & El & Ec)])]; rewrite E, El, ?Ec; eauto.
    - replace (Z.to_nat (ind + 1)) with 0 by lia. cbn [seq rev map app]. apply hare_ok. auto.
  Qed.
End Reader.

(** The choice, as specified. *)
Section Choice.
  Context {V : Type}.
  Variables (conv : str -> option V) (ok : str -> V -> Prop) (bad : str -> Prop) (f : list item) (prefix postfix : str).
  Hypothesis C1 : forall v x, ok v x -> conv v = Some x.
  Hypothesis C2 : forall v, bad v -> conv v = None.

  Lemma first_skip a c t : (forall l, In l a -> lacks f bad l) -> first_of conv (start f) (a ++ c) t = first_of conv (start f) c t.
  Proof.
    induction a as [|l a IH]; intros H; [reflexivity|]. cbn [app first_of start left_t]. pose proof (H l (or_introl eq_refl)) as L. unfold lacks in L.
    destruct (texts f l) as [|v u] eqn:E; [|rewrite (C2 v (L v u eq_refl))]; apply IH; intros; apply H; right; auto.
  Qed.
  Lemma first_has l c x t : has f V ok l x -> first_of conv (start f) (l :: c) t = x.
  Proof. intros (v & u & E & O). cbn [first_of start left_t]. rewrite E, (C1 v x O). reflexivity. Qed.

  Lemma picks_first ind t x : picks f V ok bad prefix ind postfix t x -> first_of conv (start f) (cands prefix postfix ind) t = x.
  Proof.
    assert (A : forall l, (forall k, (Z.of_nat k <= ind)%Z -> lacks f bad (prefix ++ print_nat k ++ postfix)) -> In l (map (fun j => prefix ++ print_nat j ++ postfix) (rev (seq 0 (Z.to_nat (ind + 1))))) -> lacks f bad l).
    { intros l H K. apply in_map_iff in K. destruct K as (k & <- & K). apply in_rev, in_seq in K. apply H. lia. }
    unfold cands. intros [(j & Hj & Hh & Hk)|[(Hk & Hh)|(Hk & Hl & ->)]].
    - assert (E : exists a b, rev (seq 0 (Z.to_nat (ind + 1))) = a ++ j :: b /\ forall k, In k a -> j < k /\ (Z.of_nat k <= ind)%Z).
      { assert (E0 : seq 0 (Z.to_nat (ind + 1)) = seq 0 j ++ j :: seq (S j) (Z.to_nat (ind + 1) - S j)).
        { rewrite <- (seq_app j (S (Z.to_nat (ind + 1) - S j)) 0) at 1. cbn. f_equal. lia. }
        exists (rev (seq (S j) (Z.to_nat (ind + 1) - S j))), (rev (seq 0 j)). split.
        - rewrite E0, rev_app_distr. cbn [rev]. rewrite <- app_assoc. reflexivity.
        - intros k K. apply in_rev, in_seq in K. lia. }
      destruct E as (a & b & E & Ha). rewrite E, map_app, <- app_assoc. rewrite first_skip.
      + cbn [map app]. apply first_has. exact Hh.
      + intros l K. apply in_map_iff in K. destruct K as (k & <- & K). apply Hk; apply Ha; auto.
    - rewrite first_skip by eauto. apply first_has. exact Hh.
    - rewrite first_skip by eauto. rewrite <- (app_nil_r [prefix ++ postfix]). rewrite first_skip; [reflexivity|]. intros l [<-|[]]. exact Hl.
  Qed.
End Choice.

(** Every readline reads the text and converts it. *)
Definition conv_int (v : str) : option Z := match atoi v with Ok n => Some n | _ => None end.
Definition conv_size (v : str) : option Z := match atoi v with Ok n => Some (n mod 18446744073709551616)%Z | _ => None end.
Definition conv_text (v : str) : option str := Some v.

Lemma atoi_cases v : (exists n, atoi v = Ok n) \/ atoi v = Throw.
Proof. unfold atoi. destruct (atoi_check v); eauto. Qed.

Lemma good_text : good_reader readline_text conv_text.
Proof. intros q r l l1 I A. pose proof (read_text q r l l1 I A) as H. unfold readline_text, conv_text. destruct (left_t q l); exact H. Qed.

Lemma good_int : good_reader readline_int conv_int.
Proof.
  intros q r l l1 I A. pose proof (read_text q r l l1 I A) as H. unfold conv_int. destruct (left_t q l) as [|v t] eqn:E.
  - unfold readline in H. unfold readline_int. destruct (label2label l1) as [l2| | |]; cbn [bind] in *; try discriminate; auto.
    destruct (findFirstValueForLabel l2 (r_ss r)); [|reflexivity]. destruct (vget (r_ss r) n) as [[k w]| | |]; cbn [bind] in *; try discriminate.
    + destruct (cleanLabelsIfNeeded l2 (r_ss r) n (r_rem r) false) as [[m rem]| | |] eqn:Ec; cbn [bind] in *; try discriminate. unfold cleanLabelsIfNeeded in Ec. destruct (find_idx _ _); discriminate.
    + reflexivity.
  - destruct H as (r' & H & I'). assert (Cv : clean_str v) by (destruct I as [_ _ _ _ Ct _]; apply (Ct l); rewrite E; left; auto).
    unfold readline in H. unfold readline_int. destruct (label2label l1) as [l2| | |]; cbn [bind] in *; try discriminate.
    destruct (findFirstValueForLabel l2 (r_ss r)); [|discriminate]. destruct (vget (r_ss r) n) as [[k w]| | |]; cbn [bind] in *; try discriminate.
    destruct (cleanLabelsIfNeeded l2 (r_ss r) n (r_rem r) false) as [[m rem]| | |]; cbn [bind] in *; try discriminate.
    apply Ok_inj in H. injection H as Hw Hr. rewrite Hw. destruct (atoi_cases v) as [[z Ez]|Ez]; rewrite Ez; cbn [bind]; [|reflexivity]. exists r'. rewrite <- Hr. split; [reflexivity|]. rewrite Hr. exact I'.
Qed.

Lemma good_size : good_reader readline_size conv_size.
Proof.
  intros q r l l1 I A. pose proof (good_int q r l l1 I A) as H. unfold readline_size, conv_size. unfold conv_int in H. destruct (left_t q l) as [|v t]; [rewrite H; reflexivity|].
  destruct (atoi_cases v) as [[z Ez]|Ez]; rewrite Ez in *.
  - destruct H as (r' & H & I'). rewrite H. cbn [bind]. eauto.
  - rewrite H. reflexivity.
Qed.

Section Real.
  Variable R : cring.
  Variable std_atof : str -> R.
  Definition conv_real (v : str) : option R := if isAfloat v then Some (std_atof v) else None.
  Lemma good_real : good_reader (readline_real R std_atof) conv_real.
  Proof.
    intros q r l l1 I A. pose proof (read_text q r l l1 I A) as H. unfold conv_real. destruct (left_t q l) as [|v t] eqn:E.
    - unfold readline in H. unfold readline_real. destruct (label2label l1) as [l2| | |]; cbn [bind] in *; try discriminate; auto.
      destruct (findFirstValueForLabel l2 (r_ss r)); [|reflexivity]. destruct (vget (r_ss r) n) as [[k w]| | |]; cbn [bind] in *; try discriminate.
      + destruct (cleanLabelsIfNeeded l2 (r_ss r) n (r_rem r) false) as [[m rem]| | |] eqn:Ec; cbn [bind] in *; try discriminate. unfold cleanLabelsIfNeeded in Ec. destruct (find_idx _ _); discriminate.
      + reflexivity.
    - destruct H as (r' & H & I').
      unfold readline in H. unfold readline_real. destruct (label2label l1) as [l2| | |]; cbn [bind] in *; try discriminate.
      destruct (findFirstValueForLabel l2 (r_ss r)); [|discriminate]. destruct (vget (r_ss r) n) as [[k w]| | |]; cbn [bind] in *; try discriminate.
      destruct (cleanLabelsIfNeeded l2 (r_ss r) n (r_rem r) false) as [[m rem]| | |]; cbn [bind] in *; try discriminate.
      apply Ok_inj in H. injection H as Hw Hr. rewrite Hw. unfold atof. destruct (isAfloat v); cbn [bind]; [|reflexivity]. exists r'. rewrite <- Hr. split; [reflexivity|]. rewrite Hr. exact I'.
  Qed.
End Real.
