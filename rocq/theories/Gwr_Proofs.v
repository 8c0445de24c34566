(** Proofs about values that are written together under a label. *)
From Coq Require Import ZArith Ascii String Eqdep_dec.
From Verif Require Import Prelude Ring Str_Model Str_Spec Text_Model Text_Spec Text_Proofs Dense_Model Ng_Model Ng_Spec Ng_Proofs Ng_Comp Ng_Store Ng_Props Ngs_Props Appi_Props Gwr_Model Gwr_Spec.
Import List.

Definition okname (c : str) : Prop := c <> [] /\ c <> lit "." /\ ~ In slash c /\ forall p, c <> p ++ tag.
Definition tail_name (q : str) : Prop := q = [] \/ exists q', q = slash :: q'.

Lemma okname_good n c : good_name n -> okname c -> good_name (n ++ slash :: c).
Proof.
  intros G (A & B & C & D). apply good_child; auto. intros p E. symmetry in E.
  destruct (split_slash p (lit "ComplexOrReal") n c E tag_noslash) as (e & ->). rewrite <- app_assoc in E. cbn [app] in E. apply app_inv_head in E.
  injection E as E. apply (D e). rewrite <- E. reflexivity.
Qed.
Lemma okname_lit w : okc (lit w) = true -> nth 0 (rev (lit w)) "l"%char <> "l"%char -> okname (lit w).
Proof.
  intros A B. apply okc_ok in A. destruct A as (A1 & A2 & A3). split; [exact A1|]. split; [exact A2|]. split; [exact A3|].
  intros p E. apply B. rewrite E. rewrite rev_app_distr. reflexivity.
Qed.
Lemma okname_nat i : okname (print_nat i).
Proof.
  split; [apply pn_digits|]. split; [|split; [apply pn_noslash|apply pn_notag]].
  intros E. destruct (pn_digits i) as (_ & D & _). rewrite E in D. specialize (D "."%char (or_introl eq_refl)). revert D. unfold is_digit. vm_compute.
  intros H. repeat (destruct H as [H|H]; try discriminate H); try contradiction; intuition lia.
Qed.
Lemma heads (c c' q q' : str) : ~ In slash c -> ~ In slash c' -> tail_name q -> tail_name q' -> c ++ q = c' ++ q' -> c = c'.
Proof.
  revert c'. induction c as [|a c IH]; intros [|b c'] N N' T T' E; cbn [app] in E.
  - reflexivity.
  - exfalso. apply N'. destruct T as [->|(r & ->)]; [discriminate E|]. injection E as -> _. left. reflexivity.
  - exfalso. apply N. destruct T' as [->|(r & ->)]; [discriminate E|]. injection E as -> _. left. reflexivity.
  - injection E as -> E. f_equal. apply IH; auto; intros H; [apply N|apply N']; right; exact H.
Qed.
Lemma under_tail label n : under label n <-> exists q, tail_name q /\ n = label ++ q.
Proof.
  split.
  - intros [->|(r & ->)]; [exists []; rewrite app_nil_r; split; [left; reflexivity|reflexivity]|exists (slash :: r); split; [right; exists r; reflexivity|reflexivity]].
  - intros (q & [->|(r & ->)] & ->); [left; apply app_nil_r|right; exists r; reflexivity].
Qed.
Lemma under_up label c n : under (label ++ slash :: c) n -> under label n.
Proof. intros [->|(r & ->)]; right; [exists c; reflexivity|exists (c ++ slash :: r); rewrite <- app_assoc; reflexivity]. Qed.
Lemma under_sib label c c' n : ~ In slash c -> ~ In slash c' -> under (label ++ slash :: c) n -> under (label ++ slash :: c') n -> c = c'.
Proof.
  rewrite !under_tail. intros N N' (q & T & ->) (q' & T' & E). rewrite <- !app_assoc in E. cbn [app] in E. apply app_inv_head in E. injection E as E.
  exact (heads c c' q q' N N' T T' E).
Qed.
Lemma under_self label c : ~ under (label ++ slash :: c) label.
Proof. intros [E|(r & E)]; [revert E; apply snoc_ne|]. rewrite <- app_assoc in E. revert E. apply snoc_ne. Qed.

Section P.
  Variable R : cring.
  (** values relative to a label: a group, a value, or nothing *)
  Inductive rel := RG (p : str) | RV (p : str) (k : kind) (x : ty R k) | RN (p : str).
  Definition pre (c : str) (r : rel) : rel :=
    match r with RG p => RG (slash :: c ++ p) | RV p k x => RV (slash :: c ++ p) k x | RN p => RN (slash :: c ++ p) end.
  Definition path (r : rel) : str := match r with RG p => p | RV p _ _ => p | RN p => p end.
  Definition at1 (label : str) (r : rel) : list (step R) :=
    match r with RG p => [SGroup (label ++ p)] | RV p k x => [SWrite (label ++ p) k x] | RN _ => [] end.
  Definition at_ (label : str) (l : list rel) : list (step R) := flat_map (at1 label) l.
  Definition dir_ (l : list (str * list rel)) : list rel := flat_map (fun '(c, r) => map (pre c) r) l.

  Inductive node : list rel -> Prop :=
  | node_none : node [RN []]
  | node_leaf k x : storable R k x -> node [RV [] k x]
  | node_dir l : NoDup (map fst l) -> (forall c r, In (c, r) l -> okname c) -> (forall c r, In (c, r) l -> node r) -> node (RG [] :: dir_ l).

  Lemma at_app label l1 l2 : at_ label (l1 ++ l2) = at_ label l1 ++ at_ label l2.
  Proof. apply flat_map_app. Qed.
  Lemma at_pre label c r : at_ label (map (pre c) r) = at_ (label ++ slash :: c) r.
  Proof.
    induction r as [|a r IH]; [reflexivity|]. cbn [map at_ flat_map]. unfold at_ in IH. rewrite IH. f_equal.
    destruct a; cbn [pre at1]; rewrite <- ?app_assoc; reflexivity.
  Qed.

  (** what holds after the values were written *)
  Definition done (label : str) (r : list rel) (st' : store R) : Prop :=
    (forall p, In (RG p) r -> st' (label ++ p) = Some EGroup) /\
    (forall p k x, In (RV p k x) r -> st' (label ++ p) = Some (EVal k x)) /\
    (forall p, In (RN p) r -> st' (label ++ p) = None /\ good_name (label ++ p) /\ inside R st' (label ++ p)).
  Definition writes (label : str) (r : list rel) (st : store R) : Prop :=
    propers R st (at_ label r) /\ (forall n, ~ under label n -> want_steps R st (at_ label r) n = st n) /\ done label r (want_steps R st (at_ label r)) /\
    (forall p, In p (map path r) -> under label (label ++ p)).

  Lemma want_app st l1 l2 : want_steps R st (l1 ++ l2) = want_steps R (want_steps R st l1) l2.
  Proof. apply fold_left_app. Qed.
  Lemma propers_app2 l1 l2 st : propers R st l1 -> propers R (want_steps R st l1) l2 -> propers R st (l1 ++ l2).
  Proof. revert st. induction l1 as [|s l1 IH]; intros st P Q; [exact Q|]. destruct P as [P1 P]. split; [exact P1|]. apply IH; assumption. Qed.
  Lemma inside_keep st l n : propers R st l -> inside R st n -> inside R (want_steps R st l) n.
  Proof. intros P [H|(g & c & E & H & S)]; [left; exact H|right; exists g, c; split; [exact E|split; [exact H|]]]. apply (Appi_Props.want_group R); assumption. Qed.

  Lemma writes_dir label : good_name label -> forall l, NoDup (map fst l) -> (forall c r, In (c, r) l -> okname c) ->
    (forall c r, In (c, r) l -> forall label st, good_name label -> inside R st label -> (forall n, under label n -> st n = None) -> writes label r st) ->
    forall st, st label = Some EGroup -> (forall c r, In (c, r) l -> forall n, under (label ++ slash :: c) n -> st n = None) ->
    propers R st (at_ label (dir_ l)) /\
    (forall n, (forall c r, In (c, r) l -> ~ under (label ++ slash :: c) n) -> want_steps R st (at_ label (dir_ l)) n = st n) /\
    done label (dir_ l) (want_steps R st (at_ label (dir_ l))) /\ (forall p, In p (map path (dir_ l)) -> under label (label ++ p)).
  Proof.
    intros G. induction l as [|(c, r) l IH]; intros ND Ok_ W st Sg Sn.
    { split; [exact I|]. split; [intros n _; reflexivity|]. split; [|intros p []]. split; [intros p []|split; [intros p k x []|intros p []]]. }
    cbn [map fst] in ND. inversion ND as [|? ? Nc ND']; subst.
    assert (Oc : okname c) by (apply (Ok_ c r); left; reflexivity). pose proof Oc as (_ & _ & Sc & _).
    destruct (W c r (or_introl eq_refl) (label ++ slash :: c) st) as (P1 & O1 & D1 & U1).
    { apply okname_good; assumption. }
    { right. exists label, c. auto. }
    { apply (Sn c r). left. reflexivity. }
    set (s1 := at_ (label ++ slash :: c) r) in *. set (st1 := want_steps R st s1) in *.
    destruct (IH ND' (fun c' r' H => Ok_ c' r' (or_intror H)) (fun c' r' H => W c' r' (or_intror H)) st1) as (P2 & O2 & D2 & U2).
    { unfold st1. rewrite O1; [exact Sg|]. apply under_self. }
    { intros c' r' I' n Un. unfold st1. rewrite O1; [apply (Sn c' r'); [right; exact I'|exact Un]|]. intros U.
      destruct (Ok_ c' r' (or_intror I')) as (_ & _ & Sc' & _). assert (c = c') by exact (under_sib label c c' n Sc Sc' U Un). subst c'.
      apply Nc. apply (in_map fst) in I'. exact I'. }
    assert (EA : at_ label (dir_ ((c, r) :: l)) = s1 ++ at_ label (dir_ l)). { cbn [dir_ flat_map]. rewrite at_app, at_pre. reflexivity. }
    rewrite EA. rewrite want_app. fold st1. set (st2 := want_steps R st1 (at_ label (dir_ l))) in *.
    assert (K : forall n, under (label ++ slash :: c) n -> st2 n = st1 n).
    { intros n Un. apply O2. intros c' r' I' U. destruct (Ok_ c' r' (or_intror I')) as (_ & _ & Sc' & _).
      assert (c = c') by exact (under_sib label c c' n Sc Sc' Un U). subst c'. apply Nc. apply (in_map fst) in I'. exact I'. }
    assert (EP : forall p, label ++ slash :: c ++ p = (label ++ slash :: c) ++ p). { intros p. rewrite <- app_assoc. reflexivity. }
    assert (U1' : forall a, In a r -> under (label ++ slash :: c) ((label ++ slash :: c) ++ path a)). { intros a Ia. apply U1. apply in_map. exact Ia. }
    split; [apply propers_app2; assumption|]. split; [|split].
    - intros n Hn. unfold st2. rewrite O2 by (intros c' r' I'; apply (Hn c' r'); right; exact I'). unfold st1. apply O1. apply (Hn c r). left. reflexivity.
    - destruct D1 as (G1 & V1 & N1). destruct D2 as (G2 & V2 & N2). cbn [dir_ flat_map]. split; [|split].
      + intros p Ip. apply in_app_iff in Ip. destruct Ip as [Ip|Ip]; [|apply G2; exact Ip]. apply in_map_iff in Ip. destruct Ip as (a & Ea & Ia).
        destruct a as [q|q k x|q]; inversion Ea; subst. rewrite EP, K; [apply G1; exact Ia|apply (U1' _ Ia)].
      + intros p k x Ip. apply in_app_iff in Ip. destruct Ip as [Ip|Ip]; [|apply V2; exact Ip]. apply in_map_iff in Ip. destruct Ip as (a & Ea & Ia).
        destruct a as [q|q k' x'|q]; try discriminate Ea. cbn [pre] in Ea. injection Ea as Ep Ek Ex. subst p k'. apply inj_pair2_eq_dec in Ex; [|decide equality]. subst x'. 
        rewrite EP, K; [apply V1; exact Ia|apply (U1' _ Ia)].
      + intros p Ip. apply in_app_iff in Ip. destruct Ip as [Ip|Ip]; [|apply N2; exact Ip]. apply in_map_iff in Ip. destruct Ip as (a & Ea & Ia).
        destruct a as [q|q k' x'|q]; inversion Ea; subst. rewrite EP, K by apply (U1' _ Ia). destruct (N1 q Ia) as (A & B & C). split; [exact A|]. split; [exact B|].
        apply inside_keep; assumption.
    - cbn [dir_ flat_map]. intros p Ip. rewrite map_app in Ip. apply in_app_iff in Ip. destruct Ip as [Ip|Ip]; [|apply U2; exact Ip].
      apply in_map_iff in Ip. destruct Ip as (a & Ea & Ia). apply in_map_iff in Ia. destruct Ia as (b & Eb & Ib). subst a.
      assert (p = slash :: c ++ path b) as -> by (subst p; destruct b; reflexivity). rewrite EP. apply (under_up label c). apply (U1' _ Ib).
  Qed.

  Lemma node_writes r : node r -> forall label st, good_name label -> inside R st label -> (forall n, under label n -> st n = None) -> writes label r st.
  Proof.
    induction 1 as [|k x Sx|l ND Ok_ _ IH]; intros label st G Is Sn.
    - split; [exact I|]. split; [intros n _; reflexivity|]. split; [|intros p [<-|[]]; left; apply app_nil_r].
      split; [intros p [H|[]]; discriminate H|]. split; [intros p k x [H|[]]; discriminate H|]. intros p [H|[]]. inversion H. rewrite app_nil_r. cbn [path at_ flat_map at1 app want_steps fold_left].
      split; [apply Sn; left; reflexivity|]. split; assumption.
    - cbv [writes]. cbn [at_ flat_map at1 app]. rewrite app_nil_r. cbn [want_steps fold_left want_step propers]. split; [|split; [|split]].
      + split; [|exact I]. split; [exact G|]. split; [apply Sn; left; reflexivity|]. split; assumption.
      + intros n Hn. apply sset_neq. intros ->. apply Hn. left. reflexivity.
      + split; [intros p [H|[]]; discriminate H|]. split; [|intros p [H|[]]; discriminate H]. intros p k' x' [H|[]]. injection H as Ep Ek Ex. subst p k'.
        apply inj_pair2_eq_dec in Ex; [|decide equality]. subst x'. rewrite app_nil_r. apply sset_eq.
      + intros p [<-|[]]. left. apply app_nil_r.
    - destruct (writes_dir label G l ND Ok_ IH (sset R st label EGroup)) as (P & O & (D1 & D2 & D3) & U).
      { apply sset_eq. }
      { intros c r I n Un. rewrite sset_neq; [apply Sn; eapply under_up; exact Un|]. intros ->. exact (under_self _ _ Un). }
      cbv [writes]. change (at_ label (RG [] :: dir_ l)) with (SGroup (label ++ []) :: at_ label (dir_ l)). rewrite app_nil_r.
      change (want_steps R st (SGroup label :: at_ label (dir_ l))) with (want_steps R (sset R st label EGroup) (at_ label (dir_ l))).
      assert (GL : want_steps R (sset R st label EGroup) (at_ label (dir_ l)) label = Some EGroup). { rewrite O; [apply sset_eq|]. intros c r _. apply under_self. }
      split; [|split; [|split]].
      + split; [|exact P]. split; [exact G|]. split; [apply Sn; left; reflexivity|exact Is].
      + intros n Hn. rewrite O by (intros c r _ Un; apply Hn; eapply under_up; exact Un). apply sset_neq. intros ->. apply Hn. left. reflexivity.
      + split; [|split].
        * intros p [H|H]; [inversion H; rewrite app_nil_r; exact GL|apply D1; exact H].
        * intros p k x [H|H]; [discriminate H|apply D2; exact H].
        * intros p [H|H]; [discriminate H|apply D3; exact H].
      + intros p [<-|H]; [left; apply app_nil_r|apply U; exact H].
  Qed.
End P.
