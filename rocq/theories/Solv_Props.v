(** C67: the parameters of the solver (src/ParametersForSolver.h). *)
From Coq Require Import Ascii String.
From Verif Require Import Prelude Ring Str_Model Str_Spec Str_Proofs Text_Model Input_Model Input_Spec Input_Proofs Input_Parse Input_Read Input_Props
  Solv_Model Solv_Spec Solv_Proofs.
Import List.

(** Number of the counters: a SizeType has 64 bits. *)
Definition counter (s : str) (n : Z) : Prop := exists z, written s z /\ n = (z mod 18446744073709551616)%Z.
Definition whole (s : str) (n : Z) : Prop := written s n.

Lemma written_atoi s z : written s z -> atoi s = Ok z.
Proof. intros (d & N & D & [[-> ->]|[-> ->]]); [apply atoi_nat|apply atoi_neg]; auto. Qed.
Lemma not_whole_atoi s : not_whole s -> atoi s = Throw.
Proof. intros (c & H & D & P & M). apply atoi_throws. exists c. split; auto. split; auto. cbn. intuition. Qed.

(** Every well formed file in which no label is repeated gives all parameters, each by the rule of [picks]. Nothing is
    said if a number is made of signs only or has a sign inside (such a text is accepted and converted by std::atoi). *)
Theorem C67_parameters_partial : forall (R : cring) (std_atof : str -> R) (eps0 : R) chk_label chk_text chk_vec f prefix ind,
  checks_accept chk_label chk_text -> file_ok chk_vec f -> f <> [] -> separate f -> once f -> ~ In "="%char prefix ->
  exists p P r, writeable_file chk_label chk_text chk_vec (Some (render f)) = Ok p /\
    pfs_new R std_atof eps0 (readable p) prefix ind = Ok (P, r) /\
    let number := picks f Z counter not_whole prefix ind in
    let real := picks f R (fun v x => real_like v /\ x = std_atof v) (fun v => ~ real_like v) prefix ind in
    (forall x, number (lit "Steps") 200%Z x -> p_steps R P = x) /\
    (forall x, number (lit "MinSteps") 4%Z x -> p_minSteps R P = x) /\
    (forall x, real (lit "Eps") eps0 x -> p_tolerance R P = x) /\
    (forall x, number (lit "StepsForEnergyConvergence") 1000000%Z x -> p_stepsForEnergyConvergence R P = x) /\
    (forall x, number (lit "EigsForStop") 1%Z x -> p_eigsForStop R P = x) /\
    (forall x, picks f str eq (fun _ => False) prefix ind (lit "Options") (lit "none") x -> p_options R P = x) /\
    (forall x, real (lit "OneOverA") c0 x -> p_oneOverA R P = x) /\
    (forall x, real (lit "B") c0 x -> p_b R P = x) /\
    (forall x, real (lit "Energy") c0 x -> p_Eg R P = x) /\
    (forall x, picks f Z whole not_whole prefix ind (lit "NoSaveLanczosVectors") 0%Z x -> p_lotaMemory R P = negb (0 <? x)%Z).
Proof.
  intros R std_atof eps0 cl ct cv f prefix ind A F N Se O Pf. destruct (file_parsed cl ct cv f A F N) as (p & E & T & V & C). destruct F as (I & _).
  pose proof (start_inv f p I Se T V C) as I0. assert (S0 : same (start f) (readable p)) by (exists (start f); auto).
  assert (NE : forall s, forallb (fun c => negb (Ascii.eqb c "=")) s = true -> ~ In "="%char s).
  { intros s H K. rewrite forallb_forall in H. specialize (H _ K). discriminate. }
  assert (CS1 : forall v x, counter v x -> conv_size v = Some x) by (intros v x (z & W & ->); unfold conv_size; rewrite (written_atoi _ _ W); auto).
  assert (CS2 : forall v, not_whole v -> conv_size v = None) by (intros v H; unfold conv_size; rewrite (not_whole_atoi _ H); auto).
  assert (CI1 : forall v x, whole v x -> conv_int v = Some x) by (intros v x W; unfold conv_int; rewrite (written_atoi _ _ W); auto).
  assert (CI2 : forall v, not_whole v -> conv_int v = None) by (intros v H; unfold conv_int; rewrite (not_whole_atoi _ H); auto).
  assert (CR1 : forall v x, real_like v /\ x = std_atof v -> conv_real R std_atof v = Some x).
  { intros v x (W & ->). unfold conv_real. rewrite (proj2 (isAfloat_spec v) W). auto. }
  assert (CR2 : forall v, ~ real_like v -> conv_real R std_atof v = None).
  { intros v W. unfold conv_real. destruct (isAfloat v) eqn:K; auto. elim W. apply isAfloat_spec. auto. }
  pose proof good_size as GS. pose proof good_int as GI. pose proof good_text as GT. pose proof (good_real R std_atof) as GR.
  destruct (rabbit_ok readline_size conv_size GS (start f) O prefix (lit "Steps") Pf ltac:(apply NE; reflexivity) ltac:(discriminate) 200%Z ind _ S0) as (r1 & E1 & S1).
  destruct (rabbit_ok readline_size conv_size GS (start f) O prefix (lit "MinSteps") Pf ltac:(apply NE; reflexivity) ltac:(discriminate) 4%Z ind _ S1) as (r2 & E2 & S2).
  destruct (rabbit_ok _ _ GR (start f) O prefix (lit "Eps") Pf ltac:(apply NE; reflexivity) ltac:(discriminate) eps0 ind _ S2) as (r3 & E3 & S3).
  destruct (rabbit_ok readline_size conv_size GS (start f) O prefix (lit "StepsForEnergyConvergence") Pf ltac:(apply NE; reflexivity) ltac:(discriminate) 1000000%Z ind _ S3) as (r4 & E4 & S4).
  destruct (rabbit_ok readline_size conv_size GS (start f) O prefix (lit "EigsForStop") Pf ltac:(apply NE; reflexivity) ltac:(discriminate) 1%Z ind _ S4) as (r5 & E5 & S5).
  destruct (rabbit_ok readline_text conv_text GT (start f) O prefix (lit "Options") Pf ltac:(apply NE; reflexivity) ltac:(discriminate) (lit "none") ind _ S5) as (r6 & E6 & S6).
  destruct (rabbit_ok _ _ GR (start f) O prefix (lit "OneOverA") Pf ltac:(apply NE; reflexivity) ltac:(discriminate) c0 ind _ S6) as (r7 & E7 & S7).
  destruct (rabbit_ok _ _ GR (start f) O prefix (lit "B") Pf ltac:(apply NE; reflexivity) ltac:(discriminate) c0 ind _ S7) as (r8 & E8 & S8).
  destruct (rabbit_ok _ _ GR (start f) O prefix (lit "Energy") Pf ltac:(apply NE; reflexivity) ltac:(discriminate) c0 ind _ S8) as (r9 & E9 & S9).
  destruct (rabbit_ok readline_int conv_int GI (start f) O prefix (lit "NoSaveLanczosVectors") Pf ltac:(apply NE; reflexivity) ltac:(discriminate) 0%Z ind _ S9) as (r10 & E10 & S10).
  exists p. eexists. exists r10. split; [exact E|]. split.
  { unfold pfs_new. rewrite E1. cbn [bind]. rewrite E2. cbn [bind]. rewrite E3. cbn [bind]. rewrite E4. cbn [bind]. rewrite E5. cbn [bind].
    rewrite E6. cbn [bind]. rewrite E7. cbn [bind]. rewrite E8. cbn [bind]. rewrite E9. cbn [bind]. rewrite E10. cbn [bind]. reflexivity. }
  cbn [p_steps p_minSteps p_tolerance p_stepsForEnergyConvergence p_eigsForStop p_options p_oneOverA p_b p_Eg p_lotaMemory].
  repeat match goal with |- _ /\ _ => split end; intros x H.
  1,2,4,5: apply (picks_first conv_size counter not_whole); auto.
  1,3,4,5: eapply picks_first; [exact CR1|exact CR2|exact H].
  - eapply picks_first; [| |exact H]; [intros v y ->; reflexivity|intros v []].
  - f_equal. f_equal. apply (picks_first conv_int whole not_whole); auto.
Qed.
Print Assumptions C67_parameters_partial.

(** A value that is not a number is no error: the value of a smaller index, or the default, is used in its place. *)
Definition line (l v : str) : item := IText l [] v [] None.
Definition read_params (f : list item) (prefix : str) (ind : Z) : res (Z * Z * str * bool) :=
  do p <- writeable_file accept_label accept_text count_only (Some (render f)) ;;
  do (P, _) <- pfs_new Zring (fun _ => 0%Z) 0%Z (readable p) prefix ind ;;
  Ok (p_steps _ P, p_minSteps _ P, p_options _ P, p_lotaMemory _ P).
(** A parameter whose text is no number is not an error: the value of a smaller index or the default is used. *)
Theorem C67_malformed_refuted :
  read_params [line (lit "Lanczos1Steps") (lit "40"); line (lit "Lanczos2Steps") (lit "1e3")] (lit "Lanczos") 2 = Ok (40, 4, lit "none", true)%Z /\
  read_params [line (lit "LanczosSteps") (lit "x1")] (lit "Lanczos") 0 = Ok (200, 4, lit "none", true)%Z.
Proof. split; vm_compute; reflexivity. Qed.
Print Assumptions C67_malformed_refuted.

Lemma values_once (e : list (str * str)) l : NoDup (map fst e) -> List.length (values_of l e) <= 1.
Proof.
  unfold values_of. induction e as [|[k v] e IH]; intros H; cbn [filter map fst] in *; [cbn; lia|]. inversion_clear H as [|? ? H1 H2].
  destruct (str_eqb l k) eqn:K; [|auto]. apply str_eqb_eq in K. subst k. cbn [map List.length].
  replace (filter (fun p => str_eqb l (fst p)) e) with (@nil (str * str)); [cbn; lia|]. symmetry. clear - H1. induction e as [|[k v'] e IH]; [reflexivity|].
  cbn [filter map fst In] in *. destruct (str_eqb l k) eqn:K; [apply str_eqb_eq in K; elim H1; auto|apply IH; tauto].
Qed.
Definition solver_file : list item :=
  [line (lit "LanczosSteps") (lit "50"); line (lit "Lanczos1Steps") (lit "60"); line (lit "Lanczos3Steps") (lit "70");
   line (lit "LanczosMinSteps") (lit "-1"); line (lit "Lanczos0NoSaveLanczosVectors") (lit "1"); line (lit "Lanczos2Options") (lit "reortho")].
Example C67_nonvacuous : checks_accept accept_label accept_text /\ file_ok count_only solver_file /\ separate solver_file /\ once solver_file /\
  picks solver_file Z counter not_whole (lit "Lanczos") 2 (lit "Steps") 200%Z 60%Z /\
  picks solver_file Z counter not_whole (lit "Lanczos") 0 (lit "Steps") 200%Z 50%Z /\
  picks solver_file Z counter not_whole (lit "Lanczos") 3 (lit "MinSteps") 4%Z 18446744073709551615%Z /\
  picks solver_file Z counter not_whole (lit "Chebyshev") 3 (lit "Steps") 200%Z 200%Z /\
  read_params solver_file (lit "Lanczos") 2 = Ok (60, 18446744073709551615, lit "reortho", false)%Z.
Proof.
  assert (D : forall d, d <> [] -> forallb isdigit d = true -> written d (dec_val d)).
  { intros d N H. exists d. split; auto. split; auto. intros c Hc. apply isdigit_In. rewrite forallb_forall in H. auto. }
  assert (L : forall l, texts solver_file l = [] -> lacks solver_file not_whole l) by (intros l H v t K; rewrite H in K; discriminate).
  assert (Hb : forall k m, (Z.of_nat k <= Z.of_nat m)%Z -> In k (seq 0 (S m))) by (intros k m H; apply in_seq; lia).
  assert (Np : forall v, In v (map (fun x => match x with IText _ _ v _ _ => v | _ => [] end) solver_file) -> value_ok v).
  { intros v H. apply valueb_ok. revert v H. apply Forall_forall. vm_compute. repeat constructor. }
  assert (Nl : forall v, In v (map (fun x => match x with IText l _ _ _ _ => l | _ => [] end) solver_file) -> label_ok v).
  { intros v H. apply labelb_ok. revert v H. apply Forall_forall. vm_compute. repeat constructor. }
  split; [split; reflexivity|]. split; [|split; [|split; [|split; [|split; [|split; [|split]]]]]].
  - split; [|split; [cbn; auto|split; [|split]]].
    + intros x H. assert (exists l v, x = line l v /\ label_ok l /\ value_ok v) as (l & v & -> & Hl & Hv).
      { pose proof (in_map (fun x => match x with IText l _ _ _ _ => l | _ => [] end) _ _ H) as H1. apply Nl in H1.
        pose proof (in_map (fun x => match x with IText _ _ v _ _ => v | _ => [] end) _ _ H) as H2. apply Np in H2.
        unfold solver_file in H. repeat (destruct H as [<-|H]); [..|destruct H]; eexists; eexists; split; try reflexivity; auto. }
      split; auto. split; [intros c []|]. split; auto. split; [intros c []|exact Logic.I].
    + intros l ns af H. unfold solver_file, line in H. repeat (destruct H as [H|H]; [discriminate|]). destruct H.
    + vm_compute. reflexivity.
    + intros [s H]. vm_compute in H. discriminate.
  - intros l. right. reflexivity.
  - intros l. unfold texts. apply values_once. vm_compute. repeat constructor; cbn; intuition discriminate.
  - left. exists 1. split; [lia|]. split.
    + eexists. eexists. split; [vm_compute; reflexivity|]. exists 60%Z. split; [apply (D (lit "60")); [discriminate|reflexivity]|reflexivity].
    + intros k H1 H2. apply L. assert (k = 2) as -> by lia. vm_compute. reflexivity.
  - right; left. split.
    + intros k H. apply L. assert (k = 0) as -> by lia. vm_compute. reflexivity.
    + eexists. eexists. split; [vm_compute; reflexivity|]. exists 50%Z. split; [apply (D (lit "50")); [discriminate|reflexivity]|reflexivity].
  - right; left. split.
    + intros k H. apply L. assert (K : k = 0 \/ k = 1 \/ k = 2 \/ k = 3) by lia. destruct K as [-> |[-> |[-> | ->]]]; vm_compute; reflexivity.
    + eexists. eexists. split; [vm_compute; reflexivity|]. exists (-1)%Z. split; [|reflexivity]. exists (lit "1"). split; [discriminate|]. split.
      * intros c [<-|[]]. apply isdigit_In. reflexivity.
      * right. split; reflexivity.
  - right; right. split; [|split; [|reflexivity]].
    + intros k H. apply L. assert (K : k = 0 \/ k = 1 \/ k = 2 \/ k = 3) by lia. destruct K as [-> |[-> |[-> | ->]]]; vm_compute; reflexivity.
    + apply L. vm_compute. reflexivity.
  - vm_compute. reflexivity.
Qed.
