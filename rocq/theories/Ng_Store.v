(** Histories of writes. *)
From Coq Require Import Ascii String.
From Verif Require Import Prelude Ring Str_Model Str_Proofs Text_Model Dense_Model Crs_Model Crs_Spec
  Ng_Model Ng_Spec Ng_Proofs Ng_Bool Ng_Codec Ng_Comp.
Import List.

Section Store.
  Variable R : cring.
  Notation F := (car R).
  Notation file := (file F).
  Notation store := (store R).
  Implicit Types (f g h : file) (st : store) (n : str).

  Lemma good_ne n : good_name n -> n <> [].
  Proof.
    intros [[l (H & C & E)] _] En. subst n. destruct l as [|c l]; [auto|].
    destruct (C c (or_introl eq_refl)) as [Nc _]. destruct l; simpl in En; [auto|]. destruct c; [auto|discriminate].
  Qed.
  Lemma good_notag n p : good_name n -> n <> tagname p.
  Proof. intros (_ & H & _). apply H. Qed.

  Definition closed st : Prop := forall n e, st n = Some e -> good_name n /\ inside R st n.

  Lemma ancestor_aux st : closed st -> forall m n a r, (List.length n <= m)%nat -> inside R st n -> n = a ++ slash :: r -> st a = Some EGroup.
  Proof.
    intros Hc. induction m as [|m IH]; intros n a r Hl Hi E.
    - subst n. rewrite app_length in Hl. simpl in Hl. lia.
    - destruct Hi as [Hi|(g & c & Eg & Nc & Hg)].
      + elim Hi. subst n. apply in_or_app. right; left; auto.
      + assert (X : a ++ slash :: r = g ++ slash :: c) by congruence.
        destruct (two_slashes _ _ _ _ X) as [->|[[e ->]|[e Ee]]]; auto.
        * exfalso. rewrite <- app_assoc in X. apply app_inv_head in X. inversion X. subst c. apply Nc.
          apply in_or_app. right; left; auto.
        * apply (IH g a e); auto; [|apply (Hc g EGroup Hg)]. rewrite Eg, app_length in Hl. simpl in Hl. lia.
  Qed.
  Lemma ancestor st n a r : closed st -> inside R st n -> n = a ++ slash :: r -> st a = Some EGroup.
  Proof. intros Hc. eapply ancestor_aux; eauto. Qed.

  Lemma apart_val st n n' k' x' : closed st -> good_name n -> inside R st n -> st n <> Some EGroup -> n <> n' ->
    st n' = Some (EVal k' x') -> apart n n'.
  Proof.
    intros Hc Gn In_ Sn Ne Sn'. destruct (Hc n' _ Sn') as [Gn' In'].
    split; [auto|]. split; [apply good_notag; auto|]. split; [apply good_notag; auto|]. split.
    - intros r E. rewrite (ancestor st n n' r) in Sn' by auto. discriminate.
    - intros r E. apply Sn. eapply ancestor; eauto.
  Qed.
  Lemma group_off_foot st n (g : str) : closed st -> good_name n -> st n <> Some EGroup -> st g = Some EGroup -> ~ foot n (full g).
  Proof.
    intros Hc Gn Sn Sg H. destruct (Hc g _ Sg) as [Gg Ig]. pose proof (good_ne n Gn) as Nn. pose proof (good_ne g Gg) as Ng.
    destruct H as [E|[E|[r E]]].
    - apply full_inj in E; auto. subst g. auto.
    - apply full_inj in E; auto; [|apply app_ne; auto]. apply (good_notag g n); auto.
    - change (slash :: r) with ([slash] ++ r) in E. rewrite app_assoc in E. rewrite <- !full_app in E; auto using app_ne.
      apply full_inj in E; auto; [|rewrite <- app_assoc; apply app_ne; auto]. rewrite <- app_assoc in E. apply Sn. eapply ancestor; eauto.
  Qed.
  Lemma root_off_foot n : n <> [] -> ~ foot n (full []).
  Proof.
    intros Nn H. unfold foot in H. rewrite (full_ne n), (full_ne (tagname n)) in H by (auto; apply app_ne; auto).
    destruct H as [E|[E|[r E]]]; discriminate.
  Qed.
  Lemma canary_off_foot n : good_name n -> ~ foot n canary.
  Proof.
    intros G H. pose proof (good_ne n G) as Nn. destruct G as (_ & _ & Gc).
    change canary with (lit "Def/" ++ lit "Canary") in H. unfold foot in H. rewrite !full_ne in H by (auto; apply app_ne; auto).
    destruct H as [E|[E|[r E]]].
    - apply app_inv_head in E. auto.
    - apply app_inv_head in E. apply (f_equal (@rev _)) in E. unfold tagname in E. rewrite rev_app_distr in E. vm_compute in E. discriminate.
    - rewrite <- app_assoc in E. apply app_inv_head in E. apply canary_noslash. rewrite E. apply in_or_app. right; left; auto.
  Qed.

  Lemma foot_dec n p : foot n p \/ ~ foot n p.
  Proof.
    destruct (str_eqb p (full n)) eqn:A; [apply str_eqb_eq in A; left; left; auto|].
    destruct (str_eqb p (full (tagname n))) eqn:B; [apply str_eqb_eq in B; left; right; left; auto|].
    destruct (below (full n) p) eqn:C; [apply below_true in C; left; right; right; auto|].
    right. apply str_eqb_false in A. apply str_eqb_false in B. intros [H|[H|H]]; auto.
    apply below_true in H. congruence.
  Qed.

  Record Inv f st : Prop := {
    i_root : f (full []) = Some Group;
    i_grp : forall g : str, st g = Some EGroup -> f (full g) = Some Group;
    i_val : forall n, match st n with Some (EVal k x) => chas F _ (codec_of R k) f n x | _ => True end;
    i_closed : closed st;
    i_only : forall p, f p <> None -> p = full [] \/ p = canary \/ (exists g : str, st g = Some EGroup /\ p = full g) \/
      exists n k x, st n = Some (EVal k x) /\ foot n p
  }.

  Lemma inv_par f st n : Inv f st -> n <> [] -> inside R st n -> par F f n.
  Proof.
    intros I Nn [H|(g & c & E & Nc & Hg)]; unfold par, parent_ok.
    - replace (full n) with (full [] ++ slash :: n) by (destruct n; [contradiction|reflexivity]).
      rewrite parent_child by auto. rewrite (i_root _ _ I). auto.
    - subst n. destruct (i_closed _ _ I g _ Hg) as [Gg _]. rewrite full_app by (apply good_ne; auto).
      rewrite parent_child by auto. rewrite (i_grp _ _ I g Hg). auto.
  Qed.
  Lemma inv_fresh f st n : Inv f st -> good_name n -> st n = None -> inside R st n -> fresh F f n.
  Proof.
    intros I Gn Sn In_ p Hp. destruct (f p) eqn:E; auto. exfalso.
    destruct (i_only _ _ I p) as [Ep|[Ep|[(g & Sg & Ep)|(n' & k & x & Sn' & Hp')]]]; [congruence| | | |].
    - subst p. eapply root_off_foot; eauto. apply good_ne; auto.
    - subst p. eapply canary_off_foot; eauto.
    - subst p. eapply (group_off_foot st n g); eauto; [apply I|congruence].
    - eapply (apart_foot n n'); eauto; [apply good_ne; auto|apply good_ne; eapply (i_closed _ _ I); eauto|].
      eapply apart_val; eauto; [apply I|congruence|congruence].
  Qed.

  Lemma sset_eq st n e : sset R st n e n = Some e.
  Proof. unfold sset. rewrite str_eqb_refl. auto. Qed.
  Lemma sset_neq st n e m : m <> n -> sset R st n e m = st m.
  Proof. intros H. unfold sset. rewrite str_eqb_neq; auto. Qed.
  Lemma sset_closed st n e : closed st -> good_name n -> inside R st n -> (st n = Some EGroup -> e = EGroup) -> closed (sset R st n e).
  Proof.
    intros Hc Gn In_ He.
    assert (Up : forall m, inside R st m -> inside R (sset R st n e) m).
    { intros m [H|(g & c & E & Nc & Hg)]; [left; auto|right]. exists g, c. split; auto. split; auto.
      destruct (str_eqb g n) eqn:Eq.
      - apply str_eqb_eq in Eq. subst g. rewrite sset_eq. rewrite He; auto.
      - apply str_eqb_false in Eq. rewrite sset_neq; auto. }
    intros m e' H. unfold sset in H. destruct (str_eqb m n) eqn:Eq.
    - apply str_eqb_eq in Eq. subst m. split; auto.
    - destruct (Hc m e' H). split; auto.
  Qed.

  (** A value was put under the name [n]. *)
  Lemma inv_put f g st n k x : Inv f st -> good_name n -> inside R st n -> st n <> Some EGroup ->
    chas F _ (codec_of R k) g n x -> same_off F f g n -> Inv g (sset R st n (EVal k x)).
  Proof.
    intros I Gn In_ Sn H S. pose proof (i_closed _ _ I) as Hc. pose proof (good_ne n Gn) as Nn. constructor.
    - rewrite S by (apply root_off_foot; auto). apply I.
    - intros g0 Hg. unfold sset in Hg. destruct (str_eqb g0 n); [discriminate|].
      rewrite S; [apply I; auto|]. eapply group_off_foot; eauto.
    - intros n'. unfold sset. destruct (str_eqb n' n) eqn:Eq.
      + apply str_eqb_eq in Eq. subst n'. auto.
      + apply str_eqb_false in Eq. destruct (st n') as [[|k' x']|] eqn:Hn'; auto. destruct (Hc n' _ Hn') as [Gn' _].
        pose proof (i_val _ _ I n') as V. rewrite Hn' in V. eapply cext; [apply good_ne; auto| |exact V].
        intros p Hp. symmetry. apply S. intros Hp'. eapply (apart_foot n n'); eauto; [apply good_ne; auto|].
        eapply apart_val; eauto.
    - apply sset_closed; auto. congruence.
    - intros p Hp. destruct (foot_dec n p) as [Fp|Fp].
      + right; right; right. exists n, k, x. rewrite sset_eq. auto.
      + rewrite S in Hp by auto. destruct (i_only _ _ I p Hp) as [E|[E|[(g0 & Sg & E)|(n' & k' & x' & Sn' & E)]]]; auto.
        * right; right; left. exists g0. split; auto. rewrite sset_neq; auto. congruence.
        * right; right; right. exists n', k', x'. split; auto. rewrite sset_neq; auto. congruence.
  Qed.

  Lemma inv_group f st n : Inv f st -> good_name n -> inside R st n -> st n = None ->
    exists g, createGroup F f n = Ok g /\ Inv g (sset R st n EGroup) /\ g canary = f canary.
  Proof.
    intros I Gn In_ Sn. pose proof (i_closed _ _ I) as Hc. pose proof (good_ne n Gn) as Nn.
    pose proof (inv_fresh f st n I Gn Sn In_) as Hf. pose proof (inv_par f st n I Nn In_) as Hp.
    unfold createGroup. rewrite create_ok; auto; [|apply Hf, foot_full]. eexists. split; [reflexivity|].
    split; [|apply fset_neq; intros E; apply (canary_off_foot n); auto; rewrite E; apply foot_full]. constructor.
    - rewrite fset_neq; [apply I|]. intros E. apply (root_off_foot n); auto. rewrite E. apply foot_full.
    - intros g Hg. unfold sset in Hg. destruct (str_eqb g n) eqn:Eq.
      + apply str_eqb_eq in Eq. subst g. apply fset_eq.
      + rewrite fset_neq; [apply I; auto|]. intros E. apply full_inj in E; auto; [|apply good_ne; eapply Hc; eauto].
        subst g. rewrite str_eqb_refl in Eq. discriminate.
    - intros n'. unfold sset. destruct (str_eqb n' n) eqn:Eq; auto. apply str_eqb_false in Eq.
      destruct (st n') as [[|k' x']|] eqn:Hn'; auto. destruct (Hc n' _ Hn') as [Gn' _].
      pose proof (i_val _ _ I n') as V. rewrite Hn' in V. eapply cext; [apply good_ne; auto| |exact V].
      intros p Hp'. rewrite fset_neq; auto. intros ->. eapply (apart_foot n n'); eauto; [apply good_ne; auto| |apply foot_full].
      eapply apart_val; eauto. congruence.
    - apply sset_closed; auto.
    - intros p Hp'. destruct (str_eqb p (full n)) eqn:Eq.
      + apply str_eqb_eq in Eq. right; right; left. exists n. rewrite sset_eq. auto.
      + apply str_eqb_false in Eq. rewrite fset_neq in Hp' by auto.
        destruct (i_only _ _ I p Hp') as [E|[E|[(g0 & Sg & E)|(n' & k' & x' & Sn' & E)]]]; auto.
        * right; right; left. exists g0. split; auto. rewrite sset_neq; auto. congruence.
        * right; right; right. exists n', k', x'. split; auto. rewrite sset_neq; auto. congruence.
  Qed.

  Lemma inv_step f st s : Inv f st -> proper R st s -> exists g, do_step R f s = Ok g /\ Inv g (want_step R st s) /\ g canary = f canary.
  Proof.
    intros I P. destruct s as [g|n k x|n k x]; cbn [do_step want_step proper] in *.
    - destruct P as (A & B & C). apply inv_group; auto.
    - destruct P as (A & B & C & D).
      destruct (cwrite F _ (codec_of R k) f n x) as (g & E & H & S);
        [apply good_ne; auto|eapply inv_fresh; eauto|eapply inv_par; eauto; apply good_ne; auto|apply codec_ok; auto|].
      exists g. rewrite codec_wr in E by (auto; discriminate). split; auto. split; [eapply inv_put; eauto; congruence|].
      apply S, canary_off_foot; auto.
    - destruct P as ([x0 A] & B & C). destruct (i_closed _ _ I n _ A) as [Gn In_].
      pose proof (i_val _ _ I n) as V. rewrite A in V.
      destruct (cover F _ (codec_of R k) f n x0 x) as (g & E & H & S); auto;
        [eapply codec_ow; eauto|apply good_ne; auto|eapply inv_par; eauto; apply good_ne; auto|apply codec_ok; auto|].
      exists g. rewrite codec_wr in E by auto. split; auto. split; [eapply inv_put; eauto; congruence|].
      apply S, canary_off_foot; auto.
  Qed.
  Lemma inv_steps l : forall f st, Inv f st -> propers R st l -> exists g, do_steps R f l = Ok g /\ Inv g (want_steps R st l) /\ g canary = f canary.
  Proof.
    induction l as [|s l IH]; intros f st I P; cbn [do_steps propers] in *.
    - exists f. auto.
    - destruct P as [P1 P2]. destruct (inv_step f st s I P1) as (g & E & Ig & C). rewrite E. cbn [bind].
      destruct (IH g _ Ig P2) as (h & Eh & Ih & Ch). exists h. split; auto. split; auto. congruence.
  Qed.
  Lemma inv_read f st n k x old : Inv f st -> st n = Some (EVal k x) -> rd R k f n old = Ok x.
  Proof.
    intros I S. rewrite <- codec_rd. apply cread.
    - apply good_ne. eapply (i_closed _ _ I); eauto.
    - pose proof (i_val _ _ I n) as V. rewrite S in V. auto.
  Qed.
  Lemma inv_exists f st n : Inv f st -> good_name n -> inside R st n -> st n <> Some EGroup ->
    match st n with None => f (full n) = None | _ => True end.
  Proof. intros I G In_ S. destruct (st n) eqn:E; auto. apply (inv_fresh f st n); auto. apply foot_full. Qed.

  Lemma inv_new : exists f s, ser_new F None TRUNC = Ok s /\ se_file F s = Some f /\ Inv f (empty_store R) /\ f canary = None.
  Proof.
    eexists. eexists. split; [reflexivity|]. split; [reflexivity|]. split; [|reflexivity]. constructor.
    - reflexivity.
    - discriminate.
    - intros n. exact I.
    - intros n e H. discriminate.
    - intros p H. left. unfold fset in H. destruct (str_eqb p (full [])) eqn:E; [apply str_eqb_eq in E; auto|]. elim H. auto.
  Qed.

  (** The canary does not touch anything. *)
  Lemma inv_canary f st : Inv f st -> f canary = None \/ (exists c, f canary = Some (Data [c])) ->
    exists g, writeCanary F f = Ok g /\ Inv g st /\ g canary = Some (Data [CI 170%Z]).
  Proof.
    intros I H. pose proof (i_closed _ _ I) as Hc.
    assert (W : writeCanary F f = Ok (fset F f canary (Data [CI 170%Z]))).
    { unfold writeCanary. destruct H as [H|[c H]]; rewrite H; auto. apply create_ok; auto.
      change canary with (lit "Def" ++ slash :: lit "Canary"). unfold parent_ok. rewrite parent_child by apply canary_noslash.
      change (lit "Def") with (full []). rewrite (i_root _ _ I). auto. }
    exists (fset F f canary (Data [CI 170%Z])). split; auto. split; [|apply fset_eq]. constructor.
    - rewrite fset_neq; [apply I|discriminate].
    - intros g Hg. rewrite fset_neq; [apply I; auto|]. intros E. apply (canary_off_foot g); [eapply Hc; eauto|]. rewrite <- E. apply foot_full.
    - intros n. destruct (st n) as [[|k x]|] eqn:E; auto. destruct (Hc n _ E) as [G _].
      pose proof (i_val _ _ I n) as V. rewrite E in V. eapply cext; [apply good_ne; auto| |exact V].
      intros p Hp. rewrite fset_neq; auto. intros ->. apply (canary_off_foot n); auto.
    - auto.
    - intros p Hp. destruct (str_eqb p canary) eqn:E; [apply str_eqb_eq in E; auto|]. apply str_eqb_false in E.
      rewrite fset_neq in Hp by auto. apply I; auto.
  Qed.


  (** Reading a name that was never written fails. *)
  Lemma fresh_data f n : n <> [] -> fresh F f n -> h5_data F f (full n) = Throw.
  Proof. intros Hn H. unfold h5_data. rewrite H; auto. apply foot_full. Qed.
  Lemma fresh_read_int f n c : n <> [] -> fresh F f n -> read_int F f (ch n c) = Throw.
  Proof.
    intros Hn H. unfold read_int, read_num, h5_data. rewrite H; auto. rewrite full_ch by auto. right; right. eauto.
  Qed.
  Lemma fresh_read f n k old : n <> [] -> fresh F f n -> rd R k f n old = Throw.
  Proof.
    intros Hn H. pose proof (fresh_data f n Hn H) as D.
    destruct k; cbn [rd]; unfold read_bools, read_string, read_bool, read_int, read_flt, read_num, read_vec_int, read_vec_flt, read_cvec, readInternal;
      rewrite ?D; auto.
    - unfold read_pair. change (sub n "0") with (ch n s0). rewrite fresh_read_int; auto.
    - unfold mat_readNg. change (sub n "nrow_") with (ch n s_nrow). rewrite fresh_read_int; auto.
    - unfold crs_readNg. change (sub n "nrow_") with (ch n s_nrow). rewrite fresh_read_int; auto.
    - unfold read_vecof. change (sub n "Size") with (ch n size_). rewrite fresh_read_int; auto.
  Qed.

  (** ** The canary, for any steps *)
  Definition kept f : Prop := f canary = None /\ f (full []) = Some Group.
  Definition safe_path (p : str) : Prop := p <> canary /\ p <> full [].
  Definition safe n : Prop := n <> [] /\ n <> lit "Canary" /\ n <> canary /\ n <> full [].

  Lemma kept_create f p x g : safe_path p -> h5_create F f p x = Ok g -> kept f -> kept g.
  Proof.
    intros (A & B) H [K1 K2]. unfold h5_create in H. destruct (f p); [discriminate|]. destruct (parent_ok F f p); inversion H; subst g.
    split; rewrite fset_neq; auto.
  Qed.
  Lemma kept_iw f p l : safe_path p -> kept f -> kept (fst (internalWrite F f p l)).
  Proof.
    intros S K. unfold internalWrite. destruct (h5_create F f p (Data l)) eqn:E; auto. cbn [fst]. eapply kept_create; eauto.
  Qed.
  Lemma kept_unlink f p : safe_path p -> kept f -> kept (funlink F f p).
  Proof.
    intros (A & B) [K1 K2]. unfold funlink, kept. fold (below p canary). fold (below p (full [])).
    split.
    - destruct (str_eqb canary p); auto. destruct (below p canary); auto.
    - rewrite str_eqb_neq by auto. rewrite below_false; auto. intros r E.
      assert (X : In slash (full [])) by (rewrite E; apply in_or_app; right; left; auto).
      vm_compute in X. repeat (destruct X as [X|X]; [discriminate|]). destruct X.
  Qed.
  Lemma kept_ow f p l : safe_path p -> kept f -> kept (fst (overwriteRaw F f p l)).
  Proof.
    intros S K. unfold overwriteRaw, h5_unlink. apply kept_iw; auto. destruct (f p); auto. apply kept_unlink; auto.
  Qed.
  Lemma safe_full n : safe n -> safe_path (full n).
  Proof.
    intros (A & B & C & D). rewrite full_ne by auto.
    split; [intros E; change canary with (lit "Def/" ++ lit "Canary") in E; apply app_inv_head in E; auto|discriminate].
  Qed.
  Lemma safe_tag n : n <> [] -> safe_path (full (tagname n)).
  Proof.
    intros A. unfold tagname. rewrite full_app, full_ne by auto. split.
    - intros E. apply (f_equal (@rev _)) in E. rewrite rev_app_distr in E. vm_compute in E. discriminate.
    - discriminate.
  Qed.
  Lemma safe_ch n c : n <> [] -> ch n c <> canary -> safe (ch n c).
  Proof.
    intros A B. split; [apply ch_ne; auto|]. split; [|split; auto].
    - intros E. apply canary_noslash. rewrite <- E. apply in_or_app. right; left; auto.
    - intros E. assert (X : In slash (full [])) by (rewrite <- E; apply in_or_app; right; left; auto).
      vm_compute in X. repeat (destruct X as [X|X]; [discriminate|]). destruct X.
  Qed.
  Lemma ch_canary n c : ch n c = canary -> ~ In slash c -> c = lit "Canary".
  Proof.
    intros E N. change canary with (lit "Def" ++ slash :: lit "Canary") in E. unfold ch in E.
    destruct (two_slashes _ _ _ _ E) as [->|[[e X]|[e X]]].
    - apply app_inv_head in E. congruence.
    - exfalso. rewrite X, <- app_assoc in E. apply app_inv_head in E. inversion E as [Y].
      apply canary_noslash. change (lit "Canary") with ["C"; "a"; "n"; "a"; "r"; "y"]%char. rewrite <- Y. apply in_or_app. right; left; auto.
    - exfalso. assert (Z : In slash (lit "Def")) by (rewrite X; apply in_or_app; right; left; auto).
      vm_compute in Z. repeat (destruct Z as [Z|Z]; [discriminate|]). destruct Z.
  Qed.
  Lemma safe_lit n c : n <> [] -> noslashb c = true -> c <> lit "Canary" -> safe (ch n c).
  Proof. intros A B C. apply safe_ch; auto. intros E. apply C. eapply ch_canary; eauto. apply noslashb_ok; auto. Qed.
  Lemma safe_num n i : n <> [] -> safe (ch n (print_nat i)).
  Proof.
    intros A. apply safe_ch; auto. intros E. apply ch_canary in E; [|apply pn_noslash].
    pose proof (pn_digits i) as (_ & D & _). assert (In "C"%char (print_nat i)) by (rewrite E; left; auto).
    apply D in H. apply (digit_not _ H). right. reflexivity.
  Qed.

  Lemma kept_num f n c m : safe n -> kept f -> kept (fst (write_num F f n c m)).
  Proof. intros S K. apply safe_full in S. destruct m; cbn [write_num fst]; [apply kept_iw|apply kept_ow]; auto. Qed.
  Lemma kept_tag f n t : n <> [] -> kept f -> kept (writeComplexOrReal F f n t).
  Proof. intros S K. apply kept_iw; auto. apply safe_tag. auto. Qed.
  Lemma kept_vec f n b l m : safe n -> kept f -> kept (write_vec F f n b l m).
  Proof.
    intros S K. unfold write_vec. destruct l; auto. pose proof (safe_full n S) as S'.
    assert (K' : kept (if b then writeComplexOrReal F f n "R" else f)) by (destruct b; auto; apply kept_tag; auto; apply S).
    destruct m; [apply kept_iw|apply kept_ow]; auto.
  Qed.
  Lemma kept_group f n g : safe n -> createGroup F f n = Ok g -> kept f -> kept g.
  Proof. intros S. apply kept_create. apply safe_full; auto. Qed.
  Lemma forM_pres {S} (P : S -> Prop) (b : nat -> S -> res S) k : forall i s s', (forall i s s', b i s = Ok s' -> P s -> P s') ->
    forM k i b s = Ok s' -> P s -> P s'.
  Proof.
    induction k as [|k IH]; intros i s s' Hb E H; cbn [forM] in E; [inversion E; subst; auto|].
    apply bind_ok in E. destruct E as (s1 & E1 & E). eapply IH; eauto.
  Qed.
  Lemma kept_wr k : forall f n x m g, safe n -> wr R k f n x m = Ok g -> kept f -> kept g.
  Proof.
    induction k as [ | | | | | | | | | | |k IHk]; intros f n x m g S E K; cbn [wr] in E; pose proof (safe_full n S) as SF; pose proof (proj1 S) as Nn.
    - apply Ok_inj in E. subst g. apply kept_num; auto.
    - apply Ok_inj in E. subst g. apply kept_num; auto.
    - apply Ok_inj in E. subst g. destruct m; [apply kept_iw|apply kept_ow]; auto.
    - destruct m; [|discriminate]. apply Ok_inj in E. subst g. apply kept_iw; auto.
    - apply Ok_inj in E. subst g. apply kept_vec; auto.
    - apply Ok_inj in E. subst g. apply kept_vec; auto.
    - apply Ok_inj in E. subst g. unfold write_cvec. destruct x as [|p x]; auto. pose proof (kept_tag f n "C" Nn K) as K'.
      destruct m; [apply kept_iw; auto|apply kept_ow; auto]. destruct S as (A & B & C & D). split; auto.
    - unfold write_bools in E. apply bind_ok in E. destruct E as (c & _ & E). apply Ok_inj in E. subst g. apply kept_vec; auto.
    - unfold write_pair in E. apply bind_ok in E. destruct E as (h & Eh & E). apply Ok_inj in E. subst g.
      assert (kept h) by (destruct m; [eapply (kept_group f n); eauto|inversion Eh; subst; auto]).
      apply kept_num; [apply (safe_lit n s1); auto; discriminate|]. apply kept_num; auto. apply (safe_lit n s0); auto; discriminate.
    - assert (S1 : safe (ch n s_nrow)) by (apply safe_lit; auto; discriminate).
      assert (S2 : safe (ch n s_ncol)) by (apply safe_lit; auto; discriminate).
      assert (S3 : safe (ch n s_data)) by (apply safe_lit; auto; discriminate).
      unfold mat_write in E. destruct (match m with NO_OVERWRITE => (f, false) | ALLOW_OVERWRITE => mat_overwrite R f n x end) as [h flag] eqn:Eh.
      assert (Kh : kept h).
      { destruct m; [inversion Eh; subst; auto|]. unfold mat_overwrite in Eh.
        change (sub n "nrow_") with (ch n s_nrow) in Eh. change (sub n "ncol_") with (ch n s_ncol) in Eh. change (sub n "data_") with (ch n s_data) in Eh.
        destruct (write_num F f (ch n s_nrow) (CI (Z.of_nat (m_nrow x))) ALLOW_OVERWRITE) as [h1 b1] eqn:E1.
        assert (K1 : kept h1) by (rewrite <- (fst_eq _ _ _ E1); apply kept_num; auto).
        destruct (negb b1); [inversion Eh; subst; auto|].
        destruct (write_num F h1 (ch n s_ncol) (CI (Z.of_nat (m_ncol x))) ALLOW_OVERWRITE) as [h2 b2] eqn:E2.
        assert (K2 : kept h2) by (rewrite <- (fst_eq _ _ _ E2); apply kept_num; auto).
        destruct (negb b2); [inversion Eh; subst; auto|].
        destruct ((m_nrow x =? 0) || (m_ncol x =? 0))%nat; inversion Eh; subst; auto. apply kept_vec; auto. }
      destruct flag; [inversion E; subst; auto|]. apply bind_ok in E. destruct E as (h1 & E1 & E).
      apply kept_group in E1; auto.
      change (sub n "nrow_") with (ch n s_nrow) in E. change (sub n "ncol_") with (ch n s_ncol) in E. change (sub n "data_") with (ch n s_data) in E.
      destruct ((m_nrow x =? 0) || (m_ncol x =? 0))%nat; apply Ok_inj in E; subst g; [|apply kept_vec; auto]; apply kept_num; auto; apply kept_num; auto.
    - assert (S1 : safe (ch n s_nrow)) by (apply safe_lit; auto; discriminate).
      assert (S2 : safe (ch n s_ncol)) by (apply safe_lit; auto; discriminate).
      assert (S3 : safe (ch n s_rowptr)) by (apply safe_lit; auto; discriminate).
      assert (S4 : safe (ch n s_colind)) by (apply safe_lit; auto; discriminate).
      assert (S5 : safe (ch n s_values)) by (apply safe_lit; auto; discriminate).
      unfold crs_write in E. apply bind_ok in E. destruct E as (u & _ & E). apply bind_ok in E. destruct E as (h & Eh & E).
      change (sub n "nrow_") with (ch n s_nrow) in E. change (sub n "ncol_") with (ch n s_ncol) in E.
      change (sub n "rowptr_") with (ch n s_rowptr) in E. change (sub n "colind_") with (ch n s_colind) in E. change (sub n "values_") with (ch n s_values) in E.
      assert (Kh : kept h) by (destruct m; [eapply (kept_group f n); eauto|inversion Eh; subst; auto]).
      set (h2 := fst (write_num F (fst (write_num F h (ch n s_nrow) _ m)) (ch n s_ncol) _ m)) in E.
      assert (K2 : kept h2) by (apply kept_num; auto; apply kept_num; auto). clearbody h2.
      destruct ((c_nrow x =? 0) || (c_ncol x =? 0))%nat; [inversion E; subst; auto|].
      set (h3 := write_vec F h2 (ch n s_rowptr) false _ m) in E.
      assert (K3 : kept h3) by (apply kept_vec; auto). clearbody h3.
      destruct (List.length (c_rowptr x) =? c_nrow x + 1)%nat; [|discriminate].
      apply bind_ok in E. destruct E as (last & _ & E). destruct (last =? 0)%nat; [inversion E; subst; auto|].
      apply Ok_inj in E. subst g. apply kept_vec; auto. apply kept_vec; auto.
    - assert (W : write_vecof F (wr R k) f n x m = Ok g) by (destruct k, m; auto; discriminate). clear E.
      unfold write_vecof in W. apply bind_ok in W. destruct W as (h & Eh & E).
      assert (Kh : kept h) by (destruct m; [eapply (kept_group f n); eauto|inversion Eh; subst; auto]).
      eapply (forM_pres kept); [|exact E|].
      + intros i s s' Hs Ks. apply bind_ok in Hs. destruct Hs as (y & _ & Hs). apply (IHk s (subn n i) y m s'); auto. apply (safe_num n i); auto.
      + apply kept_num; auto. apply (safe_lit n size_); auto. discriminate.
  Qed.

  Definition step_name (s : step R) : str := match s with SGroup g => g | SWrite n _ _ => n | SOverwrite n _ _ => n end.
  Lemma kept_steps l : forall f g, (forall s, In s l -> safe (step_name s)) -> do_steps R f l = Ok g -> kept f -> kept g.
  Proof.
    induction l as [|s l IH]; intros f g S E K; cbn [do_steps] in E; [inversion E; subst; auto|].
    apply bind_ok in E. destruct E as (h & Eh & E). apply (IH h g); auto; [intros; apply S; right; auto|].
    pose proof (S s (or_introl eq_refl)) as Ss. destruct s as [p|n k x|n k x]; cbn [do_step step_name] in *.
    - eapply kept_group; eauto.
    - eapply kept_wr; eauto.
    - eapply kept_wr; eauto.
  Qed.
  Lemma kept_write_canary f : kept f -> writeCanary F f = Ok (fset F f canary (Data [CI 170%Z])).
  Proof.
    intros [A B]. unfold writeCanary. rewrite A. apply create_ok; auto.
    change canary with (lit "Def" ++ slash :: lit "Canary"). unfold parent_ok. rewrite parent_child by apply canary_noslash.
    change (lit "Def") with (full []). rewrite B. auto.
  Qed.

  (** ** Entries appended one by one *)
  Lemma append_ok f n (xs : list Z) : n <> [] -> fresh F f n -> par F f n -> xs <> [] ->
    exists g, forM (List.length xs) 0 (fun i f => do x <- vget xs i ;; writeVectorEntry F f (CI x) n i) f = Ok g /\
      holder R g n /\ chas F Z (cInt R) g (ch n size_) (Z.of_nat (List.length xs)) /\
      (forall i, (i < List.length xs)%nat -> chas F Z (cInt R) g (ch n (print_nat i)) (nth i xs 0%Z)) /\ same_off F f g n.
  Proof.
    intros Hn Hf Hp Hx.
    loopM (fun k g => (k = 0%nat -> g = f) /\ (0 < k -> holder R g n /\ chas F Z (cInt R) g (ch n size_) (Z.of_nat k) /\
      (forall i, (i < k)%nat -> chas F Z (cInt R) g (ch n (print_nat i)) (nth i xs 0%Z)) /\
      (forall i, (k <= i)%nat -> fresh F g (ch n (print_nat i))) /\ same_off F f g n)%nat) as g E H.
    - split; auto. intros; lia.
    - intros k g Hk [H0 H1]. rewrite (vget_ok xs 0%Z) by lia. cbn [bind]. unfold writeVectorEntry.
      change (subn n k) with (ch n (print_nat k)). change (sub n "Size") with (ch n size_).
      destruct (Nat.eqb_spec k 0) as [E|E].
      + subst k. rewrite (H0 eq_refl). clear H0 H1. destruct (group_new R f n Hn Hf Hp) as (g1 & E1 & G1 & A1 & S1).
        rewrite E1. cbn [bind].
        destruct (new_int R g1 n (print_nat 0) (nth 0 xs 0%Z)) as (g2 & -> & H2 & S2); auto using pn_noslash.
        assert (G2 : holder R g2 n) by (eapply keep_holder; eauto).
        destruct (new_int R g2 n size_ (Z.of_nat (0 + 1))) as (g3 & -> & H3 & S3); auto using size_noslash.
        { eapply keep_fresh; [| |exact S2|]; auto. apply sibl_sym, sibl_size. }
        eexists. split; [reflexivity|]. split; [discriminate|]. intros _.
        split; [eapply keep_holder; eauto|]. split; auto. split; [|split].
        * intros i Hi. replace i with 0%nat by lia. eapply keep_has; [| |exact S3|exact H2]; auto. apply sibl_size.
        * intros i Hi. eapply keep_fresh; [| |exact S3|]; auto; [apply sibl_size|].
          eapply keep_fresh; [| |exact S2|]; auto. apply sibl_pn. lia.
        * eapply keep_off; [auto| |exact S3]. eapply keep_off; [auto|exact S1|exact S2].
      + destruct (H1 ltac:(lia)) as (G & Z0 & A & B & So). cbn [bind].
        destruct (new_int R g n (print_nat k) (nth k xs 0%Z)) as (g2 & -> & H2 & S2); auto using pn_noslash.
        assert (G2 : holder R g2 n) by (eapply keep_holder; eauto).
        destruct (over_int R g2 n size_ (Z.of_nat k) (Z.of_nat (k + 1))) as (g3 & -> & H3 & S3); auto using size_noslash.
        { eapply keep_has; [| |exact S2|]; eauto. apply sibl_sym, sibl_size. }
        eexists. split; [reflexivity|]. split; [discriminate|]. intros _. cbn [fst].
        split; [eapply keep_holder; eauto|]. split; [replace (S k) with (k + 1)%nat by lia; auto|]. split; [|split].
        * intros i Hi. eapply keep_has; [| |exact S3|]; auto; [apply sibl_size|].
          destruct (Nat.eq_dec i k) as [->|Ne]; auto. eapply keep_has; [| |exact S2|apply A]; auto; [apply sibl_pn; auto|lia].
        * intros i Hi. eapply keep_fresh; [| |exact S3|]; auto; [apply sibl_size|].
          eapply keep_fresh; [| |exact S2|apply B]; auto; [apply sibl_pn; lia|lia].
        * eapply keep_off; [auto| |exact S3]. eapply keep_off; [auto|exact So|exact S2].
    - exists g. split; auto. destruct H as [_ H]. rewrite Nat.add_0_l in H. destruct xs; [contradiction|].
      destruct H as (A & B & C & D & E'); [simpl; lia|]. auto.
  Qed.
  Lemma append_last f n (xs : list Z) : n <> [] -> xs <> [] -> holder R f n -> chas F Z (cInt R) f (ch n size_) (Z.of_nat (List.length xs)) ->
    (forall i, (i < List.length xs)%nat -> chas F Z (cInt R) f (ch n (print_nat i)) (nth i xs 0%Z)) ->
    readLastVectorEntry F f n = Ok (last xs 0%Z).
  Proof.
    intros Hn Hx G Z0 A. assert (L : (0 < List.length xs)%nat) by (destruct xs; [contradiction|simpl; lia]).
    unfold readLastVectorEntry. change (sub n "Size") with (ch n size_).
    rewrite (has_int R f n size_ (Z.of_nat (List.length xs))) by auto. cbn [bind].
    destruct (Z.leb_spec (Z.of_nat (List.length xs)) 0); [lia|].
    replace (Z.to_nat (Z.of_nat (List.length xs) - 1)) with (List.length xs - 1)%nat by lia.
    change (subn n (List.length xs - 1)) with (ch n (print_nat (List.length xs - 1))).
    rewrite (has_int R f n _ (nth (List.length xs - 1) xs 0%Z)); auto; [|apply A; lia]. f_equal.
    destruct (exists_last Hx) as (u & y & ->). rewrite last_last, app_length. simpl.
    rewrite app_nth2 by lia. replace (List.length u + 1 - 1 - List.length u)%nat with 0%nat by lia. auto.
  Qed.

  (** overwrite of a vector of sparse matrices *)
  Lemma crs_wr_throws f n x x' : chas F _ (codec_of R KCrs) f n x -> cok F _ (codec_of R KCrs) x' ->
    cwr F _ (codec_of R KCrs) f n x' NO_OVERWRITE = Throw.
  Proof.
    intros (_ & [G _] & _) [V _]. cbn [codec_of cCrs cwr wr]. unfold crs_write. rewrite V.
    destruct (0 <? c_nrow x')%nat; cbn [bind]; unfold createGroup, h5_create; rewrite G; auto.
  Qed.
  Lemma inv_overwrite f st n l0 l : Inv f st -> st n = Some (EVal (KVec KCrs) l0) -> storable R (KVec KCrs) l ->
    exists g, overwrite_vecof F (read_int F) (fun f n x => crs_write R f n x NO_OVERWRITE)
        (fun f n x => crs_write R f n x ALLOW_OVERWRITE) f n l = Ok g /\ Inv g (sset R st n (EVal (KVec KCrs) l)).
  Proof.
    intros I S K. destruct (i_closed _ _ I n _ S) as [Gn In_]. pose proof (i_val _ _ I n) as V. rewrite S in V.
    destruct (vec_overwrite R _ (codec_of R KCrs) (dflt R KCrs) crs_wr_throws f n l0 l) as (g & E & H & So); auto.
    - exact Logic.I.
    - apply good_ne; auto.
    - eapply inv_par; eauto. apply good_ne; auto.
    - apply (codec_ok R (KVec KCrs) l K).
    - exists g. split; auto. eapply inv_put; eauto. congruence.
  Qed.
End Store.
