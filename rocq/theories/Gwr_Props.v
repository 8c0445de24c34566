(** Theorems about geometries in files (C124). *)
From Coq Require Import ZArith Ascii String Eqdep_dec.
From Verif Require Import Prelude Ring Str_Model Text_Model Dense_Model Ng_Model Ng_Spec Ng_Proofs Ng_Comp Ng_Store Ng_Props Ngs_Props Appi_Props Gwr_Model Gwr_Spec Gwr_Proofs.
Import List.

Section P.
  Variable R : cring.
  Notation rel := (rel R).
  Notation N0 k x := [RV R [] k x] (only parsing).
  Definition numr (n : nat) : list rel := [RV R [] KInt (Z.of_nat n)].
  Definition boolr (b : bool) : list rel := [RV R [] KBool b].
  Definition kids (l : list (string * list rel)) : list rel := RG R [] :: dir_ R (map (fun x => (lit (fst x), snd x)) l).
  Fixpoint count {T} (i : nat) (l : list T) (r : T -> list rel) : list (str * list rel) :=
    match l with [] => [] | x :: l' => (print_nat i, r x) :: count (S i) l' r end.
  Definition objr {T} (r : T -> list rel) (l : list T) : list rel := RG R [] :: dir_ R ((lit "Size", numr (List.length l)) :: count 0 l r).
  Definition matr (m : mat R) : list rel :=
    if ((m_nrow m =? 0) || (m_ncol m =? 0))%nat then kids [("nrow_"%string, numr (m_nrow m)); ("ncol_"%string, numr (m_ncol m))] else [RV R [] KMat m].
  Definition numsr (l : list R) : list rel := match l with [] => [RN R []] | _ => [RV R [] KFlts l] end.
  Definition dirr (d : gdir R) : list rel :=
    kids [("aux_", kids [("constantValues", boolr (gd_const R d)); ("dirId", numr (gd_dirId R d)); ("edof", [RV R [] KInt (enumNumber (gd_idof R d))])]);
          ("dataNumbers_", numsr (gd_numbers R d)); ("dataMatrices_", objr matr (gd_matrices R d)); ("rawHoppings_", matr (gd_raw R d))]%string.
  Definition termr (t : gterm R) : list rel :=
    kids [("aux_", kids [("debug", boolr (gt_debug R t)); ("termId", numr (gt_termId R t)); ("numberOfTerms", numr (gt_numberOfTerms R t)); ("linSize", numr (gt_linSize R t))]);
          ("orbitals_", numr (gt_orbitals R t)); ("gOptions_", [RV R [] KStr (gt_options R t)]); ("directions_", objr dirr (gt_directions R t)); ("cachedValues_", matr (gt_cached R t))]%string.
  Definition geomr (g : geom R) : list rel := kids [("linSize_", numr (ge_linSize R g)); ("terms_", objr termr (ge_terms R g))]%string.

  (** the code does these steps *)
  Lemma at_kids f label l : do_steps R f (at_ R label (kids l)) =
    do f <- createGroup R f label ;; (fix go f l := match l with [] => Ok f | x :: l' => do f <- do_steps R f (at_ R (sub label (fst x)) (snd x)) ;; go f l' end) f l.
  Proof.
    unfold kids. change (at_ R label (RG R [] :: ?x)) with (SGroup (label ++ []) :: at_ R label x). rewrite app_nil_r. cbn [do_steps do_step].
    destruct (createGroup R f label) as [g| | |]; cbn [bind]; auto. clear f. revert g. induction l as [|(c, r) l IH]; intros g; [reflexivity|].
    cbn [map dir_ flat_map fst snd]. rewrite at_app, at_pre, do_steps_app. change (label ++ slash :: lit c) with (sub label c).
    destruct (do_steps R g (at_ R (sub label c) r)) as [h| | |]; cbn [bind]; auto.
  Qed.
  Lemma num_do f n x : do_steps R f (at_ R n (numr x)) = Ok (fst (write_num R f n (numb R x) NO_OVERWRITE)).
  Proof. cbn [numr at_ flat_map at1 app do_steps do_step wr bind]. rewrite app_nil_r. reflexivity. Qed.
  Lemma leaf_do f n k x : do_steps R f (at_ R n [RV R [] k x]) = wr R k f n x NO_OVERWRITE.
  Proof. cbn [at_ flat_map at1 app do_steps do_step]. rewrite app_nil_r. destruct (wr R k f n x NO_OVERWRITE); reflexivity. Qed.
  Lemma matr_do f n m : do_steps R f (at_ R n (matr m)) = mat_write R f n m NO_OVERWRITE.
  Proof.
    unfold matr. destruct ((m_nrow m =? 0) || (m_ncol m =? 0))%nat eqn:E; [|apply leaf_do].
    rewrite at_kids. unfold mat_write. rewrite E. destruct (createGroup R f n) as [g| | |]; cbn [bind]; auto. cbn [fst snd]. rewrite !num_do. cbn [bind]. rewrite num_do. reflexivity.
  Qed.
  Lemma numsr_do f n l : do_steps R f (at_ R n (numsr l)) = Ok (write_vec R f n true (map CF l) NO_OVERWRITE).
  Proof. destruct l as [|x l]; [reflexivity|]. cbn [numsr]. rewrite leaf_do. reflexivity. Qed.
  Lemma objr_do {T} (w : file R -> str -> T -> res (file R)) r : (forall f n x, do_steps R f (at_ R n (r x)) = w f n x) ->
    forall f n l, do_steps R f (at_ R n (objr r l)) = write_objs R w f n l.
  Proof.
    intros H f n l. unfold objr, write_objs. change (at_ R n (RG R [] :: ?x)) with (SGroup (n ++ []) :: at_ R n x). rewrite app_nil_r. cbn [do_steps do_step].
    destruct (createGroup R f n) as [g| | |]; cbn [bind]; auto. cbn [dir_ flat_map]. rewrite at_app, at_pre, do_steps_app, num_do. cbn [bind].
    change (n ++ slash :: lit "Size") with (sub n "Size"). generalize (fst (write_num R g (sub n "Size") (numb R (List.length l)) NO_OVERWRITE)). clear f g. intros g.
    assert (A : forall l2 l1 h, l = l1 ++ l2 -> do_steps R h (at_ R n (dir_ R (count (List.length l1) l2 r))) =
      forM (List.length l2) (List.length l1) (fun i f => do x <- vget l i ;; w f (subn n i) x) h).
    { induction l2 as [|x l2 IH]; intros l1 h E; [reflexivity|]. cbn [count dir_ flat_map List.length forM]. rewrite at_app, at_pre, do_steps_app, H.
      change (n ++ slash :: print_nat (List.length l1)) with (subn n (List.length l1)).
      assert (V : vget l (List.length l1) = Ok x). { subst l. unfold vget. rewrite nth_error_app2 by lia. rewrite Nat.sub_diag. reflexivity. }
      rewrite V. cbn [bind]. destruct (w h (subn n (List.length l1)) x) as [h'| | |]; cbn [bind]; auto.
      specialize (IH (l1 ++ [x]) h'). rewrite app_length in IH. cbn [List.length] in IH. rewrite Nat.add_1_r in IH. apply IH. rewrite <- app_assoc. exact E. }
    apply (A l []). reflexivity.
  Qed.
  Lemma dirr_do f n d : do_steps R f (at_ R n (dirr d)) = dir_write R f n d.
  Proof.
    unfold dirr, dir_write. rewrite at_kids. destruct (createGroup R f n) as [g| | |]; cbn [bind]; auto. cbn [fst snd]. rewrite at_kids. unfold diraux_write.
    destruct (createGroup R g (sub n "aux_")) as [h| | |]; cbn [bind]; auto. cbn [fst snd]. unfold boolr. rewrite leaf_do. cbn [wr bind]. rewrite num_do. cbn [bind].
    rewrite leaf_do. cbn [wr bind]. rewrite numsr_do. cbn [bind]. rewrite (objr_do (fun f n m => mat_write R f n m NO_OVERWRITE) matr matr_do).
    destruct (write_objs R _ _ _ _) as [h'| | |]; cbn [bind]; auto. rewrite matr_do. destruct (mat_write R h' _ _ _); reflexivity.
  Qed.
  Lemma termr_do f n t : do_steps R f (at_ R n (termr t)) = term_write R f n t.
  Proof.
    unfold termr, term_write. rewrite at_kids. destruct (createGroup R f n) as [g| | |]; cbn [bind]; auto. cbn [fst snd]. rewrite at_kids. unfold termaux_write.
    destruct (createGroup R g (sub n "aux_")) as [h| | |]; cbn [bind]; auto. cbn [fst snd]. unfold boolr. rewrite leaf_do. cbn [wr bind]. rewrite num_do. cbn [bind].
    rewrite num_do. cbn [bind]. rewrite num_do. cbn [bind]. rewrite num_do. cbn [bind]. rewrite leaf_do. cbn [wr bind write_string].
    rewrite (objr_do (dir_write R) dirr dirr_do). destruct (write_objs R _ _ _ _) as [h'| | |]; cbn [bind]; auto. rewrite matr_do. destruct (mat_write R h' _ _ _); reflexivity.
  Qed.
  Lemma geomr_do f n g : do_steps R f (at_ R n (geomr g)) = geom_write R f n g.
  Proof.
    unfold geomr, geom_write. rewrite at_kids. destruct (createGroup R f n) as [h| | |]; cbn [bind]; auto. cbn [fst snd]. rewrite num_do. cbn [bind].
    rewrite (objr_do (term_write R) termr termr_do). destruct (write_objs R _ _ _ _); reflexivity.
  Qed.

  (** the names are new ones *)
  Lemma node_kids l : NoDup (map (fun x => lit (fst x)) l) -> Forall (fun x => okname (lit (fst x)) /\ node R (snd x)) l -> node R (kids l).
  Proof.
    intros ND F. apply node_dir.
    - rewrite map_map. cbn [fst]. exact ND.
    - intros c r I. apply in_map_iff in I. destruct I as (x & E & I). injection E as <- <-. rewrite Forall_forall in F. apply F. exact I.
    - intros c r I. apply in_map_iff in I. destruct I as (x & E & I). injection E as <- <-. rewrite Forall_forall in F. apply F. exact I.
  Qed.
  Lemma count_in {T} (r : T -> list rel) l : forall i c q, In (c, q) (count i l r) -> exists j x, nth_error l j = Some x /\ c = print_nat (i + j) /\ q = r x.
  Proof.
    induction l as [|y l IH]; intros i c q I; [destruct I|]. destruct I as [I|I].
    - inversion I. exists 0%nat, y. rewrite Nat.add_0_r. auto.
    - destruct (IH _ _ _ I) as (j & x & A & B & C). exists (S j), x. rewrite Nat.add_succ_r. auto.
  Qed.
  Lemma in_count {T} (r : T -> list rel) l : forall i j x, nth_error l j = Some x -> In (print_nat (i + j), r x) (count i l r).
  Proof.
    induction l as [|y l IH]; intros i j x E; [destruct j; discriminate E|]. destruct j as [|j]; cbn [nth_error] in E.
    - inversion E. left. rewrite Nat.add_0_r. reflexivity.
    - right. rewrite Nat.add_succ_r. apply (IH (S i) j x E).
  Qed.
  Lemma count_nodup {T} (r : T -> list rel) l : forall i, NoDup (map fst (count i l r)).
  Proof.
    induction l as [|y l IH]; intros i; [constructor|]. cbn [count map fst]. constructor; [|apply IH]. intros I. apply in_map_iff in I. destruct I as ((c, q) & E & I).
    destruct (count_in r l _ _ _ I) as (j & x & _ & E2 & _). cbn [fst] in E. rewrite E2 in E. apply pn_inj in E. lia.
  Qed.
  Lemma node_objs {T} (r : T -> list rel) l : (forall x, In x l -> node R (r x)) -> node R (objr r l).
  Proof.
    intros H. apply node_dir.
    - cbn [map fst]. constructor; [|apply count_nodup]. intros I. apply in_map_iff in I. destruct I as ((c, q) & E & I). destruct (count_in r l _ _ _ I) as (j & x & _ & E2 & _).
      cbn [fst] in E. rewrite E2 in E. exact (proj1 (sibl_size (0 + j)) (eq_sym E)).
    - intros c q [I|I]; [injection I as <- _; apply (okname_lit "Size"); [reflexivity|discriminate]|]. destruct (count_in r l _ _ _ I) as (j & x & _ & -> & _). apply okname_nat.
    - intros c q [I|I]; [injection I as _ <-; apply node_leaf; exact Logic.I|]. destruct (count_in r l _ _ _ I) as (j & x & E & _ & ->). apply H. eapply nth_error_In; exact E.
  Qed.
  Lemma node_mat m : shaped R m -> node R (matr m).
  Proof.
    intros S. unfold matr. destruct ((m_nrow m =? 0) || (m_ncol m =? 0))%nat eqn:E.
    - apply node_kids; [repeat constructor; cbn; intuition discriminate|].
      repeat constructor; cbn [fst snd]; try (apply okname_lit; [reflexivity|discriminate]).
    - apply Bool.orb_false_iff in E. destruct E as [E1 E2]. apply Nat.eqb_neq in E1, E2. apply node_leaf. split; [lia|]. split; [lia|exact S].
  Qed.
  Ltac nm := apply okname_lit; [reflexivity|discriminate].
  Ltac nd := repeat constructor; cbn; intuition discriminate.
  Ltac leaf := apply node_leaf; exact Logic.I.
  Lemma node_dirr d : good_direction R d -> node R (dirr d).
  Proof.
    intros (F & S). apply node_kids; [nd|]. repeat apply Forall_cons; try apply Forall_nil; cbn [fst snd]; (split; [nm|]).
    - apply node_kids; [nd|]. repeat apply Forall_cons; try apply Forall_nil; cbn [fst snd]; (split; [nm|leaf]).
    - destruct (gd_numbers R d); [apply node_none|apply node_leaf; discriminate].
    - apply node_objs. intros m I. apply node_mat. rewrite Forall_forall in F. apply F, I.
    - apply node_mat, S.
  Qed.
  Lemma node_term t : good_term R t -> node R (termr t).
  Proof.
    intros (N & F & S). apply node_kids; [nd|]. repeat apply Forall_cons; try apply Forall_nil; cbn [fst snd]; (split; [nm|]).
    - apply node_kids; [nd|]. repeat apply Forall_cons; try apply Forall_nil; cbn [fst snd]; (split; [nm|leaf]).
    - leaf.
    - apply node_leaf. exact N.
    - apply node_objs. intros d I. apply node_dirr. rewrite Forall_forall in F. apply F, I.
    - apply node_mat, S.
  Qed.
  Lemma node_geom g : good_geometry R g -> node R (geomr g).
  Proof.
    intros F. apply node_kids; [nd|]. repeat apply Forall_cons; try apply Forall_nil; cbn [fst snd]; (split; [nm|]).
    - leaf.
    - apply node_objs. intros t I. apply node_term. unfold good_geometry in F. rewrite Forall_forall in F. apply F, I.
  Qed.

  (** reading what was written *)
  Section Read.
    Variable f : file R.
    Definition seen (label : str) (r : list rel) : Prop :=
      (forall p k x, In (RV R p k x) r -> forall old, rd R k f (label ++ p) old = Ok x) /\
      (forall p, In (RN R p) r -> forall k old, rd R k f (label ++ p) old = Throw).
    Lemma seen_dir label l c r : seen label (RG R [] :: dir_ R l) -> In (c, r) l -> seen (label ++ slash :: c) r.
    Proof.
      intros (A & B) I.
      assert (D : forall a, In a r -> In (pre R c a) (RG R [] :: dir_ R l)).
      { intros a Ia. right. apply in_flat_map. exists (c, r). split; [exact I|]. apply in_map. exact Ia. }
      split.
      - intros p k x Ip old. rewrite <- app_assoc. apply (A (slash :: c ++ p) k x). exact (D _ Ip).
      - intros p Ip k old. rewrite <- app_assoc. apply (B (slash :: c ++ p)). exact (D _ Ip).
    Qed.
    Lemma seen_kids label l w r : seen label (kids l) -> In (w, r) l -> seen (item label w) r.
    Proof. intros S I. apply (seen_dir label _ (lit w) r S). apply in_map_iff. exists (w, r). auto. Qed.
    Lemma seen_leaf n k x : seen n [RV R [] k x] -> forall old, rd R k f n old = Ok x.
    Proof. intros (A & _) old. specialize (A [] k x (or_introl eq_refl) old). rewrite app_nil_r in A. exact A. Qed.
    Lemma seen_num n x : seen n (numr x) -> has_number R f n x.
    Proof. intros S. exact (seen_leaf n KInt _ S 0%Z). Qed.
    Lemma seen_objs {T} (r : T -> list rel) (has : str -> T -> Prop) n l : (forall n x, seen n (r x) -> has n x) -> seen n (objr r l) -> has_objects R f has n l.
    Proof.
      intros H S. split.
      - apply seen_num. apply (seen_dir n _ (lit "Size") _ S). left. reflexivity.
      - intros i x E. apply H. apply (seen_dir n _ (print_nat i) _ S). right. apply (in_count r l 0 i x E).
    Qed.
    Lemma seen_mat n m : seen n (matr m) -> has_matrix R f n m.
    Proof.
      unfold matr. destruct ((m_nrow m =? 0) || (m_ncol m =? 0))%nat eqn:E; intros S old.
      - pose proof (seen_num _ _ (seen_kids n _ "nrow_" _ S (or_introl eq_refl))) as A. pose proof (seen_num _ _ (seen_kids n _ "ncol_" _ S (or_intror (or_introl eq_refl)))) as B.
        unfold has_number in A, B. exists (mkmat (m_nrow m) (m_ncol m) (m_data old)). unfold mat_readNg.
        change (sub n "nrow_") with (item n "nrow_"). change (sub n "ncol_") with (item n "ncol_"). rewrite A, B. cbn [bind]. rewrite !Nat2Z.id, E.
        split; [reflexivity|]. split; [reflexivity|]. split; [reflexivity|]. intros C D. destruct (m_nrow m); [lia|]. destruct (m_ncol m); [lia|]. discriminate E.
      - exists m. split; [exact (seen_leaf n KMat m S old)|]. auto.
    Qed.
    Ltac kid S w := eapply (seen_kids _ _ w); [exact S|cbn [In]; tauto].
    Ltac aux IA w := let X := fresh in pose proof (IA w) as X; cbn [String.append] in X; rewrite <- X; clear X.
    Lemma seen_direction n d : seen n (dirr d) -> has_direction R f n d.
    Proof.
      intros S. assert (A : seen (item n "aux_") (kids [("constantValues", boolr (gd_const R d)); ("dirId", numr (gd_dirId R d)); ("edof", [RV R [] KInt (enumNumber (gd_idof R d))])]%string)) by kid S "aux_"%string.
      assert (IA : forall w, item (item n "aux_") w = item n (String.append "aux_/" w)). { intros w. unfold item. rewrite <- !app_assoc. reflexivity. }
      split; [|split; [|split; [|split; [|split]]]].
      - aux IA "constantValues"%string. apply (seen_leaf _ KBool) with (old := true). kid A "constantValues"%string.
      - aux IA "dirId"%string. apply seen_num. kid A "dirId"%string.
      - aux IA "edof"%string. pose proof (seen_leaf (item (item n "aux_") "edof") KInt (enumNumber (gd_idof R d)) ltac:(kid A "edof"%string) 0%Z) as E. exact E.
      - assert (B : seen (item n "dataNumbers_") (numsr (gd_numbers R d))) by kid S "dataNumbers_"%string. destruct (gd_numbers R d) as [|x l].
        + destruct B as (_ & B). specialize (B [] (or_introl eq_refl) KFlts []). rewrite app_nil_r in B. exact B.
        + exact (seen_leaf _ KFlts _ B []).
      - apply (seen_objs matr); [exact seen_mat|]. kid S "dataMatrices_"%string.
      - apply seen_mat. kid S "rawHoppings_"%string.
    Qed.
    Lemma seen_term n t : seen n (termr t) -> has_term R f n t.
    Proof.
      intros S. assert (A : seen (item n "aux_") (kids [("debug", boolr (gt_debug R t)); ("termId", numr (gt_termId R t)); ("numberOfTerms", numr (gt_numberOfTerms R t)); ("linSize", numr (gt_linSize R t))]%string)) by kid S "aux_"%string.
      assert (IA : forall w, item (item n "aux_") w = item n (String.append "aux_/" w)). { intros w. unfold item. rewrite <- !app_assoc. reflexivity. }
      split; [|split; [|split; [|split; [|split; [|split; [|split]]]]]].
      - aux IA "debug"%string. apply (seen_leaf _ KBool) with (old := true). kid A "debug"%string.
      - aux IA "termId"%string. apply seen_num. kid A "termId"%string.
      - aux IA "numberOfTerms"%string. apply seen_num. kid A "numberOfTerms"%string.
      - aux IA "linSize"%string. apply seen_num. kid A "linSize"%string.
      - apply seen_num. kid S "orbitals_"%string.
      - apply (seen_leaf _ KStr) with (old := []). kid S "gOptions_"%string.
      - apply (seen_objs dirr); [exact seen_direction|]. kid S "directions_"%string.
      - apply seen_mat. kid S "cachedValues_"%string.
    Qed.
    Lemma seen_geometry n g : seen n (geomr g) -> has_geometry R f n g.
    Proof.
      intros S. split; [apply seen_num; kid S "linSize_"%string|]. apply (seen_objs termr); [exact seen_term|]. kid S "terms_"%string.
    Qed.
  End Read.
End P.

Lemma closed_under (R : cring) l f0 label : Inv R f0 (want_steps R (empty_store R) l) -> want_steps R (empty_store R) l label = None ->
  forall n, under label n -> want_steps R (empty_store R) l n = None.
Proof.
  intros If W n [->|(r & ->)]; [exact W|]. destruct (want_steps R (empty_store R) l (label ++ slash :: r)) as [e|] eqn:E; [|reflexivity].
  pose proof (ancestor R _ _ label r (i_closed _ _ _ If) (proj2 (i_closed _ _ _ If _ _ E)) eq_refl). congruence.
Qed.

Lemma tree_history (R : cring) (l1 l2 : list (step R)) label r :
  let st1 := want_steps R (empty_store R) l1 in
  propers R (empty_store R) l1 -> good_name label -> st1 label = None -> inside R st1 label -> node R r ->
  (forall s, In s l2 -> ~ under label (step_name R s)) ->
  (forall st, (forall n, ~ under label n -> st n = st1 n) -> propers R st l2) ->
  exists s f0 f1 f2 f s' disk s'' h,
    ser_new R None TRUNC = Ok s /\ se_file R s = Some f0 /\
    do_steps R f0 l1 = Ok f1 /\ do_steps R f1 (at_ R label r) = Ok f2 /\ do_steps R f2 l2 = Ok f /\
    ser_close R (mkser R (Some f) (se_h5mode R s) (se_mode R s)) = Ok (s', disk) /\ ser_new R (Some disk) RDONLY = Ok s'' /\ se_file R s'' = Some h /\
    seen R h label r /\
    (forall n k x old, st1 n = Some (EVal k x) -> (forall s, In s l2 -> step_name R s <> n) -> rd R k h n old = Ok x).
Proof.
  intros st1 P1 G W Is GG A P2.
  destruct (inv_new R) as (f00 & s0 & _ & _ & I0 & _). destruct (inv_steps R l1 f00 _ I0 P1) as (f01 & _ & If & _).
  pose proof (closed_under R l1 f01 label If W) as Cl. clear If I0.
  destruct (node_writes R _ GG label st1 G Is Cl) as (Pg & Og & (Dg & Dv & Dn) & Ug).
  set (lg := at_ R label r) in *. set (st2 := want_steps R st1 lg) in *.
  assert (P : propers R (empty_store R) (l1 ++ lg ++ l2)).
  { apply propers_app2; [exact P1|]. apply propers_app2; [exact Pg|]. apply P2. exact Og. }
  assert (E2 : forall n, (forall s, In s l2 -> step_name R s <> n) -> want_steps R (empty_store R) (l1 ++ lg ++ l2) n = st2 n).
  { intros n Hn. rewrite !want_app. apply want_none. exact Hn. }
  assert (P2' : propers R st2 l2). { apply propers_app in P. destruct P as [_ P]. apply propers_app in P. apply P. }
  destruct (C49_history_partial R _ P) as (s & f0 & f & s' & disk & s'' & h & H1 & H2 & H3 & H4 & H5 & H6 & H7).
  rewrite do_steps_app in H3. destruct (do_steps R f0 l1) as [f1| | |] eqn:E1; try discriminate H3. cbn [bind] in H3. rewrite do_steps_app in H3.
  destruct (do_steps R f1 lg) as [f2| | |] eqn:Eg; try discriminate H3. cbn [bind] in H3.
  exists s, f0, f1, f2, f, s', disk, s'', h. split; [exact H1|]. split; [exact H2|]. split; [exact E1|]. split; [exact Eg|]. split; [exact H3|]. split; [exact H4|]. split; [exact H5|]. split; [exact H6|].
  split.
  - split.
    + intros p k x Ip old. apply (proj1 (H7 h (or_intror eq_refl) (label ++ p))). rewrite E2; [apply Dv; exact Ip|].
      intros t It E. apply (A t It). rewrite E. apply Ug. apply (in_map (path R)) in Ip. exact Ip.
    + intros p Ip k old. destruct (Dn p Ip) as (N & Gp & Ip').
      apply (proj2 (proj2 (H7 h (or_intror eq_refl) (label ++ p)))); [|exact Gp|].
      * rewrite E2; [exact N|]. intros t It E. apply (A t It). rewrite E. apply Ug. apply (in_map (path R)) in Ip. exact Ip.
      * rewrite !want_app. apply (inside_keep R st2 l2); [exact P2'|exact Ip'].
  - intros n k x old En Hn. apply (proj1 (H7 h (or_intror eq_refl) n)). rewrite E2 by exact Hn. unfold st2. rewrite Og; [exact En|]. intros U.
    pose proof (Cl n U) as N. fold st1 in N. congruence.
Qed.

(** After any history of steps, a geometry is written under a new label, and other steps follow. After the file is closed and
    opened again, everything that was written of the geometry can be read under its label: the number of sites, and for every
    term and every direction its numbers, options and matrices. The values written before stay as they were.
    Missing for the full claim: options that are empty, and the degrees of freedom of a direction (see below). *)
Theorem C124_geometry_partial : forall (R : cring) (l1 l2 : list (step R)) label (g : geom R),
  let st1 := want_steps R (empty_store R) l1 in
  propers R (empty_store R) l1 -> good_name label -> st1 label = None -> inside R st1 label -> good_geometry R g ->
  (forall s, In s l2 -> ~ under label (step_name R s)) ->
  (forall st, (forall n, ~ under label n -> st n = st1 n) -> propers R st l2) ->
  exists s f0 f1 f2 f s' disk s'' h,
    ser_new R None TRUNC = Ok s /\ se_file R s = Some f0 /\
    do_steps R f0 l1 = Ok f1 /\ geom_write R f1 label g = Ok f2 /\ do_steps R f2 l2 = Ok f /\
    ser_close R (mkser R (Some f) (se_h5mode R s) (se_mode R s)) = Ok (s', disk) /\ ser_new R (Some disk) RDONLY = Ok s'' /\ se_file R s'' = Some h /\
    has_geometry R h label g /\
    (forall n k x old, st1 n = Some (EVal k x) -> (forall s, In s l2 -> step_name R s <> n) -> rd R k h n old = Ok x).
Proof.
  intros R l1 l2 label g st1 P1 G W Is GG A P2.
  destruct (tree_history R l1 l2 label (geomr R g) P1 G W Is (node_geom R g GG) A P2) as (s & f0 & f1 & f2 & f & s' & disk & s'' & h & H1 & H2 & H3 & H4 & H5 & H6 & H7 & H8 & H9 & H10).
  rewrite geomr_do in H4. exists s, f0, f1, f2, f, s', disk, s'', h. repeat (split; [assumption|]). split; [apply seen_geometry; exact H9|exact H10].
Qed.
Print Assumptions C124_geometry_partial.

(** A geometry is not written over another one, nor over anything else. *)
Theorem C124_taken : forall (R : cring) f label (g : geom R), f (full label) <> None -> geom_write R f label g = Throw.
Proof. intros R f label g H. unfold geom_write, createGroup, h5_create. destruct (f (full label)); [reflexivity|contradiction]. Qed.
Print Assumptions C124_taken.

Definition with_dofs {R : cring} (k : gdir R -> nat) (d : gdir R) : gdir R :=
  mkgdir R (gd_const R d) (gd_dirId R d) (gd_idof R d) (k d) (gd_numbers R d) (gd_matrices R d) (gd_raw R d).
Definition with_dofs_g {R : cring} (k : gdir R -> nat) (g : geom R) : geom R :=
  mkgeom R (ge_linSize R g) (map (fun t => mkgterm R (gt_debug R t) (gt_termId R t) (gt_numberOfTerms R t) (gt_linSize R t) (gt_orbitals R t) (gt_options R t)
    (map (with_dofs k) (gt_directions R t)) (gt_cached R t)) (ge_terms R g)).
Lemma write_objs_map {R : cring} {T} (w : file R -> str -> T -> res (file R)) (h : T -> T) : (forall f n x, w f n (h x) = w f n x) ->
  forall f n l, write_objs R w f n (map h l) = write_objs R w f n l.
Proof.
  intros H f n l. unfold write_objs. rewrite map_length. destruct (createGroup R f n) as [g| | |]; cbn [bind]; auto.
  assert (A : forall k i s, forM k i (fun i f => do x <- vget (map h l) i ;; w f (subn n i) x) s = forM k i (fun i f => do x <- vget l i ;; w f (subn n i) x) s).
  { induction k as [|k IH]; intros i s; [reflexivity|]. cbn [forM]. unfold vget at 1 3. rewrite nth_error_map. destruct (nth_error l i) as [x|]; cbn [option_map bind]; [|reflexivity].
    rewrite H. destruct (w s (subn n i) x); cbn [bind]; auto. }
  apply A.
Qed.
(** The claim that everything the directions have is in the file is false: whatever their degrees of freedom are, the file is
    the same. *)
Theorem C124_dofs_refuted : forall (R : cring) f label (g : geom R) k, geom_write R f label (with_dofs_g k g) = geom_write R f label g.
Proof.
  intros R f label g k. unfold geom_write, with_dofs_g. cbn [ge_linSize ge_terms]. destruct (createGroup R f label) as [h| | |]; cbn [bind]; auto.
  apply write_objs_map. clear f label g h. intros f n t. unfold term_write. destruct (createGroup R f n) as [h| | |]; cbn [bind]; auto.
  unfold termaux_write. cbn [gt_debug gt_termId gt_numberOfTerms gt_linSize gt_orbitals gt_options gt_directions gt_cached].
  destruct (createGroup R h (sub n "aux_")) as [h1| | |]; cbn [bind]; auto. cbn [write_string bind]. rewrite write_objs_map; [reflexivity|]. reflexivity.
Qed.
Print Assumptions C124_dofs_refuted.

(** A ladder of four sites with two directions, one with numbers and one with a matrix, after another value and before one *)
Definition ex_dirs : list (gdir Zring) :=
  [mkgdir Zring true 0 SPECIFIC 1 [7]%Z [] (mkmat (R:=Zring) 0 0 []); mkgdir Zring false 1 GENERAL 2 [] [mkmat (R:=Zring) 1 1 [9]%Z] (mkmat (R:=Zring) 2 1 [3; 4]%Z)].
Definition ex_geom : geom Zring := mkgeom Zring 4 [mkgterm Zring false 0 1 4 2 (lit "none") ex_dirs (mkmat (R:=Zring) 1 2 [5; 6]%Z)].
Example C124_nonvacuous : let l1 := [SGroup (lit "Model"); SWrite (lit "Energy") KInt (-7)%Z] in let st1 := want_steps Zring (empty_store Zring) l1 in
  let l2 := [SWrite (lit "After") KInt 5%Z] in let label := lit "Model/geometry" in
  propers Zring (empty_store Zring) l1 /\ good_name label /\ st1 label = None /\ inside Zring st1 label /\ good_geometry Zring ex_geom /\
  (forall s, In s l2 -> ~ under label (step_name Zring s)) /\
  (forall st, (forall n, ~ under label n -> st n = st1 n) -> propers Zring st l2).
Proof.
  cbv zeta. assert (U : ~ under (lit "Model/geometry") (lit "After")) by (intros [H|(r & H)]; discriminate H). split; [|split; [|split; [|split; [|split; [|split]]]]].
  - cbn [propers proper want_step]. split; [split; [good [lit "Model"]|split; [reflexivity|top]]|]. split; [|exact I]. split; [good [lit "Energy"]|]. split; [reflexivity|]. split; [top|exact I].
  - good [lit "Model"; lit "geometry"].
  - reflexivity.
  - right. exists (lit "Model"), (lit "geometry"). split; [reflexivity|]. split; [apply okc_ok; reflexivity|reflexivity].
  - constructor; [|constructor]. split; [discriminate|]. split; [|reflexivity]. repeat constructor.
  - intros s [<-|[]]. exact U.
  - intros st H. cbn [propers proper]. split; [|exact I]. split; [good [lit "After"]|]. split; [rewrite H by exact U; reflexivity|]. split; [top|exact I].
Qed.
