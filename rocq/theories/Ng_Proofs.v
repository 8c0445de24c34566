From Coq Require Import Ascii String.
From Verif Require Import Prelude Ring Str_Model Str_Proofs Text_Model Text_Proofs Dense_Model Crs_Model Crs_Spec
  Ng_Model Ng_Spec.
Import List.

(** Strings *)
Lemma str_eqb_neq a b : a <> b -> str_eqb a b = false.
Proof. intros H. destruct (str_eqb a b) eqn:E; auto. apply str_eqb_eq in E. contradiction. Qed.
Lemma str_eqb_false a b : str_eqb a b = false -> a <> b.
Proof. intros H E. subst. rewrite str_eqb_refl in H. discriminate. Qed.
Lemma prefixb_false p s : (forall b, s <> p ++ b) -> prefixb p s = false.
Proof. intros H. destruct (prefixb p s) eqn:E; auto. apply prefixb_true in E. destruct E as [b Eb]. elim (H b Eb). Qed.
Lemma prefixb_false_inv p s b : prefixb p s = false -> s <> p ++ b.
Proof. intros H E. assert (prefixb p s = true) by (apply prefixb_true; eauto). congruence. Qed.

Definition is_slash (c : ascii) : bool := Ascii.eqb c "/".

Lemma split_slash (a b c d : str) : a ++ b = c ++ slash :: d -> ~ In slash b -> exists e, a = c ++ slash :: e.
Proof.
  revert c. induction a as [|x a IH]; intros c H N; simpl in H.
  - subst b. elim N. apply in_or_app. right; left; auto.
  - destruct c as [|y c]; simpl in H; inversion H; subst.
    + exists a. auto.
    + destruct (IH c H2 N) as [e He]. exists e. simpl. f_equal. auto.
Qed.
Lemma two_slashes (a b c d : str) : a ++ slash :: b = c ++ slash :: d ->
  a = c \/ (exists e, a = c ++ slash :: e) \/ (exists e, c = a ++ slash :: e).
Proof.
  revert c. induction a as [|x a IH]; intros c H; destruct c as [|y c]; simpl in H; auto.
  - inversion H; subst. right. right. exists c. auto.
  - inversion H; subst. right. left. exists a. auto.
  - inversion H; subst. destruct (IH c H2) as [E|[[e E]|[e E]]]; subst; auto; right; [left|right]; exists e; auto.
Qed.

Definition tag : str := lit "ComplexOrReal".
Lemma tag_noslash : ~ In slash tag.
Proof. vm_compute. intros H. repeat (destruct H as [H|H]; [discriminate|]). destruct H. Qed.
Lemma canary_noslash : ~ In slash (lit "Canary").
Proof. vm_compute. intros H. repeat (destruct H as [H|H]; [discriminate|]). destruct H. Qed.

Lemma full_ne n : n <> [] -> full n = lit "Def/" ++ n.
Proof. destruct n; [contradiction|reflexivity]. Qed.
Lemma full_inj a b : a <> [] -> b <> [] -> full a = full b -> a = b.
Proof. intros Ha Hb H. rewrite !full_ne in H by auto. apply app_inv_head in H. auto. Qed.
Lemma full_app a b : a <> [] -> full (a ++ b) = full a ++ b.
Proof. intros H. destruct a; [contradiction|reflexivity]. Qed.
Lemma app_ne {A} (a b : list A) : a <> [] -> a ++ b <> [].
Proof. destruct a; [contradiction|discriminate]. Qed.
Lemma full_nonil n : full n <> [].
Proof. destruct n; discriminate. Qed.

(** The parent of a path *)
Lemma drop_last_spec r q : drop_last r = Some q <-> exists c, r = c ++ slash :: rev q /\ ~ In slash c.
Proof.
  revert q. induction r as [|x r IH]; intros q; simpl.
  - split; [discriminate|]. intros [c [H _]]. destruct c; discriminate.
  - destruct (Ascii.eqb x "/") eqn:E.
    + apply Ascii.eqb_eq in E. subst x. split.
      * intros H. inversion H; subst. exists []. rewrite rev_involutive. split; auto.
      * intros [c [H N]]. destruct c as [|y c]; simpl in H; inversion H; subst.
        { rewrite rev_involutive. auto. }
        { elim N. left. auto. }
    + apply Ascii.eqb_neq in E. rewrite IH. split.
      * intros [c [H N]]. exists (x :: c). subst r. split; auto. intros [H|H]; auto.
      * intros [c [H N]]. destruct c as [|y c]; simpl in H; inversion H; subst; [elim E; auto|].
        exists c. split; auto. intros H'. apply N. right. auto.
Qed.
Lemma parent_spec p q : parent p = Some q <-> exists c, p = q ++ slash :: c /\ ~ In slash c.
Proof.
  unfold parent. rewrite drop_last_spec. split; intros [c [H N]].
  - exists (rev c). split.
    + rewrite <- (rev_involutive p), H, rev_app_distr. simpl. rewrite rev_involutive, <- app_assoc. auto.
    + intros I. apply N. apply in_rev. auto.
  - exists (rev c). split.
    + subst p. rewrite rev_app_distr. simpl. rewrite <- app_assoc. auto.
    + intros I. apply N. apply in_rev in I. auto.
Qed.
Lemma parent_child q c : ~ In slash c -> parent (q ++ slash :: c) = Some q.
Proof. intros N. apply parent_spec. exists c. auto. Qed.

Lemma snoc_ne {A} (a : list A) x b : a <> a ++ x :: b.
Proof. intros H. apply (f_equal (@List.length A)) in H. rewrite app_length in H. simpl in H. lia. Qed.
Lemma snoc_ne2 {A} (a : list A) x b c : a <> (a ++ x :: b) ++ c.
Proof. rewrite <- app_assoc. apply snoc_ne. Qed.

Section P.
  Variable F : Type.
  Notation file := (file F).
  Implicit Types (f g : file) (n : str).

  (** The paths a value under the name [n] may use. *)
  Definition foot (n k : str) : Prop :=
    k = full n \/ k = full (tagname n) \/ exists r, k = full n ++ slash :: r.
  Definition fresh f n : Prop := forall k, foot n k -> f k = None.
  Definition same_off f g n : Prop := forall k, ~ foot n k -> g k = f k.
  Definition par f n : Prop := parent_ok F f (full n) = true.

  (** Names that do not interfere *)
  Definition apart (a b : str) : Prop :=
    a <> b /\ a <> tagname b /\ b <> tagname a /\ (forall r, a <> b ++ slash :: r) /\ (forall r, b <> a ++ slash :: r).

  Lemma apart_sym a b : apart a b -> apart b a.
  Proof. unfold apart. intuition. Qed.

  Lemma apart_foot a b k : a <> [] -> b <> [] -> apart a b -> foot a k -> ~ foot b k.
  Proof.
    intros Ha Hb (N1 & N2 & N3 & N4 & N5) Fa Fb. unfold foot, tagname in *. fold tag in *.
    assert (Ta : a ++ tag <> []) by (apply app_ne; auto).
    assert (Tb : b ++ tag <> []) by (apply app_ne; auto).
    assert (D : forall u v : str, lit "Def/" ++ u = lit "Def/" ++ v -> u = v) by (intros u v E; apply app_inv_head in E; auto).
    destruct Fa as [Ea|[Ea|[r Ea]]]; destruct Fb as [Eb|[Eb|[s Eb]]]; rewrite Ea in Eb; clear Ea; rewrite !full_ne in Eb by auto;
      rewrite <- ?app_assoc in Eb; apply D in Eb.
    - auto.
    - auto.
    - elim (N4 s). auto.
    - apply N3. auto.
    - apply app_inv_tail in Eb. auto.
    - destruct (split_slash _ _ _ _ Eb tag_noslash) as [e He]. elim (N4 e). auto.
    - elim (N5 r). auto.
    - symmetry in Eb. destruct (split_slash _ _ _ _ Eb tag_noslash) as [e He]. elim (N5 e). auto.
    - destruct (two_slashes _ _ _ _ Eb) as [E|[[e E]|[e E]]]; [auto|elim (N4 e)|elim (N5 e)]; auto.
  Qed.

  (** Creating and overwriting data sets *)
  Lemma fset_eq f p x : fset F f p x p = Some x.
  Proof. unfold fset. rewrite str_eqb_refl. auto. Qed.
  Lemma fset_neq f p x q : q <> p -> fset F f p x q = f q.
  Proof. intros H. unfold fset. rewrite str_eqb_neq; auto. Qed.

  Lemma create_ok f p x : f p = None -> parent_ok F f p = true -> h5_create F f p x = Ok (fset F f p x).
  Proof. intros H P. unfold h5_create. rewrite H, P. auto. Qed.
  Lemma write_new f p l : f p = None -> parent_ok F f p = true -> internalWrite F f p l = (fset F f p (Data l), true).
  Proof. intros H P. unfold internalWrite. rewrite create_ok; auto. Qed.
  Lemma write_noparent f p l : parent_ok F f p = false -> internalWrite F f p l = (f, false).
  Proof. intros P. unfold internalWrite, h5_create. rewrite P. destruct (f p); auto. Qed.
  Lemma write_exists f p l x : f p = Some x -> internalWrite F f p l = (f, false).
  Proof. intros P. unfold internalWrite, h5_create. rewrite P. auto. Qed.

  Definition below (p k : str) : bool := prefixb (p ++ lit "/") k.
  Lemma below_true p k : below p k = true <-> exists r, k = p ++ slash :: r.
  Proof.
    unfold below. rewrite prefixb_true. split; intros [r E]; exists r; rewrite E.
    - rewrite <- app_assoc. auto.
    - rewrite <- app_assoc. auto.
  Qed.
  Lemma below_false p k : (forall r, k <> p ++ slash :: r) -> below p k = false.
  Proof. intros H. destruct (below p k) eqn:E; auto. apply below_true in E. destruct E as [r E]. elim (H r E). Qed.

  Lemma parent_ok_unlink f p : parent_ok F f p = true -> parent_ok F (funlink F f p) p = true.
  Proof.
    unfold parent_ok. destruct (parent p) as [q|] eqn:E; auto. apply parent_spec in E.
    destruct E as [c [E N]]. unfold funlink. fold (below p q).
    rewrite str_eqb_neq by (subst p; apply snoc_ne).
    rewrite below_false; [auto|]. intros r Er. subst p. apply (snoc_ne2 q slash c (slash :: r)). auto.
  Qed.

  (** The file after the data set at [p] was replaced. *)
  Definition rewritten f p l : file :=
    fun k => if str_eqb k p then Some (Data l) else if below p k then None else f k.
  Lemma over_ok f p l x : f p = Some x -> parent_ok F f p = true ->
    exists f', overwriteRaw F f p l = (f', true) /\ forall k, f' k = rewritten f p l k.
  Proof.
    intros H P. unfold overwriteRaw, h5_unlink. rewrite H. rewrite write_new.
    - eexists. split; eauto. intros k. unfold fset, rewritten, funlink. fold (below p k).
      destruct (str_eqb k p); auto.
    - unfold funlink. rewrite str_eqb_refl. auto.
    - apply parent_ok_unlink. auto.
  Qed.
  Lemma over_new f p l : f p = None -> parent_ok F f p = true -> overwriteRaw F f p l = (fset F f p (Data l), true).
  Proof. intros H P. unfold overwriteRaw, h5_unlink. rewrite H. apply write_new; auto. Qed.
  Lemma over_noparent f p l : f p = None -> parent_ok F f p = false -> overwriteRaw F f p l = (f, false).
  Proof. intros H P. unfold overwriteRaw, h5_unlink. rewrite H. apply write_noparent; auto. Qed.

  Lemma rewritten_at f p l : rewritten f p l p = Some (Data l).
  Proof. unfold rewritten. rewrite str_eqb_refl. auto. Qed.
  Lemma rewritten_off f p l k : k <> p -> (forall r, k <> p ++ slash :: r) -> rewritten f p l k = f k.
  Proof. intros H N. unfold rewritten. rewrite str_eqb_neq, below_false; auto. Qed.

  (** A codec: how values of one type are kept. *)
  Record codec (T : Type) : Type := mkcodec {
    cwr : file -> str -> T -> wmode -> res file;
    crd : file -> str -> T -> res T;
    chas : file -> str -> T -> Prop;
    cok : T -> Prop;
    cow : Prop;
    cowf : Prop;
    cext : forall f g n x, n <> [] -> (forall k, foot n k -> f k = g k) -> chas f n x -> chas g n x;
    cwrite : forall f n x, n <> [] -> fresh f n -> par f n -> cok x ->
      exists g, cwr f n x NO_OVERWRITE = Ok g /\ chas g n x /\ same_off f g n;
    cover : forall f n x0 x, cow -> n <> [] -> par f n -> chas f n x0 -> cok x ->
      exists g, cwr f n x ALLOW_OVERWRITE = Ok g /\ chas g n x /\ same_off f g n;
    coverf : forall f n x, cowf -> n <> [] -> fresh f n -> par f n -> cok x ->
      exists g, cwr f n x ALLOW_OVERWRITE = Ok g /\ chas g n x /\ same_off f g n;
    cread : forall f n x old, n <> [] -> chas f n x -> crd f n old = Ok x
  }.

  Lemma foot_full n : foot n (full n). Proof. left. auto. Qed.
  Lemma foot_tag n : foot n (full (tagname n)). Proof. right; left. auto. Qed.

  (** One data set, no tag *)
  Lemma leaf_new f n l : fresh f n -> par f n ->
    exists g, internalWrite F f (full n) l = (g, true) /\ g (full n) = Some (Data l) /\
      g (full (tagname n)) = f (full (tagname n)) /\ same_off f g n.
  Proof.
    intros Hf Hp. exists (fset F f (full n) (Data l)).
    split; [apply write_new; auto; apply Hf, foot_full|]. split; [apply fset_eq|].
    split.
    - destruct (str_eqb (full (tagname n)) (full n)) eqn:E.
      + apply str_eqb_eq in E. exfalso. unfold tagname in E. destruct n; [discriminate|].
        rewrite !full_ne in E by discriminate. apply app_inv_head in E.
        apply (f_equal (@List.length _)) in E. rewrite app_length in E. simpl in E. lia.
      + apply fset_neq. apply str_eqb_false in E. auto.
    - intros k Hk. apply fset_neq. intros E. subst k. apply Hk, foot_full.
  Qed.
  Lemma leaf_newf f n l : fresh f n -> par f n ->
    exists g, overwriteRaw F f (full n) l = (g, true) /\ g (full n) = Some (Data l) /\
      g (full (tagname n)) = f (full (tagname n)) /\ same_off f g n.
  Proof.
    intros Hf Hp. destruct (leaf_new f n l Hf Hp) as (g & E & H). exists g. split; auto.
    rewrite over_new; auto; [|apply Hf, foot_full]. rewrite <- E. symmetry. apply write_new; auto. apply Hf, foot_full.
  Qed.
  Lemma tag_off n : n <> [] -> full (tagname n) <> full n /\ forall r, full (tagname n) <> full n ++ slash :: r.
  Proof.
    intros Hn. unfold tagname. rewrite full_app by auto. split.
    - intros E. apply (f_equal (@List.length _)) in E. rewrite app_length in E. simpl in E. lia.
    - intros r E. apply app_inv_head in E. discriminate.
  Qed.
  Lemma leaf_over f n l x : n <> [] -> f (full n) = Some x -> par f n ->
    exists g, overwriteRaw F f (full n) l = (g, true) /\ g (full n) = Some (Data l) /\
      g (full (tagname n)) = f (full (tagname n)) /\ same_off f g n.
  Proof.
    intros Hn Hx Hp. destruct (over_ok f (full n) l x Hx Hp) as (g & E & H). exists g. split; auto.
    split; [rewrite H; apply rewritten_at|]. destruct (tag_off n Hn) as [T1 T2]. split.
    - rewrite H. apply rewritten_off; auto.
    - intros k Hk. rewrite H. apply rewritten_off.
      + intros ->. apply Hk, foot_full.
      + intros r ->. apply Hk. right; right. exists r. auto.
  Qed.

  (** Numbers and other single data sets without a tag *)
  Section Leaf.
    Variable T : Type.
    Variable enc : T -> list (cell F).
    Definition leaf_has f n (x : T) : Prop := f (full n) = Some (Data (enc x)) /\ f (full (tagname n)) = None.
    Lemma leaf_ext f g n x : (forall k, foot n k -> f k = g k) -> leaf_has f n x -> leaf_has g n x.
    Proof. intros H [A B]. split; rewrite <- H; auto using foot_full, foot_tag. Qed.
    Lemma leaf_write f n x : fresh f n -> par f n ->
      exists g, internalWrite F f (full n) (enc x) = (g, true) /\ leaf_has g n x /\ same_off f g n.
    Proof.
      intros Hf Hp. destruct (leaf_new f n (enc x) Hf Hp) as (g & E & A & B & C). exists g. repeat split; auto.
      rewrite B. apply Hf, foot_tag.
    Qed.
    Lemma leaf_writef f n x : fresh f n -> par f n ->
      exists g, overwriteRaw F f (full n) (enc x) = (g, true) /\ leaf_has g n x /\ same_off f g n.
    Proof.
      intros Hf Hp. destruct (leaf_newf f n (enc x) Hf Hp) as (g & E & A & B & C). exists g. repeat split; auto.
      rewrite B. apply Hf, foot_tag.
    Qed.
    Lemma leaf_overw f n x0 x : n <> [] -> leaf_has f n x0 -> par f n ->
      exists g, overwriteRaw F f (full n) (enc x) = (g, true) /\ leaf_has g n x /\ same_off f g n.
    Proof.
      intros Hn [A0 B0] Hp. destruct (leaf_over f n (enc x) _ Hn A0 Hp) as (g & E & A & B & C). exists g. repeat split; auto.
      rewrite B. auto.
    Qed.
    Lemma leaf_data f n x : leaf_has f n x -> h5_data F f (full n) = Ok (enc x).
    Proof. intros [A B]. unfold h5_data. rewrite A. auto. Qed.
    Lemma leaf_disk f n x : n <> [] -> leaf_has f n x -> getReadEnumOnDisk F f n = Ok OTHER.
    Proof. intros Hn [A B]. unfold getReadEnumOnDisk, read_int, read_num, h5_data. rewrite B. auto. Qed.
  End Leaf.
End P.
