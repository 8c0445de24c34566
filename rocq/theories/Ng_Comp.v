(** Values that are kept as several data sets in a group. *)
From Coq Require Import Ascii String.
From Verif Require Import Prelude Ring Str_Model Str_Proofs Text_Model Text_Proofs Dense_Model Crs_Model Crs_Spec Str_Spec
  Ng_Model Ng_Spec Ng_Proofs Ng_Bool Ng_Codec.
Import List.

Definition ch (n c : str) : str := n ++ slash :: c.
Definition sibl (c d : str) : Prop := c <> d /\ c <> d ++ tag /\ d <> c ++ tag /\ ~ In slash c /\ ~ In slash d.
Lemma sibl_sym c d : sibl c d -> sibl d c.
Proof. unfold sibl. intuition. Qed.

Lemma ch_inj n c d : ch n c = ch n d -> c = d.
Proof. unfold ch. intros H. apply app_inv_head in H. congruence. Qed.
Lemma ch_ne n c : n <> [] -> ch n c <> [].
Proof. intros H. apply app_ne. auto. Qed.
Lemma full_ch n c : n <> [] -> full (ch n c) = full n ++ slash :: c.
Proof. intros H. unfold ch. apply full_app. auto. Qed.
Lemma tag_ch n c : tagname (ch n c) = ch n (c ++ tag).
Proof. unfold tagname, ch. rewrite <- app_assoc. auto. Qed.

Lemma ch_apart n c d : sibl c d -> apart (ch n c) (ch n d).
Proof.
  intros (A & B & C & Nc & Nd). unfold apart. rewrite !tag_ch. repeat split; try (intros E; apply ch_inj in E; auto; fail).
  - intros r E. unfold ch in E. rewrite <- app_assoc in E. apply app_inv_head in E. inversion E. subst c.
    apply Nc. apply in_or_app. right; left; auto.
  - intros r E. unfold ch in E. rewrite <- app_assoc in E. apply app_inv_head in E. inversion E. subst d.
    apply Nd. apply in_or_app. right; left; auto.
Qed.

Lemma foot_ch n c k : n <> [] -> foot (ch n c) k -> foot n k.
Proof.
  intros Hn H. right; right. destruct H as [E|[E|[r E]]]; subst k.
  - rewrite full_ch by auto. eauto.
  - rewrite tag_ch, full_ch by auto. eauto.
  - rewrite full_ch by auto. rewrite <- app_assoc. eexists. reflexivity.
Qed.
Lemma full_off_ch n c : n <> [] -> ~ foot (ch n c) (full n).
Proof.
  intros Hn H. destruct H as [E|[E|[r E]]]; rewrite ?tag_ch, full_ch in E by auto.
  - apply snoc_ne in E. auto.
  - apply snoc_ne in E. auto.
  - apply snoc_ne2 in E. auto.
Qed.
Lemma tag_off_ch n c : n <> [] -> ~ foot (ch n c) (full (tagname n)).
Proof.
  intros Hn H. unfold tagname at 1 in H. rewrite full_app in H by auto.
  destruct H as [E|[E|[r E]]]; rewrite ?tag_ch, full_ch in E by auto; rewrite <- ?app_assoc in E; apply app_inv_head in E; discriminate.
Qed.

(** The names of the members of a vector *)
Lemma pn_digits i : print_nat i <> [] /\ (forall c, In c (print_nat i) -> is_digit c) /\ atoi_digits (print_nat i) 0 = Z.of_nat i.
Proof.
  unfold print_nat, print_Z. destruct (Z.ltb_spec (Z.of_nat i) 0); [lia|]. apply digits_of_ok. lia.
Qed.
Lemma pn_inj i j : print_nat i = print_nat j -> i = j.
Proof. intros H. pose proof (pn_digits i) as (_ & _ & A). pose proof (pn_digits j) as (_ & _ & B). rewrite H in A. lia. Qed.
Lemma digit_not (c : ascii) : is_digit c -> (N_of_ascii c < 48 \/ 57 < N_of_ascii c)%N -> False.
Proof. intros A H. simpl in A. repeat (destruct A as [<-|A]; [vm_compute in H; destruct H as [H|H]; discriminate|]). destruct A. Qed.
Lemma pn_noslash i : ~ In slash (print_nat i).
Proof. intros H. pose proof (pn_digits i) as (_ & D & _). apply D in H. apply (digit_not _ H). left. reflexivity. Qed.
Lemma pn_notag i (p : str) : print_nat i <> p ++ tag.
Proof.
  intros E. pose proof (pn_digits i) as (_ & D & _). assert (I : In "C"%char (print_nat i)).
  { rewrite E. apply in_or_app. right. left. auto. }
  apply D in I. apply (digit_not _ I). right. reflexivity.
Qed.
Lemma sibl_pn i j : i <> j -> sibl (print_nat i) (print_nat j).
Proof. intros H. split; [intros E; apply pn_inj in E; auto|]. auto using pn_noslash, pn_notag. Qed.

(** Decide whether literal names are siblings. *)
Fixpoint noslashb (c : str) : bool := match c with [] => true | x :: c' => negb (Ascii.eqb x slash) && noslashb c' end.
Lemma noslashb_ok c : noslashb c = true -> ~ In slash c.
Proof.
  induction c as [|x c IH]; simpl; auto. intros H. apply andb_true_iff in H. destruct H as [H1 H2].
  intros [E|E]; [subst x; discriminate|]. apply IH; auto.
Qed.
Definition siblb (c d : str) : bool :=
  negb (str_eqb c d) && negb (str_eqb c (d ++ tag)) && negb (str_eqb d (c ++ tag)) && noslashb c && noslashb d.
Lemma siblb_ok c d : siblb c d = true -> sibl c d.
Proof.
  unfold siblb. rewrite !andb_true_iff, !negb_true_iff. intros ((((A & B) & C) & D) & E).
  apply str_eqb_false in A. apply str_eqb_false in B. apply str_eqb_false in C.
  split; auto. split; auto. split; auto. split; apply noslashb_ok; auto.
Qed.
Lemma sibl_size i : sibl (lit "Size") (print_nat i).
Proof.
  pose proof (pn_digits i) as (_ & D & _).
  assert (X : In "S"%char (print_nat i) -> False).
  { intros I. apply D in I. apply (digit_not _ I). right. reflexivity. }
  split; [|split; [|split; [|split]]].
  - intros E. apply X. rewrite <- E. left. auto.
  - intros E. apply (f_equal (@rev _)) in E. rewrite rev_app_distr in E. vm_compute in E. discriminate.
  - apply pn_notag.
  - apply noslashb_ok. reflexivity.
  - apply pn_noslash.
Qed.

Section Comp.
  Variable R : cring.
  Notation F := (car R).
  Notation file := (file F).
  Implicit Types (f g h : file) (n : str).

  Definition holder f n : Prop := f (full n) = Some Group /\ f (full (tagname n)) = None.

  Lemma group_new f n : n <> [] -> fresh F f n -> par F f n ->
    exists g, createGroup F f n = Ok g /\ holder g n /\ (forall c, fresh F g (ch n c)) /\ same_off F f g n.
  Proof.
    intros Hn Hf Hp. exists (fset F f (full n) Group). unfold createGroup. rewrite create_ok; auto; [|apply Hf, foot_full].
    split; auto. split; [split|split].
    - apply fset_eq.
    - rewrite fset_neq by (apply tag_off; auto). apply Hf, foot_tag.
    - intros c k Hk. rewrite fset_neq.
      + apply Hf. eapply foot_ch; eauto.
      + intros ->. eapply full_off_ch; eauto.
    - intros k Hk. apply fset_neq. intros ->. apply Hk, foot_full.
  Qed.

  (** What a change to one member keeps. *)
  Lemma keep_holder g h n c : n <> [] -> same_off F g h (ch n c) -> holder g n -> holder h n.
  Proof. intros Hn S [A B]. split; rewrite S; auto using full_off_ch, tag_off_ch. Qed.
  Lemma keep_off f g h n c : n <> [] -> same_off F f g n -> same_off F g h (ch n c) -> same_off F f h n.
  Proof. intros Hn A B k Hk. rewrite B, A; auto. intros H. apply Hk. eapply foot_ch; eauto. Qed.
  Lemma keep_same g h n c d : n <> [] -> sibl c d -> same_off F g h (ch n c) -> forall k, foot (ch n d) k -> h k = g k.
  Proof.
    intros Hn Hs S k Hk. apply S. eapply apart_foot; [| | |exact Hk]; try apply ch_ne; auto.
    apply ch_apart. apply sibl_sym. auto.
  Qed.
  Lemma keep_fresh g h n c d : n <> [] -> sibl c d -> same_off F g h (ch n c) -> fresh F g (ch n d) -> fresh F h (ch n d).
  Proof. intros Hn Hs S H k Hk. rewrite (keep_same g h n c d) by auto. auto. Qed.
  Lemma keep_has {T} (cd : codec F T) g h n c d x : n <> [] -> sibl c d -> same_off F g h (ch n c) ->
    chas F T cd g (ch n d) x -> chas F T cd h (ch n d) x.
  Proof. intros Hn Hs S H. eapply cext; [apply ch_ne; auto| |exact H]. intros k Hk. symmetry. eapply keep_same; eauto. Qed.
  Lemma same_off_refl f n : same_off F f f n.
  Proof. intros k _. auto. Qed.
  Lemma par_ch g n c : n <> [] -> ~ In slash c -> holder g n -> par F g (ch n c).
  Proof. intros Hn Nc [A B]. apply par_child; auto. Qed.

  Lemma int_wr f n z m g : cwr F Z (cInt R) f n z m = Ok g -> fst (write_num F f n (CI z) m) = g.
  Proof. intros H. apply Ok_inj in H. auto. Qed.

  (** ** Vectors *)
  Section Vec.
    Variable T : Type.
    Variable cd : codec F T.
    Variable d : T.

    Definition maybe f n : Prop := fresh F f n \/ exists x, chas F T cd f n x.
    Lemma keep_maybe g h n c e : n <> [] -> sibl c e -> same_off F g h (ch n c) -> maybe g (ch n e) -> maybe h (ch n e).
    Proof. intros Hn Hs S [H|[x H]]; [left; eapply keep_fresh|right; exists x; eapply keep_has]; eauto. Qed.

    Definition size_ : str := lit "Size".
    Definition vec_has f n (l : list T) : Prop :=
      Forall (cok F T cd) l /\ holder f n /\ chas F Z (cInt R) f (ch n size_) (Z.of_nat (List.length l)) /\
      (forall i, (i < List.length l)%nat -> chas F T cd f (ch n (print_nat i)) (nth i l d)) /\
      (forall i, (List.length l <= i)%nat -> maybe f (ch n (print_nat i))).

    Lemma size_noslash : ~ In slash size_.
    Proof. apply noslashb_ok. reflexivity. Qed.
    Lemma vec_ext f g n l : n <> [] -> (forall k, foot n k -> f k = g k) -> vec_has f n l -> vec_has g n l.
    Proof.
      intros Hn E (K & [A B] & S & H & M). split; auto.
      assert (E' : forall c k, foot (ch n c) k -> f k = g k) by (intros c k Hk; apply E; eapply foot_ch; eauto).
      split; [split; rewrite <- E; auto using foot_full, foot_tag|].
      split; [eapply cext; [apply ch_ne; auto| |exact S]; apply E'|].
      split; [intros i Hi; eapply cext; [apply ch_ne; auto| |apply H; auto]; apply E'|].
      intros i Hi. destruct (M i Hi) as [W|[x W]]; [left|right].
      - intros k Hk. rewrite <- (E' (print_nat i)); auto.
      - exists x. eapply cext; [apply ch_ne; auto| |exact W]. apply E'.
    Qed.

    (** Writing the elements *)
    Lemma vec_loop (m : wmode) f0 n l : n <> [] -> Forall (cok F T cd) l ->
      (m = ALLOW_OVERWRITE -> cow F T cd /\ cowf F T cd) ->
      forall g, holder g n -> same_off F f0 g n ->
      chas F Z (cInt R) g (ch n size_) (Z.of_nat (List.length l)) ->
      (forall i, if m then fresh F g (ch n (print_nat i)) else maybe g (ch n (print_nat i))) ->
      exists h, forM (List.length l) 0 (fun i f => do x <- vget l i ;; cwr F T cd f (subn n i) x m) g = Ok h /\
        vec_has h n l /\ same_off F f0 h n.
    Proof.
      intros Hn K Hm g G0 S0 Z0 M0.
      loopM (fun k h => holder h n /\ same_off F f0 h n /\
        chas F Z (cInt R) h (ch n size_) (Z.of_nat (List.length l)) /\
        (forall i, (i < k)%nat -> chas F T cd h (ch n (print_nat i)) (nth i l d)) /\
        (forall i, (k <= i)%nat -> if m then fresh F h (ch n (print_nat i)) else maybe h (ch n (print_nat i)))) as h E H.
      - split; auto. split; auto. split; auto. split; [intros; lia|]. intros i _. apply M0.
      - intros k h Hk (G & S & Zh & A & B). rewrite (vget_ok l d) by lia. cbn [bind].
        assert (Kx : cok F T cd (nth k l d)) by (rewrite Forall_forall in K; apply K, nth_In; lia).
        pose proof (ch_ne n (print_nat k) Hn) as Nk. pose proof (par_ch h n _ Hn (pn_noslash k) G) as Pk.
        change (subn n k) with (ch n (print_nat k)).
        assert (W : exists h', cwr F T cd h (ch n (print_nat k)) (nth k l d) m = Ok h' /\
          chas F T cd h' (ch n (print_nat k)) (nth k l d) /\ same_off F h h' (ch n (print_nat k))).
        { pose proof (B k (le_n k)) as Bk. destruct m.
          - apply cwrite; auto.
          - destruct (Hm eq_refl) as [O1 O2]. destruct Bk as [Bk|[x Bk]]; [apply coverf|eapply cover]; eauto. }
        destruct W as (h' & E & Hx & S'). exists h'. split; auto.
        split; [eapply keep_holder; eauto|]. split; [eapply keep_off; eauto|].
        split; [eapply keep_has; [| |exact S'|exact Zh]; auto; apply sibl_sym, sibl_size|]. split.
        + intros i Hi. destruct (Nat.eq_dec i k) as [->|Ne]; auto.
          eapply keep_has; [| |exact S'|apply A]; auto; [apply sibl_pn; auto|lia].
        + intros i Hi. specialize (B i ltac:(lia)). destruct m.
          * eapply keep_fresh; [| |exact S'|exact B]; auto. apply sibl_pn. lia.
          * eapply keep_maybe; [| |exact S'|exact B]; auto. apply sibl_pn. lia.
      - destruct H as (G & S & Zh & A & B). exists h. split; auto. split; auto. split; auto.
        rewrite Nat.add_0_l in *. split; auto. split; auto. split; auto. intros i Hi. specialize (B i Hi). destruct m; auto. left. auto.
    Qed.

    Lemma vec_write f n l : n <> [] -> fresh F f n -> par F f n -> Forall (cok F T cd) l ->
      exists g, write_vecof F (cwr F T cd) f n l NO_OVERWRITE = Ok g /\ vec_has g n l /\ same_off F f g n.
    Proof.
      intros Hn Hf Hp K. unfold write_vecof. destruct (group_new f n Hn Hf Hp) as (g & E & G & A & S). rewrite E. cbn [bind].
      destruct (cwrite F Z (cInt R) g (ch n size_) (Z.of_nat (List.length l))) as (h & E' & Z' & S'); auto using ch_ne, par_ch, size_noslash.
      { exact I. }
      apply int_wr in E'. change (sub n "Size") with (ch n size_). rewrite E'.
      apply (vec_loop NO_OVERWRITE f n l); auto.
      - discriminate.
      - eapply keep_holder; eauto.
      - eapply keep_off; eauto.
      - intros i. eapply keep_fresh; [| |exact S'|apply A]; auto. apply sibl_size.
    Qed.
    Lemma vec_over f n l0 l : cow F T cd /\ cowf F T cd -> n <> [] -> par F f n -> vec_has f n l0 -> Forall (cok F T cd) l ->
      exists g, write_vecof F (cwr F T cd) f n l ALLOW_OVERWRITE = Ok g /\ vec_has g n l /\ same_off F f g n.
    Proof.
      intros O Hn Hp (_ & G & Z0 & A & B) K. unfold write_vecof. cbn [bind].
      destruct (cover F Z (cInt R) f (ch n size_) (Z.of_nat (List.length l0)) (Z.of_nat (List.length l)) I) as (h & E' & Z' & S');
        auto using ch_ne, par_ch, size_noslash.
      { exact I. }
      apply int_wr in E'. change (sub n "Size") with (ch n size_). rewrite E'.
      apply (vec_loop ALLOW_OVERWRITE f n l); auto.
      - eapply keep_holder; eauto.
      - eapply keep_off; eauto. apply same_off_refl.
      - intros i. eapply keep_maybe; [| |exact S'|]; auto; [apply sibl_size|].
        destruct (Nat.lt_ge_cases i (List.length l0)) as [H|H]; [right; eexists; apply A; auto|auto].
    Qed.
    Lemma vec_read f n l old : n <> [] -> vec_has f n l ->
      read_vecof F d (crd F T cd) f n old = Ok l.
    Proof.
      intros Hn (K & G & Z0 & A & B). unfold read_vecof. change (sub n "Size") with (ch n size_).
      pose proof (cread F Z (cInt R) f (ch n size_) _ 0%Z (ch_ne n size_ Hn) Z0) as E. simpl in E. rewrite E. cbn [bind].
      rewrite Nat2Z.id.
      loopM (fun k v => List.length v = List.length l /\ forall i, (i < k)%nat -> nth i v d = nth i l d) as v E' H.
      - rewrite vresize_length. split; auto. intros; lia.
      - intros k v Hk (L & H). rewrite (vget_ok v d) by lia. cbn [bind]. change (subn n k) with (ch n (print_nat k)).
        rewrite (cread F T cd f _ (nth k l d)); auto using ch_ne; [|apply A; lia]. cbn [bind]. rewrite vset_ok by lia.
        eexists. split; eauto. rewrite upd_length. split; auto. intros i Hi. destruct (Nat.eq_dec i k) as [->|Ne].
        + apply nth_upd_eq. lia.
        + rewrite nth_upd_neq by auto. apply H. lia.
      - rewrite E'. f_equal. destruct H as [L H]. apply (list_eq_nth v l d); auto. intros i Hi. apply H. lia.
    Qed.

    (** overwrite of a vector of objects whose write throws when the object exists *)
    Variable wr_throws : forall f n x x', chas F T cd f n x -> cok F T cd x' -> cwr F T cd f n x' NO_OVERWRITE = Throw.
    Lemma vec_overwrite f n l0 l : cow F T cd -> n <> [] -> par F f n -> vec_has f n l0 -> Forall (cok F T cd) l ->
      exists g, overwrite_vecof F (read_int F) (fun f n x => cwr F T cd f n x NO_OVERWRITE)
                  (fun f n x => cwr F T cd f n x ALLOW_OVERWRITE) f n l = Ok g /\ vec_has g n l /\ same_off F f g n.
    Proof.
      intros O Hn Hp (_ & G & Z0 & A & B) K. unfold overwrite_vecof. change (sub n "Size") with (ch n size_).
      pose proof (cread F Z (cInt R) f (ch n size_) _ 0%Z (ch_ne n size_ Hn) Z0) as E. simpl in E. rewrite E. cbn [bind].
      rewrite Nat2Z.id.
      destruct (cover F Z (cInt R) f (ch n size_) (Z.of_nat (List.length l0)) (Z.of_nat (List.length l)) I) as (h0 & E' & Z' & S');
        auto using ch_ne, par_ch, size_noslash.
      { exact I. }
      apply int_wr in E'. rewrite E'. set (N0 := List.length l0) in *. set (N := List.length l) in *.
      assert (M1 : forall i, (i < N0)%nat -> exists x, chas F T cd h0 (ch n (print_nat i)) x).
      { intros i Hi. eexists. eapply keep_has; [| |exact S'|apply A; auto]; auto. apply sibl_size. }
      assert (M2 : forall i, (N0 <= i)%nat -> maybe h0 (ch n (print_nat i))).
      { intros i Hi. eapply keep_maybe; [| |exact S'|]; auto. apply sibl_size. }
      set (P := fun k h => holder h n /\ same_off F f h n /\ chas F Z (cInt R) h (ch n size_) (Z.of_nat N) /\
        (forall i, (i < k)%nat -> chas F T cd h (ch n (print_nat i)) (nth i l d)) /\
        (forall i, (k <= i < N0)%nat -> exists x, chas F T cd h (ch n (print_nat i)) x) /\
        (forall i, (Nat.max k N0 <= i)%nat -> maybe h (ch n (print_nat i)))).
      assert (St : forall k h h', (k < N)%nat -> P k h -> chas F T cd h' (ch n (print_nat k)) (nth k l d) ->
        same_off F h h' (ch n (print_nat k)) -> P (S k) h').
      { intros k h h' Hk (Gh & Sh & Zh & Ah & Bh & Ch) Hx Sx. unfold P.
        split; [eapply keep_holder; eauto|]. split; [eapply keep_off; eauto|].
        split; [eapply keep_has; [| |exact Sx|exact Zh]; auto; apply sibl_sym, sibl_size|]. split; [|split].
        - intros i Hi. destruct (Nat.eq_dec i k) as [->|Ne]; auto.
          eapply keep_has; [| |exact Sx|apply Ah]; auto; [apply sibl_pn; auto|lia].
        - intros i Hi. destruct (Bh i ltac:(lia)) as [x Hi']. exists x. eapply keep_has; [| |exact Sx|exact Hi']; auto. apply sibl_pn. lia.
        - intros i Hi. eapply keep_maybe; [| |exact Sx|apply Ch]; auto; [apply sibl_pn|]; lia. }
      loopM P as h E1 H1.
      - split; [eapply keep_holder; eauto|]. split; [eapply keep_off; eauto; apply same_off_refl|]. split; auto.
        split; [intros; lia|]. split; [intros i Hi; apply M1; lia|]. intros i Hi. apply M2. lia.
      - intros k h Hk Ph. rewrite (vget_ok l d) by (unfold N in *; lia). cbn [bind].
        change (subn n k) with (ch n (print_nat k)). pose proof Ph as (Gh & Sh & Zh & Ah & Bh & Ch).
        destruct (Bh k ltac:(lia)) as [x0 H0].
        destruct (cover F T cd h (ch n (print_nat k)) x0 (nth k l d) O) as (h' & Eh & Hx & Sx); auto using ch_ne, par_ch, pn_noslash.
        { rewrite Forall_forall in K. apply K, nth_In. unfold N in *. lia. }
        exists h'. split; auto. apply (St k h h'); auto. lia.
      - rewrite E1. cbn [bind]. rewrite Nat.add_0_l in *.
        assert (Fin : forall h, P N h -> vec_has h n l /\ same_off F f h n).
        { intros h' (Gh & Sh & Zh & Ah & Bh & Ch). split; auto. split; auto. split; auto. split; auto. split; auto.
          intros i Hi. destruct (Nat.lt_ge_cases i N0) as [L|L].
          - right. apply Bh. unfold N in *. lia.
          - apply Ch. unfold N in *. lia. }
        destruct (Nat.leb_spec N N0) as [Le|Gt].
        + exists h. split; auto. apply Fin. replace N with (Nat.min N0 N) by lia. auto.
        + replace (Nat.min N0 N) with N0 in * by lia.
          loopR P as h2 E2 H2; auto; [lia| |].
          * intros k h2 Hk Ph. rewrite (vget_ok l d) by (unfold N in *; lia). cbn [bind].
            change (subn n k) with (ch n (print_nat k)). pose proof Ph as (Gh & Sh & Zh & Ah & Bh & Ch).
            assert (Kx : cok F T cd (nth k l d)) by (rewrite Forall_forall in K; apply K, nth_In; unfold N in *; lia).
            destruct (Ch k ltac:(lia)) as [Fr|[x0 H0]].
            { destruct (cwrite F T cd h2 (ch n (print_nat k)) (nth k l d)) as (h' & Eh & Hx & Sx); auto using ch_ne, par_ch, pn_noslash.
              exists h'. rewrite Eh. split; auto. apply (St k h2 h'); auto. lia. }
            { destruct (cover F T cd h2 (ch n (print_nat k)) x0 (nth k l d) O) as (h' & Eh & Hx & Sx); auto using ch_ne, par_ch, pn_noslash.
              exists h'. rewrite (wr_throws _ _ x0) by auto. split; auto. apply (St k h2 h'); auto. lia. }
          * exists h2. split; auto.
    Qed.
  End Vec.

  Definition cVec {T} (cd : codec F T) (d : T) : codec F (list T).
  Proof.
    refine (mkcodec F (list T) (fun f n l m => write_vecof F (cwr F T cd) f n l m)
      (fun f n old => read_vecof F d (crd F T cd) f n old)
      (vec_has T cd d) (Forall (cok F T cd)) (cow F T cd /\ cowf F T cd) False _ _ _ _ _).
    - intros f g n x Hn H. apply vec_ext; auto.
    - intros. apply vec_write; auto.
    - intros f n x0 x O Hn Hp H K. eapply vec_over; eauto.
    - intros; contradiction.
    - intros. apply vec_read; auto.
  Defined.

  (** ** Pairs *)
  Definition s0 : str := lit "0".
  Definition s1 : str := lit "1".
  Definition pair_has f n (x : Z * Z) : Prop :=
    holder f n /\ chas F Z (cInt R) f (ch n s0) (fst x) /\ chas F Z (cInt R) f (ch n s1) (snd x).
  Lemma lit_noslash (c : str) : noslashb c = true -> ~ In slash c.
  Proof. apply noslashb_ok. Qed.
  Ltac noslash := apply noslashb_ok; reflexivity.
  Ltac sib := apply siblb_ok; reflexivity.

  (** Writing a member that is new, or overwriting one *)
  Lemma new_int g n c z : n <> [] -> ~ In slash c -> holder g n -> fresh F g (ch n c) ->
    exists h, fst (write_num F g (ch n c) (CI z) NO_OVERWRITE) = h /\ chas F Z (cInt R) h (ch n c) z /\ same_off F g h (ch n c).
  Proof.
    intros Hn Hc G Hf. destruct (cwrite F Z (cInt R) g (ch n c) z) as (h & E & H); auto using ch_ne, par_ch; [exact I|].
    apply int_wr in E. eauto.
  Qed.
  Lemma over_int g n c z0 z : n <> [] -> ~ In slash c -> holder g n -> chas F Z (cInt R) g (ch n c) z0 ->
    exists h, write_num F g (ch n c) (CI z) ALLOW_OVERWRITE = (h, true) /\ chas F Z (cInt R) h (ch n c) z /\ same_off F g h (ch n c).
  Proof.
    intros Hn Hc G [_ H]. unfold write_num.
    destruct (leaf_overw F Z (fun z => [CI z]) g (ch n c) z0 z) as (h & E & L & S); auto using ch_ne, par_ch.
    exists h. split; auto. split; auto. split; auto. exact I.
  Qed.
  Lemma new_flts g n c l : n <> [] -> ~ In slash c -> holder g n -> fresh F g (ch n c) -> l <> [] ->
    exists h, write_vec F g (ch n c) true (map CF l) NO_OVERWRITE = h /\ chas F _ (cFlts R) h (ch n c) l /\ same_off F g h (ch n c).
  Proof.
    intros Hn Hc G Hf Hl. destruct (cwrite F _ (cFlts R) g (ch n c) l) as (h & E & H); auto using ch_ne, par_ch.
    apply Ok_inj in E. eauto.
  Qed.
  Lemma over_flts g n c l0 l : n <> [] -> ~ In slash c -> holder g n -> chas F _ (cFlts R) g (ch n c) l0 -> l <> [] ->
    exists h, write_vec F g (ch n c) true (map CF l) ALLOW_OVERWRITE = h /\ chas F _ (cFlts R) h (ch n c) l /\ same_off F g h (ch n c).
  Proof.
    intros Hn Hc G H0 Hl. destruct (cover F _ (cFlts R) g (ch n c) l0 l I) as (h & E & H); auto using ch_ne, par_ch.
    apply Ok_inj in E. eauto.
  Qed.
  Lemma new_ints g n c l : n <> [] -> ~ In slash c -> holder g n -> fresh F g (ch n c) -> l <> [] ->
    exists h, write_vec F g (ch n c) false (map CI l) NO_OVERWRITE = h /\ chas F _ (cInts R) h (ch n c) l /\ same_off F g h (ch n c).
  Proof.
    intros Hn Hc G Hf Hl. destruct (cwrite F _ (cInts R) g (ch n c) l) as (h & E & H); auto using ch_ne, par_ch.
    apply Ok_inj in E. eauto.
  Qed.
  Lemma over_ints g n c l0 l : n <> [] -> ~ In slash c -> holder g n -> chas F _ (cInts R) g (ch n c) l0 -> l <> [] ->
    exists h, write_vec F g (ch n c) false (map CI l) ALLOW_OVERWRITE = h /\ chas F _ (cInts R) h (ch n c) l /\ same_off F g h (ch n c).
  Proof.
    intros Hn Hc G H0 Hl. destruct (cover F _ (cInts R) g (ch n c) l0 l I) as (h & E & H); auto using ch_ne, par_ch.
    apply Ok_inj in E. eauto.
  Qed.
  Lemma has_int f n c z : n <> [] -> chas F Z (cInt R) f (ch n c) z -> read_int F f (ch n c) = Ok z.
  Proof. intros Hn H. apply (cread F Z (cInt R) f (ch n c) z 0%Z); auto using ch_ne. Qed.
  Lemma has_flts f n c z : n <> [] -> chas F _ (cFlts R) f (ch n c) z -> read_vec_flt F f (ch n c) = Ok z.
  Proof. intros Hn H. apply (cread F _ (cFlts R) f (ch n c) z []); auto using ch_ne. Qed.
  Lemma has_ints f n c z : n <> [] -> chas F _ (cInts R) f (ch n c) z -> read_vec_int F f (ch n c) = Ok z.
  Proof. intros Hn H. apply (cread F _ (cInts R) f (ch n c) z []); auto using ch_ne. Qed.
  Lemma holder_ext f g n : n <> [] -> (forall k, foot n k -> f k = g k) -> holder f n -> holder g n.
  Proof. intros Hn E [A B]. split; rewrite <- E; auto using foot_full, foot_tag. Qed.
  Lemma has_ext {T} (cd : codec F T) f g n c x : n <> [] -> (forall k, foot n k -> f k = g k) ->
    chas F T cd f (ch n c) x -> chas F T cd g (ch n c) x.
  Proof. intros Hn E H. eapply cext; [apply ch_ne; auto| |exact H]. intros k Hk. apply E. eapply foot_ch; eauto. Qed.

  Definition cPair : codec F (Z * Z).
  Proof.
    refine (mkcodec F (Z * Z) (wr R KPair) (rd R KPair) pair_has (fun _ => True) True False _ _ _ _ _).
    - intros f g n x Hn E (G & A & B). split; [eapply holder_ext; eauto|]. split; eapply has_ext; eauto.
    - intros f n x Hn Hf Hp _. simpl. unfold write_pair. destruct (group_new f n Hn Hf Hp) as (g & E & G & A & S).
      rewrite E. cbn [bind]. change (sub n "0") with (ch n s0). change (sub n "1") with (ch n s1).
      destruct (new_int g n s0 (fst x)) as (g1 & -> & H1 & S1); auto; [noslash|].
      assert (G1 : holder g1 n) by (eapply keep_holder; eauto).
      destruct (new_int g1 n s1 (snd x)) as (g2 & -> & H2 & S2); auto; [noslash|eapply keep_fresh; [| |exact S1|]; auto; sib|].
      exists g2. split; auto. split; [split; [eapply keep_holder; eauto|split; auto]|].
      + eapply keep_has; [| |exact S2|exact H1]; auto. sib.
      + eapply keep_off; [auto|eapply keep_off; eauto|eauto].
    - intros f n x0 x _ Hn Hp (G & A & B) _. simpl. unfold write_pair. cbn [bind].
      change (sub n "0") with (ch n s0). change (sub n "1") with (ch n s1).
      destruct (over_int f n s0 (fst x0) (fst x)) as (g1 & -> & H1 & S1); auto; [noslash|]. cbn [fst].
      assert (G1 : holder g1 n) by (eapply keep_holder; eauto).
      destruct (over_int g1 n s1 (snd x0) (snd x)) as (g2 & -> & H2 & S2); auto; [noslash|eapply keep_has; [| |exact S1|]; eauto; sib|].
      exists g2. split; auto. split; [split; [eapply keep_holder; eauto|split; auto]|].
      + eapply keep_has; [| |exact S2|exact H1]; auto. sib.
      + eapply keep_off; [auto|eapply keep_off; [auto|apply same_off_refl|eauto]|eauto].
    - intros; contradiction.
    - intros f n x old Hn (G & A & B). simpl. unfold read_pair. change (sub n "0") with (ch n s0). change (sub n "1") with (ch n s1).
      rewrite (has_int f n s0 (fst x)), (has_int f n s1 (snd x)) by auto. cbn [bind]. destruct x; auto.
  Defined.

  (** ** Dense matrices *)
  Definition s_nrow : str := lit "nrow_".
  Definition s_ncol : str := lit "ncol_".
  Definition s_data : str := lit "data_".
  Definition s_rowptr : str := lit "rowptr_".
  Definition s_colind : str := lit "colind_".
  Definition s_values : str := lit "values_".
  Definition mat_has f n (m : mat R) : Prop :=
    storable R KMat m /\ holder f n /\ chas F Z (cInt R) f (ch n s_nrow) (Z.of_nat (m_nrow m)) /\
    chas F Z (cInt R) f (ch n s_ncol) (Z.of_nat (m_ncol m)) /\ chas F _ (cFlts R) f (ch n s_data) (m_data m).
  Lemma mat_data_ne (m : mat R) : storable R KMat m -> m_data m <> [].
  Proof. intros (A & B & C) E. rewrite E in C. simpl in C. pose proof (Nat.mul_pos_pos _ _ A B). lia. Qed.
  Lemma mat_nz (m : mat R) : storable R KMat m -> ((m_nrow m =? 0) || (m_ncol m =? 0))%nat = false.
  Proof. intros (A & B & C). destruct (Nat.eqb_spec (m_nrow m) 0), (Nat.eqb_spec (m_ncol m) 0); auto; lia. Qed.

  Lemma mat_write_new f n m : n <> [] -> fresh F f n -> par F f n -> storable R KMat m ->
    exists g, mat_write R f n m NO_OVERWRITE = Ok g /\ mat_has g n m /\ same_off F f g n.
  Proof.
    intros Hn Hf Hp K. pose proof (mat_data_ne m K) as Kd. unfold mat_write.
    destruct (group_new f n Hn Hf Hp) as (g & E & G & A & S). rewrite E. cbn [bind].
    rewrite mat_nz by auto.
    change (sub n "nrow_") with (ch n s_nrow). change (sub n "ncol_") with (ch n s_ncol). change (sub n "data_") with (ch n s_data).
    destruct (new_int g n s_nrow (Z.of_nat (m_nrow m))) as (g1 & -> & H1 & S1); auto; [noslash|].
    assert (G1 : holder g1 n) by (eapply keep_holder; eauto).
    assert (F1 : fresh F g1 (ch n s_data)) by (eapply keep_fresh; [| |exact S1|]; auto; sib).
    destruct (new_int g1 n s_ncol (Z.of_nat (m_ncol m))) as (g2 & -> & H2 & S2); auto; [noslash|eapply keep_fresh; [| |exact S1|]; auto; sib|].
    assert (G2 : holder g2 n) by (eapply keep_holder; eauto).
    assert (F2 : fresh F g2 (ch n s_data)) by (eapply keep_fresh; [| |exact S2|]; auto; sib).
    destruct (new_flts g2 n s_data (m_data m)) as (g3 & -> & H3 & S3); auto; [noslash|].
    exists g3. split; auto. split; [split; auto; split; [eapply keep_holder; eauto|split; [|split; auto]]|].
    + eapply keep_has; [| |exact S3|]; [auto|sib|]. eapply keep_has; [| |exact S2|exact H1]; auto. sib.
    + eapply keep_has; [| |exact S3|exact H2]; [auto|sib].
    + eapply keep_off; [auto|eapply keep_off; [auto|eapply keep_off; eauto|eauto]|eauto].
  Qed.
  Lemma mat_over f n m0 m : n <> [] -> mat_has f n m0 -> storable R KMat m ->
    exists g, mat_overwrite R f n m = (g, true) /\ mat_has g n m /\ same_off F f g n.
  Proof.
    intros Hn (K0 & G & A & B & C) K. pose proof (mat_data_ne m K) as Kd. unfold mat_overwrite.
    change (sub n "nrow_") with (ch n s_nrow). change (sub n "ncol_") with (ch n s_ncol). change (sub n "data_") with (ch n s_data).
    destruct (over_int f n s_nrow (Z.of_nat (m_nrow m0)) (Z.of_nat (m_nrow m))) as (g1 & -> & H1 & S1); auto; [noslash|].
    cbn [negb].
    assert (G1 : holder g1 n) by (eapply keep_holder; eauto).
    assert (F1 : chas F _ (cFlts R) g1 (ch n s_data) (m_data m0)) by (eapply keep_has; [| |exact S1|]; auto; sib).
    destruct (over_int g1 n s_ncol (Z.of_nat (m_ncol m0)) (Z.of_nat (m_ncol m))) as (g2 & -> & H2 & S2); auto;
      [noslash|eapply keep_has; [| |exact S1|]; auto; sib|].
    cbn [negb]. rewrite mat_nz by auto.
    assert (G2 : holder g2 n) by (eapply keep_holder; eauto).
    assert (F2 : chas F _ (cFlts R) g2 (ch n s_data) (m_data m0)) by (eapply keep_has; [| |exact S2|]; auto; sib).
    destruct (over_flts g2 n s_data (m_data m0) (m_data m)) as (g3 & -> & H3 & S3); auto; [noslash|].
    exists g3. split; auto. split; [split; auto; split; [eapply keep_holder; eauto|split; [|split; auto]]|].
    + eapply keep_has; [| |exact S3|]; [auto|sib|]. eapply keep_has; [| |exact S2|exact H1]; auto. sib.
    + eapply keep_has; [| |exact S3|exact H2]; [auto|sib].
    + eapply keep_off; [auto|eapply keep_off; [auto|eapply keep_off; [auto|apply same_off_refl|eauto]|eauto]|eauto].
  Qed.
  Lemma mat_over_fresh f n m : n <> [] -> fresh F f n -> mat_overwrite R f n m = (f, false).
  Proof.
    intros Hn Hf. unfold mat_overwrite, write_num. change (sub n "nrow_") with (ch n s_nrow).
    rewrite over_noparent; auto.
    - apply Hf. rewrite full_ch by auto. right; right. eauto.
    - unfold parent_ok. rewrite full_ch, parent_child by (auto; noslash). rewrite Hf by apply foot_full. auto.
  Qed.

  Definition cMat : codec F (mat R).
  Proof.
    refine (mkcodec F (mat R) (wr R KMat) (rd R KMat) mat_has (storable R KMat) True True _ _ _ _ _).
    - intros f g n x Hn E (K & G & A & B & C). split; auto. split; [eapply holder_ext; eauto|].
      split; [|split]; eapply has_ext; eauto.
    - intros f n x Hn Hf Hp K. apply mat_write_new; auto.
    - intros f n x0 x _ Hn Hp H K. destruct (mat_over f n x0 x Hn H K) as (g & E & H').
      exists g. cbn [wr]. unfold mat_write. rewrite E. auto.
    - intros f n x _ Hn Hf Hp K. destruct (mat_write_new f n x Hn Hf Hp K) as (g & E & H).
      exists g. split; auto. cbn [wr]. unfold mat_write. rewrite mat_over_fresh by auto. exact E.
    - intros f n x old Hn (K & G & A & B & C). cbn [rd]. unfold mat_readNg.
      change (sub n "nrow_") with (ch n s_nrow). change (sub n "ncol_") with (ch n s_ncol). change (sub n "data_") with (ch n s_data).
      rewrite (has_int f n s_nrow (Z.of_nat (m_nrow x))), (has_int f n s_ncol (Z.of_nat (m_ncol x))) by auto. cbn [bind].
      rewrite !Nat2Z.id, mat_nz by auto. rewrite (has_flts f n s_data (m_data x)) by auto. cbn [bind]. destruct x; auto.
  Defined.

  (** ** Sparse matrices *)
  Definition zs (l : list nat) : list Z := map Z.of_nat l.
  Lemma zs_CI l : map (fun k => CI (Z.of_nat k)) l = map (@CI F) (zs l).
  Proof. unfold zs. rewrite map_map. auto. Qed.
  Lemma zs_back l : map Z.to_nat (zs l) = l.
  Proof. unfold zs. rewrite map_map. rewrite <- (map_id l) at 2. apply map_ext. intros. apply Nat2Z.id. Qed.
  Definition crs_has f n (m : crs R) : Prop :=
    storable R KCrs m /\ holder f n /\ chas F Z (cInt R) f (ch n s_nrow) (Z.of_nat (c_nrow m)) /\
    chas F Z (cInt R) f (ch n s_ncol) (Z.of_nat (c_ncol m)) /\ chas F _ (cInts R) f (ch n s_rowptr) (zs (c_rowptr m)) /\
    chas F _ (cInts R) f (ch n s_colind) (zs (c_colind m)) /\ chas F _ (cFlts R) f (ch n s_values) (c_values m).

  Lemma crs_facts (m : crs R) : storable R KCrs m ->
    checkValidity R m = Ok tt /\ (0 < c_nrow m)%nat /\ (0 < c_ncol m)%nat /\ List.length (c_rowptr m) = (c_nrow m + 1)%nat /\
    vget (c_rowptr m) (c_nrow m) = Ok (List.length (c_colind m)) /\ (0 < List.length (c_colind m))%nat /\
    zs (c_rowptr m) <> [] /\ zs (c_colind m) <> [] /\ c_values m <> [].
  Proof.
    intros [V K]. split; auto. unfold checkValidity in V.
    destruct (Nat.eqb_spec (c_nrow m + 1) (List.length (c_rowptr m))) as [E1|]; [|discriminate].
    destruct (vget (c_rowptr m) (c_nrow m)) as [last| | |] eqn:El; try discriminate. cbn [bind] in V.
    destruct (Nat.eqb_spec last (List.length (c_colind m))) as [E2|]; [|discriminate].
    destruct (Nat.eqb_spec (List.length (c_values m)) (List.length (c_colind m))) as [E3|]; [|discriminate].
    destruct (Nat.ltb_spec 0 (c_nrow m)) as [L1|]; [|discriminate].
    destruct (Nat.ltb_spec 0 (c_ncol m)) as [L2|]; [|discriminate].
    subst last. repeat split; auto; intros E.
    - apply (f_equal (@List.length Z)) in E. unfold zs in E. rewrite map_length in E. simpl in E. lia.
    - apply (f_equal (@List.length Z)) in E. unfold zs in E. rewrite map_length in E. simpl in E. lia.
    - rewrite E in E3. simpl in E3. lia.
  Qed.
  Lemma nz_false a b : (0 < a)%nat -> (0 < b)%nat -> ((a =? 0) || (b =? 0))%nat = false.
  Proof. intros. destruct (Nat.eqb_spec a 0), (Nat.eqb_spec b 0); auto; lia. Qed.
  Ltac crs_names n :=
    change (sub n "nrow_") with (ch n s_nrow); change (sub n "ncol_") with (ch n s_ncol);
    change (sub n "rowptr_") with (ch n s_rowptr); change (sub n "colind_") with (ch n s_colind); change (sub n "values_") with (ch n s_values).

  Lemma crs_write_new f n m : n <> [] -> fresh F f n -> par F f n -> storable R KCrs m ->
    exists g, crs_write R f n m NO_OVERWRITE = Ok g /\ crs_has g n m /\ same_off F f g n.
  Proof.
    intros Hn Hf Hp K. destruct (crs_facts m K) as (V & Lr & Lc & Ll & Lv & Ln & N1 & N2 & N3). unfold crs_write.
    destruct (Nat.ltb_spec 0 (c_nrow m)); [|lia]. rewrite V. cbn [bind].
    destruct (group_new f n Hn Hf Hp) as (g & E & G & A & S). rewrite E. cbn [bind].
    rewrite nz_false by auto. rewrite Ll, Nat.eqb_refl, Lv. cbn [bind]. crs_names n. rewrite !zs_CI.
    destruct (Nat.eqb_spec (List.length (c_colind m)) 0); [lia|].
    destruct (new_int g n s_nrow (Z.of_nat (c_nrow m))) as (g1 & -> & H1 & S1); auto; [noslash|].
    assert (G1 : holder g1 n) by (eapply keep_holder; eauto).
    assert (F1 : forall c, sibl s_nrow c -> fresh F g1 (ch n c)) by (intros; eapply keep_fresh; [| |exact S1|]; auto).
    destruct (new_int g1 n s_ncol (Z.of_nat (c_ncol m))) as (g2 & -> & H2 & S2); auto; [noslash|apply F1; sib|].
    assert (G2 : holder g2 n) by (eapply keep_holder; eauto).
    assert (F2 : forall c, sibl s_nrow c -> sibl s_ncol c -> fresh F g2 (ch n c)) by (intros; eapply keep_fresh; [| |exact S2|]; auto).
    destruct (new_ints g2 n s_rowptr (zs (c_rowptr m))) as (g3 & -> & H3 & S3); auto; [noslash|apply F2; sib|].
    assert (G3 : holder g3 n) by (eapply keep_holder; eauto).
    assert (F3 : forall c, sibl s_nrow c -> sibl s_ncol c -> sibl s_rowptr c -> fresh F g3 (ch n c)) by (intros; eapply keep_fresh; [| |exact S3|]; auto).
    destruct (new_ints g3 n s_colind (zs (c_colind m))) as (g4 & -> & H4 & S4); auto; [noslash|apply F3; sib|].
    assert (G4 : holder g4 n) by (eapply keep_holder; eauto).
    assert (F4 : fresh F g4 (ch n s_values)) by (eapply keep_fresh; [| |exact S4|apply F3]; auto; sib).
    destruct (new_flts g4 n s_values (c_values m)) as (g5 & -> & H5 & S5); auto; [noslash|].
    exists g5. split; auto. split; [split; auto; split; [eapply keep_holder; eauto|]|].
    - split; [|split; [|split; [|split; auto]]].
      + eapply keep_has; [| |exact S5|]; [auto|sib|]. eapply keep_has; [| |exact S4|]; [auto|sib|].
        eapply keep_has; [| |exact S3|]; [auto|sib|]. eapply keep_has; [| |exact S2|exact H1]; auto. sib.
      + eapply keep_has; [| |exact S5|]; [auto|sib|]. eapply keep_has; [| |exact S4|]; [auto|sib|].
        eapply keep_has; [| |exact S3|exact H2]; auto. sib.
      + eapply keep_has; [| |exact S5|]; [auto|sib|]. eapply keep_has; [| |exact S4|exact H3]; [auto|sib].
      + eapply keep_has; [| |exact S5|exact H4]; [auto|sib].
    - eapply keep_off; [auto| |eauto]. eapply keep_off; [auto| |eauto]. eapply keep_off; [auto| |eauto].
      eapply keep_off; [auto| |eauto]. eapply keep_off; eauto.
  Qed.
  Lemma crs_over f n m0 m : n <> [] -> crs_has f n m0 -> storable R KCrs m ->
    exists g, crs_write R f n m ALLOW_OVERWRITE = Ok g /\ crs_has g n m /\ same_off F f g n.
  Proof.
    intros Hn (K0 & G & A1 & A2 & A3 & A4 & A5) K.
    destruct (crs_facts m K) as (V & Lr & Lc & Ll & Lv & Ln & N1 & N2 & N3). unfold crs_write.
    destruct (Nat.ltb_spec 0 (c_nrow m)); [|lia]. rewrite V. cbn [bind].
    rewrite nz_false by auto. rewrite Ll, Nat.eqb_refl, Lv. cbn [bind]. crs_names n. rewrite !zs_CI.
    destruct (Nat.eqb_spec (List.length (c_colind m)) 0); [lia|].
    destruct (over_int f n s_nrow (Z.of_nat (c_nrow m0)) (Z.of_nat (c_nrow m))) as (g1 & -> & H1 & S1); auto; [noslash|]. cbn [fst].
    assert (G1 : holder g1 n) by (eapply keep_holder; eauto).
    destruct (over_int g1 n s_ncol (Z.of_nat (c_ncol m0)) (Z.of_nat (c_ncol m))) as (g2 & -> & H2 & S2); auto;
      [noslash|eapply keep_has; [| |exact S1|]; auto; sib|]. cbn [fst].
    assert (G2 : holder g2 n) by (eapply keep_holder; eauto).
    assert (K2 : forall T (cd : codec F T) c x, sibl s_nrow c -> sibl s_ncol c -> chas F T cd f (ch n c) x -> chas F T cd g2 (ch n c) x).
    { intros. eapply keep_has; [| |exact S2|]; auto. eapply keep_has; [| |exact S1|]; auto. }
    destruct (over_ints g2 n s_rowptr (zs (c_rowptr m0)) (zs (c_rowptr m))) as (g3 & -> & H3 & S3); auto; [noslash|apply K2; auto; sib|].
    assert (G3 : holder g3 n) by (eapply keep_holder; eauto).
    assert (K3 : forall T (cd : codec F T) c x, sibl s_rowptr c -> chas F T cd g2 (ch n c) x -> chas F T cd g3 (ch n c) x).
    { intros. eapply keep_has; [| |exact S3|]; auto. }
    destruct (over_ints g3 n s_colind (zs (c_colind m0)) (zs (c_colind m))) as (g4 & -> & H4 & S4); auto; [noslash|apply K3; [sib|apply K2; auto; sib]|].
    assert (G4 : holder g4 n) by (eapply keep_holder; eauto).
    destruct (over_flts g4 n s_values (c_values m0) (c_values m)) as (g5 & -> & H5 & S5); auto; [noslash| |].
    { eapply keep_has; [| |exact S4|apply K3; [sib|apply K2; auto; sib]]; auto. sib. }
    exists g5. split; auto. split; [split; auto; split; [eapply keep_holder; eauto|]|].
    - split; [|split; [|split; [|split; auto]]].
      + eapply keep_has; [| |exact S5|]; [auto|sib|]. eapply keep_has; [| |exact S4|]; [auto|sib|].
        eapply keep_has; [| |exact S3|]; [auto|sib|]. eapply keep_has; [| |exact S2|exact H1]; auto. sib.
      + eapply keep_has; [| |exact S5|]; [auto|sib|]. eapply keep_has; [| |exact S4|]; [auto|sib|].
        eapply keep_has; [| |exact S3|exact H2]; auto. sib.
      + eapply keep_has; [| |exact S5|]; [auto|sib|]. eapply keep_has; [| |exact S4|exact H3]; [auto|sib].
      + eapply keep_has; [| |exact S5|exact H4]; [auto|sib].
    - eapply keep_off; [auto| |eauto]. eapply keep_off; [auto| |eauto]. eapply keep_off; [auto| |eauto].
      eapply keep_off; [auto| |eauto]. eapply keep_off; [auto|apply same_off_refl|eauto].
  Qed.
  Definition cCrs : codec F (crs R).
  Proof.
    refine (mkcodec F (crs R) (wr R KCrs) (rd R KCrs) crs_has (storable R KCrs) True False _ _ _ _ _).
    - intros f g n x Hn E (K & G & A & B & C & D & H). split; auto. split; [eapply holder_ext; eauto|].
      split; [|split; [|split; [|split]]]; eapply has_ext; eauto.
    - intros f n x Hn Hf Hp K. apply crs_write_new; auto.
    - intros f n x0 x _ Hn Hp H K. eapply crs_over; eauto.
    - intros; contradiction.
    - intros f n x old Hn (K & G & A & B & C & D & H). cbn [rd]. unfold crs_readNg. crs_names n.
      destruct (crs_facts x K) as (V & Lr & Lc & Ll & Lv & Ln & N1 & N2 & N3).
      rewrite (has_int f n s_nrow (Z.of_nat (c_nrow x))), (has_int f n s_ncol (Z.of_nat (c_ncol x))) by auto. cbn [bind].
      rewrite !Nat2Z.id, nz_false by auto. rewrite (has_ints f n s_rowptr (zs (c_rowptr x))) by auto. cbn [bind].
      rewrite zs_back, Ll, Nat.eqb_refl, Lv. cbn [bind]. destruct (Nat.eqb_spec (List.length (c_colind x)) 0); [lia|].
      rewrite (has_ints f n s_colind (zs (c_colind x))) by auto. cbn [bind].
      rewrite (has_flts f n s_values (c_values x)) by auto. cbn [bind]. rewrite zs_back.
      replace (mkcrs (c_rowptr x) (c_colind x) (c_values x) (c_nrow x) (c_ncol x)) with x by (destruct x; auto).
      rewrite V. auto.
  Defined.

  (** ** All types *)
  Fixpoint codec_of (k : kind) : codec F (ty R k) :=
    match k return codec F (ty R k) with
    | KInt => cInt R | KFlt => cFlt R | KBool => cBool R | KStr => cStr R | KInts => cInts R | KFlts => cFlts R
    | KCplx => cCplx R | KBools => cBools R | KPair => cPair | KMat => cMat | KCrs => cCrs
    | KVec k => cVec (codec_of k) (dflt R k)
    end.

  Lemma codec_rd k : crd F _ (codec_of k) = rd R k.
  Proof. induction k; auto. cbn [codec_of rd]. rewrite <- IHk. auto. Qed.
  Lemma codec_wr k f n x m : (m = ALLOW_OVERWRITE -> overwritable k) -> storable R k x ->
    cwr F _ (codec_of k) f n x m = wr R k f n x m.
  Proof.
    intros O K. destruct k; auto. simpl in K. destruct K as [E K].
    destruct k; try contradiction; try reflexivity. destruct m; [reflexivity|]. destruct (O eq_refl).
  Qed.
  Lemma codec_ok k x : storable R k x -> cok F _ (codec_of k) x.
  Proof.
    destruct k; auto. intros [E K]. simpl. apply Forall_forall. intros y Hy. specialize (K y Hy).
    destruct k; try contradiction; auto.
  Qed.
  Lemma codec_ow k x : overwritable k -> storable R k x -> cow F _ (codec_of k).
  Proof. intros O K. destruct k; try exact I; auto. destruct K as [E K]. destruct k; try contradiction; split; exact I. Qed.
End Comp.
