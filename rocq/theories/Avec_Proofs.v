From Coq Require Import Ascii String.
From Verif Require Import Prelude Ring Str_Model Str_Spec Str_Proofs Text_Model Input_Model Ainur_Model Ainur_Proofs Strc_Model Avec_Model Avec_Spec.
Import List.

Lemma str_eqb_spec a b : reflect (a = b) (str_eqb a b).
Proof. destruct (str_eqb a b) eqn:E; constructor; [apply str_eqb_eq; auto|]. intros K. apply str_eqb_eq in K. congruence. Qed.

Definition strip (s : str) : str := filter (fun c => negb (isspace c)) s.

Lemma blank_iff c : blank c <-> isspace c = true.
Proof.
  unfold blank, isspace. assert (H : nat_of_ascii c = N.to_nat (N_of_ascii c)) by reflexivity. rewrite H.
  rewrite orb_true_iff, andb_true_iff, !N.leb_le, N.eqb_eq. cbn [In].
  split; intros K.
  - destruct K as [K|[K|[K|[K|[K|[K|[]]]]]]]; lia.
  - lia.
Qed.
Lemma unspaced_strip s t : unspaced s t <-> t = strip s.
Proof.
  split.
  - induction 1 as [|c s t B H IH|c s t B H IH]; [reflexivity| |]; cbn [strip filter].
    + apply blank_iff in B. rewrite B. exact IH.
    + destruct (isspace c) eqn:E; [elim B; apply blank_iff; auto|]. cbn. f_equal. exact IH.
  - intros ->. induction s as [|c s IH]; [constructor|]. cbn [strip filter]. destruct (isspace c) eqn:E; cbn.
    + constructor; auto. apply blank_iff. auto.
    + apply us_char; auto. rewrite blank_iff. congruence.
Qed.

Lemma strip_skipws s : strip (skipws s) = strip s.
Proof. induction s as [|c s IH]; [reflexivity|]. cbn [skipws strip filter]. destruct (isspace c) eqn:E; [exact IH|]. cbn [strip filter]. rewrite E. reflexivity. Qed.
Lemma skipws_head s c r : skipws s = c :: r -> isspace c = false.
Proof. induction s as [|x s IH]; [discriminate|]. cbn [skipws]. destruct (isspace x) eqn:E; auto. intros K. injection K as <- _. exact E. Qed.
Lemma skipws_nil s : skipws s = [] -> strip s = [].
Proof. intros H. rewrite <- strip_skipws, H. reflexivity. Qed.

Lemma p_lit_sound c s r : p_lit c s = Some r -> strip s = c :: strip r.
Proof.
  unfold p_lit. rewrite <- (strip_skipws s). destruct (skipws s) as [|x t] eqn:E; [discriminate|]. destruct (Ascii.eqb_spec x c) as [->|]; [|discriminate].
  intros K. injection K as <-. cbn [strip filter]. rewrite (skipws_head _ _ _ E). reflexivity.
Qed.
Lemma p_lit_complete c s r' : strip s = c :: r' -> exists r, p_lit c s = Some r /\ strip r = r'.
Proof.
  unfold p_lit. rewrite <- (strip_skipws s). destruct (skipws s) as [|x t] eqn:E; [discriminate|]. cbn [strip filter]. rewrite (skipws_head _ _ _ E). cbn.
  intros K. injection K as -> <-. rewrite Ascii.eqb_refl. eauto.
Qed.
Lemma p_lit_none c s : (forall r', strip s <> c :: r') -> p_lit c s = None.
Proof. intros H. destruct (p_lit c s) as [r|] eqn:E; auto. apply p_lit_sound in E. elim (H _ E). Qed.

Lemma special_iff c : special c = true <-> c = ","%char \/ c = "["%char \/ c = "]"%char.
Proof. unfold special. rewrite !orb_true_iff, !Ascii.eqb_eq. tauto. Qed.
Lemma element_char c : (~ blank c /\ c <> ","%char /\ c <> "["%char /\ c <> "]"%char) <-> isspace c = false /\ special c = false.
Proof.
  rewrite blank_iff. destruct (isspace c), (special c) eqn:E; try (split; [intros [A B]|intros [A B]; discriminate]; exfalso; tauto).
  - apply special_iff in E. split; [intros [_ K]; exfalso; tauto|intros [_ K]; discriminate].
  - split; auto. intros _. split; auto. rewrite <- not_true_iff_false, special_iff in E. tauto.
Qed.
Lemma strip_element x s : (forall c, In c x -> isspace c = false /\ special c = false) -> strip (x ++ s) = x ++ strip s.
Proof. intros H. induction x as [|c x IH]; [reflexivity|]. cbn [strip filter app]. rewrite (proj1 (H c (or_introl eq_refl))). cbn. f_equal. apply IH. intros; apply H; right; auto. Qed.

Lemma item_loop_sound s : forall acc a r, p_item_loop s acc = (a, r) ->
  exists x, a = acc ++ x /\ (forall c, In c x -> isspace c = false /\ special c = false) /\ strip s = x ++ strip r.
Proof.
  induction s as [|c s IH]; intros acc a r; cbn [p_item_loop].
  - intros K. injection K as <- <-. exists []. rewrite app_nil_r. split; auto. split; auto. intros ? [].
  - destruct (isspace c) eqn:E.
    + intros K. apply IH in K. destruct K as (x & A & B & C). exists x. split; auto. split; auto. cbn [strip filter]. rewrite E. exact C.
    + destruct (special c) eqn:E2.
      * intros K. injection K as <- <-. exists []. rewrite app_nil_r. split; auto. split; auto. intros ? [].
      * intros K. apply IH in K. destruct K as (x & A & B & C). exists (c :: x). split; [rewrite A, <- app_assoc; reflexivity|]. split; [intros y [<-|Hy]; auto|].
        cbn [strip filter]. rewrite E. cbn. f_equal. exact C.
Qed.
Lemma item_loop_complete s : forall acc x c r', (forall c, In c x -> isspace c = false /\ special c = false) -> special c = true ->
  strip s = x ++ c :: r' -> exists r, p_item_loop s acc = (acc ++ x, r) /\ strip r = c :: r'.
Proof.
  induction s as [|y s IH]; intros acc x c r' Hx Hc; cbn [p_item_loop strip filter].
  - intros K. destruct x; discriminate.
  - destruct (isspace y) eqn:E; cbn.
    + intros K. apply IH; auto.
    + intros K. destruct x as [|z x].
      * injection K as -> K. rewrite Hc. exists (c :: s). split; [rewrite app_nil_r; reflexivity|]. cbn [strip filter]. rewrite E. cbn. f_equal. exact K.
      * injection K as -> K. rewrite (proj2 (Hx z (or_introl eq_refl))).
        destruct (IH (acc ++ [z]) x c r') as (r & A & B); auto. { intros; apply Hx; right; auto. }
        exists r. split; auto. rewrite A, <- app_assoc. reflexivity.
Qed.

Lemma p_item_sound s x r : p_item s = Some (x, r) -> element x /\ strip s = x ++ strip r.
Proof.
  unfold p_item. destruct (p_item_loop s []) as [a t] eqn:E. apply item_loop_sound in E. destruct E as (y & -> & B & C). cbn [app].
  destruct y as [|c y]; [discriminate|]. intros K. injection K as <- <-. split; auto. split; [discriminate|]. intros z Hz. apply element_char. auto.
Qed.
Lemma p_item_complete s x c r' : element x -> special c = true -> strip s = x ++ c :: r' -> exists r, p_item s = Some (x, r) /\ strip r = c :: r'.
Proof.
  intros [N H] Hc K. destruct (item_loop_complete s [] x c r') as (r & A & B); auto. { intros y Hy. apply element_char. auto. }
  unfold p_item. rewrite A. cbn [app]. destruct x; [congruence|]. eauto.
Qed.

Definition tail_text (l : list str) : str := concat (map (fun x => ","%char :: x) l).
Lemma commas_cons x l : commas (x :: l) = x ++ tail_text l.
Proof.
  revert x. induction l as [|y l IH]; intros x; [cbn; rewrite app_nil_r; reflexivity|]. change (commas (x :: y :: l)) with (x ++ ","%char :: commas (y :: l)).
  rewrite IH. reflexivity.
Qed.

Section PList.
  Context {A : Type}.
  Variable p : str -> option (A * str).
  Variable txt : A -> str.
  Variable ok : A -> Prop.
  Hypothesis p_sound : forall s a r, p s = Some (a, r) -> ok a /\ strip s = txt a ++ strip r.
  Hypothesis p_complete : forall s a c r', ok a -> special c = true -> strip s = txt a ++ c :: r' -> exists r, p s = Some (a, r) /\ strip r = c :: r'.

  Lemma p_more_sound fuel : forall s acc acc' r, p_more p fuel s acc = (acc', r) ->
    exists l, acc' = acc ++ l /\ Forall ok l /\ strip s = tail_text (map txt l) ++ strip r.
  Proof.
    clear p_complete. induction fuel as [|fuel IH]; intros s acc acc' r; cbn [p_more].
    - intros K. injection K as <- <-. exists []. rewrite app_nil_r. auto.
    - destruct (p_lit "," s) as [t|] eqn:E.
      + destruct (p t) as [[a u]|] eqn:E2.
        * intros K. apply IH in K. destruct K as (l & -> & F & S). apply p_lit_sound in E. apply p_sound in E2. destruct E2 as [Oa E2].
          exists (a :: l). split; [rewrite <- app_assoc; reflexivity|]. split; [constructor; auto|]. cbn [map tail_text concat]. rewrite E, E2, S.
          cbn [app]. rewrite <- app_assoc. reflexivity.
        * intros K. injection K as <- <-. exists []. rewrite app_nil_r. auto.
      + intros K. injection K as <- <-. exists []. rewrite app_nil_r. auto.
  Qed.
  Lemma p_more_complete fuel : forall s acc l r', Forall ok l -> List.length l <= fuel ->
    strip s = tail_text (map txt l) ++ "]"%char :: r' -> exists r, p_more p fuel s acc = (acc ++ l, r) /\ strip r = "]"%char :: r'.
  Proof.
    clear p_sound. induction fuel as [|fuel IH]; intros s acc l r' F L S; cbn [p_more].
    - destruct l; [|cbn in L; lia]. rewrite app_nil_r. eauto.
    - destruct l as [|a l].
      + cbn in S. rewrite p_lit_none by (intros q K; rewrite S in K; discriminate). rewrite app_nil_r. eauto.
      + cbn [map tail_text concat app] in S. destruct (p_lit_complete _ _ _ S) as (t & E & S1). rewrite E. inversion F as [|? ? Fa Fl]; subst.
        rewrite <- app_assoc in S1.
        assert (K : exists c q, special c = true /\ concat (map (fun x => ","%char :: x) (map txt l)) ++ "]"%char :: r' = c :: q)
          by (destruct l; cbn; do 2 eexists; (split; [|reflexivity]); reflexivity). destruct K as (c & q & Hc & K). rewrite K in S1.
        destruct (p_complete t a c q Fa Hc S1) as (u & E2 & S2). rewrite E2. destruct (IH u (acc ++ [a]) l r') as (r & E3 & S3); auto; [cbn in L; lia|rewrite S2; symmetry; exact K|].
        exists r. split; auto. rewrite E3, <- app_assoc. reflexivity.
  Qed.
  Lemma p_list_sound s l r : p_list p s = Some (l, r) -> l <> [] /\ Forall ok l /\ strip s = commas (map txt l) ++ strip r.
  Proof.
    clear p_complete. unfold p_list. destruct (p s) as [[a t]|] eqn:E; [|discriminate]. intros K. injection K as K. apply p_more_sound in K. destruct K as (l' & -> & F & S).
    apply p_sound in E. destruct E as [Oa E]. split; [discriminate|]. split; [constructor; auto|]. cbn [app map]. rewrite commas_cons, E, S, <- app_assoc. reflexivity.
  Qed.
  Lemma strip_length s : List.length (strip s) <= List.length s.
  Proof. clear. induction s as [|c s IH]; cbn [strip filter]; auto. destruct (isspace c); cbn; unfold strip in IH; lia. Qed.
  Lemma tail_length l : List.length l <= List.length (tail_text l).
  Proof. clear. induction l as [|x l IH]; cbn; [lia|]. rewrite app_length. unfold tail_text in IH. lia. Qed.
  Lemma p_list_complete s l r' : l <> [] -> Forall ok l -> strip s = commas (map txt l) ++ "]"%char :: r' -> exists r, p_list p s = Some (l, r) /\ strip r = "]"%char :: r'.
  Proof.
    clear p_sound. intros N F S. destruct l as [|a l]; [congruence|]. inversion F as [|? ? Fa Fl]; subst. cbn [map] in S. rewrite commas_cons, <- app_assoc in S.
    assert (K : exists c q, special c = true /\ tail_text (map txt l) ++ "]"%char :: r' = c :: q) by (destruct l; cbn; do 2 eexists; (split; [|reflexivity]); reflexivity). destruct K as (c & q & Hc & K).
    rewrite K in S. destruct (p_complete s a c q Fa Hc S) as (t & E & S1). unfold p_list. rewrite E.
    destruct (p_more_complete (List.length t) t [a] l r') as (r & E2 & S2); auto; [|rewrite S1; symmetry; exact K|].
    { etransitivity; [|apply strip_length]. rewrite S1, <- K, app_length. pose proof (tail_length (map txt l)). rewrite map_length in H. lia. }
    exists r. rewrite E2. auto.
  Qed.
End PList.

Lemma p_row_sound s l r : p_row s = Some (l, r) -> row l /\ strip s = row_text l ++ strip r.
Proof.
  unfold p_row. destruct (p_lit "[" s) as [t|] eqn:E; [|discriminate]. destruct (p_list p_item t) as [[l' u]|] eqn:E2; [|discriminate].
  destruct (p_lit "]" u) as [v|] eqn:E3; [|discriminate]. intros K. injection K as -> ->.
  apply (p_list_sound p_item (fun x => x) element p_item_sound) in E2. destruct E2 as (N & F & S). rewrite map_id in S.
  split; [split; auto|]. rewrite (p_lit_sound _ _ _ E), S, (p_lit_sound _ _ _ E3). unfold row_text, bracketed. cbn [app]. rewrite <- app_assoc. reflexivity.
Qed.
Lemma p_row_complete s l r' : row l -> strip s = row_text l ++ r' -> exists r, p_row s = Some (l, r) /\ strip r = r'.
Proof.
  intros [N F] S. unfold row_text, bracketed in S. cbn [app] in S. rewrite <- app_assoc in S. cbn [app] in S.
  unfold p_row. destruct (p_lit_complete _ _ _ S) as (t & -> & S1).
  destruct (p_list_complete p_item (fun x => x) element p_item_complete t l r' N F) as (u & -> & S2); [rewrite map_id; exact S1|].
  destruct (p_lit_complete _ _ _ S2) as (v & -> & S3). eauto.
Qed.
Lemma p_matrix_sound s m r : p_matrix s = Some (m, r) -> Forall row m /\ strip s = matrix_text m ++ strip r.
Proof.
  unfold p_matrix. destruct (p_lit "[" s) as [t|] eqn:E; [|discriminate]. apply p_lit_sound in E.
  destruct (p_list p_row t) as [[l u]|] eqn:E2.
  - destruct (p_lit "]" u) as [v|] eqn:E3; [|discriminate]. intros K. injection K as -> ->. apply (p_list_sound p_row row_text row p_row_sound) in E2. destruct E2 as (N & F & S).
    split; auto. rewrite E, S, (p_lit_sound _ _ _ E3). unfold matrix_text, bracketed. cbn [app]. rewrite <- app_assoc. reflexivity.
  - destruct (p_lit "]" t) as [v|] eqn:E3; [|discriminate]. intros K. injection K as <- <-. split; [constructor|]. rewrite E, (p_lit_sound _ _ _ E3). reflexivity.
Qed.
Lemma p_matrix_complete s m r' : Forall row m -> strip s = matrix_text m ++ r' -> exists r, p_matrix s = Some (m, r) /\ strip r = r'.
Proof.
  intros F S. unfold matrix_text, bracketed in S. cbn [app] in S. rewrite <- app_assoc in S. cbn [app] in S.
  unfold p_matrix. destruct (p_lit_complete _ _ _ S) as (t & -> & S1).
  destruct m as [|a m].
  - cbn in S1. assert (E : p_list p_row t = None).
    { unfold p_list, p_row. rewrite p_lit_none; auto. intros q K. rewrite S1 in K. discriminate. }
    rewrite E. destruct (p_lit_complete _ _ _ S1) as (v & -> & S3). eauto.
  - destruct (p_list_complete p_row row_text row (fun s a c r' Ha _ => p_row_complete s a (c :: r') Ha) t (a :: m) r') as (u & -> & S2); auto; [discriminate|].
    destruct (p_lit_complete _ _ _ S2) as (v & -> & S3). eauto.
Qed.

(** The parsers, stated with the specification *)
Lemma vector_value_iff value l : vector_value value l <-> exists r, p_row value = Some (l, r).
Proof.
  split.
  - intros [Hr [rest U]]. apply unspaced_strip in U. destruct (p_row_complete value l rest Hr (eq_sym U)) as (r & E & _). eauto.
  - intros [r E]. apply p_row_sound in E. destruct E as [Hr E]. split; auto. exists (strip r). apply unspaced_strip. auto.
Qed.
Lemma matrix_value_iff value m : matrix_value value m <-> exists r, p_matrix value = Some (m, r).
Proof.
  split.
  - intros [Hr [rest U]]. apply unspaced_strip in U. destruct (p_matrix_complete value m rest Hr (eq_sym U)) as (r & E & _). eauto.
  - intros [r E]. apply p_matrix_sound in E. destruct E as [Hr E]. split; auto. exists (strip r). apply unspaced_strip. auto.
Qed.
