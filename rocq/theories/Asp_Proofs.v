(** Proofs about reading a whole Ainur input. *)
From Coq Require Import Ascii String.
From Verif Require Import Prelude Str_Model Text_Model Ainur_Model Ainur_Spec Ainur_Proofs Asp_Model Asp_Spec.
Import List.

(** ** Characters *)
Definition inb (c : ascii) (l : str) : bool := existsb (Ascii.eqb c) l.
Lemma inb_spec c l : inb c l = true <-> In c l.
Proof.
  unfold inb. rewrite existsb_exists. split.
  - intros (x & H & E). apply Ascii.eqb_eq in E. subst. auto.
  - intros H. exists c. split; auto. apply Ascii.eqb_refl.
Qed.
Lemma aToZ_b c : aToZ c = inb c (list_ascii_of_string "abcdefghijklmnopqrstuvwxyzABCDEFGHIJKLMNOPQRSTUVWXYZ").
Proof. destruct c as [[] [] [] [] [] [] [] []]; reflexivity. Qed.
Lemma digit_b c : zeroToNine c = inb c (list_ascii_of_string "0123456789").
Proof. destruct c as [[] [] [] [] [] [] [] []]; reflexivity. Qed.
Lemma empty_b c : isEmptyChar c = inb c [" "%char; ascii_of_nat 9; ascii_of_nat 10; ascii_of_nat 13].
Proof. destruct c as [[] [] [] [] [] [] [] []]; reflexivity. Qed.
Lemma letter_spec c : aToZ c = true <-> letter c.
Proof. rewrite aToZ_b. apply inb_spec. Qed.
Lemma digit_spec c : zeroToNine c = true <-> digit c.
Proof. rewrite digit_b. apply inb_spec. Qed.
Lemma blank_spec c : isEmptyChar c = true <-> blank c.
Proof. rewrite empty_b. apply inb_spec. Qed.
Lemma empty_space c : isEmptyChar c = true -> isspace c = true.
Proof. destruct c as [[] [] [] [] [] [] [] []]; (reflexivity || discriminate). Qed.
Lemma legal_spec c : allowedChar c = true <-> legal_char c.
Proof.
  unfold legal_char. rewrite <- blank_spec. unfold allowedChar, isEmptyChar. destruct (isWhitespace c || isEOL c) eqn:E; [tauto|].
  destruct (Nat.ltb_spec (nat_of_ascii c) 33); cbn [orb]; [split; [discriminate|intros [H1|[H1 _]]; [discriminate|lia]]|].
  destruct (Nat.ltb_spec 126 (nat_of_ascii c)); cbn [orb]; [split; [discriminate|intros [H1|[H1 _]]; [discriminate|lia]]|].
  destruct (Nat.eqb_spec (nat_of_ascii c) 96) as [E2|E2]; split; try discriminate; auto.
  - intros [H1|[_ H1]]; [discriminate|]. exfalso. apply H1. rewrite <- (ascii_nat_embedding c), E2. reflexivity.
  - intros _. right. split; [lia|]. intros ->. apply E2. reflexivity.
Qed.
Lemma lexical_spec s : lexical s = true <-> forall c, In c s -> legal_char c.
Proof. unfold lexical. rewrite forallb_forall. split; intros H c Hc; apply legal_spec; auto. Qed.
Lemma line_end_cr c : Nat.eqb (nat_of_ascii c) 13 = true -> c = ascii_of_nat 13.
Proof. intros E. apply Nat.eqb_eq in E. rewrite <- (ascii_nat_embedding c), E. reflexivity. Qed.
Lemma line_end_lf c : Nat.eqb (nat_of_ascii c) 10 = true -> c = ascii_of_nat 10.
Proof. intros E. apply Nat.eqb_eq in E. rewrite <- (ascii_nat_embedding c), E. reflexivity. Qed.

Definition tychar (c : ascii) : bool := aToZ c || Ascii.eqb c "." || Ascii.eqb c "!".
Definition keychar (c : ascii) : bool := aToZ c || zeroToNine c || Ascii.eqb c ":" || Ascii.eqb c "_".
Definition und (c : ascii) : bool := Ascii.eqb c "_".
Definition notsemi (c : ascii) : bool := negb (Ascii.eqb c ";").
Lemma key_char_spec c : key_char c -> keychar c = true.
Proof.
  unfold key_char, keychar. intros [H|[H|[->| ->]]]; [apply letter_spec in H; rewrite H|apply digit_spec in H; rewrite H, orb_true_r| |]; reflexivity.
Qed.
Lemma ty_char_spec c : letter c \/ c = "."%char \/ c = "!"%char -> tychar c = true.
Proof. unfold tychar. intros [H|[->| ->]]; [apply letter_spec in H; rewrite H|..]; reflexivity. Qed.
Lemma skip_ends_ty c : isspace c || Ascii.eqb c "#" || Ascii.eqb c "=" || Ascii.eqb c ";" = true -> tychar c = false /\ keychar c = false /\ aToZ c = false /\ und c = false.
Proof. destruct c as [[] [] [] [] [] [] [] []]; intros H; try discriminate H; repeat split. Qed.
Lemma ty_not_skip c : tychar c || keychar c || Ascii.eqb c "=" || Ascii.eqb c ";" = true -> Ascii.eqb c "#" = false /\ isspace c = false.
Proof. destruct c as [[] [] [] [] [] [] [] []]; intros H; try discriminate H; repeat split. Qed.
Lemma key_ty c : keychar c = true -> tychar c = aToZ c.
Proof. destruct c as [[] [] [] [] [] [] [] []]; intros H; try discriminate H; reflexivity. Qed.
Lemma letter_key c : aToZ c = true -> keychar c = true /\ und c = false /\ tychar c = true.
Proof. destruct c as [[] [] [] [] [] [] [] []]; intros H; try discriminate H; repeat split. Qed.

(** ** Runs of characters *)
Definition hdnot (p : ascii -> bool) (s : str) : Prop := match s with [] => True | c :: _ => p c = false end.
Lemma span_all p a s : (forall c, In c a -> p c = true) -> hdnot p s -> span p (a ++ s) = (a, s).
Proof.
  induction a as [|c a IH]; intros H N; cbn [app span].
  - destruct s as [|c s]; [reflexivity|]. cbn [hdnot] in N. cbn [span]. rewrite N. reflexivity.
  - rewrite (H c) by (left; auto). rewrite IH; auto. intros x Hx. apply H. right. auto.
Qed.
Lemma span_parts p s : let '(a, b) := span p s in s = a ++ b /\ (forall c, In c a -> p c = true) /\ hdnot p b.
Proof.
  induction s as [|c s IH]; cbn [span]; [repeat split; intros c []|].
  destruct (p c) eqn:E; [|repeat split; auto; intros x []].
  destruct (span p s) as [a b]. destruct IH as (-> & H1 & H2). repeat split; auto. intros x [<-|Hx]; auto.
Qed.
Lemma span_split p s : exists a b, s = a ++ b /\ (forall c, In c a -> p c = true) /\ hdnot p b.
Proof. pose proof (span_parts p s) as H. destruct (span p s) as [a b]. exists a, b. auto. Qed.

(** ** Skipping *)
Lemma to_eol_text t : (forall x, In x t -> ~ line_end x) -> forall s, to_eol (t ++ s) = to_eol s.
Proof.
  induction t as [|c t IH]; intros H s; [reflexivity|]. cbn [app to_eol].
  destruct (Nat.eqb (nat_of_ascii c) 13) eqn:E1; [exfalso; apply (H c); [left; auto|right; apply line_end_cr; auto]|].
  destruct (Nat.eqb (nat_of_ascii c) 10) eqn:E2; [exfalso; apply (H c); [left; auto|left; apply line_end_lf; auto]|].
  apply IH. intros x Hx. apply H. right. auto.
Qed.
Lemma blank_hash c : blank c -> Ascii.eqb c "#" = false.
Proof. intros H. apply blank_spec in H. destruct c as [[] [] [] [] [] [] [] []]; (reflexivity || discriminate). Qed.

Lemma skip_loop_stop fuel s : skip1 s = None -> skip_loop fuel s = s.
Proof. intros H. destruct fuel; cbn [skip_loop]; [|rewrite H]; reflexivity. Qed.
Lemma skipped_lf w : skipped (ascii_of_nat 10 :: w) -> skipped w.
Proof. intros H. inversion H; subst; auto. Qed.
Lemma skip_loop_app n : forall w s fuel, List.length w <= n -> skipped w -> skip1 s = None -> List.length w <= fuel -> skip_loop fuel (w ++ s) = s.
Proof.
  induction n as [|n IH]; intros w s fuel Ln Hw Hs Lf.
  { destruct w; [|cbn in Ln; lia]. apply skip_loop_stop. auto. }
  inversion Hw as [|c w' Hb Hw'|t c w' Ht Hc Hw']; subst.
  - apply skip_loop_stop. auto.
  - destruct fuel as [|fuel]; [cbn in Lf; lia|]. cbn [app skip_loop skip1]. rewrite (blank_hash c Hb), (empty_space c (proj2 (blank_spec c) Hb)).
    cbn [List.length] in *. apply IH; auto; lia.
  - destruct fuel as [|fuel]; [cbn in Lf; lia|]. cbn [app skip_loop skip1]. cbn [Ascii.eqb Bool.eqb].
    rewrite <- app_assoc, (to_eol_text t Ht). cbn [app to_eol].
    cbn [List.length] in Ln, Lf. rewrite app_length in Ln, Lf. cbn [List.length] in Ln, Lf.
    destruct Hc as [->| ->].
    + change (Nat.eqb (nat_of_ascii (ascii_of_nat 10)) 13) with false. change (Nat.eqb (nat_of_ascii (ascii_of_nat 10)) 10) with true. cbv iota.
      apply IH; auto; lia.
    + change (Nat.eqb (nat_of_ascii (ascii_of_nat 13)) 13) with true. cbv iota.
      destruct w' as [|d w']; cbn [app].
      * destruct s as [|d s]; [destruct fuel; reflexivity|].
        destruct (Nat.eqb (nat_of_ascii d) 10) eqn:E; [|apply skip_loop_stop; auto].
        apply line_end_lf in E. subst d. discriminate Hs.
      * destruct (Nat.eqb (nat_of_ascii d) 10) eqn:E; [|apply (IH (d :: w')); auto; cbn [List.length] in *; lia].
        apply line_end_lf in E. subst d. apply skipped_lf in Hw'. cbn [List.length] in *. apply IH; auto; lia.
Qed.
Lemma skip_app w s : skipped w -> skip1 s = None -> skip_over (w ++ s) = s.
Proof. intros Hw Hs. apply (skip_loop_app (List.length w)); auto. rewrite app_length. lia. Qed.
Lemma skip_none s : skip1 s = None -> skip_over s = s.
Proof. intros H. apply skip_loop_stop. auto. Qed.
Lemma skip_all w : skipped w -> skip_over w = [].
Proof. intros H. rewrite <- (app_nil_r w) at 1. apply skip_app; auto. Qed.
Lemma skip1_hd c s : tychar c || keychar c || Ascii.eqb c "=" || Ascii.eqb c ";" = true -> skip1 (c :: s) = None.
Proof. intros H. apply ty_not_skip in H. destruct H as [H1 H2]. cbn [skip1]. rewrite H1, H2. reflexivity. Qed.
(** what starts with something skipped, an equal sign, a semicolon or nothing *)
Definition stops (s : str) : Prop := match s with [] => True | c :: _ => isspace c || Ascii.eqb c "#" || Ascii.eqb c "=" || Ascii.eqb c ";" = true end.
Lemma stops_app w s : skipped w -> stops s -> stops (w ++ s).
Proof.
  intros Hw Hs. inversion Hw as [|c w' Hb Hw'|t c w' Ht Hc Hw']; subst; [auto| |]; cbn [app stops].
  - rewrite (empty_space c (proj2 (blank_spec c) Hb)). reflexivity.
  - reflexivity.
Qed.
Lemma stops_skipped w s : skipped w -> w <> [] -> stops (w ++ s).
Proof.
  intros Hw N. inversion Hw as [|c w' Hb Hw'|t c w' Ht Hc Hw']; subst; [congruence| |]; cbn [app stops].
  - rewrite (empty_space c (proj2 (blank_spec c) Hb)). reflexivity.
  - reflexivity.
Qed.
Lemma stops_hd p s : (forall c, isspace c || Ascii.eqb c "#" || Ascii.eqb c "=" || Ascii.eqb c ";" = true -> p c = false) -> stops s -> hdnot p s.
Proof. intros H. destruct s; cbn [stops hdnot]; auto. Qed.
Lemma stops_ty s : stops s -> hdnot tychar s.
Proof. apply stops_hd. intros c H. apply skip_ends_ty. auto. Qed.
Lemma stops_key s : stops s -> hdnot keychar s.
Proof. apply stops_hd. intros c H. apply skip_ends_ty. auto. Qed.
Lemma stops_aToZ s : stops s -> hdnot aToZ s.
Proof. apply stops_hd. intros c H. apply skip_ends_ty. auto. Qed.
Lemma stops_und s : stops s -> hdnot und s.
Proof. apply stops_hd. intros c H. apply skip_ends_ty. auto. Qed.

(** ** The pieces of a statement *)
Lemma p_type_ok w t r : skipped w -> type_ok t -> hdnot tychar r -> p_type (w ++ t ++ r) = Some (t, r).
Proof.
  intros Hw [N Ht] Hr. unfold p_type.
  destruct t as [|c t]; [congruence|].
  rewrite skip_app; auto.
  - fold tychar. rewrite (span_all tychar (c :: t) r); auto. intros x Hx. apply ty_char_spec, Ht. auto.
  - cbn [app]. apply skip1_hd. rewrite (ty_char_spec c); [reflexivity|]. apply Ht. left. auto.
Qed.
Lemma key_head k : key_ok k -> exists c r, k = c :: r /\ keychar c = true.
Proof.
  intros (u & c & r & -> & Hu & Hc & Hr). destruct u as [|x u]; cbn [app].
  - exists c, r. split; auto. apply letter_spec in Hc. apply letter_key in Hc. tauto.
  - exists x, (u ++ c :: r). split; auto. rewrite (Hu x) by (left; auto). reflexivity.
Qed.
Lemma hdnot_app p a s : hdnot p a -> hdnot p s -> hdnot p (a ++ s).
Proof. destruct a; cbn [app hdnot]; auto. Qed.
Lemma p_key_ok w k r : skipped w -> key_ok k -> stops r -> p_key (w ++ k ++ r) = Some (k, r).
Proof.
  intros Hw Hk Hr. destruct (key_head k Hk) as (c0 & r0 & Ek & Hc0). unfold p_key.
  rewrite skip_app; auto; [|rewrite Ek; cbn [app]; apply skip1_hd; rewrite Hc0, orb_true_r; reflexivity].
  destruct Hk as (u & c & y & -> & Hu & Hc & Hy). fold und. rewrite <- app_assoc. cbn [app].
  apply letter_spec in Hc. destruct (letter_key c Hc) as (K1 & K2 & K3).
  rewrite (span_all und u (c :: y ++ r)); [|intros x Hx; rewrite (Hu x Hx); reflexivity|exact K2].
  destruct (span_split aToZ (c :: y)) as (l & z & E & Hl & Hz).
  change (c :: y ++ r) with ((c :: y) ++ r). rewrite E. rewrite <- app_assoc.
  rewrite (span_all aToZ l (z ++ r)); [|auto|apply hdnot_app; auto; apply stops_aToZ; auto].
  destruct l as [|x l].
  { cbn [app] in E. subst z. cbn [hdnot] in Hz. congruence. }
  fold keychar. rewrite (span_all keychar z r); auto.
  - intros x' Hx'. assert (In x' (c :: y)) as [<-|Hin] by (rewrite E; apply in_or_app; auto); auto. apply key_char_spec; auto.
  - apply stops_key; auto.
Qed.
Lemma p_char_ok c w s : skipped w -> Ascii.eqb c "=" || Ascii.eqb c ";" = true -> p_char c (w ++ c :: s) = Some s.
Proof.
  intros Hw Hc. unfold p_char. rewrite skip_app; auto; [rewrite Ascii.eqb_refl; reflexivity|].
  apply skip1_hd. rewrite <- orb_assoc, Hc, orb_true_r. reflexivity.
Qed.
Lemma value_skip v s : value_ok v -> (forall c, In c v -> legal_char c) -> skip1 (v ++ s) = None.
Proof.
  intros (_ & c & r & -> & H1 & H2) L. cbn [app skip1]. destruct (Ascii.eqb_spec c "#"); [contradiction|].
  destruct (isspace c) eqn:E; [|reflexivity]. exfalso. apply H1, blank_spec.
  specialize (L c (or_introl eq_refl)). apply legal_spec in L. clear -E L.
  destruct c as [[] [] [] [] [] [] [] []]; try reflexivity; discriminate.
Qed.
(** What may follow a value *)
Definition ends (q : str) : Prop := q = [] \/ exists t, q = ";"%char :: t.
Lemma ends_stops q : ends q -> stops q.
Proof. intros [->|(t & ->)]; [exact I|reflexivity]. Qed.
Lemma ends_skip q : ends q -> skip1 q = None.
Proof. intros [->|(t & ->)]; reflexivity. Qed.
Lemma p_value_ok w v q : skipped w -> value_ok v -> (forall c, In c v -> legal_char c) -> ends q -> p_value (w ++ v ++ q) = Some (v, q).
Proof.
  intros Hw Hv L Hq. unfold p_value. rewrite skip_app by (auto using value_skip). fold notsemi.
  destruct Hv as (N & c & r & E & _). rewrite (span_all notsemi v q).
  - rewrite E. reflexivity.
  - intros x Hx. unfold notsemi. destruct (Ascii.eqb_spec x ";"); [subst; contradiction|reflexivity].
  - destruct Hq as [->|(t & ->)]; reflexivity.
Qed.
Lemma p_eq_value_ok w w' v q : skipped w -> skipped w' -> value_ok v -> (forall c, In c v -> legal_char c) -> ends q ->
  p_eq_value (w ++ "="%char :: w' ++ v ++ q) = Some (v, q).
Proof. intros Hw Hw' Hv L Hq. unfold p_eq_value. rewrite p_char_ok by auto. apply p_value_ok; auto. Qed.
Lemma p_eq_none w q : skipped w -> ends q -> p_eq_value (w ++ q) = None.
Proof.
  intros Hw Hq. unfold p_eq_value, p_char. rewrite skip_app by (auto using ends_skip). destruct Hq as [->|(t & ->)]; reflexivity.
Qed.

(** Text b is read as the statement x, wherever it is. *)
Definition reads_as (x : stmt) (b : str) : Prop :=
  forall w q, skipped w -> ends q -> exists r, p_statement (w ++ b ++ q) = Some (x, r) /\ skip_over r = q.

Lemma reads_declare t k w w' : type_ok t -> key_ok k -> w <> [] -> skipped w -> skipped w' ->
  reads_as (S2 t k) (t ++ w ++ k ++ w').
Proof.
  intros Ht Hk N Hw Hw' w0 q H0 Hq. exists (w' ++ q). rewrite skip_app by (auto using ends_skip). split; [|reflexivity].
  unfold p_statement, p_statement3, p_statement2. rewrite <- !app_assoc.
  rewrite p_type_ok by (auto using stops_ty, stops_skipped). rewrite p_key_ok by (auto using stops_app, ends_stops).
  rewrite p_eq_none by auto. reflexivity.
Qed.
Lemma reads_define0 t k v w w' w'' : type_ok t -> key_ok k -> value_ok v -> (forall c, In c v -> legal_char c) -> (w <> [] \/ exists k', k = "_"%char :: k') ->
  skipped w -> skipped w' -> skipped w'' -> reads_as (S3 t k v) (t ++ w ++ k ++ w' ++ "="%char :: w'' ++ v).
Proof.
  intros Ht Hk Hv L N Hw Hw' Hw'' w0 q H0 Hq. exists q. split; [|apply skip_none, ends_skip; auto].
  unfold p_statement, p_statement3. rewrite <- !app_assoc. cbn [app]. rewrite <- !app_assoc.
  rewrite p_type_ok; auto.
  - rewrite p_key_ok; auto; [|apply stops_app; [auto|reflexivity]]. rewrite p_eq_value_ok by auto. reflexivity.
  - destruct w as [|c w]; [|apply stops_ty, stops_skipped; auto; discriminate].
    destruct N as [N|(k' & ->)]; [congruence|]. reflexivity.
Qed.

(** The type of an assignment: nothing, or something not followed by a name *)
Lemma no_type w k s w' q : skipped w -> key_ok k -> ~ snake k -> skipped w' -> s = w' ++ q -> (exists q', q = "="%char :: q') ->
  p_type (w ++ k ++ s) = None \/ exists t r, p_type (w ++ k ++ s) = Some (t, r) /\ p_key r = None.
Proof.
  intros Hw Hk Ns Hw' -> (q' & ->). destruct (key_head k Hk) as (c0 & r0 & Ek & Hc0).
  assert (St : stops (w' ++ "="%char :: q')) by (apply stops_app; [auto|reflexivity]).
  unfold p_type. rewrite skip_app; auto; [|rewrite Ek; cbn [app]; apply skip1_hd; rewrite Hc0, orb_true_r; reflexivity].
  fold tychar. assert (KA : forall x, In x k -> keychar x = true).
  { destruct Hk as (u & c & y & -> & Hu & Hc & Hy). intros x Hx. apply in_app_or in Hx. destruct Hx as [Hx|[<-|Hx]].
    - rewrite (Hu x Hx). reflexivity.
    - apply letter_spec, letter_key in Hc. tauto.
    - apply key_char_spec; auto. }
  destruct (span_split tychar k) as (l & z & E & Hl & Hz). rewrite E, <- app_assoc.
  rewrite (span_all tychar l (z ++ w' ++ "="%char :: q')); [|auto|apply hdnot_app; auto using stops_ty].
  destruct l as [|x l]; [left; reflexivity|]. right. eexists. eexists. split; [reflexivity|].
  unfold p_key. fold und. destruct z as [|d z].
  - cbn [app]. rewrite skip_app by auto. reflexivity.
  - assert (Kd : keychar d = true) by (apply KA; rewrite E; apply in_or_app; right; left; auto).
    cbn [hdnot] in Hz. assert (Ad : aToZ d = false) by (rewrite <- (key_ty d Kd); auto).
    rewrite skip_none; [|cbn [app]; apply skip1_hd; rewrite Kd, orb_true_r; reflexivity].
    destruct (span_split und (d :: z)) as (u & y & Eu & Hu & Hy). rewrite Eu, <- app_assoc.
    rewrite (span_all und u (y ++ w' ++ "="%char :: q')); [|auto|apply hdnot_app; auto using stops_und].
    assert (Hn : hdnot aToZ (y ++ w' ++ "="%char :: q')).
    { apply hdnot_app; [|apply stops_aToZ; auto]. destruct y as [|e y]; [exact I|]. cbn [hdnot].
      destruct (aToZ e) eqn:Ee; [|reflexivity]. exfalso. destruct u as [|u0 u].
      - cbn [app] in Eu. injection Eu as <- <-. congruence.
      - apply Ns. exists (x :: l), (u0 :: u), e, y. rewrite E, Eu. split; [reflexivity|]. split; [discriminate|]. split.
        + intros g Hg. apply letter_spec. rewrite <- (key_ty g); [apply Hl; auto|]. apply KA. rewrite E. apply in_or_app. left; auto.
        + split; [discriminate|]. split; [|apply letter_spec; auto]. intros g Hg. apply Ascii.eqb_eq. apply (Hu g Hg). }
    destruct (y ++ w' ++ "="%char :: q') as [|e y'] eqn:Ey; [reflexivity|]. cbn [hdnot] in Hn. cbn [span]. rewrite Hn. reflexivity.
Qed.
Lemma reads_assign k v w' w'' : key_ok k -> ~ snake k -> value_ok v -> (forall c, In c v -> legal_char c) -> skipped w' -> skipped w'' ->
  reads_as (S1 k v) (k ++ w' ++ "="%char :: w'' ++ v).
Proof.
  intros Hk Ns Hv L Hw' Hw'' w0 q H0 Hq. exists q. split; [|apply skip_none, ends_skip; auto].
  rewrite <- !app_assoc. cbn [app]. rewrite <- !app_assoc.
  assert (P1 : p_statement1 (w0 ++ k ++ w' ++ "="%char :: w'' ++ v ++ q) = Some (S1 k v, q)).
  { unfold p_statement1. rewrite p_key_ok; auto; [|apply stops_app; [auto|reflexivity]]. rewrite p_eq_value_ok by auto. reflexivity. }
  unfold p_statement, p_statement3, p_statement2.
  destruct (no_type w0 k (w' ++ "="%char :: w'' ++ v ++ q) w' ("="%char :: w'' ++ v ++ q) H0 Hk Ns Hw' eq_refl) as [E|(t & r & E & E2)]; [eauto| |]; rewrite E; [|rewrite E2]; exact P1.
Qed.

(** ** Statements *)
Definition stmt_of (e : event) : stmt :=
  match e with
  | EDeclare t k None => S2 t k
  | EDeclare t k (Some v) => S3 t k v
  | EAssign k v => S1 k v
  | ERead k => S1 k []
  end.
Lemma statement_body e s : statement e s -> (forall c, In c s -> legal_char c) ->
  exists b, s = b ++ [";"%char] /\ reads_as (stmt_of e) b /\ forall k, e <> ERead k.
Proof.
  intros [t k w Ht Hk N Hw w' Hw'|t k v w Ht Hk Hv N Hw w' w'' Hw' Hw''|k v Hk Ns Hv w' w'' Hw' Hw''] L.
  - exists (t ++ w ++ k ++ w'). split; [rewrite <- !app_assoc; reflexivity|]. split; [apply reads_declare; auto|discriminate].
  - exists (t ++ w ++ k ++ w' ++ "="%char :: w'' ++ v). split; [rewrite <- !app_assoc; cbn [app]; rewrite <- !app_assoc; reflexivity|].
    split; [|discriminate]. apply reads_define0; auto. intros c Hc. apply L. rewrite !in_app_iff. cbn [In]. rewrite !in_app_iff. tauto.
  - exists (k ++ w' ++ "="%char :: w'' ++ v). split; [rewrite <- !app_assoc; cbn [app]; rewrite <- !app_assoc; reflexivity|].
    split; [|discriminate]. apply reads_assign; auto. intros c Hc. apply L. rewrite !in_app_iff. cbn [In]. rewrite !in_app_iff. tauto.
Qed.

(** A program: pairs of what is skipped and a body. *)
Fixpoint prog (l : list (str * str)) : str :=
  match l with
  | [] => []
  | (w, b) :: l => w ++ b ++ ";"%char :: prog l
  end.
Definition reads_all (xs : list stmt) (l : list (str * str)) : Prop :=
  Forall2 (fun x p => skipped (fst p) /\ reads_as x (snd p)) xs l.
Lemma statements_prog h t : statements h t -> (forall c, In c t -> legal_char c) ->
  exists l, t = prog l /\ reads_all (map stmt_of h) l /\ forall k, ~ In (ERead k) h.
Proof.
  induction 1 as [|w e s h t Hw Hs Ht IH]; intros L.
  - exists []. repeat split; auto. constructor.
  - destruct (statement_body e s Hs) as (b & -> & Hb & Nr); [intros c Hc; apply L; rewrite !in_app_iff; auto|].
    destruct IH as (l & -> & Hl & Nl); [intros c Hc; apply L; rewrite !in_app_iff; auto|].
    exists ((w, b) :: l). split; [cbn [prog]; rewrite <- !app_assoc; reflexivity|]. split.
    + cbn [map]. constructor; auto.
    + intros k [E|Hin]; [apply (Nr k); auto|apply (Nl k); auto].
Qed.

Lemma reads_length x b w : reads_as x b -> skipped w -> b <> [].
Proof.
  intros H Hw ->. destruct (H w [] Hw (or_introl eq_refl)) as (r & E & _). cbn [app] in E.
  unfold p_statement, p_statement3, p_statement2, p_statement1, p_type, p_key in E. rewrite app_nil_r, (skip_all w Hw) in E.
  cbn in E. discriminate.
Qed.
Lemma prog_length l : forall xs, reads_all xs l -> List.length xs <= List.length (prog l).
Proof.
  induction l as [|[w b] l IH]; intros xs H; inversion H as [|x p xs' l' [H1 H2] H3]; subst; [auto|].
  cbn [prog List.length]. rewrite !app_length. cbn [List.length]. specialize (IH _ H3). lia.
Qed.

(** The statements after the first. *)
Lemma more_ok l : forall xs tail fuel r, reads_all xs l -> p_statement tail = None -> List.length xs <= fuel ->
  skip_over r = ";"%char :: prog l ++ tail ->
  exists r', p_more_statements fuel r = (xs, r') /\ skip_over r' = ";"%char :: tail.
Proof.
  induction l as [|[w b] l IH]; intros xs tail fuel r H T F E; inversion H as [|x p xs' l' [H1 H2] H3]; subst; cbn [fst snd] in *.
  - exists r. cbn [prog app] in E. split; auto. destruct fuel; [reflexivity|]. cbn [p_more_statements]. unfold p_char. rewrite E.
    rewrite Ascii.eqb_refl, T. reflexivity.
  - destruct fuel as [|fuel]; [cbn in F; lia|]. cbn [p_more_statements]. unfold p_char. rewrite E, Ascii.eqb_refl.
    cbn [prog]. rewrite <- !app_assoc. cbn [app].
    destruct (H2 w (";"%char :: prog l ++ tail) H1) as (r1 & E1 & E2); [right; eauto|]. rewrite E1.
    destruct (IH xs' tail fuel r1 H3 T) as (r' & E3 & E4); [cbn in F; lia|auto|]. rewrite E3. exists r'. auto.
Qed.
Lemma skip_over_length r : List.length (skip_over r) <= List.length r.
Proof.
  unfold skip_over. generalize (List.length r) at 1. intros n. revert r. induction n as [|n IH]; intros r; cbn [skip_loop]; [auto|].
  destruct (skip1 r) as [r'|] eqn:E; [|auto]. specialize (IH r'). enough (List.length r' <= List.length r) by lia.
  destruct r as [|c r]; cbn [skip1] in E; [discriminate|].
  assert (G : forall s s', to_eol s = Some s' -> List.length s' <= List.length s).
  { clear. induction s as [|c s IH]; intros s' E; cbn [to_eol] in E; [discriminate|]. cbn [List.length].
    destruct (Nat.eqb (nat_of_ascii c) 13).
    - injection E as <-. destruct s as [|d s]; [auto|]. destruct (Nat.eqb (nat_of_ascii d) 10); cbn [List.length]; lia.
    - destruct (Nat.eqb (nat_of_ascii c) 10); [injection E as <-; lia|]. specialize (IH _ E). lia. }
  destruct (Ascii.eqb c "#"); [apply G in E; cbn [List.length]; lia|]. destruct (isspace c); [injection E as <-; cbn [List.length]; lia|discriminate].
Qed.
Lemma parse_prog x xs l tail : reads_all (x :: xs) l -> p_statement tail = None ->
  phrase_parse (prog l ++ tail) = (x :: xs, ";"%char :: tail).
Proof.
  intros H T. inversion H as [|x' [w b] xs' l' [H1 H2] H3]; subst. cbn [fst snd] in *. unfold phrase_parse. cbn [prog].
  rewrite <- !app_assoc. cbn [app].
  destruct (H2 w (";"%char :: prog l' ++ tail) H1) as (r & E1 & E2); [right; eauto|]. rewrite E1.
  destruct (more_ok l' xs tail (List.length r) r H3 T) as (r' & E3 & E4); auto.
  - pose proof (prog_length l' xs H3).
    pose proof (skip_over_length r) as H4.
    rewrite E2 in H4. cbn [List.length] in H4. rewrite app_length in H4. lia.
  - rewrite E3, E4. reflexivity.
Qed.
(** The same without the last semicolon. *)
Lemma more_open l : forall xs x w b fuel r, reads_all xs l -> skipped w -> reads_as x b -> List.length xs < fuel ->
  skip_over r = ";"%char :: prog l ++ w ++ b ->
  exists r', p_more_statements fuel r = (xs ++ [x], r') /\ skip_over r' = [].
Proof.
  induction l as [|[w0 b0] l IH]; intros xs x w b fuel r H Hw Hb F E; inversion H as [|x' p xs' l' [H1 H2] H3]; subst; cbn [fst snd] in *.
  - destruct fuel as [|fuel]; [lia|]. cbn [p_more_statements app]. unfold p_char. rewrite E, Ascii.eqb_refl. cbn [prog app].
    destruct (Hb w [] Hw (or_introl eq_refl)) as (r1 & E1 & E2). rewrite app_nil_r in E1. rewrite E1.
    exists r1. split; auto. destruct fuel; [reflexivity|]. cbn [p_more_statements]. unfold p_char. rewrite E2. reflexivity.
  - destruct fuel as [|fuel]; [cbn in F; lia|]. cbn [p_more_statements app]. unfold p_char. rewrite E, Ascii.eqb_refl.
    cbn [prog]. rewrite <- !app_assoc. cbn [app].
    destruct (H2 w0 (";"%char :: prog l ++ w ++ b) H1) as (r1 & E1 & E2); [right; eauto|]. rewrite E1.
    destruct (IH xs' x w b fuel r1 H3 Hw Hb) as (r' & E3 & E4); [cbn in F; lia|auto|]. rewrite E3. exists r'. auto.
Qed.
Lemma parse_open xs x l w b : reads_all xs l -> skipped w -> reads_as x b ->
  phrase_parse (prog l ++ w ++ b) = (xs ++ [x], []).
Proof.
  intros H Hw Hb. inversion H as [|x' [w0 b0] xs' l' [H1 H2] H3]; subst; cbn [fst snd] in *; unfold phrase_parse; cbn [prog].
  - cbn [app]. destruct (Hb w [] Hw (or_introl eq_refl)) as (r1 & E1 & E2). rewrite app_nil_r in E1. rewrite E1.
    assert (p_more_statements (List.length r1) r1 = ([], r1)) as ->; [|rewrite E2; reflexivity].
    destruct (List.length r1); [reflexivity|]. cbn [p_more_statements]. unfold p_char. rewrite E2. reflexivity.
  - rewrite <- !app_assoc. cbn [app].
    destruct (H2 w0 (";"%char :: prog l' ++ w ++ b) H1) as (r & E1 & E2); [right; eauto|]. rewrite E1.
    destruct (more_open l' xs' x w b (List.length r) r H3 Hw Hb) as (r' & E3 & E4); auto.
    + pose proof (prog_length l' xs' H3). pose proof (skip_over_length r) as L. rewrite E2 in L. cbn [List.length] in L. rewrite !app_length in L.
      pose proof (reads_length x b w Hb Hw). destruct b; [congruence|]. cbn [List.length] in L. lia.
    + rewrite E3, E4. reflexivity.
Qed.

(** ** What follows the statements *)
Lemma tail_none w : skipped w -> p_statement w = None.
Proof.
  intros Hw. unfold p_statement, p_statement3, p_statement2, p_statement1, p_type, p_key. rewrite (skip_all w Hw). reflexivity.
Qed.
Lemma junk_none w c r : skipped w -> skip1 (c :: r) = None -> tychar c = false -> und c = false -> p_statement (w ++ c :: r) = None.
Proof.
  intros Hw Hs H1 H2. unfold p_statement, p_statement3, p_statement2, p_statement1, p_type, p_key. rewrite (skip_app w _ Hw Hs).
  fold und. fold tychar. cbn [span]. rewrite H1, H2. cbn [span].
  assert (aToZ c = false) as ->; [|reflexivity]. unfold tychar in H1. apply orb_false_iff in H1. destruct H1 as [H1 _]. apply orb_false_iff in H1. tauto.
Qed.
Lemma single_none w c : skipped w -> skip1 [c] = None -> p_statement (w ++ [c]) = None.
Proof.
  intros Hw Hs. unfold p_statement, p_statement3, p_statement2, p_statement1, p_type, p_key. rewrite (skip_app w _ Hw Hs).
  fold und. fold tychar. cbn [span].
  destruct (tychar c) eqn:T.
  - change (skip_over []) with (@nil ascii). cbn [span]. unfold und at 1. destruct (Ascii.eqb_spec c "_") as [->|N]; [discriminate T|].
    cbn [span]. destruct (aToZ c); cbn [span]; [|reflexivity]. unfold p_eq_value, p_char. cbn. reflexivity.
  - destruct (und c) eqn:U; cbn [span]; [reflexivity|].
    assert (aToZ c = false) as ->; [|reflexivity]. unfold tychar in T. apply orb_false_iff in T. destruct T as [T _]. apply orb_false_iff in T. tauto.
Qed.

Lemma check_skipped w : skipped w -> check_rest (";"%char :: w) = Ok tt.
Proof. intros Hw. cbn [check_rest]. destruct (allEmpty w); [reflexivity|]. rewrite (skip_all w Hw). reflexivity. Qed.
Lemma not_all_empty w c r : ~ blank c -> allEmpty (w ++ c :: r) = false.
Proof.
  intros N. unfold allEmpty. rewrite forallb_app. cbn [forallb]. destruct (isEmptyChar c) eqn:E; [exfalso; apply N, blank_spec; auto|].
  cbn [andb]. apply andb_false_r.
Qed.
Lemma check_single w c : skipped w -> skip1 [c] = None -> ~ blank c -> check_rest (";"%char :: w ++ [c]) = Ok tt.
Proof.
  intros Hw Hs N. cbn [check_rest]. rewrite (not_all_empty w c [] N), (skip_app w _ Hw Hs). reflexivity.
Qed.
Lemma check_junk w c d r : skipped w -> skip1 (c :: d :: r) = None -> ~ blank c -> check_rest (";"%char :: w ++ c :: d :: r) = Throw.
Proof.
  intros Hw Hs N. cbn [check_rest]. rewrite (not_all_empty w c _ N), (skip_app w _ Hw Hs). cbn [List.length Nat.eqb negb andb].
  pose proof (not_all_empty [] c (d :: r) N) as E. cbn [app] in E. rewrite E. reflexivity.
Qed.

Lemma forL_app' {A S : Type} (l l' : list A) (f : A -> S -> res S) s : forL (l ++ l') f s = do s <- forL l f s ;; forL l' f s.
Proof. revert s. induction l as [|a l IH]; intros s; [reflexivity|]. cbn [app forL]. destruct (f a s); cbn [bind]; auto. Qed.
Lemma acts_run apply h : (forall k, ~ In (ERead k) h) -> forall st, forL (map stmt_of h) (fun x st => act st x) st = run apply st h.
Proof.
  induction h as [|e h IH]; intros N st; [reflexivity|]. cbn [map forL run].
  assert (act st (stmt_of e) = step apply st e) as ->.
  { destruct e as [t k [v|]|k v|k]; try reflexivity. exfalso. apply (N k). left. auto. }
  destruct (step apply st e) as [st'| | |]; cbn [bind]; auto. apply IH. intros k Hk. apply (N k). right. auto.
Qed.
