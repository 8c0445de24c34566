From Coq Require Import Ascii String.
From Verif Require Import Prelude Str_Model Str_Spec Str_Proofs Text_Model Text_Spec Text_Proofs Ng_Proofs Simple_Model Simple_Spec.
Import List.
Local Open Scope Z_scope.

Definition good (file b : str) : fin := mkfin file b false false.
Definition ended (file : str) : fin := mkfin file [] true true.

Lemma good_eof file b : f_eof (good file b) = false. Proof. reflexivity. Qed.
Lemma good_good file b : f_good (good file b) = true. Proof. reflexivity. Qed.
Lemma ended_eof file : f_eof (ended file) = true. Proof. reflexivity. Qed.
Lemma token_here file gap w c b temp : spaces gap -> w <> [] -> (forall x, In x w -> ~ is_space x) -> is_space c ->
  get_token (good file (gap ++ w ++ c :: b)) temp = (w, good file (c :: b)).
Proof.
  intros G N W C. unfold get_token, good. cbn [f_good f_eof f_fail negb andb f_buf]. rewrite skipws_app by auto.
  destruct w as [|x w]; [contradiction|]. cbn [app skipws].
  assert (Hx : forall y, In y (x :: w) -> isspace y = false).
  { intros y Hy. destruct (isspace y) eqn:E; auto. apply isspace_In in E. elim (W y Hy E). }
  rewrite (Hx x) by (left; auto). change (x :: w ++ c :: b) with ((x :: w) ++ c :: b).
  rewrite span_app; auto.
  - intros y Hy. rewrite Hx by auto. auto.
  - right. exists c, b. split; auto. apply isspace_In in C. rewrite C. auto.
Qed.
Lemma token_end file b temp : spaces b -> get_token (good file b) temp = (temp, ended file).
Proof.
  intros H. unfold get_token, good. cbn [f_good f_eof f_fail negb andb f_buf]. rewrite <- (app_nil_r b), skipws_app by auto. auto.
Qed.
Lemma starts_prefix s w : prefixb s w = true <-> starts s w.
Proof. apply prefixb_true. Qed.
Lemma not_starts s w : ~ starts s w -> prefixb s w = false.
Proof. intros H. destruct (prefixb s w) eqn:E; auto. apply starts_prefix in E. contradiction. Qed.


Section Readline.
  Context {X : Type}.
  Variable rd : istream -> X -> X * istream.
  Definition val (s w : str) (x : X) : X := fst (rd (mkis (skipn (List.length s) w) false) x).

  Lemma loop_found s file b l r : reads b l r -> forall k i, occurs s l k i -> forall fuel temp x fo c, (List.length b < fuel)%nat -> 0 <= c ->
    exists pre b' x0 w, b = pre ++ b' /\ reads b' (skipn (S i) l) r /\ nth_error l i = Some w /\
      readline_loop rd fuel s (c + Z.of_nat k) (good file b) temp x fo c = Ok (good file b', val s w x0, true, true, c + Z.of_nat k).
  Proof.
    induction 1 as [b|gap w c0 b l r G N W C Hw IH]; intros k i O fuel temp x fo c F Hc; [inversion O|].
    destruct fuel as [|fuel]; [lia|]. cbn [readline_loop]. rewrite good_eof, token_here, good_eof by auto.
    assert (L : (List.length (c0 :: b) < fuel)%nat).
    { rewrite !app_length in F. destruct w; [contradiction|]. cbn [List.length] in *. lia. }
    inversion O as [w' l' St|w' l' k' i' St O'|w' l' k' i' St O']; subst.
    - rewrite (proj2 (starts_prefix s w) St). destruct (rd (mkis (skipn (List.length s) w) false) x) as [x1 st] eqn:E.
      destruct (Z.leb_spec 0 (c + Z.of_nat 0)); [|lia]. destruct (Z.eqb_spec c (c + Z.of_nat 0)); [|lia]. cbn [andb].
      exists (gap ++ w), (c0 :: b), x, w. rewrite <- app_assoc. split; auto. split; auto. split; auto.
      unfold val. rewrite E. rewrite Z.add_0_r. reflexivity.
    - rewrite (proj2 (starts_prefix s w) St). destruct (rd (mkis (skipn (List.length s) w) false) x) as [x1 st] eqn:E.
      destruct (Z.eqb_spec c (c + Z.of_nat (S k'))); [lia|]. rewrite andb_false_r.
      destruct (IH k' i' O' fuel w x1 true (c + 1) L ltac:(lia)) as (pre & b' & x0 & w1 & Eb & Wb & Nw & R).
      exists (gap ++ w ++ pre), b', x0, w1. rewrite Eb. split; [rewrite <- !app_assoc; auto|]. split; auto. split; auto.
      replace (c + Z.of_nat (S k')) with (c + 1 + Z.of_nat k') by lia. rewrite <- Eb. exact R.
    - rewrite (not_starts s w St).
      destruct (IH k i' O' fuel w x fo c L Hc) as (pre & b' & x0 & w1 & Eb & Wb & Nw & R).
      exists (gap ++ w ++ pre), b', x0, w1. rewrite Eb. split; [rewrite <- !app_assoc; auto|]. split; auto. split; auto.
      rewrite <- Eb. exact R.
  Qed.
  Lemma loop_end s file level b l : words b l -> forall n, number s l n -> forall fuel temp x fo c, (List.length b < fuel)%nat -> 0 <= c ->
    (level < 0 \/ c + Z.of_nat n <= level) ->
    exists x', readline_loop rd fuel s level (good file b) temp x fo c = Ok (ended file, x', false, (fo || (0 <? n)%nat)%bool, c + Z.of_nat n).
  Proof.
    intros (r & Rd & Sb). induction Rd as [b|gap w c0 b l r G N W C Hw IH]; intros n O fuel temp x fo c F Hc Lv.
    - inversion O; subst. destruct fuel as [|fuel]; [lia|]. cbn [readline_loop]. rewrite good_eof, token_end, ended_eof by auto.
      exists x. rewrite orb_false_r, Z.add_0_r. reflexivity.
    - destruct fuel as [|fuel]; [lia|]. cbn [readline_loop]. rewrite good_eof, token_here, good_eof by auto.
      assert (L : (List.length (c0 :: b) < fuel)%nat).
      { rewrite !app_length in F. destruct w; [contradiction|]. cbn [List.length] in *. lia. }
      inversion O as [|w' l' n' St O'|w' l' n' St O']; subst.
      + rewrite (proj2 (starts_prefix s w) St). destruct (rd (mkis (skipn (List.length s) w) false) x) as [x1 st] eqn:E.
        assert (Hl : ((0 <=? level) && (c =? level))%bool = false).
        { destruct (Z.leb_spec 0 level); cbn [andb]; auto. apply Z.eqb_neq. lia. }
        rewrite Hl. destruct (IH Sb n' O' fuel w x1 true (c + 1) L ltac:(lia) ltac:(lia)) as (x' & R). exists x'.
        cbn [good] in R |- *. rewrite R.
        replace (c + 1 + Z.of_nat n') with (c + Z.of_nat (S n')) by lia. rewrite orb_true_l. replace (0 <? S n')%nat with true by reflexivity. rewrite orb_true_r. auto.
      + rewrite (not_starts s w St). destruct (IH Sb n O' fuel w x fo c L Hc Lv) as (x' & R). exists x'. exact R.
  Qed.

  Lemma readline_found s file b l r k i x : reads b l r -> occurs s l k i ->
    exists pre b' x0 w, b = pre ++ b' /\ reads b' (skipn (S i) l) r /\ nth_error l i = Some w /\
      readline rd (good file b) x s (Z.of_nat k) = Ok (val s w x0, Z.of_nat k, good file b').
  Proof.
    intros W O. destruct (loop_found s file b l r W k i O (S (List.length b)) [] x false 0) as (pre & b' & x0 & w & E1 & E2 & E3 & E4); [lia|lia|].
    exists pre, b', x0, w. split; auto. split; auto. split; auto. unfold readline, readline_once.
    rewrite good_good. cbn [negb]. change (f_buf (good file b)) with b. rewrite Z.add_0_l in E4. rewrite E4. cbn [bind negb orb andb].
    destruct (Z.eqb_spec (Z.of_nat k) LAST_INSTANCE) as [X0|]; [unfold LAST_INSTANCE in X0; lia|]. reflexivity.
  Qed.
  Lemma readline_missing s file b l n k x : words b l -> number s l n -> (n <= k)%nat -> readline rd (good file b) x s (Z.of_nat k) = Throw.
  Proof.
    intros W O L. destruct (loop_end s file (Z.of_nat k) b l W n O (S (List.length b)) [] x false 0) as (x' & E); [lia|lia|lia|].
    unfold readline, readline_once. rewrite good_good. cbn [negb]. change (f_buf (good file b)) with b. rewrite E. cbn [bind negb orb andb].
    destruct (Z.eqb_spec (Z.of_nat k) LAST_INSTANCE) as [X0|]; [unfold LAST_INSTANCE in X0; lia|]. cbn [negb andb]. rewrite orb_true_r. auto.
  Qed.
  (** The last instance: counted from where the stream is, then looked for from the beginning of the file. *)
  Lemma readline_last s file b l n x ls r i : words b l -> number s l (S n) -> reads file ls r -> occurs s ls n i ->
    exists pre b' x0 w, file = pre ++ b' /\ reads b' (skipn (S i) ls) r /\ nth_error ls i = Some w /\
      readline rd (good file b) x s LAST_INSTANCE = Ok (val s w x0, Z.of_nat (S n), good file b').
  Proof.
    intros W O Wf Of. destruct (loop_end s file LAST_INSTANCE b l W (S n) O (S (List.length b)) [] x false 0) as (x' & E); [lia|lia|unfold LAST_INSTANCE; lia|].
    destruct (loop_found s file file ls r Wf n i Of (S (List.length file)) [] x' false 0) as (pre & b' & x0 & w & E1 & E2 & E3 & E4); [lia|lia|].
    exists pre, b', x0, w. split; auto. split; auto. split; auto.
    unfold readline, readline_once. rewrite good_good. cbn [negb]. change (f_buf (good file b)) with b.
    rewrite E. change (0 <? S n)%nat with true. cbn [bind negb orb andb]. rewrite Z.eqb_refl. cbn [negb andb]. cbn [bind].
    change (f_open (f_file (ended file))) with (good file file). rewrite good_good. cbn [negb]. change (f_buf (good file file)) with file.
    replace (0 + Z.of_nat (S n) - 1) with (0 + Z.of_nat n) by lia. rewrite E4. cbn [bind negb orb andb]. rewrite Z.add_0_l. reflexivity.
  Qed.
End Readline.

(** * advance *)
Lemma adv_found s file b l r : reads b l r -> forall k i, occurs s l k i -> forall fuel temp sv c, (List.length b < fuel)%nat -> 0 <= c ->
  exists pre b' w, b = pre ++ b' /\ reads b' (skipn (S i) l) r /\ nth_error l i = Some w /\
    advance_loop fuel s (c + Z.of_nat k) (good file b) temp sv c = Ok (good file b', w, true, c + Z.of_nat k).
Proof.
  induction 1 as [b|gap w c0 b l r G N W C Hw IH]; intros k i O fuel temp sv c F Hc; [inversion O|].
  destruct fuel as [|fuel]; [lia|]. cbn [advance_loop]. rewrite good_eof, token_here, good_eof, good_good by auto. cbn [negb orb].
  assert (L : (List.length (c0 :: b) < fuel)%nat).
  { rewrite !app_length in F. destruct w; [contradiction|]. cbn [List.length] in *. lia. }
  inversion O as [w' l' St|w' l' k' i' St O'|w' l' k' i' St O']; subst.
  - rewrite (proj2 (starts_prefix s w) St).
    destruct (Z.leb_spec 0 (c + Z.of_nat 0)); [|lia]. destruct (Z.eqb_spec c (c + Z.of_nat 0)); [|lia]. cbn [andb].
    exists (gap ++ w), (c0 :: b), w. rewrite <- app_assoc. split; auto. split; auto. split; auto. rewrite Z.add_0_r. reflexivity.
  - rewrite (proj2 (starts_prefix s w) St).
    destruct (Z.eqb_spec c (c + Z.of_nat (S k'))); [lia|]. rewrite andb_false_r.
    destruct (IH k' i' O' fuel w w (c + 1) L ltac:(lia)) as (pre & b' & w1 & Eb & Wb & Nw & R).
    exists (gap ++ w ++ pre), b', w1. rewrite Eb. split; [rewrite <- !app_assoc; auto|]. split; auto. split; auto.
    replace (c + Z.of_nat (S k')) with (c + 1 + Z.of_nat k') by lia. rewrite <- Eb. exact R.
  - rewrite (not_starts s w St).
    destruct (IH k i' O' fuel w sv c L Hc) as (pre & b' & w1 & Eb & Wb & Nw & R).
    exists (gap ++ w ++ pre), b', w1. rewrite Eb. split; [rewrite <- !app_assoc; auto|]. split; auto. split; auto.
    rewrite <- Eb. exact R.
Qed.
(** [sv'] is the last word found, if any. *)
Lemma adv_end s file level b l : words b l -> forall n, number s l n -> forall fuel temp sv c, (List.length b < fuel)%nat -> 0 <= c ->
  (level < 0 \/ c + Z.of_nat n <= level) ->
  exists sv', advance_loop fuel s level (good file b) temp sv c = Ok (ended file, sv', false, c + Z.of_nat n) /\
    match n with O => sv' = sv | S m => exists i, occurs s l m i /\ nth_error l i = Some sv' end.
Proof.
  intros (r & Rd & Sb). induction Rd as [b|gap w c0 b l r G N W C Hw IH]; intros n O fuel temp sv c F Hc Lv.
  - inversion O; subst. destruct fuel as [|fuel]; [lia|]. cbn [advance_loop]. rewrite good_eof, token_end, ended_eof by auto. cbn [orb].
    exists sv. rewrite Z.add_0_r. split; reflexivity.
  - destruct fuel as [|fuel]; [lia|]. cbn [advance_loop]. rewrite good_eof, token_here, good_eof, good_good by auto. cbn [negb orb].
    assert (L : (List.length (c0 :: b) < fuel)%nat).
    { rewrite !app_length in F. destruct w; [contradiction|]. cbn [List.length] in *. lia. }
    inversion O as [|w' l' n' St O'|w' l' n' St O']; subst.
    + rewrite (proj2 (starts_prefix s w) St).
      assert (Hl : ((0 <=? level) && (c =? level))%bool = false).
      { destruct (Z.leb_spec 0 level); cbn [andb]; auto. apply Z.eqb_neq. lia. }
      rewrite Hl. destruct (IH Sb n' O' fuel w w (c + 1) L ltac:(lia) ltac:(lia)) as (sv' & R & P). exists sv'.
      cbn [good] in R |- *. rewrite R.
      replace (c + 1 + Z.of_nat n') with (c + Z.of_nat (S n')) by lia. split; auto. destruct n' as [|m].
      * subst sv'. exists 0%nat. split; [constructor; auto|auto].
      * destruct P as (i & P1 & P2). exists (S i). split; [constructor; auto|auto].
    + rewrite (not_starts s w St). destruct (IH Sb n O' fuel w sv c L Hc Lv) as (sv' & R & P). exists sv'. split; [exact R|].
      destruct n as [|m]; auto. destruct P as (i & P1 & P2). exists (S i). split; [apply occurs_skip; auto|auto].
Qed.
Lemma advance_found s file b l r k i : reads b l r -> occurs s l k i ->
  exists pre b' w, b = pre ++ b' /\ reads b' (skipn (S i) l) r /\ nth_error l i = Some w /\
    advance (good file b) s (Z.of_nat k) = Ok (w, Z.of_nat k, good file b') /\ advance_pos (good file b) s (Z.of_nat k) = Ok (w, Z.of_nat k, good file b').
Proof.
  intros W O. destruct (adv_found s file b l r W k i O (S (List.length b)) NOTFOUND NOTFOUND 0) as (pre & b' & w & E1 & E2 & E3 & E4); [lia|lia|].
  exists pre, b', w. split; auto. split; auto. split; auto. rewrite Z.add_0_l in E4. unfold advance, advance_pos. change (f_buf (good file b)) with b. rewrite E4. cbn [bind negb andb].
  destruct (Z.eqb_spec (Z.of_nat k) LAST_INSTANCE) as [X0|]; [unfold LAST_INSTANCE in X0; lia|]. auto.
Qed.
Lemma advance_none s file b l lv : words b l -> number s l 0 -> advance (good file b) s lv = Throw.
Proof.
  intros W O. destruct (Z.lt_ge_cases lv 0) as [Lv|Lv].
  - destruct (adv_end s file lv b l W 0 O (S (List.length b)) NOTFOUND NOTFOUND 0) as (sv & E & P); [lia|lia|lia|]. subst sv.
    unfold advance. change (f_buf (good file b)) with b. rewrite E. cbn [bind]. rewrite str_eqb_refl. cbn [negb andb]. rewrite andb_false_r. auto.
  - destruct (adv_end s file lv b l W 0 O (S (List.length b)) NOTFOUND NOTFOUND 0) as (sv & E & P); [lia|lia|lia|]. subst sv.
    unfold advance. change (f_buf (good file b)) with b. rewrite E. cbn [bind]. rewrite str_eqb_refl. cbn [negb andb]. rewrite andb_false_r. auto.
Qed.
Lemma occurs_starts s l k i w : occurs s l k i -> nth_error l i = Some w -> starts s w.
Proof. intros O. revert w. induction O; intros w0 H0; auto. injection H0 as <-. auto. Qed.
(** Fewer than were asked for: the last word is returned, and the stream is at its end. *)
Lemma advance_few s file b l n k : words b l -> number s l (S n) -> (n < k)%nat -> ~ starts s NOTFOUND ->
  exists w i, occurs s l n i /\ nth_error l i = Some w /\ advance (good file b) s (Z.of_nat k) = Ok (w, Z.of_nat (S n), ended file).
Proof.
  intros W O L Nf. destruct (adv_end s file (Z.of_nat k) b l W (S n) O (S (List.length b)) NOTFOUND NOTFOUND 0) as (sv & E & i & P1 & P2); [lia|lia|lia|].
  exists sv, i. split; auto. split; auto. unfold advance. change (f_buf (good file b)) with b. rewrite E. cbn [bind].
  destruct (Z.eqb_spec (Z.of_nat k) LAST_INSTANCE) as [X0|]; [unfold LAST_INSTANCE in X0; lia|]. cbn [andb negb].
  rewrite (str_eqb_neq sv NOTFOUND); [auto|]. intros ->. apply Nf. eapply occurs_starts; eauto.
Qed.

(** * count *)
Lemma starts_dec s w : {starts s w} + {~ starts s w}.
Proof. destruct (prefixb s w) eqn:E; [left; apply starts_prefix; auto|right]. intros H. apply starts_prefix in H. congruence. Qed.
Lemma number_split s l n : number s l (S n) -> exists i, occurs s l 0 i /\ number s (skipn (S i) l) n.
Proof.
  induction l as [|w l IH]; intros H; inversion H as [|w' l' n' St O'|w' l' n' St O']; subst.
  - exists 0%nat. split; [constructor; auto|auto].
  - destruct (IH O') as (i & P1 & P2). exists (S i). split; [apply occurs_skip; auto|auto].
Qed.
Lemma count_loop_ok s file n : forall m b l i, words b l -> number s l n ->
  count_loop m s (good file b) i = if (n <? m)%nat then Ok (i + Z.of_nat n, good file file) else Throw.
Proof.
  induction n as [|n IH]; intros m b l i W O.
  - destruct m as [|m]; [reflexivity|]. cbn [count_loop]. rewrite (advance_none s file b l 0 W O). rewrite Z.add_0_r. reflexivity.
  - destruct m as [|m]; [reflexivity|]. destruct W as (r & Rd & Sr). destruct (number_split s l n O) as (j & P1 & P2).
    destruct (advance_found s file b l r 0 j Rd P1) as (pre & b' & w & E1 & E2 & E3 & E4 & _). cbn [count_loop]. change (Z.of_nat 0) with 0 in E4. rewrite E4.
    rewrite (IH m b' (skipn (S j) l) (i + 1) (ex_intro _ r (conj E2 Sr)) P2). change (S n <? S m)%nat with (n <? m)%nat. destruct (n <? m)%nat; auto. do 2 f_equal. lia.
Qed.

(** * Reading after advance *)
Lemma get_by_ok {T} (dom : T -> Prop) pr rd file x old ws rest : reads_back dom pr rd -> dom x -> spaces ws -> ends_token rest -> rest <> [] ->
  exists ws', spaces ws' /\ get_by rd (good file (ws ++ pr x ++ rest)) old = Ok (x, good file (ws' ++ rest)).
Proof.
  intros H D W E N. destruct (H x old ws rest D W E) as (ws' & W' & R). exists ws'. split; auto.
  unfold get_by. rewrite good_good. cbn [negb]. change (f_buf (good file (ws ++ pr x ++ rest))) with (ws ++ pr x ++ rest). rewrite R. cbn [bind is_buf is_fail].
  rewrite good_eof. cbn [orb]. unfold good. cbn [f_file]. destruct (ws' ++ rest) eqn:Eq; [|reflexivity].
  apply app_eq_nil in Eq. destruct Eq. contradiction.
Qed.
Section Vectors.
  Context {T : Type}.
  Variables (dflt junk : T) (dom : T -> Prop) (pr : T -> str) (rd : istream -> T -> res (T * istream)).
  Hypothesis Hrb : reads_back dom pr rd.
  Lemma elements_ok file vs v0 ws rest : spaces ws -> List.length v0 = List.length vs -> Forall dom vs ->
    exists ws', spaces ws' /\
      forM (List.length vs) 0 (fun i '(x, f) => do (tmp, f) <- get_by rd f junk ;; do x <- vset x i tmp ;; Ok (x, f))
        (v0, good file (ws ++ flat_map (fun x => pr x ++ nl) vs ++ rest)) = Ok (vs, good file (ws' ++ rest)).
  Proof.
    intros Hw Hlen Hd.
    loopM (fun k '(v, f) => v = firstn k vs ++ skipn k v0 /\ exists ws', spaces ws' /\
      f = good file (ws' ++ flat_map (fun x => pr x ++ nl) (skipn k vs) ++ rest)) as st E H.
    - split; [reflexivity|]. exists ws. split; auto.
    - intros k [v f] Hk [-> (ws' & Hw' & ->)].
      destruct (nth_error vs k) as [x|] eqn:Ex; [|apply nth_error_None in Ex; lia].
      rewrite (@skipn_nth _ vs k x) by lia. assert (nth k vs x = x) as -> by now apply nth_error_nth.
      cbn [flat_map]. rewrite <- !app_assoc.
      destruct (get_by_ok dom pr rd file x junk ws' (nl ++ flat_map (fun x => pr x ++ nl) (skipn (S k) vs) ++ rest) Hrb) as (w2 & Hw2 & ->); auto using ends_nl.
      { rewrite Forall_forall in Hd. apply Hd. now apply nth_error_In in Ex. }
      { discriminate. }
      cbn [bind]. rewrite vset_ok by (rewrite app_length, firstn_length, skipn_length; lia). cbn [bind].
      eexists. split; [reflexivity|]. split.
      + rewrite (@firstn_S_nth _ vs k x) by lia.
        assert (nth k vs x = x) as -> by now apply nth_error_nth.
        rewrite (@skipn_nth _ v0 k x) by lia.
        rewrite upd_app_mid by (rewrite firstn_length; lia). now rewrite <- app_assoc.
      + exists (w2 ++ nl). split; [apply spaces_app; auto using spaces_nl|]. now rewrite <- !app_assoc.
    - rewrite E. destruct st as [v f], H as [-> (ws' & Hw' & ->)]. exists ws'. split; auto.
      rewrite firstn_all2, !skipn_all2 by lia. rewrite app_nil_r. reflexivity.
  Qed.
  Lemma read_vector_ok s file b l w k v x xj ws rest : reads b (l ++ [w]) (ws ++ vec_write pr v ++ rest) -> occurs s (l ++ [w]) k (List.length l) ->
    spaces ws -> v <> [] -> Forall dom v -> Z.of_nat (List.length v) < 2147483648 ->
    exists ws', spaces ws' /\ read_vector dflt junk rd xj (good file b) x s (Z.of_nat k) = Ok (v, (w, Z.of_nat k), good file (ws' ++ rest)).
  Proof.
    intros Rd O W N D L. destruct (advance_found s file b _ _ k _ Rd O) as (pre & b' & w' & E1 & E2 & E3 & E4 & _).
    rewrite nth_error_app2, Nat.sub_diag in E3 by lia. injection E3 as <-.
    rewrite skipn_all2 in E2 by (rewrite app_length; cbn; lia). inversion E2 as [b0 Eb Eb1 Eb2|]; subst b0. subst b'. clear E2. unfold read_vector. rewrite E4. cbn [bind].
    unfold vec_write, print_nat. rewrite <- !app_assoc.
    destruct (get_by_ok (fun x => -2147483648 <= x < 2147483648) print_Z (lift_rd rd_int) file (Z.of_nat (List.length v)) xj ws
                (nl ++ flat_map (fun x => pr x ++ nl) v ++ rest) rb_int) as (w2 & Hw2 & ->); auto using ends_nl; [lia|discriminate|].
    cbn [bind]. destruct v as [|y v]; [contradiction|]. destruct (Z.eqb_spec (Z.of_nat (List.length (y :: v))) 0) as [X0|]; [cbn [List.length] in X0; lia|].
    destruct (Z.ltb_spec (Z.of_nat (List.length (y :: v))) 0); [lia|]. rewrite Nat2Z.id.
    destruct (elements_ok file (y :: v) (vresize x (List.length (y :: v)) dflt) (w2 ++ nl) rest) as (w3 & Hw3 & R); auto.
    { apply spaces_app; auto using spaces_nl. } { apply vresize_length. }
    rewrite <- app_assoc in R. rewrite R. cbn [bind]. exists w3. auto.
  Qed.
End Vectors.
Lemma read_by_ok {T} (dom : T -> Prop) pr rd s file b l w k v x ws rest : reads_back dom pr rd ->
  reads b (l ++ [w]) (ws ++ pr v ++ rest) -> occurs s (l ++ [w]) k (List.length l) ->
  spaces ws -> dom v -> ends_token rest -> rest <> [] ->
  exists ws', spaces ws' /\ read_by rd (good file b) x s (Z.of_nat k) = Ok (v, good file (ws' ++ rest)).
Proof.
  intros H Rd O W D En N. destruct (advance_found s file b _ _ k _ Rd O) as (pre & b' & w' & E1 & E2 & E3 & E4 & _).
  rewrite skipn_all2 in E2 by (rewrite app_length; cbn; lia). inversion E2 as [b0 Eb Eb1 Eb2|]; subst b0. subst b'. clear E2. unfold read_by. rewrite E4. cbn [bind].
  apply (get_by_ok dom); auto.
Qed.

(** * Writing *)
Lemma reads_more b l r x : reads b l r -> reads (b ++ x) l (r ++ x).
Proof. induction 1 as [b|gap w c b l r G N W C Hw IH]; [constructor|]. rewrite <- !app_assoc. cbn [app]. constructor; auto. Qed.
Lemma reads_trans b l r : reads b l r -> forall l' r', reads r l' r' -> reads b (l ++ l') r'.
Proof. induction 1; intros l' r' H'; cbn [app]; [auto|]. constructor; auto. Qed.
Lemma number_occurs s l k w : number s l k -> starts s w -> occurs s (l ++ [w]) k (List.length l).
Proof. intros H Hw. induction H; cbn [app List.length]; [constructor; auto|apply occurs_next; auto|apply occurs_skip; auto]. Qed.
Lemma number_snoc s l k w : number s l k -> starts s w -> number s (l ++ [w]) (S k).
Proof. intros H Hw. induction H; cbn [app]; [apply number_yes; [auto|constructor]|apply number_yes; auto|apply number_no; auto]. Qed.
Lemma reads_word out l w c rest : words out l -> w <> [] -> (forall x, In x w -> ~ is_space x) -> is_space c ->
  reads (out ++ w ++ c :: rest) (l ++ [w]) (c :: rest).
Proof.
  intros (r & Rd & Sr) N W C. eapply reads_trans; [apply reads_more, Rd|]. apply reads_cons; auto. constructor.
Qed.
Lemma print_Z_no_space n c : In c (print_Z n) -> ~ is_space c.
Proof.
  unfold print_Z. destruct (Z.ltb_spec n 0) as [H|H].
  - intros [<-|Hc].
    + intros H1. apply isspace_In in H1. discriminate.
    + intros H1. apply isspace_In in H1. destruct (digits_of_ok (- n) ltac:(lia)) as (_ & D & _). apply D in Hc. rewrite digit_not_space in H1 by auto. discriminate.
  - intros Hc H1. apply isspace_In in H1. destruct (digits_of_ok n ltac:(lia)) as (_ & D & _). apply D in Hc. rewrite digit_not_space in H1 by auto. discriminate.
Qed.
Lemma reads_gap g b w l r : spaces g -> reads b (w :: l) r -> reads (g ++ b) (w :: l) r.
Proof. intros G H. inversion H; subst. rewrite app_assoc. constructor; auto. apply spaces_app; auto. Qed.
