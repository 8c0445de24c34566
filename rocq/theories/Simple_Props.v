(** C47 and C48: IoSimple (src/Io/IoSimple.h). *)
From Coq Require Import Ascii String.
From Verif Require Import Prelude Str_Model Str_Spec Str_Proofs Text_Model Text_Spec Text_Proofs Ng_Proofs Simple_Model Simple_Spec Simple_Proofs.
Import List.
Local Open Scope Z_scope.

(** The file is read from where the text [b] begins, as words with white space after each. *)

(** ** C47: readline returns the value of the word asked for *)
(** Full statement: also for files whose last word is not followed by white space, and LAST_INSTANCE from every
    position. *)
Theorem C47_readline_partial : forall (X : Type) (rd : istream -> X -> X * istream) s file b l r k i t v x,
  reads b l r -> occurs s l k i -> nth_error l i = Some (s ++ t) -> (forall old, fst (rd (mkis t false) old) = v) ->
  exists pre b', b = pre ++ b' /\ reads b' (skipn (S i) l) r /\
    readline rd (mkfin file b false false) x s (Z.of_nat k) = Ok (v, Z.of_nat k, mkfin file b' false false).
Proof.
  intros X rd s file b l r k i t v x Rd O N V. destruct (readline_found rd s file b l r k i x Rd O) as (pre & b' & x0 & w & E1 & E2 & E3 & E4).
  exists pre, b'. split; auto. split; auto. rewrite N in E3. injection E3 as <-. unfold good in E4. rewrite E4. unfold val.
  rewrite skipn_app, skipn_all, Nat.sub_diag. cbn [skipn app]. rewrite V. auto.
Qed.
Print Assumptions C47_readline_partial.
(** Too few words with the label: an exception *)
Theorem C47_missing_partial : forall (X : Type) (rd : istream -> X -> X * istream) s file b l n k x,
  words b l -> number s l n -> (n <= k)%nat -> readline rd (mkfin file b false false) x s (Z.of_nat k) = Throw.
Proof. intros. eapply readline_missing; eauto. Qed.
Print Assumptions C47_missing_partial.
(** The last instance, from the beginning of the file *)
Theorem C47_last_partial : forall (X : Type) (rd : istream -> X -> X * istream) s file l n i t v x,
  words file l -> number s l (S n) -> occurs s l n i -> nth_error l i = Some (s ++ t) -> (forall old, fst (rd (mkis t false) old) = v) ->
  exists pre b', file = pre ++ b' /\ words b' (skipn (S i) l) /\
    readline rd (f_open file) x s LAST_INSTANCE = Ok (v, Z.of_nat (S n), mkfin file b' false false).
Proof.
  intros X rd s file l n i t v x W Nu O N V. pose proof W as (r & Rd & Sr).
  destruct (readline_last rd s file file l n x l r i W Nu Rd O) as (pre & b' & x0 & w & E1 & E2 & E3 & E4).
  exists pre, b'. split; auto. split; [exists r; auto|]. rewrite N in E3. injection E3 as <-. unfold good in E4. unfold f_open. rewrite E4. unfold val.
  rewrite skipn_app, skipn_all, Nat.sub_diag. cbn [skipn app]. rewrite V. auto.
Qed.
Print Assumptions C47_last_partial.
(** Integers that Out::write wrote are read back: label=n on a line of its own, after any other lines. *)
Theorem C47_scalar : forall (out label : str) (n x : Z) l k, words out l ->
  (forall c, In c label -> ~ is_space c) -> -2147483648 <= n < 2147483648 -> number (label ++ lit "=") l k ->
  let file := write_scalar out (print_Z n) label in
  words file (l ++ [label ++ lit "=" ++ print_Z n]) /\
  readline rd_int (f_open file) x (label ++ lit "=") (Z.of_nat k) = Ok (n, Z.of_nat k, mkfin file nl false false) /\
  readline rd_int (f_open file) x (label ++ lit "=") LAST_INSTANCE = Ok (n, Z.of_nat (S k), mkfin file nl false false).
Proof.
  intros out label n x l k W Sp Hn Nu file.
  assert (Rd : reads file (l ++ [label ++ lit "=" ++ print_Z n]) nl).
  { unfold file, write_scalar. replace (out ++ label ++ lit "=" ++ print_Z n ++ nl) with (out ++ (label ++ lit "=" ++ print_Z n) ++ nl) by (rewrite <- !app_assoc; auto).
    apply reads_word; auto.
    - destruct label; discriminate.
    - intros c. rewrite !in_app_iff. intros [H|[H|H]]; auto.
      + destruct H as [<-|[]]. intros H. apply isspace_In in H. discriminate.
      + apply (print_Z_no_space n); auto.
    - apply isspace_In. reflexivity. }
  assert (St : starts (label ++ lit "=") (label ++ lit "=" ++ print_Z n)) by (exists (print_Z n); rewrite <- app_assoc; auto).
  assert (Wf : words file (l ++ [label ++ lit "=" ++ print_Z n])) by (exists nl; split; auto using spaces_nl).
  assert (Oc := number_occurs _ _ _ _ Nu St). assert (Ns := number_snoc _ _ _ _ Nu St).
  assert (Ne : nth_error (l ++ [label ++ lit "=" ++ print_Z n]) (List.length l) = Some ((label ++ lit "=") ++ print_Z n)).
  { rewrite nth_error_app2, Nat.sub_diag by lia. cbn [nth_error]. rewrite <- app_assoc. auto. }
  assert (V : forall old, fst (rd_int (mkis (print_Z n) false) old) = n).
  { intros old. rewrite <- (app_nil_r (print_Z n)). rewrite rd_int_print0; auto. left; auto. }
  assert (Sk : forall r (b' : str), reads b' (skipn (S (List.length l)) (l ++ [label ++ lit "=" ++ print_Z n])) r -> b' = r).
  { intros r b' H. rewrite skipn_all2 in H by (rewrite app_length; cbn; lia). inversion H; auto. }
  split; auto. split.
  - destruct (C47_readline_partial Z rd_int _ file file _ _ k _ _ n x Rd Oc Ne V) as (pre & b' & E1 & E2 & E3). apply Sk in E2. subst b'. exact E3.
  - destruct (readline_last rd_int _ file file _ k x _ _ _ Wf Ns Rd Oc) as (pre & b' & x0 & w & E1 & E2 & E3 & E4).
    apply Sk in E2. subst b'. rewrite Ne in E3. injection E3 as <-. unfold good in E4. unfold f_open. rewrite E4. unfold val.
    rewrite skipn_app, skipn_all, Nat.sub_diag. cbn [skipn app]. rewrite V. auto.
Qed.
Print Assumptions C47_scalar.
(** LAST_INSTANCE after some of the instances were read: another one is returned. *)
Theorem C47_last_refuted :
  (do (x, _, f) <- readline rd_int (f_open (lit "N=1 N=2 N=3 ")) 0 (lit "N=") 0 ;;
   do (y, n, f) <- readline rd_int f 0 (lit "N=") LAST_INSTANCE ;; Ok (x, y, n)) = Ok (1, 2, 2).
Proof. vm_compute. reflexivity. Qed.
Print Assumptions C47_last_refuted.
(** A last word without white space after it is not found. *)
Theorem C47_end_refuted : readline rd_int (f_open (lit "A=1 N=2")) 0 (lit "N=") 0 = Throw.
Proof. vm_compute. reflexivity. Qed.
Print Assumptions C47_end_refuted.

(** ** C47: advance, and the reads that use it *)
(** The stream is right after the word asked for; without any, there is an exception. Full statement: also
    for LAST_INSTANCE, and for a level that is too large. *)
Theorem C47_advance_partial : forall s file b l,
  (forall r k i w, reads b l r -> occurs s l k i -> nth_error l i = Some w ->
    exists pre b', b = pre ++ b' /\ reads b' (skipn (S i) l) r /\
      advance (mkfin file b false false) s (Z.of_nat k) = Ok (w, Z.of_nat k, mkfin file b' false false)) /\
  (forall lv, words b l -> (forall w, In w l -> ~ starts s w) -> advance (mkfin file b false false) s lv = Throw).
Proof.
  intros s file b l. split.
  - intros r k i w Rd O N. destruct (advance_found s file b l r k i Rd O) as (pre & b' & w' & E1 & E2 & E3 & E4 & _). exists pre, b'.
    split; auto. split; auto. rewrite N in E3. injection E3 as <-. exact E4.
  - intros lv W H. apply (advance_none s file b l lv W). clear W b. induction l as [|w l IH]; [constructor|].
    apply number_no; [apply H; left; auto|apply IH]. intros w' Hw. apply H. right; auto.
Qed.
Print Assumptions C47_advance_partial.
(** Vectors that are not empty are read back, from right after the label. *)
Theorem C47_vector_partial : forall (T : Type) (dflt junk : T) dom pr rd s file b l w k v x xjunk ws rest, reads_back dom pr rd ->
  reads b (l ++ [w]) (ws ++ vec_write pr v ++ rest) -> occurs s (l ++ [w]) k (List.length l) ->
  spaces ws -> v <> [] -> Forall dom v -> Z.of_nat (List.length v) < 2147483648 ->
  exists ws', spaces ws' /\
    read_vector dflt junk rd xjunk (mkfin file b false false) x s (Z.of_nat k) = Ok (v, (w, Z.of_nat k), mkfin file (ws' ++ rest) false false).
Proof. intros. eapply read_vector_ok; eauto. Qed.
Print Assumptions C47_vector_partial.
(** So are other objects with an operator >>, such as matrices and stacks. *)
Theorem C47_object_partial : forall (T : Type) dom pr rd s file b l w k (v x : T) ws rest, reads_back dom pr rd ->
  reads b (l ++ [w]) (ws ++ pr v ++ rest) -> occurs s (l ++ [w]) k (List.length l) ->
  spaces ws -> dom v -> ends_token rest -> rest <> [] ->
  exists ws', spaces ws' /\ read_by rd (mkfin file b false false) x s (Z.of_nat k) = Ok (v, mkfin file (ws' ++ rest) false false).
Proof. intros. eapply read_by_ok; eauto. Qed.
Print Assumptions C47_object_partial.
(** What Out::write wrote for a vector of integers, after lines in which no word starts with the label, is read. *)
Theorem C47_vector_file : forall (out label : str) (v x : list Z) l junk xjunk, words out l -> label <> [] ->
  (forall c, In c label -> ~ is_space c) -> (forall w, In w l -> ~ starts label w) ->
  v <> [] -> Forall (fun n => -2147483648 <= n < 2147483648) v -> Z.of_nat (List.length v) < 2147483648 ->
  exists f, read_vector 0 junk (lift_rd rd_int) xjunk (f_open (write_other out (vec_write print_Z v) label)) x label 0 = Ok (v, (label, 0), f).
Proof.
  intros out label v x l junk xjunk W N Sp H Nv Hv Lv.
  assert (Nu : number label l 0).
  { clear W. induction l as [|w l IH]; [constructor|]. apply number_no; [apply H; left; auto|apply IH]. intros w' Hw. apply H. right; auto. }
  assert (St : starts label label) by (exists []; rewrite app_nil_r; auto).
  destruct (C47_vector_partial Z 0 junk _ print_Z _ label (write_other out (vec_write print_Z v) label) (write_other out (vec_write print_Z v) label) l label 0 v x xjunk nl nl rb_int) as (ws' & _ & E); auto using spaces_nl.
  - unfold write_other. apply (reads_word out l label _ (vec_write print_Z v ++ nl)); auto. apply isspace_In. reflexivity.
  - apply number_occurs; auto.
  - eexists. exact E.
Qed.
Print Assumptions C47_vector_file.
(** After the end of the file, or a failure, nothing is read any more: every reading throws, at any level. *)
Theorem C47_ended : forall f s lv, f_eof f = true \/ f_fail f = true ->
  (forall (X : Type) (rd : istream -> X -> X * istream) x, readline rd f x s lv = Throw) /\ advance f s lv = Throw /\
  (forall (X : Type) (rd : istream -> X -> res (X * istream)) x, read_by rd f x s lv = Throw) /\
  (forall (T : Type) (dflt junk : T) rd xjunk x, read_vector dflt junk rd xjunk f x s lv = Throw).
Proof.
  intros f s lv H. assert (A : advance f s lv = Throw).
  { unfold advance. cbn [advance_loop]. destruct (f_eof f) eqn:E.
    - cbn [bind negb andb]. rewrite andb_comm. reflexivity.
    - destruct H as [H|H]; [discriminate|]. unfold get_token, f_good. rewrite E, H. cbn [negb andb f_eof f_fail]. rewrite orb_true_r.
      cbn [bind negb andb]. rewrite andb_comm. reflexivity. }
  split; [|split; [exact A|split]].
  - intros X rd x. unfold readline, readline_once, f_good. destruct H as [-> | ->]; [|rewrite andb_comm]; reflexivity.
  - intros. unfold read_by. rewrite A. reflexivity.
  - intros. unfold read_vector. rewrite A. reflexivity.
Qed.
Print Assumptions C47_ended.
(** An object at the very end of the file is read, and then the end was reached. *)
Theorem C47_object_end : forall (T : Type) (rd : istream -> T -> res (T * istream)) s file b l w k (v x : T) t fl,
  reads b (l ++ [w]) t -> occurs s (l ++ [w]) k (List.length l) -> rd (mkis t false) x = Ok (v, mkis [] fl) ->
  exists f, read_by rd (mkfin file b false false) x s (Z.of_nat k) = Ok (v, f) /\ f_eof f = true /\ f_fail f = fl /\ f_buf f = [].
Proof.
  intros T rd s file b l w k v x t fl Rd O E. destruct (advance_found s file b (l ++ [w]) t k (List.length l) Rd O) as (pre & b' & w' & E1 & E2 & E3 & E4 & _).
  rewrite skipn_all2 in E2 by (rewrite app_length; cbn; lia). inversion E2; subst.
  unfold read_by, good in *. rewrite E4. cbn [bind]. unfold get_by. cbn [f_buf f_good f_eof f_fail negb orb andb].
  change (f_good {| f_file := file; f_buf := t; f_eof := false; f_fail := false |}) with true. cbn [negb]. rewrite E. cbn [bind is_buf is_nil is_fail].
  eexists. split; [reflexivity|]. auto.
Qed.
Print Assumptions C47_object_end.
(** An empty vector leaves the variable as it was. *)
Theorem C47_empty_refuted :
  (do (v, _, _) <- read_vector 0 0 (lift_rd rd_int) 0 (f_open (write_other [] (vec_write print_Z []) (lit "V"))) [1; 2] (lit "V") 0 ;; Ok v) = Ok [1; 2].
Proof. vm_compute. reflexivity. Qed.
Print Assumptions C47_empty_refuted.
(** LAST_INSTANCE is after the last but one, and at the beginning of the file if there is one only: what is read is not
    the last vector. *)
Theorem C47_advance_last_refuted :
  (do (_, _, f) <- advance (f_open (lit "V 1 10 V 1 20 V 1 30 ")) (lit "V") LAST_INSTANCE ;; Ok (f_buf f)) = Ok (lit " 1 20 V 1 30 ") /\
  (do (_, _, f) <- advance (f_open (lit "V 1 10 ")) (lit "V") LAST_INSTANCE ;; Ok (f_buf f)) = Ok (lit "V 1 10 ") /\
  (do (v, _, _) <- read_vector 0 0 (lift_rd rd_int) 7 (f_open (lit "V 1 10 V 1 20 V 1 30 ")) [] (lit "V") LAST_INSTANCE ;; Ok v) = Ok [20].
Proof. split; [|split]; vm_compute; reflexivity. Qed.
Print Assumptions C47_advance_last_refuted.
(** With a level that is too large, there is no exception if there is some instance, and the stream is at its end. *)
Theorem C47_advance_few_refuted : forall s file b l n k, words b l -> number s l (S n) -> (n < k)%nat -> ~ starts s (lit "NOTFOUND") ->
  exists w i, occurs s l n i /\ nth_error l i = Some w /\
    advance (mkfin file b false false) s (Z.of_nat k) = Ok (w, Z.of_nat (S n), mkfin file [] true true).
Proof. intros. eapply advance_few; eauto. Qed.
Print Assumptions C47_advance_few_refuted.

(** The hypotheses can be met. *)
Example C47_nonvacuous :
  exists l, words (lit "a N=1 b N=2 ") l /\ occurs (lit "N=") l 1 3 /\ number (lit "N=") l 2 /\ nth_error l 3 = Some (lit "N=" ++ lit "2").
Proof.
  exists [lit "a"; lit "N=1"; lit "b"; lit "N=2"].
  assert (Ns : forall w, existsb isspace w = false -> forall c, In c w -> ~ is_space c).
  { intros w H c Hc Hs. apply isspace_In in Hs. assert (existsb isspace w = true) by (apply existsb_exists; eauto). congruence. }
  assert (Sp : spaces sp) by apply spaces_sp.
  assert (Cs : is_space " ") by (apply isspace_In; reflexivity).
  assert (Na : forall w, prefixb (lit "N=") w = false -> ~ starts (lit "N=") w) by (intros w H H1; apply starts_prefix in H1; congruence).
  assert (Ya : forall w, prefixb (lit "N=") w = true -> starts (lit "N=") w) by (intros w H; apply starts_prefix; auto).
  split; [|split; [|split]].
  - exists sp. split; auto.
    apply (reads_cons [] (lit "a") " " (lit "N=1 b N=2 ")); [constructor|discriminate|apply Ns; reflexivity|auto|].
    apply (reads_cons sp (lit "N=1") " " (lit "b N=2 ")); [auto|discriminate|apply Ns; reflexivity|auto|].
    apply (reads_cons sp (lit "b") " " (lit "N=2 ")); [auto|discriminate|apply Ns; reflexivity|auto|].
    apply (reads_cons sp (lit "N=2") " " []); [auto|discriminate|apply Ns; reflexivity|auto|]. constructor.
  - apply occurs_skip; [apply Na; reflexivity|]. apply occurs_next; [apply Ya; reflexivity|]. apply occurs_skip; [apply Na; reflexivity|]. apply occurs_here. apply Ya; reflexivity.
  - apply number_no; [apply Na; reflexivity|]. apply number_yes; [apply Ya; reflexivity|]. apply number_no; [apply Na; reflexivity|]. apply number_yes; [apply Ya; reflexivity|]. constructor.
  - reflexivity.
Qed.

(** ** C48: count *)
(** Full statement: also for 1000 words or more, which is an exception. *)
Theorem C48_count_partial : forall s file b l n, words b l -> number s l n ->
  ((n < 1000)%nat -> count (mkfin file b false false) s = Ok (Z.of_nat n, f_open file)) /\
  ((1000 <= n)%nat -> count (mkfin file b false false) s = Throw).
Proof.
  intros s file b l n W N. unfold count. change (mkfin file b false false) with (good file b). rewrite (count_loop_ok s file n 1000 b l 0 W N). split; intros H.
  - destruct (Nat.ltb_spec n 1000); [|lia]. reflexivity.
  - destruct (Nat.ltb_spec n 1000); [lia|]. reflexivity.
Qed.
Print Assumptions C48_count_partial.
(** So there is a file for which it does not return the number of words. *)
Theorem C48_many_refuted : exists file l n, words file l /\ number (lit "N") l n /\ count (f_open file) (lit "N") = Throw.
Proof.
  assert (Wn : forall m, words (flat_map (fun _ => lit "N ") (seq 0 m)) (repeat (lit "N") m) /\ number (lit "N") (repeat (lit "N") m) m).
  { intros m. generalize 0%nat. induction m as [|m IH]; intros a; cbn [seq flat_map repeat].
    - split; [exists []; split; constructor|constructor].
    - destruct (IH (S a)) as [(r & R1 & R2) N1]. split.
      + exists (if (m =? 0)%nat then sp else r). split.
        * apply (reads_cons [] (lit "N") " "); [constructor|discriminate| |apply isspace_In; reflexivity|].
          -- intros c [<-|[]] H. apply isspace_In in H. discriminate.
          -- destruct m as [|m]; [constructor|]. cbn [Nat.eqb]. cbn [repeat seq flat_map] in R1 |- *.
             apply (reads_gap sp); auto using spaces_sp.
        * destruct (Nat.eqb_spec m 0); auto using spaces_sp.
      + apply number_yes; auto. exists []. reflexivity. }
  destruct (Wn 1000%nat) as [W N]. eexists. eexists. exists 1000%nat. split; [exact W|]. split; [exact N|].
  apply (proj2 (C48_count_partial _ _ _ _ _ W N)). lia.
Qed.
Print Assumptions C48_many_refuted.
