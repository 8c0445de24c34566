(** C68: the variables and macros of Ainur input (src/Ainur/AinurState.h). *)
From Coq Require Import Ascii String.
From Verif Require Import Prelude Ring Str_Model Str_Spec Str_Proofs Text_Model Text_Proofs Input_Model Input_Spec Input_Proofs Input_Read Solv_Spec Solv_Props
  Ainur_Model Ainur_Spec Ainur_Proofs Ainur_Macro.
Import List.

Lemma c_str_chars s : (forall c, In c s -> c <> zero) -> c_str s = s.
Proof. induction s as [|c s IH]; intros H; [reflexivity|]. cbn [c_str]. destruct (Ascii.eqb_spec c zero) as [E|E]; [elim (H c); cbn; auto|]. rewrite IH; auto. intros x Hx. apply H. right. auto. Qed.
Lemma written_chars v n : written v n -> forall c, In c v -> is_digit c \/ In c (lit "-+eE.").
Proof. intros (d & N & D & [[-> _]|[-> _]]) c Hc; [auto|]. destruct Hc as [<-|Hc]; [right; left; auto|auto]. Qed.
Lemma number_plain v : v <> [] -> (forall c, In c v -> is_digit c \/ In c (lit "-+eE.")) -> plain v /\ c_str v = v.
Proof.
  intros N H. assert (Z : forall c, In c v -> c <> zero /\ c <> "("%char).
  { intros c Hc. destruct (H c Hc) as [K|K]; [apply isdigit_In in K|apply mem_chr_In in K]; split; intros ->; discriminate. }
  split; [|apply c_str_chars; intros c Hc; apply Z; auto]. destruct v as [|c v]; [congruence|]. exists c, v. split; auto. destruct (Z c (or_introl eq_refl)) as [Z1 Z2]. split; auto.
  intros E. injection E as E _. apply Z1. exact E.
Qed.

(** After any history without errors, a variable reads as the last value given to it; a variable that is not declared, or
    has no value, is an error; what is reported as unused is what had to be read and was not. *)
Theorem C68_history : forall apply h, legal h -> exists st, run apply as_new h = Ok st /\
  (forall k v t, given h k = Some v -> plain v -> text_of v t -> exists st', readValue (convert_text apply) st k = Ok (t, st')) /\
  (forall k v n, given h k = Some v -> written v n -> exists st', readValue (convert_int apply) st k = Ok (n, st')) /\
  (forall (R : cring) std_atof k v, given h k = Some v -> real_like v -> exists st', readValue (convert_real apply R std_atof) st k = Ok (std_atof v, st')) /\
  (forall k, ~ declared h k \/ no_value h k ->
     readValue (convert_text apply) st k = Throw /\ readValue (convert_int apply) st k = Throw /\
     forall R std_atof, readValue (convert_real apply R std_atof) st k = Throw) /\
  exists ks, printUnused st = Ok ks /\ NoDup ks /\ forall k, In k ks <-> required h k /\ ~ In (ERead k) h.
Proof.
  intros apply h L. destruct (run_legal apply h L) as (st & E & I). exists st. split; auto. split; [|split; [|split; [|split]]].
  - intros k v t G P T. destruct (plain_nonempty v P) as (P1 & P2 & P3).
    destruct (read_declared (convert_text apply) h st k v t I G (i_given _ _ I _ _ G) P1 P2) as (i & u & a & _ & _ & _ & R); [|eauto].
    intros a Ea. apply convert_text_ok; rewrite Ea; auto.
  - intros k v n G Wv. assert (N : v <> []) by (destruct Wv as (d & N & _ & [[-> _]|[-> _]]); [auto|discriminate]).
    destruct (number_plain v N (written_chars v n Wv)) as [P C]. destruct (plain_nonempty v P) as (P1 & P2 & P3).
    destruct (read_declared (convert_int apply) h st k v n I G (i_given _ _ I _ _ G) P1 P2) as (i & u & a & _ & _ & _ & R); [|eauto].
    intros a Ea. unfold convert_int. rewrite Ea, plain_value by auto. cbn [bind]. rewrite C. apply written_atoi. auto.
  - intros R std_atof k v G Wv. assert (N : v <> []) by (destruct Wv as [(c & Hc & _) _]; intros ->; destruct Hc).
    destruct (number_plain v N (proj2 Wv)) as [P C]. destruct (plain_nonempty v P) as (P1 & P2 & P3).
    destruct (read_declared (convert_real apply R std_atof) h st k v (std_atof v) I G (i_given _ _ I _ _ G) P1 P2) as (i & u & a & _ & _ & _ & Rd); [|eauto].
    intros a Ea. unfold convert_real. rewrite Ea, plain_value by auto. cbn [bind]. rewrite C. unfold atof. rewrite (proj2 (isAfloat_spec v) Wv). reflexivity.
  - intros k H. split; [|split; [|intros R std_atof]]; apply (read_wrong _ h st k I H).
  - apply unused_ok. auto.
Qed.
Print Assumptions C68_history.

(** Declaring twice, assigning what is not declared, reading what is not declared or has no value: all are errors. *)
Theorem C68_errors : forall apply a e b, legal a -> wrong a e -> run apply as_new (a ++ e :: b) = Throw.
Proof.
  intros apply a e b L W. destruct (run_legal apply a L) as (st & E & I). rewrite run_app, E. cbn [bind run]. rewrite (step_wrong apply a st e I W). reflexivity.
Qed.
Print Assumptions C68_errors.

(** Macros: for any meaning W of the variables and any ranking of them (so that no variable depends on itself) such that
    the text of each variable, with each macro replaced by the meaning of the variable it names, is its own meaning:
    the variables then read as their meanings. It is assumed that every macro is followed by a character that ends its
    name, that there are no quotes inside the texts and no exclamation marks, and that no variable depends on others
    through more than 101 levels. *)
Theorem C68_macros_partial : forall load apply h (W : str -> str) (rank : str -> nat),
  legal h -> ~ declared h (lit "AinurFromFile") ->
  (forall k v, given h k = Some v -> rank k <= 101 /\
     exists b, (v = b \/ v = quoted b) /\ ~ In """"%char b /\ ~ In "!"%char b /\
       replaced (fun n w => (exists v', given h n = Some v') /\ rank n < rank k /\ w = W n) b (W k)) ->
  exists st st', run apply as_new h = Ok st /\ initMacros load st = Ok st' /\
    forall k v, given h k = Some v -> plain (W k) -> ~ (required h k /\ ~ In (ERead k) h) ->
      exists st2, readValue (convert_text apply) st' k = Ok (W k, st2).
Proof.
  intros load apply h W rank L ND V. destruct (run_legal apply h L) as (st & E & I). exists st.
  set (isvar := fun n => exists v', given h n = Some v').
  assert (NK : ~ In ainur_from_file (map av_key (as_vars st))) by (intros K; apply ND, (i_keys _ _ I); auto).
  unfold initMacros, as_declare. rewrite (index_none _ _ NK). cbn [lit list_ascii_of_string List.length Nat.ltb Nat.leb andb nth Nat.sub Ascii.eqb Bool.eqb bind].
  set (st1 := mkast _ _ _).
  set (keys := map av_key (as_vars st) ++ [ainur_from_file]). set (used := as_used st ++ [1]).
  assert (NDk : NoDup keys).
  { unfold keys. apply (Permutation.Permutation_NoDup (Permutation.Permutation_cons_append _ _)). constructor; auto. apply (i_nodup _ _ I). }
  assert (Ln : List.length used = List.length keys) by (unfold used, keys; rewrite !app_length, map_length, (i_len _ _ I); reflexivity).
  assert (Dec : forall k, isvar k \/ ~ isvar k). { intros k. unfold isvar. destruct (given h k); [left; eauto|right; intros [v H]; discriminate]. }
  assert (P : PInv W isvar rank keys used st1).
  { constructor.
    - unfold st1. cbn [as_vars]. rewrite map_app. reflexivity.
    - reflexivity.
    - intros n [v G]. unfold keys. apply in_or_app. left. apply (i_keys _ _ I). apply (i_given _ _ I _ _ G).
    - intros i a Ha [v G]. assert (Hi : nth_error (as_vars st) i = Some a).
      { unfold st1 in Ha. cbn [as_vars] in Ha. destruct (Nat.lt_ge_cases i (List.length (as_vars st))) as [Li|Li]; [rewrite nth_error_app1 in Ha; auto|].
        rewrite nth_error_app2 in Ha by auto. destruct (i - List.length (as_vars st)) as [|[|n]]; cbn in Ha; try discriminate. injection Ha as <-. cbn [av_key] in G.
        elim ND. apply (i_given _ _ I _ _ G). }
      destruct (V _ _ G) as (_ & b & Eb & Q1 & Q2 & T). pose proof (i_value _ _ I i a Hi) as Ev. unfold held in Ev. rewrite G in Ev. exists b. rewrite Ev. split; auto. split; [split; auto|]. exact T.
    - intros i a Ha Nv. unfold st1 in Ha. cbn [as_vars] in Ha. destruct (Nat.lt_ge_cases i (List.length (as_vars st))) as [Li|Li].
      + rewrite nth_error_app1 in Ha by auto. rewrite (i_value _ _ I i a Ha). unfold held. destruct (given h (av_key a)) eqn:G; [elim Nv; exists l; auto|]. intros [K|[]]. discriminate.
      + rewrite nth_error_app2 in Ha by auto. destruct (i - List.length (as_vars st)) as [|[|n]]; cbn in Ha; try discriminate. injection Ha as <-. cbn. intuition discriminate.
    - apply (i_funcs _ _ I). }
  assert (B : bounded isvar keys used rank 0 (List.length keys) 101) by (intros j k u _ _ _ [v G] _; apply (V _ _ G)).
  destruct (passes_ok load W isvar keys used NDk Ln Dec 101 rank st1 P B) as (st' & E' & Ek & Eu & Ef & F). exists st'. split; auto. split; [exact E'|].
  intros k v G Pl Rq. destruct (plain_nonempty _ Pl) as (P1 & P2 & P3).
  assert (Ik : In k (map av_key (as_vars st))) by (apply (i_keys _ _ I), (i_given _ _ I _ _ G)).
  destruct (index_in (as_vars st') k) as [x X]. { rewrite Ek. unfold keys. apply in_or_app. auto. }
  destruct (index_some _ _ _ X) as (a & Ha & Ka).
  assert (Lx : x < List.length keys) by (rewrite <- Ek, map_length; apply nth_error_Some; congruence).
  destruct (nth_error used x) as [u|] eqn:U; [|apply nth_error_None in U; lia].
  assert (Nx : nth_error keys x = Some k) by (rewrite <- Ek, (map_nth_error av_key _ _ Ha); congruence).
  assert (Hx : x < List.length (as_vars st) /\ exists a0, nth_error (as_vars st) x = Some a0 /\ av_key a0 = k).
  { unfold keys in Nx. destruct (Nat.lt_ge_cases x (List.length (as_vars st))) as [Li|Li].
    - split; auto. rewrite nth_error_app1 in Nx by (rewrite map_length; auto). destruct (nth_error (as_vars st) x) as [a0|] eqn:A0; [|apply nth_error_None in A0; lia].
      exists a0. split; auto. rewrite (map_nth_error av_key _ _ A0) in Nx. congruence.
    - exfalso. rewrite nth_error_app2 in Nx by (rewrite map_length; auto). rewrite map_length in Nx. destruct (x - List.length (as_vars st)) as [|[|n]]; cbn in Nx; try discriminate. injection Nx as <-. auto. }
  destruct Hx as (Lx' & a0 & A0 & K0).
  assert (U0 : u <> 0). { intros ->. apply Rq. rewrite <- K0. apply (i_used _ _ I x a0 0 A0); [|reflexivity]. unfold used in U. rewrite nth_error_app1 in U by (rewrite (i_len _ _ I); auto). auto. }
  assert (Vk : isvar (av_key a)) by (rewrite Ka; exists v; auto).
  pose proof (F x a u Ha U U0 Vk) as Fv. rewrite Ka in Fv. unfold readValue. rewrite X, (vget_nth _ _ _ Ha). cbn [bind].
  assert (Q : noq (W k)).
  { destruct (V _ _ G) as (_ & b & Eb & Q1 & Q2 & T). clear - V Q1 Q2 T. revert Q1 Q2. generalize (rank k) T. clear T. intros n T.
    assert (Wq : forall m n v, rank n <= m -> given h n = Some v -> noq (W n)).
    { induction m as [|m IH]; intros n0 v0 Lm G0; destruct (V _ _ G0) as (_ & b0 & _ & B1 & B2 & T0); revert B1 B2; induction T0 as [s N|s n1 w c rest rest' A1 A2 A3 A4 ((v1 & G1) & Lr & ->) A6 IH6]; intros B1 B2.
      - split; auto.
      - lia.
      - split; auto.
      - rewrite !noq_app. split; [split; intros K; [apply B1|apply B2]; apply in_or_app; auto|]. split; [apply (IH n1 v1); auto; lia|].
        apply IH6; intros K; [apply B1|apply B2]; apply in_or_app; right; right; apply in_or_app; auto. }
    induction T as [s N|s n1 w c rest rest' A1 A2 A3 A4 ((v1 & G1) & Lr & ->) A6 IH6]; intros Q1 Q2; [split; auto|].
    rewrite !noq_app. split; [split; intros K; [apply Q1|apply Q2]; apply in_or_app; auto|]. split; [apply (Wq (rank n1) n1 v1); auto|].
    apply IH6; intros K; [apply Q1|apply Q2]; apply in_or_app; right; right; apply in_or_app; auto. }
  assert (Em : isEmptyValue (av_value a) = false).
  { unfold isEmptyValue. destruct Fv as [-> | ->].
    - destruct (W k) as [|c s]; [congruence|]. cbn [List.length Nat.eqb orb]. destruct (str_eqb (c :: s) zero_char_string) eqn:K; auto. apply str_eqb_eq in K. congruence.
    - reflexivity. }
  rewrite Em. rewrite (convert_text_ok apply (as_funcs st') a (W k)).
  - cbn [bind]. rewrite Eu, (vget_nth _ _ _ U). cbn [bind]. eauto.
  - intros c s Ec. destruct Fv as [Fv|Fv]; rewrite Fv in Ec; [eapply P3; eauto|]. injection Ec as <- _. discriminate.
  - destruct Fv as [Fv|Fv]; rewrite Fv; [right|left; auto]. split; auto. intros s Es. destruct Q as [Q _]. apply Q. rewrite Es. left. auto.
Qed.
Print Assumptions C68_macros_partial.

(** When the macros have been replaced, none is left that is followed by a character that ends its name. *)
Theorem C68_settled : forall load st st' m, initMacros load st = Ok st' -> setMap st' = Ok m -> forall k v, In (k, v) m -> settled v.
Proof.
  intros load st st' m E S k v Hin. unfold initMacros in E. destruct (as_declare _ _ _ _) as [t| | |]; try discriminate. cbn [bind] in E.
  pose proof (rec_settled load _ _ _ E) as F. unfold setMap in S. revert k v Hin. pattern m.
  refine (forM_inv_ok (fun _ m => forall k v, In (k, v) m -> settled v) _ _ 0 [] m _ _ S).
  - intros k v [].
  - intros j t1 t2 _ I K k v Hin. destruct (vget (as_used st') j) as [u| | |] eqn:U; try discriminate. cbn [bind] in K. destruct (Nat.eqb_spec u 0) as [Z|Z].
    + apply Ok_inj in K. subst t2. eauto.
    + destruct (vget (as_vars st') j) as [a| | |] eqn:A; try discriminate. cbn [bind] in K. apply Ok_inj in K. subst t2. apply in_app_or in Hin. destruct Hin as [Hin|[Hin|[]]]; [eauto|].
      injection Hin as <- <-. unfold vget in U, A. destruct (nth_error (as_used st') j) as [u'|] eqn:U'; try discriminate. destruct (nth_error (as_vars st') j) as [a'|] eqn:A'; try discriminate.
      apply Ok_inj in U. apply Ok_inj in A. subst. eapply F; eauto.
Qed.
Print Assumptions C68_settled.

(** A variable that refers to itself is an error. *)
Theorem C68_self_reference : forall load apply d k s c r, d <> [] -> (forall d', d <> d' ++ ["!"%char]) -> k <> lit "AinurFromFile" ->
  (forall x, In x k -> name_char x) -> ~ name_char c ->
  (forall x, In x (s ++ c :: r) -> x <> backslash /\ x <> """"%char /\ x <> "!"%char) ->
  exists st, run apply as_new [EDeclare d k (Some (s ++ backslash :: k ++ c :: r))] = Ok st /\ initMacros load st = Throw.
Proof.
  intros load apply d k s c r D1 D2 Nk Kn Cn T. destruct (run_legal apply [EDeclare d k (Some (s ++ backslash :: k ++ c :: r))]) as (st & E & I).
  { intros [|x a] e b H; [|destruct a; discriminate]. injection H as <- <-. split; auto. intros (d0 & v0 & []). }
  exists st. split; auto. cbn [run bind step] in E. unfold as_declare in E. cbn [as_new as_vars storageIndexByName find_idx] in E.
  destruct (Nat.ltb_spec 0 (List.length d)) as [L|L]; [|destruct d; [congruence|cbn in L; lia]].
  destruct (exists_last D1) as (d0 & x & Ed). assert (Xb : x <> "!"%char) by (intros ->; apply (D2 d0); auto).
  assert (B : (Nat.ltb 1 (List.length d) && Ascii.eqb (nth (List.length d - 1) d zero) "!")%bool = false).
  { rewrite Ed. rewrite app_length. cbn [List.length]. replace (List.length d0 + 1 - 1) with (List.length d0) by lia. rewrite app_nth2, Nat.sub_diag by lia. cbn [nth].
    destruct (Ascii.eqb_spec x "!"); [congruence|]. apply andb_false_r. }
  rewrite B in E. cbn [bind app as_used as_funcs as_new] in E. apply Ok_inj in E. subst st. unfold initMacros, as_declare.
  rewrite index_none by (cbn; intuition). cbn [lit list_ascii_of_string List.length Nat.ltb Nat.leb andb nth Nat.sub Ascii.eqb Bool.eqb bind app as_vars as_used as_funcs].
  assert (Sb : ~ In backslash s /\ noq s).
  { split; [|split]; intros K; destruct (T _ (in_or_app s (c :: r) _ (or_introl K))) as (A1 & A2 & A3); congruence. }
  assert (Rb : ~ In backslash (c :: r) /\ noq (c :: r)).
  { split; [|split]; intros K; destruct (T _ (in_or_app s (c :: r) _ (or_intror K))) as (A1 & A2 & A3); congruence. }
  apply self_rec; tauto.
Qed.
Print Assumptions C68_self_reference.

(** The name AinurFromFile is taken. *)
Theorem C68_reserved : forall load apply h, legal h -> declared h (lit "AinurFromFile") -> exists st, run apply as_new h = Ok st /\ initMacros load st = Throw.
Proof.
  intros load apply h L D. destruct (run_legal apply h L) as (st & E & I). exists st. split; auto. unfold initMacros, as_declare.
  destruct (index_in (as_vars st) (lit "AinurFromFile")) as [x X]; [apply (i_keys _ _ I); auto|]. unfold ainur_from_file. rewrite X. reflexivity.
Qed.
Print Assumptions C68_reserved.

(** Where macros go wrong. *)
Definition no_files : str -> bool := fun _ => false.
Definition no_apply : str -> str -> res str := fun _ _ => Throw.
Definition ask (h : history) (k : str) : res str :=
  do st <- run no_apply as_new h ;; do st <- initMacros no_files st ;; do (t, _) <- readValue (convert_text no_apply) st k ;; Ok t.
Definition strv (k v : str) : event := EDeclare (lit "string") k (Some v).
(** A macro at the end of a value is not replaced, and is lost if there is another macro before it. *)
Theorem C68_trailing_refuted :
  ask [strv (lit "b") (lit "y"); strv (lit "a") (lit "x\b")] (lit "a") = Ok (lit "x\b") /\
  ask [strv (lit "b") (lit "y"); strv (lit "a") (lit "\b,\b")] (lit "a") = Ok (lit "y,").
Proof. split; vm_compute; reflexivity. Qed.
Print Assumptions C68_trailing_refuted.
(** Two macros in a row are taken for one. *)
Theorem C68_adjacent_refuted :
  ask [strv (lit "b") (lit "y"); strv (lit "c") (lit "z"); strv (lit "a") (lit "\b\c.")] (lit "a") = Throw.
Proof. vm_compute. reflexivity. Qed.
Print Assumptions C68_adjacent_refuted.
(** What a value reads as depends on the order in which the variables were declared. *)
Theorem C68_order_refuted :
  let a := strv (lit "a") (quoted (lit "\b")) in let b := strv (lit "b") (quoted (lit "x\c")) in let c := strv (lit "c") (lit "y") in
  ask [a; b; c] (lit "a") = Ok (lit "x\c") /\ ask [b; a; c] (lit "a") = Ok (lit "xy").
Proof. split; vm_compute; reflexivity. Qed.
Print Assumptions C68_order_refuted.
(** The macros of a variable that must be read are not replaced. *)
Theorem C68_required_refuted :
  ask [strv (lit "b") (lit "y"); EDeclare (lit "string!") (lit "a") (Some (lit "\b."))] (lit "a") = Ok (lit "\b.").
Proof. vm_compute. reflexivity. Qed.
Print Assumptions C68_required_refuted.

Definition h1 : history :=
  [EDeclare (lit "integer!") (lit "n") None; strv (lit "dir") (quoted (lit "/home/x")); EAssign (lit "n") (lit "-12"); ERead (lit "n");
   strv (lit "file") (quoted (lit "\dir/f\num.txt")); EDeclare (lit "real!") (lit "U") None; strv (lit "num") (lit "7"); strv (lit "all") (lit "<\file>")].
Example C68_nonvacuous : legal h1 /\ ~ declared h1 (lit "AinurFromFile") /\
  given h1 (lit "n") = Some (lit "-12") /\ written (lit "-12") (-12)%Z /\ no_value h1 (lit "U") /\ required h1 (lit "U") /\
  wrong h1 (EDeclare (lit "real") (lit "U") None) /\
  (exists (W : str -> str) (rank : str -> nat), W (lit "all") = lit "</home/x/f7.txt>" /\
    forall k v, given h1 k = Some v -> rank k <= 101 /\
     exists b, (v = b \/ v = quoted b) /\ ~ In """"%char b /\ ~ In "!"%char b /\
       replaced (fun n w => (exists v', given h1 n = Some v') /\ rank n < rank k /\ w = W n) b (W k)) /\
  ask h1 (lit "all") = Ok (lit "</home/x/f7.txt>").
Proof.
  assert (Pl : plain (lit "-12")) by (eexists; eexists; split; [reflexivity|split; discriminate]).
  assert (Nd : forall h k, forallb (fun e => match e with EDeclare _ k' _ => negb (str_eqb k' k) | _ => true end) h = true -> ~ declared h k).
  { intros h k H (d & v & K). rewrite forallb_forall in H. specialize (H _ K). cbn in H. rewrite (proj2 (str_eqb_eq _ _) eq_refl) in H. discriminate. }
  split.
  { intros a e b H. do 8 (destruct a as [|x a]; [injection H as <- <-; cbn [allowed]; first
      [split; [apply Nd; reflexivity|discriminate]
      |split; [eexists; eexists; left; reflexivity|exists (lit "-12"); split; [reflexivity|exact Pl]]
      |eexists; eexists; left; reflexivity]|]; injection H as <- H). destruct a; discriminate. }
  split; [apply Nd; reflexivity|]. split; [reflexivity|]. split.
  { exists (lit "12"). split; [discriminate|]. split; [|right; split; reflexivity]. intros c [<-|[<-|[]]]; apply isdigit_In; reflexivity. }
  split; [exact Logic.I|]. split; [exists (lit "real"), None; split; [cbn; tauto|discriminate]|]. split; [exists (lit "real!"), None; cbn; tauto|]. split; [|vm_compute; reflexivity].
  exists (fun k => if str_eqb k (lit "n") then lit "-12" else if str_eqb k (lit "dir") then lit "/home/x" else if str_eqb k (lit "num") then lit "7" else if str_eqb k (lit "file") then lit "/home/x/f7.txt" else lit "</home/x/f7.txt>").
  exists (fun k => if str_eqb k (lit "file") then 1 else if str_eqb k (lit "all") then 2 else 0).
  split; [reflexivity|]. intros k v G. cbn [h1 given strv] in G.
  assert (T : forall N s, forallb (fun c => negb (Ascii.eqb c "\")) s = true -> replaced N s s).
  { intros N s H. constructor. intros K. rewrite forallb_forall in H. specialize (H _ K). discriminate. }
  assert (Nm : forall n, forallb isValidCharForMacroName n = true -> forall x, In x n -> name_char x) by (intros n H x K; rewrite forallb_forall in H; apply name_char_ok; auto).
  repeat match type of G with context [str_eqb ?x k] => destruct (str_eqb x k) eqn:?K end; try discriminate; injection G as <-;
  match goal with K : str_eqb _ k = true |- _ => apply str_eqb_eq in K; subst k end; (split; [cbn; lia|]).
  - exists (lit "<\file>"). split; auto. split; [cbn; intuition discriminate|]. split; [cbn; intuition discriminate|].
    apply (replaced_macro _ (lit "<") (lit "file") (lit "/home/x/f7.txt") ">" [] (lit ">")); [cbn; intuition discriminate|apply Nm; reflexivity|apply name_char_not; reflexivity|discriminate| |apply T; reflexivity].
    split; [eexists; reflexivity|]. split; [vm_compute; lia|reflexivity].
  - exists (lit "7"). split; auto. split; [cbn; intuition discriminate|]. split; [cbn; intuition discriminate|]. apply T. reflexivity.
  - exists (lit "\dir/f\num.txt"). split; auto. split; [cbn; intuition discriminate|]. split; [cbn; intuition discriminate|].
    apply (replaced_macro _ [] (lit "dir") (lit "/home/x") "/" (lit "f\num.txt") (lit "/f7.txt")); [cbn; intuition discriminate|apply Nm; reflexivity|apply name_char_not; reflexivity|discriminate| |].
    { split; [eexists; reflexivity|]. split; [vm_compute; lia|reflexivity]. }
    apply (replaced_macro _ (lit "/f") (lit "num") (lit "7") "." (lit "txt") (lit ".txt")); [cbn; intuition discriminate|apply Nm; reflexivity|apply name_char_not; reflexivity|discriminate| |apply T; reflexivity].
    split; [eexists; reflexivity|]. split; [vm_compute; lia|reflexivity].
  - exists (lit "-12"). split; auto. split; [cbn; intuition discriminate|]. split; [cbn; intuition discriminate|]. apply T. reflexivity.
  - exists (lit "/home/x"). split; auto. split; [cbn; intuition discriminate|]. split; [cbn; intuition discriminate|]. apply T. reflexivity.
Qed.
