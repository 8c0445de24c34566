(** C100: complex numbers, unsigned numbers and maps in input files. *)
From Coq Require Import Ascii String.
From Verif Require Import Prelude Ring Str_Model Str_Spec Str_Proofs Text_Model Text_Proofs Ng_Proofs Dense_Model Dense_Spec Input_Model Input_Spec Input_Proofs Input_Parse Input_Read Input_Props Inc_Model Inc_Spec Inc_Proofs.
Import List.

(** The reader of a well formed file after any requests; [q] is what is left to be read. C44_file_partial shows that
    there is one for every such file and all requests. *)
Definition reader_after (f : list item) (old : list str) (eq : str) (reqs : list request) (r : rst) : Prop :=
  exists chk_label chk_text chk_vec p x, checks_accept chk_label chk_text /\ file_ok chk_vec f /\ f <> [] /\ separate f /\
    (forall a, In a reqs -> may_ask a) /\ eq_or_not eq /\
    writeable_file chk_label chk_text chk_vec (Some (render f)) = Ok p /\ session old eq (readable p) reqs = Ok (x, r).
Definition left_after (f : list item) (reqs : list request) : rest := snd (expects (start f) reqs).

Lemma reader_inv f old eq reqs r : reader_after f old eq reqs r -> eq_or_not eq /\ RInv (left_after f reqs) r /\
  exists p, Rep (flat_map texts1 f) (p_ss p) /\ session old eq (readable p) reqs = Ok (fst (expects (start f) reqs), r).
Proof.
  intros (cl & ct & cv & p & x & A & F & N & S & M & Q & E & E2). destruct (file_parsed cl ct cv f A F N) as (p' & E' & T & V & C). destruct F as (I & _).
  assert (p' = p) by congruence. subst p'.
  destruct (session_expects old eq reqs (start f) (readable p) (start_inv f p I S T V C) M Q) as (r' & E3 & IR).
  assert (Hx : (x, r) = (fst (expects (start f) reqs), r')) by congruence. injection Hx as -> ->. split; auto. split; auto. exists p. auto.
Qed.
Lemma asked_eq l eq : l <> [] -> ~ In "="%char l -> eq_or_not eq -> asked l (l ++ eq).
Proof. intros L1 L2 Q. apply (asked_ok (AskText l) eq); [split; auto|auto]. Qed.

Lemma atoi_written v n : written v n -> atoi v = Ok n.
Proof. intros (d & D1 & D2 & [[-> ->]|[-> ->]]); [apply atoi_nat|apply atoi_neg]; auto. Qed.

(** A label with a whole number that is an int: readline gives it to a long; to an unsigned number if it is not negative;
    a number gives its value to a floating variable. *)
Theorem C100_numbers_partial : forall (T : cring) (std_atof : str -> T) f old eq reqs r l v t, reader_after f old eq reqs r ->
  l <> [] -> ~ In "="%char l -> left_t (left_after f reqs) l = v :: t ->
  (forall n, written v n -> (-2147483648 <= n <= 2147483647)%Z -> exists r', readline_long r (l ++ eq) = Ok (n, r')) /\
  (forall n, written v n -> (0 <= n <= 2147483647)%Z -> exists r', readline_size r (l ++ eq) = Ok (n, r')) /\
  (real_text v -> exists r', readline_real T std_atof r (l ++ eq) = Ok (std_atof v, r')).
Proof.
  intros T at_f f old eq reqs r l v t H L1 L2 Ev. destruct (reader_inv _ _ _ _ _ H) as (Q & I & _). pose proof (asked_eq l eq L1 L2 Q) as A.
  pose proof (read_text _ r l _ I A) as Rt. rewrite Ev in Rt. destruct Rt as (r' & Rt & _).
  assert (Cl : clean_str v) by (destruct I as [_ _ _ _ Ct _]; apply (Ct l); rewrite Ev; left; auto).
  unfold readline in Rt. unfold readline_long, readline_size, readline_real. destruct (label2label (l ++ eq)) as [l2| | |]; cbn [bind] in *; try discriminate.
  destruct (findFirstValueForLabel l2 (r_ss r)) as [it|]; [|discriminate]. destruct (vget (r_ss r) it) as [[k w]| | |]; cbn [bind] in *; try discriminate.
  destruct (cleanLabelsIfNeeded l2 (r_ss r) it (r_rem r) false) as [[m rem]| | |]; cbn [bind] in *; try discriminate.
  apply Ok_inj in Rt. injection Rt as Hw Hr. rewrite Hw. unfold atoi_int.
  split; [|split].
  - intros n W B. rewrite (atoi_written v n W). cbn [bind]. destruct (Z.leb_spec (-2147483648) n); [|lia]. destruct (Z.leb_spec n 2147483647); [|lia]. cbn [andb bind]. eauto.
  - intros n W B. rewrite (atoi_written v n W). cbn [bind]. destruct (Z.leb_spec (-2147483648) n); [|lia]. destruct (Z.leb_spec n 2147483647); [|lia]. cbn [andb bind].
    rewrite Z.mod_small by lia. eauto.
  - intros W. destruct (real_text_ok v W) as [_ W2]. unfold atof. rewrite W2. cbn [bind]. eauto.
Qed.
Print Assumptions C100_numbers_partial.

(** A vector of complex numbers, each written (a,b) or as one real number, is read as those numbers. *)
Theorem C100_vector : forall (T C : cring) (std_atof : str -> T) (mkC : T -> T -> C) f old eq reqs r l v t val zs, reader_after f old eq reqs r ->
  l <> [] -> ~ In "="%char l -> left_v (left_after f reqs) l = v :: t -> Forall2 (denotes std_atof mkC real_text) (tl v) zs ->
  exists r', read_complexes T C std_atof mkC r (l ++ eq) val = Ok (zs, r').
Proof.
  intros T C at_f mk f old eq reqs r l v t val zs H L1 L2 Ev W. destruct (reader_inv _ _ _ _ _ H) as (Q & I & _).
  destruct (read_complexes_ok at_f mk (fun _ => None) _ r l _ v t val zs I (asked_eq l eq L1 L2 Q) Ev W) as (r' & E & _). eauto.
Qed.
Print Assumptions C100_vector.

(** A matrix of complex numbers: rows and columns, then the elements row by row. *)
Theorem C100_matrix_partial : forall (T C : cring) (std_atof : str -> T) (mkC : T -> T -> C) scan f old eq reqs r l v t nrow ncol z m, reader_after f old eq reqs r ->
  l <> [] -> ~ In "="%char l -> left_v (left_after f reqs) l = v :: t -> (0 < nrow)%nat -> (0 < ncol)%nat ->
  (Z.of_nat nrow <= 2147483647)%Z -> (Z.of_nat ncol <= 2147483647)%Z ->
  nth 0 v [] = print_nat nrow -> nth 1 v [] = print_nat ncol -> (2 + nrow * ncol <= List.length v)%nat -> scans std_atof scan ->
  (forall i j, (i < nrow)%nat -> (j < ncol)%nat -> denotes std_atof mkC decimal (nth (2 + i * ncol + j) v []) (z i j)) ->
  m_nrow m = 0%nat \/ m_nrow m = nrow ->
  exists r' M, read_cmatrix T C scan mkC r (l ++ eq) m = Ok (M, r') /\ is_mat M nrow ncol z.
Proof.
  intros T C at_f mk scan f old eq reqs r l v t nrow ncol z m H L1 L2 Ev H1 H2 H3 H4 H5 H6 H7 H8 H9 H10. destruct (reader_inv _ _ _ _ _ H) as (Q & I & _).
  destruct (read_cmatrix_ok at_f mk scan _ r l _ v t m nrow ncol z I (asked_eq l eq L1 L2 Q) Ev H1 H2 H3 H4 H5 H6 H7 H8 H9 H10) as (r' & M & E & _ & X). eauto.
Qed.
Print Assumptions C100_matrix_partial.

(** A matrix whose number of rows or columns is not positive, or with fewer elements than they ask for, is refused. *)
Theorem C100_matrix_refused : forall (T C : cring) (std_atof : str -> T) (mkC : T -> T -> C) scan f old eq reqs r l v t n0 n1, reader_after f old eq reqs r ->
  l <> [] -> ~ In "="%char l -> left_v (left_after f reqs) l = v :: t -> written (nth 0 v []) n0 -> written (nth 1 v []) n1 ->
  (-2147483648 <= n0 <= 2147483647)%Z -> (-2147483648 <= n1 <= 2147483647)%Z ->
  (n0 <= 0 \/ n1 <= 0 \/ Z.of_nat (List.length v) < 2 + n0 * n1)%Z ->
  (forall m, m_nrow m = 0%nat \/ Z.of_nat (m_nrow m) = n0 -> read_cmatrix T C scan mkC r (l ++ eq) m = Throw) /\
  (forall m, m_nrow m = 0%nat \/ Z.of_nat (m_nrow m) = n0 -> read_matrix T std_atof r (l ++ eq) m = Throw).
Proof.
  intros T C at_f mk scan f old eq reqs r l v t n0 n1 H L1 L2 Ev W0 W1 B0 B1 Hn. destruct (reader_inv _ _ _ _ _ H) as (Q & I & _).
  pose proof (asked_eq l eq L1 L2 Q) as A. destruct I as [_ Vv _ _ _ Cv]. destruct (Cv l v) as [Lv Cl]; [rewrite Ev; left; auto|].
  assert (A0 : c_str (nth 0 v []) = nth 0 v []) by (apply c_str_id; apply Cl; apply nth_In; lia).
  assert (A1 : c_str (nth 1 v []) = nth 1 v []) by (apply c_str_id; apply Cl; apply nth_In; lia).
  unfold read_cmatrix, read_matrix, atoi_int. rewrite (asked_label l (l ++ eq) A). cbn [bind].
  pose proof (find_part (r_sv r) l) as F. specialize (Vv l). rewrite Ev in Vv.
  destruct (part l (r_sv r)) as [|[k w] mm]; [discriminate|]. cbn [map snd] in Vv. destruct F as (i & F1 & F2 & _).
  rewrite F1, F2. cbn [bind]. assert (w = v) by congruence. subst w.
  rewrite !(@vget_ok _ v 0 []) by lia. rewrite !(@vget_ok _ v 1 []) by lia. cbn [bind]. rewrite A0, A1, (atoi_written _ n0 W0), (atoi_written _ n1 W1). cbn [bind].
  destruct (Z.leb_spec (-2147483648) n0); [|lia]. destruct (Z.leb_spec n0 2147483647); [|lia]. destruct (Z.leb_spec (-2147483648) n1); [|lia]. destruct (Z.leb_spec n1 2147483647); [|lia]. cbn [andb bind].
  destruct (Nat.ltb_spec (List.length v) 2); [lia|]. cbn [orb].
  destruct (Z.leb_spec n0 0); [auto|]. destruct (Z.leb_spec n1 0); [cbn [orb]; auto|]. cbn [orb].
  assert (Hv : (List.length v <? 2 + Z.to_nat n0 * Z.to_nat n1)%nat = true) by (apply Nat.ltb_lt; nia).
  split; intros m Hm; unfold mat_resize.
  all: assert (Hg : ((0 <? m_nrow m)%nat && negb (m_nrow m =? Z.to_nat n0)%nat)%bool = false) by
    (destruct Hm as [-> |Hm]; auto; rewrite <- Hm, Nat2Z.id, Nat.eqb_refl; apply andb_false_r).
  all: rewrite Hg; cbn [bind]; rewrite Hv; reflexivity.
Qed.
Print Assumptions C100_matrix_refused.

Lemma session_incl old eq l : forall r x r', session old eq r l = Ok (x, r') -> incl (r_ss r') (r_ss r).
Proof.
  induction l as [|a l IH]; intros r x r' H; cbn [session] in H; [apply Ok_inj in H; injection H as _ <-; apply incl_refl|].
  destruct a as [l0|l0].
  - destruct (readline r (l0 ++ eq) true false) as [[v r1]| | |] eqn:E; cbn [bind] in H; try discriminate.
    + destruct (session old eq r1 l) as [[x1 r2]| | |] eqn:E2; cbn [bind] in H; try discriminate. apply Ok_inj in H. injection H as _ <-.
      eapply incl_tran; [eapply IH; eauto|]. eapply readline_incl; eauto.
    + destruct (session old eq r l) as [[x1 r2]| | |] eqn:E2; cbn [bind] in H; try discriminate. apply Ok_inj in H. injection H as _ <-. eapply IH; eauto.
  - destruct (read_strings r (l0 ++ eq) old) as [[v r1]| | |] eqn:E; cbn [bind] in H; try discriminate.
    + destruct (session old eq r1 l) as [[x1 r2]| | |] eqn:E2; cbn [bind] in H; try discriminate. apply Ok_inj in H. injection H as _ <-.
      apply IH in E2. apply read_strings_ss in E. rewrite E in E2. exact E2.
    + destruct (session old eq r l) as [[x1 r2]| | |] eqn:E2; cbn [bind] in H; try discriminate. apply Ok_inj in H. injection H as _ <-. eapply IH; eauto.
Qed.
Lemma expects_single reqs : forall q l v, left_t q l = [v] -> left_t (snd (expects q reqs)) l = [v].
Proof.
  induction reqs as [|a reqs IH]; intros q l v H; auto. cbn [expects].
  assert (G : forall q', left_t q' l = [v] -> left_t (snd (expects q' reqs)) l = [v]) by (intros; apply IH; auto).
  destruct (expect q a) as [[w q1]|] eqn:E.
  - assert (H1 : left_t q1 l = [v]).
    { destruct a as [l0|l0]; cbn [expect] in E.
      - destruct (left_t q l0) as [|u us] eqn:E0; [discriminate|]. injection E as _ <-. cbn [left_t]. unfold take. destruct (str_eqb l0 l) eqn:El; auto.
        apply str_eqb_eq in El. subst l0. rewrite H. reflexivity.
      - destruct (left_v q l0); [discriminate|]. injection E as _ <-. exact H. }
    specialize (G q1 H1). destruct (expects q1 reqs). exact G.
  - specialize (G q H). destruct (expects q reqs). exact G.
Qed.
Lemma texts_entry f l e p : Rep (flat_map texts1 f) (p_ss p) -> (forall l' v, In (l', v) (flat_map texts1 f) -> In "["%char l' -> texts f l' = [v]) ->
  In e (p_ss p) -> In "["%char (fst e) -> l = fst e -> texts f l = [snd e] /\ In (l, snd e) (flat_map texts1 f).
Proof.
  intros Re H1 He Hb ->. set (lr := findRootLabel (fst e)).
  assert (Hp : In e (part lr (p_ss p))) by (apply filter_In; split; auto; apply str_eqb_refl).
  rewrite (rep_part _ _ Re) in Hp. destruct (keyed_in _ _ _ Hp) as (i & Hi & Ek).
  assert (Hv : exists v, In v (values_of lr (flat_map texts1 f))) by (destruct (values_of lr (flat_map texts1 f)) as [|v vs]; [simpl in Hi; lia|exists v; left; auto]).
  destruct Hv as (v & Hv). unfold values_of in Hv. apply in_map_iff in Hv. destruct Hv as ([l' v'] & <- & Hv). apply filter_In in Hv. destruct Hv as [Hv El]. apply str_eqb_eq in El. cbn [fst snd] in *.
  assert (Bl : In "["%char lr).
  { rewrite Ek in Hb. unfold key in Hb. destruct i; auto. apply in_app_iff in Hb. destruct Hb as [Hb|[Hb|Hb]]; auto; [discriminate|].
    exfalso. destruct (pnat_digits (S i)) as (_ & D & _). apply D in Hb. apply isdigit_In in Hb. discriminate. }
  subst l'. pose proof (H1 lr v' Hv Bl) as Tx. unfold texts in Tx. rewrite Tx in Hp. cbn in Hp. destruct Hp as [Hp|[]].
  assert (fst e = lr) by (rewrite <- Hp; reflexivity). assert (snd e = v') by (rewrite <- Hp; reflexivity). unfold texts. rewrite H, H0. auto.
Qed.

(** Reading a map: if no label with a bracket is repeated, and those that have l in them are l[key] with a number, then
    the map gets the number of each key, and its other keys stay as they were. *)
Theorem C100_map_partial : forall (T : cring) (std_atof : str -> T) f old eq reqs r l val, reader_after f old eq reqs r ->
  l <> [] -> ~ In "="%char l ->
  (forall l' v, In (l', v) (flat_map texts1 f) -> In "["%char l' -> texts f l' = [v]) ->
  (forall l' v, In (l', v) (flat_map texts1 f) -> In "["%char l' -> contains l l' -> exists k, l' = entry l k /\ real_text v) ->
  exists M, read_map T std_atof r (l ++ eq) val = Ok M /\
    (forall k v, texts f (entry l k) = [v] -> lookup M k = Some (std_atof v)) /\
    (forall k, texts f (entry l k) = [] -> lookup M k = lookup val k).
Proof.
  intros T at_f f old eq reqs r l val H L1 L2 H1 H2. destruct (reader_inv _ _ _ _ _ H) as (Q & I & p & Re & Se).
  pose proof (session_incl _ _ _ _ _ _ Se) as Inc. cbn [readable r_ss] in Inc.
  assert (Eb : forall k, In "["%char (entry l k)) by (intros k; unfold entry; apply in_or_app; right; left; auto).
  destruct (read_map_ok (C := T) at_f (fun x _ => x) (fun _ => None) l (l ++ eq) r val (asked_eq l eq L1 L2 Q)) as (M & E & M1 & M2).
  - intros e He Hc Hb. destruct (texts_entry f (fst e) e p Re H1 (Inc _ He) Hb eq_refl) as [_ Hi]. apply (H2 _ _ Hi Hb Hc).
  - intros k v v' Hv Hv'. destruct (texts_entry f _ _ p Re H1 (Inc _ Hv) (Eb k) eq_refl) as [A _]. destruct (texts_entry f _ _ p Re H1 (Inc _ Hv') (Eb k) eq_refl) as [B _].
    cbn [fst snd] in *. congruence.
  - exists M. split; [exact E|]. split.
    + intros k v Hk. apply M1. assert (Lk : left_t (left_after f reqs) (entry l k) = [v]) by (apply expects_single; exact Hk).
      destruct I as [It _ _ _ _ _]. specialize (It (entry l k)). rewrite Lk in It.
      destruct (part (entry l k) (r_ss r)) as [|e [|e2 es]] eqn:Pe; try discriminate. injection It as It.
      assert (He : In e (part (entry l k) (r_ss r))) by (rewrite Pe; left; auto). apply filter_In in He. destruct He as [He Hr].
      assert (He2 : In e (part (entry l k) (p_ss p))) by (apply filter_In; split; auto).
      rewrite (rep_part _ _ Re) in He2. unfold texts in Hk. rewrite Hk in He2. cbn in He2. destruct He2 as [He2|[]]. rewrite He2. exact He.
    + intros k Hk. apply M2. intros v Hv. destruct (texts_entry f _ _ p Re H1 (Inc _ Hv) (Eb k) eq_refl) as [A _]. cbn [fst snd] in A. congruence.
Qed.
Print Assumptions C100_map_partial.

(** The extension of a file name: what follows the last dot, or nothing. *)
Theorem C100_extension : forall a b, ~ In "."%char b -> extensionOf (a ++ lit "." ++ b) = b /\ extensionOf b = [].
Proof.
  intros a b H. assert (Hr : ~ In "."%char (rev b)) by (intros X; apply in_rev in X; auto). unfold extensionOf. split.
  - rewrite rev_app_distr. cbn [lit list_ascii_of_string app rev]. rewrite <- app_assoc. cbn [app]. rewrite ext_loop_app by auto. cbn [app]. rewrite turned. apply rev_involutive.
  - rewrite ext_loop_none by auto. reflexivity.
Qed.
Print Assumptions C100_extension.

(** ** What goes wrong *)
(** In these examples doubles are whole numbers, and a stream reads as long as the characters are those of numbers. *)
Definition scan_z (s : str) : option (Z * str) :=
  let '(a, r) := until (fun c => negb (real_chr c)) s [] in
  match a with [] => None | _ => Some (std_atoi a, r) end.
Definition after_file (text : str) : res rst :=
  do p <- writeable_file accept_label accept_text count_only (Some text) ;; Ok (readable p).
Definition any_vec (l : str) (v : list str) (n : nat) : res bool := Ok true.

(** A number that fits in a long but not in an int cannot be read into a long. *)
Theorem C100_long_refuted : (do r <- after_file (lit "a=3000000000" ++ nl) ;; readline_long r (lit "a")) = UB.
Proof. vm_compute. reflexivity. Qed.
Print Assumptions C100_long_refuted.
(** A negative number is read into an unsigned one as a huge number, not refused. *)
Theorem C100_size_refuted : (do r <- after_file (lit "a=-1" ++ nl) ;; do (n, _) <- readline_size r (lit "a") ;; Ok n) = Ok 18446744073709551615%Z.
Proof. vm_compute. reflexivity. Qed.
Print Assumptions C100_size_refuted.
(** Complex numbers of vectors that are not well formed are not refused: a missing parenthesis, text after it. The form
    "(1)", which is accepted in matrices, is refused in vectors. *)
Theorem C100_complex_refuted :
  stringToComplex Zring Gring std_atoi pair (lit "(1,2") = Ok (1, 2)%Z /\
  stringToComplex Zring Gring std_atoi pair (lit "(1,2)i7") = Ok (1, 2)%Z /\
  stringToComplex Zring Gring std_atoi pair (lit "(1)") = Throw /\ extract Zring Gring scan_z pair (0, 0)%Z (lit "(1)") = (1, 0)%Z.
Proof. vm_compute. auto. Qed.
Print Assumptions C100_complex_refuted.
(** Elements of matrices that are not numbers are not refused: the element stays what it was. *)
Theorem C100_matrix_refuted :
  (do p <- writeable_file accept_label accept_text any_vec (Some (lit "m 1 2 (1;2) 8x" ++ nl)) ;;
   do (m, _) <- read_cmatrix Zring Gring scan_z pair (readable p) (lit "m") (mkmat (R := Gring) 1 2 [(7, 7); (7, 7)]%Z) ;; Ok (m_data m)) = Ok [(7, 7); (8, 0)]%Z.
Proof. vm_compute. reflexivity. Qed.
Print Assumptions C100_matrix_refuted.
(** Maps: a repeated label gives a key with the end of the label in it, and the entries of another label that ends with
    l are read under false keys. *)
Theorem C100_map_refuted :
  (do r <- after_file (lit "l[x]=1" ++ nl ++ lit "l[x]=2" ++ nl) ;; read_map Zring std_atoi r (lit "l") []) = Ok [(lit "x]@", 2%Z); (lit "x", 1%Z)] /\
  (do r <- after_file (lit "al[x]=1" ++ nl) ;; read_map Zring std_atoi r (lit "l") []) = Ok [(lit "[x", 1%Z)].
Proof. vm_compute. auto. Qed.
Print Assumptions C100_map_refuted.

Lemma until_rest stop s : forall buf a r, until stop s buf = (a, r) -> a ++ r = buf ++ s.
Proof.
  induction s as [|c s IH]; intros buf a r H; cbn [until] in H; [injection H as <- <-; auto|].
  destruct (stop c); [injection H as <- <-; auto|]. apply IH in H. rewrite H, <- app_assoc. auto.
Qed.
Lemma decimal_chars a : decimal a -> a <> [] /\ forall c, In c a -> real_chr c = true.
Proof.
  assert (D : forall s c, digits s -> In c s -> real_chr c = true).
  { intros s c H Hc. apply H in Hc. apply isdigit_In in Hc. unfold real_chr. rewrite Hc. auto. }
  assert (G : forall s c, a_sign s -> In c s -> real_chr c = true) by (intros s c [-> |[-> | ->]] Hc; [destruct Hc| |]; destruct Hc as [<-|[]]; reflexivity).
  intros (sg & i & fr & ex & -> & Hs & Hi & Di & Hf & He). split; [destruct i; [contradiction|]; destruct sg; discriminate|].
  intros c Hc. rewrite !in_app_iff in Hc. destruct Hc as [Hc|[Hc|[Hc|Hc]]]; [eauto|eauto| |].
  - destruct Hf as [-> |(d & -> & Hd)]; [destruct Hc|]. destruct Hc as [<-|Hc]; [reflexivity|eauto].
  - destruct He as [-> |(e & sg' & d & Hh & Hsg & _ & Hd & ->)]; [destruct Hc|]. destruct Hc as [<-|Hc]; [destruct Hh as [-> | ->]; reflexivity|].
    apply in_app_iff in Hc. destruct Hc; eauto.
Qed.
Lemma scan_z_scans : scans (T := Zring) std_atoi scan_z.
Proof.
  intros a rest Ha Hr. destruct (decimal_chars a Ha) as [N H]. unfold scan_z.
  assert (Hs : forall x, In x a -> negb (real_chr x) = false) by (intros x Hx; rewrite H; auto).
  destruct Hr as [-> |(c & t & -> & Hc)].
  - rewrite app_nil_r. rewrite until_none by auto. destruct a; [contradiction|reflexivity].
  - rewrite until_app by (auto; destruct Hc as [-> | ->]; reflexivity). destruct a; [contradiction|reflexivity].
Qed.

(** A file with a vector and a matrix of complex numbers, a number and a map *)
Definition ex_file : list item :=
  [IVec (lit "c") [(lit " ", lit "2"); (lit " ", lit "(1,-2)"); (lit " ", lit "3")] [];
   IText (lit "q[a]") [] (lit "5") [] None; IText (lit "q[b]") [] (lit "-7") [] None; IText (lit "n") [] (lit "12") [] None;
   IVec (lit "m") [(lit " ", lit "1"); (lit " ", lit "2"); (lit " ", lit "(4,5)"); (lit " ", lit "6")] [];
   IVec (lit "z") [(lit " ", lit "2"); (lit " ", lit "3"); (lit " ", lit "4")] []].
Example C100_nonvacuous :
  (exists r, reader_after ex_file [] (lit "=") [AskText (lit "n")] r) /\
  left_t (left_after ex_file [AskText (lit "n")]) (lit "n") = [lit "12"] /\ written (lit "12") 12 /\
  left_v (left_after ex_file [AskText (lit "n")]) (lit "c") = [[lit "2"; lit "(1,-2)"; lit "3"]] /\
  Forall2 (denotes (T := Zring) (C := Gring) std_atoi pair real_text) [lit "(1,-2)"; lit "3"] [(1, -2); (3, 0)]%Z /\
  left_v (left_after ex_file [AskText (lit "n")]) (lit "m") = [[lit "1"; lit "2"; lit "(4,5)"; lit "6"]] /\
  scans (T := Zring) std_atoi scan_z /\
  (forall i j, (i < 1)%nat -> (j < 2)%nat ->
    denotes (T := Zring) (C := Gring) std_atoi pair decimal (nth (2 + i * 2 + j) [lit "1"; lit "2"; lit "(4,5)"; lit "6"] []) (nth j [(4, 5); (6, 0)]%Z (0, 0)%Z)) /\
  (forall l' v, In (l', v) (flat_map texts1 ex_file) -> In "["%char l' -> texts ex_file l' = [v]) /\
  (forall l' v, In (l', v) (flat_map texts1 ex_file) -> In "["%char l' -> contains (lit "q") l' -> exists k, l' = entry (lit "q") k /\ real_text v) /\
  texts ex_file (entry (lit "q") (lit "b")) = [lit "-7"] /\
  left_v (left_after ex_file [AskText (lit "n")]) (lit "z") = [[lit "2"; lit "3"; lit "4"]] /\ written (lit "2") 2 /\ written (lit "3") 3.
Proof.
  assert (Rt : forall s, isAfloat s = true -> forallb real_chr s = true -> real_text s).
  { intros s A B. rewrite forallb_forall in B. split; [intros c Hc; apply real_chr_In; auto|].
    unfold isAfloat in A. rewrite isAfloat_text in A by auto. cbn [orb] in A. apply existsb_exists in A. destruct A as (c & Hc & D). exists c. split; auto. apply isdigit_In. auto. }
  assert (Dg : forall s, forallb isdigit s = true -> digits s).
  { intros s B c Hc. rewrite forallb_forall in B. apply isdigit_In. auto. }
  assert (Dc : forall s, s <> [] -> forallb isdigit s = true -> decimal s).
  { intros s N B. exists [], s, [], []. rewrite !app_nil_r. cbn [app]. split; auto. split; [left; auto|]. auto. }
  assert (Gp : gap (lit " ")).
  { split; [discriminate|]. intros c [<-|[]]. left. left. reflexivity. }
  assert (Bn : blanks []) by (intros c []).
  assert (Io : forall x, In x ex_file -> item_ok x).
  { intros x H. unfold ex_file in H. repeat (destruct H as [<-|H]); [..|destruct H]; cbn [item_ok].
    - split; [apply labelb_ok; reflexivity|]. split; [simpl; lia|]. split; [|exact Bn].
      intros p H. repeat (destruct H as [<-|H]); [..|destruct H]; (split; [exact Gp|apply numberb_ok; reflexivity]).
    - split; [apply labelb_ok; reflexivity|]. split; [exact Bn|]. split; [apply valueb_ok; reflexivity|]. split; [exact Bn|exact Logic.I].
    - split; [apply labelb_ok; reflexivity|]. split; [exact Bn|]. split; [apply valueb_ok; reflexivity|]. split; [exact Bn|exact Logic.I].
    - split; [apply labelb_ok; reflexivity|]. split; [exact Bn|]. split; [apply valueb_ok; reflexivity|]. split; [exact Bn|exact Logic.I].
    - split; [apply labelb_ok; reflexivity|]. split; [simpl; lia|]. split; [|exact Bn].
      intros p H. repeat (destruct H as [<-|H]); [..|destruct H]; (split; [exact Gp|apply numberb_ok; reflexivity]).
    - split; [apply labelb_ok; reflexivity|]. split; [simpl; lia|]. split; [|exact Bn].
      intros p H. repeat (destruct H as [<-|H]); [..|destruct H]; (split; [exact Gp|apply numberb_ok; reflexivity]). }
  assert (Fo : file_ok any_vec ex_file).
  { split; [exact Io|]. split; [cbn; auto|]. split; [|split].
    - intros l ns after H. unfold ex_file in H. repeat (destruct H as [H|H]; [try discriminate H|]); [..|destruct H]; injection H as <- <- <-.
      + split; [exists 2%nat; vm_compute; reflexivity|]. intros n. exists true. split; auto.
      + split; [exists 1%nat; vm_compute; reflexivity|]. intros n. exists true. split; auto.
      + split; [exists 2%nat; vm_compute; reflexivity|]. intros n. exists true. split; auto.
    - vm_compute. reflexivity.
    - intros [s H]. vm_compute in H. discriminate. }
  assert (Se : separate ex_file).
  { intros l. unfold texts, vecs, values_of. destruct (str_eqb l (lit "c")) eqn:E.
    - apply str_eqb_eq in E. subst l. left. vm_compute. reflexivity.
    - destruct (str_eqb l (lit "m")) eqn:E2.
      + apply str_eqb_eq in E2. subst l. left. vm_compute. reflexivity.
      + destruct (str_eqb l (lit "z")) eqn:E3.
        * apply str_eqb_eq in E3. subst l. left. vm_compute. reflexivity.
        * right. cbn [ex_file flat_map vecs1 app filter fst]. rewrite E, E2, E3. reflexivity. }
  assert (Ma : forall a, In a [AskText (lit "n")] -> may_ask a).
  { intros a [<-|[]]. split; [discriminate|]. cbn. intuition discriminate. }
  split.
  { destruct (C44_file_partial accept_label accept_text any_vec ex_file [] (lit "=") [AskText (lit "n")]) as (p & r & E1 & E2).
    - split; reflexivity.
    - exact Fo.
    - discriminate.
    - exact Se.
    - exact Ma.
    - right. reflexivity.
    - exists r. exists accept_label, accept_text, any_vec, p, (fst (expects (start ex_file) [AskText (lit "n")])).
      split; [split; reflexivity|]. split; [exact Fo|]. split; [discriminate|]. split; [exact Se|]. split; [exact Ma|]. split; [right; reflexivity|]. auto. }
  split; [vm_compute; reflexivity|].
  split; [exists (lit "12"); split; [discriminate|]; split; [apply Dg; reflexivity|left; split; vm_compute; reflexivity]|].
  split; [vm_compute; reflexivity|].
  split; [constructor; [left; exists (lit "1"), (lit "-2"); split; [reflexivity|]; split; [apply Rt; reflexivity|]; split; [apply Rt; reflexivity|vm_compute; reflexivity]|constructor; [|constructor]; right; split; [apply Rt; reflexivity|vm_compute; reflexivity]]|].
  split; [vm_compute; reflexivity|]. split; [exact scan_z_scans|].
  split; [intros i j Hi Hj; assert (i = 0)%nat by lia; subst i; destruct j as [|[|j]]; [| |lia]|].
  { left. exists (lit "4"), (lit "5"). split; [reflexivity|]. split; [apply Dc; [discriminate|reflexivity]|]. split; [apply Dc; [discriminate|reflexivity]|]. vm_compute. reflexivity. }
  { right. split; [apply Dc; [discriminate|reflexivity]|]. vm_compute. reflexivity. }
  split; [|split; [|split; [vm_compute; reflexivity|split; [vm_compute; reflexivity|]]]].
  - intros l' v H Hb. cbn [ex_file flat_map texts1 app] in H. destruct H as [H|[H|[H|[]]]]; injection H as <- <-.
    + vm_compute. reflexivity.
    + vm_compute. reflexivity.
    + exfalso. cbn in Hb. intuition discriminate.
  - intros l' v H Hb Hc. cbn [ex_file flat_map texts1 app] in H. destruct H as [H|[H|[H|[]]]]; injection H as <- <-.
    + exists (lit "a"). split; [reflexivity|apply Rt; reflexivity].
    + exists (lit "b"). split; [reflexivity|apply Rt; reflexivity].
    + exfalso. cbn in Hb. intuition discriminate.
  - split; [exists (lit "2")|exists (lit "3")]; (split; [discriminate|]; split; [apply Dg; reflexivity|left; split; vm_compute; reflexivity]).
Qed.
