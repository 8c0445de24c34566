(** Proofs about complex numbers, unsigned numbers and maps in input files *)
From Coq Require Import Ascii String.
From Verif Require Import Prelude Ring Str_Model Str_Spec Str_Proofs Text_Model Text_Proofs Ng_Proofs Dense_Model Dense_Spec Dense_Proofs Input_Model Input_Spec Input_Proofs Input_Parse Input_Read Prog_Proofs Inc_Model Inc_Spec.
Import List.

Lemma real_chr_In c : real_chr c = true <-> In c (list_ascii_of_string "0123456789.+-eE").
Proof.
  assert (E : real_chr c = existsb (Ascii.eqb c) (list_ascii_of_string "0123456789.+-eE")) by (destruct c as [[] [] [] [] [] [] [] []]; vm_compute; reflexivity).
  rewrite E, existsb_exists. split.
  - intros (x & H1 & H2). apply Ascii.eqb_eq in H2. subst. auto.
  - intros H. exists c. split; auto. apply Ascii.eqb_refl.
Qed.
Lemma isAfloat_text s : forall h, (forall c, In c s -> real_chr c = true) ->
  isAfloat_loop s h = h || existsb isdigit s.
Proof.
  induction s as [|c s IH]; intros h H; cbn [isAfloat_loop existsb]; [destruct h; auto|].
  assert (Hs : forall c, In c s -> real_chr c = true) by (intros; apply H; right; auto).
  pose proof (H c (or_introl eq_refl)) as Hc. unfold real_chr in Hc.
  destruct (isdigit c) eqn:D.
  - rewrite IH by auto. cbn [orb]. destruct h; auto.
  - cbn [orb] in *. assert (X : (Ascii.eqb c "-" || Ascii.eqb c "+" || Ascii.eqb c "e" || Ascii.eqb c "E" || Ascii.eqb c ".")%bool = true).
    { clear - Hc. destruct (Ascii.eqb c "."), (Ascii.eqb c "-"), (Ascii.eqb c "+"), (Ascii.eqb c "e"), (Ascii.eqb c "E"); auto. }
    rewrite X. apply IH. auto.
Qed.
Lemma real_text_ok s : real_text s -> forallb real_chr s = true /\ isAfloat s = true.
Proof.
  intros (H & c & Hc & D). assert (G : forall c, In c s -> real_chr c = true) by (intros; apply real_chr_In; auto).
  split; [apply forallb_forall; auto|]. unfold isAfloat. rewrite isAfloat_text by auto. cbn [orb]. apply existsb_exists. exists c. split; auto. apply isdigit_In. auto.
Qed.
Lemma real_text_nonempty s : real_text s -> s <> [].
Proof. intros (_ & c & H & _) ->. destruct H. Qed.
Lemma real_clean s : (forall c, In c s -> real_chr c = true) -> c_str s = s.
Proof. intros H. apply c_str_id. intros c Hc ->. specialize (H _ Hc). discriminate. Qed.

Section Numbers.
  Context {T C : cring}.
  Variables (std_atof : str -> T) (mkC : T -> T -> C) (scan : str -> option (T * str)).

  Lemma to_real s : real_text s -> stringToReal T std_atof s = Ok (std_atof s).
  Proof.
    intros H. destruct (real_text_ok s H) as [A B]. unfold stringToReal. rewrite A. unfold atof.
    rewrite real_clean by (apply forallb_forall; auto). rewrite B. auto.
  Qed.
  Lemma to_complex s z : denotes std_atof mkC real_text s z -> stringToComplex T C std_atof mkC s = Ok z.
  Proof.
    intros [(a & b & -> & A & B & ->)|[A ->]].
    - cbn [lit list_ascii_of_string app]. unfold stringToComplex. change (Ascii.eqb "(" "(") with true. cbn [negb].
      assert (Na : forall s c, real_text s -> In c s -> Ascii.eqb c "," = false /\ Ascii.eqb c ")" = false).
      { intros s c Hs Hc. apply (proj1 Hs) in Hc. apply real_chr_In in Hc. split.
        - apply Ascii.eqb_neq. intros ->. discriminate Hc.
        - apply Ascii.eqb_neq. intros ->. discriminate Hc. }
      rewrite (until_app _ a ","%char (b ++ [")"%char])) by (auto; intros x Hx; apply (Na a x A Hx)).
      rewrite to_real by auto. cbn [bind tl]. rewrite (until_app _ b ")"%char []) by (auto; intros x Hx; apply (Na b x B Hx)).
      rewrite to_real by auto. reflexivity.
    - destruct s as [|c s]; [elim (real_text_nonempty _ A); auto|]. unfold stringToComplex.
      assert (Hc : Ascii.eqb c "(" = false).
      { apply Ascii.eqb_neq. intros ->. pose proof (proj1 A _ (or_introl eq_refl)) as H. apply real_chr_In in H. discriminate. }
      rewrite Hc. cbn [negb]. rewrite real_clean by (intros; apply real_chr_In, (proj1 A); auto). rewrite to_real by auto. reflexivity.
  Qed.

  Lemma extracts s z old : scans std_atof scan -> denotes std_atof mkC decimal s z -> extract T C scan mkC old s = z.
  Proof.
    intros Sc [(a & b & -> & A & B & ->)|[A ->]].
    - cbn [lit list_ascii_of_string app]. unfold extract. change (Ascii.eqb "(" "(") with true. cbn iota.
      rewrite (Sc a (","%char :: b ++ [")"%char]) A) by (right; exists ","%char, (b ++ [")"%char]); auto).
      change (Ascii.eqb "," ")") with false. change (Ascii.eqb "," ",") with true. cbn iota.
      rewrite (Sc b [")"%char] B) by (right; exists ")"%char, []; auto). reflexivity.
    - assert (H : exists c t, s = c :: t /\ Ascii.eqb c "(" = false).
      { destruct A as (sg & i & fr & ex & -> & Hs & Hi & Di & _). destruct Hs as [-> |[-> | ->]].
        - destruct i as [|c i]; [contradiction|]. exists c. eexists. split; [reflexivity|]. apply Ascii.eqb_neq. intros ->.
          specialize (Di _ (or_introl eq_refl)). apply isdigit_In in Di. discriminate.
        - eexists _, _. split; [reflexivity|]. reflexivity.
        - eexists _, _. split; [reflexivity|]. reflexivity. }
      destruct H as (c & t & -> & Hc). unfold extract. rewrite Hc. pose proof (Sc (c :: t) [] A (or_introl eq_refl)) as H. rewrite app_nil_r in H. rewrite H. reflexivity.
  Qed.

  Lemma read_complexes_ok q r l l1 v t val zs : RInv q r -> asked l l1 -> left_v q l = v :: t ->
    Forall2 (denotes std_atof mkC real_text) (tl v) zs ->
    exists r', read_complexes T C std_atof mkC r l1 val = Ok (zs, r') /\ RInv (mkrest (left_t q) (take (left_v q) l)) r'.
  Proof.
    intros I A E W. pose proof (read_vec q r l l1 [] I A) as H. rewrite E in H. destruct H as (r' & H & I'). exists r'. split; auto.
    destruct I as [_ Vv _ _ _ Cv]. destruct (Cv l v) as [Lv Cl]; [rewrite E; left; auto|].
    unfold read_strings in H. unfold read_complexes. rewrite (asked_label l l1 A) in *. cbn [bind] in *.
    pose proof (find_part (r_sv r) l) as F. specialize (Vv l). rewrite E in Vv.
    destruct (part l (r_sv r)) as [|[k w] m]; [discriminate|]. cbn [map snd] in Vv. destruct F as (i & F1 & F2 & _).
    rewrite F1, F2 in *. cbn [bind] in *. assert (w = v) by congruence. subst w.
    destruct (Nat.ltb_spec 1 (List.length v)); [|lia]. rewrite read_vec_loop in H by auto. cbn [bind] in H.
    destruct (cleanLabelsIfNeeded l (r_sv r) i (r_rem r) false) as [[mm rem]| | |]; cbn [bind] in *; try discriminate.
    assert (Lz : List.length zs = (List.length v - 1)%nat).
    { clear - W Lv. destruct v as [|a v]; [simpl in Lv; lia|]. cbn [tl List.length] in *. assert (List.length v = List.length zs); [|lia].
      clear - W. induction W; cbn; auto. }
    assert (Nz : forall j, (j < List.length v - 1)%nat -> denotes std_atof mkC real_text (nth (j + 1) v []) (nth j zs c0)).
    { clear - W Lv. destruct v as [|a v]; [simpl in Lv; lia|]. cbn [tl List.length] in *. clear Lv. intros j Hj. rewrite Nat.add_1_r. cbn [nth]. assert (Hj' : (j < List.length v)%nat) by lia. clear Hj.
      revert j Hj'. induction W; intros j Hj; [simpl in Hj; lia|]. destruct j; cbn [nth]; auto. apply IHW. simpl in Hj. lia. }
    loopM (fun i (w : list C) => List.length w = (List.length v - 1)%nat /\ forall j, (j < i)%nat -> nth j w c0 = nth j zs c0) as w E0 H2.
    - split; [rewrite vresize_length; auto|intros j Hj; lia].
    - intros j w Hj [H1 H3]. rewrite (vget_ok v []) by lia. cbn [bind].
      rewrite c_str_id by (apply Cl; apply nth_In; lia). rewrite (to_complex _ (nth j zs c0)) by (apply Nz; lia). cbn [bind]. rewrite vset_ok by lia.
      eexists. split; [reflexivity|]. split; [rewrite upd_length; auto|]. intros j' Hj'.
      destruct (Nat.eq_dec j' j) as [-> |N]; [rewrite nth_upd_eq by lia; auto|]. rewrite nth_upd_neq by auto. apply H3. lia.
    - rewrite E0. cbn [bind]. destruct H2 as [H3 H4]. apply Ok_inj in H. injection H as Hr. rewrite Hr. f_equal. f_equal.
      apply list_eq_nth with (d := c0); [lia|]. intros j Hj. apply H4. lia.
  Qed.

  Lemma atoi_int_nat n : (Z.of_nat n <= 2147483647)%Z -> atoi_int (c_str (print_nat n)) = Ok (Z.of_nat n).
  Proof.
    intros H. unfold atoi_int. rewrite print_nat_atoi. cbn [bind].
    destruct (Z.leb_spec (-2147483648) (Z.of_nat n)); [|lia]. destruct (Z.leb_spec (Z.of_nat n) 2147483647); [|lia]. reflexivity.
  Qed.

  Lemma read_cmatrix_ok q r l l1 v t m nrow ncol z : RInv q r -> asked l l1 -> left_v q l = v :: t -> (0 < nrow)%nat -> (0 < ncol)%nat ->
    (Z.of_nat nrow <= 2147483647)%Z -> (Z.of_nat ncol <= 2147483647)%Z ->
    nth 0 v [] = print_nat nrow -> nth 1 v [] = print_nat ncol -> (2 + nrow * ncol <= List.length v)%nat ->
    scans std_atof scan ->
    (forall i j, (i < nrow)%nat -> (j < ncol)%nat -> denotes std_atof mkC decimal (nth (2 + i * ncol + j) v []) (z i j)) ->
    m_nrow m = 0%nat \/ m_nrow m = nrow ->
    exists r' M, read_cmatrix T C scan mkC r l1 m = Ok (M, r') /\ RInv (mkrest (left_t q) (take (left_v q) l)) r' /\ is_mat M nrow ncol z.
  Proof.
    intros I A E Hr Hc Br Bc N0 N1 L Sc W Hm. pose proof (read_vec q r l l1 [] I A) as H. rewrite E in H. destruct H as (r' & H & I'). exists r'.
    destruct I as [_ Vv _ _ _ Cv]. destruct (Cv l v) as [Lv Cl]; [rewrite E; left; auto|].
    unfold read_strings in H. unfold read_cmatrix. rewrite (asked_label l l1 A) in *. cbn [bind] in *.
    pose proof (find_part (r_sv r) l) as F. specialize (Vv l). rewrite E in Vv.
    destruct (part l (r_sv r)) as [|[k w] mm]; [discriminate|]. cbn [map snd] in Vv. destruct F as (i & F1 & F2 & _).
    rewrite F1, F2 in *. cbn [bind] in *. assert (w = v) by congruence. subst w.
    destruct (Nat.ltb_spec 1 (List.length v)); [|lia]. rewrite read_vec_loop in H by auto. cbn [bind] in H.
    destruct (cleanLabelsIfNeeded l (r_sv r) i (r_rem r) false) as [[sv rem]| | |] eqn:EC; cbn [bind] in *; try discriminate.
    apply Ok_inj in H. injection H as Hr'. destruct (Nat.ltb_spec (List.length v) 2); [lia|].
    rewrite (vget_ok v []) by lia. cbn [bind]. rewrite N0, atoi_int_nat by auto. cbn [bind]. destruct (Z.leb_spec (Z.of_nat nrow) 0); [lia|].
    rewrite (@vget_ok _ v 1 []) by lia. cbn [bind]. rewrite N1, atoi_int_nat by auto. cbn [bind]. destruct (Z.leb_spec (Z.of_nat ncol) 0); [lia|].
    rewrite !Nat2Z.id. unfold mat_resize at 1.
    assert (Hg : ((0 <? m_nrow m)%nat && negb (m_nrow m =? nrow)%nat)%bool = false).
    { destruct Hm as [-> | ->]; auto. rewrite Nat.eqb_refl. apply andb_false_r. }
    rewrite Hg. cbn [bind]. destruct (Nat.ltb_spec (List.length v) (2 + nrow * ncol)); [lia|].
    set (P := fun (a b : nat) (mk : mat C * nat) => m_nrow (fst mk) = nrow /\ m_ncol (fst mk) = ncol /\ mat_wf (fst mk) /\ snd mk = (2 + a * ncol + b)%nat /\
      forall i j, (i < nrow)%nat -> (j < ncol)%nat -> (i < a \/ (i = a /\ j < b))%nat -> melem (fst mk) i j = z i j).
    loopM (fun a mk => P a 0%nat mk) as mk E0 HL.
    - unfold P. cbn [fst snd]. split; auto. split; auto. split; [unfold mat_wf; cbn; apply vresize_length|]. split; [lia|]. intros; lia.
    - intros a mk Ha HP.
      loopM (fun b mk => P a b mk) as mk' E1 HM; [exact HP| |].
      + intros b [M k0] Hb (P1 & P2 & P3 & P4 & P5). cbn [fst snd] in *. subst k0.
        rewrite (vget_ok v []) by nia. cbn [bind].
        rewrite (mget_ok C M a b P3) by lia. cbn [bind].
        rewrite (extracts _ (z a b) _ Sc (W a b ltac:(lia) ltac:(lia))).
        destruct (mset_ok C M a b (z a b) P3) as (M2 & E2 & Q1 & Q2 & Q3 & Q4); [lia|lia|].
        rewrite E2. cbn [bind]. eexists. split; [reflexivity|]. unfold P. cbn [fst snd]. split; [lia|]. split; [lia|]. split; auto. split; [lia|].
        intros i' j' Hi' Hj' Hd. rewrite Q4 by lia.
        destruct (Nat.eqb_spec i' a) as [-> |], (Nat.eqb_spec j' b) as [-> |]; cbn [andb]; auto; apply P5; lia.
      + rewrite E1. eexists. split; [reflexivity|]. destruct HM as (P1 & P2 & P3 & P4 & P5). unfold P. split; auto. split; auto. split; auto. split; [lia|].
        intros i' j' Hi' Hj' Hd. apply P5; lia.
    - rewrite E0. destruct mk as [M k0]. cbn [bind]. destruct HL as (P1 & P2 & P3 & P4 & P5). cbn [fst snd] in *.
      exists M. rewrite Hr'. split; [reflexivity|]. split; [exact I'|]. split; [exact P1|]. split; [exact P2|]. split; [exact P3|]. intros i' j' Hi' Hj'. apply P5; lia.
  Qed.

  (** Maps *)
  Lemma lookup_set (m : list (str * T)) k x k' : lookup (amap_set T m k x) k' = if str_eqb k k' then Some x else lookup m k'.
  Proof.
    unfold lookup, amap_set. cbn [find fst]. destruct (str_eqb k k') eqn:E; [reflexivity|].
    induction m as [|[k0 x0] m IH]; cbn [filter find fst]; auto.
    destruct (str_eqb k0 k) eqn:E0; cbn [negb].
    - apply str_eqb_eq in E0. subst k0. rewrite E. exact IH.
    - cbn [find fst]. destruct (str_eqb k0 k'); auto.
  Qed.
  Lemma entry_inj l k k' : entry l k = entry l k' -> k = k'.
  Proof. unfold entry. intros H. apply app_inv_head in H. cbn in H. injection H as H. apply app_inj_tail in H. tauto. Qed.
  Lemma find_sub_contains p s : contains p s -> find_sub p s <> None.
  Proof. intros (a & b & ->) H. eapply find_sub_none; eauto. Qed.
  Lemma find_sub_some p s n : find_sub p s = Some n -> contains p s.
  Proof. intros H. apply find_sub_first in H. destruct H as (a & b & -> & _). exists a, b. auto. Qed.

  (** Each entry of the list is for another label, or is l[k] with a number. *)
  Definition usable l (e : str * str) : Prop :=
    (contains l (fst e) -> In "["%char (fst e) -> exists k, fst e = entry l k /\ real_text (snd e)).
  Lemma read_map_ok l l1 r val : asked l l1 -> (forall e, In e (r_ss r) -> usable l e) ->
    (forall k v v', In (entry l k, v) (r_ss r) -> In (entry l k, v') (r_ss r) -> v = v') ->
    exists M, read_map T std_atof r l1 val = Ok M /\
      (forall k v, In (entry l k, v) (r_ss r) -> lookup M k = Some (std_atof v)) /\
      (forall k, (forall v, ~ In (entry l k, v) (r_ss r)) -> lookup M k = lookup val k).
  Proof.
    intros A. unfold read_map. rewrite (asked_label l l1 A). cbn [bind]. revert val. induction (r_ss r) as [|e ss IH]; intros val U D.
    - exists val. cbn [forL]. split; [auto|]. split; [intros k v []|auto].
    - cbn [forL].
      assert (U' : forall e, In e ss -> usable l e) by (intros; apply U; right; auto).
      assert (D' : forall k v v', In (entry l k, v) ss -> In (entry l k, v') ss -> v = v') by (intros k v v' H1 H2; apply (D k); right; auto).
      assert (Skip : (forall k v, e <> (entry l k, v)) ->
        exists M, forL ss (fun e (val : list (str * T)) => match find_sub l (fst e) with
          | None => Ok val
          | Some _ => if negb (existsb (fun c => Ascii.eqb c "[") (fst e)) then Ok val
            else if negb (existsb (fun c => Ascii.eqb c "]") (fst e)) then Throw
            else match skipn (List.length l + 1) (fst e) with
                 | [] => Throw
                 | _ :: _ => do x <- atof T std_atof (c_str (snd e)) ;; Ok (amap_set T val (removelast (skipn (List.length l + 1) (fst e))) x) end end) val = Ok M /\
          (forall k v, In (entry l k, v) (e :: ss) -> lookup M k = Some (std_atof v)) /\
          (forall k, (forall v, ~ In (entry l k, v) (e :: ss)) -> lookup M k = lookup val k)).
      { intros N. destruct (IH val U' D') as (M & E & H1 & H2). exists M. split; [exact E|]. split.
        - intros k v [H|H]; [elim (N k v H)|auto].
        - intros k H. apply H2. intros v Hv. apply (H v). right. auto. }
      destruct (find_sub l (fst e)) as [n|] eqn:F.
      2:{ cbn [bind]. apply Skip. intros k v ->. cbn [fst] in F. eapply find_sub_contains; [|exact F]. exists [], (lit "[" ++ k ++ lit "]"). reflexivity. }
      destruct (existsb (fun c => Ascii.eqb c "[") (fst e)) eqn:B; cbn [negb].
      2:{ cbn [bind]. apply Skip. intros k v ->. cbn [fst] in B. assert (X : existsb (fun c => Ascii.eqb c "[") (entry l k) = true).
          { apply existsb_exists. exists "["%char. split; [unfold entry; apply in_or_app; right; left; auto|reflexivity]. }
          rewrite X in B. discriminate. }
      apply existsb_exists in B. destruct B as (c & B1 & B2). apply Ascii.eqb_eq in B2. subst c.
      destruct (U e (or_introl eq_refl) (find_sub_some _ _ _ F) B1) as (k & Ek & Rk).
      assert (X : existsb (fun c => Ascii.eqb c "]") (fst e) = true).
      { rewrite Ek. apply existsb_exists. exists "]"%char. split; [unfold entry; rewrite !in_app_iff; cbn; auto|reflexivity]. }
      rewrite X. cbn [negb].
      assert (Sk : skipn (List.length l + 1) (fst e) = k ++ lit "]").
      { rewrite Ek. unfold entry. rewrite skipn_app, skipn_all2 by lia. replace (List.length l + 1 - List.length l)%nat with 1%nat by lia. reflexivity. }
      rewrite Sk. destruct (k ++ lit "]") as [|c0' k0'] eqn:Ek'; [destruct k; discriminate|]. rewrite <- Ek'.
      destruct (real_text_ok _ Rk) as [R1 R2]. rewrite real_clean by (apply forallb_forall; auto). unfold atof at 1. rewrite R2. cbn [bind].
      assert (Rl : removelast (k ++ lit "]") = k) by apply removelast_last. rewrite Rl.
      destruct (IH (amap_set T val k (std_atof (snd e))) U' D') as (M & E & H1 & H2). exists M. split; [exact E|].
      destruct e as [e1 e2]. cbn [fst snd] in *. subst e1.
      assert (Hk : lookup M k = Some (std_atof e2)).
      { destruct (in_dec (list_eq_dec ascii_dec) (entry l k) (map fst ss)) as [Hi|Hi].
        - apply in_map_iff in Hi. destruct Hi as ([a b] & Ha & Hi). cbn [fst] in Ha. subst a. rewrite (H1 k b Hi). f_equal. f_equal.
          apply (D k); [right; auto|left; auto].
        - rewrite H2; [rewrite lookup_set, str_eqb_refl; auto|]. intros v Hv. apply Hi. apply (in_map fst) in Hv. exact Hv. }
      split.
      + intros k' v [H|H]; [|auto]. injection H as H ->. apply entry_inj in H. subst k'. exact Hk.
      + intros k' H. rewrite H2 by (intros v Hv; apply (H v); right; auto). rewrite lookup_set. destruct (str_eqb k k') eqn:E'; auto.
        apply str_eqb_eq in E'. subst k'. elim (H e2). left. auto.
  Qed.
End Numbers.

(** Reading takes entries away only. *)
Lemma erase_incl {A} (l : list A) i : incl (erase_at l i) l.
Proof.
  unfold erase_at. intros x H. apply in_app_iff in H. rewrite <- (firstn_skipn i l). apply in_or_app. destruct H as [H|H]; [left; auto|right].
  revert l H. induction i as [|i IH]; intros [|a l] H; cbn in *; auto.
Qed.
Lemma clean_incl {V} l (m : list (str * V)) i rem f m' rem' : cleanLabelsIfNeeded l m i rem f = Ok (m', rem') -> incl m' m.
Proof.
  unfold cleanLabelsIfNeeded. intros H. destruct (find_idx (str_eqb l) rem).
  - apply Ok_inj in H. injection H as <- _. apply erase_incl.
  - destruct f; [discriminate|]. apply Ok_inj in H. injection H as <- _. apply incl_refl.
Qed.
Lemma readline_incl r l c f v r' : readline r l c f = Ok (v, r') -> incl (r_ss r') (r_ss r).
Proof.
  unfold readline. intros H. destruct (label2label l) as [l2| | |]; cbn [bind] in H; try discriminate.
  destruct (findFirstValueForLabel l2 (r_ss r)) as [i|]; [|discriminate]. destruct (vget (r_ss r) i) as [[k w]| | |]; cbn [bind] in H; try discriminate.
  destruct c; [|apply Ok_inj in H; injection H as _ <-; apply incl_refl].
  destruct (cleanLabelsIfNeeded l2 (r_ss r) i (r_rem r) f) as [[m rem]| | |] eqn:E; cbn [bind] in H; try discriminate.
  apply Ok_inj in H. injection H as _ <-. cbn. eapply clean_incl; eauto.
Qed.
Lemma read_strings_ss r l val v r' : read_strings r l val = Ok (v, r') -> r_ss r' = r_ss r.
Proof.
  unfold read_strings. intros H. destruct (label2label l) as [l2| | |]; cbn [bind] in H; try discriminate.
  destruct (findFirstValueForLabel l2 (r_sv r)) as [i|]; [|discriminate]. destruct (vget (r_sv r) i) as [[k w]| | |]; cbn [bind] in H; try discriminate.
  destruct (1 <? List.length w)%nat; [|discriminate].
  match type of H with bind ?x _ = _ => destruct x as [w'| | |]; cbn [bind] in H; try discriminate end.
  destruct (cleanLabelsIfNeeded l2 (r_sv r) i (r_rem r) false) as [[m rem]| | |]; cbn [bind] in H; try discriminate.
  apply Ok_inj in H. injection H as _ <-. reflexivity.
Qed.

(** The part of the file name after the last dot *)
Lemma ext_loop_app a b : forall buf, ~ In "."%char a -> ext_loop (a ++ "."%char :: b) buf = Some (buf ++ a).
Proof.
  induction a as [|c a IH]; intros buf H; cbn [app ext_loop].
  - change (Ascii.eqb "." ".") with true. rewrite app_nil_r. auto.
  - destruct (Ascii.eqb c ".") eqn:E; [apply Ascii.eqb_eq in E; elim H; left; auto|]. rewrite IH by (intros X; apply H; right; auto). rewrite <- app_assoc. auto.
Qed.
Lemma ext_loop_none a : forall buf, ~ In "."%char a -> ext_loop a buf = None.
Proof.
  induction a as [|c a IH]; intros buf H; cbn [ext_loop]; auto.
  destruct (Ascii.eqb c ".") eqn:E; [apply Ascii.eqb_eq in E; elim H; left; auto|]. apply IH. intros X; apply H; right; auto.
Qed.
Lemma turned (l : str) : map (fun j => nth (List.length l - j - 1) l zero) (seq 0 (List.length l)) = rev l.
Proof.
  apply list_eq_nth with (d := zero); [rewrite map_length, seq_length, rev_length; auto|]. rewrite map_length, seq_length. intros i Hi.
  rewrite (nth_indep _ zero ((fun j => nth (List.length l - j - 1) l zero) 0%nat)) by (rewrite map_length, seq_length; auto).
  rewrite (map_nth (fun j => nth (List.length l - j - 1) l zero)). rewrite seq_nth by auto. rewrite rev_nth by auto. f_equal. lia.
Qed.
