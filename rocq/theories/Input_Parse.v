(** Proofs about the parser. *)
From Coq Require Import Ascii String.
From Verif Require Import Prelude Ring Str_Model Str_Spec Str_Proofs Text_Model Text_Proofs Dense_Model Input_Model Input_Spec Ng_Proofs Input_Proofs.
Import List.

Lemma forM_vget {A S} (l : list A) (f : A -> S -> res S) : forall pre s,
  forM (List.length l) (List.length pre) (fun i s => do x <- vget (pre ++ l) i ;; f x s) s = forL l f s.
Proof.
  induction l as [|x l IH]; intros pre s; cbn [List.length forM forL]; auto.
  rewrite (vget_ok (pre ++ x :: l) x) by (rewrite app_length; simpl; lia).
  rewrite app_nth2, Nat.sub_diag by lia. cbn [nth bind]. destruct (f x s); cbn [bind]; auto.
  replace (pre ++ x :: l) with ((pre ++ [x]) ++ l) by (rewrite <- app_assoc; auto).
  rewrite <- (IH (pre ++ [x])). rewrite app_length. cbn [List.length]. rewrite Nat.add_1_r. auto.
Qed.

(** ** Character types *)
Lemma type_of c : match findTypeOf c with
  | ENDOFLINE => c = newline | WHITESPACE => blank c | EQUALSIGN => c = "="%char
  | NUMERIC_CHAR => numeric c | COMMENT => c = "#"%char | ALPHA_CHAR => True end.
Proof.
  destruct c as [[] [] [] [] [] [] [] []]; vm_compute; auto; repeat ((left; reflexivity) || right).
Qed.
Lemma type_blank c : blank c -> findTypeOf c = WHITESPACE.
Proof. intros [-> | ->]; reflexivity. Qed.
Lemma type_numeric c : numeric c -> findTypeOf c = NUMERIC_CHAR.
Proof. intros H. cbn in H. repeat (destruct H as [<-|H]; [reflexivity|]). destruct H. Qed.
Lemma type_token c : ~ special c -> c <> "="%char -> (findTypeOf c = NUMERIC_CHAR /\ numeric c) \/ (findTypeOf c = ALPHA_CHAR /\ ~ numeric c).
Proof.
  intros H E. pose proof (type_of c) as T. destruct (findTypeOf c) eqn:F.
  - elim H. left; auto.
  - elim H. right; left; auto.
  - contradiction.
  - right. split; auto. intros N. apply type_numeric in N. congruence.
  - left; auto.
  - elim H. right; right; left; auto.
Qed.
Lemma type_alpha c : ~ special c -> c <> "="%char -> ~ numeric c -> findTypeOf c = ALPHA_CHAR.
Proof. intros A B C. destruct (type_token c A B) as [[_ X]|[X _]]; auto. contradiction. Qed.

Section Parse.
  Variable chk_label : str -> nat -> res unit.
  Variable chk_text : str -> str -> nat -> res unit.
  Variable chk_vec : str -> list str -> nat -> res bool.
  Hypothesis label_accepted : forall l n, chk_label l n = Ok tt.
  Hypothesis text_accepted : forall l v n, chk_text l v n = Ok tt.
  Notation pchar := (parse_char chk_label chk_text chk_vec).
  Notation parse := (parse_chars chk_label chk_text chk_vec).
  Notation save := (saveBuffer chk_label chk_text).

  Lemma parse_app pb a b : parse pb (a ++ b) = do pb <- parse pb a ;; parse pb b.
  Proof. revert pb. induction a as [|c a IH]; intros pb; cbn [app parse_chars bind]; auto. destruct (pchar pb c); cbn [bind]; auto. Qed.

  (** Blanks and newlines between tokens *)
  Lemma parse_blanks p ws : blanks ws -> parse (p, []) ws = Ok (p, []).
  Proof.
    induction ws as [|c ws IH]; intros H; cbn [parse_chars]; auto.
    replace (pchar (p, []) c) with (Ok (p, [] : str)); [cbn [bind]; apply IH; intros x Hx; apply H; right; auto|].
    unfold parse_char. rewrite type_blank by (apply H; left; auto). destruct (p_state p); auto.
  Qed.
  Lemma parse_newline n st num last ss sv rem : st <> IN_COMMENT ->
    parse (mkpst n st num last ss sv rem, []) [newline] = Ok (mkpst (S n) st num last ss sv rem, []).
  Proof. intros H. destruct st; try reflexivity. contradiction. Qed.
  Lemma parse_gap ws : forall n st num last ss sv rem, st <> IN_COMMENT -> (forall c, In c ws -> blank c \/ c = newline) ->
    exists n', parse (mkpst n st num last ss sv rem, []) ws = Ok (mkpst n' st num last ss sv rem, []).
  Proof.
    induction ws as [|c ws IH]; intros n st num last ss sv rem N H; [exists n; auto|].
    change (c :: ws) with ([c] ++ ws).
    destruct (H c (or_introl eq_refl)) as [B| ->].
    - destruct (IH n st num last ss sv rem N) as [n' E]; [intros; apply H; right; auto|]. exists n'.
      rewrite parse_app, parse_blanks; auto. intros x [<-|[]]; auto.
    - destruct (IH (S n) st num last ss sv rem N) as [n' E]; [intros; apply H; right; auto|]. exists n'.
      rewrite parse_app, parse_newline; auto.
  Qed.

  (** Tokens *)
  Lemma parse_token t : forall n st num last ss sv rem buf, (st = IN_LABEL \/ st = IN_VALUE_NUMERIC) ->
    (forall c, In c t -> ~ special c /\ c <> "="%char) ->
    parse (mkpst n st num last ss sv rem, buf) t = Ok (mkpst n st num last ss sv rem, buf ++ t).
  Proof.
    induction t as [|c t IH]; intros n st num last ss sv rem buf S H; [rewrite app_nil_r; auto|].
    cbn [parse_chars]. destruct (H c (or_introl eq_refl)) as [A B].
    replace (pchar (mkpst n st num last ss sv rem, buf) c) with (Ok (mkpst n st num last ss sv rem, buf ++ [c])).
    - cbn [bind]. rewrite IH; auto; [rewrite <- app_assoc; auto|intros; apply H; right; auto].
    - unfold parse_char. cbn [p_state]. destruct (type_token c A B) as [[-> _]|[-> _]]; destruct S as [-> | ->]; reflexivity.
  Qed.
  Lemma parse_value v : forall n num last ss sv rem buf, buf <> [] -> (forall c, In c v -> ~ special c) ->
    parse (mkpst n IN_VALUE_TEXT num last ss sv rem, buf) v = Ok (mkpst n IN_VALUE_TEXT num last ss sv rem, buf ++ v).
  Proof.
    induction v as [|c v IH]; intros n num last ss sv rem buf B H; [rewrite app_nil_r; auto|].
    cbn [parse_chars]. pose proof (H c (or_introl eq_refl)) as A.
    replace (pchar (mkpst n IN_VALUE_TEXT num last ss sv rem, buf) c) with (Ok (mkpst n IN_VALUE_TEXT num last ss sv rem, buf ++ [c])).
    - cbn [bind]. rewrite IH; auto; [rewrite <- app_assoc; auto|destruct buf; discriminate|intros; apply H; right; auto].
    - unfold parse_char. cbn [p_state]. destruct (ascii_dec c "="%char) as [-> |N].
      + change (findTypeOf "=") with EQUALSIGN. destruct buf; [contradiction|reflexivity].
      + destruct (type_token c A N) as [[-> _]|[-> _]]; reflexivity.
  Qed.

  (** What follows a token saves it. *)
  Lemma parse_end ws n st num last ss sv rem buf st' num' last' ss' sv' rem' : st <> IN_COMMENT -> st' <> IN_COMMENT -> gap ws -> buf <> [] ->
    (forall n, save (mkpst n st num last ss sv rem) buf false = Ok (mkpst n st' num' last' ss' sv' rem')) ->
    exists n', parse (mkpst n st num last ss sv rem, buf) ws = Ok (mkpst n' st' num' last' ss' sv' rem', []).
  Proof.
    intros N N' [G1 G2] B Hs. destruct ws as [|c ws]; [contradiction|].
    assert (X : exists n1, pchar (mkpst n st num last ss sv rem, buf) c = Ok (mkpst n1 st' num' last' ss' sv' rem', [])).
    { destruct (G2 c (or_introl eq_refl)) as [Bl| ->].
      - exists n. unfold parse_char. cbn [p_state]. rewrite type_blank by auto. destruct buf; [contradiction|]. rewrite Hs. destruct st; auto. contradiction.
      - exists (S n). unfold parse_char. cbn [p_state]. change (findTypeOf newline) with ENDOFLINE. cbn [p_line p_num p_last p_ss p_sv p_rem].
        destruct buf; [contradiction|]. rewrite Hs. destruct st; auto. contradiction. }
    destruct X as [n1 X]. destruct (parse_gap ws n1 st' num' last' ss' sv' rem') as [n' E]; auto; [intros; apply G2; right; auto|].
    exists n'. cbn [parse_chars]. rewrite X. cbn [bind]. auto.
  Qed.

  (** ** Items *)
  Definition plain_item (x : item) : Prop := match x with IMany _ _ _ => False | _ => True end.
  Definition vec_ok (l : str) (ns : list str) : Prop :=
    exists k, hd [] ns = print_nat k /\ forall n, exists b, chk_vec l ns n = Ok b /\ (b = true \/ List.length ns = S k).

  Definition removals {A B} (T : list (str * A)) (V : list (str * B)) (l : str) : nat :=
    (List.length (values_of l T) - 1 + (List.length (values_of l V) - 1))%nat.
  Definition small {A} (E : list A) : Prop := (Z.of_nat (List.length E) < 18446744073709551615)%Z.
  Definition sdec := list_eq_dec ascii_dec.

  (** After the entries [T] and [V]; the vector [pend] is not yet in the map. *)
  Record PInv (T : list (str * str)) (V : list (str * list str)) (pend : option (str * list str)) (p : pst) : Prop := {
    pi_t : Rep T (p_ss p);
    pi_v : Rep V (p_sv p);
    pi_rem : forall l, count_occ sdec (p_rem p) l = removals T V l;
    pi_state : match pend with
      | None => p_state p = IN_LABEL /\ p_num p = []
      | Some (l, ns) => p_state p = IN_VALUE_OR_LABEL /\ p_num p = ns /\ p_last p = l /\ ~ In at_ l /\ (2 <= List.length ns)%nat /\ vec_ok l ns
      end }.
  Definition pent (pend : option (str * list str)) : list (str * list str) := match pend with None => [] | Some e => [e] end.

  Lemma count_snoc rem l l' : count_occ sdec (rem ++ [l]) l' = (count_occ sdec rem l' + if sdec l l' then 1 else 0)%nat.
  Proof. rewrite count_occ_app. cbn [count_occ]. destruct (sdec l l'); lia. Qed.
  Lemma rem_put {A B} (T : list (str * A)) (V : list (str * B)) l v rem : (forall l', count_occ sdec rem l' = removals T V l') ->
    forall l', count_occ sdec (rem ++ (if (List.length (values_of l T) =? 0)%nat then [] else [l])) l' = removals (T ++ [(l, v)]) V l'.
  Proof.
    intros H l'. unfold removals in *. rewrite values_snoc. destruct (Nat.eqb_spec (List.length (values_of l T)) 0) as [Z0|Z0].
    - rewrite app_nil_r, H. destruct (str_eqb l' l) eqn:E; auto. apply str_eqb_eq in E. subst l'. rewrite app_length. cbn [List.length]. lia.
    - rewrite count_snoc, H. destruct (str_eqb l' l) eqn:E.
      + apply str_eqb_eq in E. subst l'. rewrite app_length. cbn [List.length]. destruct (sdec l l); [lia|contradiction].
      + apply str_eqb_false in E. destruct (sdec l l'); [subst; contradiction|lia].
  Qed.
  Lemma removals_comm {A B} (T : list (str * A)) (V : list (str * B)) l : removals T V l = removals V T l.
  Proof. unfold removals. lia. Qed.

  Lemma flush T V l ns p : PInv T V (Some (l, ns)) p -> small V ->
    exists sv rem, checkNumbers chk_vec p = Ok (mkpst (p_line p) (p_state p) (p_num p) (p_last p) (p_ss p) sv rem) /\
      Rep (V ++ [(l, ns)]) sv /\ forall l', count_occ sdec rem l' = removals T (V ++ [(l, ns)]) l'.
  Proof.
    intros [A B C (D1 & D2 & D3 & D4 & D5 & (k & K1 & K2))] Sm. destruct p as [n st num last ss sv rem]. cbn in *. subst num last.
    destruct (rep_put V sv l ns rem B D4) as (sv' & key' & E1 & E2 & E3 & E4); [exact Sm|].
    exists sv'. eexists. split; [|split; [exact E4|]].
    - unfold checkNumbers. cbn [p_num p_last p_sv p_rem p_line p_state p_ss]. destruct ns as [|n0 [|n1 ns]]; [simpl in D5; lia|simpl in D5; lia|].
      cbn [hd] in K1. subst n0. rewrite print_nat_atoi. cbn [bind]. destruct (K2 n) as (b & Kb & Kc). rewrite Kb. cbn [bind].
      assert (X : (negb b && negb (Z.of_nat (List.length (print_nat k :: n1 :: ns)) mod 18446744073709551616 =? (Z.of_nat k + 1) mod 18446744073709551616)%Z)%bool = false).
      { destruct Kc as [-> |Kc]; auto. rewrite Kc. replace (Z.of_nat (S k)) with (Z.of_nat k + 1)%Z by lia. rewrite Z.eqb_refl. apply andb_false_r. }
      rewrite X, E1, E3. cbn [bind]. reflexivity.
    - intros l'. rewrite removals_comm. apply rem_put. intros l2. rewrite removals_comm. auto.
  Qed.

  Lemma label_chars l : label_ok l -> exists c s, l = c :: s /\ findTypeOf c = ALPHA_CHAR /\ (forall x, In x s -> ~ special x /\ x <> "="%char) /\ ~ In at_ l.
  Proof.
    intros [(c & s & -> & A & B) H]. exists c, s. split; auto. destruct (H c (or_introl eq_refl)) as (H1 & H2 & H3).
    split; [apply type_alpha; auto|]. split; [intros x Hx; destruct (H x (or_intror Hx)) as (K1 & K2 & _); auto|].
    intros X. destruct (H _ X) as (_ & _ & K). apply K. reflexivity.
  Qed.

  (** A label, after which pending numbers are in the map. *)
  Lemma parse_label T V pend p l : PInv T V pend p -> small V -> label_ok l ->
    exists ss sv rem last n, parse (p, []) l = Ok (mkpst n IN_LABEL [] last ss sv rem, l) /\
      Rep T ss /\ Rep (V ++ pent pend) sv /\ forall l', count_occ sdec rem l' = removals T (V ++ pent pend) l'.
  Proof.
    intros I Sm L. destruct (label_chars l L) as (c & s & -> & Tc & Hs & _).
    assert (X : exists ss sv rem last n, pchar (p, []) c = Ok (mkpst n IN_LABEL [] last ss sv rem, [c]) /\
      Rep T ss /\ Rep (V ++ pent pend) sv /\ forall l', count_occ sdec rem l' = removals T (V ++ pent pend) l').
    { destruct pend as [[l0 ns]|].
      - destruct (flush T V l0 ns p I Sm) as (sv & rem & E & Rv & Rc). destruct I as [A B C (D1 & D2 & D3 & D4)].
        destruct p as [n st num last ss sv0 rem0]. cbn in *. subst. exists ss, sv, rem, l0, n. split; auto.
        unfold parse_char. cbn [p_state]. rewrite Tc, E. reflexivity.
      - destruct I as [A B C (D1 & D2)]. destruct p as [n st num last ss sv rem]. cbn in *. subst. rewrite app_nil_r.
        exists ss, sv, rem, last, n. split; auto. unfold parse_char. cbn [p_state]. rewrite Tc. reflexivity. }
    destruct X as (ss & sv & rem & last & n & E & X). exists ss, sv, rem, last, n. split; auto.
    cbn [parse_chars]. rewrite E. cbn [bind]. rewrite parse_token; auto.
  Qed.

  Lemma parse_comment s : forall p buf, p_state p = IN_COMMENT -> ~ In newline s -> parse (p, buf) s = Ok (p, buf).
  Proof.
    induction s as [|c s IH]; intros p buf Hp H; auto. cbn [parse_chars].
    replace (pchar (p, buf) c) with (Ok (p, buf)).
    - cbn [bind]. apply IH; auto. intros X. apply H. right; auto.
    - unfold parse_char. rewrite Hp. pose proof (type_of c) as Tc. destruct (findTypeOf c); auto. elim H. left; auto.
  Qed.

  Lemma step_text T V pend p l before v after remark : PInv T V pend p -> small V -> small T -> item_ok (IText l before v after remark) ->
    exists p', parse (p, []) (render1 (IText l before v after remark)) = Ok (p', []) /\ PInv (T ++ [(l, v)]) (V ++ pent pend) None p'.
  Proof.
    intros I Sm ST (L & Bb & Vo & Ba & Rm). destruct (parse_label T V pend p l I Sm L) as (ss & sv & rem & last & n & E & Rt & Rv & Rc).
    destruct (label_chars l L) as (c0 & s0 & El & _ & _ & Nat_).
    destruct (rep_put T ss l v rem Rt Nat_ ST) as (ss' & key' & E1 & _ & E3 & E4).
    cbn [render1]. rewrite parse_app, E. cbn [bind]. rewrite parse_app.
    assert (Eq : parse (mkpst n IN_LABEL [] last ss sv rem, l) (lit "=") = Ok (mkpst n IN_VALUE_TEXT [] l ss sv rem, [])).
    { subst l. cbn [lit list_ascii_of_string parse_chars]. unfold parse_char. change (findTypeOf "=") with EQUALSIGN. cbn [p_state].
      unfold saveBuffer. cbn [p_state p_line p_num p_last p_ss p_sv p_rem]. rewrite label_accepted. reflexivity. }
    rewrite Eq. cbn [bind]. rewrite parse_app, parse_blanks by auto. cbn [bind]. rewrite parse_app.
    destruct Vo as [(c & s & -> & Nc) Vo].
    assert (Ev : parse (mkpst n IN_VALUE_TEXT [] l ss sv rem, []) (c :: s) = Ok (mkpst n IN_VALUE_TEXT [] l ss sv rem, c :: s)).
    { cbn [parse_chars]. replace (pchar (mkpst n IN_VALUE_TEXT [] l ss sv rem, []) c) with (Ok (mkpst n IN_VALUE_TEXT [] l ss sv rem, [c])).
      - cbn [bind]. rewrite parse_value; auto; [discriminate|]. intros x Hx. apply Vo. right; auto.
      - unfold parse_char. cbn [p_state]. destruct (type_token c) as [[-> _]|[-> _]]; auto. apply Vo. left; auto. }
    rewrite Ev. cbn [bind]. set (rem' := rem ++ _) in E1.
    assert (Sv : forall n, save (mkpst n IN_VALUE_TEXT [] l ss sv rem) (c :: s) false = Ok (mkpst n IN_LABEL [] l ss' sv rem')).
    { intros n'. unfold saveBuffer. cbn [p_state p_line p_num p_last p_ss p_sv p_rem]. rewrite E1, E3. cbn [bind]. rewrite text_accepted. reflexivity. }
    assert (Fin : forall n', PInv (T ++ [(l, c :: s)]) (V ++ pent pend) None (mkpst n' IN_LABEL [] l ss' sv rem')).
    { intros n'. constructor; cbn; auto. unfold rem'. apply rem_put. auto. }
    destruct remark as [r|].
    - destruct Rm as [Na Nr]. rewrite parse_app.
      destruct (parse_end after n IN_VALUE_TEXT [] l ss sv rem (c :: s) IN_LABEL [] l ss' sv rem') as [n' Ee]; auto; try discriminate;
        [split; auto; intros; left; apply Ba; auto|].
      rewrite Ee. cbn [bind]. change (lit "#") with ["#"%char]. cbn [app]. cbn [parse_chars].
      unfold parse_char at 1. change (findTypeOf "#") with COMMENT. cbn [p_state bind]. rewrite parse_app. unfold set_state. cbn [p_line p_num p_last p_ss p_sv p_rem].
      rewrite parse_comment by auto. cbn [bind parse_chars]. unfold parse_char. change (findTypeOf newline) with ENDOFLINE. cbn [p_state bind]. eexists. split; [reflexivity|apply Fin].
    - cbn [app].
      destruct (parse_end (after ++ [newline]) n IN_VALUE_TEXT [] l ss sv rem (c :: s) IN_LABEL [] l ss' sv rem') as [n' Ee]; auto; try discriminate.
      { split; [destruct after; discriminate|]. intros x Hx. apply in_app_iff in Hx. destruct Hx as [Hx|[<-|[]]]; auto. }
      rewrite Ee. eexists. split; [reflexivity|apply Fin].
  Qed.

  Lemma parse_number nb : forall n st num last ss sv rem, number_ok nb -> (st = IN_VALUE_NUMERIC \/ st = IN_VALUE_OR_LABEL) ->
    parse (mkpst n st num last ss sv rem, []) nb = Ok (mkpst n IN_VALUE_NUMERIC num last ss sv rem, nb).
  Proof.
    intros n st num last ss sv rem [(c & s & -> & Nc) H] St. cbn [parse_chars].
    replace (pchar (mkpst n st num last ss sv rem, []) c) with (Ok (mkpst n IN_VALUE_NUMERIC num last ss sv rem, [c])).
    - cbn [bind]. rewrite parse_token; auto. intros x Hx. apply H. right; auto.
    - unfold parse_char. cbn [p_state]. rewrite type_numeric by auto. destruct St as [-> | ->]; reflexivity.
  Qed.
  Lemma number_ne nb : number_ok nb -> nb <> [].
  Proof. intros [(c & s & -> & _) _]. discriminate. Qed.
  (** The numbers after one that is not yet saved *)
  Lemma parse_numbers ns : forall n num last ss sv rem buf, buf <> [] -> (forall q, In q ns -> gap (fst q) /\ number_ok (snd q)) ->
    exists n' num' buf', parse (mkpst n IN_VALUE_NUMERIC num last ss sv rem, buf) (flat_map (fun p => fst p ++ snd p) ns) =
      Ok (mkpst n' IN_VALUE_NUMERIC num' last ss sv rem, buf') /\ buf' <> [] /\ num' ++ [buf'] = num ++ buf :: map snd ns.
  Proof.
    induction ns as [|[g nb] ns IH]; intros n num last ss sv rem buf B H.
    - exists n, num, buf. cbn. auto.
    - destruct (H (g, nb) (or_introl eq_refl)) as [G Nb]. cbn [fst snd] in G, Nb. cbn [flat_map fst snd map]. rewrite <- app_assoc, parse_app.
      destruct (parse_end g n IN_VALUE_NUMERIC num last ss sv rem buf IN_VALUE_OR_LABEL (num ++ [buf]) last ss sv rem) as [n' E]; auto; try discriminate.
      rewrite E. cbn [bind]. rewrite parse_app, parse_number by auto. cbn [bind].
      destruct (IH n' (num ++ [buf]) last ss sv rem nb) as (n2 & num' & buf' & E2 & B' & C); [apply number_ne; auto|intros; apply H; right; auto|].
      exists n2, num', buf'. split; auto. split; auto. rewrite C, <- app_assoc. auto.
  Qed.
  Lemma step_vec T V pend p l ns after : PInv T V pend p -> small V -> item_ok (IVec l ns after) -> vec_ok l (map snd ns) ->
    exists p', parse (p, []) (render1 (IVec l ns after)) = Ok (p', []) /\ PInv T (V ++ pent pend) (Some (l, map snd ns)) p'.
  Proof.
    intros I Sm (L & Ln & Hn & Ba) K. destruct (parse_label T V pend p l I Sm L) as (ss & sv & rem & last & n & E & Rt & Rv & Rc).
    destruct (label_chars l L) as (c0 & s0 & El & _ & _ & Nat_).
    cbn [render1]. rewrite parse_app, E. cbn [bind].
    destruct ns as [|[g nb] ns]; [simpl in Ln; lia|]. destruct (Hn (g, nb) (or_introl eq_refl)) as [G Nb]. cbn [fst snd] in G, Nb.
    cbn [flat_map fst snd]. rewrite <- !app_assoc, parse_app.
    destruct (parse_end g n IN_LABEL [] last ss sv rem l IN_VALUE_NUMERIC [] l ss sv rem) as [n1 E1]; auto; try discriminate; [subst l; discriminate| |].
    { intros n'. unfold saveBuffer. cbn [p_state p_line p_num p_last p_ss p_sv p_rem]. rewrite label_accepted. reflexivity. }
    rewrite E1. cbn [bind]. rewrite parse_app, parse_number by auto. cbn [bind]. rewrite parse_app.
    destruct (parse_numbers ns n1 [] l ss sv rem nb) as (n2 & num' & buf' & E2 & B' & C); [apply number_ne; auto|intros; apply Hn; right; auto|].
    rewrite E2. cbn [bind].
    destruct (parse_end (after ++ [newline]) n2 IN_VALUE_NUMERIC num' l ss sv rem buf' IN_VALUE_OR_LABEL (num' ++ [buf']) l ss sv rem) as [n3 E3]; auto; try discriminate.
    { split; [destruct after; discriminate|]. intros x Hx. apply in_app_iff in Hx. destruct Hx as [Hx|[<-|[]]]; auto. }
    rewrite E3. eexists. split; [reflexivity|]. rewrite C. cbn [app]. constructor; cbn; auto.
    split; auto. split; auto. split; auto. split; auto. split; auto. rewrite map_length. simpl in Ln. lia.
  Qed.
  Lemma step_blank T V pend p s : PInv T V pend p -> blanks s ->
    exists p', parse (p, []) (render1 (IBlank s)) = Ok (p', []) /\ PInv T V pend p'.
  Proof.
    intros [A B C D] H. cbn [render1]. rewrite parse_app, parse_blanks by auto. cbn [bind]. destruct p as [n st num last ss sv rem]. cbn in D.
    rewrite parse_newline; [|destruct pend as [[? ?]|]; destruct D as [-> _]; discriminate].
    eexists. split; [reflexivity|]. constructor; auto.
  Qed.
  Lemma step_comment T V p before s : PInv T V None p -> blanks before -> ~ In newline s ->
    exists p', parse (p, []) (render1 (IComment before s)) = Ok (p', []) /\ PInv T V None p'.
  Proof.
    intros [A B C (D1 & D2)] Hb H. cbn [render1]. rewrite parse_app, parse_blanks by auto. cbn [bind]. destruct p as [n st num last ss sv rem]. cbn in *. subst.
    cbn [bind set_state p_line p_num p_last p_ss p_sv p_rem]. rewrite parse_app, parse_comment by auto. cbn. eexists. split; [reflexivity|]. constructor; auto.
  Qed.

  Definition items_ok (f : list item) : Prop :=
    (forall x, In x f -> item_ok x /\ plain_item x) /\ forall l ns after, In (IVec l ns after) f -> vec_ok l (map snd ns).
  Lemma parse_items f : forall T V pend p, PInv T V pend p -> items_ok f ->
    comments_ok (match pend with None => false | Some _ => true end) f ->
    small (T ++ flat_map texts1 f) -> small (V ++ pent pend ++ flat_map vecs1 f) ->
    exists p' V' pend', parse (p, []) (render f) = Ok (p', []) /\ PInv (T ++ flat_map texts1 f) V' pend' p' /\
      V' ++ pent pend' = V ++ pent pend ++ flat_map vecs1 f.
  Proof.
    induction f as [|x f IH]; intros T V pend p I [K1 K2] C S1 S2.
    - exists p, V, pend. cbn [render flat_map parse_chars]. rewrite !app_nil_r. auto.
    - assert (K' : items_ok f) by (split; [intros; apply K1; right; auto|intros; eapply K2; right; eauto]).
      destruct (K1 x (or_introl eq_refl)) as [Ix Px].
      assert (St : small T) by (unfold small in *; rewrite app_length in S1; lia).
      assert (Sv : small V) by (unfold small in *; rewrite app_length in S2; lia).
      change (render (x :: f)) with (render1 x ++ render f). rewrite parse_app.
      destruct x as [l before v after remark|l ns after|a b vs|before s|s]; cbn [flat_map texts1 vecs1] in *.
      + destruct (step_text T V pend p l before v after remark I Sv St Ix) as (p1 & E1 & I1). rewrite E1. cbn [bind].
        destruct (IH _ _ _ _ I1 K') as (p' & V' & pend' & E2 & I2 & EV); auto;
          [rewrite <- app_assoc; auto|rewrite <- app_assoc; auto|].
        exists p', V', pend'. split; auto. rewrite <- app_assoc in I2. split; auto. rewrite EV. cbn [pent app]. rewrite <- app_assoc. auto.
      + destruct (step_vec T V pend p l ns after I Sv Ix) as (p1 & E1 & I1); [eapply K2; left; eauto|]. rewrite E1. cbn [bind].
        destruct (IH _ _ _ _ I1 K') as (p' & V' & pend' & E2 & I2 & EV); auto;
          [rewrite <- app_assoc; auto|]. 
        exists p', V', pend'. split; auto. split; auto. rewrite EV. cbn [pent app]. rewrite <- app_assoc. auto.
      + destruct Px.
      + destruct C as [Cp C]. destruct pend; [discriminate|]. destruct Ix as [Ib Is].
        destruct (step_comment T V p before s I Ib Is) as (p1 & E1 & I1). rewrite E1. cbn [bind].
        exact (IH _ _ _ _ I1 K' C S1 S2).
      + destruct (step_blank T V pend p s I Ix) as (p1 & E1 & I1). rewrite E1. cbn [bind].
        exact (IH _ _ _ _ I1 K' C S1 S2).
  Qed.

  Lemma init_inv : PInv [] [] None p_init.
  Proof. constructor; cbn; auto using @rep_nil. Qed.
  Lemma parse_file f (k : nat) : items_ok f -> comments_ok false f -> small (flat_map texts1 f) -> small (flat_map vecs1 f) ->
    exists p, parseInternal chk_label chk_text chk_vec (render f ++ repeat newline k) = Ok p /\ Rep (flat_map texts1 f) (p_ss p) /\ Rep (flat_map vecs1 f) (p_sv p) /\
      forall l, count_occ sdec (p_rem p) l = removals (flat_map texts1 f) (flat_map vecs1 f) l.
  Proof.
    intros K C S1 S2. destruct (parse_items f [] [] None p_init init_inv K C S1 S2) as (p & V' & pend' & E & I & EV). cbn [pent app] in EV.
    assert (N : p_state p <> IN_COMMENT).
    { destruct I as [_ _ _ D]. destruct pend' as [[? ?]|]; destruct D as [-> _]; discriminate. }
    unfold parseInternal. rewrite parse_app, E. cbn [bind]. destruct p as [n st num last ss sv rem].
    destruct (parse_gap (repeat newline k) n st num last ss sv rem N) as [n' G]; [intros c Hc; apply repeat_spec in Hc; auto|].
    rewrite G. cbn [bind p_num].
    assert (I' : PInv (flat_map texts1 f) V' pend' (mkpst n' st num last ss sv rem)) by (destruct I; constructor; auto).
    destruct pend' as [[l0 ns]|].
    - destruct (flush _ _ _ _ _ I') as (sv' & rem' & F & Rv & Rc).
      { unfold small in *. rewrite <- EV in S2. rewrite app_length in S2. lia. }
      rewrite F. cbn [pent] in EV. rewrite EV in Rv, Rc. destruct I as [A _ _ (_ & D2 & _ & _ & D3 & _)]. cbn in D2. subst num.
      destruct ns; [simpl in D3; lia|]. eexists. split; [reflexivity|]. cbn. auto.
    - cbn [pent] in EV. rewrite app_nil_r in EV. subst V'. destruct I as [A B D (_ & D2)]. cbn in D2. subst num.
      eexists. split; [reflexivity|]. cbn. auto.
  Qed.
End Parse.
