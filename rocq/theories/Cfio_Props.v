(** Theorems about continued fractions in files (C121). *)
From Coq Require Import Ascii String.
From Verif Require Import Prelude Str_Model Str_Spec Str_Proofs Text_Model Text_Spec Text_Proofs Ng_Proofs Simple_Model Simple_Spec Simple_Proofs Simple_Props Cfio_Model Cfio_Spec.
Import List.
Local Open Scope Z_scope.

Lemma nl_cons : nl = [ascii_of_nat 10]. Proof. reflexivity. Qed.
Lemma nl_space : is_space (ascii_of_nat 10). Proof. apply isspace_In. reflexivity. Qed.
Lemma lit_word (w : str) : w <> [] -> forallb (fun c => negb (isspace c)) w = true -> token w.
Proof.
  intros N H. split; [exact N|]. intros c Hc S. apply isspace_In in S. rewrite forallb_forall in H. specialize (H c Hc). rewrite S in H. discriminate H.
Qed.
Ltac litword := apply lit_word; [discriminate|vm_compute; reflexivity].
Lemma first_word ws w rest : spaces ws -> token w -> reads (ws ++ w ++ nl ++ rest) ([] ++ [w]) (nl ++ rest).
Proof. intros S [N W]. rewrite nl_cons. cbn [app]. apply reads_cons; auto using nl_space. constructor. Qed.
Lemma starts_self s t : starts s (s ++ t). Proof. exists t. reflexivity. Qed.

Lemma reads_lines l : forall rest, Forall token l -> l <> [] -> reads (lines l ++ rest) l (nl ++ rest).
Proof.
  induction l as [|w l IH]; intros rest F N; [contradiction|]. inversion F as [|? ? [N1 W1] F']; subst. unfold lines. cbn [flat_map]. rewrite <- !app_assoc. fold (lines l).
  rewrite nl_cons. cbn [app]. apply (reads_cons []); [constructor|auto|auto|apply nl_space|].
  destruct l as [|w2 l]; [constructor|]. change (ascii_of_nat 10 :: lines (w2 :: l) ++ rest) with (nl ++ lines (w2 :: l) ++ rest).
  apply reads_gap; [apply spaces_nl|]. apply IH; [exact F'|discriminate].
Qed.

  Lemma print_nat_nohash n : ~ starts (lit "#") (print_nat n).
  Proof.
    intros (t & E). unfold print_nat, print_Z in E. replace (Z.of_nat n <? 0) with false in E by (symmetry; apply Z.ltb_ge; lia).
    destruct (digits_of_ok (Z.of_nat n) ltac:(lia)) as (_ & D & _). cbv zeta in D. assert (H : is_digit "#"%char) by (apply D; rewrite E; left; reflexivity).
    revert H. unfold is_digit. vm_compute. intros H. repeat (destruct H as [H|H]; try discriminate H); try contradiction; intuition lia.
  Qed.
Section Io.
  Variables (K W : Type) (prK : K -> str) (prW : W -> str).
  Variable rdK : istream -> K -> K * istream.
  Variable rdW : istream -> W -> W * istream.
  Variables (junk zero : K) (w0 : W).
  Variable isZero : W -> bool.
  Variable eigen : list K -> list K -> res (list K * list K).
  Variables (domK : K -> Prop) (domW : W -> Prop).
  Hypothesis HK : reads_back domK prK (lift_rd rdK).
  Hypothesis HW : reads_back domW prW (lift_rd rdW).
  Hypothesis WK : forall x, domK x -> token (prK x).
  Hypothesis WW : forall x, domW x -> token (prW x).

  Lemma rb_fst {X} (dom : X -> Prop) pr (rd : istream -> X -> X * istream) v old : reads_back dom pr (lift_rd rd) -> dom v -> fst (rd (mkis (pr v) false) old) = v.
  Proof.
    intros H D. destruct (H v old [] [] D ltac:(constructor) (or_introl eq_refl)) as (ws' & _ & E). cbn [app] in E. rewrite app_nil_r in E.
    unfold lift_rd in E. apply Ok_inj in E. rewrite E. reflexivity.
  Qed.
  Lemma rl {X} (rd : istream -> X -> X * istream) file ws lab t v x rest : spaces ws -> token (lab ++ t) -> (forall old, fst (rd (mkis t false) old) = v) ->
    readline rd (mkfin file (ws ++ lab ++ t ++ nl ++ rest) false false) x lab 0 = Ok (v, 0, mkfin file (nl ++ rest) false false).
  Proof.
    intros S A V. rewrite (app_assoc lab t).
    destruct (C47_readline_partial X rd lab file _ _ _ 0 0 t v x (first_word ws (lab ++ t) rest S A) (occurs_here _ _ _ (starts_self lab t)) eq_refl V) as (pre & b' & _ & R & E).
    cbn [skipn app] in R. inversion R; subst. exact E.
  Qed.
  Lemma rv file ws lab (v : list K) rest : spaces ws -> token lab -> Forall domK v -> Z.of_nat (List.length v) < 2147483648 ->
    exists ws', spaces ws' /\ read_vector zero junk (lift_rd rdK) 0 (mkfin file (ws ++ lab ++ nl ++ vec_write prK v ++ nl ++ rest) false false) [] lab 0 =
      Ok (v, (lab, 0), mkfin file (ws' ++ nl ++ rest) false false).
  Proof.
    intros S A D L. pose proof (first_word ws lab (vec_write prK v ++ nl ++ rest) S A) as R. cbn [app] in R. assert (O : occurs lab [lab] 0 0) by (apply occurs_here; exists []; rewrite app_nil_r; reflexivity).
    destruct v as [|y v].
    - destruct (C47_advance_partial lab file (ws ++ lab ++ nl ++ vec_write prK [] ++ nl ++ rest) [lab]) as [Ad _].
      destruct (Ad _ 0%nat 0%nat lab R O eq_refl) as (pre & b' & _ & Rb & E). cbn [skipn] in Rb. inversion Rb; subst. clear Rb.
      change (Z.of_nat 0) with 0 in E. unfold read_vector. rewrite E. cbn [bind].
      destruct (get_by_ok (fun x => -2147483648 <= x < 2147483648) print_Z (lift_rd rd_int) file 0 0 nl (nl ++ nl ++ rest) rb_int) as (w2 & Hw2 & E2); auto using ends_nl, spaces_nl; [lia|discriminate|].
      unfold good in E2. change (vec_write prK [] ++ nl ++ rest) with (print_Z 0 ++ nl ++ nl ++ rest). change (nl ++ print_Z 0 ++ nl ++ nl ++ rest) with (nl ++ print_Z 0 ++ nl ++ nl ++ rest) in *.
      match goal with |- context [bind ?x _] => replace x with (Ok (0, mkfin file (w2 ++ nl ++ nl ++ rest) false false)) by (symmetry; exact E2) end. cbn [bind].
      exists (w2 ++ nl). split; [apply spaces_app; auto using spaces_nl|]. rewrite <- app_assoc. reflexivity.
    - destruct (C47_vector_partial K zero junk domK prK (lift_rd rdK) lab file _ [] lab 0 (y :: v) [] 0 nl (nl ++ rest) HK R O) as (ws' & S' & E); auto using spaces_nl; [discriminate|].
      exists ws'. auto.
  Qed.

  Lemma cf_write_app out cf : cf_write K W prK prW out cf = out ++ cf_write K W prK prW [] cf.
  Proof. unfold cf_write, write_other, write_scalar. cbv zeta. cbn [app]. rewrite <- !app_assoc. reflexivity. Qed.

  Lemma eq_word lab t : token lab -> token t -> token (lab ++ t).
  Proof. intros [N A] [M B]. split; [destruct lab; [contradiction|discriminate]|]. intros c Hc. apply in_app_iff in Hc. destruct Hc; auto. Qed.
  Lemma printZ_word n : token (print_Z n).
  Proof.
    split; [|intros c; apply print_Z_no_space]. unfold print_Z. destruct (n <? 0)%Z eqn:E; [discriminate|]. apply Z.ltb_ge in E. destruct (digits_of_ok n E) as (N & _). exact N.
  Qed.

  Lemma cf_roundtrip file ws cf rest : spaces ws -> storable K W domK domW cf ->
    exists ws', spaces ws' /\
      cf_read K W rdK rdW junk zero w0 isZero eigen (mkfin file (ws ++ cf_write K W prK prW [] cf ++ rest) false false) =
      do cf' <- cf_diagonalize K W isZero eigen cf ;; Ok (cf', mkfin file (ws' ++ nl ++ rest) false false).
  Proof.
    intros S (Da & Db & De & Di & Dw & DE & Ds & L). unfold cf_write, write_other, write_scalar. cbv zeta. cbn [app]. rewrite <- !app_assoc.
    destruct cf as [mats a b w E sg eigs ints]. cbn [s_matsubara s_a s_b s_weight s_Eg s_isign s_eigs s_intensity] in *. unfold cf_read.
    match goal with |- context [vec_write prK a ++ nl ++ ?r] => destruct (rv file ws (lit "#Avector") a r S ltac:(litword) Da ltac:(apply L; cbn; auto)) as (w1 & S1 & E1) end.
    rewrite E1. clear E1. cbn [bind].
    rewrite (app_assoc w1 nl).
    match goal with |- context [vec_write prK b ++ nl ++ ?r] => destruct (rv file (w1 ++ nl) (lit "#Bvector") b r ltac:(apply spaces_app; auto using spaces_nl) ltac:(litword) Db ltac:(apply L; cbn; auto)) as (w2 & S2 & E2) end.
    rewrite E2. clear E2. cbn [bind]. rewrite (app_assoc w2 nl).
    set (fr := if mats then lit "Matsubara" else lit "Real").
    assert (Fw : token fr) by (unfold fr; destruct mats; litword).
    rewrite (rl rd_str file (w2 ++ nl) (lit "#FreqEnum=") fr fr); [| |apply eq_word; [litword|exact Fw]|].
    2: apply spaces_app; auto using spaces_nl. 2: { intros old. apply (rb_fst _ (fun w => w) rd_str fr old rb_str Fw). }
    cbn [bind].
    assert (S3 : spaces (nl ++ lit " " ++ nl)). { repeat apply spaces_app; auto using spaces_nl. constructor; [apply isspace_In; reflexivity|constructor]. }
    rewrite (app_assoc (lit " ") nl), (app_assoc nl (lit " " ++ nl)).
    match goal with |- context [readline rdW (mkfin file (?g ++ lit "#CFWeight" ++ lit "=" ++ prW w ++ nl ++ ?r) false false)] =>
      change (g ++ lit "#CFWeight" ++ lit "=" ++ prW w ++ nl ++ r) with (g ++ lit "#CFWeight=" ++ prW w ++ nl ++ r); rewrite (rl rdW file g (lit "#CFWeight=") (prW w) w); [|exact S3|apply eq_word; [litword|auto]|intros old; apply (rb_fst domW); auto] end.
    cbn [bind].
    match goal with |- context [readline rdK (mkfin file (?g ++ lit "#CFEnergy" ++ lit "=" ++ prK E ++ nl ++ ?r) false false)] =>
      change (g ++ lit "#CFEnergy" ++ lit "=" ++ prK E ++ nl ++ r) with (g ++ lit "#CFEnergy=" ++ prK E ++ nl ++ r); rewrite (rl rdK file g (lit "#CFEnergy=") (prK E) E); [|apply spaces_nl|apply eq_word; [litword|auto]|intros old; apply (rb_fst domK); auto] end.
    cbn [bind].
    match goal with |- context [readline rd_int (mkfin file (?g ++ lit "#CFIsign" ++ lit "=" ++ print_Z sg ++ nl ++ ?r) false false)] =>
      change (g ++ lit "#CFIsign" ++ lit "=" ++ print_Z sg ++ nl ++ r) with (g ++ lit "#CFIsign=" ++ print_Z sg ++ nl ++ r); rewrite (rl rd_int file g (lit "#CFIsign=") (print_Z sg) sg); [|apply spaces_nl|apply eq_word; [litword|apply printZ_word]|intros old; apply (rb_fst _ _ _ _ _ rb_int); exact Ds] end.
    cbn [bind].
    match goal with |- context [vec_write prK eigs ++ nl ++ ?r] => destruct (rv file nl (lit "#CFEigs") eigs r spaces_nl ltac:(litword) De ltac:(apply L; cbn; auto)) as (w4 & S4 & E4) end.
    rewrite E4. clear E4. cbn [bind]. rewrite (app_assoc w4 nl).
    match goal with |- context [vec_write prK ints ++ nl ++ ?r] => destruct (rv file (w4 ++ nl) (lit "#CFIntensities") ints r ltac:(apply spaces_app; auto using spaces_nl) ltac:(litword) Di ltac:(apply L; cbn; auto)) as (w5 & S5 & E5) end.
    rewrite E5. clear E5. cbn [bind].
    assert (M : str_eqb fr (lit "Matsubara") = mats) by (unfold fr; destruct mats; reflexivity). rewrite M.
    exists w5. split; [exact S5|]. reflexivity.
  Qed.

  Hypothesis NK : forall x, domK x -> ~ starts (lit "#") (prK x).

  Lemma lines_app l1 l2 : lines (l1 ++ l2) = lines l1 ++ lines l2.
  Proof. unfold lines. apply flat_map_app. Qed.
  Lemma vec_lines lab v : lines (vec_words K prK lab v) = lab ++ nl ++ vec_write prK v.
  Proof. unfold lines, vec_words, vec_write. cbn [flat_map]. rewrite <- !app_assoc. do 4 f_equal. induction v as [|x v IH]; [reflexivity|]. cbn [map flat_map]. rewrite IH. reflexivity. Qed.
  Lemma hash s w : starts ("#"%char :: s) w -> starts (lit "#") w.
  Proof. intros (t & ->). exists (s ++ t). reflexivity. Qed.
  Lemma vec_tokens lab v : token lab -> Forall domK v -> Forall token (vec_words K prK lab v).
  Proof.
    intros T D. unfold vec_words. constructor; [exact T|]. constructor; [apply printZ_word|]. apply Forall_forall. intros w Hw. apply in_map_iff in Hw. destruct Hw as (x & <- & Hx).
    apply WK. rewrite Forall_forall in D. auto.
  Qed.
  Lemma vec_none s lab v : ~ starts ("#"%char :: s) lab -> Forall domK v -> forall w, In w (vec_words K prK lab v) -> ~ starts ("#"%char :: s) w.
  Proof.
    intros T D w [<-|[<-|Hw]]; [exact T|intros H; exact (print_nat_nohash _ (hash _ _ H))|]. apply in_map_iff in Hw. destruct Hw as (x & <- & Hx).
    intros H. apply (NK x); [rewrite Forall_forall in D; auto|exact (hash _ _ H)].
  Qed.
  Lemma number0 s l : (forall w, In w l -> ~ starts s w) -> number s l 0.
  Proof. induction l as [|w l IH]; intros H; [constructor|]. apply number_no; [apply H; left; auto|apply IH]. intros w' Hw. apply H. right; auto. Qed.
  Lemma no_start s (lab t : str) n : (n <= List.length lab)%nat -> (n <= List.length s)%nat -> firstn n s <> firstn n lab -> ~ starts s (lab ++ t).
  Proof.
    intros L L2 N (u & E). apply N. transitivity (firstn n (s ++ u)); [|rewrite <- E]; rewrite firstn_app.
    - replace (n - List.length s)%nat with 0%nat by lia. cbn [firstn]. rewrite app_nil_r. reflexivity.
    - replace (n - List.length lab)%nat with 0%nat by lia. cbn [firstn]. rewrite app_nil_r. reflexivity.
  Qed.

  Lemma vec_text_eq lab v : vec_text K prK lab v = lab ++ nl ++ vec_write prK v ++ nl.
  Proof. unfold vec_text. rewrite vec_lines, <- !app_assoc. reflexivity. Qed.
  Lemma reads_next b l r g l2 r2 : reads b l (g ++ r) -> spaces g -> l2 <> [] -> reads r l2 r2 -> reads b (l ++ l2) r2.
  Proof. intros R S N R2. eapply reads_trans; [exact R|]. destruct l2 as [|w l2]; [contradiction|]. apply reads_gap; auto. Qed.
  Lemma reads_vec lab v rest : token lab -> Forall domK v -> reads (vec_text K prK lab v ++ rest) (vec_words K prK lab v) (nl ++ nl ++ rest).
  Proof. intros T D. unfold vec_text. rewrite <- app_assoc. apply reads_lines; [apply vec_tokens; auto|discriminate]. Qed.

  Lemma old_roundtrip cf : storable K W domK domW cf -> s_matsubara _ _ cf = false -> exists f,
    cf_read K W rdK rdW junk zero w0 isZero eigen (f_open (old_text K W prK prW cf)) = do cf' <- cf_diagonalize K W isZero eigen cf ;; Ok (cf', f).
  Proof.
    intros (Da & Db & De & Di & Dw & DE & Ds & L) Hm.
    destruct cf as [mats a b w E sg eigs ints]. cbn [s_matsubara s_a s_b s_weight s_Eg s_isign s_eigs s_intensity] in *. subst mats.
    set (file := old_text K W prK prW _).
    set (T3 := [lit "#CFWeight=" ++ prW w; lit "#CFEnergy=" ++ prK E; lit "#CFIsign=" ++ print_Z sg]).
    set (R := lines T3 ++ vec_text K prK (lit "#CFEigs") eigs ++ vec_text K prK (lit "#CFIntensities") ints).
    assert (Ef : file = vec_text K prK (lit "#Avector") a ++ vec_text K prK (lit "#Bvector") b ++ R) by reflexivity.
    assert (Ef2 : file = [] ++ lit "#Avector" ++ nl ++ vec_write prK a ++ nl ++ lit "#Bvector" ++ nl ++ vec_write prK b ++ nl ++ R).
    { rewrite Ef, !vec_text_eq. rewrite <- !app_assoc. reflexivity. }
    assert (S2 : spaces (nl ++ nl)) by (apply spaces_app; apply spaces_nl).
    assert (FT : Forall token T3). { repeat constructor; try (apply eq_word; [litword|auto using printZ_word]). }
    unfold cf_read, f_open. replace (mkfin file file false false) with (mkfin file ([] ++ lit "#Avector" ++ nl ++ vec_write prK a ++ nl ++ lit "#Bvector" ++ nl ++ vec_write prK b ++ nl ++ R) false false) by (f_equal; symmetry; exact Ef2).
    match goal with |- context [vec_write prK a ++ nl ++ ?r] => destruct (rv file [] (lit "#Avector") a r ltac:(constructor) ltac:(litword) Da ltac:(apply L; cbn; auto)) as (w1 & S1 & E1) end.
    rewrite E1. clear E1. cbn [bind].
    rewrite (app_assoc w1 nl).
    match goal with |- context [vec_write prK b ++ nl ++ ?r] => destruct (rv file (w1 ++ nl) (lit "#Bvector") b r ltac:(apply spaces_app; auto using spaces_nl) ltac:(litword) Db ltac:(apply L; cbn; auto)) as (w2 & S2' & E2) end.
    rewrite E2. clear E2. cbn [bind].
    assert (RR : reads R (T3 ++ vec_words K prK (lit "#CFEigs") eigs ++ vec_words K prK (lit "#CFIntensities") ints) (nl ++ nl)).
    { unfold R. eapply (reads_next _ T3 _ nl); [apply reads_lines; [exact FT|discriminate]|apply spaces_nl|discriminate|].
      eapply (reads_next _ _ _ (nl ++ nl)); [rewrite <- app_assoc; apply reads_vec; [litword|exact De]|exact S2|discriminate|].
      pose proof (reads_vec (lit "#CFIntensities") ints [] ltac:(litword) Di) as Q. rewrite !app_nil_r in Q. exact Q. }
    assert (Miss : readline rd_str (mkfin file (w2 ++ nl ++ R) false false) [] (lit "#FreqEnum=") 0 = Throw).
    { apply (C47_missing_partial str rd_str (lit "#FreqEnum=") file (w2 ++ nl ++ R) (T3 ++ vec_words K prK (lit "#CFEigs") eigs ++ vec_words K prK (lit "#CFIntensities") ints) 0 0); [| |lia].
      - exists (nl ++ nl). split; [|exact S2]. rewrite app_assoc. unfold T3 in *. apply reads_gap; [apply spaces_app; auto using spaces_nl|]. exact RR.
      - apply number0. intros x Hx. apply in_app_iff in Hx. destruct Hx as [Hx|Hx].
        + destruct Hx as [<-|[<-|[<-|[]]]]; (eapply (no_start _ _ _ 3); [cbn; lia|cbn; lia|discriminate]).
        + apply in_app_iff in Hx. destruct Hx as [Hx|Hx]; revert x Hx; apply vec_none; auto; rewrite <- (app_nil_r (lit _)); (eapply (no_start _ _ _ 3); [cbn; lia|cbn; lia|discriminate]). }
    rewrite Miss. clear Miss. cbn [bind]. unfold rewind. cbn [f_file].
    set (T1 := vec_words K prK (lit "#Avector") a ++ vec_words K prK (lit "#Bvector") b).
    set (R1 := lines (tl T3) ++ vec_text K prK (lit "#CFEigs") eigs ++ vec_text K prK (lit "#CFIntensities") ints).
    assert (RF : reads file (T1 ++ [lit "#CFWeight=" ++ prW w]) (nl ++ R1)).
    { rewrite Ef. unfold T1. rewrite <- app_assoc. eapply (reads_next _ _ _ (nl ++ nl)); [rewrite <- app_assoc; apply reads_vec; [litword|exact Da]|exact S2|discriminate|].
      eapply (reads_next _ _ _ (nl ++ nl)); [rewrite <- app_assoc; apply reads_vec; [litword|exact Db]|exact S2|discriminate|].
      unfold R. assert (EL : lines T3 = lines [lit "#CFWeight=" ++ prW w] ++ lines (tl T3)) by (unfold lines, T3; cbn [flat_map tl]; rewrite <- !app_assoc; reflexivity). rewrite EL, <- app_assoc. apply reads_lines; [|discriminate]. constructor; [|constructor].
      apply eq_word; [litword|auto]. }
    assert (N1 : number (lit "#CFWeight=") T1 0).
    { apply number0. unfold T1. intros x Hx. apply in_app_iff in Hx. destruct Hx as [Hx|Hx]; revert x Hx; apply vec_none; auto; rewrite <- (app_nil_r (lit _)); (eapply (no_start _ _ _ 3); [cbn; lia|cbn; lia|discriminate]). }
    destruct (C47_readline_partial W rdW (lit "#CFWeight=") file file _ _ 0 (List.length T1) (prW w) w w0 RF) as (pre & b' & _ & Rb & Ew).
    { apply number_occurs; [exact N1|apply starts_self]. } { rewrite nth_error_app2, Nat.sub_diag by lia. reflexivity. } { intros old. apply (rb_fst domW); auto. }
    rewrite skipn_all2 in Rb by (rewrite app_length; cbn; lia). assert (Eb : b' = nl ++ R1) by (inversion Rb; reflexivity). subst b'. clear Rb. change (Z.of_nat 0) with 0 in Ew. rewrite Ew. clear Ew. cbn [bind].
    assert (ER : nl ++ R1 = nl ++ lit "#CFEnergy=" ++ prK E ++ nl ++ lit "#CFIsign=" ++ print_Z sg ++ nl ++ lit "#CFEigs" ++ nl ++ vec_write prK eigs ++ nl ++ lit "#CFIntensities" ++ nl ++ vec_write prK ints ++ nl ++ []).
    { unfold R1. rewrite !vec_text_eq. unfold T3, lines. cbn [tl flat_map]. rewrite <- !app_assoc. cbn [app]. rewrite ?app_nil_r. reflexivity. }
    rewrite ER.
    rewrite (rl rdK file nl (lit "#CFEnergy=") (prK E) E); [|apply spaces_nl|apply eq_word; [litword|auto]|intros old; apply (rb_fst domK); auto]. cbn [bind].
    rewrite (rl rd_int file nl (lit "#CFIsign=") (print_Z sg) sg); [|apply spaces_nl|apply eq_word; [litword|apply printZ_word]|intros old; apply (rb_fst _ _ _ _ _ rb_int); exact Ds]. cbn [bind].
    match goal with |- context [vec_write prK eigs ++ nl ++ ?r] => destruct (rv file nl (lit "#CFEigs") eigs r spaces_nl ltac:(litword) De ltac:(apply L; cbn; auto)) as (w4 & S4 & E4) end.
    rewrite E4. clear E4. cbn [bind]. rewrite (app_assoc w4 nl).
    match goal with |- context [vec_write prK ints ++ nl ++ ?r] => destruct (rv file (w4 ++ nl) (lit "#CFIntensities") ints r ltac:(apply spaces_app; auto using spaces_nl) ltac:(litword) Di ltac:(apply L; cbn; auto)) as (w5 & S5 & E5) end.
    rewrite E5. clear E5. cbn [bind]. eexists. reflexivity.
  Qed.
End Io.

Lemma consistent_diag K W isZero eigen cf : consistent K W isZero eigen cf -> cf_diagonalize K W isZero eigen cf = Ok cf.
Proof. intros C. unfold cf_diagonalize. destruct (isZero (s_weight K W cf)) eqn:E; [reflexivity|]. rewrite (C E). cbn [bind]. destruct cf; reflexivity. Qed.

(** A continued fraction that was written is read back, from any place of any file, and the place after it is next. *)
Theorem C121_fraction : forall K W prK prW rdK rdW junk zero w0 isZero eigen domK domW file ws cf rest,
  exact_text K W prK prW rdK rdW domK domW -> spaces ws -> storable K W domK domW cf -> consistent K W isZero eigen cf ->
  exists ws', spaces ws' /\
    cf_read K W rdK rdW junk zero w0 isZero eigen (mkfin file (cf_write K W prK prW ws cf ++ rest) false false) = Ok (cf, mkfin file (ws' ++ rest) false false).
Proof.
  intros K W prK prW rdK rdW junk zero w0 isZero eigen domK domW file ws cf rest (HK & HW & TK & TW) S St C.
  destruct (cf_roundtrip K W prK prW rdK rdW junk zero w0 isZero eigen domK domW HK HW (fun x H => proj1 (TK x H)) (fun x H => proj1 (TW x H)) file ws cf rest S St) as (ws' & S' & E).
  exists (ws' ++ nl). split; [apply spaces_app; auto using spaces_nl|]. rewrite cf_write_app, <- !app_assoc. rewrite E, (consistent_diag _ _ _ _ _ C). reflexivity.
Qed.
Print Assumptions C121_fraction.

(** A collection that was written after other text is read back, if it is not empty and the level is the number of collections
    before it; its kind of frequency is that of its last fraction. *)
Theorem C121_collection : forall K W prK prW rdK rdW junk zero w0 isZero eigen domK domW out ow k l last,
  exact_text K W prK prW rdK rdW domK domW -> words out ow -> number (lit "#CONTINUEDFRACTIONCOLLECTION=") ow k ->
  (forall cf, In cf (l ++ [last]) -> storable K W domK domW cf /\ consistent K W isZero eigen cf) -> Z.of_nat (List.length (l ++ [last])) < 2147483648 ->
  exists f, cfc_read K W rdK rdW junk zero w0 isZero eigen (f_open (cfc_write K W prK prW out (l ++ [last]))) (Z.of_nat k) =
    Ok (l ++ [last], s_matsubara K W last, f).
Proof.
  intros K W prK prW rdK rdW junk zero w0 isZero eigen domK domW out ow k l last X Wo Nu HC HL.
  set (all := l ++ [last]) in *. unfold cfc_write, write_scalar. cbv zeta.
  assert (FA : forall l out, fold_left (fun out cf => cf_write K W prK prW out cf) l out = out ++ flat_map (cf_write K W prK prW []) l).
  { clear. induction l as [|cf l IH]; intros out; cbn [fold_left flat_map]; [rewrite app_nil_r; reflexivity|]. rewrite IH, cf_write_app, <- app_assoc. reflexivity. }
  rewrite FA, <- !app_assoc. set (lab := lit "#CONTINUEDFRACTIONCOLLECTION="). set (T := flat_map (cf_write K W prK prW []) all).
  set (file := out ++ lit "#CONTINUEDFRACTIONCOLLECTION" ++ lit "=" ++ print_nat (List.length all) ++ nl ++ T).
  assert (Rd : reads file (ow ++ [lab ++ print_nat (List.length all)]) (nl ++ T)).
  { change file with (out ++ lab ++ print_nat (List.length all) ++ nl ++ T). rewrite (app_assoc lab). apply (reads_word out ow (lab ++ print_nat (List.length all)) (ascii_of_nat 10) T Wo).
    - discriminate.
    - apply (eq_word lab (print_nat (List.length all))); [unfold lab; litword|apply printZ_word].
    - apply nl_space. }
  unfold cfc_read, f_open.
  destruct (C47_readline_partial Z rd_int lab file file _ _ k (List.length ow) (print_nat (List.length all)) (Z.of_nat (List.length all)) 0 Rd) as (pre & b' & _ & Rb & Ew).
  { apply number_occurs; [exact Nu|apply starts_self]. } { rewrite nth_error_app2, Nat.sub_diag by lia. reflexivity. } { intros old. apply (rb_fst _ print_Z _ _ _ rb_int). lia. }
  rewrite skipn_all2 in Rb by (rewrite app_length; cbn; lia). assert (Eb : b' = nl ++ T) by (inversion Rb; reflexivity). subst b'. clear Rb. unfold lab in Ew. rewrite Ew. clear Ew. cbn [bind].
  assert (Pos : (0 < List.length all)%nat) by (unfold all; rewrite app_length; cbn; lia).
  destruct (Z.leb_spec (Z.of_nat (List.length all)) 0) as [Q|_]; [lia|]. rewrite Nat2Z.id.
  assert (G : forall l2 l1 fr i ws, spaces ws -> (forall cf, In cf l2 -> storable K W domK domW cf /\ consistent K W isZero eigen cf) ->
    exists f, forM (List.length l2) i (fun _ '(data, freq, f) => do (cf, f) <- cf_read K W rdK rdW junk zero w0 isZero eigen f ;; Ok (data ++ [cf], s_matsubara K W cf, f))
      (l1, fr, mkfin file (ws ++ flat_map (cf_write K W prK prW []) l2) false false) = Ok (l1 ++ l2, List.last (map (s_matsubara K W) l2) fr, f)).
  { induction l2 as [|cf l2 IH]; intros l1 fr i ws S H; [cbn [forM List.length map List.last]; eexists; rewrite (app_nil_r l1); reflexivity|]. cbn [List.length forM flat_map].
    destruct (H cf (or_introl eq_refl)) as [St C]. rewrite app_assoc, <- cf_write_app.
    destruct (C121_fraction K W prK prW rdK rdW junk zero w0 isZero eigen domK domW file ws cf (flat_map (cf_write K W prK prW []) l2) X S St C) as (ws' & S' & E).
    rewrite E. cbn [bind]. destruct (IH (l1 ++ [cf]) (s_matsubara K W cf) (Datatypes.S i) ws' S') as (f & E2); [intros c Hc; apply H; right; exact Hc|].
    exists f. rewrite E2, <- app_assoc. cbn [app]. do 3 f_equal. cbn [map]. destruct (map (s_matsubara K W) l2) as [|m ms] eqn:EM; [reflexivity|].
    clear. revert m. induction ms as [|x ms IH]; intros m; [reflexivity|]. exact (IH x). }
  destruct (G all [] false 0%nat nl spaces_nl HC) as (f & E). exists f. unfold T. rewrite E. cbn [app]. do 3 f_equal. unfold all. rewrite map_app. cbn [map]. apply last_last.
Qed.
Print Assumptions C121_collection.

(** The claim that every collection is read back is false: one without fractions is refused. *)
Theorem C121_empty_refuted : forall K W prK prW rdK rdW junk zero w0 isZero eigen,
  cfc_read K W rdK rdW junk zero w0 isZero eigen (f_open (cfc_write K W prK prW [] [])) 0 = Throw.
Proof. intros. vm_compute. reflexivity. Qed.
Print Assumptions C121_empty_refuted.

(** A file with one fraction, of the time before there was a kind of frequency, is read as one of real frequencies. *)
Theorem C121_old : forall K W prK prW rdK rdW junk zero w0 isZero eigen domK domW cf,
  exact_text K W prK prW rdK rdW domK domW -> storable K W domK domW cf -> consistent K W isZero eigen cf -> s_matsubara K W cf = false ->
  exists f, cf_read K W rdK rdW junk zero w0 isZero eigen (f_open (old_text K W prK prW cf)) = Ok (cf, f).
Proof.
  intros K W prK prW rdK rdW junk zero w0 isZero eigen domK domW cf (HK & HW & TK & TW) St C M.
  destruct (old_roundtrip K W prK prW rdK rdW junk zero w0 isZero eigen domK domW HK HW (fun x H => proj1 (TK x H)) (fun x H => proj1 (TW x H)) (fun x H => proj2 (TK x H)) cf St M) as (f & E).
  exists f. rewrite E, (consistent_diag _ _ _ _ _ C). reflexivity.
Qed.
Print Assumptions C121_old.

Definition ex_cf (x : Z) : cfs Z Z := mkcfs Z Z false [x] [0] (x + 1) (x + 2) 1 [x] [x].
Definition ex_eigen (a b : list Z) : res (list Z * list Z) := Ok (a, a).
Definition ex_collection : str := lit "#CONTINUEDFRACTIONCOLLECTION=3" ++ nl ++ flat_map (old_text Z Z print_Z print_Z) [ex_cf 10; ex_cf 20; ex_cf 30].
(** The claim that old files with more fractions are read is false: looking for the kind of frequency, the reader goes back to the
    beginning of the file, so the second fraction gets the weight, the energy and the sign of the first, and a third one
    the matrix of the second. *)
Theorem C121_old_refuted :
  (do (l, _, _) <- cfc_read Z Z rd_int rd_int 0 0 0 (Z.eqb 0) ex_eigen (f_open ex_collection) 0 ;; Ok (map (fun cf => (s_a _ _ cf, s_weight _ _ cf, s_Eg _ _ cf)) l)) =
  Ok [([10], 11, 12); ([20], 11, 12); ([20], 11, 12)].
Proof. vm_compute. reflexivity. Qed.
Print Assumptions C121_old_refuted.

(** Integers meet the hypotheses, and so do the fractions above. *)
Example C121_nonvacuous : let dom x := -2147483648 <= x < 2147483648 in
  exact_text Z Z print_Z print_Z rd_int rd_int dom dom /\ storable Z Z dom dom (ex_cf 10) /\ consistent Z Z (Z.eqb 0) ex_eigen (ex_cf 10) /\
  (do (l, fr, _) <- cfc_read Z Z rd_int rd_int 0 0 0 (Z.eqb 0) ex_eigen (f_open (cfc_write Z Z print_Z print_Z [] [ex_cf 10; ex_cf 20])) 0 ;; Ok (l, fr)) = Ok ([ex_cf 10; ex_cf 20], false).
Proof.
  cbv zeta. split; [|split; [|split]].
  - assert (T : forall x, token (print_Z x) /\ ~ starts (lit "#") (print_Z x)).
    { intros x. split; [apply printZ_word|]. intros (t & E). unfold print_Z in E. destruct (Z.ltb_spec x 0) as [H|H]; [discriminate E|].
      apply (print_nat_nohash (Z.to_nat x)). exists t. unfold print_nat, print_Z. rewrite Z2Nat.id by lia. destruct (Z.ltb_spec x 0) as [H1|H1]; [lia|]. exact E. }
    repeat split; try apply rb_int; try (apply T); intros x H; apply T.
  - unfold storable, ex_cf. cbn [s_a s_b s_eigs s_intensity s_weight s_Eg s_isign]. repeat split; try lia; repeat constructor; try lia.
    intros l [<-|[<-|[<-|[<-|[]]]]]; reflexivity.
  - intros _. reflexivity.
  - vm_compute. reflexivity.
Qed.
