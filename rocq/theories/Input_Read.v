From Coq Require Import Ascii String.
From Verif Require Import Prelude Ring Str_Model Str_Spec Str_Proofs Text_Model Text_Proofs Ng_Proofs Dense_Model Dense_Spec Dense_Proofs Input_Model Input_Spec Input_Proofs Input_Parse.
Import List.

(** * Lines that stand for several labels *)
Fixpoint chg (buf data : str) : res str :=
  match data with
  | [] => replaceLine false buf
  | c :: d => if Ascii.eqb c nlc then do s <- replaceLine false buf ;; do r <- chg [] d ;; Ok (s ++ r) else chg (buf ++ [c]) d
  end.
Lemma split_acc data : forall buf vl, split_lines data buf vl = vl ++ split_lines data buf [].
Proof.
  induction data as [|c d IH]; intros buf vl; cbn [split_lines]; auto.
  destruct (Ascii.eqb c nlc); [|apply IH]. rewrite IH, (IH _ ([] ++ [buf])). rewrite <- app_assoc. auto.
Qed.
Lemma chg_ok data : changeDataIfNeeded false data = chg [] data.
Proof.
  unfold changeDataIfNeeded, splitIntoLines. change 0%nat with (@List.length str []).
  change (split_lines data [] []) with ([] ++ split_lines data [] []) at 2.
  rewrite (forM_vget (split_lines data [] []) (fun x d => do s <- replaceLine false x ;; Ok (d ++ s))).
  assert (G : forall data buf pre, forL (split_lines data buf []) (fun x d => do s <- replaceLine false x ;; Ok (d ++ s)) pre =
    do r <- chg buf data ;; Ok (pre ++ r)); [|rewrite G; destruct (chg [] data); auto].
  clear data. induction data as [|c d IH]; intros buf pre; cbn [split_lines chg].
  - cbn [app forL]. destruct (replaceLine false buf); auto.
  - destruct (Ascii.eqb c nlc); [|apply IH]. rewrite split_acc. cbn [app forL]. destruct (replaceLine false buf); cbn [bind]; auto.
    rewrite IH. destruct (chg [] d); cbn [bind]; auto. rewrite app_assoc. auto.
Qed.

Fixpoint nobang (start : bool) (t : str) : Prop :=
  match t with
  | [] => True
  | c :: t' => (start = true -> c <> "!"%char) /\ nobang (Ascii.eqb c nlc) t'
  end.
Lemma nobang_weak st t : nobang true t -> nobang st t.
Proof. destruct t; cbn; auto. intros [A B]. split; auto. Qed.
Lemma nobang_app st a b : nobang st a -> nobang true b -> nobang st (a ++ b).
Proof.
  revert st. induction a as [|c a IH]; intros st A B; cbn [app]; [apply nobang_weak; auto|].
  destruct A as [A1 A2]. split; auto.
Qed.
Lemma nobang_none st t : (forall c, In c t -> c <> "!"%char) -> nobang st t.
Proof. revert st. induction t as [|c t IH]; intros st H; cbn; auto. split; [intros _; apply H; left; auto|apply IH; intros; apply H; right; auto]. Qed.
Lemma nobang_line t : ~ In newline t -> nobang false t.
Proof.
  induction t as [|c t IH]; intros H; cbn [nobang]; auto. split; [discriminate|].
  rewrite (proj2 (Ascii.eqb_neq c nlc)); [apply IH; intros X; apply H; right; auto|]. intros ->. apply H. left; auto.
Qed.
Lemma nobang_tok c t : c <> "!"%char -> ~ In newline (c :: t) -> nobang true (c :: t).
Proof.
  intros A B. split; auto. rewrite (proj2 (Ascii.eqb_neq c nlc)); [apply nobang_line; intros X; apply B; right; auto|]. intros ->. apply B. left; auto.
Qed.

Lemma replace_plain buf : (match buf with [] => True | c :: _ => c <> "!"%char end) -> replaceLine false buf = Ok (buf ++ [nlc]).
Proof. destruct buf as [|c b]; auto. intros H. cbn [replaceLine]. rewrite (proj2 (Ascii.eqb_neq c "!")) by auto. auto. Qed.
Lemma chg_plain t rest : forall buf, (match buf with [] => nobang true t | c :: _ => c <> "!"%char /\ nobang false t end) ->
  chg buf (t ++ newline :: rest) = do r <- chg [] rest ;; Ok (buf ++ t ++ newline :: r).
Proof.
  induction t as [|c t IH]; intros buf H; cbn [app chg].
  - change (Ascii.eqb newline nlc) with true. cbn iota. rewrite replace_plain by (destruct buf; auto; apply H). cbn [bind].
    destruct (chg [] rest); cbn [bind]; auto. rewrite <- app_assoc. auto.
  - destruct (Ascii.eqb c nlc) eqn:E.
    + assert (Hb : replaceLine false buf = Ok (buf ++ [nlc])) by (apply replace_plain; destruct buf; auto; apply H).
      rewrite Hb. cbn [bind]. rewrite IH.
      * apply Ascii.eqb_eq in E. subst c. destruct (chg [] rest); cbn [bind]; auto. f_equal. cbn [app]. rewrite <- app_assoc. auto.
      * destruct buf; [destruct H as [_ H]|destruct H as [_ [_ H]]]; rewrite E in H; auto.
    + rewrite IH.
      * destruct (chg [] rest); cbn [bind]; auto. f_equal. rewrite <- app_assoc. auto.
      * destruct buf as [|b0 b]; cbn [app].
        -- destruct H as [A B]. rewrite E in B. auto.
        -- destruct H as [A [_ B]]. rewrite E in B. auto.
Qed.

(** The lines that replace one *)
Fixpoint expand_many (a b : str) (i : nat) (vs : list str) : list item :=
  match vs with
  | [] => []
  | v :: vs' => IText (a ++ print_nat i ++ b) [] v [] None :: expand_many a b (S i) vs'
  end.
Definition expand1 (x : item) : list item := match x with IMany a b vs => expand_many a b 0 vs | _ => [x] end.
Definition expand (f : list item) : list item := flat_map expand1 f.

Lemma spec_nl c : ~ special c -> c <> newline.
Proof. intros H ->. apply H. right; left; auto. Qed.
Lemma label_nobang l : label_ok l -> nobang true l.
Proof.
  intros [(c & s & -> & _ & B) H]. apply nobang_tok; auto. intros X. apply H in X. destruct X as [X _]. apply (spec_nl _ X). auto.
Qed.
Lemma numeric_nobang n : number_ok n -> nobang true n.
Proof.
  intros [(c & s & -> & N) H]. apply nobang_tok.
  - intros ->. cbn in N. repeat (destruct N as [N|N]; [discriminate|]). auto.
  - intros X. apply H in X. destruct X as [X _]. apply (spec_nl _ X). auto.
Qed.
Lemma gap_nobang g st : (forall c, In c g -> blank c \/ c = newline) -> nobang st g.
Proof. intros H. apply nobang_none. intros c Hc. destruct (H c Hc) as [[-> | ->]| ->]; discriminate. Qed.
Lemma blanks_nobang g st : blanks g -> nobang st g.
Proof. intros H. apply gap_nobang. auto. Qed.

Lemma many_tokens v vs : value_ok v -> (forall x, In x vs -> value_ok x) -> runs (fun c => In c (lit " ")) (v ++ spaced vs) (v :: vs).
Proof.
  assert (Sp : forall x, value_ok x -> x <> [] /\ forall c, In c x -> ~ In c (lit " ")).
  { intros x [(c & s & -> & _) H]. split; [discriminate|]. intros c' Hc [X|[]]. apply (H _ Hc). left. left. auto. }
  intros Hv. revert v Hv. induction vs as [|w vs IH]; intros v Hv H; destruct (Sp v Hv) as [A B]; constructor; auto.
  - constructor.
  - cbn [spaced]. right. exists " "%char, (w ++ spaced vs). split; auto. left; auto.
  - cbn [spaced]. apply runs_delim; [left; auto|]. apply IH; [apply H; left; auto|intros; apply H; right; auto].
Qed.
Lemma many_render a b vs : forall pre s,
  forM (List.length vs) (List.length pre) (fun i newline =>
    do t <- vget (pre ++ vs) i ;;
    Ok (newline ++ a ++ print_nat i ++ b ++ lit "=" ++ t ++ [] ++ [nlc])) s = Ok (s ++ render (expand_many a b (List.length pre) vs)).
Proof.
  induction vs as [|v vs IH]; intros pre s; cbn [List.length forM expand_many].
  - unfold render. cbn. rewrite app_nil_r. auto.
  - rewrite (vget_ok (pre ++ v :: vs) v) by (rewrite app_length; simpl; lia). rewrite app_nth2, Nat.sub_diag by lia. cbn [nth bind].
    specialize (IH (pre ++ [v])). rewrite app_length, Nat.add_1_r in IH. rewrite <- app_assoc in IH. cbn [List.length app] in IH. rewrite IH. f_equal.
    unfold render. cbn [flat_map render1 app]. rewrite !app_assoc. auto.
Qed.
Lemma replace_many a b vs : item_ok (IMany a b vs) ->
  replaceLine false (lit "!" ++ a ++ lit "$i" ++ b ++ spaced vs) = Ok (render (expand_many a b 0 vs)).
Proof.
  intros (Nv & La & Da & Na & Hv). destruct vs as [|v vs]; [contradiction|].
  change (lit "!" ++ a ++ lit "$i" ++ b ++ spaced (v :: vs)) with ("!"%char :: a ++ "$"%char :: "i"%char :: b ++ " "%char :: v ++ spaced vs).
  cbn [replaceLine]. change (negb (Ascii.eqb "!" "!")) with false. cbn iota.
  rewrite until_app; [|intros x Hx; apply Ascii.eqb_neq; intros ->; auto|reflexivity]. cbn [tl]. change (negb (Ascii.eqb "i" "i")) with false. cbn iota.
  rewrite until_app; [|intros x Hx|reflexivity].
  - cbn [tl].
    destruct (v ++ spaced vs) as [|r0 rs] eqn:Er.
    { destruct (Hv v (or_introl eq_refl)) as [(c & s & -> & _) _]. discriminate. }
    rewrite <- Er. destruct (split_spec (S (List.length (v ++ spaced vs))) [] (v ++ spaced vs) (lit " ")) as (ts & E & R); [lia|].
    rewrite E. cbn [bind app].
    rewrite (runs_unique _ _ _ _ R (many_tokens v vs (Hv _ (or_introl eq_refl)) (fun x H => Hv x (or_intror H)))).
    apply (many_render a b (v :: vs) [] []).
  - assert (Sx : ~ special x).
    { destruct (La 0%nat) as [_ H]. apply (H x). apply in_or_app; right; apply in_or_app; right; auto. }
    apply orb_false_iff. split; apply Ascii.eqb_neq; intros ->; apply Sx; left; [left|right]; auto.
Qed.

Lemma chg_line t rest : forall buf, ~ In newline t ->
  chg buf (t ++ newline :: rest) = do s <- replaceLine false (buf ++ t) ;; do r <- chg [] rest ;; Ok (s ++ r).
Proof.
  induction t as [|c t IH]; intros buf H; cbn [app chg].
  - change (Ascii.eqb newline nlc) with true. rewrite app_nil_r. auto.
  - rewrite (proj2 (Ascii.eqb_neq c nlc)); [|intros ->; apply H; left; auto]. rewrite IH, <- app_assoc; auto. intros X. apply H. right; auto.
Qed.

Lemma chg_item x rest : item_ok x -> chg [] (render1 x ++ rest) = do r <- chg [] rest ;; Ok (render (expand1 x) ++ r).
Proof.
  intros I. assert (Pl : forall t, nobang true t -> chg [] ((t ++ [newline]) ++ rest) = do r <- chg [] rest ;; Ok (t ++ [newline] ++ r)).
  { intros t H. rewrite <- app_assoc. apply (chg_plain t rest []). auto. }
  assert (One : render [x] = render1 x) by (unfold render; cbn; apply app_nil_r).
  destruct x as [l before v after remark|l ns after|a b vs|before s|s]; cbn [expand1]; try rewrite One; cbn [render1].
  - destruct I as (L & Bb & [_ Vo] & Ba & Rm). rewrite !app_assoc. rewrite <- (app_assoc _ [newline] rest), (app_assoc _ [newline] rest), Pl.
    + destruct (chg [] rest); cbn [bind]; auto. rewrite <- !app_assoc. auto.
    + rewrite <- !app_assoc. destruct L as [(c1 & s1 & -> & _ & Nb) H]. cbn [app nobang]. split; auto.
      assert (N1 : c1 <> nlc) by (apply spec_nl; apply H; left; auto). rewrite (proj2 (Ascii.eqb_neq c1 nlc)) by auto.
      apply nobang_line. rewrite !in_app_iff. intros [X|[X|[X|[X|[X|X]]]]].
      * destruct (H newline (or_intror X)) as [Y _]. apply (spec_nl _ Y); auto.
      * destruct X as [X|[]]; discriminate.
      * destruct (Bb _ X); discriminate.
      * apply (spec_nl _ (Vo _ X)). auto.
      * destruct (Ba _ X); discriminate.
      * destruct remark as [r|]; [|destruct X]. destruct Rm as [_ Rm]. destruct X as [X|X]; [discriminate|auto].
  - destruct I as (L & _ & Hn & Ba). rewrite !app_assoc. rewrite <- (app_assoc _ [newline] rest), (app_assoc _ [newline] rest), Pl.
    + destruct (chg [] rest); cbn [bind]; auto. rewrite <- !app_assoc. auto.
    + rewrite <- !app_assoc. apply nobang_app; [apply label_nobang; auto|]. apply nobang_app; [|apply blanks_nobang; auto].
      clear Pl One. induction ns as [|[g n] ns IH]; cbn [flat_map fst snd]; [exact Logic.I|]. apply nobang_app.
      * destruct (Hn (g, n) (or_introl eq_refl)) as [[_ G] N]. apply nobang_app; [apply gap_nobang; auto|apply numeric_nobang; auto].
      * apply IH. intros. apply Hn. right; auto.
  - pose proof (replace_many a b vs I) as Rp.
    replace ((lit "!" ++ a ++ lit "$i" ++ b ++ spaced vs ++ [newline]) ++ rest) with ((lit "!" ++ a ++ lit "$i" ++ b ++ spaced vs) ++ newline :: rest)
      by (rewrite <- !app_assoc; auto).
    rewrite chg_line.
    + cbn [app] in *. rewrite Rp. auto.
    + destruct I as (_ & La & _ & _ & Hv). destruct (La 0%nat) as [_ L].
      rewrite !in_app_iff. intros [X|[X|[X|[X|X]]]].
      * destruct X as [X|[]]; discriminate.
      * apply (spec_nl newline); auto. apply L. apply in_or_app; auto.
      * destruct X as [X|[X|[]]]; discriminate.
      * apply (spec_nl newline); auto. apply L. apply in_or_app; right; apply in_or_app; auto.
      * clear - X Hv. induction vs as [|v vs IH]; [destruct X|]. cbn [spaced] in X. destruct X as [X|X]; [discriminate|]. apply in_app_iff in X.
        destruct X as [X|X]; [|apply IH; auto; intros; apply Hv; right; auto].
        destruct (Hv v (or_introl eq_refl)) as [_ H]. apply (spec_nl _ (H _ X)). auto.
  - destruct I as [Bb Ns]. rewrite !app_assoc. rewrite <- (app_assoc _ [newline] rest), (app_assoc _ [newline] rest), Pl.
    + destruct (chg [] rest); cbn [bind]; auto. rewrite <- !app_assoc. auto.
    + rewrite <- app_assoc. apply nobang_app; [apply blanks_nobang; auto|]. apply nobang_tok; [discriminate|]. intros [X|X]; [discriminate|auto].
  - rewrite Pl by (apply blanks_nobang; auto). destruct (chg [] rest); cbn [bind]; auto. rewrite <- !app_assoc. auto.
Qed.
Lemma chg_file f : forall rest, (forall x, In x f -> item_ok x) -> chg [] (render f ++ rest) = do r <- chg [] rest ;; Ok (render (expand f) ++ r).
Proof.
  induction f as [|x f IH]; intros rest H; cbn [app].
  - cbn. destruct (chg [] rest); auto.
  - change (render (x :: f)) with (render1 x ++ render f). rewrite <- app_assoc, chg_item by (apply H; left; auto).
    rewrite IH by (intros; apply H; right; auto). destruct (chg [] rest); cbn [bind]; auto. f_equal.
    unfold render, expand. cbn [flat_map]. rewrite flat_map_app, app_assoc. auto.
Qed.
Lemma expand_texts f : flat_map texts1 (expand f) = flat_map texts1 f.
Proof.
  unfold expand. induction f as [|x f IH]; cbn [flat_map]; auto. rewrite flat_map_app, IH. f_equal.
  destruct x as [| |a b vs| |]; try apply app_nil_r. cbn [expand1 texts1]. generalize 0%nat.
  induction vs as [|v vs IHv]; intros i; cbn [expand_many flat_map many texts1 app]; auto. rewrite IHv. auto.
Qed.
Lemma expand_vecs f : flat_map vecs1 (expand f) = flat_map vecs1 f.
Proof.
  unfold expand. induction f as [|x f IH]; cbn [flat_map]; auto. rewrite flat_map_app, IH. f_equal.
  destruct x as [| |a b vs| |]; try apply app_nil_r. cbn [expand1 vecs1]. generalize 0%nat.
  induction vs as [|v vs IHv]; intros i; cbn [expand_many flat_map vecs1 app]; auto.
Qed.
Lemma many_in a b vs : forall i x, In x (expand_many a b i vs) -> exists j v, x = IText (a ++ print_nat j ++ b) [] v [] None /\ In v vs.
Proof.
  induction vs as [|v vs IH]; intros i x H; [destruct H|]. destruct H as [<-|H]; [exists i, v; split; auto; left; auto|].
  destruct (IH _ _ H) as (j & w & E & Hw). exists j, w. split; auto. right; auto.
Qed.
Lemma expand_ok f : (forall x, In x f -> item_ok x) -> forall x, In x (expand f) -> item_ok x /\ plain_item x.
Proof.
  intros H x Hx. unfold expand in Hx. apply in_flat_map in Hx. destruct Hx as (y & Hy & Hx). pose proof (H y Hy) as I.
  destruct y as [| |a b vs| |]; try (destruct Hx as [<-|[]]; split; [auto|exact Logic.I]).
  destruct (many_in _ _ _ _ _ Hx) as (j & v & -> & Hv). destruct I as (_ & L & _ & _ & V).
  split; [|exact Logic.I]. split; auto. split; [intros c []|]. split; auto. split; [intros c []|exact Logic.I].
Qed.
Lemma expand_comments f : forall b, comments_ok b f -> (forall x, In x f -> item_ok x) -> comments_ok b (expand f).
Proof.
  unfold expand. induction f as [|x f IH]; intros b0 H I; auto. cbn [flat_map].
  assert (I' : forall x, In x f -> item_ok x) by (intros; apply I; right; auto).
  destruct x as [| |a b vs|bf s|s]; cbn [comments_ok] in H; cbn [expand1 app comments_ok]; auto.
  - destruct vs as [|v vs]; [destruct (I _ (or_introl eq_refl)) as [X _]; contradiction|]. cbn [expand_many app comments_ok].
    generalize 1%nat. induction vs as [|w vs IHv]; intros i; cbn [expand_many app comments_ok]; auto.
    apply IHv. intros x [<-|Hx]; [|apply I; right; auto]. destruct (I _ (or_introl eq_refl)) as (_ & A & B & C & D).
    split; [discriminate|]. split; auto. split; auto. split; auto. intros u [<-|Hu]; [apply D; left; auto|apply D; right; right; auto].
  - destruct H as [H1 H2]. split; auto.
Qed.
Lemma expand_vec l ns after f : In (IVec l ns after) (expand f) -> In (IVec l ns after) f.
Proof.
  unfold expand. intros H. apply in_flat_map in H. destruct H as (y & Hy & Hx).
  destruct y as [| |a b vs| |]; try (destruct Hx as [<-|[]]; auto; fail). destruct (many_in _ _ _ _ _ Hx) as (j & v & E & _). discriminate.
Qed.

(** * Parsing a file *)
Definition checks_accept (chk_label : str -> nat -> res unit) (chk_text : str -> str -> nat -> res unit) : Prop :=
  (forall l n, chk_label l n = Ok tt) /\ forall l v n, chk_text l v n = Ok tt.
Lemma readFile_app s c : forall d x, readFile_loop (s ++ [c]) x d = d ++ s ++ [c; c].
Proof.
  induction s as [|y s IH]; intros d x; cbn [app readFile_loop]; [rewrite <- app_assoc; auto|].
  rewrite IH, <- app_assoc. auto.
Qed.
Lemma render_last f : f <> [] -> exists s, render f = s ++ [newline].
Proof.
  intros H. destruct (exists_last H) as (f' & x & ->). unfold render. rewrite flat_map_app. cbn [flat_map]. rewrite app_nil_r.
  assert (X : exists s, render1 x = s ++ [newline]).
  { destruct x; cbn [render1]; rewrite ?app_assoc; eexists; reflexivity. }
  destruct X as [s ->]. rewrite app_assoc. eexists. reflexivity.
Qed.
Lemma entries_size f : (forall x, In x f -> item_ok x) ->
  (List.length (flat_map texts1 f) <= List.length (render f) /\ List.length (flat_map vecs1 f) <= List.length (render f))%nat.
Proof.
  induction f as [|x f IH]; intros H; [cbn; lia|]. destruct IH as [I1 I2]; [intros; apply H; right; auto|].
  unfold render in *. cbn [flat_map]. rewrite !app_length.
  assert (X : (List.length (texts1 x) <= List.length (render1 x) /\ List.length (vecs1 x) <= List.length (render1 x))%nat); [|lia].
  destruct x as [l before v after remark|l ns after|a b vs|before s|s]; cbn [texts1 vecs1 render1 List.length]; rewrite ?app_length; cbn [List.length]; try lia.
  split; [|lia]. assert (G : forall i, List.length (many a b i vs) = List.length vs) by (clear; induction vs as [|? ? IHvs]; intros; cbn [many List.length]; auto).
  rewrite G. assert (G2 : (List.length vs <= List.length (spaced vs))%nat); [|lia].
  clear. induction vs as [|v vs IH]; cbn [spaced List.length]; auto. rewrite app_length. lia.
Qed.

Section Check.
  Variable chk_label : str -> nat -> res unit.
  Variable chk_text : str -> str -> nat -> res unit.
  Variable chk_vec : str -> list str -> nat -> res bool.
  (** The first number of a vector is a number; unless the checks accept the vector, it is the count of the rest. *)
  Definition vec_fine (l : str) (ns : list str) : Prop :=
    (exists k, hd [] ns = print_nat k) /\ forall n, exists b, chk_vec l ns n = Ok b /\ (b = true \/ counted ns).
  Definition file_ok (f : list item) : Prop :=
    (forall x, In x f -> item_ok x) /\ comments_ok false f /\
    (forall l ns after, In (IVec l ns after) f -> vec_fine l (map snd ns)) /\
    (Z.of_nat (List.length (render f)) < 2147483648)%Z /\
    ~ exists s, render f = lit "##" ++ s.

  Lemma file_items f : file_ok f -> items_ok chk_vec (expand f) /\ comments_ok false (expand f) /\
    small (flat_map texts1 (expand f)) /\ small (flat_map vecs1 (expand f)).
  Proof.
    intros (A & B & C & D & _). split; [split|].
    - apply expand_ok; auto.
    - intros l ns after H. apply expand_vec in H. specialize (C _ _ _ H).
      destruct C as [[k K] C]. destruct (C 0%nat) as (b0 & _ & _). exists k. split; auto. intros n. destruct (C n) as (b & Cb & E). exists b. split; auto.
      destruct E as [E|(k' & rest & E1 & E2)]; auto. right. rewrite E1 in K |- *. cbn [hd List.length] in *.
      pose proof (print_nat_atoi k) as Q. rewrite <- K, E2, print_nat_atoi in Q. apply Ok_inj in Q. lia.
    - split; [apply expand_comments; auto|]. rewrite expand_texts, expand_vecs. destruct (entries_size f A). unfold small. lia.
  Qed.
  Lemma not_ainur f rest : (~ exists s, render f = lit "##" ++ s) -> f <> [] -> (forall x, In x f -> item_ok x) -> isAinurText (render f ++ rest) = false.
  Proof.
    intros H N I. destruct (render_last f N) as [s E]. destruct (render f) as [|c1 [|c2 r]] eqn:Er.
    - destruct s; discriminate.
    - assert (c1 = newline) as -> by (destruct s as [|? [|? ?]]; try discriminate; inversion E; auto). destruct rest as [|? [|? ?]]; reflexivity.
    - cbn [app isAinurText]. destruct (r ++ rest); auto. destruct (Ascii.eqb_spec c1 "#"); auto. destruct (Ascii.eqb_spec c2 "#"); auto.
      exfalso. apply H. exists r. subst. reflexivity.
  Qed.
  Lemma data_parsed f k : checks_accept chk_label chk_text -> file_ok f -> f <> [] ->
    exists p, writeable_data chk_label chk_text chk_vec (render f ++ repeat newline k) = Ok p /\
      Rep (flat_map texts1 f) (p_ss p) /\ Rep (flat_map vecs1 f) (p_sv p) /\
      forall l, count_occ sdec (p_rem p) l = removals (flat_map texts1 f) (flat_map vecs1 f) l.
  Proof.
    intros [A1 A2] F N. destruct (file_items f F) as (I & C & S1 & S2). destruct F as (F1 & F2 & F3 & F4 & F5).
    unfold writeable_data. rewrite not_ainur by auto. rewrite chg_ok, chg_file by auto.
    assert (G : chg [] (repeat newline k) = Ok (repeat newline (S k))).
    { induction k as [|k IH]; [reflexivity|]. cbn [repeat chg]. change (Ascii.eqb newline nlc) with true. cbn iota.
      change (replaceLine false []) with (@Ok str [newline]). cbn [bind]. rewrite IH. reflexivity. }
    rewrite G. cbn [bind]. destruct (parse_file chk_label chk_text chk_vec A1 A2 (expand f) (S k) I C S1 S2) as (p & E & P).
    rewrite expand_texts, expand_vecs in P. eauto.
  Qed.
  Lemma file_parsed f : checks_accept chk_label chk_text -> file_ok f -> f <> [] ->
    exists p, writeable_file chk_label chk_text chk_vec (Some (render f)) = Ok p /\
      Rep (flat_map texts1 f) (p_ss p) /\ Rep (flat_map vecs1 f) (p_sv p) /\
      forall l, count_occ sdec (p_rem p) l = removals (flat_map texts1 f) (flat_map vecs1 f) l.
  Proof.
    intros A F N. destruct (data_parsed f 1 A F N) as (p & E & P). exists p. split; auto.
    unfold writeable_file, readFile. destruct (render_last f N) as [s Er]. rewrite Er in E |- *. rewrite readFile_app. cbn [bind app].
    rewrite <- app_assoc in E. exact E.
  Qed.
End Check.

(** * Reading *)
Lemma find_part {V} (m : list (str * V)) l :
  match part l m with
  | [] => findFirstValueForLabel l m = None
  | e :: t => exists i, findFirstValueForLabel l m = Some i /\ vget m i = Ok e /\
      forall l', part l' (erase_at m i) = if str_eqb l' l then t else part l' m
  end.
Proof.
  unfold findFirstValueForLabel. induction m as [|a m IH]; cbn [part filter find_idx]; auto. fold (part l m).
  destruct (str_eqb l (findRootLabel (fst a))) eqn:E.
  - exists 0%nat. split; auto. split; [reflexivity|]. intros l'. unfold erase_at. cbn [firstn skipn app]. apply str_eqb_eq in E.
    destruct (str_eqb l' l) eqn:E2; [apply str_eqb_eq in E2; subst l'; auto|]. rewrite <- E, E2. auto.
  - destruct (part l m) as [|e t]; [rewrite IH; auto|]. destruct IH as (i & A & B & C). rewrite A. exists (S i). split; auto. split; auto.
    intros l'. specialize (C l'). unfold erase_at in *. cbn [firstn app part filter]. fold (part l' (firstn i m ++ skipn (S (S i)) (a :: m))).
    change (skipn (S (S i)) (a :: m)) with (skipn (S i) m). rewrite C. destruct (str_eqb l' l) eqn:E2.
    + apply str_eqb_eq in E2. subst l'. rewrite E. auto.
    + fold (part l' m). auto.
Qed.
Lemma find_rem rem l : match find_idx (str_eqb l) rem with
  | None => count_occ sdec rem l = 0%nat
  | Some i => forall l', count_occ sdec rem l' = (count_occ sdec (erase_at rem i) l' + if str_eqb l l' then 1 else 0)%nat
  end.
Proof.
  induction rem as [|a rem IH]; cbn [find_idx]; auto. destruct (str_eqb l a) eqn:E.
  - apply str_eqb_eq in E. subst a. intros l'. unfold erase_at. cbn [firstn skipn app count_occ].
    destruct (sdec l l') as [<-|N]; [rewrite str_eqb_refl; lia|]. rewrite (str_eqb_neq l l') by auto. lia.
  - apply str_eqb_false in E. destruct (find_idx (str_eqb l) rem) as [i|]; cbn [option_map].
    + intros l'. unfold erase_at in *. cbn [firstn app count_occ]. change (skipn (S (S i)) (a :: rem)) with (skipn (S i) rem). rewrite IH. destruct (sdec a l'); lia.
    + cbn [count_occ]. destruct (sdec a l); [subst; contradiction|auto].
Qed.

Definition clean_str (s : str) : Prop := forall c, In c s -> c <> zero.
Record RInv (q : rest) (r : rst) : Prop := {
  ri_t : forall l, map snd (part l (r_ss r)) = left_t q l;
  ri_v : forall l, map snd (part l (r_sv r)) = left_v q l;
  ri_rem : forall l, count_occ sdec (r_rem r) l = (List.length (left_t q l) - 1 + (List.length (left_v q l) - 1))%nat;
  ri_one : forall l, left_t q l = [] \/ left_v q l = [];
  ri_ct : forall l v, In v (left_t q l) -> clean_str v;
  ri_cv : forall l v, In v (left_v q l) -> (2 <= List.length v)%nat /\ forall s, In s v -> clean_str s }.

Lemma take_in {V} (q : str -> list V) l l' v : In v (take q l l') -> In v (q l').
Proof.
  unfold take. destruct (str_eqb l l') eqn:E; auto. apply str_eqb_eq in E. subst l'. destruct (q l) as [|a [|b t]]; auto. intros H. right. exact H.
Qed.
Lemma clean_label {V W} (m : list (str * V)) l e t it rem (q : str -> list V) (w : str -> list W) :
  part l m = e :: t -> (forall l', part l' (erase_at m it) = if str_eqb l' l then t else part l' m) ->
  (forall l', map snd (part l' m) = q l') -> (forall l', count_occ sdec rem l' = (List.length (q l') - 1 + (List.length (w l') - 1))%nat) -> w l = [] ->
  exists m' rem', cleanLabelsIfNeeded l m it rem false = Ok (m', rem') /\ (forall l', map snd (part l' m') = take q l l') /\
    forall l', count_occ sdec rem' l' = (List.length (take q l l') - 1 + (List.length (w l') - 1))%nat.
Proof.
  intros Pe Er Q C W0. unfold cleanLabelsIfNeeded. pose proof (find_rem rem l) as F.
  assert (Ql : q l = snd e :: map snd t) by (rewrite <- Q, Pe; auto).
  assert (Cl := C l). rewrite Ql, W0 in Cl. cbn [List.length] in Cl. rewrite map_length in Cl.
  destruct (find_idx (str_eqb l) rem) as [i|].
  - exists (erase_at m it), (erase_at rem i). split; auto.
    pose proof (F l) as Fl. rewrite str_eqb_refl in Fl. destruct t as [|t0 t]; [cbn [List.length] in Cl; lia|].
    assert (Tk : forall l', take q l l' = if str_eqb l l' then map snd (t0 :: t) else q l').
    { intros l'. unfold take. rewrite Ql. auto. }
    split; intros l'.
    + rewrite Er, Tk. rewrite <- Q. destruct (str_eqb l l') eqn:E; [apply str_eqb_eq in E; subst l'; rewrite str_eqb_refl; auto|].
      rewrite (str_eqb_neq l' l); auto. apply str_eqb_false in E. auto.
    + rewrite Tk. specialize (F l'). rewrite C in F. destruct (str_eqb l l') eqn:E; [|lia].
      apply str_eqb_eq in E. subst l'. rewrite Ql, W0 in *. cbn [List.length map] in *. lia.
  - exists m, rem. split; auto. destruct t as [|t0 t]; [|cbn [List.length] in Cl; lia].
    assert (Tk : forall l', take q l l' = q l').
    { intros l'. unfold take. rewrite Ql. destruct (str_eqb l l') eqn:E; auto. apply str_eqb_eq in E. subst l'. auto. }
    split; intros l'; rewrite Tk; auto.
Qed.

(** A label as it is asked for: with or without '=' *)
Definition asked (l l1 : str) : Prop := l <> [] /\ ~ In "="%char l /\ (l1 = l \/ l1 = l ++ lit "=").
Lemma asked_label l l1 : asked l l1 -> label2label l1 = Ok l.
Proof.
  intros (N & E & [-> | ->]); unfold label2label.
  - destruct l as [|c l]; [contradiction|]. rewrite (vget_ok (c :: l) zero) by (simpl; lia). cbn [bind].
    rewrite (proj2 (Ascii.eqb_neq _ "=")); [rewrite firstn_all; auto|]. intros X. apply E. rewrite <- X. apply nth_In. simpl. lia.
  - destruct (l ++ lit "=") as [|c t] eqn:El; [destruct l; discriminate|]. rewrite <- El. rewrite app_length. cbn [List.length lit list_ascii_of_string].
    replace (List.length l + 1 - 1)%nat with (List.length l) by lia. rewrite (vget_ok (l ++ ["="%char]) zero) by (rewrite app_length; simpl; lia).
    rewrite app_nth2, Nat.sub_diag by lia. cbn [nth bind]. change (Ascii.eqb "=" "=") with true. cbn iota. rewrite firstn_app, Nat.sub_diag, firstn_all. cbn [firstn]. rewrite app_nil_r. auto.
Qed.

Lemma read_text q r l l1 : RInv q r -> asked l l1 ->
  match left_t q l with
  | [] => readline r l1 true false = Throw
  | v :: _ => exists r', readline r l1 true false = Ok (v, r') /\ RInv (mkrest (take (left_t q) l) (left_v q)) r'
  end.
Proof.
  intros [T Vv Rm O Ct Cv] A. unfold readline. rewrite (asked_label l l1 A). cbn [bind].
  pose proof (find_part (r_ss r) l) as F. pose proof (T l) as Tl. destruct (part l (r_ss r)) as [|e t] eqn:Pe; cbn [map] in Tl; rewrite <- Tl.
  - rewrite F. auto.
  - destruct F as (i & F1 & F2 & F3). rewrite F1, F2. cbn [bind]. destruct e as [k v]. cbn [snd].
    destruct (clean_label (r_ss r) l (k, v) t i (r_rem r) (left_t q) (left_v q) Pe F3 T Rm) as (m & rem & E & M & C).
    { destruct (O l) as [X|X]; auto. rewrite X in Tl. discriminate. }
    rewrite E. cbn [bind]. rewrite c_str_id by (apply (Ct l); rewrite <- Tl; left; auto).
    eexists. split; [reflexivity|]. constructor; cbn; auto.
    + intros l'. destruct (O l') as [X|X]; auto. left. destruct (take (left_t q) l l') as [|z zs] eqn:Z; auto.
      assert (Hz : In z (left_t q l')) by (apply (take_in _ l); rewrite Z; left; auto). rewrite X in Hz. destruct Hz.
    + intros l' v' H. apply (Ct l'). eapply take_in; eauto.
Qed.
Lemma read_vec_loop (v val : list str) : (2 <= List.length v)%nat -> (forall s, In s v -> clean_str s) ->
  forM (List.length v - 1) 0 (fun i val => do s <- vget v (i + 1) ;; vset val i (c_str s)) (vresize val (List.length v - 1) []) = Ok (tl v).
Proof.
  intros L C. loopM (fun i (w : list str) => List.length w = (List.length v - 1)%nat /\ forall j, (j < i)%nat -> nth j w [] = nth (S j) v []) as w E H.
  - split; [rewrite vresize_length; auto|intros j Hj; lia].
  - intros i w Hi [H1 H2]. rewrite (vget_ok v []) by lia. cbn [bind]. rewrite vset_ok by lia.
    eexists. split; [reflexivity|]. split; [rewrite upd_length; auto|]. intros j Hj. rewrite c_str_id by (apply C, nth_In; lia).
    destruct (Nat.eq_dec j i) as [-> |N]; [rewrite nth_upd_eq by lia; f_equal; lia|]. rewrite nth_upd_neq by auto. apply H2. lia.
  - rewrite E. f_equal. destruct H as [H1 H2]. destruct v as [|a v]; [simpl in L; lia|]. cbn [tl]. apply list_eq_nth with (d := []); [cbn [List.length] in H1; lia|].
    intros j Hj. rewrite H2 by lia. auto.
Qed.
Lemma read_vec q r l l1 val : RInv q r -> asked l l1 ->
  match left_v q l with
  | [] => read_strings r l1 val = Throw
  | v :: _ => exists r', read_strings r l1 val = Ok (tl v, r') /\ RInv (mkrest (left_t q) (take (left_v q) l)) r'
  end.
Proof.
  intros [T Vv Rm O Ct Cv] A. unfold read_strings. rewrite (asked_label l l1 A). cbn [bind].
  pose proof (find_part (r_sv r) l) as F. pose proof (Vv l) as Tl. destruct (part l (r_sv r)) as [|e t] eqn:Pe; cbn [map] in Tl; rewrite <- Tl.
  - rewrite F. auto.
  - destruct F as (i & F1 & F2 & F3). rewrite F1, F2. cbn [bind]. destruct e as [k v]. cbn [snd].
    destruct (clean_label (r_sv r) l (k, v) t i (r_rem r) (left_v q) (left_t q) Pe F3 Vv) as (m & rem & E & M & C).
    { intros l'. rewrite Rm. lia. }
    { destruct (O l) as [X|X]; auto. rewrite X in Tl. discriminate. }
    destruct (Cv l v) as [Lv Cl]; [rewrite <- Tl; left; auto|].
    destruct (Nat.ltb_spec 1 (List.length v)); [|lia]. rewrite read_vec_loop by auto. cbn [bind]. rewrite E. cbn [bind].
    eexists. split; [reflexivity|]. constructor; cbn; auto.
    + intros l'. rewrite C. lia.
    + intros l'. destruct (O l') as [X|X]; auto. right. destruct (take (left_v q) l l') as [|z zs] eqn:Z; auto.
      assert (Hz : In z (left_v q l')) by (apply (take_in _ l); rewrite Z; left; auto). rewrite X in Hz. destruct Hz.
    + intros l' v' H'. apply (Cv l'). eapply take_in; eauto.
Qed.

(** Integers *)
Lemma read_int q r l l1 v t n : RInv q r -> asked l l1 -> left_t q l = v :: t -> written v n ->
  exists r', readline_int r l1 = Ok (n, r') /\ RInv (mkrest (take (left_t q) l) (left_v q)) r'.
Proof.
  intros I A E W. pose proof (read_text q r l l1 I A) as H. rewrite E in H. destruct H as (r' & H & I'). exists r'. split; auto.
  destruct I as [_ _ _ _ Ct _]. assert (Cv : clean_str v) by (apply (Ct l); rewrite E; left; auto).
  assert (At : atoi (c_str v) = Ok n).
  { rewrite c_str_id by auto. destruct W as (d & D1 & D2 & [[-> ->]|[-> ->]]); [apply atoi_nat|apply atoi_neg]; auto. }
  unfold readline in H. unfold readline_int. destruct (label2label l1) as [l2| | |]; cbn [bind] in *; try discriminate.
  destruct (findFirstValueForLabel l2 (r_ss r)); [|discriminate]. destruct (vget (r_ss r) n0) as [[k w]| | |]; cbn [bind] in *; try discriminate.
  destruct (cleanLabelsIfNeeded l2 (r_ss r) n0 (r_rem r) false) as [[m rem]| | |]; cbn [bind] in *; try discriminate.
apply Ok_inj in H. injection H as Hw Hr. rewrite Hw. rewrite c_str_id in At by auto. rewrite At. cbn [bind]. rewrite Hr. reflexivity.
Qed.

Section Reals.
  Variable R : cring.
  Variable std_atof : str -> R.
  Lemma read_reals_ok q r l l1 v t val : RInv q r -> asked l l1 -> left_v q l = v :: t ->
    (forall s, In s (tl v) -> stringToReal R std_atof s = Ok (std_atof s)) ->
    exists r', read_reals R std_atof r l1 val = Ok (map std_atof (tl v), r') /\ RInv (mkrest (left_t q) (take (left_v q) l)) r'.
  Proof.
    intros I A E W. pose proof (read_vec q r l l1 [] I A) as H. rewrite E in H. destruct H as (r' & H & I'). exists r'. split; auto.
    destruct I as [_ Vv _ _ _ Cv]. destruct (Cv l v) as [Lv Cl]; [rewrite E; left; auto|].
    unfold read_strings in H. unfold read_reals. rewrite (asked_label l l1 A) in *. cbn [bind] in *.
    pose proof (find_part (r_sv r) l) as F. specialize (Vv l). rewrite E in Vv.
    destruct (part l (r_sv r)) as [|[k w] m]; [discriminate|]. cbn [map snd] in Vv. destruct F as (i & F1 & F2 & _).
    rewrite F1, F2 in *. cbn [bind] in *. assert (w = v) by congruence. subst w.
    destruct (Nat.ltb_spec 1 (List.length v)); [|lia]. rewrite read_vec_loop in H by auto. cbn [bind] in H.
    destruct (cleanLabelsIfNeeded l (r_sv r) i (r_rem r) false) as [[mm rem]| | |]; cbn [bind] in *; try discriminate.
    loopM (fun i (w : list R) => List.length w = (List.length v - 1)%nat /\ forall j, (j < i)%nat -> nth j w c0 = std_atof (nth (S j) v [])) as w E0 H2.
    - split; [rewrite vresize_length; auto|intros j Hj; lia].
    - intros j w Hj [H1 H3]. rewrite (vget_ok v []) by lia. cbn [bind].
      assert (X : In (nth (j + 1) v []) (tl v)).
      { destruct v as [|a v]; [simpl in Lv; lia|]. rewrite Nat.add_1_r. cbn [nth tl]. apply nth_In. cbn [List.length] in Hj. lia. }
      rewrite c_str_id by (apply Cl; destruct v; [destruct X|right; auto]). rewrite W by auto. cbn [bind]. rewrite vset_ok by lia.
      eexists. split; [reflexivity|]. split; [rewrite upd_length; auto|]. intros j' Hj'.
      destruct (Nat.eq_dec j' j) as [-> |N]; [rewrite nth_upd_eq by lia; f_equal; f_equal; lia|]. rewrite nth_upd_neq by auto. apply H3. lia.
    - rewrite E0. cbn [bind]. destruct H2 as [H3 H4]. apply Ok_inj in H. injection H as Hr. rewrite Hr. f_equal. f_equal.
      destruct v as [|a v]; [simpl in Lv; lia|]. cbn [tl]. apply list_eq_nth with (d := c0); [rewrite map_length; cbn [List.length] in H3; lia|].
      intros j Hj. rewrite H4 by lia. cbn [nth]. rewrite (nth_indep _ c0 (std_atof [])) by (rewrite map_length; cbn [List.length] in H3; lia).
      rewrite map_nth. auto.
  Qed.

  Lemma read_matrix_ok q r l l1 v t m nrow ncol : RInv q r -> asked l l1 -> left_v q l = v :: t -> (0 < nrow)%nat -> (0 < ncol)%nat ->
    nth 0 v [] = print_nat nrow -> nth 1 v [] = print_nat ncol -> (2 + nrow * ncol <= List.length v)%nat ->
    (forall s, In s v -> isAfloat s = true) -> m_nrow m = 0%nat \/ m_nrow m = nrow ->
    exists r' M, read_matrix R std_atof r l1 m = Ok (M, r') /\ RInv (mkrest (left_t q) (take (left_v q) l)) r' /\
      is_mat M nrow ncol (fun i j => std_atof (nth (2 + i * ncol + j) v [])).
  Proof.
    intros I A E Hr Hc N0 N1 L W Hm. pose proof (read_vec q r l l1 [] I A) as H. rewrite E in H. destruct H as (r' & H & I'). exists r'.
    destruct I as [_ Vv _ _ _ Cv]. destruct (Cv l v) as [Lv Cl]; [rewrite E; left; auto|].
    unfold read_strings in H. unfold read_matrix. rewrite (asked_label l l1 A) in *. cbn [bind] in *.
    pose proof (find_part (r_sv r) l) as F. specialize (Vv l). rewrite E in Vv.
    destruct (part l (r_sv r)) as [|[k w] mm]; [discriminate|]. cbn [map snd] in Vv. destruct F as (i & F1 & F2 & _).
    rewrite F1, F2 in *. cbn [bind] in *. assert (w = v) by congruence. subst w.
    destruct (Nat.ltb_spec 1 (List.length v)); [|lia]. rewrite read_vec_loop in H by auto. cbn [bind] in H.
    destruct (cleanLabelsIfNeeded l (r_sv r) i (r_rem r) false) as [[sv rem]| | |] eqn:EC; cbn [bind] in *; try discriminate.
    apply Ok_inj in H. injection H as Hr'.
    rewrite (vget_ok v []) by lia. cbn [bind]. rewrite N0, print_nat_atoi. cbn [bind]. rewrite (@vget_ok _ v 1 []) by lia. cbn [bind]. rewrite N1, print_nat_atoi. cbn [bind].
    destruct (Nat.ltb_spec (List.length v) 2); [lia|]. destruct (Z.leb_spec (Z.of_nat nrow) 0); [lia|]. destruct (Z.leb_spec (Z.of_nat ncol) 0); [lia|]. cbn [orb].
    rewrite !Nat2Z.id. unfold mat_resize at 1.
    assert (Hg : ((0 <? m_nrow m)%nat && negb (m_nrow m =? nrow)%nat)%bool = false).
    { destruct Hm as [-> | ->]; auto. rewrite Nat.eqb_refl. apply andb_false_r. }
    rewrite Hg. cbn [bind]. destruct (Nat.ltb_spec (List.length v) (2 + nrow * ncol)); [lia|].
    set (M0 := mkmat nrow ncol (vresize (m_data m) (nrow * ncol) c0)).
    set (P := fun (a b : nat) (mk : mat R * nat) => m_nrow (fst mk) = nrow /\ m_ncol (fst mk) = ncol /\ mat_wf (fst mk) /\ snd mk = (2 + a * ncol + b)%nat /\
      forall i j, (i < nrow)%nat -> (j < ncol)%nat -> (i < a \/ (i = a /\ j < b))%nat -> melem (fst mk) i j = std_atof (nth (2 + i * ncol + j) v [])).
    loopM (fun a mk => P a 0%nat mk) as mk E0 HL.
    - unfold P. cbn [fst snd]. split; auto. split; auto. split; [unfold mat_wf; cbn; apply vresize_length|]. split; [lia|]. intros; lia.
    - intros a mk Ha HP.
      loopM (fun b mk => P a b mk) as mk' E1 HM; [exact HP| |].
      + intros b [M k0] Hb (P1 & P2 & P3 & P4 & P5). cbn [fst snd] in *. subst k0.
        rewrite (vget_ok v []) by nia. cbn [bind].
        assert (Hin : In (nth (2 + a * ncol + b) v []) v) by (apply nth_In; nia).
        rewrite c_str_id by (apply Cl; auto). unfold atof. rewrite W by auto. cbn [bind].
        destruct (mset_ok R M a b (std_atof (nth (2 + a * ncol + b) v [])) P3) as (M2 & E2 & Q1 & Q2 & Q3 & Q4); [lia|lia|].
        rewrite E2. cbn [bind]. eexists. split; [reflexivity|]. unfold P. cbn [fst snd]. split; [lia|]. split; [lia|]. split; auto. split; [lia|].
        intros i' j' Hi' Hj' Hd. rewrite Q4 by lia.
        destruct (Nat.eqb_spec i' a) as [-> |], (Nat.eqb_spec j' b) as [-> |]; cbn [andb]; auto; apply P5; lia.
      + rewrite E1. eexists. split; [reflexivity|]. destruct HM as (P1 & P2 & P3 & P4 & P5). unfold P. split; auto. split; auto. split; auto. split; [lia|].
        intros i' j' Hi' Hj' Hd. apply P5; lia.
    - rewrite E0. destruct mk as [M k0]. cbn [bind]. destruct HL as (P1 & P2 & P3 & P4 & P5). cbn [fst snd] in *.
      exists M. rewrite Hr'. split; [reflexivity|]. split; [exact I'|]. split; [exact P1|]. split; [exact P2|]. split; [exact P3|]. intros i' j' Hi' Hj'. apply P5; lia.
  Qed.
End Reals.
