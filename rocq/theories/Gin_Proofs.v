From Coq Require Import Ascii String.
From Verif Require Import Prelude Ring Str_Model Str_Spec Str_Proofs Text_Model Text_Proofs Ng_Proofs Dense_Model Dense_Spec Dense_Proofs
  Geo_Model Geo_Spec Geo_Proofs Geo_Proofs4
  Input_Model Input_Spec Input_Proofs Input_Parse Input_Read Input_Props Inc_Model Inc_Spec Inc_Proofs Inc_Props Gin_Model Gin_Spec.
Import List.

Lemma skipn_kth {V} (vs : list V) k d : vs <> [] -> exists t, skipn (min k (List.length vs - 1)) vs = kth d vs k :: t.
Proof.
  intros H. assert (L : (min k (List.length vs - 1) < List.length vs)%nat) by (destruct vs; [congruence|cbn [List.length]; lia]).
  unfold kth. revert L. generalize (min k (List.length vs - 1)). intros m. clear. revert m. induction vs as [|a vs IH]; intros m L; [cbn in L; lia|].
  destruct m as [|m]; [exists vs; reflexivity|]. cbn [skipn nth]. apply IH. cbn in L. lia.
Qed.

(** How often each label has been read. *)
Definition bump (l : str) (c : str -> nat) : str -> nat := fun l' => if str_eqb l' l then S (c l') else c l'.
Definition pos (f : list item) (c v : str -> nat) (q : rest) : Prop :=
  (forall l, left_t q l = skipn (min (c l) (List.length (texts f l) - 1)) (texts f l)) /\
  (forall l, left_v q l = skipn (min (v l) (List.length (vecs f l) - 1)) (vecs f l)).
Definition RP (f : list item) (c v : str -> nat) (r : rst) : Prop := exists q, RInv q r /\ pos f c v q.

Section RPs.
  Variable f : list item.
  Lemma pos_text c v q l : pos f c v q -> pos f (bump l c) v (mkrest (take (left_t q) l) (left_v q)).
  Proof. intros [A B]. split; cbn [left_t left_v]; auto. intros l'. unfold bump. rewrite (take_skip (left_t q) l l' (c l') (texts f l')) by auto. reflexivity. Qed.
  Lemma pos_vec c v q l : pos f c v q -> pos f c (bump l v) (mkrest (left_t q) (take (left_v q) l)).
  Proof. intros [A B]. split; cbn [left_t left_v]; auto. intros l'. unfold bump. rewrite (take_skip (left_v q) l l' (v l') (vecs f l')) by auto. reflexivity. Qed.
  Lemma pos_none c v q l : texts f l = [] -> pos f c v q -> pos f (bump l c) v q.
  Proof.
    intros N [A B]. split; auto. intros l'. unfold bump. destruct (str_eqb l' l) eqn:E; auto. apply str_eqb_eq in E. subst l'. rewrite A, N, !skipn_nil. reflexivity.
  Qed.

  Lemma rp_text c v r l l1 : RP f c v r -> asked l l1 -> texts f l <> [] ->
    exists r', readline r l1 true false = Ok (kth [] (texts f l) (c l), r') /\ RP f (bump l c) v r'.
  Proof.
    intros (q & I & P) A N. pose proof (read_text q r l l1 I A) as H. destruct (skipn_kth (texts f l) (c l) [] N) as (t & E). destruct P as [P1 P2].
    rewrite P1, E in H. destruct H as (r' & H & I'). exists r'. split; auto. eexists. split; [exact I'|]. apply pos_text. split; auto.
  Qed.
  Lemma rp_no_text c v r l l1 : RP f c v r -> asked l l1 -> texts f l = [] -> readline r l1 true false = Throw.
  Proof.
    intros (q & I & P) A N. pose proof (read_text q r l l1 I A) as H. destruct P as [P1 P2]. rewrite P1, N, skipn_nil in H. exact H.
  Qed.
  (** readline without removal *)
  Lemma rp_peek c v r l l1 : RP f c v r -> asked l l1 -> texts f l <> [] ->
    readline r l1 false false = Ok (kth [] (texts f l) (c l), r).
  Proof.
    intros Hr A N. destruct (rp_text c v r l l1 Hr A N) as (r' & H & _). unfold readline in *.
    destruct (label2label l1) as [l2| | |]; cbn [bind] in *; try discriminate.
    destruct (findFirstValueForLabel l2 (r_ss r)) as [it|]; [|discriminate]. destruct (vget (r_ss r) it) as [[k w]| | |]; cbn [bind] in *; try discriminate.
    destruct (cleanLabelsIfNeeded l2 (r_ss r) it (r_rem r) false) as [[m rem]| | |]; cbn [bind] in *; try discriminate.
    apply Ok_inj in H. injection H as -> _. reflexivity.
  Qed.
  Lemma rp_long c v r l l1 n : RP f c v r -> asked l l1 -> texts f l <> [] -> written (kth [] (texts f l) (c l)) n -> (-2147483648 <= n <= 2147483647)%Z ->
    exists r', readline_long r l1 = Ok (n, r') /\ readline_size r l1 = Ok ((n mod 18446744073709551616)%Z, r') /\ RP f (bump l c) v r'.
  Proof.
    intros Hr A N W B. destruct (rp_text c v r l l1 Hr A N) as (r' & H & Hr'). exists r'.
    assert (Cl : c_str (kth [] (texts f l) (c l)) = kth [] (texts f l) (c l)).
    { destruct Hr as (q & I & P). destruct I as [_ _ _ _ Ct _]. apply c_str_id. apply (Ct l). destruct P as [P1 _]. rewrite P1.
      destruct (skipn_kth (texts f l) (c l) [] N) as (t & E). rewrite E. left; auto. }
    unfold readline in H. unfold readline_long, readline_size.
    destruct (label2label l1) as [l2| | |]; cbn [bind] in *; try discriminate.
    destruct (findFirstValueForLabel l2 (r_ss r)) as [it|]; [|discriminate]. destruct (vget (r_ss r) it) as [[k w]| | |]; cbn [bind] in *; try discriminate.
    destruct (cleanLabelsIfNeeded l2 (r_ss r) it (r_rem r) false) as [[m rem]| | |]; cbn [bind] in *; try discriminate.
    apply Ok_inj in H. injection H as Hw Hs. rewrite Hw. unfold atoi_int. rewrite (atoi_written _ n W). cbn [bind].
    destruct (Z.leb_spec (-2147483648) n); [|lia]. destruct (Z.leb_spec n 2147483647); [|lia]. cbn [andb bind]. rewrite Hs. auto.
  Qed.
  Lemma rp_try_long c v r l l1 x : RP f c v r -> asked l l1 -> optional (texts f l) (c l) x ->
    exists r', try_long r l1 = Ok (x, r') /\ RP f (bump l c) v r'.
  Proof.
    intros Hr A O. destruct x as [n|]; cbn [optional] in O.
    - destruct O as (N & W & B). destruct (rp_long c v r l l1 n Hr A N W B) as (r' & E & _ & H). exists r'. unfold try_long. rewrite E. auto.
    - exists r. pose proof (rp_no_text c v r l l1 Hr A O) as H. split.
      + unfold try_long, readline_long. unfold readline in H. destruct (label2label l1) as [l2| | |]; cbn [bind] in *; try discriminate; auto.
        destruct (findFirstValueForLabel l2 (r_ss r)) as [it|]; auto. destruct (vget (r_ss r) it) as [[k w]| | |] eqn:Ev; cbn [bind] in *; try discriminate.
        * destruct (cleanLabelsIfNeeded l2 (r_ss r) it (r_rem r) false) as [[m rem]| | |] eqn:Ec; cbn [bind] in *; try discriminate.
          unfold cleanLabelsIfNeeded in Ec. destruct (find_idx (str_eqb l2) (r_rem r)); discriminate.
        * unfold vget in Ev. destruct (nth_error (r_ss r) it); discriminate.
      + destruct Hr as (q & I & P). exists q. split; auto. apply pos_none; auto.
  Qed.
  Lemma rp_try_size c v r l l1 n : RP f c v r -> asked l l1 -> (texts f l = [] /\ n = None) \/ (exists k, n = Some k /\ texts f l <> [] /\ written (kth [] (texts f l) (c l)) k /\ (0 <= k <= 2147483647)%Z) ->
    exists r', try_size r l1 = Ok (n, r') /\ RP f (bump l c) v r'.
  Proof.
    intros Hr A [[O ->]|(k & -> & N & W & B)].
    - destruct (rp_try_long c v r l l1 None Hr A O) as (r' & E & H). exists r'. split; auto. unfold try_long, try_size, readline_long, readline_size in *.
      destruct (label2label l1) as [l2| | |]; cbn [bind] in *; auto; try discriminate.
      destruct (findFirstValueForLabel l2 (r_ss r)) as [it|]; [|exact E]. destruct (vget (r_ss r) it) as [[k w]| | |]; cbn [bind] in *; auto; try discriminate.
      destruct (atoi_int (c_str w)) as [z| | |]; cbn [bind] in *; auto; try discriminate.
      destruct (cleanLabelsIfNeeded l2 (r_ss r) it (r_rem r) false) as [[m rem]| | |]; cbn [bind] in *; auto; discriminate.
    - destruct (rp_long c v r l l1 k Hr A N W) as (r' & _ & E & H); [lia|]. exists r'. unfold try_size. rewrite E, Z.mod_small by lia. auto.
  Qed.
  Lemma rp_reals (R : cring) (std_atof : str -> R) c v r l l1 val : RP f c v r -> asked l l1 -> vecs f l <> [] ->
    (forall s, In s (tl (kth [] (vecs f l) (v l))) -> real_text s) ->
    exists r', read_reals R std_atof r l1 val = Ok (map std_atof (tl (kth [] (vecs f l) (v l))), r') /\ RP f c (bump l v) r'.
  Proof.
    intros (q & I & P) A N W. destruct (skipn_kth (vecs f l) (v l) [] N) as (t & E). destruct P as [P1 P2].
    destruct (read_reals_ok R std_atof q r l l1 (kth [] (vecs f l) (v l)) t val I A) as (r' & H & I').
    { rewrite P2, E. reflexivity. }
    { intros s Hs. apply to_real. auto. }
    exists r'. split; auto. eexists. split; [exact I'|]. apply pos_vec. split; auto.
  Qed.
End RPs.

Definition conn_l : str := lit "Connectors".
Definition given (f : list item) (k : nat) (size : nat) (numbers : list str) : Prop :=
  vecs f (lit "Connectors") <> [] /\ numbers = tl (kth [] (vecs f (lit "Connectors")) k) /\
  (forall s, In s numbers -> real_text s) /\ List.length numbers = size.
Lemma asked_lit l l1 : l <> [] -> forallb (fun c => negb (Ascii.eqb c "=")) l = true -> l1 = l \/ l1 = l ++ lit "=" -> asked l l1.
Proof.
  intros N H E. split; auto. split; auto. intros I. rewrite forallb_forall in H. specialize (H _ I). discriminate.
Qed.
Ltac ask := apply asked_lit; [discriminate|reflexivity|first [left; reflexivity|right; reflexivity]].

Section Finish.
  Variable R : cring.
  Variable std_atof : str -> R.
  Variable f : list item.
  Hypothesis NoMod : texts f (lit "GeometryValueModifier") = [].
  Variable L : nat.
  Variable lat : glat.
  Variable const : bool.
  Variable numbers : nat -> list str.
  Variable opts : str.
  Hypothesis Hopts : const = true <-> contains (lit "ConstantValues") opts.
  Variable cb : nat -> nat -> bool.
  Variables dr h : nat -> nat -> nat.
  Variable size : nat -> nat.
  Hypothesis Hconn : forall i j, i < L -> j < L -> gl_conn lat i j = Ok (cb i j).
  Hypothesis Hdir : forall i j, i < L -> j < L -> cb i j = true -> gl_dir lat i j = Ok (dr i j) /\ dr i j < gl_dirs lat /\
    (const = false -> gl_handle lat i j = Ok (h i j) /\ h i j < size (dr i j)).
  Hypothesis Hsize : const = false -> forall d, d < gl_dirs lat -> gl_size lat d = Ok (Z.of_nat (size d)).

  Lemma opts_const : (match find_sub (lit "ConstantValues") opts with Some _ => true | None => false end) = const.
  Proof.
    clear - Hopts. destruct (find_sub (lit "ConstantValues") opts) eqn:E.
    - symmetry. apply Hopts. eapply find_sub_some; eauto.
    - destruct const; auto. exfalso. eapply (find_sub_contains (lit "ConstantValues") opts); [|exact E]. apply Hopts. reflexivity.
  Qed.

  Lemma dirs_ok n c v r : n <= gl_dirs lat -> RP f c v r -> (forall d, d < n -> given f (v conn_l + d) (if const then 1 else size d) (numbers d)) ->
    exists r' v', forM n 0 (fun i (st : list (gdir R) * rst) =>
      let '(dirs, r) := st in do (d, r) <- read_direction R std_atof lat const 1 i r ;; Ok (dirs ++ [d], r)) ([], r) =
        Ok (map (fun d => mkgdir 1 const false (map std_atof (numbers d)) [] (mat_new R 0 0)) (seq 0 n), r') /\ RP f c v' r' /\ v' conn_l = v conn_l + n.
  Proof.
    clear Hconn Hdir NoMod. clear cb dr h. intros Hn Hr G.
    loopM (fun (k : nat) (st : list (gdir R) * rst) => (exists v', RP f c v' (snd st) /\ v' conn_l = v conn_l + k) /\
      fst st = map (fun d => mkgdir 1 const false (map std_atof (numbers d)) [] (mat_new R 0 0)) (seq 0 k)) as st E Q.
    - cbn [fst snd]. split; auto. exists v. split; auto.
    - intros k [ds r1] Hk [(v' & Hv & Ev) Ed]. cbn [fst snd] in *. destruct (G k) as (G1 & G2 & G3 & G4); [lia|].
      unfold read_direction. assert (Sz : (if const then Ok 1%Z else gl_size lat k) = Ok (Z.of_nat (if const then 1 else size k))).
      { destruct const; [reflexivity|apply Hsize; auto; lia]. }
      rewrite Sz. cbn [bind]. change (1 <? 1) with false. cbn iota.
      destruct (rp_reals f R std_atof c v' r1 conn_l conn_l [] Hv) as (r2 & E2 & H2); [ask|exact G1| |].
      { rewrite Ev. fold conn_l in G2. rewrite <- G2. auto. }
      fold conn_l. rewrite E2. cbn [bind]. rewrite Ev. fold conn_l in G2. rewrite <- G2, map_length, G4, Z.eqb_refl. cbn [negb bind].
      eexists. split; [reflexivity|]. cbn [fst snd]. split.
      + exists (bump conn_l v'). split; auto. unfold bump. rewrite str_eqb_refl, Ev. lia.
      + rewrite Ed, seq_S, map_app. reflexivity.
    - destruct st as [ds r1]. destruct Q as [(v' & Hv & Ev) Ed]. cbn [bind fst snd] in *. rewrite Nat.add_0_l in *. rewrite E, Ed. eauto.
  Qed.
  Lemma finish_refused c v r dir : RP f c v r -> dir < gl_dirs lat ->
    (forall d, d < dir -> given f (v conn_l + d) (if const then 1 else size d) (numbers d)) ->
    vecs f conn_l <> [] -> numbers dir = tl (kth [] (vecs f conn_l) (v conn_l + dir)) -> (forall s, In s (numbers dir) -> real_text s) ->
    List.length (numbers dir) <> (if const then 1 else size dir) ->
    finish_term R std_atof (Z.of_nat L) 1 opts lat r = Throw.
  Proof.
    clear Hconn Hdir NoMod. clear cb dr h. intros Hr Hd G G1 G2 G3 G4. unfold finish_term. rewrite opts_const.
    destruct (dirs_ok dir c v r) as (r' & v' & E & Hv & Ev); auto; [lia|].
    replace (gl_dirs lat) with (dir + S (gl_dirs lat - S dir)) by lia. rewrite forM_app, E. cbn [bind forM]. rewrite Nat.add_0_l.
    unfold read_direction at 1. assert (Sz : (if const then Ok 1%Z else gl_size lat dir) = Ok (Z.of_nat (if const then 1 else size dir))).
    { destruct const; [reflexivity|apply Hsize; auto; lia]. }
    rewrite Sz. cbn [bind]. change (1 <? 1) with false. cbn iota.
    destruct (rp_reals f R std_atof c v' r' conn_l conn_l [] Hv) as (r2 & E2 & H2); [ask|exact G1| |].
    { rewrite Ev. rewrite <- G2. auto. }
    fold conn_l. rewrite E2. cbn [bind]. rewrite Ev, <- G2, map_length.
    destruct (Z.eqb_spec (Z.of_nat (List.length (numbers dir))) (Z.of_nat (if const then 1 else size dir))); [lia|reflexivity].
  Qed.

  Lemma finish_ok c v r : RP f c v r -> (forall d, d < gl_dirs lat -> given f (v conn_l + d) (if const then 1 else size d) (numbers d)) ->
    exists t r' v', finish_term R std_atof (Z.of_nat L) 1 opts lat r = Ok (t, r') /\ RP f c v' r' /\ v' conn_l = v conn_l + gl_dirs lat /\
      gt_orbitals t = 1 /\
      forall i j, i < L -> j < L -> gt_value R (base_index 1) (gt_cached t) i 0 j 0 =
        Ok (if cb i j then std_atof (nth (if const then 0 else h i j) (numbers (dr i j)) []) else c0).
  Proof.
    intros Hr G. unfold finish_term. rewrite opts_const.
    destruct (dirs_ok (gl_dirs lat) c v r) as (r1 & v' & E & Hv & Ev); auto.
    rewrite E. cbn [bind]. set (ds := map _ (seq 0 (gl_dirs lat))). assert (Ed : ds = map (fun d => mkgdir 1 const false (map std_atof (numbers d)) [] (mat_new R 0 0)) (seq 0 (gl_dirs lat))) by reflexivity. clearbody ds.
    {
      rewrite (rp_no_text f c v' r1 (lit "GeometryValueModifier") (lit "GeometryValueModifier=") Hv) by (ask || exact NoMod).
      cbn iota. rewrite Nat2Z.id.
      set (ix := fun i e => Some (e + i * 1)). set (vv := fun i e j e' : nat => std_atof (nth (if const then 0 else h i j) (numbers (dr i j)) [])).
      assert (Hi : forall i e, i < L -> e < 1 -> base_index 1 i e = Ok (ix i e)).
      { intros i e _ He. unfold base_index. destruct (Nat.ltb_spec e 1); [reflexivity|lia]. }
      assert (Hrg : forall i e k, i < L -> e < 1 -> ix i e = Some k -> k < L * 1). { intros i e k H1 H2 H3. injection H3 as <-. lia. }
      assert (Hj : forall i e i' e' k, i < L -> e < 1 -> i' < L -> e' < 1 -> ix i e = Some k -> ix i' e' = Some k -> i = i' /\ e = e').
      { intros i e i' e' k H1 H2 H3 H4 H5 H6. injection H5 as <-. injection H6 as H6. lia. }
      edestruct (cacheValues_ok R L 1 (L * 1) ix cb vv (base_index 1) (gl_conn lat) (gl_dir lat)
        (fun dir i e1 j e2 => do d <- vget ds dir ;; gdir_value R (gl_handle lat) (fun _ _ => Ok c1) d i e1 j e2) Hi Hrg Hj Hconn) as (m & Em & A & B & W & Hm).
      { intros i j e1 e2 Hi1 Hj1 He1 He2 Hc _ _. unfold gt_calcValue. rewrite Hconn by auto. cbn [bind]. rewrite Hc. cbn [negb].
        destruct (Hdir i j Hi1 Hj1 Hc) as (D1 & D2 & D3). rewrite D1. cbn [bind].
        rewrite (@vget_ok _ ds (dr i j) (mkgdir 1 const false [] [] (mat_new R 0 0))) by (rewrite Ed, map_length, seq_length; auto). cbn [bind].
        rewrite Ed.
        rewrite (nth_indep _ _ ((fun d => mkgdir 1 const false (map std_atof (numbers d)) [] (mat_new R 0 0)) 0)) by (rewrite map_length, seq_length; auto).
        rewrite (map_nth (fun d => mkgdir 1 const false (map std_atof (numbers d)) [] (mat_new R 0 0)) (seq 0 (gl_dirs lat)) 0), seq_nth by auto.
        unfold gdir_value. cbn [gd_orbitals gd_constant gd_general gd_numbers Nat.add]. change (1 <? 1) with false. cbn [negb].
        destruct (G (dr i j) D2) as (_ & _ & _ & G4). unfold vv. destruct const.
        - cbn [bind]. rewrite (@vget_ok _ _ 0 (std_atof [])) by (rewrite map_length; lia). rewrite map_nth. reflexivity.
        - destruct D3 as [D3 D4]; auto. rewrite D3. cbn [bind]. rewrite (@vget_ok _ _ (h i j) (std_atof [])) by (rewrite map_length; lia). rewrite map_nth. reflexivity. }
      rewrite Em. cbn [bind]. eexists _, _, _. split; [reflexivity|]. split; [exact Hv|]. split; [exact Ev|]. split; [reflexivity|].
      intros i j Hi1 Hj1. cbn [gt_cached].
      unfold gt_value. rewrite !Hi by lia. cbn [bind]. unfold ix at 1 2. rewrite mget_ok by (auto; lia). f_equal.
      rewrite (Hm i 0 j 0 (0 + i * 1) (0 + j * 1)) by (auto; lia). reflexivity.
    }
  Qed.
End Finish.
