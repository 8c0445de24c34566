(** How each type of value is kept in the file, and that it is read back. *)
From Coq Require Import Ascii String.
From Verif Require Import Prelude Ring Str_Model Str_Proofs Text_Model Text_Proofs Dense_Model Crs_Model Crs_Spec
  Ng_Model Ng_Spec Ng_Proofs Ng_Bool.
Import List.

Section C.
  Variable R : cring.
  Notation F := (car R).
  Notation file := (file F).
  Implicit Types (f g : file) (n : str).

  Lemma fst_eq {A B} (p : A * B) a b : p = (a, b) -> fst p = a.
  Proof. intros ->. auto. Qed.

  (** ** Single data sets without a tag *)
  Section Plain.
    Variable T : Type.
    Variable enc : T -> list (cell F).
    Variable w : file -> str -> T -> wmode -> res file.
    Variable r : file -> str -> T -> res T.
    Variable ok : T -> Prop.
    Variable ow : Prop.
    Variable w_no : forall f n x, ok x -> w f n x NO_OVERWRITE = Ok (fst (internalWrite F f (full n) (enc x))).
    Variable w_yes : forall f n x, ow -> ok x -> w f n x ALLOW_OVERWRITE = Ok (fst (overwriteRaw F f (full n) (enc x))).
    Variable r_ok : forall f n x old, n <> [] -> ok x -> leaf_has F T enc f n x -> r f n old = Ok x.

    Definition plain : codec F T.
    Proof.
      refine (mkcodec F T w r (fun f n x => ok x /\ leaf_has F T enc f n x) ok ow ow _ _ _ _ _).
      - intros f g n x _ H [K L]. split; auto. eapply leaf_ext; eauto.
      - intros f n x Hn Hf Hp K. destruct (leaf_write F T enc f n x Hf Hp) as (g & E & L & S).
        exists g. rewrite w_no, E; auto.
      - intros f n x0 x O Hn Hp [K0 L0] K. destruct (leaf_overw F T enc f n x0 x Hn L0 Hp) as (g & E & L & S).
        exists g. rewrite w_yes, E; auto.
      - intros f n x O Hn Hf Hp K. destruct (leaf_writef F T enc f n x Hf Hp) as (g & E & L & S).
        exists g. rewrite w_yes, E; auto.
      - intros f n x old Hn [K L]. auto.
    Defined.
  End Plain.

  Definition cInt : codec F Z.
  Proof.
    refine (plain Z (fun z => [CI z]) (wr R KInt) (rd R KInt) (storable R KInt) True _ _ _); intros; auto.
    simpl. unfold read_int, read_num. erewrite leaf_data by eauto. auto.
  Defined.
  Definition cFlt : codec F F.
  Proof.
    refine (plain F (fun z => [CF z]) (wr R KFlt) (rd R KFlt) (storable R KFlt) True _ _ _); intros; auto.
    simpl. unfold read_flt, read_num. erewrite leaf_data by eauto. auto.
  Defined.
  Definition cBool : codec F bool.
  Proof.
    refine (plain bool (fun b : bool => [CI (if b then 1 else 0)%Z]) (wr R KBool) (rd R KBool) (storable R KBool) True _ _ _);
      intros; auto.
    simpl. unfold read_bool, read_int, read_num. erewrite leaf_data by eauto. destruct x; auto.
  Defined.

  Lemma ints_CI (l : list Z) : ints_of F (map CI l) = Ok l.
  Proof. induction l as [|z l IH]; auto. cbn [map ints_of]. rewrite IH. auto. Qed.
  Lemma flts_CF (l : list F) : flts_of F (map CF l) = Ok l.
  Proof. induction l as [|z l IH]; auto. cbn [map flts_of]. rewrite IH. auto. Qed.

  Lemma read_other (l : list (cell F)) T (enc : T -> list (cell F)) f n x : n <> [] -> enc x = l -> l <> [] ->
    leaf_has F T enc f n x -> readInternal F f n OTHER = Ok (l, false).
  Proof.
    intros Hn E Hl L. unfold readInternal. erewrite leaf_data by eauto. cbn [bind]. rewrite E.
    destruct l as [|c l]; [contradiction|]. erewrite leaf_disk by eauto. auto.
  Qed.
  Lemma map_ne {A B} (h : A -> B) l : l <> [] -> map h l <> [].
  Proof. destruct l; [contradiction|discriminate]. Qed.

  Lemma write_vec_no f n l : l <> [] -> write_vec F f n false l NO_OVERWRITE = fst (internalWrite F f (full n) l).
  Proof. destruct l; [contradiction|auto]. Qed.
  Lemma write_vec_yes f n l : l <> [] -> write_vec F f n false l ALLOW_OVERWRITE = fst (overwriteRaw F f (full n) l).
  Proof. destruct l; [contradiction|auto]. Qed.

  Definition cStr : codec F str.
  Proof.
    refine (plain str (chars F) (wr R KStr) (rd R KStr) (storable R KStr) False _ _ _).
    - intros; auto.
    - intros; contradiction.
    - intros f n x old Hn K L. simpl in *. unfold read_string, read_vec_int.
      erewrite (read_other (chars F x)); eauto; [|apply map_ne; auto]. cbn [bind].
      unfold chars. rewrite <- (map_map (fun c => Z.of_N (N_of_ascii c)) (@CI F)), ints_CI. cbn [bind]. f_equal.
      rewrite map_map. rewrite <- (map_id x) at 2. apply map_ext. intros c. rewrite N2Z.id. apply ascii_N_embedding.
  Defined.
  Definition cInts : codec F (list Z).
  Proof.
    refine (plain (list Z) (map CI) (wr R KInts) (rd R KInts) (storable R KInts) True _ _ _).
    - intros f n x K. simpl. rewrite write_vec_no; auto. apply map_ne; auto.
    - intros f n x O K. simpl. rewrite write_vec_yes; auto. apply map_ne; auto.
    - intros f n x old Hn K L. simpl in *. unfold read_vec_int.
      erewrite (read_other (map CI x)); eauto; [|apply map_ne; auto]. cbn [bind]. apply ints_CI.
  Defined.

  Definition bits (v : list bool) : list Z := match convertFromBoolean v with Ok c => c | _ => [] end.
  Lemma bits_ok v : (Z.of_nat (List.length v) < 4294967296)%Z -> convertFromBoolean v = Ok (bits v) /\ bits v <> [] /\
    forall d, convertToBoolean d (bits v) = Ok v.
  Proof.
    intros H. destruct (unpack_pack v H) as (c & E & D). unfold bits. rewrite E. split; auto. split; auto.
    apply pack_len in E. destruct c; [|discriminate]. destruct v; simpl in E; try lia.
  Qed.
  Definition cBools : codec F (list bool).
  Proof.
    refine (plain (list bool) (fun v => map CI (bits v)) (wr R KBools) (rd R KBools) (storable R KBools) True _ _ _).
    - intros f n x K. destruct (bits_ok x K) as (E & N & D). simpl. unfold write_bools. rewrite E. cbn [bind].
      rewrite write_vec_no; auto. apply map_ne; auto.
    - intros f n x O K. destruct (bits_ok x K) as (E & N & D). simpl. unfold write_bools. rewrite E. cbn [bind].
      rewrite write_vec_yes; auto. apply map_ne; auto.
    - intros f n x old Hn K L. destruct (bits_ok x K) as (E & N & D). simpl in *. unfold read_bools, read_vec_int.
      erewrite (read_other (map CI (bits x))); eauto; [|apply map_ne; auto]. cbn [bind]. rewrite ints_CI. cbn [bind]. auto.
  Defined.

  (** ** Data sets with a tag *)
  Lemma drop_last_none r : drop_last r = None -> ~ In slash r.
  Proof.
    induction r as [|c r IH]; simpl; auto. destruct (Ascii.eqb c "/") eqn:E; [discriminate|].
    apply Ascii.eqb_neq in E. intros H [K|K]; auto. apply (IH H K).
  Qed.
  Lemma full_parent n : n <> [] -> exists q c, full n = q ++ slash :: c /\ ~ In slash c /\ parent (full n) = Some q.
  Proof.
    intros Hn. destruct (parent (full n)) as [q|] eqn:E.
    - pose proof E as E'. apply parent_spec in E. destruct E as [c [E N]]. exists q, c. auto.
    - exfalso. apply drop_last_none in E. apply E. apply -> in_rev. rewrite full_ne by auto.
      apply in_or_app. left. right. right. right. left. auto.
  Qed.
  Lemma parent_tag n : n <> [] -> parent (full (tagname n)) = parent (full n).
  Proof.
    intros Hn. destruct (full_parent n Hn) as (q & c & E & N & P). rewrite P. unfold tagname. rewrite full_app by auto.
    rewrite E, <- app_assoc. apply parent_child. intros I. apply in_app_or in I. destruct I; [auto|]. apply tag_noslash; auto.
  Qed.
  Lemma par_tag f n : n <> [] -> par F f n -> par F f (tagname n).
  Proof. intros Hn. unfold par, parent_ok. rewrite parent_tag by auto. auto. Qed.
  Lemma par_mono f g n : par F f n -> (forall k, f k = Some Group -> g k = Some Group) -> par F g n.
  Proof.
    unfold par, parent_ok. intros H K. destruct (parent (full n)) as [q|]; auto.
    destruct (f q) as [[|]|] eqn:E; try discriminate. rewrite (K q E). auto.
  Qed.
  Lemma par_child g n c : n <> [] -> ~ In slash c -> g (full n) = Some Group -> par F g (n ++ slash :: c).
  Proof. intros Hn N H. unfold par, parent_ok. rewrite full_app, parent_child, H; auto. Qed.

  Definition tagged_has (t : ascii) (T : Type) (enc : T -> list (cell F)) f n (x : T) : Prop :=
    f (full n) = Some (Data (enc x)) /\ f (full (tagname n)) = Some (Data [CI (Z.of_N (N_of_ascii t))]).

  Lemma tag_write f n t : n <> [] -> fresh F f n -> par F f n ->
    exists g, writeComplexOrReal F f n t = g /\ g (full (tagname n)) = Some (Data [CI (Z.of_N (N_of_ascii t))]) /\
      g (full n) = None /\ par F g n /\ same_off F f g n.
  Proof.
    intros Hn Hf Hp. eexists. split; [reflexivity|]. unfold writeComplexOrReal, write_num. cbn [fst].
    rewrite write_new; [|apply Hf, foot_tag|apply (par_tag f n); auto]. cbn [fst].
    destruct (tag_off n Hn) as [T1 T2].
    split; [apply fset_eq|]. split; [rewrite fset_neq by auto; apply Hf, foot_full|]. split.
    - eapply par_mono; eauto. intros k Hk. rewrite fset_neq; auto. intros ->. rewrite Hf in Hk by apply foot_tag. discriminate.
    - intros k Hk. apply fset_neq. intros ->. apply Hk, foot_tag.
  Qed.
  Lemma tag_keep f n t x : f (full (tagname n)) = Some x -> writeComplexOrReal F f n t = f.
  Proof. intros H. unfold writeComplexOrReal, write_num. erewrite write_exists; eauto. Qed.

  Lemma tagged_write t l f n : n <> [] -> fresh F f n -> par F f n ->
    exists g, fst (internalWrite F (writeComplexOrReal F f n t) (full n) l) = g /\
      g (full n) = Some (Data l) /\ g (full (tagname n)) = Some (Data [CI (Z.of_N (N_of_ascii t))]) /\ same_off F f g n.
  Proof.
    intros Hn Hf Hp. destruct (tag_write f n t Hn Hf Hp) as (g & -> & A & B & P & S).
    rewrite write_new by auto. cbn [fst]. eexists. split; [reflexivity|]. destruct (tag_off n Hn) as [T1 T2].
    split; [apply fset_eq|]. split; [rewrite fset_neq; auto|].
    intros k Hk. rewrite fset_neq; auto. intros ->. apply Hk, foot_full.
  Qed.
  Lemma tagged_writef t l f n : n <> [] -> fresh F f n -> par F f n ->
    exists g, fst (overwriteRaw F (writeComplexOrReal F f n t) (full n) l) = g /\
      g (full n) = Some (Data l) /\ g (full (tagname n)) = Some (Data [CI (Z.of_N (N_of_ascii t))]) /\ same_off F f g n.
  Proof.
    intros Hn Hf Hp. destruct (tag_write f n t Hn Hf Hp) as (g & E & A & B & P & S).
    destruct (tagged_write t l f n Hn Hf Hp) as (h & Eh & H). exists h. split; auto.
    rewrite <- Eh, E. rewrite over_new, write_new; auto.
  Qed.

  Definition cFlts : codec F (list F).
  Proof.
    refine (mkcodec F (list F) (wr R KFlts) (rd R KFlts)
      (fun f n x => storable R KFlts x /\ tagged_has "R" _ (map CF) f n x) (storable R KFlts) True True _ _ _ _ _).
    - intros f g n x _ H [K [A B]]. split; auto. split; rewrite <- H; auto using foot_full, foot_tag.
    - intros f n x Hn Hf Hp K. destruct (tagged_write "R" (map CF x) f n Hn Hf Hp) as (g & E & A & B & S).
      exists g. simpl. unfold write_vec. destruct (map CF x) eqn:M; [elim (map_ne (@CF F) x K); auto|]. rewrite E.
      repeat split; auto. rewrite M. auto.
    - intros f n x0 x _ Hn Hp [K0 [A0 B0]] K. destruct (leaf_over F f n (map CF x) _ Hn A0 Hp) as (g & E & A & B & S).
      exists g. simpl. unfold write_vec. destruct (map CF x) eqn:M; [elim (map_ne (@CF F) x K); auto|].
      erewrite tag_keep by eauto. rewrite E. repeat split; auto; [rewrite M; auto|]. rewrite B. auto.
    - intros f n x _ Hn Hf Hp K. destruct (tagged_writef "R" (map CF x) f n Hn Hf Hp) as (g & E & A & B & S).
      exists g. simpl. unfold write_vec. destruct (map CF x) eqn:M; [elim (map_ne (@CF F) x K); auto|]. rewrite E.
      repeat split; auto. rewrite M. auto.
    - intros f n x old Hn [K [A B]]. simpl. unfold read_vec_flt, readInternal, h5_data. rewrite A. cbn [bind].
      destruct (map CF x) eqn:M; [elim (map_ne (@CF F) x K); auto|]. rewrite <- M.
      unfold getReadEnumOnDisk, read_int, read_num, h5_data. rewrite B. cbn. apply flts_CF.
  Defined.

  Lemma flat2_ne (l : list (F * F)) : l <> [] -> flat2 F l <> [].
  Proof. destruct l; [contradiction|discriminate]. Qed.
  Lemma flat2_even (l : list (F * F)) : Nat.odd (List.length (flat2 F l)) = false.
  Proof. induction l as [|p l IH]; auto. Qed.
  Lemma flts_flat2 (l : list (F * F)) : exists u, flts_of F (flat2 F l) = Ok u /\ pairs_of F u = l.
  Proof.
    induction l as [|[a b] l (u & E & P)]; [exists []; auto|]. exists (a :: b :: u).
    change (flat2 F ((a, b) :: l)) with (CF a :: CF b :: flat2 F l). cbn [flts_of]. rewrite E. cbn. rewrite P. auto.
  Qed.
  Definition cCplx : codec F (list (F * F)).
  Proof.
    refine (mkcodec F (list (F * F)) (wr R KCplx) (rd R KCplx)
      (fun f n x => storable R KCplx x /\ tagged_has "C" _ (flat2 F) f n x) (storable R KCplx) False False _ _ _ _ _).
    - intros f g n x _ H [K [A B]]. split; auto. split; rewrite <- H; auto using foot_full, foot_tag.
    - intros f n x Hn Hf Hp K. destruct (tagged_write "C" (flat2 F x) f n Hn Hf Hp) as (g & E & A & B & S).
      exists g. simpl. unfold write_cvec. destruct x as [|p x]; [elim K; auto|]. rewrite E.
      repeat split; auto.
    - intros; contradiction.
    - intros; contradiction.
    - intros f n x old Hn [K [A B]]. simpl. unfold read_cvec, readInternal, h5_data. rewrite A. cbn [bind].
      destruct (flat2 F x) eqn:M; [elim (flat2_ne x K); auto|]. rewrite <- M.
      unfold getReadEnumOnDisk, read_int, read_num, h5_data. rewrite B. cbn [bind].
      replace (Z.of_N (N_of_ascii "C") =? Z.of_N (N_of_ascii "C"))%Z with true by reflexivity.
      cbn [readEnum_eqb andb]. rewrite flat2_even. cbn [bind]. destruct (flts_flat2 x) as (u & E & P).
      rewrite E. cbn [bind]. rewrite P. auto.
  Defined.
End C.
