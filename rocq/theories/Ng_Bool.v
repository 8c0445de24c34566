(** Packing of vectors of bools: proofs for convertFromBoolean and convertToBoolean. *)
From Coq Require Import Ascii String.
From Verif Require Import Prelude Ring Str_Model Text_Model Dense_Model Crs_Model Ng_Model.
Import List.
Local Open Scope Z_scope.

Definition le_bytes (t : Z) : list Z := [t mod 256; t / 256 mod 256; t / 65536 mod 256; t / 16777216 mod 256].

Lemma shiftr8 t : Z.shiftr t 8 = t / 256.
Proof. rewrite Z.shiftr_div_pow2 by lia. reflexivity. Qed.

Lemma encode_ok (a0 a1 a2 a3 : Z) rest n :
  encodeBooleanSize (a0 :: a1 :: a2 :: a3 :: rest) n = Ok (le_bytes (Z.of_nat n) ++ rest).
Proof.
  unfold encodeBooleanSize. 
  replace (4 <=? List.length (a0 :: a1 :: a2 :: a3 :: rest))%nat with true
    by (symmetry; apply Nat.leb_le; simpl; lia).
  cbn [forM bind vset List.length Nat.ltb Nat.leb upd].
  generalize (Zle_0_nat n). set (t := Z.of_nat n). clearbody t. intros Ht.
  assert (E2 : t / 256 / 256 = t / 65536) by (rewrite Z.div_div by lia; auto).
  assert (E3 : t / 65536 / 256 = t / 16777216) by (rewrite Z.div_div by lia; auto).
  assert (E4 : t / 16777216 / 256 = t / 4294967296) by (rewrite Z.div_div by lia; auto).
  unfold le_bytes.
  cbn [encode_loop bind vset List.length Nat.ltb Nat.leb upd]. rewrite !shiftr8, E2, E3, E4.
  destruct (Z.eqb_spec (t / 256) 0) as [H1|H1].
  { rewrite <- E3, <- E2, H1. reflexivity. }
  destruct (Z.eqb_spec (t / 65536) 0) as [H2|H2].
  { rewrite <- E3, H2. reflexivity. }
  destruct (Z.eqb_spec (t / 16777216) 0) as [H3|H3].
  { rewrite H3. reflexivity. }
  destruct (Z.eqb_spec (t / 4294967296) 0); reflexivity.
Qed.

Lemma decode_ok t rest : 0 <= t -> decodeBooleanSize (le_bytes t ++ rest) = Ok (t mod 4294967296).
Proof.
  intros Ht. unfold decodeBooleanSize, le_bytes.
  match goal with |- context [ (4 <=? ?l)%nat ] => replace (4 <=? l)%nat with true by (symmetry; apply Nat.leb_le; simpl; lia) end.
  cbn [forM bind vget nth_error app]. cbn [bind]. f_equal.
  assert (E2 : t / 65536 = t / 256 / 256) by (rewrite Z.div_div by lia; auto).
  assert (E3 : t / 16777216 = t / 256 / 256 / 256) by (rewrite !Z.div_div by lia; auto).
  replace 4294967296 with (256 * (256 * (256 * 256))) by reflexivity.
  rewrite E3, E2. rewrite !Z.rem_mul_r by lia. rewrite <- ?E2. lia.
Qed.

(** Bit [t] of byte [j] after [k] values. *)
Definition packed (src : list bool) (hd c : list Z) (k : nat) : Prop :=
  exists body, c = hd ++ body /\ List.length body = (List.length src / 8 + 1)%nat /\
    forall j t, (j < List.length body)%nat -> 0 <= t ->
      Z.testbit (nth j body 0) t =
        (t <? 8) && (8 * Z.of_nat j + t <? Z.of_nat k) && nth (8 * j + Z.to_nat t) src false.

Lemma nth_head {A} (hd body : list A) j d : nth (List.length hd + j) (hd ++ body) d = nth j body d.
Proof. rewrite app_nth2 by lia. f_equal. lia. Qed.

Lemma pow2_test i t : 0 <= i -> 0 <= t -> Z.testbit (2 ^ i) t = (t =? i).
Proof. intros. rewrite Z.pow2_bits_eqb by lia. apply Z.eqb_sym. Qed.

Lemma mask_next i : ((i + 1) mod 8 <> 0)%nat -> (2 ^ (Z.of_nat (i mod 8)) * 2) mod 256 = 2 ^ (Z.of_nat ((i + 1) mod 8)).
Proof.
  intros H. assert (E : ((i + 1) mod 8 = i mod 8 + 1)%nat).
  { pose proof (Nat.div_mod i 8). pose proof (Nat.div_mod (i+1) 8). pose proof (Nat.mod_upper_bound i 8). pose proof (Nat.mod_upper_bound (i+1) 8). lia. }
  rewrite E. pose proof (Nat.mod_upper_bound (i+1) 8).
  assert (C : (i mod 8 < 7)%nat) by lia. destruct (i mod 8)%nat as [|[|[|[|[|[|[|]]]]]]]; auto; lia.
Qed.

Lemma advance {A} (x : A) i : 
  (let bytes := if (0 <? i)%nat && ((i + 1) mod 8 =? 0)%nat then 1%nat else 0%nat in
   if (bytes =? 1)%nat then Ok (x, 1, S (4 + i / 8), 0%nat)
   else Ok (x, (2 ^ Z.of_nat (i mod 8) * 2) mod 256, (4 + i / 8)%nat, bytes))
  = Ok (x, 2 ^ Z.of_nat (S i mod 8), (4 + S i / 8)%nat, 0%nat).
Proof.
  replace (S i) with (i + 1)%nat by lia. cbv zeta.
  pose proof (Nat.div_mod i 8). pose proof (Nat.div_mod (i + 1) 8).
  pose proof (Nat.mod_upper_bound i 8). pose proof (Nat.mod_upper_bound (i + 1) 8).
  destruct (Nat.eqb_spec ((i + 1) mod 8) 0) as [E|E].
  - destruct i as [|i]; [discriminate|]. cbn [Nat.ltb Nat.leb andb Nat.eqb]. rewrite E.
    replace ((S i + 1) / 8)%nat with (S (S i / 8)) by lia. reflexivity.
  - rewrite andb_false_r. cbn [Nat.eqb]. rewrite mask_next by auto. replace ((i + 1) / 8)%nat with (i / 8)%nat by lia. reflexivity.
Qed.

Lemma mask_pos i : 0 < 2 ^ Z.of_nat i.
Proof. apply Z.pow_pos_nonneg; lia. Qed.

Lemma pack_step src hd body i : (i < List.length src)%nat ->
  List.length body = (List.length src / 8 + 1)%nat ->
  (forall j t, (j < List.length body)%nat -> 0 <= t ->
      Z.testbit (nth j body 0) t =
        (t <? 8) && (8 * Z.of_nat j + t <? Z.of_nat i) && nth (8 * j + Z.to_nat t) src false) ->
  packed src hd (hd ++ (if nth i src false then upd body (i / 8) (Z.lor (nth (i / 8) body 0) (2 ^ Z.of_nat (i mod 8))) else body)) (S i).
Proof.
  intros Hi Lb Hb. eexists. split; [reflexivity|].
  split; [destruct (nth i src false); rewrite ?upd_length; auto|].
  intros j t Hj Ht.
  assert (Hj' : (j < List.length body)%nat) by (destruct (nth i src false); rewrite ?upd_length in Hj; auto). clear Hj.
  pose proof (Nat.div_mod i 8). pose proof (Nat.mod_upper_bound i 8).
  assert (Hq : (i / 8 < List.length body)%nat) by (pose proof (Nat.div_le_mono i (List.length src) 8); lia).
  destruct (Nat.eq_dec j (i / 8)) as [E|E].
  - subst j. destruct (Z.eq_dec t (Z.of_nat (i mod 8))) as [Et|Et].
    + subst t. destruct (Z.ltb_spec (Z.of_nat (i mod 8)) 8); [|lia].
      destruct (Z.ltb_spec (8 * Z.of_nat (i / 8) + Z.of_nat (i mod 8)) (Z.of_nat (S i))); [|lia].
      replace (8 * (i / 8) + Z.to_nat (Z.of_nat (i mod 8)))%nat with i by lia. cbn [andb].
      destruct (nth i src false) eqn:V.
      * rewrite nth_upd_eq by auto. rewrite Z.lor_spec, pow2_test by lia. rewrite Z.eqb_refl, orb_true_r. auto.
      * rewrite Hb by auto. replace (8 * (i / 8) + Z.to_nat (Z.of_nat (i mod 8)))%nat with i by lia. rewrite V, andb_false_r. auto.
    + assert (X : (8 * Z.of_nat (i / 8) + t <? Z.of_nat (S i)) = (8 * Z.of_nat (i / 8) + t <? Z.of_nat i)).
      { destruct (Z.ltb_spec (8 * Z.of_nat (i / 8) + t) (Z.of_nat (S i))), (Z.ltb_spec (8 * Z.of_nat (i / 8) + t) (Z.of_nat i)); auto; lia. }
      rewrite X, <- Hb by auto. destruct (nth i src false) eqn:V; auto.
      rewrite nth_upd_eq by auto. rewrite Z.lor_spec, pow2_test by lia.
      destruct (Z.eqb_spec t (Z.of_nat (i mod 8))); [lia|]. rewrite orb_false_r. auto.
  - assert (X : (t <? 8) && (8 * Z.of_nat j + t <? Z.of_nat (S i)) = (t <? 8) && (8 * Z.of_nat j + t <? Z.of_nat i)).
    { destruct (Z.ltb_spec t 8); auto. cbn [andb].
      destruct (Z.ltb_spec (8 * Z.of_nat j + t) (Z.of_nat (S i))), (Z.ltb_spec (8 * Z.of_nat j + t) (Z.of_nat i)); auto; try lia. }
    rewrite X, <- Hb by auto. destruct (nth i src false); auto. rewrite nth_upd_neq by auto. auto.
Qed.

Lemma pack_ok src : (0 < List.length src)%nat ->
  exists body, convertFromBoolean src = Ok (le_bytes (Z.of_nat (List.length src)) ++ body) /\
    List.length body = (List.length src / 8 + 1)%nat /\
    forall i, (i < List.length src)%nat ->
      Z.testbit (nth (i / 8) body 0) (Z.of_nat (i mod 8)) = nth i src false.
Proof.
  intros Hn. unfold convertFromBoolean. set (n := List.length src) in *.
  destruct (Nat.eqb_spec n 0) as [|_]; [lia|].
  replace (n / 8 + 5)%nat with (S (S (S (S (n / 8 + 1))))) by lia. cbn [repeat].
  rewrite encode_ok. cbn [bind]. set (hd := le_bytes (Z.of_nat n)).
  assert (Lh : List.length hd = 4%nat) by reflexivity. clearbody hd.
  loopM (fun k '(c, mask, j, bytes) => packed src hd c k /\ mask = 2 ^ (Z.of_nat (k mod 8)) /\
     j = (4 + k / 8)%nat /\ bytes = 0%nat) as [[[c mask] j] bytes] E H.
  - split; [|auto]. exists (repeat 0 (n / 8 + 1)). split; auto. rewrite repeat_length. split; auto.
    intros j t Hj Ht. rewrite nth_repeat_in by auto. rewrite Z.testbit_0_l.
    change (Z.of_nat 0) with 0. destruct (Z.ltb_spec (8 * Z.of_nat j + t) 0); [lia|]. rewrite andb_false_r. auto.
  - intros i [[[c mask] j] bytes] Hi ([body (Ec & Lb & Hb)] & Em & Ej & Ey). subst mask j bytes.
    assert (Hq : (i / 8 < List.length body)%nat) by (pose proof (Nat.div_le_mono i n 8); unfold n in *; lia).
    assert (Lc : List.length c = (4 + List.length body)%nat) by (subst c; rewrite app_length; lia).
    destruct (Nat.ltb_spec (4 + i / 8) (List.length c)); [|lia].
    destruct (Z.ltb_spec 0 (2 ^ Z.of_nat (i mod 8))); [|pose proof (mask_pos (i mod 8)); lia]. cbn [andb].
    rewrite (@vget_ok _ src i false) by (unfold n in *; lia). cbn [bind].
    rewrite (@vget_ok _ c (4 + i / 8) 0) by lia. cbn [bind].
    assert (N : nth (4 + i / 8) c 0 = nth (i / 8) body 0) by (subst c; rewrite <- Lh; apply nth_head).
    rewrite N.
    assert (S1 : (if nth i src false then vset c (4 + i / 8) (Z.lor (nth (i / 8) body 0) (2 ^ Z.of_nat (i mod 8))) else Ok c) =
      Ok (hd ++ (if nth i src false then upd body (i / 8) (Z.lor (nth (i / 8) body 0) (2 ^ Z.of_nat (i mod 8))) else body))).
    { destruct (nth i src false); [|subst c; auto]. rewrite vset_ok by lia. f_equal. subst c. rewrite <- Lh. apply upd_app_r. }
    rewrite S1. cbn [bind].
    eexists. split; [apply advance|]. cbn beta iota. split; [|auto]. apply pack_step; auto. unfold n in *; lia.
  - rewrite E. cbn [bind]. destruct H as ([body (Ec & Lb & Hb)] & _). subst c. exists body. split; auto. split; auto.
    intros i Hi. rewrite Hb by (pose proof (Nat.div_le_mono i n 8); lia).
    pose proof (Nat.mod_upper_bound i 8). pose proof (Nat.div_mod i 8).
    destruct (Z.ltb_spec (Z.of_nat (i mod 8)) 8); [|lia].
    destruct (Z.ltb_spec (8 * Z.of_nat (i / 8) + Z.of_nat (i mod 8)) (Z.of_nat (0 + n))); [|lia].
    cbn [andb]. f_equal. lia.
Qed.

Lemma land_pow2 x i : 0 <= i -> negb (Z.land x (2 ^ i) =? 0) = Z.testbit x i.
Proof.
  intros Hi. destruct (Z.testbit x i) eqn:E.
  - destruct (Z.eqb_spec (Z.land x (2 ^ i)) 0) as [Z0|]; auto. exfalso.
    assert (Z.testbit (Z.land x (2 ^ i)) i = true) by (rewrite Z.land_spec, E, pow2_test, Z.eqb_refl; auto).
    rewrite Z0, Z.testbit_0_l in H. discriminate.
  - assert (Z0 : Z.land x (2 ^ i) = 0).
    { apply Z.bits_inj'. intros t Ht. rewrite Z.land_spec, Z.testbit_0_l, pow2_test by lia.
      destruct (Z.eqb_spec t i) as [->|]; [rewrite E|]; auto using andb_false_r. }
    rewrite Z0. auto.
Qed.

Lemma unpack_ok dest src body : Z.of_nat (List.length src) < 4294967296 ->
  List.length body = (List.length src / 8 + 1)%nat ->
  (forall i, (i < List.length src)%nat ->
      Z.testbit (nth (i / 8) body 0) (Z.of_nat (i mod 8)) = nth i src false) ->
  convertToBoolean dest (le_bytes (Z.of_nat (List.length src)) ++ body) = Ok src.
Proof.
  intros Hn Lb Hb. unfold convertToBoolean. set (n := List.length src) in *.
  rewrite decode_ok by lia. cbn [bind]. rewrite Z.mod_small by lia. rewrite Nat2Z.id.
  set (x := le_bytes (Z.of_nat n) ++ body).
  assert (Lx : List.length x = (4 + List.length body)%nat) by (unfold x; rewrite app_length; auto).
  pose proof (Nat.div_mod n 8). pose proof (Nat.mod_upper_bound n 8).
  destruct (Z.leb_spec (Z.of_nat n) (8 * Z.of_nat (List.length x))); [|lia].
  loopM (fun k '(d, mask, j, bytes) => List.length d = n /\ (forall i, (i < k)%nat -> nth i d false = nth i src false) /\
     mask = 2 ^ (Z.of_nat (k mod 8)) /\ j = (4 + k / 8)%nat /\ bytes = 0%nat) as [[[d mask] j] bytes] E H'.
  - rewrite vresize_length. split; auto. split; [intros; lia|auto].
  - intros i [[[d mask] j] bytes] Hi (Ld & Hd & Em & Ej & Ey). subst mask j bytes.
    assert (Hq : (i / 8 < List.length body)%nat) by (pose proof (Nat.div_le_mono i n 8); lia).
    destruct (Nat.ltb_spec (4 + i / 8) (List.length x)); [|lia].
    destruct (Z.ltb_spec 0 (2 ^ Z.of_nat (i mod 8))); [|pose proof (mask_pos (i mod 8)); lia]. cbn [andb].
    rewrite (@vget_ok _ x (4 + i / 8) 0) by lia. cbn [bind].
    assert (N : nth (4 + i / 8) x 0 = nth (i / 8) body 0) by (unfold x; apply (nth_head (le_bytes (Z.of_nat n)))).
    rewrite N, land_pow2, Hb by lia. rewrite vset_ok by lia. cbn [bind].
    eexists. split; [apply advance|]. cbn beta iota. rewrite upd_length. split; auto. split; [|auto].
    intros i' Hi'. destruct (Nat.eq_dec i' i) as [->|Ne].
    + apply nth_upd_eq. lia.
    + rewrite nth_upd_neq by auto. apply Hd. lia.
  - rewrite E. cbn [bind]. destruct H' as (Ld & Hd & _). f_equal. apply (list_eq_nth d src false); auto.
    intros i Hi. apply Hd. lia.
Qed.

Lemma pack_len v c : convertFromBoolean v = Ok c ->
  List.length c = match v with [] => 4%nat | _ => (List.length v / 8 + 5)%nat end.
Proof.
  destruct v as [|b v]; [intros H; inversion H; auto|]. intros H.
  destruct (pack_ok (b :: v)) as (body & E & L & _); [simpl; lia|]. rewrite E in H. apply Ok_inj in H. subst c.
  rewrite app_length, L. change (List.length (le_bytes (Z.of_nat (List.length (b :: v))))) with 4%nat. lia.
Qed.

Lemma unpack_pack v : Z.of_nat (List.length v) < 4294967296 ->
  exists c, convertFromBoolean v = Ok c /\ forall dest, convertToBoolean dest c = Ok v.
Proof.
  destruct v as [|b v].
  - intros _. exists [0; 0; 0; 0]. split; reflexivity.
  - intros H. destruct (pack_ok (b :: v)) as (body & E & L & B); [simpl; lia|].
    eexists. split; eauto. intros dest. apply unpack_ok; auto.
Qed.

(** Only the size modulo 2^32 is kept. *)
Lemma unpack_size dest v c w : convertFromBoolean v = Ok c -> convertToBoolean dest c = Ok w ->
  Z.of_nat (List.length w) = Z.of_nat (List.length v) mod 4294967296.
Proof.
  intros Hc Hw.
  assert (D : decodeBooleanSize c = Ok (Z.of_nat (List.length v) mod 4294967296)).
  { destruct v as [|b v].
    - inversion Hc; subst. reflexivity.
    - destruct (pack_ok (b :: v)) as (body & E & L & B); [simpl; lia|]. rewrite E in Hc. apply Ok_inj in Hc. subst c.
      apply decode_ok. lia. }
  unfold convertToBoolean in Hw. rewrite D in Hw. cbn [bind] in Hw.
  set (e := Z.of_nat (List.length v) mod 4294967296) in *.
  assert (He : 0 <= e) by (unfold e; apply Z.mod_pos_bound; lia).
  destruct (e <=? 8 * Z.of_nat (List.length c)); [|discriminate].
  apply bind_ok in Hw. destruct Hw as ([[[d m] j] y] & Hd & Hr). apply Ok_inj in Hr. subst d.
  assert (G : forall k i (s t : list bool * Z * nat * nat),
    forM k i (fun i '(dest, mask, j, bytes) =>
         guard ((j <? List.length c)%nat && (0 <? mask)) ;;
         do xj <- vget c j ;;
         do dest <- vset dest i (negb (Z.land xj mask =? 0)) ;;
         let mask := ((mask * 2) mod 256) in
         let bytes := if (0 <? i)%nat && ((i + 1) mod 8 =? 0)%nat then S bytes else bytes in
         if (bytes =? 1)%nat then Ok (dest, 1, S j, 0%nat) else Ok (dest, mask, j, bytes)) s = Ok t ->
    List.length (fst (fst (fst t))) = List.length (fst (fst (fst s)))).
  { induction k as [|k IH]; intros i s t Hf; cbn [forM] in Hf.
    - inversion Hf; auto.
    - apply bind_ok in Hf. destruct Hf as (s' & Hs & Hf). rewrite (IH _ _ _ Hf). clear Hf IH.
      destruct s as [[[d0 m0] j0] y0].
      destruct ((j0 <? List.length c)%nat && (0 <? m0)); [|discriminate].
      apply bind_ok in Hs. destruct Hs as (xj & _ & Hs). apply bind_ok in Hs. destruct Hs as (d1 & Hv & Hs).
      assert (L1 : List.length d1 = List.length d0).
      { unfold vset in Hv. destruct (i <? List.length d0)%nat; inversion Hv. apply upd_length. }
      cbv zeta in Hs. destruct (_ =? 1)%nat; apply Ok_inj in Hs; subst s'; auto. }
  apply G in Hd. cbn [fst] in Hd. rewrite vresize_length in Hd. lia.
Qed.
