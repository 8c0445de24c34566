From Coq Require Import Ascii String.
From Verif Require Import Prelude Ring Str_Model Str_Spec Str_Proofs Text_Model Text_Proofs Ng_Proofs Dense_Model Dense_Spec Dense_Proofs
  Geo_Model Geo_Spec Geo_Proofs Geo_Proofs4
  Input_Model Input_Spec Input_Proofs Input_Parse Input_Read Input_Props Inc_Model Inc_Spec Inc_Proofs Inc_Props Gin_Model Gin_Spec Gin_Proofs.
Import List.

(** The lattice found: pairs connected, their direction and the position of the coupling *)
Record good_lat (L : nat) (s : shape) (lat : glat) (cb : nat -> nat -> bool) (dr h : nat -> nat -> nat) : Prop := mkgood {
  g_dirs : gl_dirs lat = directions s;
  g_conn : forall i j, i < L -> j < L -> gl_conn lat i j = Ok (cb i j);
  g_size : forall d, d < directions s -> gl_size lat d = Ok (Z.of_nat (size_of L s d));
  g_dir : forall i j, cb i j = true -> i < L -> j < L -> gl_dir lat i j = Ok (dr i j);
  g_handle : forall i j, cb i j = true -> i < L -> j < L -> gl_handle lat i j = Ok (h i j);
  g_bond : forall i j d k, bond L s i j d k -> j < L /\ i < j /\ cb i j = true /\ cb j i = true /\ dr i j = d /\ dr j i = d /\ h i j = k /\ h j i = k /\
    d < directions s /\ k < size_of L s d;
  g_only : forall i j, i < L -> j < L -> cb i j = true -> exists d k, bond L s i j d k \/ bond L s j i d k
}.

Lemma w64_id z : (0 <= z < 18446744073709551616)%Z -> w64 z = z.
Proof. intros H. unfold w64. apply Z.mod_small. auto. Qed.

Definition chain_lat (g : chain) : glat :=
  mkglat 1 (fun _ => Ok (chain_getVectorSize g)) (fun i j => Ok (chain_connected g (Z.of_nat i) (Z.of_nat j)))
    (fun _ _ => Ok 0) (zn (fun i j => Ok (chain_handle g i j))).
Lemma chain_good L px d : (Z.of_nat L <= 2147483647)%Z -> fits L (AChain px d) ->
  good_lat L (AChain px d) (chain_lat (chain_new (Z.of_nat L) px d))
    (fun i j => chain_connected (chain_new (Z.of_nat L) px d) (Z.of_nat i) (Z.of_nat j)) (fun _ _ => 0) (fun i j => min i j).
Proof.
  intros HL (F1 & F2 & F3). set (D := distance d) in *.
  assert (ED : match d with Some x => w64 x | None => 1%Z end = Z.of_nat D).
  { unfold D. destruct d as [n|]; cbn [distance] in *; [|reflexivity]. unfold D in F2. cbn [distance] in F2. rewrite w64_id; lia. }
  assert (Dp : 0 < D). { unfold D. destruct d as [n|]; cbn [distance] in *; lia. }
  assert (Eg : chain_new (Z.of_nat L) px d = mkchain (Z.of_nat L) (periodic px) (Z.of_nat D)).
  { unfold chain_new. rewrite ED. reflexivity. }
  rewrite Eg. set (g := mkchain _ _ _).
  assert (C : forall i j, chain_connected g (Z.of_nat i) (Z.of_nat j) = true <-> i <> j /\ (i + D = j \/ j + D = i \/ (periodic px = true /\ (i + (L - D) = j \/ j + (L - D) = i)))).
  { intros i j. unfold chain_connected, g. cbn [ch_d ch_L ch_per]. rewrite (w64_id (Z.of_nat L - Z.of_nat D)) by lia.
    destruct (Z.eqb_spec (Z.of_nat i) (Z.of_nat j)); [split; [discriminate|intros [H _]; lia]|].
    destruct (Z.ltb_spec (Z.of_nat i) (Z.of_nat j)); destruct (Z.ltb_spec (Z.of_nat j) (Z.of_nat i)); try lia;
      (destruct (periodic px) eqn:Ep; cbn [negb]; [rewrite orb_true_iff, !Z.eqb_eq|rewrite Z.eqb_eq]); split; intros H';
      (split; [lia|]) || idtac; try lia;
      try (destruct H' as [H'|H']; [destruct (Nat.lt_ge_cases i j); [left; lia|right; left; lia]|right; right; split; [reflexivity|lia]]);
      try (destruct H' as (N & [H'|[H'|[E H']]]); [|..]; try discriminate; lia). }
  constructor.
  - reflexivity.
  - intros i j _ _. reflexivity.
  - intros k Hk. cbn [chain_lat gl_size size_of]. unfold chain_getVectorSize, g. cbn [ch_d ch_L ch_per]. fold D.
    destruct (periodic px) eqn:Ep; rewrite w64_id by lia; f_equal; lia.
  - reflexivity.
  - intros i j _ _ _. cbn [chain_lat gl_handle]. unfold zn, chain_handle. cbn [bind]. destruct (Z.ltb_spec (Z.of_nat i) (Z.of_nat j)); rewrite Nat2Z.id; f_equal; lia.
  - intros i j e k B. inversion B; subst; cbn [size_of directions]; fold D.
    + match goal with H : _ < L |- _ => fold D in H end. repeat split; try lia; try (apply C; lia).
    + match goal with H : _ < distance d |- _ => fold D in H end. match goal with H : periodic px = true |- _ => specialize (F3 H); rename H into HP end.
      repeat split; try lia; try (apply C; split; [lia|right; right; split; [auto|lia]]); rewrite HP; lia.
  - intros i j Hi Hj Hc. apply C in Hc. destruct Hc as (N & [H|[H|[E [H|H]]]]); subst.
    + exists 0, i. left. apply chain_bond. auto.
    + exists 0, j. right. apply chain_bond. auto.
    + exists 0, i. left. apply chain_ring; auto. fold D. lia.
    + exists 0, j. right. apply chain_ring; auto. fold D. lia.
Qed.

Definition star_lat (L : Z) : glat :=
  mkglat 1 (fun d => star_getVectorSize L (Z.of_nat d)) (fun i j => Ok (star_connected (Z.of_nat i) (Z.of_nat j)))
    (fun _ _ => Ok 0) (zn (fun i j => Ok (star_handle i j))).
Lemma star_good L : (Z.of_nat L <= 2147483647)%Z -> fits L AStar ->
  good_lat L AStar (star_lat (Z.of_nat L)) (fun i j => star_connected (Z.of_nat i) (Z.of_nat j)) (fun _ _ => 0) (fun i j => max i j - 1).
Proof.
  intros HL F. cbn [fits] in F.
  assert (C : forall i j, star_connected (Z.of_nat i) (Z.of_nat j) = true <-> i <> j /\ (i = 1 \/ j = 1)).
  { intros i j. unfold star_connected. destruct (Z.eqb_spec (Z.of_nat i) (Z.of_nat j)); [split; [discriminate|intros [H _]; lia]|].
    rewrite orb_true_iff, !Z.eqb_eq. lia. }
  constructor.
  - reflexivity.
  - reflexivity.
  - intros d Hd. cbn [directions] in Hd. assert (d = 0) by lia. subst d. cbn [star_lat gl_size size_of]. unfold star_getVectorSize. cbn [Z.of_nat Z.eqb negb]. rewrite w64_id by lia. f_equal. lia.
  - reflexivity.
  - intros i j Hc Hi Hj. apply C in Hc. cbn [star_lat gl_handle]. unfold zn, star_handle. cbn [bind]. destruct (Z.ltb_spec (Z.of_nat i) (Z.of_nat j)); rewrite w64_id by lia; f_equal; lia.
  - intros i j d k B. inversion B; subst; cbn [size_of directions]; repeat split; try lia; apply C; lia.
  - intros i j Hi Hj Hc. apply C in Hc. destruct Hc as (N & [-> | ->]).
    + exists 0. destruct (Nat.eq_dec j 0) as [-> |]; [exists 0; right; constructor|]. exists (j - 1). left. constructor. lia.
    + exists 0. destruct (Nat.eq_dec i 0) as [-> |]; [exists 0; left; constructor|]. exists (i - 1). right. constructor. lia.
Qed.

Definition ladder_lat (g : ladder) : glat :=
  mkglat 2 (fun d => ladder_getVectorSize g (Z.of_nat d)) (fun i j => Ok (ladder_connected g (Z.of_nat i) (Z.of_nat j)))
    (zn (ladder_calcDir g)) (zn (ladder_handle g)).
Lemma divmod_nat a b q r : r < b -> a = r + q * b -> (Z.of_nat a / Z.of_nat b = Z.of_nat q /\ Z.of_nat a mod Z.of_nat b = Z.of_nat r)%Z.
Proof.
  intros Hr ->. rewrite <- Nat2Z.inj_div, <- Nat2Z.inj_mod. rewrite Nat.div_add, Nat.mod_add by lia. rewrite Nat.div_small, Nat.mod_small by lia. split; f_equal; lia.
Qed.
Lemma ladder_good L leg px py gb : (Z.of_nat L <= 2147483647)%Z -> fits L (ALadder leg px py) ->
  exists g, ladder_new (Z.of_nat L) (Z.of_nat leg) px py gb = Ok g /\
  good_lat L (ALadder leg px py) (ladder_lat g)
    (fun i j => ladder_connected g (Z.of_nat i) (Z.of_nat j)) (fun i j => if i / leg =? j / leg then 1 else 0)
    (fun i j => match ladder_handle g (Z.of_nat i) (Z.of_nat j) with Ok k => Z.to_nat k | _ => 0 end).
Proof.
  intros HL (F1 & (lx & F0 & F2) & F3 & F4 & F5).
  assert (Elx : L / leg = lx) by (rewrite F2, Nat.div_mul; lia). rewrite Elx in F4.
  assert (LP : leg * 1 <= L) by nia.
  set (g := mkladder (Z.of_nat L) (Z.of_nat leg) (periodic px) (periodic py)). exists g. split.
  { unfold ladder_new. assert (Z.of_nat L mod Z.of_nat leg = 0)%Z as -> by (rewrite F2, Nat2Z.inj_mul, Z.mod_mul; lia).
    destruct (Z.eqb_spec (Z.of_nat leg) 0); [lia|]. destruct py as [y|].
    - cbn [bind negb Z.eqb]. unfold g. f_equal. f_equal. cbn [periodic] in *. destruct (Z.eqb_spec (Z.of_nat leg) 2); auto.
      destruct (0 <? y)%Z; auto. specialize (F5 eq_refl). lia.
    - specialize (F3 eq_refl). subst leg. reflexivity. }
  assert (Gr : forall i, i < L -> exists c r, i = r + c * leg /\ r < leg /\ c < lx).
  { intros i Hi. exists (i / leg), (i mod leg). pose proof (Nat.div_mod i leg ltac:(lia)). pose proof (Nat.mod_upper_bound i leg ltac:(lia)).
    split; [lia|]. split; auto. apply Nat.div_lt_upper_bound; lia. }
  assert (Nb : forall a b per n, (Z.of_nat n < 2147483648)%Z -> 0 < n -> a < n -> b < n -> neighbors (Z.of_nat a) (Z.of_nat b) per (w64 (Z.of_nat n - 1)) = true <->
     (a + 1 = b \/ b + 1 = a \/ (per = true /\ 1 < n /\ (a = 0 /\ b = n - 1 \/ b = 0 /\ a = n - 1)) \/ (per = true /\ n = 1))).
  { intros a b per n Hn Hn0 Ha Hb. unfold neighbors. rewrite w64_id by lia.
    destruct (Z.ltb_spec (Z.of_nat a) (Z.of_nat b)); destruct (Z.ltb_spec (Z.of_nat b) (Z.of_nat a)); try lia;
      (destruct per; cbn [negb]; [rewrite orb_true_iff, !Z.eqb_eq|rewrite Z.eqb_eq]); intuition (try discriminate; lia). }
  assert (Cn : forall c r c' r', r < leg -> r' < leg -> c < lx -> c' < lx ->
    ladder_connected g (Z.of_nat (r + c * leg)) (Z.of_nat (r' + c' * leg)) = true <->
    (c = c' /\ r <> r' /\ (r + 1 = r' \/ r' + 1 = r \/ (periodic py = true /\ (r = 0 /\ r' = leg - 1 \/ r' = 0 /\ r = leg - 1)))) \/
    (r = r' /\ c <> c' /\ (c + 1 = c' \/ c' + 1 = c \/ (periodic px = true /\ (c = 0 /\ c' = lx - 1 \/ c' = 0 /\ c = lx - 1))))).
  { intros c r c' r' Hr Hr' Hc Hc'. unfold ladder_connected, g. cbn [la_leg la_L la_px la_py].
    destruct (divmod_nat (r + c * leg) leg c r Hr eq_refl) as [-> ->]. destruct (divmod_nat (r' + c' * leg) leg c' r' Hr' eq_refl) as [-> ->].
    assert (Z.of_nat L / Z.of_nat leg = Z.of_nat lx)%Z as -> by (rewrite <- Nat2Z.inj_div, Elx; reflexivity).
    destruct (Z.eqb_spec (Z.of_nat (r + c * leg)) (Z.of_nat (r' + c' * leg))) as [E|E].
    - split; [discriminate|]. apply Nat2Z.inj in E. destruct (idx_inj r c r' c' leg Hr Hr' E). lia.
    - assert (NE : c <> c' \/ r <> r') by (destruct (Nat.eq_dec c c'), (Nat.eq_dec r r'); subst; lia). clear E.
      destruct (Z.eqb_spec (Z.of_nat c) (Z.of_nat c')).
      + assert (c = c') by lia. subst c'. rewrite (Nb r r' _ leg) by lia. clear - NE Hr Hr'. split; [intros [H|[H|[(P & _ & H)|(P & H)]]]; [..|exfalso; lia]; left; (split; [auto|split; [lia|tauto]])|].
        intros [(_ & N & [H|[H|(P & H)]])|(_ & H & _)]; [tauto|tauto| |lia]. right. right. left. split; [auto|split; [lia|auto]].
      + destruct (Z.eqb_spec (Z.of_nat r) (Z.of_nat r')).
        * assert (r = r') by lia. subst r'. rewrite (Nb c c' _ lx) by nia. clear - NE Hc Hc'. split; [intros [H|[H|[(P & _ & H)|(P & H)]]]; [..|exfalso; lia]; right; (split; [auto|split; [lia|tauto]])|].
          intros [(_ & N & _)|(_ & H & [H'|[H'|(P & H')]])]; [lia|tauto|tauto|]. right. right. left. split; [auto|split; [lia|auto]].
        * split; [discriminate|]. lia. }
  assert (Dv : forall c r, r < leg -> (r + c * leg) / leg = c). { intros c r H. rewrite Nat.div_add, Nat.div_small by lia. lia. }
  assert (Dr : forall i j, i < L -> j < L -> ladder_connected g (Z.of_nat i) (Z.of_nat j) = true -> ladder_calcDir g (Z.of_nat i) (Z.of_nat j) = Ok (if i / leg =? j / leg then 1%Z else 0%Z)).
  { intros i j Hi Hj Hc. unfold ladder_calcDir. rewrite Hc. unfold ladder_sameColumn, g. cbn [la_leg]. rewrite <- !Nat2Z.inj_div.
    destruct (Nat.eqb_spec (i / leg) (j / leg)), (Z.eqb_spec (Z.of_nat (i / leg)) (Z.of_nat (j / leg))); auto; lia. }
  (** the position, for i < j *)
  assert (Hh : forall i j, i < j -> j < L -> ladder_connected g (Z.of_nat i) (Z.of_nat j) = true -> ladder_connected g (Z.of_nat j) (Z.of_nat i) = true ->
    let k := if i / leg =? j / leg then (if periodic py then (if (i mod leg =? 0) && (j =? i + leg - 1) then j else i) else i - i / leg)
             else (if periodic px then (if (i <? leg) && (j =? i + L - leg) then j else i) else i) in
    ladder_handle g (Z.of_nat i) (Z.of_nat j) = Ok (Z.of_nat k) /\ ladder_handle g (Z.of_nat j) (Z.of_nat i) = Ok (Z.of_nat k)).
  { intros i j Hij Hj Hc Hc' k. unfold ladder_handle. rewrite !Dr by (auto; lia). cbn [bind]. rewrite (Nat.eqb_sym (j / leg) (i / leg)).
    destruct (Z.ltb_spec (Z.of_nat i) (Z.of_nat j)); [|lia]. destruct (Z.ltb_spec (Z.of_nat j) (Z.of_nat i)); [lia|].
    assert (X : forall T (a b : T), a = b -> a = b /\ a = b) by auto. apply X. clear X. unfold g. cbn [la_leg la_L la_px la_py].
    unfold k. destruct (Nat.eqb_spec (i / leg) (j / leg)) as [E|E]; cbn [Z.eqb].
    - destruct (periodic py); cbn [negb].
      + rewrite <- Nat2Z.inj_mod. f_equal.
        destruct (Nat.eqb_spec (i mod leg) 0), (Z.eqb_spec (Z.of_nat (i mod leg)) 0); try lia; cbn [andb]; auto.
        destruct (Nat.eqb_spec j (i + leg - 1)), (Z.eqb_spec (Z.of_nat j) (Z.of_nat i + Z.of_nat leg - 1)); auto; lia.
      + f_equal. rewrite <- Nat2Z.inj_div. pose proof (Nat.div_le_upper_bound i leg i ltac:(lia) ltac:(nia)). lia.
    - destruct (periodic px); cbn [negb]; auto. f_equal. rewrite w64_id by lia.
      destruct (Nat.ltb_spec i leg), (Z.ltb_spec (Z.of_nat i) (Z.of_nat leg)); try lia; cbn [andb]; auto.
      destruct (Nat.eqb_spec j (i + L - leg)), (Z.eqb_spec (Z.of_nat j) (Z.of_nat i + Z.of_nat L - Z.of_nat leg)); auto; lia. }
  clear Nb.
  assert (Sy : forall i j, i < L -> j < L -> ladder_connected g (Z.of_nat i) (Z.of_nat j) = true -> i <> j /\ ladder_connected g (Z.of_nat j) (Z.of_nat i) = true).
  { intros i j Hi Hj. destruct (Gr i Hi) as (c & r & -> & Hr & Hc). destruct (Gr j Hj) as (c' & r' & -> & Hr' & Hc'). intros H. split.
    - intros E. destruct (idx_inj r c r' c' leg Hr Hr' E) as [<- <-]. apply Cn in H; auto. lia.
    - apply Cn in H; auto. apply Cn; auto. clear - H. destruct H as [(A & B & H)|(A & B & H)]; [left|right]; (split; [auto|split; [auto|]]); destruct H as [H|[H|(HP & [H|H])]]; tauto. }
  set (kk := fun i j => if i / leg =? j / leg then (if periodic py then (if (i mod leg =? 0) && (j =? i + leg - 1) then j else i) else i - i / leg)
             else (if periodic px then (if (i <? leg) && (j =? i + L - leg) then j else i) else i)) in Hh.
  set (h := fun i j => match ladder_handle g (Z.of_nat i) (Z.of_nat j) with Ok k => Z.to_nat k | _ => 0 end).
  assert (Hb : forall i j d k, i < j -> j < L -> ladder_connected g (Z.of_nat i) (Z.of_nat j) = true -> d < 2 -> (if i / leg =? j / leg then 1 else 0) = d -> kk i j = k -> k < size_of L (ALadder leg px py) d ->
    j < L /\ i < j /\ ladder_connected g (Z.of_nat i) (Z.of_nat j) = true /\ ladder_connected g (Z.of_nat j) (Z.of_nat i) = true /\
    (if i / leg =? j / leg then 1 else 0) = d /\ (if j / leg =? i / leg then 1 else 0) = d /\ h i j = k /\ h j i = k /\ d < 2 /\ k < size_of L (ALadder leg px py) d).
  { intros i j d k H1 H2 H3 H4 H5 H6 H7. destruct (Sy i j) as [N S']; [lia|auto|auto|]. destruct (Hh i j H1 H2 H3 S') as [E1 E2]. fold (kk i j) in E1, E2.
    unfold h. rewrite E1, E2, Nat2Z.id, (Nat.eqb_sym (j / leg)). repeat split; auto. }
  assert (Mono : forall c, c + 1 <= lx -> c * leg + leg <= L). { intros c H. rewrite F2. replace (c * leg + leg) with ((c + 1) * leg) by lia. apply Nat.mul_le_mono_r. auto. }
  assert (Md : forall c r, r < leg -> (r + c * leg) mod leg = r). { intros c r H. rewrite Nat.mod_add, Nat.mod_small by lia. reflexivity. }
  constructor.
  - reflexivity.
  - reflexivity.
  - intros d Hd. cbn [directions] in Hd. cbn [ladder_lat gl_size size_of]. unfold ladder_getVectorSize, g. cbn [la_leg la_L la_px la_py].
    rewrite Elx. assert (Z.of_nat L / Z.of_nat leg = Z.of_nat lx)%Z as -> by (rewrite <- Nat2Z.inj_div, Elx; reflexivity).
    assert (LX : lx * 1 <= L) by (rewrite F2; apply Nat.mul_le_mono_l; lia).
    destruct d as [|[|d]]; [| |lia]; cbn [Nat.eqb Z.of_nat Z.eqb].
    + destruct (periodic px); auto. rewrite w64_id by lia. f_equal. lia.
    + destruct (periodic py); auto. rewrite w64_id by lia. change (Pos.of_succ_nat 0 =? 1)%positive with true. cbn iota. f_equal. lia.
  - intros i j Hc Hi Hj. cbn [ladder_lat gl_dir]. unfold zn. rewrite Dr by auto. cbn [bind]. destruct (i / leg =? j / leg); reflexivity.
  - intros i j Hc Hi Hj. cbn [ladder_lat gl_handle]. unfold zn. destruct (Sy i j Hi Hj Hc) as [N S']. unfold h.
    destruct (Nat.lt_ge_cases i j) as [Hl|Hl].
    + destruct (Hh i j Hl Hj Hc S') as [-> _]. reflexivity.
    + destruct (Hh j i) as [_ ->]; auto; lia.
  - intros i j d k B. inversion B; subst i j d k; clear B; rewrite ?Elx in *; cbn [directions].
    + pose proof (Mono (c + 1) ltac:(lia)). apply Hb; try lia; cbn [size_of Nat.eqb].
      * apply Cn; auto; lia.
      * rewrite !Dv by auto. destruct (Nat.eqb_spec c (c + 1)); lia.
      * unfold kk. rewrite !Dv by auto. destruct (Nat.eqb_spec c (c + 1)); [lia|]. destruct (periodic px) eqn:Ep; auto. specialize (F4 eq_refl).
        destruct (Nat.ltb_spec (r + c * leg) leg); auto. destruct (Nat.eqb_spec (r + (c + 1) * leg) (r + c * leg + L - leg)); auto. exfalso. assert (c = 0) by (destruct c; [auto|lia]). subst c. pose proof (Mono 2 ltac:(lia)). lia.
      * destruct (periodic px); lia.
    + match goal with H : periodic _ = _ |- _ => rename H into HP end. specialize (F4 HP). pose proof (Mono (lx - 1) ltac:(lia)). assert (L2 : L = (lx - 1) * leg + leg) by (rewrite F2; replace lx with (lx - 1 + 1) at 1 by lia; lia). assert (leg * 1 <= (lx - 1) * leg) by (rewrite (Nat.mul_comm _ leg); apply Nat.mul_le_mono_l; lia). apply Hb; try lia; cbn [size_of Nat.eqb].
      * replace r with (r + 0 * leg) at 1 by lia. apply Cn; auto; lia.
      * replace (r / leg) with 0 by (symmetry; apply Nat.div_small; auto). rewrite Dv by auto. destruct (Nat.eqb_spec 0 (lx - 1)); lia.
      * unfold kk. replace (r / leg) with 0 by (symmetry; apply Nat.div_small; auto). rewrite Dv by auto. destruct (Nat.eqb_spec 0 (lx - 1)); [lia|]. rewrite HP.
        destruct (Nat.ltb_spec r leg); [|lia]. destruct (Nat.eqb_spec (r + (lx - 1) * leg) (r + L - leg)) as [|E]; auto. exfalso. apply E. lia.
      * rewrite HP. lia.
    + match goal with H : periodic _ = _ |- _ => rename H into HP end. pose proof (Mono c ltac:(lia)). apply Hb; try lia; cbn [size_of Nat.eqb].
      * apply Cn; auto; lia.
      * rewrite !Dv by lia. rewrite Nat.eqb_refl. reflexivity.
      * unfold kk. rewrite !Dv by lia. rewrite Nat.eqb_refl, HP. rewrite Nat.mul_sub_distr_l. assert (c * 1 <= c * leg) by (apply Nat.mul_le_mono_l; lia). lia.
      * rewrite HP, Elx, F2, !Nat.mul_sub_distr_l. assert ((c + 1) * (leg - 1) <= lx * (leg - 1)) as Hm by (apply Nat.mul_le_mono_r; lia). rewrite !Nat.mul_sub_distr_l in Hm. assert (c * 1 <= c * leg) by (apply Nat.mul_le_mono_l; lia). lia.
    + match goal with H : periodic _ = _ |- _ => rename H into HP end. specialize (F5 HP). pose proof (Mono c ltac:(lia)). apply Hb; try lia; cbn [size_of Nat.eqb].
      * apply Cn; auto; lia.
      * rewrite !Dv by lia. rewrite Nat.eqb_refl. reflexivity.
      * unfold kk. rewrite !Dv, Md by lia. rewrite Nat.eqb_refl, HP. destruct (Nat.eqb_spec (r + 1 + c * leg) (r + c * leg + leg - 1)); [lia|]. rewrite andb_false_r. reflexivity.
      * rewrite HP. lia.
    + match goal with H : periodic _ = _ |- _ => rename H into HP end. specialize (F5 HP). pose proof (Mono c ltac:(lia)). apply Hb; try lia; cbn [size_of Nat.eqb].
      * replace (c * leg) with (0 + c * leg) at 1 by lia. apply Cn; auto; lia.
      * replace (c * leg / leg) with c by (symmetry; apply Nat.div_mul; lia). rewrite !Dv by lia. rewrite Nat.eqb_refl. reflexivity.
      * unfold kk. replace (c * leg / leg) with c by (symmetry; apply Nat.div_mul; lia). rewrite !Dv by lia. rewrite Nat.eqb_refl, HP.
        rewrite Nat.mod_mul by lia. destruct (Nat.eqb_spec (leg - 1 + c * leg) (c * leg + leg - 1)); [|lia]. reflexivity.
      * rewrite HP. lia.
  - intros i j Hi Hj Hc. destruct (Gr i Hi) as (c & r & -> & Hr & Hcl). destruct (Gr j Hj) as (c' & r' & -> & Hr' & Hcl').
    apply Cn in Hc; auto. rewrite <- Elx in Hcl, Hcl'. destruct Hc as [(<- & N & H)|(<- & N & H)].
    + destruct H as [<- |[<- |[HP H]]].
      * destruct (periodic py) eqn:HP; eexists 1, _; left; [apply ladder_y_periodic|apply ladder_y]; auto.
      * destruct (periodic py) eqn:HP; eexists 1, _; right; [apply ladder_y_periodic|apply ladder_y]; auto.
      * destruct H as [[-> ->]|[-> ->]]; eexists 1, _; [left|right]; apply ladder_y_ring; auto.
    + destruct H as [<- |[<- |[HP H]]].
      * eexists 0, _. left. apply ladder_x; auto.
      * eexists 0, _. right. apply ladder_x; auto.
      * rewrite <- Elx in H. destruct H as [[-> ->]|[-> ->]]; eexists 0, _; [left|right]; rewrite Nat.mul_0_l, Nat.add_0_r; apply ladder_x_ring; auto.
Qed.
