From Verif Require Import Prelude Ring Vec_Model Dense_Model Geo_Model Geo_Spec.
From Coq Require Import ZArith Lia Bool List Permutation.
Import ListNotations.
Local Open Scope Z_scope.

Lemma w64_small z : 0 <= z < 18446744073709551616 -> w64 z = z.
Proof. intros H. unfold w64. now apply Z.mod_small. Qed.

Lemma coord_div n c r : 0 <= r < n -> (r + c * n) / n = c.
Proof. intros. rewrite Z.div_add by lia. rewrite Z.div_small by lia. lia. Qed.
Lemma coord_mod n c r : 0 <= r < n -> (r + c * n) mod n = r.
Proof. intros. rewrite Z.mod_add by lia. now apply Z.mod_small. Qed.
Lemma coord_inj n c r c' r' : 0 <= r < n -> 0 <= r' < n -> r + c * n = r' + c' * n -> c = c' /\ r = r'.
Proof.
  intros. split.
  - rewrite <- (coord_div n c r), <- (coord_div n c' r') by lia. congruence.
  - rewrite <- (coord_mod n c r), <- (coord_mod n c' r') by lia. congruence.
Qed.
Lemma coord_ex n lx i : 0 < n -> 0 <= i < n * lx ->
  exists c r, i = r + c * n /\ 0 <= r < n /\ 0 <= c < lx.
Proof.
  intros Hn Hi. exists (i / n), (i mod n).
  pose proof (Z.mod_pos_bound i n Hn). pose proof (Z.div_mod i n ltac:(lia)).
  repeat split; try lia. apply Z.div_pos; lia.
  apply Z.div_lt_upper_bound; lia.
Qed.
Lemma coord_range n lx c r : 0 <= r < n -> 0 <= c < lx -> 0 <= r + c * n < n * lx.
Proof. intros. nia. Qed.

Ltac minmax := repeat match goal with
  | |- context [?a <? ?b] => destruct (Z.ltb_spec a b)
  | H : context [?a <? ?b] |- _ => destruct (Z.ltb_spec a b)
  end.

Lemma neighbors_iff a b per p : neighbors a b per p = true <->
  (Z.abs (a - b) = 1 \/ (per = true /\ Z.abs (a - b) = p)).
Proof.
  unfold neighbors.
  assert (E : (if b <? a then a else b) - (if a <? b then a else b) = Z.abs (a - b)).
  { minmax; lia. }
  rewrite E. destruct per; simpl.
  - rewrite orb_true_iff, !Z.eqb_eq. intuition auto.
  - rewrite Z.eqb_eq. intuition congruence.
Qed.
Lemma neighbors_sym a b per p : neighbors a b per p = neighbors b a per p.
Proof.
  apply eq_true_iff_eq. rewrite !neighbors_iff. now rewrite <- (Z.abs_opp (a - b)), Z.opp_sub_distr, Z.add_comm, Z.add_opp_r.
Qed.

Lemma sub_loop_ok l : 0 < l -> forall fuel c, 0 <= c -> (Z.to_nat c < fuel)%nat -> sub_loop fuel c l = Ok (c mod l).
Proof.
  intros Hl. induction fuel; intros c Hc Hf; [lia|]. simpl.
  destruct (Z.leb_spec l c).
  - rewrite IHfuel by lia. f_equal.
    replace c with ((c - l) + 1 * l) at 2 by lia. now rewrite Z.mod_add by lia.
  - rewrite Z.mod_small by lia. reflexivity.
Qed.

(** ** Chain *)
Definition chain_ok (g : chain) : Prop := 0 < ch_d g < ch_L g /\ ch_L g < 18446744073709551616.

Lemma chain_connected_iff g i j : chain_ok g ->
  (chain_connected g i j = true <-> chain_adj (ch_L g) (ch_d g) (ch_per g) i j).
Proof.
  intros [H1 H2]. unfold chain_connected, chain_adj.
  destruct (Z.eqb_spec i j) as [E|E]; [split; [discriminate|tauto]|].
  assert (E' : (if j <? i then i else j) - (if i <? j then i else j) = Z.abs (i - j)).
  { minmax; lia. }
  rewrite E', w64_small by lia. destruct (ch_per g); simpl.
  - rewrite orb_true_iff, !Z.eqb_eq. intuition auto.
  - rewrite Z.eqb_eq. intuition congruence.
Qed.
Lemma chain_connected_sym g i j : chain_connected g i j = chain_connected g j i.
Proof.
  unfold chain_connected. destruct (Z.eqb_spec i j) as [->|E].
  - now rewrite Z.eqb_refl.
  - destruct (Z.eqb_spec j i); [congruence|].
    replace ((if j <? i then i else j) - (if i <? j then i else j)) with (Z.abs (i - j)) by (minmax; lia).
    replace ((if i <? j then j else i) - (if j <? i then j else i)) with (Z.abs (i - j)) by (minmax; lia).
    reflexivity.
Qed.
Lemma chain_translate_ok g s a : 0 < ch_L g -> 0 <= s -> 0 <= a ->
  chain_translate g s 0 a = Ok ((s + a) mod ch_L g).
Proof. intros. unfold chain_translate. change (0 =? 0) with true. cbn [bind]. apply sub_loop_ok; lia. Qed.

Lemma cyc_shift_bij n a : 0 < n -> is_bijection n (fun i => (i + a) mod n).
Proof.
  intros Hn. split; [|split].
  - intros i _. apply Z.mod_pos_bound. lia.
  - intros i j [] [] E.
    assert (E2 : ((i + a) mod n - a) mod n = ((j + a) mod n - a) mod n) by now rewrite E.
    rewrite !Zminus_mod_idemp_l in E2.
    replace (i + a - a) with i in E2 by lia. replace (j + a - a) with j in E2 by lia.
    now rewrite !Z.mod_small in E2 by lia.
  - intros j [Hj1 Hj2]. exists ((j - a) mod n). split; [apply Z.mod_pos_bound; lia|].
    rewrite Zplus_mod_idemp_l. replace (j - a + a) with j by lia. now apply Z.mod_small.
Qed.
(** A cyclic shift moves the difference of two points by 0 or +-n. *)
Lemma cyc_diff n a i j : 0 < n -> in_range n i -> in_range n j ->
  let d := (i + a) mod n - (j + a) mod n in
  d = i - j \/ d = i - j - n \/ d = i - j + n.
Proof.
  intros Hn [] []. cbv zeta.
  pose proof (Z.div_mod (i + a) n ltac:(lia)). pose proof (Z.div_mod (j + a) n ltac:(lia)).
  pose proof (Z.mod_pos_bound (i + a) n Hn). pose proof (Z.mod_pos_bound (j + a) n Hn).
  set (u := (i + a) mod n) in *. set (v := (j + a) mod n) in *.
  set (p := (i + a) / n) in *. set (q := (j + a) / n) in *.
  assert (Hpq : p - q = 0 \/ p - q = 1 \/ p - q = -1) by nia.
  destruct Hpq as [E|[E|E]]; [left|right; left|right; right]; nia.
Qed.
Lemma cyc_neq n a i j : 0 < n -> in_range n i -> in_range n j -> i <> j -> (i + a) mod n <> (j + a) mod n.
Proof. intros Hn Hi Hj Hne E. apply Hne. eapply (cyc_shift_bij n a Hn); eauto. Qed.

Lemma chain_adj_shift L d i j a : 0 < d < L -> in_range L i -> in_range L j ->
  chain_adj L d true i j -> chain_adj L d true ((i + a) mod L) ((j + a) mod L).
Proof.
  intros Hd Hi Hj [Hne H]. split; [apply cyc_neq; auto; lia|].
  pose proof (cyc_diff L a i j ltac:(lia) Hi Hj) as D. cbv zeta in D.
  destruct Hi, Hj.
  pose proof (Z.mod_pos_bound (i + a) L ltac:(lia)). pose proof (Z.mod_pos_bound (j + a) L ltac:(lia)).
  destruct H as [H|[_ H]]; destruct D as [D|[D|D]]; rewrite D;
    (assert (Z.abs (i - j - L) = L - Z.abs (i - j) \/ i < j) by lia);
    (assert (Z.abs (i - j + L) = L - Z.abs (i - j) \/ j < i) by lia); lia.
Qed.
Lemma line_adj_shift n a i j : 1 < n -> in_range n i -> in_range n j ->
  line_adj n true i j -> line_adj n true ((i + a) mod n) ((j + a) mod n).
Proof. intros. apply (chain_adj_shift n 1); auto; lia. Qed.

(** ** Ladder *)
Definition ladder_ok (g : ladder) : Prop :=
  0 < la_leg g /\ exists lx, la_L g = la_leg g * lx /\ 0 < lx /\ la_L g < 18446744073709551616.

Lemma ladder_new_ok L leg px py gb g : 0 <= L < 18446744073709551616 -> 0 <= leg ->
  ladder_new L leg px py gb = Ok g -> 0 < L ->
  ladder_ok g /\ la_L g = L /\ la_leg g = leg.
Proof.
  intros HL Hleg H Hpos. unfold ladder_new in H.
  destruct (match py with Some x => Ok (0 <? x) | None => if 2 <? leg then Throw else Ok gb end) as [b| | |] eqn:E;
    try discriminate. cbn [bind] in H.
  destruct (Z.eqb_spec leg 0); [discriminate|]. simpl in H.
  destruct (Z.eqb_spec (L mod leg) 0) as [Hm|]; [|discriminate]. simpl in H.
  apply Ok_inj in H. subst g. simpl. split; auto. split; [simpl; lia|]. simpl.
  exists (L / leg). pose proof (Z.div_mod L leg ltac:(lia)). split; [lia|split; [nia|lia]].
Qed.

Section Ladder.
  Variables (leg lx : Z).
  Hypothesis Hleg : 0 < leg.
  Hypothesis Hlx : 0 < lx.
  Hypothesis Hsm : leg * lx < 18446744073709551616.
  Variables (px py : bool).
  Let g := mkladder (leg * lx) leg px py.

  Lemma lad_div_L : la_L g / leg = lx.
  Proof. simpl. rewrite Z.mul_comm. apply Z.div_mul. lia. Qed.

  Lemma lad_div2 : leg * lx / leg = lx.
  Proof. rewrite Z.mul_comm. apply Z.div_mul. lia. Qed.

  Lemma ladder_connected_grid c1 r1 c2 r2 : 0 <= r1 < leg -> 0 <= r2 < leg ->
    0 <= c1 < lx -> 0 <= c2 < lx ->
    (ladder_connected g (r1 + c1 * leg) (r2 + c2 * leg) = true <-> grid_adj lx leg px py c1 r1 c2 r2).
  Proof.
    intros R1 R2 C1 C2. unfold ladder_connected, grid_adj, line_adj.
    cbn [la_leg la_px la_py g].
    rewrite lad_div_L. unfold g; cbn [la_leg la_px la_py].
    rewrite !coord_div, !coord_mod by lia. rewrite !w64_small by nia.
    destruct (Z.eqb_spec (r1 + c1 * leg) (r2 + c2 * leg)) as [E|E].
    { destruct (coord_inj _ _ _ _ _ R1 R2 E) as [-> ->]. split; [discriminate|]. intros [[_ []]|[_ []]]; tauto. }
    destruct (Z.eqb_spec c1 c2) as [->|Ec].
    - rewrite neighbors_iff. split.
      + intros H. left. split; auto. split; auto. congruence.
      + intros [[_ [_ H]]|[-> [H _]]]; tauto.
    - destruct (Z.eqb_spec r1 r2) as [->|Er].
      + rewrite neighbors_iff. split.
        * intros H. right. auto.
        * intros [[? _]|[_ [_ H]]]; tauto.
      + split; [discriminate|]. intros [[? _]|[? _]]; tauto.
  Qed.

  Lemma grid_adj_sym nx ny p q c1 r1 c2 r2 : grid_adj nx ny p q c1 r1 c2 r2 <-> grid_adj nx ny p q c2 r2 c1 r1.
  Proof.
    unfold grid_adj, line_adj.
    rewrite <- (Z.abs_opp (r1 - r2)), <- (Z.abs_opp (c1 - c2)).
    replace (- (r1 - r2)) with (r2 - r1) by lia. replace (- (c1 - c2)) with (c2 - c1) by lia.
    intuition auto.
  Qed.

  (** All bonds, lower end first. *)
  Lemma ladder_bond i1 i2 : in_range (leg * lx) i1 -> in_range (leg * lx) i2 -> i1 < i2 ->
    ladder_connected g i1 i2 = true ->
    exists dir h, ladder_calcDir g i1 i2 = Ok dir /\ ladder_handle g i1 i2 = Ok h /\
      ((dir = 0 /\ i2 = i1 + leg /\ h = i1) \/
       (dir = 0 /\ px = true /\ i1 < leg /\ i2 = i1 + leg * lx - leg /\ h = i2) \/
       (dir = 1 /\ exists c r, i1 = r + c * leg /\ 0 <= c < lx /\ 0 <= r /\ r + 1 < leg /\ i2 = i1 + 1 /\
          h = if py then i1 else r + c * (leg - 1)) \/
       (dir = 1 /\ py = true /\ exists c, i1 = c * leg /\ 0 <= c < lx /\ i2 = i1 + leg - 1 /\ h = i2)).
  Proof.
    intros I1 I2 Hlt Hc.
    destruct (coord_ex leg lx i1 Hleg I1) as (c1 & r1 & E1 & R1 & C1).
    destruct (coord_ex leg lx i2 Hleg I2) as (c2 & r2 & E2 & R2 & C2).
    assert (Hg : grid_adj lx leg px py c1 r1 c2 r2).
    { apply ladder_connected_grid; auto. now subst. }
    unfold ladder_handle, ladder_calcDir. rewrite Hc. cbn [bind].
    unfold ladder_sameColumn. cbn [la_leg g].
    assert (Hlt1 : (i1 <? i2) = true) by (apply Z.ltb_lt; lia). rewrite Hlt1.
    assert (D1 : i1 / leg = c1) by (subst; apply coord_div; lia).
    assert (D2 : i2 / leg = c2) by (subst; apply coord_div; lia).
    assert (M1 : i1 mod leg = r1) by (subst; apply coord_mod; lia).
    unfold g; cbn [la_leg la_px la_py la_L]. rewrite D1, D2, M1.
    destruct Hg as [[-> [Hne Ha]]|[-> [Hne Ha]]].
    - rewrite Z.eqb_refl.
      assert (Hrlt : r1 < r2) by lia.
      destruct py; eexists _, _; (split; [reflexivity|]); simpl (1 =? 0); cbn [negb bind].
      + split; [reflexivity|].
        destruct (Z.eqb_spec r1 0) as [->|Hr0]; cbn [andb].
        * destruct (Z.eqb_spec i2 (i1 + leg - 1)) as [Ei|Ei].
          -- right. right. right. split; auto. split; auto. exists c2. repeat split; lia.
          -- right. right. left. split; auto. exists c2, 0. repeat split; lia.
        * right. right. left. split; auto. exists c2, r1. repeat split; lia.
      + split; [reflexivity|]. destruct Ha as [Ha|[? _]]; [|discriminate].
        right. right. left. split; auto. exists c2, r1. repeat split; nia.
    - destruct (Z.eqb_spec c1 c2); [congruence|].
      assert (Hclt : c1 < c2) by nia.
      destruct px; eexists _, _; (split; [reflexivity|]); simpl (0 =? 0); cbn [negb bind].
      + split; [reflexivity|].
        destruct (Z.ltb_spec i1 leg) as [Hl|Hl]; cbn [andb].
        * destruct I1, I2. rewrite w64_small by nia. destruct (Z.eqb_spec i2 (i1 + leg * lx - leg)) as [Ei|Ei].
          -- right. left. repeat split; lia.
          -- left. assert (c1 = 0) by nia. subst c1. assert (c2 = 1) by nia. repeat split; nia.
        * left. assert (c2 = c1 + 1). { destruct Ha as [Ha|[_ Ha]]; [lia|]. nia. } repeat split; nia.
      + split; [reflexivity|]. destruct Ha as [Ha|[? _]]; [|discriminate].
        left. assert (c2 = c1 + 1) by lia. repeat split; nia.
  Qed.

  Lemma ladder_connected_sym' i1 i2 : ladder_connected g i1 i2 = ladder_connected g i2 i1.
  Proof.
    unfold ladder_connected. rewrite (Z.eqb_sym i2 i1).
    destruct (i1 =? i2); auto.
    rewrite (Z.eqb_sym (i2 / _)), (Z.eqb_sym (i2 mod _)).
    rewrite (neighbors_sym (i2 mod _)), (neighbors_sym (i2 / _)). reflexivity.
  Qed.
  Lemma ladder_calcDir_sym i1 i2 : ladder_calcDir g i1 i2 = ladder_calcDir g i2 i1.
  Proof. unfold ladder_calcDir, ladder_sameColumn. now rewrite ladder_connected_sym', (Z.eqb_sym (i2 / _)). Qed.
  Lemma ladder_handle_sym i1 i2 : ladder_handle g i1 i2 = ladder_handle g i2 i1.
  Proof.
    destruct (Z.eq_dec i1 i2) as [->|Hne]; auto.
    unfold ladder_handle. rewrite ladder_calcDir_sym.
    destruct (Z.ltb_spec i1 i2), (Z.ltb_spec i2 i1); try lia; reflexivity.
  Qed.

  Lemma ladder_bond_inj_lt i1 i2 j1 j2 dir h :
    in_range (leg * lx) i1 -> in_range (leg * lx) i2 -> in_range (leg * lx) j1 -> in_range (leg * lx) j2 ->
    i1 < i2 -> j1 < j2 ->
    ladder_connected g i1 i2 = true -> ladder_connected g j1 j2 = true ->
    ladder_calcDir g i1 i2 = Ok dir -> ladder_calcDir g j1 j2 = Ok dir ->
    ladder_handle g i1 i2 = Ok h -> ladder_handle g j1 j2 = Ok h ->
    i1 = j1 /\ i2 = j2.
  Proof.
    intros I1 I2 J1 J2 Li Lj Ci Cj Di Dj Hi Hj.
    destruct (ladder_bond i1 i2 I1 I2 Li Ci) as (d1 & h1 & D1 & H1 & A).
    destruct (ladder_bond j1 j2 J1 J2 Lj Cj) as (d2 & h2 & D2 & H2 & B).
    rewrite Di in D1. rewrite Dj in D2. rewrite Hi in H1. rewrite Hj in H2.
    apply Ok_inj in D1, D2, H1, H2. subst d1 d2 h1 h2.
    destruct I1, I2, J1, J2.
    destruct A as [(?&?&?)|[(?&?&?&?&?)|[(?&c&r&Ec&Hcc&Hr&Hr1&Ei2&Eh)|(?&?&c&Ec&Hcc&Ei2&Eh)]]];
    destruct B as [(?&?&?)|[(?&?&?&?&?)|[(?&c'&r'&Ec'&Hcc'&Hr'&Hr1'&Ej2&Eh')|(?&?&c'&Ec'&Hcc'&Ej2&Eh')]]]; try lia.
    - destruct py; [lia|].
      assert (c = c' /\ r = r') as [-> ->]. { apply (coord_inj (leg - 1)); lia. } lia.
    - destruct py; [|congruence]. exfalso.
      assert (c = c' /\ r = leg - 1) as [_ E]. { apply (coord_inj leg); lia. } lia.
    - destruct py; [|congruence]. exfalso.
      assert (c = c' /\ leg - 1 = r') as [_ E]. { apply (coord_inj leg); lia. } lia.
  Qed.

  Lemma ladder_handle_range i1 i2 : in_range (leg * lx) i1 -> in_range (leg * lx) i2 ->
    ladder_connected g i1 i2 = true ->
    exists dir h n, ladder_calcDir g i1 i2 = Ok dir /\ ladder_handle g i1 i2 = Ok h /\
      ladder_getVectorSize g dir = Ok n /\ 0 <= h < n.
  Proof.
    assert (W : forall i1 i2, in_range (leg * lx) i1 -> in_range (leg * lx) i2 -> i1 < i2 ->
      ladder_connected g i1 i2 = true ->
      exists dir h n, ladder_calcDir g i1 i2 = Ok dir /\ ladder_handle g i1 i2 = Ok h /\
        ladder_getVectorSize g dir = Ok n /\ 0 <= h < n).
    { clear i1 i2. intros i1 i2 I1 I2 Hlt Hc.
      destruct (ladder_bond i1 i2 I1 I2 Hlt Hc) as (d & h & D & H & A). destruct I1, I2.
      exists d, h. unfold ladder_getVectorSize. unfold g; cbn [la_L la_leg la_px la_py]. rewrite lad_div2.
      destruct A as [(->&?&->)|[(->&?&?&?&->)|[(->&c&r&Ec&Hcc&Hr&Hr1&Ei2&->)|(->&?&c&Ec&Hcc&Ei2&->)]]];
        simpl (_ =? _); cbv iota; eexists; (split; [eassumption|split; [eassumption|split; [reflexivity|]]]).
      - destruct px; [lia|]. rewrite w64_small by nia. nia.
      - destruct px; [|congruence]. lia.
      - destruct py; [lia|]. rewrite w64_small by nia. nia.
      - destruct py; [|congruence]. lia. }
    intros I1 I2 Hc. destruct (Z.lt_trichotomy i1 i2) as [H|[->|H]].
    - now apply W.
    - unfold ladder_connected in Hc. now rewrite Z.eqb_refl in Hc.
    - rewrite ladder_connected_sym' in Hc. rewrite ladder_calcDir_sym, ladder_handle_sym. now apply W.
  Qed.

  Lemma ladder_bond_inj i1 i2 j1 j2 dir h :
    in_range (leg * lx) i1 -> in_range (leg * lx) i2 -> in_range (leg * lx) j1 -> in_range (leg * lx) j2 ->
    ladder_connected g i1 i2 = true -> ladder_connected g j1 j2 = true ->
    ladder_calcDir g i1 i2 = Ok dir -> ladder_calcDir g j1 j2 = Ok dir ->
    ladder_handle g i1 i2 = Ok h -> ladder_handle g j1 j2 = Ok h ->
    same_bond i1 i2 j1 j2.
  Proof.
    intros I1 I2 J1 J2 Ci Cj Di Dj Hi Hj. unfold same_bond.
    assert (N1 : i1 <> i2). { intros ->. unfold ladder_connected in Ci. now rewrite Z.eqb_refl in Ci. }
    assert (N2 : j1 <> j2). { intros ->. unfold ladder_connected in Cj. now rewrite Z.eqb_refl in Cj. }
    destruct (Z_lt_le_dec i1 i2), (Z_lt_le_dec j1 j2).
    - left. eapply ladder_bond_inj_lt; eauto.
    - right. rewrite ladder_connected_sym' in Cj. rewrite ladder_calcDir_sym in Dj. rewrite ladder_handle_sym in Hj.
      eapply (ladder_bond_inj_lt i1 i2 j2 j1); eauto; lia.
    - right. rewrite ladder_connected_sym' in Ci. rewrite ladder_calcDir_sym in Di. rewrite ladder_handle_sym in Hi.
      assert (i2 = j1 /\ i1 = j2); [|tauto]. eapply (ladder_bond_inj_lt i2 i1 j1 j2); eauto; lia.
    - left. rewrite ladder_connected_sym' in Ci, Cj. rewrite ladder_calcDir_sym in Di, Dj. rewrite ladder_handle_sym in Hi, Hj.
      assert (i2 = j2 /\ i1 = j1); [|tauto]. eapply (ladder_bond_inj_lt i2 i1 j2 j1); eauto; lia.
  Qed.

  Lemma ladder_translate_x c r a : 0 <= r < leg -> 0 <= c < lx -> 0 <= a ->
    ladder_translate g (r + c * leg) 0 a = Ok (r + ((c + a) mod lx) * leg).
  Proof.
    intros. unfold ladder_translate. unfold g; cbn [la_leg la_L]. rewrite lad_div2.
    simpl (0 <? 2). cbn [bind]. simpl (0 =? 0). rewrite coord_div, coord_mod by lia.
    rewrite sub_loop_ok by lia. cbn [bind].
    pose proof (Z.mod_pos_bound (c + a) lx Hlx).
    destruct (Z.ltb_spec (r + ((c + a) mod lx) * leg) (leg * lx)); [reflexivity|nia].
  Qed.
  Lemma ladder_translate_y c r a : 0 <= r < leg -> 0 <= c < lx -> 0 <= a ->
    ladder_translate g (r + c * leg) 1 a = Ok (((r + a) mod leg) + c * leg).
  Proof.
    intros. unfold ladder_translate. unfold g; cbn [la_leg la_L]. rewrite lad_div2.
    simpl (1 <? 2). cbn [bind]. simpl (1 =? 0). rewrite coord_div, coord_mod by lia.
    rewrite sub_loop_ok by lia. cbn [bind].
    pose proof (Z.mod_pos_bound (r + a) leg Hleg).
    destruct (Z.ltb_spec ((r + a) mod leg + c * leg) (leg * lx)); [reflexivity|nia].
  Qed.
  Lemma ladder_reflection_ok c r : 0 <= r < leg -> 0 <= c < lx ->
    ladder_findReflection g (r + c * leg) = Ok (r + (lx - 1 - c) * leg).
  Proof.
    intros. unfold ladder_findReflection. unfold g; cbn [la_leg la_L]. rewrite lad_div2.
    rewrite coord_div, coord_mod by lia. rewrite w64_small by nia.
    replace (lx - c - 1) with (lx - 1 - c) by lia.
    destruct (Z.ltb_spec (r + (lx - 1 - c) * leg) (leg * lx)); [reflexivity|nia].
  Qed.
End Ladder.
