(** Theorems about the lattices: C36 to C42, C79 and C80. *)
From Verif Require Import Prelude Ring Vec_Model Dense_Model Dense_Spec Dense_Proofs
  Geo_Model Geo_Spec Geo_Proofs Geo_Proofs2 Geo_Proofs3 Geo_Proofs4.
From Coq Require Import ZArith Lia Bool List Permutation.
Import ListNotations.
Local Open Scope Z_scope.

Definition size_max : Z := 18446744073709551616.

(** * C36 *)
Theorem C36_chain : forall linSize per dist i j,
  let g := chain_new linSize per dist in
  chain_connected g i i = false /\ chain_connected g i j = chain_connected g j i.
Proof.
  intros. split; [|apply chain_connected_sym]. unfold chain_connected. now rewrite Z.eqb_refl.
Qed.
Print Assumptions C36_chain.

(** The bonds of the chain are those at the given distance, around the ring too if periodic. *)
Theorem C36_chain_bonds : forall linSize per dist i j,
  0 < dist < linSize -> linSize < size_max ->
  let g := chain_new linSize per (Some dist) in
  chain_connected g i j = true <->
  chain_adj linSize dist (match per with Some x => 0 <? x | None => false end) i j.
Proof.
  intros. unfold size_max in *. subst g. unfold chain_new. rewrite w64_small by lia.
  rewrite chain_connected_iff; [reflexivity|]. split; simpl; lia.
Qed.
Print Assumptions C36_chain_bonds.

Theorem C36_ladder : forall linSize leg px py garbage g i j,
  ladder_new linSize leg px py garbage = Ok g ->
  ladder_connected g i i = false /\ ladder_connected g i j = ladder_connected g j i.
Proof.
  intros. split; [unfold ladder_connected; now rewrite Z.eqb_refl|].
  unfold ladder_connected. rewrite (Z.eqb_sym j i). destruct (i =? j); auto.
  rewrite (Z.eqb_sym (j / _)), (Z.eqb_sym (j mod _)).
  now rewrite (neighbors_sym (j mod _)), (neighbors_sym (j / _)).
Qed.
Print Assumptions C36_ladder.

Lemma ladder_new_form linSize leg px py gb g : 0 < linSize -> 0 <= leg ->
  ladder_new linSize leg px py gb = Ok g ->
  0 < leg /\ exists lx perX perY, 0 < lx /\ linSize = leg * lx /\ g = mkladder (leg * lx) leg perX perY /\
    perX = (match px with Some x => 0 <? x | None => false end) /\
    (perY = if leg =? 2 then false else match py with Some x => 0 <? x | None => gb end).
Proof.
  intros HL Hleg H. unfold ladder_new in H.
  destruct py as [y|].
  - cbn [bind] in H. destruct (Z.eqb_spec leg 0); [discriminate|]. cbn [negb bind] in H.
    destruct (Z.eqb_spec (linSize mod leg) 0) as [Hm|]; [|discriminate]. cbn [negb] in H.
    apply Ok_inj in H. split; [lia|]. pose proof (Z.div_mod linSize leg ltac:(lia)).
    exists (linSize / leg), (match px with Some x => 0 <? x | None => false end), (if leg =? 2 then false else 0 <? y).
    assert (E : leg * (linSize / leg) = linSize) by lia. rewrite E. repeat split; auto. nia.
  - destruct (Z.ltb_spec 2 leg); [discriminate|]. cbn [bind] in H.
    destruct (Z.eqb_spec leg 0); [discriminate|]. cbn [negb bind] in H.
    destruct (Z.eqb_spec (linSize mod leg) 0) as [Hm|]; [|discriminate]. cbn [negb] in H.
    apply Ok_inj in H. split; [lia|]. pose proof (Z.div_mod linSize leg ltac:(lia)).
    exists (linSize / leg), (match px with Some x => 0 <? x | None => false end), (if leg =? 2 then false else gb).
    assert (E : leg * (linSize / leg) = linSize) by lia. rewrite E. repeat split; auto. nia.
Qed.

(** The bonds of the ladder are those of the grid with [leg] rows: site [r + c*leg]
    is in column [c] and row [r]. *)
Theorem C36_ladder_bonds : forall linSize leg px py garbage g c1 r1 c2 r2,
  0 < linSize < size_max -> 0 <= leg ->
  ladder_new linSize leg px (Some py) garbage = Ok g ->
  in_range leg r1 -> in_range leg r2 -> in_range (linSize / leg) c1 -> in_range (linSize / leg) c2 ->
  ladder_connected g (r1 + c1 * leg) (r2 + c2 * leg) = true <->
  grid_adj (linSize / leg) leg (match px with Some x => 0 <? x | None => false end)
    (negb (leg =? 2) && (0 <? py)) c1 r1 c2 r2.
Proof.
  intros L leg px py gb g c1 r1 c2 r2 HL Hleg H R1 R2 C1 C2. unfold size_max in *.
  destruct (ladder_new_form _ _ _ _ _ _ (proj1 HL) Hleg H) as (Hpos & lx & perX & perY & Hlx & -> & -> & -> & ->).
  rewrite lad_div2 in * by auto.
  replace (negb (leg =? 2) && (0 <? py)) with (if leg =? 2 then false else 0 <? py) by (destruct (leg =? 2); auto).
  apply ladder_connected_grid; auto; lia.
Qed.
Print Assumptions C36_ladder_bonds.

Theorem C36_ladderx : forall g i j,
  ladderx_connected g i i = false /\ ladderx_connected g i j = ladderx_connected g j i.
Proof.
  intros. split; [|apply ladderx_connected_sym]. unfold ladderx_connected. now rewrite Z.eqb_refl.
Qed.
Print Assumptions C36_ladderx.

(** With open rows LadderX is the grid together with both diagonals of every square. *)
Theorem C36_ladderx_bonds : forall leg lx px c1 r1 c2 r2,
  0 < leg -> 0 < lx -> leg * lx < size_max ->
  in_range leg r1 -> in_range leg r2 -> in_range lx c1 -> in_range lx c2 ->
  ladderx_connected (mkladder (leg * lx) leg px false) (r1 + c1 * leg) (r2 + c2 * leg) = true <->
  gridx_adj lx leg px c1 r1 c2 r2.
Proof. intros. now apply ladderx_connected_grid. Qed.
Print Assumptions C36_ladderx_bonds.

Theorem C36_star : forall i j,
  star_connected i i = false /\ star_connected i j = star_connected j i.
Proof.
  intros. unfold star_connected. rewrite Z.eqb_refl, (Z.eqb_sym j i). split; auto.
  destruct (i =? j); auto. apply orb_comm.
Qed.
Print Assumptions C36_star.

Theorem C36_ladderbath : forall m b l i j,
  0 < m -> 0 <= b -> 2 * m * (1 + b) < size_max -> la_L l = 2 * m ->
  let g := mklb (2 * m * (1 + b)) b l in
  in_range (2 * m * (1 + b)) i -> in_range (2 * m * (1 + b)) j ->
  lb_connected g i i = Ok false /\
  exists v, lb_connected g i j = Ok v /\ lb_connected g j i = Ok v.
Proof.
  intros m b l i j Hm Hb Hsm Hl g Hi Hj. unfold size_max in *. split.
  { unfold lb_connected. now rewrite Z.eqb_refl. }
  assert (D : forall k, in_range (2 * m * (1 + b)) k -> in_cluster m b k \/ in_bath m b k).
  { intros k Hk. unfold in_bath, in_cluster. destruct (Z_le_dec (m * b) k), (Z_lt_dec k (m * b + 2 * m)); auto; right; split; auto; lia. }
  assert (U : forall k, in_range (2 * m * (1 + b)) k -> exists o, lb_getClusterSite g k = Ok o).
  { intros k Hk. destruct (D k Hk) as [Hc|Hc].
    - unfold g. rewrite getClusterSite_cluster by auto. eauto.
    - destruct (bath_site_ex m b Hm k Hc) as (s & t & Hs & Ht & ->).
      unfold g. rewrite getClusterSite_bath by auto. eauto. }
  destruct (lb_connected_sym g i j) as [E|(s & E & Hs)].
  - rewrite <- E. unfold lb_connected. destruct (i =? j); [eauto|].
    destruct (U i Hi) as [o1 ->]. destruct (U j Hj) as [o2 ->]. cbn [bind].
    destruct o1 as [[? ?]|], o2 as [[? ?]|]; eauto.
  - destruct (U s) as [o E']; [destruct Hs; subst; auto|]. congruence.
Qed.
Print Assumptions C36_ladderbath.

(** The star: sites are joined exactly when one of two different sites is the centre, site 1. *)
Theorem C36_star_bonds : forall i j, star_connected i j = true <-> i <> j /\ (i = 1 \/ j = 1).
Proof. intros i j. unfold star_connected. destruct (Z.eqb_spec i j), (Z.eqb_spec i 1), (Z.eqb_spec j 1); cbn; intuition (try discriminate; auto; lia). Qed.
Print Assumptions C36_star_bonds.

(** The bonds of K2NiF4. Unit cell u holds the oxygens X(u) = 4u, Y(u) = 4u+1, Y'(u) = 4u+2 and the metal C(u) = 4u+3.
    A metal is joined to the three oxygens of its cell and to X of the next cell; X is joined to Y and Y' of
    its own cell and of the cell before; nothing else is joined. *)
Inductive k2_bond : Z -> Z -> Prop :=
| kb_CX u : k2_bond (4 * u + 3) (4 * u)
| kb_CY u : k2_bond (4 * u + 3) (4 * u + 1)
| kb_CY' u : k2_bond (4 * u + 3) (4 * u + 2)
| kb_CXn u : k2_bond (4 * u + 3) (4 * (u + 1))
| kb_XY u : k2_bond (4 * u) (4 * u + 1)
| kb_XY' u : k2_bond (4 * u) (4 * u + 2)
| kb_XYp u : k2_bond (4 * (u + 1)) (4 * u + 1)
| kb_XYp' u : k2_bond (4 * (u + 1)) (4 * u + 2).

Theorem C36_k2nif4 : forall i j, 0 <= i -> 0 <= j ->
  k2_connected i i = Ok false /\
  exists v, k2_connected i j = Ok v /\ k2_connected j i = Ok v.
Proof.
  intros i j Hi Hj. split.
  { unfold k2_connected. now rewrite Z.eqb_refl. }
  unfold k2_connected. rewrite (Z.eqb_sym j i). destruct (Z.eqb_spec i j); [eauto|].
  pose proof (k2_type_C i Hi) as Ti. pose proof (k2_type_C j Hj) as Tj.
  assert (S : forall k, 0 <= k -> fst (k2_type k) = false -> snd (k2_type k) = true -> k mod 4 = 0).
  { intros k Hk. unfold k2_type. destruct (Z.eqb_spec ((k + 1) mod 4) 0); [discriminate|]. cbn [fst snd].
    intros _ E. apply Z.eqb_eq in E. clear Ti Tj. Z.to_euclidean_division_equations. lia. }
  pose proof (S i Hi) as Si. pose proof (S j Hj) as Sj.
  destruct (k2_type i) as [ti si], (k2_type j) as [tj sj]. cbn [fst snd] in *.
  assert (Ci : ti = true -> 3 <= i). { intros ->. symmetry in Ti. apply Z.eqb_eq in Ti. pose proof (Z.mod_le i 4 Hi ltac:(lia)). lia. }
  assert (Cj : tj = true -> 3 <= j). { intros ->. symmetry in Tj. apply Z.eqb_eq in Tj. pose proof (Z.mod_le j 4 Hj ltac:(lia)). lia. }
  assert (X4 : forall k, 0 <= k -> k mod 4 = 0 -> k = 0 \/ 4 <= k).
  { intros k Hk E. destruct (Z_lt_le_dec k 4); auto. rewrite Z.mod_small in E by lia. auto. }
  destruct ti, tj; cbn [eqb andb negb].
  - eauto.
  - specialize (Ci eq_refl). destruct (Z.leb_spec 3 i); [|lia]. eauto.
  - specialize (Cj eq_refl). destruct (Z.leb_spec 3 j); [|lia]. eauto.
  - destruct si, sj; cbn [eqb]; eauto.
    + specialize (Si eq_refl eq_refl). destruct (X4 i Hi Si).
      * subst. destruct (Z.ltb_spec j 0); [lia|]. destruct (w64 (j - 1) =? 0); eauto.
      * destruct (j <? i). { destruct (Z.leb_spec 4 i); [|lia]. eauto. } destruct (w64 (j - 1) =? i); eauto.
    + specialize (Sj eq_refl eq_refl). destruct (X4 j Hj Sj).
      * subst. destruct (Z.ltb_spec i 0); [lia|]. destruct (w64 (i - 1) =? 0); eauto.
      * destruct (i <? j). { destruct (Z.leb_spec 4 j); [|lia]. eauto. } destruct (w64 (i - 1) =? j); eauto.
Qed.
Print Assumptions C36_k2nif4.

Theorem C36_k2nif4_bonds : forall i j, 0 <= i < size_max -> 0 <= j < size_max ->
  (k2_connected i j = Ok true <-> k2_bond i j \/ k2_bond j i).
Proof.
  intros i j Hi Hj. unfold size_max in *.
  assert (D : forall k, exists u p, k = 4 * u + p /\ 0 <= p <= 3).
  { intros k. exists (k / 4), (k mod 4). pose proof (Z.div_mod k 4 ltac:(lia)). pose proof (Z.mod_pos_bound k 4 ltac:(lia)). lia. }
  assert (T : forall u p, 0 <= p <= 3 -> k2_type (4 * u + p) = (p =? 3, orb (p =? 3) (p =? 0))).
  { intros u p Hp. unfold k2_type. replace (4 * u + p + 1) with ((p + 1) + u * 4) by lia. rewrite Z.mod_add by lia.
    assert (p = 0 \/ p = 1 \/ p = 2 \/ p = 3) as [-> | [-> | [-> | ->]]] by lia; reflexivity. }
  assert (W : forall k, 1 <= k < 18446744073709551616 -> w64 (k - 1) = k - 1) by (intros k Hk; apply Z.mod_small; lia).
  assert (B : forall a b, k2_bond a b <-> exists u, (a = 4 * u + 3 /\ (b = 4 * u \/ b = 4 * u + 1 \/ b = 4 * u + 2 \/ b = 4 * u + 4)) \/
    (a = 4 * u /\ (b = 4 * u + 1 \/ b = 4 * u + 2 \/ b = 4 * u - 3 \/ b = 4 * u - 2))).
  { intros a b. split.
    - intros []; try (exists u; lia); exists (u + 1); lia.
    - intros (u & [(-> & [-> | [-> | [-> | ->]]]) | (-> & [-> | [-> | [-> | ->]]])]); try constructor.
      + replace (4 * u + 4) with (4 * (u + 1)) by lia. constructor.
      + replace (4 * u - 3) with (4 * (u - 1) + 1) by lia. replace (4 * u) with (4 * (u - 1 + 1)) by lia. constructor.
      + replace (4 * u - 2) with (4 * (u - 1) + 2) by lia. replace (4 * u) with (4 * (u - 1 + 1)) by lia. constructor. }
  rewrite (B i j), (B j i). clear B.
  destruct (D i) as (u & p & -> & Hp), (D j) as (v & q & -> & Hq).
  assert (R : forall a b, (Ok a = Ok true <-> b) <-> (a = true <-> b)) by (intros a b; split; intros [H1 H2]; split; intros H; [apply H1; congruence|apply H2 in H; congruence|apply H1; congruence|apply H2 in H; congruence]).
  unfold k2_connected. rewrite !T by auto.
  assert (p = 0 \/ p = 1 \/ p = 2 \/ p = 3) as [-> | [-> | [-> | ->]]] by lia;
  assert (q = 0 \/ q = 1 \/ q = 2 \/ q = 3) as [-> | [-> | [-> | ->]]] by lia;
  cbn [Z.eqb orb eqb andb negb Pos.eqb].
  all: repeat match goal with |- context [if ?x =? ?y then Ok false else _] => destruct (Z.eqb_spec x y); [rewrite R; split; [discriminate|]; intros [(k & Hk)|(k & Hk)]; lia|] end.
  all: try (rewrite R; split; [discriminate|]; intros [(k & Hk)|(k & Hk)]; lia).
  all: repeat match goal with |- context [if ?x <? ?y then _ else _] => destruct (Z.ltb_spec x y) end.
  all: repeat match goal with |- context [w64 (?x - 1)] => rewrite (W x) by lia end.
  all: repeat match goal with |- context [if ?x <=? ?y then _ else UB] => destruct (Z.leb_spec x y); [|exfalso; lia] end.
  all: repeat match goal with |- context [if ?x =? ?y then Ok true else _] => destruct (Z.eqb_spec x y) end.
  all: rewrite R, ?orb_true_iff, ?andb_true_iff, ?Z.eqb_eq, ?Z.leb_le; split; [intros H'|intros [(k & Hk)|(k & Hk)]; lia].
  all: first [left; exists u; lia | right; exists v; lia | left; exists v; lia | right; exists u; lia | idtac].
Qed.
Print Assumptions C36_k2nif4_bonds.

Theorem C36_honeycomb : forall lx ly py i j, 0 < ly -> ly * lx < 9223372036854775808 ->
  let g := mkhoney (ly * lx) ly py false in
  in_range (ly * lx) i -> in_range (ly * lx) j ->
  ho_connected g i i = Ok false /\
  exists v, ho_connected g i j = Ok v /\ ho_connected g j i = Ok v.
Proof.
  intros lx ly py i j Hly Hsm g Hi Hj. unfold ho_connected. split.
  { unfold ho_conn. now rewrite Z.eqb_refl. }
  unfold g. rewrite (ho_conn_sym lx ly py Hly j i).
  destruct (ho_total lx ly py Hly Hsm i j Hi Hj) as [o ->]. cbn [bind]. eauto.
Qed.
Print Assumptions C36_honeycomb.

(** The long range lattice says of every site that it is connected to itself. *)
Theorem C36_longrange_refuted : ~ (forall i, longrange_connected i i = false).
Proof. intros H. discriminate (H 0). Qed.
Print Assumptions C36_longrange_refuted.

Example C36_nonvacuous :
  (exists g, ladder_new 12 3 (Some 1) (Some 1) false = Ok g /\
     ladder_connected g 0 2 = true /\ ladder_connected g 0 9 = true /\ ladder_connected g 0 4 = false) /\
  chain_connected (chain_new 6 (Some 1) (Some 2)) 0 4 = true /\
  ho_connected (mkhoney 32 8 false false) 0 9 = Ok true /\ k2_connected 3 4 = Ok true /\
  lb_connected (mklb 12 2 (mkladder 4 2 false false)) 1 5 = Ok true.
Proof. split; [eexists; split; [reflexivity|]|]; vm_compute; auto. Qed.

(** * C37 *)
(** Open chain. *)
Theorem C37_chain_partial : forall linSize dist i1 i2 j1 j2,
  0 < dist < linSize -> linSize < size_max ->
  let g := chain_new linSize None (Some dist) in
  in_range linSize i1 -> in_range linSize i2 -> in_range linSize j1 -> in_range linSize j2 ->
  chain_connected g i1 i2 = true -> chain_connected g j1 j2 = true ->
  in_range (chain_getVectorSize g) (chain_handle g i1 i2) /\
  (chain_handle g i1 i2 = chain_handle g j1 j2 -> same_bond i1 i2 j1 j2).
Proof.
  intros L d i1 i2 j1 j2 Hd HL g I1 I2 J1 J2 Ci Cj. unfold size_max in *.
  apply (C36_chain_bonds L None d) in Ci, Cj; auto.
  destruct Ci as [Ni [Ci|[? _]]]; [|discriminate]. destruct Cj as [Nj [Cj|[? _]]]; [|discriminate].
  unfold chain_getVectorSize, chain_handle, same_bond, in_range in *. simpl.
  rewrite (w64_small d) by lia. rewrite w64_small by lia. minmax; lia.
Qed.
Print Assumptions C37_chain_partial.

(** In the periodic chain the bond that closes the ring shares its slot with the first one. *)
Theorem C37_chain_refuted : forall linSize, 3 <= linSize < size_max ->
  let g := chain_new linSize (Some 1) (Some 1) in
  exists i1 i2 j1 j2, in_range linSize i1 /\ in_range linSize i2 /\ in_range linSize j1 /\ in_range linSize j2 /\
    chain_connected g i1 i2 = true /\ chain_connected g j1 j2 = true /\
    chain_handle g i1 i2 = chain_handle g j1 j2 /\ ~ same_bond i1 i2 j1 j2.
Proof.
  intros L HL g. unfold size_max in *. exists 0, 1, 0, (L - 1).
  unfold in_range, same_bond.
  assert (E1 : chain_connected g 0 1 = true).
  { apply C36_chain_bonds; [lia|exact (proj2 HL)|]. split; [lia|]. left. reflexivity. }
  assert (E2 : chain_connected g 0 (L - 1) = true).
  { apply C36_chain_bonds; [lia|exact (proj2 HL)|]. split; [lia|]. right. split; [reflexivity|lia]. }
  unfold chain_handle. minmax; repeat split; auto; lia.
Qed.
Print Assumptions C37_chain_refuted.

Theorem C37_ladder : forall linSize leg px py garbage g i1 i2 j1 j2,
  0 < linSize < size_max -> 0 <= leg ->
  ladder_new linSize leg px py garbage = Ok g ->
  in_range linSize i1 -> in_range linSize i2 -> in_range linSize j1 -> in_range linSize j2 ->
  ladder_connected g i1 i2 = true -> ladder_connected g j1 j2 = true ->
  (exists dir h n, ladder_calcDir g i1 i2 = Ok dir /\ ladder_handle g i1 i2 = Ok h /\
     ladder_getVectorSize g dir = Ok n /\ in_range n h) /\
  (forall dir h, ladder_calcDir g i1 i2 = Ok dir -> ladder_calcDir g j1 j2 = Ok dir ->
     ladder_handle g i1 i2 = Ok h -> ladder_handle g j1 j2 = Ok h -> same_bond i1 i2 j1 j2).
Proof.
  intros L leg px py gb g i1 i2 j1 j2 HL Hleg H I1 I2 J1 J2 Ci Cj. unfold size_max in *.
  destruct (ladder_new_form _ _ _ _ _ _ (proj1 HL) Hleg H) as (Hpos & lx & perX & perY & Hlx & -> & -> & _).
  split.
  - now apply ladder_handle_range.
  - intros dir h D1 D2 E1 E2. apply (ladder_bond_inj leg lx Hpos Hlx (proj2 HL) perX perY i1 i2 j1 j2 dir h); auto.
Qed.
Print Assumptions C37_ladder.

(** LadderX with two legs and open ends. *)
Theorem C37_ladderx_partial : forall lx i1 i2 j1 j2,
  0 < lx -> 2 * lx < size_max ->
  let g := mkladder (2 * lx) 2 false false in
  in_range (2 * lx) i1 -> in_range (2 * lx) i2 -> in_range (2 * lx) j1 -> in_range (2 * lx) j2 ->
  ladderx_connected g i1 i2 = true -> ladderx_connected g j1 j2 = true ->
  (exists h n, ladderx_handle g i1 i2 = Ok h /\ ladderx_getVectorSize g (ladderx_calcDir g i1 i2) = Ok n /\ in_range n h) /\
  (forall h, ladderx_calcDir g i1 i2 = ladderx_calcDir g j1 j2 ->
     ladderx_handle g i1 i2 = Ok h -> ladderx_handle g j1 j2 = Ok h -> same_bond i1 i2 j1 j2).
Proof.
  intros lx i1 i2 j1 j2 Hlx Hsm g I1 I2 J1 J2 Ci Cj. unfold size_max in *.
  assert (Hir : forall i, ladderx_connected g i i = false).
  { intros. unfold ladderx_connected. now rewrite Z.eqb_refl. }
  split.
  - assert (W : forall i1 i2, in_range (2 * lx) i1 -> in_range (2 * lx) i2 -> i1 < i2 -> ladderx_connected g i1 i2 = true ->
      exists h n, ladderx_handle g i1 i2 = Ok h /\ ladderx_getVectorSize g (ladderx_calcDir g i1 i2) = Ok n /\ in_range n h).
    { clear i1 i2 I1 I2 Ci. intros i1 i2 I1 I2 Hlt Hc.
      destruct (ladderx_bond lx i1 i2 Hlx Hsm I1 I2 Hlt Hc) as (h & E & A). exists h.
      unfold ladderx_getVectorSize, ladder_getVectorSize. unfold g; cbn [la_L la_leg la_px la_py].
      replace (2 * lx / 2) with lx by (symmetry; apply lad_div2; lia).
      destruct I1, I2. unfold in_range.
      destruct A as [(-> & -> & ->)|[(c & Hc' & -> & -> & -> & ->)|[(c & Hc' & -> & -> & -> & ->)|(c & Hc' & -> & -> & -> & ->)]]];
        simpl (_ =? _); cbn [orb]; eexists; (split; [exact E|split; [reflexivity|]]); rewrite w64_small by lia; lia. }
    assert (N : i1 <> i2) by (intros ->; rewrite Hir in Ci; discriminate).
    destruct (Z_lt_le_dec i1 i2).
    + now apply W.
    + rewrite ladderx_handle_sym, ladderx_calcDir_sym by auto. rewrite ladderx_connected_sym in Ci. apply W; auto; lia.
  - intros h Ed Hi Hj.
    apply (bond_inj_any (ladderx_connected g)
      (fun i j => match ladderx_handle g i j with Ok h => Ok (ladderx_calcDir g i j, h) | _ => UB end) (2 * lx))
      with (h := (ladderx_calcDir g i1 i2, h)); auto.
    + intros. apply ladderx_connected_sym.
    + intros i j Hne. now rewrite ladderx_handle_sym, ladderx_calcDir_sym.
    + clear - Hlx Hsm. intros i1 i2 j1 j2 h I1 I2 J1 J2 Li Lj Ci Cj Hi Hj.
      destruct (ladderx_bond lx i1 i2 Hlx Hsm I1 I2 Li Ci) as (hi & Ei & A).
      destruct (ladderx_bond lx j1 j2 Hlx Hsm J1 J2 Lj Cj) as (hj & Ej & B).
      fold g in Ei, Ej, A, B. rewrite Ei in Hi. rewrite Ej in Hj. apply Ok_inj in Hi, Hj. rewrite <- Hj in Hi.
      injection Hi as E1 E2. cbv zeta in A, B.
      destruct A as [(A1 & A2 & A3)|[(c & A0 & A1 & A2 & A3 & A4)|[(c & A0 & A1 & A2 & A3 & A4)|(c & A0 & A1 & A2 & A3 & A4)]]];
      destruct B as [(B1 & B2 & B3)|[(c' & B0 & B1 & B2 & B3 & B4)|[(c' & B0 & B1 & B2 & B3 & B4)|(c' & B0 & B1 & B2 & B3 & B4)]]]; lia.
    + now rewrite Hi.
    + now rewrite Hj, Ed.
Qed.
Print Assumptions C37_ladderx_partial.

(** LadderX gives two bonds of one direction the same slot with three legs, and with
    periodic columns. *)
Theorem C37_ladderx_refuted :
  (let g := mkladder 9 3 false false in
   ladderx_connected g 1 3 = true /\ ladderx_connected g 1 5 = true /\
   ladderx_calcDir g 1 3 = ladderx_calcDir g 1 5 /\ ladderx_handle g 1 3 = ladderx_handle g 1 5 /\
   ~ same_bond 1 3 1 5) /\
  (let g := mkladder 8 2 true false in
   ladderx_connected g 0 2 = true /\ ladderx_connected g 0 6 = true /\
   ladderx_calcDir g 0 2 = ladderx_calcDir g 0 6 /\ ladderx_handle g 0 2 = ladderx_handle g 0 6 /\
   ~ same_bond 0 2 0 6).
Proof. split; vm_compute; repeat split; auto; intros [[? ?]|[? ?]]; discriminate. Qed.
Print Assumptions C37_ladderx_refuted.

Theorem C37_star : forall linSize i1 i2 j1 j2, linSize < size_max ->
  in_range linSize i1 -> in_range linSize i2 -> in_range linSize j1 -> in_range linSize j2 ->
  star_connected i1 i2 = true -> star_connected j1 j2 = true ->
  (exists n, star_getVectorSize linSize 0 = Ok n /\ in_range n (star_handle i1 i2)) /\
  (star_handle i1 i2 = star_handle j1 j2 -> same_bond i1 i2 j1 j2).
Proof.
  unfold size_max. intros L i1 i2 j1 j2 HL [I1 I1'] [I2 I2'] [J1 J1'] [J2 J2'] Ci Cj.
  unfold star_connected in *.
  destruct (Z.eqb_spec i1 i2); [discriminate|]. destruct (Z.eqb_spec j1 j2); [discriminate|].
  apply orb_true_iff in Ci, Cj. rewrite !Z.eqb_eq in Ci, Cj.
  unfold star_handle, star_getVectorSize, in_range, same_bond. simpl (0 =? 0). cbn [negb].
  split.
  - eexists. split; [reflexivity|]. rewrite w64_small by (minmax; lia). rewrite w64_small by lia. minmax; lia.
  - rewrite !w64_small by (minmax; lia). minmax; lia.
Qed.
Print Assumptions C37_star.

Example C37_nonvacuous :
  exists g, ladder_new 12 3 (Some 1) (Some 1) false = Ok g /\
    ladder_connected g 0 9 = true /\ ladder_handle g 0 9 = Ok 9 /\ ladder_calcDir g 0 9 = Ok 0 /\
    ladder_connected g 6 9 = true /\ ladder_handle g 6 9 = Ok 6 /\ ladder_calcDir g 6 9 = Ok 0 /\
    ladder_getVectorSize g 0 = Ok 12 /\
    star_connected 1 3 = true /\ chain_connected (chain_new 5 None (Some 2)) 1 3 = true /\
    ladderx_connected (mkladder 8 2 false false) 1 2 = true.
Proof. eexists. split; [reflexivity|]. vm_compute. auto 20. Qed.

(** * C38 *)
(** Chain: reflection is an involution that keeps connections. *)
Theorem C38_chain_reflection : forall linSize dist per i j,
  0 < dist < linSize -> linSize < size_max ->
  let g := chain_new linSize per (Some dist) in
  let refl := chain_findReflection g in
  in_range linSize i -> in_range linSize j ->
  in_range linSize (refl i) /\ refl (refl i) = i /\
  chain_connected g (refl i) (refl j) = chain_connected g i j.
Proof.
  intros L d per i j Hd HL g refl Hi Hj. unfold size_max in *.
  assert (E : forall k, in_range L k -> refl k = L - k - 1).
  { intros k [? ?]. unfold refl, chain_findReflection. apply w64_small. simpl. lia. }
  assert (In : in_range L (refl i)). { rewrite E by auto. destruct Hi. split; lia. }
  split; auto. split.
  - rewrite (E (refl i)), E by auto. lia.
  - apply eq_true_iff_eq. unfold g. rewrite !C36_chain_bonds by auto.
    rewrite !E by auto. unfold chain_adj.
    replace (Z.abs (L - i - 1 - (L - j - 1))) with (Z.abs (i - j)) by lia.
    split; intros [K1 K2]; (split; [lia|auto]).
Qed.
Print Assumptions C38_chain_reflection.

Theorem C38_chain_translate : forall linSize dist per amount,
  0 < dist < linSize -> linSize < size_max -> 0 <= amount ->
  let g := chain_new linSize per (Some dist) in
  exists t, (forall i, in_range linSize i -> chain_translate g i 0 amount = Ok (t i)) /\
    is_bijection linSize t /\
    (per = Some 1 -> forall i j, in_range linSize i -> in_range linSize j ->
       chain_connected g (t i) (t j) = chain_connected g i j).
Proof.
  intros L d per a Hd HL Ha g. unfold size_max in *. exists (fun i => (i + a) mod L). split; [|split].
  - intros i [? ?]. apply chain_translate_ok; simpl; lia.
  - apply cyc_shift_bij. lia.
  - intros -> i j Hi Hj. apply eq_true_iff_eq. unfold g. rewrite !C36_chain_bonds by auto. change (0 <? 1) with true. split.
    + intros H. apply (chain_adj_shift L d _ _ (- a) Hd) in H; try (apply Z.mod_pos_bound; lia).
      rewrite !Zplus_mod_idemp_l in H. replace (i + a + - a) with i in H by lia. replace (j + a + - a) with j in H by lia.
      destruct Hi, Hj. now rewrite !Z.mod_small in H by lia.
    + apply chain_adj_shift; auto.
Qed.
Print Assumptions C38_chain_translate.

Lemma on_sites (leg lx : Z) (f : Z -> Z -> Z) : 0 < leg ->
  exists t, forall c r, 0 <= r < leg -> t (r + c * leg) = f c r.
Proof.
  intros H. exists (fun i => f (i / leg) (i mod leg)). intros c r Hr. now rewrite coord_div, coord_mod.
Qed.

Theorem C38_ladder_reflection : forall linSize leg px py garbage g,
  0 < linSize < size_max -> 0 <= leg ->
  ladder_new linSize leg px py garbage = Ok g ->
  exists refl, (forall i, in_range linSize i -> ladder_findReflection g i = Ok (refl i) /\ in_range linSize (refl i) /\
                          refl (refl i) = i) /\
    (forall i j, in_range linSize i -> in_range linSize j ->
       ladder_connected g (refl i) (refl j) = ladder_connected g i j).
Proof.
  intros L leg px py gb g HL Hleg H. unfold size_max in *.
  destruct (ladder_new_form _ _ _ _ _ _ (proj1 HL) Hleg H) as (Hpos & lx & perX & perY & Hlx & -> & -> & _).
  destruct (on_sites leg lx (fun c r => r + (lx - 1 - c) * leg) Hpos) as [t Ht]. exists t. split.
  - intros i Hi. destruct (coord_ex leg lx i Hpos Hi) as (c & r & -> & Hr & Hc).
    rewrite ladder_reflection_ok by (auto; lia). rewrite !Ht by auto. split; [reflexivity|]. split.
    + apply coord_range; lia.
    + lia.
  - intros i j Hi Hj.
    destruct (coord_ex leg lx i Hpos Hi) as (c & r & -> & Hr & Hc).
    destruct (coord_ex leg lx j Hpos Hj) as (c' & r' & -> & Hr' & Hc').
    rewrite !Ht by auto. apply eq_true_iff_eq. rewrite !ladder_connected_grid by (auto; lia).
    unfold grid_adj, line_adj. replace (lx - 1 - c - (lx - 1 - c')) with (- (c - c')) by lia. rewrite Z.abs_opp.
    split; (intros [[K1 K2]|[K1 [K2 K3]]]; [left; split; [lia|auto]|right; split; [auto|split; [lia|auto]]]).
Qed.
Print Assumptions C38_ladder_reflection.

Theorem C38_ladder_translate : forall linSize leg px py garbage g dir amount,
  0 < linSize < size_max -> 0 <= leg -> 0 <= amount ->
  ladder_new linSize leg px py garbage = Ok g ->
  dir = 0 \/ dir = 1 ->
  exists t, (forall i, in_range linSize i -> ladder_translate g i dir amount = Ok (t i)) /\
    is_bijection linSize t /\
    ((if dir =? 0 then la_px g else la_py g) = true -> forall i j, in_range linSize i -> in_range linSize j ->
       ladder_connected g (t i) (t j) = ladder_connected g i j).
Proof.
  intros L leg px py gb g dir a HL Hleg Ha H Hdir. unfold size_max in *.
  destruct (ladder_new_form _ _ _ _ _ _ (proj1 HL) Hleg H) as (Hpos & lx & perX & perY & Hlx & -> & -> & _).
  set (fc := fun c => if dir =? 0 then (c + a) mod lx else c).
  set (fr := fun r => if dir =? 0 then r else (r + a) mod leg).
  assert (Bc : is_bijection lx fc).
  { unfold fc. destruct Hdir as [-> | ->]; simpl.
    - now apply cyc_shift_bij.
    - repeat split; try tauto; try (apply H0). intros j Hj. eauto. }
  assert (Br : is_bijection leg fr).
  { unfold fr. destruct Hdir as [-> | ->]; simpl.
    - repeat split; try tauto; try (apply H0). intros j Hj. eauto.
    - now apply cyc_shift_bij. }
  destruct Bc as (Bc1 & Bc2 & Bc3). destruct Br as (Br1 & Br2 & Br3).
  destruct (on_sites leg lx (fun c r => fr r + fc c * leg) Hpos) as [t Ht]. exists t. split; [|split].
  - intros i Hi. destruct (coord_ex leg lx i Hpos Hi) as (c & r & -> & Hr & Hc). rewrite Ht by auto.
    unfold fc, fr. destruct Hdir as [-> | ->]; simpl (_ =? _); cbv iota.
    + apply ladder_translate_x; auto; lia.
    + apply ladder_translate_y; auto; lia.
  - split; [|split].
    + intros i Hi. destruct (coord_ex leg lx i Hpos Hi) as (c & r & -> & Hr & Hc). rewrite Ht by auto.
      apply coord_range; [apply Br1|apply Bc1]; split; lia.
    + intros i j Hi Hj E.
      destruct (coord_ex leg lx i Hpos Hi) as (c & r & -> & Hr & Hc).
      destruct (coord_ex leg lx j Hpos Hj) as (c' & r' & -> & Hr' & Hc').
      rewrite !Ht in E by auto. apply coord_inj in E; [|apply Br1; split; lia|apply Br1; split; lia].
      destruct E as [E1 E2]. apply Bc2 in E1; [|split; lia|split; lia]. apply Br2 in E2; [|split; lia|split; lia].
      now subst.
    + intros j Hj. destruct (coord_ex leg lx j Hpos Hj) as (c & r & -> & Hr & Hc).
      destruct (Bc3 c) as (c' & Hc' & <-); [split; lia|]. destruct (Br3 r) as (r' & Hr' & <-); [split; lia|].
      exists (r' + c' * leg). split; [apply coord_range; auto|]. apply Ht. auto.
  - intros Hper i j Hi Hj.
    destruct (coord_ex leg lx i Hpos Hi) as (c & r & -> & Hr & Hc).
    destruct (coord_ex leg lx j Hpos Hj) as (c' & r' & -> & Hr' & Hc').
    rewrite !Ht by auto. apply eq_true_iff_eq.
    assert (Q1 : 0 <= fr r < leg) by (apply Br1; split; lia). assert (Q2 : 0 <= fr r' < leg) by (apply Br1; split; lia).
    assert (Q3 : 0 <= fc c < lx) by (apply Bc1; split; lia). assert (Q4 : 0 <= fc c' < lx) by (apply Bc1; split; lia).
    rewrite !ladder_connected_grid by (auto; lia).
    assert (Sh : forall n x y, 0 < n -> in_range n x -> in_range n y ->
      (line_adj n true ((x + a) mod n) ((y + a) mod n) <-> line_adj n true x y)).
    { intros n x y Hn Hx Hy. destruct (Z.eq_dec n 1) as [->|].
      - rewrite !Z.mod_1_r. destruct Hx, Hy. replace x with 0 by lia. replace y with 0 by lia. tauto.
      - split.
        + intros K. apply (line_adj_shift n (- a)) in K; try (apply Z.mod_pos_bound; lia); [|lia].
          rewrite !Zplus_mod_idemp_l in K. replace (x + a + - a) with x in K by lia. replace (y + a + - a) with y in K by lia.
          destruct Hx, Hy. now rewrite !Z.mod_small in K by lia.
        + apply line_adj_shift; auto; lia. }
    assert (Ec : fc c = fc c' <-> c = c'). { split; [|congruence]. apply Bc2; split; lia. }
    assert (Er : fr r = fr r' <-> r = r'). { split; [|congruence]. apply Br2; split; lia. }
    unfold grid_adj. rewrite Ec, Er.
    assert (Lc : line_adj lx perX (fc c) (fc c') <-> line_adj lx perX c c').
    { unfold fc. destruct Hdir as [-> | ->]; simpl (_ =? _) in *; cbv iota in *; [|reflexivity].
      cbn [la_px] in Hper. subst perX. apply Sh; auto. }
    assert (Lr : line_adj leg perY (fr r) (fr r') <-> line_adj leg perY r r').
    { unfold fr. destruct Hdir as [-> | ->]; simpl (_ =? _) in *; cbv iota in *; [reflexivity|].
      cbn [la_py] in Hper. subst perY. apply Sh; auto. }
    rewrite Lc, Lr. reflexivity.
Qed.
Print Assumptions C38_ladder_translate.

(** On an open chain a translation does not preserve the bonds: the restriction to
    periodic boundaries is needed. *)
Example C38_nonvacuous :
  chain_translate (chain_new 6 (Some 1) (Some 2)) 4 0 5 = Ok 3 /\
  chain_connected (chain_new 6 (Some 1) (Some 2)) 0 4 = true /\
  chain_connected (chain_new 6 None (Some 1)) 4 5 = true /\
  chain_connected (chain_new 6 None (Some 1)) 5 0 = false /\
  exists g, ladder_new 12 3 (Some 1) (Some 1) false = Ok g /\ ladder_translate g 10 0 5 = Ok 1 /\
    ladder_translate g 10 1 5 = Ok 9 /\ ladder_findReflection g 4 = Ok 7 /\ la_px g = true /\ la_py g = true.
Proof.
  do 4 (split; [vm_compute; reflexivity|]). exists (mkladder 12 3 true true).
  repeat split; vm_compute; reflexivity.
Qed.
