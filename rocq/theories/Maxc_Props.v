(** Theorems about maxConnections, the number of connections broken when a lattice
    is split: C106. *)
From Verif Require Import Prelude Ring Geo_Model Geo_Spec Geo_Proofs Geo_Proofs2 Geo_Props
  Maxc_Model Maxc_Spec Maxc_Proofs.
From Coq Require Import ZArith Lia Bool List.
Import ListNotations.
Local Open Scope Z_scope.

(** A chain that is periodic, or where the neighbours are at distance one, never loses more
    connections than maxConnections says. *)
Theorem C106_chain_partial : forall linSize per dist, 0 < dist < linSize -> linSize < size_max ->
  let g := chain_new linSize per (Some dist) in
  ch_per g = true \/ dist = 1 ->
  breaks_at_most (chain_maxConnections g) linSize (fun i j => chain_connected g i j = true).
Proof.
  intros L per d Hd HL g Hc m Hm. unfold size_max in *. apply covered_at_most.
  assert (Ed : ch_d g = d) by (unfold g; simpl; now rewrite w64_small by lia).
  assert (Hg : chain_ok g) by (split; rewrite ?Ed; simpl; lia).
  eapply covered_weak; [apply (chain_covered g m Hg)| |intros p Hp; exact Hp].
  unfold chain_maxConnections. rewrite Ed. destruct Hc as [->| ->]; destruct (ch_per g); lia.
Qed.
Print Assumptions C106_chain_partial.

(** An open chain with neighbours farther away can lose more than maxConnections: it is always one. *)
Theorem C106_chain_refuted : forall linSize dist, 2 <= dist -> dist + 2 <= linSize -> linSize < size_max ->
  let g := chain_new linSize None (Some dist) in
  breaks_more (chain_maxConnections g) linSize (fun i j => chain_connected g i j = true).
Proof.
  intros L d Hd Hd2 HL g. unfold breaks_more. exists d. split; [lia|]. exists [(0, d); (1, d + 1)]. split; [|split].
  - repeat constructor; simpl; intuition congruence.
  - assert (C : forall i, chain_connected g i (i + d) = true).
    { intros. apply C36_chain_bonds; [lia|exact HL|]. split; [lia|]. left. lia. }
    intros p [<-|[<-|[]]]; unfold broken; cbn [fst snd]; (split; [lia|split; [lia|]]); [apply (C 0)|rewrite Z.add_comm; apply (C 1)].
  - vm_compute. reflexivity.
Qed.
Print Assumptions C106_chain_refuted.

(** A ladder that is periodic along its length, or open across it, never loses more. *)
Theorem C106_ladder_partial : forall linSize leg px py garbage g,
  0 < linSize < size_max -> 0 <= leg ->
  ladder_new linSize leg px py garbage = Ok g ->
  la_px g = true \/ la_py g = false ->
  breaks_at_most (ladder_maxConnections g) linSize (fun i j => ladder_connected g i j = true).
Proof.
  intros L leg px py gb g HL Hleg H Hc m Hm. unfold size_max in *.
  destruct (ladder_new_form _ _ _ _ _ _ (proj1 HL) Hleg H) as (Hpos & lx & perX & perY & Hlx & -> & -> & _ & _).
  cbn [la_px la_py] in Hc. unfold ladder_maxConnections. cbn [la_px la_L la_leg]. apply covered_at_most.
  eapply covered_weak; [apply (ladder_covered leg lx perX perY m Hpos Hlx); lia| |intros p Hp; exact Hp].
  assert (leg <= leg * lx) by nia.
  assert (2 <= lx -> 2 * leg <= leg * lx) by nia. assert (3 <= lx -> 3 * leg <= leg * lx) by nia.
  set (n := leg * lx) in *. clearbody n. clear H.
  assert (lx = 1 -> n = leg \/ n <> leg) by lia.
  assert (L1 : lx = 1 \/ 2 * leg <= n) by lia.
  set (u := Z.min leg (Z.min m (n - m))). assert (U : u <= leg /\ u <= m /\ u <= n - m /\ 0 <= u) by (unfold u; lia).
  clearbody u.
  destruct perX; cbn [andb].
  - destruct (Z.leb_spec 3 lx); destruct (Z.leb_spec 2 leg); cbn [andb]; destruct (Z.leb_spec 3 leg); rewrite ?andb_false_r, ?andb_true_r; cbn [andb];
      destruct perY; cbn [andb]; destruct (Z.ltb_spec 0 m); cbn [andb]; destruct (Z.ltb_spec m n); try lia.
  - destruct Hc as [Hc|Hc]; [discriminate|]. subst perY. cbn [andb].
    destruct (_ && _); lia.
Qed.
Print Assumptions C106_ladder_partial.

Lemma nodup_app2 {A} (l k : list A) : NoDup l -> NoDup k -> (forall x, In x l -> In x k -> False) -> NoDup (l ++ k).
Proof.
  induction l; intros Hl Hk H; [exact Hk|]. inversion Hl; subst. cbn [app]. constructor.
  - rewrite in_app_iff. intros [?|?]; [contradiction|]. apply (H a); simpl; auto.
  - apply IHl; auto. intros x Hx Hx'. apply (H x); simpl; auto.
Qed.

(** A ladder of three rows or more that is periodic across its length, and not along it, can lose one more. *)
Theorem C106_ladder_refuted : forall leg lx, 3 <= leg -> 3 <= lx -> leg * lx < size_max ->
  exists g, ladder_new (leg * lx) leg None (Some 1) false = Ok g /\
  breaks_more (ladder_maxConnections g) (leg * lx) (fun i j => ladder_connected g i j = true).
Proof.
  intros leg lx Hl Hx Hs. unfold size_max in *. exists (mkladder (leg * lx) leg false true). split.
  { unfold ladder_new. change (0 <? 1) with true. cbn [bind]. destruct (Z.eqb_spec leg 2); [lia|]. destruct (Z.eqb_spec leg 0); [lia|].
    cbn [negb bind]. rewrite (Z.mul_comm leg), Z.mod_mul by lia. cbn [Z.eqb negb]. reflexivity. }
  unfold ladder_maxConnections. cbn [la_px la_leg].
  set (g := mkladder (leg * lx) leg false true).
  assert (G : forall c1 r1 c2 r2, in_range leg r1 -> in_range leg r2 -> in_range lx c1 -> in_range lx c2 ->
     grid_adj lx leg false true c1 r1 c2 r2 -> ladder_connected g (r1 + c1 * leg) (r2 + c2 * leg) = true).
  { intros. apply ladder_connected_grid; auto; lia. }
  assert (Hle : leg * 3 <= leg * lx) by (apply Z.mul_le_mono_nonneg_l; lia).
  exists (leg + 1). split; [lia|].
  exists (zmap (fun k => (k + 1, k + 1 + leg)) leg ++ [(leg, leg + 1); (leg, 2 * leg - 1)]). split; [|split].
  - apply nodup_app2.
    + apply zmap_nodup. intros a b _ _ E. congruence || (injection E; lia).
    + constructor; [intros [E|[]]; apply (f_equal snd) in E; cbn [snd] in E; lia|]. constructor; [intros []|constructor].
    + intros x Hx1 Hx2. apply zmap_inv in Hx1. destruct Hx1 as (k & Hk & <-).
      destruct Hx2 as [E|[E|[]]]; pose proof (f_equal fst E) as E1; pose proof (f_equal snd E) as E2; cbn [fst snd] in E1, E2; lia.
  - intros p Hp. apply in_app_or in Hp. destruct Hp as [Hp|[<-|[<-|[]]]].
    + apply zmap_inv in Hp. destruct Hp as (k & Hk & <-). unfold broken. cbn [fst snd]. split; [lia|]. split; [lia|].
      destruct (Z.eq_dec k (leg - 1)) as [->|].
      * replace (leg - 1 + 1) with (0 + 1 * leg) by lia. replace (0 + 1 * leg + leg) with (0 + 2 * leg) by lia.
        apply G; unfold in_range; try lia. right. split; [reflexivity|]. split; [lia|left; lia].
      * replace (k + 1) with ((k + 1) + 0 * leg) by lia. replace (k + 1 + 0 * leg + leg) with ((k + 1) + 1 * leg) by lia.
        apply G; unfold in_range; try lia. right. split; [reflexivity|]. split; [lia|left; lia].
    + unfold broken. cbn [fst snd]. split; [lia|]. split; [lia|].
      replace (leg + 1) with (1 + 1 * leg) by lia. replace leg with (0 + 1 * leg) at 1 by lia.
      apply G; unfold in_range; try lia. left. split; [reflexivity|]. split; [lia|left; lia].
    + unfold broken. cbn [fst snd]. split; [lia|]. split; [lia|].
      replace (2 * leg - 1) with ((leg - 1) + 1 * leg) by lia. replace leg with (0 + 1 * leg) at 1 by lia.
      apply G; unfold in_range; try lia. left. split; [reflexivity|]. split; [lia|right; split; [reflexivity|lia]].
  - rewrite app_length, Nat2Z.inj_add, zmap_length by lia. simpl. lia.
Qed.
Print Assumptions C106_ladder_refuted.

(** A ladder with diagonals always loses more than it says when it is split between two columns. *)
Theorem C106_ladderx_refuted : forall leg lx px, 2 <= leg -> 2 <= lx -> leg * lx < size_max ->
  let g := mkladder (leg * lx) leg px false in
  breaks_more (ladderx_maxConnections g) (leg * lx) (fun i j => ladderx_connected g i j = true).
Proof.
  intros leg lx px Hl Hx Hs g. unfold size_max in *.
  assert (G : forall c1 r1 c2 r2, in_range leg r1 -> in_range leg r2 -> in_range lx c1 -> in_range lx c2 ->
     gridx_adj lx leg px c1 r1 c2 r2 -> ladderx_connected g (r1 + c1 * leg) (r2 + c2 * leg) = true).
  { intros. apply ladderx_connected_grid; auto; lia. }
  assert (Hle : leg * 2 <= leg * lx) by (apply Z.mul_le_mono_nonneg_l; lia).
  exists leg. split; [lia|].
  exists (zmap (fun k => (k, k + leg)) leg ++ [(0, leg + 1); (1, leg)]). split; [|split].
  - apply nodup_app2.
    + apply zmap_nodup. intros a b _ _ E. congruence.
    + constructor; [intros [E|[]]; apply (f_equal snd) in E; cbn [snd] in E; lia|]. constructor; [intros []|constructor].
    + intros x Hx1 Hx2. apply zmap_inv in Hx1. destruct Hx1 as (k & Hk & <-).
      destruct Hx2 as [E|[E|[]]]; pose proof (f_equal fst E) as E1; pose proof (f_equal snd E) as E2; cbn [fst snd] in E1, E2; lia.
  - intros p Hp. apply in_app_or in Hp. destruct Hp as [Hp|[<-|[<-|[]]]].
    + apply zmap_inv in Hp. destruct Hp as (k & Hk & <-). unfold broken. cbn [fst snd]. split; [lia|]. split; [lia|].
      replace k with (k + 0 * leg) at 1 by lia. replace (k + leg) with (k + 1 * leg) by lia.
      apply G; unfold in_range; try lia. left. right. split; [reflexivity|]. split; [lia|left; lia].
    + unfold broken. cbn [fst snd]. split; [lia|]. split; [lia|].
      replace (leg + 1) with (1 + 1 * leg) by lia. change 0 with (0 + 0 * leg) at 1.
      apply G; unfold in_range; try lia. right. lia.
    + unfold broken. cbn [fst snd]. split; [lia|]. split; [lia|].
      replace leg with (0 + 1 * leg) by lia. replace 1 with (1 + 0 * leg) at 1 by lia.
      apply G; unfold in_range; try lia. right. lia.
  - rewrite app_length, Nat2Z.inj_add, zmap_length by lia. unfold ladderx_maxConnections. simpl. lia.
Qed.
Print Assumptions C106_ladderx_refuted.

(** A star never loses more than it says. *)
Theorem C106_star : forall linSize, 0 < linSize < size_max ->
  breaks_at_most (star_maxConnections linSize) linSize (fun i j => star_connected i j = true).
Proof.
  intros L HL m Hm. unfold size_max in *. unfold star_maxConnections. rewrite w64_small by lia. apply covered_at_most.
  apply covered_by with (f := fun k => if k =? 0 then (0, 1) else (1, k + 1)) (c := L - 1); [lia|].
  intros [i j] (Hi & Hj & C). cbn [fst snd] in *. apply C36_star_bonds in C. destruct C as [N [->| ->]].
  - exists (j - 1). split; [lia|]. destruct (Z.eqb_spec (j - 1) 0); [lia|]. f_equal. lia.
  - exists 0. split; [lia|]. cbn [Z.eqb]. f_equal. lia.
Qed.
Print Assumptions C106_star.

(** The lattice K2NiF4 never loses more than it says. *)
Theorem C106_k2nif4 : forall linSize, 0 <= linSize < size_max ->
  breaks_at_most k2_maxConnections linSize (fun i j => k2_connected i j = Ok true).
Proof.
  intros L HL m Hm. apply covered_at_most. unfold k2_maxConnections.
  assert (D : exists u p, m = 4 * u + p /\ 0 <= p <= 3).
  { exists (m / 4), (m mod 4). pose proof (Z.div_mod m 4 ltac:(lia)). pose proof (Z.mod_pos_bound m 4 ltac:(lia)). lia. }
  destruct D as (u & p & Em & Hp).
  exists (if p =? 1 then [(4*u, 4*u+1); (4*u, 4*u+2); (4*u, 4*u+3)]
          else if p =? 2 then [(4*u, 4*u+2); (4*u, 4*u+3); (4*u+1, 4*u+3); (4*u+1, 4*u+4)]
          else if p =? 3 then [(4*u, 4*u+3); (4*u+1, 4*u+3); (4*u+2, 4*u+3); (4*u+1, 4*u+4); (4*u+2, 4*u+4)]
          else [(4*u-1, 4*u); (4*u-3, 4*u); (4*u-2, 4*u)]).
  split.
  - repeat (destruct (p =? _); [simpl; lia|]). simpl. lia.
  - intros [i j] (Hi & Hj & C). cbn [fst snd] in *. apply C36_k2nif4_bonds in C; [|lia|lia].
    assert (C' : exists v, (i = 4*v /\ j = 4*v+3) \/ (i = 4*v+1 /\ j = 4*v+3) \/ (i = 4*v+2 /\ j = 4*v+3) \/ (i = 4*v+3 /\ j = 4*v+4) \/
       (i = 4*v /\ j = 4*v+1) \/ (i = 4*v /\ j = 4*v+2) \/ (i = 4*v+1 /\ j = 4*v+4) \/ (i = 4*v+2 /\ j = 4*v+4)).
    { destruct C as [C|C]; inversion C; subst; try lia;
        solve [exists u0; lia | exists (u0 - 1); lia]. }
    clear C. destruct C' as [v C]. assert (p = 0 \/ p = 1 \/ p = 2 \/ p = 3) as [-> | [-> | [-> | ->]]] by lia; cbn [Z.eqb Pos.eqb In];
      destruct C as [C|[C|[C|[C|[C|[C|[C|C]]]]]]]; try lia.
    all: assert (V : v = u \/ v = u - 1) by lia; destruct V as [-> | ->]; try lia.
    all: assert (P : forall a b a' b' : Z, a = a' -> b = b' -> (a, b) = (a', b')) by (intros; congruence).
    all: first [ left; apply P; lia | right; left; apply P; lia | right; right; left; apply P; lia
       | right; right; right; left; apply P; lia | right; right; right; right; left; apply P; lia ].
Qed.
Print Assumptions C106_k2nif4.

(** A honeycomb, open or periodic in either direction, never loses more than it says. *)
Theorem C106_honeycomb : forall lx ly py px, 0 < ly -> 0 <= lx -> ly * lx < 9223372036854775808 ->
  let g := mkhoney (ly * lx) ly py px in
  breaks_at_most (ho_maxConnections g) (ly * lx) (fun i j => ho_connected g i j = Ok true).
Proof. intros lx ly py px Hl Hx Hs g m Hm. apply covered_at_most. now apply ho_covered. Qed.
Print Assumptions C106_honeycomb.

(** A ladder with a bath of one site per cluster site never loses more than it says; nor does one
    with two, unless the ladder is periodic in both directions. *)
Theorem C106_ladderbath_partial : forall m b leg px py garbage l,
  0 < m -> 0 <= b -> 0 <= leg -> 2 * m * (1 + b) < size_max ->
  ladder_new (2 * m) leg px py garbage = Ok l ->
  let g := mklb (2 * m * (1 + b)) b l in
  b <= 1 \/ (b = 2 /\ (la_px l = false \/ la_py l = false)) ->
  breaks_at_most (lb_maxConnections g) (2 * m * (1 + b)) (fun i j => lb_connected g i j = Ok true).
Proof.
  intros m b leg px py gb l Hm Hb Hleg Hs H g Hc p Hp. unfold size_max in *.
  destruct (ladder_new_form (2 * m) _ _ _ _ _ ltac:(lia) Hleg H) as (Hpos & lx & perX & perY & Hlx & E & -> & _ & _).
  apply covered_at_most. unfold lb_maxConnections, lb_cluster, g. cbn [lb_ladder la_L]. replace (leg * lx + 1) with (2 * m + 1) by lia.
  apply lb_covered; auto.
Qed.
Print Assumptions C106_ladderbath_partial.

(** With three bath sites or more it loses more when all the bath of one side is split off; and
    with two when the ladder is periodic in both directions. *)
Theorem C106_ladderbath_refuted :
  (forall m b l, 0 < m -> 2 * m + 2 <= m * b -> 2 * m * (1 + b) < size_max -> la_L l = 2 * m ->
   let g := mklb (2 * m * (1 + b)) b l in
   breaks_more (lb_maxConnections g) (2 * m * (1 + b)) (fun i j => lb_connected g i j = Ok true)) /\
  (exists g, ladderbath_new 36 2 3 (Some 1) (Some 1) false = Ok g /\
   breaks_more (lb_maxConnections g) 36 (fun i j => lb_connected g i j = Ok true)).
Proof.
  split.
  - intros m b l Hm Hmb Hs El g. unfold size_max in Hs. assert (0 <= b) by nia.
    assert (M : forall a, 0 <= a mod m < m) by (intros; apply Z.mod_pos_bound; lia).
    exists (m * b). split; [lia|]. exists (zmap (fun i => (i, m * b + i mod m)) (m * b)). split; [|split].
    + apply zmap_nodup. intros a c _ _ E. congruence.
    + intros p Hp. apply zmap_inv in Hp. destruct Hp as (i & Hi & <-). unfold broken. cbn [fst snd]. pose proof (M i).
      split; [lia|]. split; [lia|].
      pose proof (Z.div_mod i m ltac:(lia)).
      assert (0 <= i / m < b) by (split; [apply Z.div_pos; lia|apply Z.div_lt_upper_bound; lia]).
      assert (Ei : i = bath_site m b (i mod m) (i / m)).
      { unfold bath_site. destruct (Z.ltb_spec (i mod m) m); lia. }
      rewrite Ei at 1. unfold g. rewrite lb_connected_bath; auto; try lia; [now rewrite Z.eqb_refl|].
      unfold in_cluster. lia.
    + rewrite zmap_length by lia. unfold lb_maxConnections, lb_cluster, g. cbn [lb_ladder]. rewrite El. lia.
  - eexists. split; [reflexivity|]. exists 13. split; [lia|].
    exists [(1,13);(2,14);(3,15);(4,16);(5,17);(7,13);(8,14);(9,15);(10,16);(11,17);(12,15);(12,21);(12,13);(12,14)].
    split; [repeat (constructor; [simpl; intuition congruence|]); constructor|]. split; [|vm_compute; reflexivity].
    intros p Hp. repeat (destruct Hp as [<-|Hp]; [unfold broken; cbn [fst snd]; split; [lia|split; [lia|vm_compute; reflexivity]]|]). destruct Hp.
Qed.
Print Assumptions C106_ladderbath_refuted.

(** The number of the whole geometry is the greatest of those of its terms: none of its terms
    loses more connections than that, if it never loses more than it says itself. *)
Theorem C106_geometry : forall (terms : list (option Z)),
  (forall termId t, nth_error terms termId = Some (Some t) -> 0 <= t ->
     geometry_maxConnectionsOf terms termId = Ok t /\ t <= geometry_maxConnections terms /\
     forall L bond, breaks_at_most t L bond -> breaks_at_most (geometry_maxConnections terms) L bond) /\
  (geometry_maxConnections terms = 0 \/ In (Some (geometry_maxConnections terms)) terms).
Proof.
  intros terms.
  assert (G : forall l r, let f := fold_left (fun result t => if result <? term_maxConnections t then term_maxConnections t else result) l r in
     r <= f /\ (forall t, In (Some t) l -> t <= f) /\ (f = r \/ f = 0 \/ In (Some f) l \/ r < 0)).
  { induction l as [|a l IH]; intros r; cbn [fold_left]; [cbv zeta; split; [lia|]; split; [intros t []|auto]|].
    cbv zeta in *. set (r' := if r <? term_maxConnections a then term_maxConnections a else r).
    destruct (IH r') as (I1 & I2 & I3).
    assert (R : r <= r' /\ term_maxConnections a <= r') by (unfold r'; destruct (Z.ltb_spec r (term_maxConnections a)); lia).
    split; [lia|]. split.
    - intros t [->|Ht]; [cbn [term_maxConnections] in R; lia|auto].
    - destruct I3 as [I3|[I3|[I3|I3]]]; auto.
      + revert I3. generalize (fold_left (fun result t => if result <? term_maxConnections t then term_maxConnections t else result) l r').
        intros f ->. unfold r'. destruct (Z.ltb_spec r (term_maxConnections a)); [|auto].
        destruct a as [t|]; cbn [term_maxConnections]; [right; right; left; left; reflexivity|auto].
      + right. right. left. right. exact I3.
      + right. right. right. lia. }
  destruct (G terms 0) as (G1 & G2 & G3). cbv zeta in *. fold (geometry_maxConnections terms) in *. split.
  - intros k t Hk Ht. assert (T : t <= geometry_maxConnections terms) by (apply G2; eapply nth_error_In; eauto). split; [|split; [exact T|]].
    + unfold geometry_maxConnectionsOf, vget. rewrite Hk. reflexivity.
    + intros L bond B m Hm l Hl HB. specialize (B m Hm l Hl HB). lia.
  - destruct G3 as [G3|[G3|[G3|G3]]]; auto. lia.
Qed.
Print Assumptions C106_geometry.

Example C106_nonvacuous :
  (exists g, ladder_new 12 3 (Some 1) (Some 1) false = Ok g /\ ladder_maxConnections g = 12 /\
     broken 12 (fun i j => ladder_connected g i j = true) 4 (0, 9)) /\
  broken 8 (fun i j => k2_connected i j = Ok true) 3 (1, 4) /\
  broken 32 (fun i j => ho_connected (mkhoney 32 8 true true) i j = Ok true) 5 (0, 9) /\
  broken 8 (fun i j => chain_connected (chain_new 8 None (Some 3)) i j = true) 3 (2, 5) /\
  geometry_maxConnections [Some 3; None; Some 6; Some 2] = 6.
Proof. split; [eexists; split; [reflexivity|split; [reflexivity|]]|]; unfold broken; cbn [fst snd]; repeat split; try lia; vm_compute; reflexivity. Qed.
