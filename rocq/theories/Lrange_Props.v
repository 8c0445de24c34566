(** Theorems about connectors given by the user (long range geometries). *)
From Coq Require Import QArith Qcanon Lia Ascii String.
From Verif Require Import Prelude Ring Dense_Model Dense_Spec Dense_Proofs Str_Model Geo_Model
  Lrange_Model Lrange_Spec Lrange_Proofs.
Import List.
Local Open Scope nat_scope.

(** * C98 *)

(** A compact table whose rows are about sites and orbitals that exist is accepted,
    and the term of the geometry then has, between any two sites and orbitals, the
    value of the last row about them, and zero if there is none. *)
Theorem C98_compact : forall L dofs values rs mc,
  0 < L -> 0 < dofs -> (Z.of_nat L <= 2 ^ 63)%Z -> (Z.of_nat dofs <= 2 ^ 63)%Z ->
  Forall (row_ok L dofs) rs -> is_table dofs values rs ->
  exists g w,
    newLongRange L (lit "compact") (mklri None (Some dofs) (Some values) (Some mc)) = Ok (g, w) /\
    forall s0 o0 s1 o1, s0 < L -> o0 < dofs -> s1 < L -> o1 < dofs ->
      lr_value g dofs s0 o0 s1 o1 = Ok (listed rs s0 o0 s1 o1).
Proof.
  intros L dofs values rs mc HL Hd BL Bd Hrs T.
  destruct (reinterpret_ok L dofs values rs HL Hd BL Bd Hrs T) as (m & E & M).
  destruct M as (M1 & M2 & M3 & M4).
  destruct (checkConnectors_ok m L M3 ltac:(lia) HL) as [w Ew].
  destruct (term_matrix_ok L dofs m (asked dofs rs) (conj M1 (conj M2 (conj M3 M4)))) as (t & Et & Ht).
  exists (mklr L dofs mc m), w. repeat split.
  - unfold newLongRange. cbn [orThrow in_dofs in_entangler in_connectors in_maxConnections bind].
    replace (str_eqb (lit "compact") (lit "ConstantValues")) with false by reflexivity.
    replace (str_eqb (lit "compact") (lit "compact")) with true by reflexivity.
    cbn [orb negb]. rewrite E. cbn [bind]. rewrite Ew. reflexivity.
  - intros s0 o0 s1 o1 H0 H1 H2 H3. unfold lr_value, lr_set. cbn [lr_dofs lr_linSize lr_matrix].
    rewrite Nat.eqb_refl. cbn [negb bind]. rewrite Et. cbn [bind]. rewrite Ht by assumption. unfold asked.
    rewrite !Nat.div_add, !Nat.mod_add, !Nat.div_small, !Nat.mod_small by lia. reflexivity.
Qed.
Print Assumptions C98_compact.

Definition mat5 (l : list (list QGring)) : mat QGring :=
  (* rows of five cells, stored by columns *)
  mkmat (length l) 5 (flat_map (fun c => map (fun r => nth c r c0) l) (seq 0 5)).
Definition mat3 (l : list (list QGring)) : mat QGring :=
  mkmat (length l) 3 (flat_map (fun c => map (fun r => nth c r c0) l) (seq 0 3)).

(** A row about an orbital or a site that does not exist is not refused: orbital 2
    of site 0 is taken as orbital 0 of site 1 where sites have two orbitals, a
    negative site is converted to an unsigned integer, which is undefined, and a
    site past the last is a write outside of the matrix. *)
Theorem C98_compact_refuted :
  (do (g, _) <- newLongRange 2 (lit "compact")
      (mklri None (Some 2) (Some (mat5 [[num 0; num 2; num 1; num 1; num 7]])) (Some 1)) ;;
   lr_value g 2 1 0 1 1) = Ok (num 7) /\
  newLongRange 2 (lit "compact")
    (mklri None (Some 1) (Some (mat3 [[(Q2Qc (- 1), 0%Qc); num 1; num 7]])) (Some 1)) = UB /\
  newLongRange 2 (lit "compact")
    (mklri None (Some 1) (Some (mat3 [[num 2; num 1; num 7]])) (Some 1)) = UB.
Proof.
  repeat split; vm_compute; reflexivity.
Qed.
Print Assumptions C98_compact_refuted.

(** A cell that should name a site or an orbital and is not an integer makes the
    construction throw, whatever the rows after it are. *)
Theorem C98_noninteger : forall L dofs values rs k c mc,
  0 < L -> 0 < dofs -> (Z.of_nat L <= 2 ^ 63)%Z -> (Z.of_nat dofs <= 2 ^ 63)%Z ->
  mat_wf values -> m_ncol values = columns dofs -> k < m_nrow values ->
  length rs = k -> Forall (row_ok L dofs) rs ->
  (forall i c', i < k -> c' < columns dofs -> melem values i c' = nth c' (cells dofs (nth i rs dummy)) c0) ->
  S c < columns dofs -> not_integer (melem values k c) ->
  (forall c', c' < c -> exists n, (Z.of_nat n < 2 ^ 63)%Z /\ melem values k c' = num n) ->
  newLongRange L (lit "compact") (mklri None (Some dofs) (Some values) mc) = Throw.
Proof.
  intros. unfold newLongRange. cbn [orThrow in_dofs in_entangler in_connectors bind].
  replace (str_eqb (lit "compact") (lit "ConstantValues")) with false by reflexivity.
  replace (str_eqb (lit "compact") (lit "compact")) with true by reflexivity.
  cbn [orb negb]. erewrite reinterpret_throw; eauto.
Qed.
Print Assumptions C98_noninteger.

(** A full matrix with one row and one column per site and orbital is taken as it
    is, and its elements are the values of the term. *)
Theorem C98_dense_partial : forall L dofs opt values mc,
  0 < L -> opt = lit "none" \/ opt = lit "ConstantValues" ->
  mat_wf values -> m_nrow values = L * dofs -> m_ncol values = L * dofs ->
  exists g w,
    newLongRange L opt (mklri None (Some dofs) (Some values) (Some mc)) = Ok (g, w) /\
    forall s0 o0 s1 o1, s0 < L -> o0 < dofs -> s1 < L -> o1 < dofs ->
      lr_value g dofs s0 o0 s1 o1 =
        Ok (melem values (o0 + s0 * dofs) (o1 + s1 * dofs)).
Proof.
  intros L dofs opt values mc HL Ho W N1 N2.
  destruct (checkConnectors_ok values L W ltac:(lia) HL) as [w Ew].
  destruct (term_matrix_ok L dofs values (melem values)) as (t & Et & Ht).
  { repeat split; auto. }
  exists (mklr L dofs mc values), w. repeat split.
  - unfold newLongRange. cbn [orThrow in_dofs in_entangler in_connectors in_maxConnections bind].
    assert (Q : (str_eqb opt (lit "ConstantValues") || str_eqb opt (lit "compact") ||
      str_eqb opt (lit "none"))%bool = true /\ str_eqb opt (lit "compact") = false).
    { destruct Ho as [-> | ->]; split; reflexivity. }
    destruct Q as [-> ->]. cbn [negb]. destruct (Nat.eqb_spec L 0); [lia|]. cbn [negb].
    rewrite N1, (Nat.mul_comm L dofs), Nat.div_mul, Nat.eqb_refl by lia. cbn [negb bind].
    rewrite Ew. reflexivity.
  - intros s0 o0 s1 o1 H0 H1 H2 H3. unfold lr_value, lr_set. cbn [lr_dofs lr_linSize lr_matrix].
    rewrite Nat.eqb_refl. cbn [negb bind]. rewrite Et. cbn [bind]. apply Ht; assumption.
Qed.
Print Assumptions C98_dense_partial.

(** A matrix of another size is not always refused: for two sites with one orbital
    a matrix of three rows and columns is accepted (with a warning), and so is one
    with a single column, which is then read outside. *)
Theorem C98_dense_refuted :
  (do (g, w) <- newLongRange 2 (lit "none")
      (mklri None (Some 1) (Some (mat_new QGring 3 3)) (Some 1)) ;;
   Ok (m_nrow (lr_matrix g), w)) =
     Ok (3, [lit "Connectors matrix isn't divisible by number of sites"]) /\
  (do (g, w) <- newLongRange 2 (lit "none")
      (mklri None (Some 1) (Some (mat_new QGring 2 1)) (Some 1)) ;;
   Ok (lr_value g 1 0 0 1 0)) = Ok UB.
Proof. split; vm_compute; reflexivity. Qed.
Print Assumptions C98_dense_refuted.

(** With an entangler the term has its value between each site and orbital and the
    later ones, and zero elsewhere; no connectors and no number of connections are
    needed. *)
Theorem C98_entangler : forall L dofs opt e conn,
  0 < L -> opt = lit "none" \/ opt = lit "ConstantValues" ->
  exists g w,
    newLongRange L opt (mklri (Some e) (Some dofs) conn None) = Ok (g, w) /\
    lr_maxConn g = L * L / 4 /\
    forall s0 o0 s1 o1, s0 < L -> o0 < dofs -> s1 < L -> o1 < dofs ->
      lr_value g dofs s0 o0 s1 o1 =
        Ok (if (s0 <? s1) || (s0 =? s1) && (o0 <? o1) then ((e, 0%Qc) : QGring) else c0).
Proof.
  intros L dofs opt e conn HL Ho.
  destruct (setEntangler_ok (dofs * L) (e, 0%Qc)) as (m & E & M).
  destruct M as (N1 & N2 & W & F).
  destruct (checkConnectors_ok m L W ltac:(lia) HL) as [w Ew].
  destruct (term_matrix_ok L dofs m (fun i j => if i <? j then ((e, 0%Qc) : QGring) else c0)) as (t & Et & Ht).
  { rewrite (Nat.mul_comm L dofs). repeat split; auto. }
  exists (mklr L dofs 0 m), w. repeat split.
  - unfold newLongRange. cbn [orThrow in_dofs in_entangler in_connectors in_maxConnections bind].
    rewrite E. cbn [bind].
    assert (Q : (str_eqb opt (lit "ConstantValues") || str_eqb opt (lit "compact") ||
      str_eqb opt (lit "none"))%bool = true /\ str_eqb opt (lit "compact") = false).
    { destruct Ho as [-> | ->]; split; reflexivity. }
    destruct Q as [-> ->]. cbn [negb]. destruct (Nat.eqb_spec L 0); [lia|]. cbn [negb].
    rewrite N1, Nat.div_mul, Nat.eqb_refl by lia. cbn [negb bind]. rewrite Ew. reflexivity.
  - intros s0 o0 s1 o1 H0 H1 H2 H3. unfold lr_value, lr_set. cbn [lr_dofs lr_linSize lr_matrix].
    rewrite Nat.eqb_refl. cbn [negb bind]. rewrite Et. cbn [bind]. rewrite Ht by assumption. f_equal.
    destruct (Nat.ltb_spec s0 s1); cbn [orb].
    + destruct (Nat.ltb_spec (o0 + s0 * dofs) (o1 + s1 * dofs)); [reflexivity|nia].
    + destruct (Nat.eqb_spec s0 s1) as [->|]; cbn [andb].
      * destruct (Nat.ltb_spec o0 o1), (Nat.ltb_spec (o0 + s1 * dofs) (o1 + s1 * dofs)); auto; lia.
      * destruct (Nat.ltb_spec (o0 + s0 * dofs) (o1 + s1 * dofs)); [nia|reflexivity].
Qed.
Print Assumptions C98_entangler.

(** An unknown option, a missing number of orbitals, missing connectors without an
    entangler, a full matrix whose rows do not match the number of orbitals per
    site, and asking for a number of orbitals other than the one given all throw. *)
Theorem C98_refused : forall L opt io,
  0 < L ->
  (in_dofs io = None -> newLongRange L opt io = Throw) /\
  (in_entangler io = None -> in_connectors io = None -> newLongRange L opt io = Throw) /\
  (forall values dofs, opt <> lit "none" -> opt <> lit "ConstantValues" -> opt <> lit "compact" ->
     in_entangler io = None -> in_connectors io = Some values -> in_dofs io = Some dofs ->
     newLongRange L opt io = Throw) /\
  (forall values dofs, opt <> lit "compact" ->
     in_entangler io = None -> in_connectors io = Some values -> in_dofs io = Some dofs ->
     m_nrow values / L <> dofs -> newLongRange L opt io = Throw) /\
  (forall g w orbitals, newLongRange L opt io = Ok (g, w) -> in_dofs io <> Some orbitals ->
     lr_set g orbitals = Throw).
Proof.
  intros L opt io HL. repeat split.
  - intros H. unfold newLongRange. rewrite H. reflexivity.
  - intros H0 H1. unfold newLongRange. rewrite H0, H1. destruct (in_dofs io); reflexivity.
  - intros values dofs A B C H0 H1 H2. unfold newLongRange. rewrite H0, H1, H2. cbn [orThrow bind].
    rewrite !(proj2 (str_eqb_neq _ _)) by assumption. reflexivity.
  - intros values dofs C H0 H1 H2 H3. unfold newLongRange. rewrite H0, H1, H2. cbn [orThrow bind].
    destruct (negb _); [reflexivity|].
    rewrite (proj2 (str_eqb_neq _ _)) by assumption.
    destruct (Nat.eqb_spec L 0); [lia|]. cbn [negb].
    destruct (Nat.eqb_spec dofs (m_nrow values / L)); [congruence|]. reflexivity.
  - intros g w orbitals E H. unfold lr_set.
    assert (Hd : in_dofs io = Some (lr_dofs g)).
    { unfold newLongRange in E. destruct (in_dofs io) as [d|]; [|discriminate E]. cbn [orThrow] in E.
      apply bind_ok in E as (d' & E1 & E). injection E1 as <-.
      apply bind_ok in E as (m & _ & E). destruct (negb _); [discriminate E|].
      apply bind_ok in E as (m' & _ & E). apply bind_ok in E as (w' & _ & E).
      destruct (in_maxConnections io).
      - injection E as <- _. reflexivity.
      - destruct (in_entangler io); [injection E as <- _; reflexivity|discriminate E]. }
    destruct (Nat.eqb_spec orbitals (lr_dofs g)); [congruence|reflexivity].
Qed.
Print Assumptions C98_refused.

(** Translating a site stays among the sites and goes around; reflecting twice
    gives the site back. *)
Theorem C98_translate : forall g site amount,
  0 < lr_linSize g ->
  lr_translate (S (site + amount)) g site 0 amount = Ok ((site + amount) mod lr_linSize g) /\
  (site < lr_linSize g -> lr_findReflection g site < lr_linSize g /\
     lr_findReflection g (lr_findReflection g site) = site).
Proof.
  intros g site amount HL. split.
  - unfold lr_translate. cbn [Nat.eqb negb]. apply lr_translate_loop_ok; [exact HL|].
    assert ((site + amount) / lr_linSize g <= site + amount); [|lia].
    apply Nat.div_le_upper_bound; nia.
  - intros H. unfold lr_findReflection. lia.
Qed.
Print Assumptions C98_translate.

Example C98_nonvacuous :
  let rs := [mkrow 0 1 2 0 (num 5); mkrow 1 0 1 1 (num 3); mkrow 0 1 2 0 (num 4)] in
  let values := mat5 (map (cells 2) rs) in
  Forall (row_ok 3 2) rs /\ is_table 2 values rs /\ listed rs 0 1 2 0 = num 4 /\
  listed rs 1 0 1 1 = num 3 /\ listed rs 2 0 0 1 = c0 /\
  not_integer (Q2Qc (1 # 2), 0%Qc) /\ not_integer (1%Qc, 1%Qc).
Proof.
  cbv zeta. repeat split.
  - repeat constructor.
  - intros i j Hi Hj. cbn in Hi, Hj.
    destruct i as [|[|[|]]]; [| | |lia]; destruct j as [|[|[|[|[|]]]]]; (reflexivity || lia).
  - intros z _ E. apply (f_equal fst) in E. cbn [fst] in E. apply (f_equal this) in E.
    rewrite Q2Qc_Z in E. vm_compute in E. discriminate E.
  - intros z _ E. apply (f_equal snd) in E. discriminate E.
Qed.
