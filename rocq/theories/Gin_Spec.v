(** What an input file says about the terms of a geometry, and which coupling that gives each pair of sites. *)
From Coq Require Import Ascii String.
From Verif Require Import Prelude Ring Str_Model Text_Model Input_Spec Inc_Spec.
Import List.

(** The lattice of a term: a chain, with the values of IsPeriodicX and LongChainDistance, [None] if they are not given; a
    ladder with [leg] legs and the values of IsPeriodicX and IsPeriodicY; a star. *)
Inductive shape := AChain (px d : option Z) | ALadder (leg : nat) (px py : option Z) | AStar.
Record descr := mkdescr { d_shape : shape; d_const : bool; d_numbers : nat -> list str }.

(** The labels that a term of the shape uses, and how many vectors of connectors *)
Definition labels (s : shape) : list str :=
  [lit "DegreesOfFreedom"; lit "GeometryKind"; lit "GeometryOptions"] ++
  match s with
  | AChain _ _ => [lit "IsPeriodicX"; lit "LongChainDistance"]
  | ALadder _ _ _ => [lit "LadderLeg"; lit "IsPeriodicX"; lit "IsPeriodicY"]
  | AStar => []
  end.
Definition directions (s : shape) : nat := match s with ALadder _ _ _ => 2 | _ => 1 end.

(** How often the terms before use a label, and how many vectors of connectors they use *)
Definition used (ds : list descr) (l : str) : nat := List.length (filter (fun d => existsb (str_eqb l) (labels (d_shape d))) ds).
Definition used_vecs (ds : list descr) : nat := list_sum (map (fun d => directions (d_shape d)) ds).

(** Of the values given for a label, the one for the use after k others: the k-th from 0, or the last if there are fewer *)
Definition kth {V} (d : V) (vs : list V) (k : nat) : V := nth (min k (List.length vs - 1)) vs d.

(** The value of an optional whole number: [None] if the file does not have the label *)
Definition optional (vs : list str) (k : nat) (x : option Z) : Prop :=
  match x with
  | None => vs = []
  | Some n => vs <> [] /\ written (kth [] vs k) n /\ (-2147483648 <= n <= 2147483647)%Z
  end.
Definition text_is (vs : list str) (k : nat) (s : str) : Prop := vs <> [] /\ kth [] vs k = s.

Definition periodic (x : option Z) : bool := match x with Some n => (0 <? n)%Z | None => false end.
Definition distance (x : option Z) : nat := match x with Some n => Z.to_nat n | None => 1 end.

(** The number of connectors of a direction *)
Definition size_of (L : nat) (s : shape) (dir : nat) : nat :=
  match s with
  | AChain px d => L - distance d + (if periodic px then 1 else 0)
  | ALadder leg px py => if dir =? 0 then (if periodic px then L else L - leg) else (if periodic py then L else L - L / leg)
  | AStar => L - 1
  end.

(** Lattices of L sites that make sense and in which no two bonds join the same sites. (The bound on the distance in a
    periodic chain keeps the bond that closes it within the connectors.) *)
Definition fits (L : nat) (s : shape) : Prop :=
  match s with
  | AChain px d => (0 < match d with Some n => n | None => 1 end)%Z /\ distance d < L /\ (periodic px = true -> 2 * distance d <= L + 1)
  | ALadder leg px py => 0 < leg /\ (exists lx, 0 < lx /\ L = lx * leg) /\ (py = None -> leg = 2) /\
      (periodic px = true -> 2 < L / leg) /\ (periodic py = true -> 2 < leg)
  | AStar => 2 <= L
  end.

(** The bonds: sites i < j, the direction and the position of their coupling among the connectors of the direction. A site
    of a ladder is in column c and row r, numbered r + c * leg. *)
Inductive bond (L : nat) : shape -> nat -> nat -> nat -> nat -> Prop :=
| chain_bond px d i : i + distance d < L -> bond L (AChain px d) i (i + distance d) 0 i
| chain_ring px d i : periodic px = true -> i < distance d -> bond L (AChain px d) i (i + (L - distance d)) 0 i
| ladder_x leg px py c r : r < leg -> c + 1 < L / leg -> bond L (ALadder leg px py) (r + c * leg) (r + (c + 1) * leg) 0 (r + c * leg)
| ladder_x_ring leg px py r : periodic px = true -> r < leg -> bond L (ALadder leg px py) r (r + (L / leg - 1) * leg) 0 (r + (L / leg - 1) * leg)
| ladder_y leg px py c r : periodic py = false -> r + 1 < leg -> c < L / leg ->
    bond L (ALadder leg px py) (r + c * leg) (r + 1 + c * leg) 1 (r + c * (leg - 1))
| ladder_y_periodic leg px py c r : periodic py = true -> r + 1 < leg -> c < L / leg ->
    bond L (ALadder leg px py) (r + c * leg) (r + 1 + c * leg) 1 (r + c * leg)
| ladder_y_ring leg px py c : periodic py = true -> c < L / leg ->
    bond L (ALadder leg px py) (c * leg) (leg - 1 + c * leg) 1 (leg - 1 + c * leg)
| star_first : bond L AStar 0 1 0 0
| star_bond j : 1 < j < L -> bond L AStar 1 j 0 (j - 1).

(** What the file says about the lattice *)
Definition shape_said (f : list item) (cnt : str -> nat) (s : shape) : Prop :=
  let value l := optional (texts f l) (cnt l) in
  let kind := text_is (texts f (lit "GeometryKind")) (cnt (lit "GeometryKind")) in
  match s with
  | AChain px d => (kind (lit "chain") \/ kind (lit "longchain")) /\ value (lit "IsPeriodicX") px /\ value (lit "LongChainDistance") d
  | ALadder leg px py => kind (lit "ladder") /\ value (lit "LadderLeg") (Some (Z.of_nat leg)) /\ value (lit "IsPeriodicX") px /\ value (lit "IsPeriodicY") py
  | AStar => kind (lit "star")
  end.

(** What the file says about a term with one degree of freedom, after [cnt] uses of each label and [k] vectors of connectors:
    the lattice, whether there is one value for all bonds of a direction, and the connectors of each direction. *)
Definition term_said (f : list item) (L : nat) (cnt : str -> nat) (k : nat) (d : descr) : Prop :=
  (texts f (lit "DegreesOfFreedom") = [] \/ text_is (texts f (lit "DegreesOfFreedom")) (cnt (lit "DegreesOfFreedom")) (lit "1")) /\
  shape_said f cnt (d_shape d) /\
  (exists o, text_is (texts f (lit "GeometryOptions")) (cnt (lit "GeometryOptions")) o /\ (d_const d = true <-> contains (lit "ConstantValues") o)) /\
  vecs f (lit "Connectors") <> [] /\
  forall dir, dir < directions (d_shape d) ->
    d_numbers d dir = tl (kth [] (vecs f (lit "Connectors")) (k + dir)) /\ (forall s, In s (d_numbers d dir) -> real_text s) /\
    List.length (d_numbers d dir) = (if d_const d then 1 else size_of L (d_shape d) dir).

(** The same, but the connectors of one direction are not as many as its bonds need. *)
Definition term_misfit (f : list item) (L : nat) (cnt : str -> nat) (k : nat) (d : descr) : Prop :=
  (texts f (lit "DegreesOfFreedom") = [] \/ text_is (texts f (lit "DegreesOfFreedom")) (cnt (lit "DegreesOfFreedom")) (lit "1")) /\
  shape_said f cnt (d_shape d) /\
  (exists o, text_is (texts f (lit "GeometryOptions")) (cnt (lit "GeometryOptions")) o /\ (d_const d = true <-> contains (lit "ConstantValues") o)) /\
  vecs f (lit "Connectors") <> [] /\
  exists dir, dir < directions (d_shape d) /\
    d_numbers d dir = tl (kth [] (vecs f (lit "Connectors")) (k + dir)) /\ (forall s, In s (d_numbers d dir) -> real_text s) /\
    List.length (d_numbers d dir) <> (if d_const d then 1 else size_of L (d_shape d) dir) /\
    forall dir', dir' < dir ->
      d_numbers d dir' = tl (kth [] (vecs f (lit "Connectors")) (k + dir')) /\ (forall s, In s (d_numbers d dir') -> real_text s) /\
      List.length (d_numbers d dir') = (if d_const d then 1 else size_of L (d_shape d) dir').

(** The term has no degrees of freedom, or is of a kind that there is not. *)
Definition kinds : list str :=
  map (fun s => lit s) ["chain"; "longchain"; "ladder"; "star"; "ladderx"; "ladderbath"; "ktwoniffour"; "LongRange"; "General"; "Honeycomb"]%string.
Definition a_kind (s : str) : Prop := In s kinds \/ exists rest, s = lit "Super" ++ rest.
Definition term_none (f : list item) (cnt : str -> nat) : Prop :=
  optional (texts f (lit "DegreesOfFreedom")) (cnt (lit "DegreesOfFreedom")) (Some 0%Z) \/
  (exists x, optional (texts f (lit "DegreesOfFreedom")) (cnt (lit "DegreesOfFreedom")) x /\ (forall n, x = Some n -> (0 < n)%Z)) /\
  (exists s, text_is (texts f (lit "GeometryKind")) (cnt (lit "GeometryKind")) s /\ ~ a_kind s).

(** The number of sites or the number of terms is negative. *)
Definition counts_negative (f : list item) : Prop :=
  texts f (lit "GeometryKind") <> [] /\ exists z, optional (texts f (lit "TotalNumberOfSites")) 0 (Some z) /\
    ((z < 0)%Z \/ exists n, optional (texts f (lit "NumberOfTerms")) 0 (Some n) /\ (n < 0)%Z).

(** The file describes a geometry of L sites with n terms, and these are the first of them. *)
Definition geometry_starts (f : list item) (L n : nat) (ds : list descr) : Prop :=
  (exists t, texts f (lit "TotalNumberOfSites") = print_nat L :: t) /\ (exists t, texts f (lit "NumberOfTerms") = print_nat n :: t) /\
  (Z.of_nat L <= 2147483647)%Z /\ (Z.of_nat n <= 2147483647)%Z /\
  texts f (lit "GeometryKind") <> [] /\ texts f (lit "GeometryValueModifier") = [] /\
  forall before d after, ds = before ++ d :: after -> fits L (d_shape d) /\ term_said f L (used before) (used_vecs before) d.
Definition geometry_said (f : list item) (L : nat) (ds : list descr) : Prop := geometry_starts f L (List.length ds) ds.

(** [value i j] are the couplings that the file gives the term: for each bond, in both orders of the sites, the number of the
    connectors of its direction at its position (at position 0 if there is one value for all); none for other pairs. *)
Definition couplings {R : cring} (std_atof : str -> R) (L : nat) (d : descr) (value : nat -> nat -> res R) : Prop :=
  (forall i j dir k, bond L (d_shape d) i j dir k ->
     let x := std_atof (nth (if d_const d then 0 else k) (d_numbers d dir) []) in value i j = Ok x /\ value j i = Ok x) /\
  (forall i j, i < L -> j < L -> (forall dir k, ~ bond L (d_shape d) i j dir k /\ ~ bond L (d_shape d) j i dir k) -> value i j = Ok c0).
