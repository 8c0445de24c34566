(** Theorems about views of a vector (C113) and names with an extension (C114). *)
From Coq Require Import ZArith Ascii String Lia.
From Verif Require Import Prelude Ring Str_Model Dense_Model Dense_Spec Dense_Proofs View_Model View_Spec View_Proofs.
Import List.
Local Open Scope nat_scope.
Notation N2Z := Z.of_nat (only parsing).

(** A view with an element is made if and only if all of its places are in the vector (sizes whose sum and product fit). *)
Theorem C113_made : forall (A : Type) r c o (d : list A), 0 < r * c -> fits (o + r * c) ->
  ((exists v, view_new (N2Z r) (N2Z c) d (N2Z o) = Ok v) <-> forall p, covers r c o p -> p < List.length d) /\
  ((exists p, covers r c o p /\ List.length d <= p) -> view_new (N2Z r) (N2Z c) d (N2Z o) = UB).
Proof.
  intros A r c o d H F. unfold covers. rewrite (new_iff r c o d H F). destruct (Nat.leb_spec (o + r * c) (List.length d)) as [L|L].
  - split; [split; [intros _ p Hp; lia|intros _; eexists; reflexivity]|]. intros (p & H1 & H2). lia.
  - split; [split; [intros (v & E); discriminate E|]|auto]. intros Q. specialize (Q (o + r * c - 1)). lia.
Qed.
Print Assumptions C113_made.

(** A view reads element (i,j) from the place offset + i + j * rows, and each of its elements can be read. *)
Theorem C113_read : forall (A : Type) r c o (d : list A) v, 0 < r * c -> fits (o + r * c) -> view_new (N2Z r) (N2Z c) d (N2Z o) = Ok v ->
  forall i j, i < r -> j < c -> exists x, view_get v d (N2Z i) (N2Z j) = Ok x /\ nth_error d (o + i + j * r) = Some x.
Proof.
  intros A r c o d v H F E i j Hi Hj. rewrite (new_iff r c o d H F) in E. destruct (Nat.leb_spec (o + r * c) (List.length d)) as [L|L]; [|discriminate E].
  apply Ok_inj in E. subst v. apply get_ok; assumption.
Qed.
Print Assumptions C113_read.

(** A write through a view changes just the place of the element, one of those covered, and can be read through the view;
    the other elements of the view stay. *)
Theorem C113_write : forall (A : Type) r c o (d : list A) v x, 0 < r * c -> fits (o + r * c) -> view_new (N2Z r) (N2Z c) d (N2Z o) = Ok v ->
  forall i j, i < r -> j < c -> exists d', view_set v d (N2Z i) (N2Z j) x = Ok d' /\ only_at d d' (o + i + j * r) x /\ covers r c o (o + i + j * r) /\
    view_get v d' (N2Z i) (N2Z j) = Ok x /\
    forall i' j', i' < r -> j' < c -> (i', j') <> (i, j) -> view_get v d' (N2Z i') (N2Z j') = view_get v d (N2Z i') (N2Z j').
Proof.
  intros A r c o d v x H F E i j Hi Hj. rewrite (new_iff r c o d H F) in E. destruct (Nat.leb_spec (o + r * c) (List.length d)) as [L|L]; [|discriminate E].
  apply Ok_inj in E. subst v. pose proof (idx_lt i j r c Hi Hj) as X.
  destruct (set_ok r c o d i j x F L Hi Hj) as (d' & E & P). exists d'. split; [exact E|]. split; [exact P|]. split; [unfold covers; lia|].
  destruct P as (P1 & P2 & P3). assert (L' : o + r * c <= List.length d') by lia. split.
  - destruct (get_ok r c o d' i j F L' Hi Hj) as (y & Ey & Y). rewrite Ey. congruence.
  - intros i' j' Hi' Hj' N. destruct (get_ok r c o d' i' j' F L' Hi' Hj') as (y & -> & Y). destruct (get_ok r c o d i' j' F L Hi' Hj') as (z & -> & Z).
    rewrite P3 in Y; [congruence|]. intros Q. destruct (idx_inj i' j' i j r Hi' Hi ltac:(lia)) as [-> ->]. congruence.
Qed.
Print Assumptions C113_write.

(** A write through a view is not seen through a view of the same vector that covers none of its places. *)
Theorem C113_separate : forall (A : Type) r c o r2 c2 o2 (d d' : list A) v v2 x, 0 < r * c -> fits (o + r * c) -> 0 < r2 * c2 -> fits (o2 + r2 * c2) ->
  view_new (N2Z r) (N2Z c) d (N2Z o) = Ok v -> view_new (N2Z r2) (N2Z c2) d (N2Z o2) = Ok v2 ->
  (forall p, covers r c o p -> covers r2 c2 o2 p -> False) ->
  forall i j, i < r -> j < c -> view_set v d (N2Z i) (N2Z j) x = Ok d' ->
  forall k l, k < r2 -> l < c2 -> view_get v2 d' (N2Z k) (N2Z l) = view_get v2 d (N2Z k) (N2Z l).
Proof.
  intros A r c o r2 c2 o2 d d' v v2 x H F H2 F2 E E2 D i j Hi Hj Es k l Hk Hl.
  destruct (C113_write A r c o d v x H F E i j Hi Hj) as (d1 & E1 & (P1 & P2 & P3) & C & _). rewrite Es in E1. apply Ok_inj in E1. subst d1.
  rewrite (new_iff r2 c2 o2 d H2 F2) in E2. destruct (Nat.leb_spec (o2 + r2 * c2) (List.length d)) as [L|L]; [|discriminate E2]. apply Ok_inj in E2. subst v2.
  destruct (get_ok r2 c2 o2 d' k l F2 ltac:(lia) Hk Hl) as (y & -> & Y). destruct (get_ok r2 c2 o2 d k l F2 L Hk Hl) as (z & -> & Z).
  rewrite P3 in Y; [congruence|]. intros Q. pose proof (idx_lt k l r2 c2 Hk Hl). apply (D (o2 + k + l * r2)); [rewrite Q; exact C|unfold covers; lia].
Qed.
Print Assumptions C113_separate.

(** Two views of which one covers a place of the other do see each other's writes: there is one place, two names. *)
Theorem C113_shared : forall (A : Type) r c o r2 c2 o2 (d d' : list A) v v2 x, 0 < r * c -> fits (o + r * c) -> 0 < r2 * c2 -> fits (o2 + r2 * c2) ->
  view_new (N2Z r) (N2Z c) d (N2Z o) = Ok v -> view_new (N2Z r2) (N2Z c2) d (N2Z o2) = Ok v2 ->
  forall i j k l, i < r -> j < c -> k < r2 -> l < c2 -> o + i + j * r = o2 + k + l * r2 ->
  view_set v d (N2Z i) (N2Z j) x = Ok d' -> view_get v2 d' (N2Z k) (N2Z l) = Ok x.
Proof.
  intros A r c o r2 c2 o2 d d' v v2 x H F H2 F2 E E2 i j k l Hi Hj Hk Hl Q Es.
  destruct (C113_write A r c o d v x H F E i j Hi Hj) as (d1 & E1 & (P1 & P2 & P3) & C & _). rewrite Es in E1. apply Ok_inj in E1. subst d1.
  rewrite (new_iff r2 c2 o2 d H2 F2) in E2. destruct (Nat.leb_spec (o2 + r2 * c2) (List.length d)) as [L|L]; [|discriminate E2]. apply Ok_inj in E2. subst v2.
  destruct (get_ok r2 c2 o2 d' k l F2 ltac:(lia) Hk Hl) as (y & -> & Y). congruence.
Qed.
Print Assumptions C113_shared.

(** The view of a matrix has the elements of the matrix, and a write through it is a write to the matrix. *)
Theorem C113_whole : forall (R : cring) (m : mat R), mat_wf m -> 0 < m_nrow m * m_ncol m -> fits (m_nrow m * m_ncol m) ->
  exists v, view_of m = Ok v /\ forall i j, i < m_nrow m -> j < m_ncol m -> view_get v (m_data m) (N2Z i) (N2Z j) = mget R m i j /\
  forall x, (do d <- view_set v (m_data m) (N2Z i) (N2Z j) x ;; Ok (mkmat (m_nrow m) (m_ncol m) d)) = mset R m i j x.
Proof.
  intros R m W H F. unfold view_of. change 0%Z with (N2Z 0). rewrite (new_iff (m_nrow m) (m_ncol m) 0 (m_data m) H F). rewrite W. cbn [Nat.add]. rewrite Nat.leb_refl.
  eexists. split; [reflexivity|]. intros i j Hi Hj. unfold view_get, view_set, mget, mset. change 0%Z with (N2Z 0).
  rewrite (place_ok (m_nrow m) (m_ncol m) 0 (m_data m) i j F ltac:(rewrite W; lia) Hi Hj). cbn [bind Nat.add].
  rewrite (proj2 (Nat.ltb_lt _ _) Hi), (proj2 (Nat.ltb_lt _ _) Hj). split; [reflexivity|]. intros x. reflexivity.
Qed.
Print Assumptions C113_whole.

(** An element that is not one of the view is refused, also if its place is in the vector. *)
Theorem C113_outside : forall (A : Type) (v : view) (d : list A) i j x, (v_nrow v <= i \/ v_ncol v <= j)%Z ->
  view_get v d i j = UB /\ view_set v d i j x = UB.
Proof.
  intros A v d i j x H. unfold view_get, view_set, view_place. destruct (Z.ltb_spec i (v_nrow v)); [|split; reflexivity].
  destruct (Z.ltb_spec j (v_ncol v)); [lia|split; reflexivity].
Qed.
Print Assumptions C113_outside.

(** A view without elements at the start of a vector of fewer than 2^64 elements is refused, that of an empty matrix too:
    the last place is computed below 0. *)
Theorem C113_empty_refuted : forall (A : Type) r c (d : list A), r * c = 0 -> fits (List.length d) -> view_new (N2Z r) (N2Z c) d 0 = UB.
Proof.
  intros A r c d H F. unfold fits in F. unfold view_new, view_check. cbn [v_nrow v_ncol v_offset]. rewrite check_value, <- Nat2Z.inj_mul, H.
  change (w64 (0 + N2Z 0 - 1)) with (2 ^ 64 - 1)%Z. destruct (Z.ltb_spec (2 ^ 64 - 1) (N2Z (List.length d))); [lia|reflexivity].
Qed.
Print Assumptions C113_empty_refuted.
(** A view of 2^32 rows and columns at place 1 is made of any vector with an element, though nearly all its places are outside. *)
Theorem C113_huge_refuted : forall (A : Type) (d : list A), d <> [] -> fits (List.length d) ->
  exists v, view_new (2 ^ 32) (2 ^ 32) d 1 = Ok v /\ view_get v d (2 ^ 32 - 2) (2 ^ 32 - 1) = UB.
Proof.
  intros A d N F. unfold fits in F. assert (L : (0 < N2Z (List.length d))%Z) by (destruct d; [congruence|cbn [List.length]; lia]).
  unfold view_new, view_check. cbn [v_nrow v_ncol v_offset]. rewrite check_value. change (w64 _) with 0%Z.
  destruct (Z.ltb_spec 0 (N2Z (List.length d))); [|lia]. eexists. split; [reflexivity|]. unfold view_get, view_place. cbn [v_nrow v_ncol v_offset].
  change (2 ^ 32 - 2 <? 2 ^ 32)%Z with true. change (2 ^ 32 - 1 <? 2 ^ 32)%Z with true. cbn [bind].
  change (w64 _) with (2 ^ 64 - 1)%Z. destruct (Z.ltb_spec (2 ^ 64 - 1) (N2Z (List.length d))); [lia|reflexivity].
Qed.
Print Assumptions C113_huge_refuted.

(** Two views of a vector of seven elements *)
Example C113_nonvacuous : let d := [1; 2; 3; 4; 5; 6; 7] in let v := mkview 2 2 1 in let v2 := mkview 1 2 5 in
  view_new 2 2 d 1 = Ok v /\ view_new 1 2 d 5 = Ok v2 /\ view_get v d 1 1 = Ok 5 /\ view_set v d 0 1 9 = Ok [1; 2; 3; 9; 5; 6; 7] /\
  view_new 2 3 d 2 = UB /\ (forall p, covers 2 2 1 p -> covers 1 2 5 p -> False).
Proof. unfold covers. repeat split; lia. Qed.

(** The name of a file without a point is itself... *)
Theorem C114_plain : forall s, ~ In "."%char s -> basenameOf s = Ok s.
Proof.
  intros s N. unfold basenameOf. rewrite last_dot_none by (auto; lia). cbn [bind]. rewrite Nat.sub_0_r, firstn_all. reflexivity.
Qed.
Print Assumptions C114_plain.
(** ... and of one with an extension it is right exactly if the name is one longer than the extension... *)
Theorem C114_extension_partial : forall s name ext, with_extension s name ext ->
  (basenameOf s = Ok name <-> List.length name = List.length ext + 1).
Proof.
  intros s name ext [-> N]. unfold basenameOf. rewrite app_length. cbn [List.length].
  replace (List.length name + S (List.length ext)) with (List.length name + 1 + List.length ext) by lia.
  rewrite last_dot_found by auto. cbn [bind]. replace (List.length name + 1 + List.length ext - List.length name) with (S (List.length ext)) by lia. split.
  - intros E. apply Ok_inj in E. apply (f_equal (@List.length _)) in E. rewrite firstn_length, app_length in E. cbn [List.length] in E. lia.
  - intros E. f_equal. rewrite firstn_app. replace (S (List.length ext) - List.length name) with 0 by lia. rewrite firstn_all2 by lia. apply app_nil_r.
Qed.
Print Assumptions C114_extension_partial.
(** ... since it has as many characters as the extension with its point. *)
Theorem C114_extension_refuted : forall s name ext, with_extension s name ext ->
  basenameOf s = Ok (firstn (List.length ext + 1) s).
Proof.
  intros s name ext [-> N]. unfold basenameOf. rewrite app_length. cbn [List.length].
  replace (List.length name + S (List.length ext)) with (List.length name + 1 + List.length ext) by lia.
  rewrite last_dot_found by auto. cbn [bind]. do 2 f_equal. lia.
Qed.
Print Assumptions C114_extension_refuted.
(** Three names *)
Example C114_nonvacuous : with_extension (lit "input.txt") (lit "input") (lit "txt") /\ basenameOf (lit "input.txt") = Ok (lit "inpu") /\
  basenameOf (lit "data.txt") = Ok (lit "data") /\ basenameOf (lit "a.b.dat") = Ok (lit "a.b.") /\ basenameOf (lit "input") = Ok (lit "input").
Proof.
  split; [split; [reflexivity|]|repeat split]. intros H. cbn in H. repeat (destruct H as [H|H]; [discriminate H|]). exact H.
Qed.
