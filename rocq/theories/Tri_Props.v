(** C58: tridiagonal to dense. *)
From Verif Require Import Prelude Ring Dense_Model Dense_Spec Dense_Proofs Tri_Model Tri_Proofs.

(** Written to an empty matrix, n = 0 meaning all: a on the diagonal, b(i+1) above it and its conjugate below,
    and zero elsewhere. Partial: the destination must be empty, see the refutation below. *)
Theorem C58_dense_partial : forall (R : cring) (t : tri R) n, length (t_b t) = length (t_a t) -> 0 < length (t_a t) -> n <= length (t_a t) ->
  let size := if n =? 0 then length (t_a t) else n in
  let a i := nth i (t_a t) c0 in
  let b i := nth i (t_b t) c0 in
  exists m, buildDenseMatrix R t (mat_empty R) n = Ok m /\ is_mat m size size (fun i j =>
    if i =? j then a i else if j =? i + 1 then b (i + 1) else if i =? j + 1 then cconj (b (j + 1)) else c0).
Proof.
  intros R t n Hb Ha Hn size a b.
  assert (E : buildDenseMatrix R t (mat_empty R) n = buildDenseMatrix R t (mat_empty R) size).
  { unfold size. destruct (Nat.eqb_spec n 0) as [->|]; [apply build_zero|reflexivity]. }
  assert (Hs : 0 < size <= length (t_a t)) by (unfold size; destruct (Nat.eqb_spec n 0); lia).
  destruct (buildDense_gen R t (mat_empty R) size) as (m & Em & W1 & W2 & W3 & W4); [lia|lia|lia|]. exists m. rewrite E. split; [exact Em|].
  split; [auto|]. split; [auto|]. split; [auto|]. intros i j Hi Hj. rewrite W4 by auto. unfold band, a, b.
  destruct (Nat.eqb_spec i j); [reflexivity|]. destruct (Nat.eqb_spec j (i + 1)) as [->|]; [reflexivity|]. destruct (Nat.eqb_spec i (j + 1)) as [->|]; [reflexivity|].
  apply nth_vresize_nil.
Qed.
Print Assumptions C58_dense_partial.

(** It is Hermitian if the diagonal is real. *)
Theorem C58_hermitian : forall (R : cring) (t : tri R) n m, length (t_b t) = length (t_a t) -> 0 < length (t_a t) -> n <= length (t_a t) ->
  (forall x, In x (t_a t) -> cconj x = x) -> cconj c0 = (c0 : R) -> buildDenseMatrix R t (mat_empty R) n = Ok m ->
  forall i j, i < m_nrow m -> j < m_nrow m -> melem m j i = cconj (melem m i j).
Proof.
  intros R t n m Hb Ha Hn Hr H0 E i j Hi Hj.
  destruct (C58_dense_partial R t n Hb Ha Hn) as (m' & E' & W1 & W2 & W3 & W4). rewrite E in E'. apply Ok_inj in E'. subst m'.
  rewrite W1 in Hi, Hj. rewrite !W4 by auto.
  assert (Hs : (if n =? 0 then length (t_a t) else n) <= length (t_a t)) by (destruct (Nat.eqb_spec n 0); lia).
  destruct (Nat.eqb_spec j i); destruct (Nat.eqb_spec i j); try lia.
  - subst. symmetry. apply Hr. apply nth_In. lia.
  - destruct (Nat.eqb_spec i (j + 1)); destruct (Nat.eqb_spec j (i + 1)); try lia; rewrite ?c_conj_inv; auto.
Qed.
Print Assumptions C58_hermitian.

(** What the storage holds: pushing pairs one by one, or resizing with a value. *)
Theorem C58_storage : forall (R : cring) (l : list (R * R)) (t : tri R) n v, 0 < n ->
  fold_left (fun t ab => tri_push R t (fst ab) (snd ab)) l (tri_new R) = mktri (map fst l) (map snd l) /\
  tri_resize_val R t n v = Ok (mktri (repeat v n) (repeat v n)).
Proof. intros R l t n v Hn. split; [rewrite pushes; reflexivity|apply resize_val_ok; auto]. Qed.
Print Assumptions C58_storage.

(** A destination that is not empty keeps its old elements outside the three diagonals. *)
Theorem C58_stale_refuted : exists m, buildDenseMatrix Zring (mktri [1; 2; 3] [9; 4; 5])%Z (mkmat 3 3 [7; 7; 7; 7; 7; 7; 7; 7; 7])%Z 0 = Ok m /\
  melem m 0 2 = 7%Z /\ melem m 2 0 = 7%Z.
Proof. eexists. split; [vm_compute; reflexivity|]. split; reflexivity. Qed.
Print Assumptions C58_stale_refuted.

(** An empty tridiagonal matrix, or asking for more than there is, reads outside the storage. *)
Theorem C58_out_of_range : forall (R : cring) (t : tri R) m n, length (t_b t) = length (t_a t) -> length (t_a t) < n \/ (n = 0 /\ length (t_a t) = 0) ->
  buildDenseMatrix R t m n = UB.
Proof.
  intros R t m n Hb [H|[-> H]].
  - unfold buildDenseMatrix. cbv zeta. replace (n =? 0) with false by (symmetry; apply Nat.eqb_neq; lia). replace (0 <? n) with true by (symmetry; apply Nat.ltb_lt; lia).
    match goal with |- bind ?r _ = _ => assert (N : normal r) end.
    { unfold forR. apply normal_forM. intros j s. repeat (apply normal_bind; [first [apply normal_vget|apply normal_mset]|intros ?]). apply normal_mset. }
    destruct (forR 0 (n - 1) _ _) as [m1| | |]; destruct N as [N1 N2]; cbn [bind]; [rewrite vget_ub by lia; reflexivity|congruence|reflexivity|congruence].
  - unfold buildDenseMatrix. cbn. rewrite H. reflexivity.
Qed.
Print Assumptions C58_out_of_range.

Example C58_nonvacuous : exists m, buildDenseMatrix Gring (mktri [(1, 0); (2, 0); (3, 0)] [(9, 9); (4, 1); (5, 2)])%Z (mat_empty Gring) 0 = Ok m /\
  m_data m = [(1, 0); (4, -1); (0, 0); (4, 1); (2, 0); (5, -2); (0, 0); (5, 2); (3, 0)]%Z.
Proof. eexists. split; [vm_compute; reflexivity|]. reflexivity. Qed.
