(** Proofs about views and about names with an extension. *)
From Coq Require Import ZArith Ascii Lia.
From Verif Require Import Prelude Ring Str_Model Dense_Model Dense_Spec Dense_Proofs View_Model View_Spec.
Local Open Scope Z_scope.

Lemma w64_small z : 0 <= z < 2 ^ 64 -> w64 z = z.
Proof. intros H. unfold w64. apply Z.mod_small, H. Qed.

Lemma check_value r c o : w64 (w64 (w64 (o + r) - 1) + w64 (w64 (c - 1) * r)) = w64 (o + r * c - 1).
Proof.
  unfold w64. rewrite <- Z.add_mod by discriminate.
  rewrite Z.add_mod, Zminus_mod_idemp_l, Zmult_mod_idemp_l, <- Z.add_mod by discriminate. f_equal. ring.
Qed.

Section View.
  Context {A : Type}.

  Lemma new_iff r c o (d : list A) : (0 < r * c)%nat -> fits (o + r * c) ->
    view_new (Z.of_nat r) (Z.of_nat c) d (Z.of_nat o) =
    if (o + r * c <=? length d)%nat then Ok (mkview (Z.of_nat r) (Z.of_nat c) (Z.of_nat o)) else UB.
  Proof.
    intros H F. unfold fits in F. unfold view_new, view_check. cbn [v_nrow v_ncol v_offset]. rewrite check_value, w64_small by lia.
    destruct (Nat.leb_spec (o + r * c) (length d)); destruct (Z.ltb_spec (Z.of_nat o + Z.of_nat r * Z.of_nat c - 1) (Z.of_nat (length d))); try reflexivity; lia.
  Qed.

  Lemma place_ok r c o (d : list A) i j : fits (o + r * c) -> (o + r * c <= length d)%nat -> (i < r)%nat -> (j < c)%nat ->
    view_place (mkview (Z.of_nat r) (Z.of_nat c) (Z.of_nat o)) d (Z.of_nat i) (Z.of_nat j) = Ok (o + i + j * r)%nat.
  Proof.
    intros F L Hi Hj. unfold fits in F. pose proof (idx_lt i j r c Hi Hj) as X. unfold view_place. cbn [v_nrow v_ncol v_offset].
    destruct (Z.ltb_spec (Z.of_nat i) (Z.of_nat r)); [|lia]. destruct (Z.ltb_spec (Z.of_nat j) (Z.of_nat c)); [|lia].
    rewrite <- Nat2Z.inj_mul, <- Nat2Z.inj_add. rewrite (w64_small (Z.of_nat (o + i))) by lia. rewrite (w64_small (Z.of_nat (j * r))) by lia.
    rewrite <- Nat2Z.inj_add, w64_small by lia. destruct (Z.ltb_spec (Z.of_nat (o + i + j * r)) (Z.of_nat (length d))); [|lia]. rewrite Nat2Z.id. reflexivity.
  Qed.

  Lemma get_ok r c o (d : list A) i j : fits (o + r * c) -> (o + r * c <= length d)%nat -> (i < r)%nat -> (j < c)%nat ->
    exists x, view_get (mkview (Z.of_nat r) (Z.of_nat c) (Z.of_nat o)) d (Z.of_nat i) (Z.of_nat j) = Ok x /\ nth_error d (o + i + j * r) = Some x.
  Proof.
    intros F L Hi Hj. pose proof (idx_lt i j r c Hi Hj) as X. unfold view_get. rewrite place_ok by assumption. cbn [bind]. unfold vget.
    destruct (nth_error d (o + i + j * r)) as [x|] eqn:E; [exists x; auto|]. apply nth_error_None in E. lia.
  Qed.

  Lemma vset_only (d : list A) p x : (p < length d)%nat -> exists d', vset d p x = Ok d' /\ only_at d d' p x.
  Proof.
    intros H. rewrite vset_ok by exact H. eexists. split; [reflexivity|]. split; [apply upd_length|]. split.
    - rewrite nth_error_nth' with (d := x) by (rewrite upd_length; exact H). rewrite nth_upd_eq by exact H. reflexivity.
    - intros q Hq. destruct (lt_dec q (length d)) as [Hl|Hl].
      + rewrite !nth_error_nth' with (d := x) by (rewrite ?upd_length; exact Hl). rewrite nth_upd_neq by exact Hq. reflexivity.
      + rewrite !(proj2 (nth_error_None _ _)); rewrite ?upd_length; try reflexivity; lia.
  Qed.

  Lemma set_ok r c o (d : list A) i j x : fits (o + r * c) -> (o + r * c <= length d)%nat -> (i < r)%nat -> (j < c)%nat ->
    exists d', view_set (mkview (Z.of_nat r) (Z.of_nat c) (Z.of_nat o)) d (Z.of_nat i) (Z.of_nat j) x = Ok d' /\ only_at d d' (o + i + j * r) x.
  Proof.
    intros F L Hi Hj. pose proof (idx_lt i j r c Hi Hj) as X. unfold view_set. rewrite place_ok by assumption. cbn [bind]. apply vset_only. lia.
  Qed.
End View.

Local Open Scope nat_scope.
Lemma last_dot_found name ext : ~ In "."%char ext -> forall k j, k <= length ext ->
  last_dot (name ++ "."%char :: ext) (length name + 1 + k) j = Ok (length name).
Proof.
  intros N. induction k as [|k IH]; intros j Hk.
  - rewrite Nat.add_0_r, Nat.add_1_r. cbn [last_dot]. unfold vget. rewrite nth_error_app2 by lia. rewrite Nat.sub_diag. reflexivity.
  - rewrite Nat.add_succ_r. cbn [last_dot]. unfold vget. rewrite nth_error_app2 by lia.
    replace (length name + 1 + k - length name) with (S k) by lia. cbn [nth_error].
    destruct (nth_error ext k) as [a|] eqn:E; [|apply nth_error_None in E; lia]. cbn [bind].
    destruct (Ascii.eqb_spec a "."%char) as [->|]; [exfalso; apply N, (nth_error_In _ _ E)|]. apply IH. lia.
Qed.
Lemma last_dot_none s : ~ In "."%char s -> forall k j, k <= length s -> j = 0 \/ 0 < k -> last_dot s k j = Ok 0.
Proof.
  intros N. induction k as [|k IH]; intros j Hk Hj; [destruct Hj as [->|]; [reflexivity|lia]|]. cbn [last_dot]. unfold vget.
  destruct (nth_error s k) as [a|] eqn:E; [|apply nth_error_None in E; lia]. cbn [bind].
  destruct (Ascii.eqb_spec a "."%char) as [->|]; [exfalso; apply N, (nth_error_In _ _ E)|]. apply IH; lia.
Qed.
