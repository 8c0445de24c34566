From Coq Require Import Reals Lra.
From Verif Require Import Prelude Ring Cplx Tri_Model Lanczos_Model Lanczos_Spec Lanczos_Proofs Chsolv_Model Chsolv_Spec Cheb_Spec.
Local Open Scope nat_scope.
Add Ring RCr : (c_ring Cring).

Lemma conj_sub (x y : Cring) : cconj (csub x y) = csub (cconj x) (cconj y).
Proof. destruct x, y. cbn. unfold Cconj, Csub. cbn [fst snd]. apply f_equal2; ring. Qed.
Lemma Csumn_sub k (f g : nat -> Cring) : sumn k (fun i => csub (f i) (g i)) = csub (sumn k f) (sumn k g).
Proof. induction k as [|k IH]; [unfold sumn; cbn; unfold Csub; cbn; apply f_equal2; ring|]. rewrite !sumn_S, IH. ring. Qed.

Section Ch.
  Variable n : nat.
  Variable H : nat -> nat -> Cring.
  Hypothesis Hh : hermitian n H.
  Variable b s : R.
  Notation "<< u , v >>" := (inner n u v).
  Notation A := (scaled n H b s).

  (** The scaled matrix is self-adjoint. *)
  Lemma inner_scaled u v w : (forall i, i < n -> nth i w c0 = A v i) ->
    << u, w >> = cmul (RtoC s) (csub (sandwich n H u v) (cmul (RtoC b) << u, v >>)).
  Proof.
    clear Hh. intros Hw. unfold inner, sandwich.
    rewrite <- (sumn_mul_l Cring), <- Csumn_sub, <- (sumn_mul_l Cring). apply sumn_ext. intros i Hi. rewrite Hw by auto. unfold scaled. ring.
  Qed.
  Lemma adjoint u v u' v' : (forall i, i < n -> nth i u' c0 = A u i) -> (forall i, i < n -> nth i v' c0 = A v i) ->
    << u, v' >> = << u', v >>.
  Proof.
    intros Hu Hv. rewrite (inner_scaled u v v') by auto. rewrite <- (inner_conj n v u'), (inner_scaled v u u') by auto.
    rewrite c_conj_mul, conj_sub, c_conj_mul, !conj_RtoC, inner_conj, sandwich_conj by auto. reflexivity.
  Qed.

  Definition Av (v : vector) : vector := vec n (A v).
  Lemma Av_nth v i : i < n -> nth i (Av v) c0 = A v i.
  Proof. intros Hi. apply vec_nth. auto. Qed.
  Lemma adj u v : << u, Av v >> = << Av u, v >>.
  Proof. apply adjoint; intros; apply Av_nth; auto. Qed.
  Lemma inner_comb u w x y (al be : Cring) : (forall i, i < n -> nth i w c0 = csub (cmul al (nth i x c0)) (cmul be (nth i y c0))) ->
    << u, w >> = csub (cmul al << u, x >>) (cmul be << u, y >>).
  Proof.
    clear Hh. intros Hw. unfold inner. rewrite <- !(sumn_mul_l Cring), <- Csumn_sub. apply sumn_ext. intros i Hi. rewrite Hw by auto. ring.
  Qed.

  Section Vecs.
    Variable init : vector.
    Variable v : nat -> vector.
    Hypothesis V : chebyshev_vectors n H b s init v.
    Notation mu := (moment n init v).
    Notation two := (cadd c1 c1).

    Lemma v1_r u : << u, v 1 >> = << u, Av (v 0) >>.
    Proof. apply sumn_ext. intros i Hi. destruct V as [_ [_ [E _]]]. rewrite E, Av_nth by auto. reflexivity. Qed.
    Lemma vS_r u k : << u, v (k + 2) >> = csub (cmul two << u, Av (v (k + 1)) >>) << u, v k >>.
    Proof.
      rewrite (inner_comb u (v (k + 2)) (Av (v (k + 1))) (v k) two c1); [ring|].
      intros i Hi. destruct V as [_ [_ [_ E]]]. rewrite E, Av_nth by auto. ring.
    Qed.
    Lemma conj_two : @cconj Cring two = two.
    Proof. rewrite c_conj_add, c_conj_1. reflexivity. Qed.
    Lemma v1_l u : << v 1, u >> = << v 0, Av u >>.
    Proof. rewrite <- inner_conj, v1_r, inner_conj, adj. reflexivity. Qed.
    Lemma vS_l u k : << v (k + 2), u >> = csub (cmul two << v (k + 1), Av u >>) << v k, u >>.
    Proof. rewrite <- inner_conj, vS_r, conj_sub, c_conj_mul, conj_two, !inner_conj, adj. reflexivity. Qed.
    Lemma two_A u k : cmul two << u, Av (v (k + 1)) >> = cadd << u, v (k + 2) >> << u, v k >>.
    Proof. rewrite vS_r. ring. Qed.

    Lemma products m d : cmul two << v m, v (m + d) >> = cadd (mu (2 * m + d)) (mu d) /\
      cmul two << v (S m), v (S m + d) >> = cadd (mu (2 * S m + d)) (mu d).
    Proof.
      revert d. assert (V0 : v 0 = init) by apply V. induction m as [|m IH]; intros d.
      - split.
        + unfold moment. rewrite <- V0. cbn [Nat.mul Nat.add]. ring.
        + unfold moment. rewrite v1_l. replace (1 + d) with (d + 1) by lia. rewrite two_A, <- V0. replace (2 * 1 + d) with (d + 2) by lia. reflexivity.
      - split; [apply IH|]. replace (S (S m)) with (m + 2) at 1 by lia. rewrite vS_l. replace (S (S m) + d) with ((m + 1 + d) + 1) by lia.
        destruct (IH (d + 2)) as [P1 P2]. destruct (IH d) as [_ P3].
        transitivity (csub (cmul two (cadd << v (S m), v (S m + (d + 2)) >> << v (S m), v (S m + d) >>)) (cmul two << v m, v (m + (d + 2)) >>)).
        { replace (S m + (d + 2)) with (m + 1 + d + 2) by lia. replace (S m + d) with (m + 1 + d) by lia.
          replace (m + (d + 2)) with (m + 1 + d + 1) by lia. replace (S m) with (m + 1) by lia. rewrite <- two_A. ring. }
        transitivity (csub (cadd (cmul two << v (S m), v (S m + (d + 2)) >>) (cmul two << v (S m), v (S m + d) >>)) (cmul two << v m, v (m + (d + 2)) >>)); [ring|].
        rewrite P1, P2, P3. replace (2 * S m + (d + 2)) with (2 * S (S m) + d) by lia. replace (2 * m + (d + 2)) with (2 * S m + d) by lia. ring.
    Qed.
    Lemma even_moments j : csub (cmul two << v j, v j >>) (mu 0) = mu (2 * j).
    Proof. replace (v j) with (v (j + 0)) at 2 by (f_equal; lia). destruct (products j 0) as [-> _]. replace (2 * j + 0) with (2 * j) by lia. ring. Qed.
    Lemma odd_moments j : csub (cmul two << v j, v (j + 1) >>) (mu 1) = mu (2 * j + 1).
    Proof. destruct (products j 1) as [-> _]. ring. Qed.
    Lemma next_real j : cconj << v j, v (j + 1) >> = << v j, v (j + 1) >>.
    Proof.
      induction j as [|j IH].
      - cbn [Nat.add]. rewrite inner_conj, v1_l, v1_r. reflexivity.
      - replace (S j + 1) with (j + 2) by lia. replace (S j) with (j + 1) by lia. rewrite vS_r, conj_sub, c_conj_mul, conj_two.
        rewrite (inner_conj n (v (j + 1)) (Av (v (j + 1)))), <- adj. f_equal. rewrite inner_conj, <- IH, inner_conj. reflexivity.
    Qed.
  End Vecs.

  (** The sequence exists. *)
  Fixpoint chv (init : vector) (k : nat) : vector * vector :=
    match k with
    | 0 => (init, Av init)
    | S k => let '(x, y) := chv init k in (y, vec n (fun i => csub (cmul (cadd c1 c1) (A y i)) (nth i x c0)))
    end.
  Lemma chv_ok init : length init = n -> chebyshev_vectors n H b s init (fun k => fst (chv init k)).
  Proof.
    clear Hh. intros Hl. assert (L : forall k, length (fst (chv init k)) = n /\ length (snd (chv init k)) = n).
    { intros k. induction k as [|k [I1 I2]]; [split; [exact Hl|apply vec_length]|]. cbn. destruct (chv init k) as [x y]. cbn [fst snd] in *. split; auto. apply vec_length. }
    assert (Sn : forall k, fst (chv init (S k)) = snd (chv init k)). { intros k. cbn. destruct (chv init k). reflexivity. }
    repeat split.
    - intros k. apply L.
    - intros i Hi. cbn. apply Av_nth. auto.
    - intros k i Hi. replace (k + 2) with (S (S k)) by lia. replace (k + 1) with (S k) by lia. rewrite Sn. rewrite Sn.
      cbn [chv]. destruct (chv init k) as [x y]. cbn [fst snd]. rewrite vec_nth by auto. reflexivity.
  Qed.
  Lemma scaled_ext u v i : u = v -> A u i = A v i. Proof. intros ->. reflexivity. Qed.
  Lemma ch_unique init v w : chebyshev_vectors n H b s init v -> chebyshev_vectors n H b s init w -> forall k, v k = w k /\ v (k + 1) = w (k + 1).
  Proof.
    intros (V0 & V1 & V2 & V3) (W0 & W1 & W2 & W3). clear Hh. induction k as [|k [IH1 IH2]].
    - split; [congruence|]. cbn [Nat.add]. apply (list_eq_nth _ _ c0); [rewrite V1, W1; auto|]. intros i. rewrite V1. intros Hi. rewrite V2, W2 by auto. apply scaled_ext. congruence.
    - replace (S k) with (k + 1) by lia. split; [auto|]. replace (k + 1 + 1) with (k + 2) by lia. apply (list_eq_nth _ _ c0); [rewrite V1, W1; auto|].
      intros i. rewrite V1. intros Hi. rewrite V3, W3 by auto. rewrite IH1. rewrite (scaled_ext _ _ i IH2). reflexivity.
  Qed.

  (** One step. *)
  Variable mvp : vector -> vector -> vector.
  Hypothesis Hm : multiplies n H mvp.
  Lemma step_ok x y j : length x = n -> length y = n ->
    oneStepDec n mvp b s x y j = Ok (y, vec n (fun i => csub (cmul (RtoC (if j =? 0 then 1%R else 2%R)) (A y i)) (nth i x c0)), sum_re n y y,
      sum_re n (vec n (fun i => csub (cmul (RtoC (if j =? 0 then 1%R else 2%R)) (A y i)) (nth i x c0))) y).
  Proof.
    clear Hh. intros Hx Hy. unfold oneStepDec. rewrite Hx, Hy, Nat.eqb_refl. cbn [andb bind].
    set (z := vec n (fun i => csub (cmul (RtoC (if j =? 0 then 1%R else 2%R)) (A y i)) (nth i x c0))).
    match goal with |- Ok (_, ?w, _, _) = _ => assert (E : w = z) end; [|rewrite E; reflexivity].
    unfold z. apply vec_eq; [apply vec_length|]. intros i Hi. rewrite (vec_nth n _ i) by lia. unfold scale, at_. rewrite (vec_nth n _ i) by lia. unfold at_. rewrite (vec_nth n _ i) by lia.
    destruct (Hm (vec n (fun _ => c0)) y) as [_ E]; [apply vec_length|auto|]. rewrite E by lia. rewrite vec_nth by lia. unfold scaled. ring.
  Qed.
End Ch.
