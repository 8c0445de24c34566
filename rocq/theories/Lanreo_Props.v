(** Re-orthogonalization of the Lanczos vectors (C60). *)
From Coq Require Import Reals Lra.
From Verif Require Import Prelude Ring Cplx Tri_Model Lanczos_Model Lanczos_Spec Lanczos_Proofs.
Local Open Scope nat_scope.
Add Ring RCr3 : (c_ring Cring).

(** The part of [v] in the space of the first [k] vectors of [data] *)
Definition along (rows : nat) (data : list vector) (k : nat) (v : vector) (h : nat) : Cring :=
  sumn k (fun i => cmul (inner rows (nth i data []) v) (nth h (nth i data []) c0)).

Lemma inner_minus rows (w u v : vector) (f : nat -> vector) (c : nat -> Cring) k :
  (forall h, h < rows -> nth h u c0 = csub (nth h v c0) (sumn k (fun l => cmul (c l) (nth h (f l) c0)))) ->
  inner rows w u = csub (inner rows w v) (sumn k (fun l => cmul (c l) (inner rows w (f l)))).
Proof.
  intros Hu.
  transitivity (sumn rows (fun h => cadd (cmul (cconj (nth h w c0)) (nth h v c0))
    (cmul (copp c1) (sumn k (fun l => cmul (c l) (cmul (cconj (nth h w c0)) (nth h (f l) c0))))))).
  - apply sumn_ext. intros h Hh. rewrite Hu by auto.
    transitivity (csub (cmul (cconj (nth h w c0)) (nth h v c0)) (cmul (cconj (nth h w c0)) (sumn k (fun l => cmul (c l) (nth h (f l) c0))))); [ring|].
    rewrite <- (sumn_mul_l Cring). erewrite (sumn_ext Cring k); [|intros l Hl; rewrite cmul_assoc, (cmul_comm Cring _ (c l)), <- cmul_assoc; reflexivity]. ring.
  - rewrite sumn_add, sumn_mul_l, (sumn_exchange Cring). erewrite (sumn_ext Cring k); [|intros l Hl; rewrite sumn_mul_l; reflexivity].
    fold (inner rows w v). unfold inner. ring.
Qed.

(** The option "reortho", for any vector, as rounding may have left it: given the vectors stored so far, orthonormal, the
    next one becomes exactly what is left of it beyond their space, divided by its norm: a vector of norm 1 that is
    orthogonal to all of them. If nothing is left, the elements are not numbers. *)
Theorem C60_reortho : forall rows steps (data : list vector) (v : vector) iter,
  length v = rows -> iter < steps -> iter < length data ->
  (forall i j, i <= iter -> j <= iter -> inner rows (nth i data []) (nth j data []) = if i =? j then c1 else c0) ->
  exists o, reortho rows true steps data v iter = Ok o /\
    match o with
    | None => forall h, h < rows -> nth h v c0 = along rows data (iter + 1) v h
    | Some w => length w = rows /\ inner rows w w = c1 /\
        (forall i, i <= iter -> inner rows (nth i data []) w = c0) /\
        exists r, (0 < r)%R /\ forall h, h < rows -> nth h v c0 = cadd (along rows data (iter + 1) v h) (cmul (RtoC r) (nth h w c0))
    end.
Proof.
  intros rows steps data v iter Lv Hs Hd On. unfold reortho. cbn [negb]. destruct (Nat.leb_spec steps iter); [lia|].
  cbv zeta. loopM (fun k (u : vector) => length u = rows /\ forall h, h < rows -> nth h u c0 = csub (nth h v c0) (along rows data k v h)) as u Eu Hu.
  - split; [auto|]. intros h Hh. unfold along. rewrite (sumn_zero Cring 0) by lia. ring.
  - intros i u Hi (Lu & Hu). rewrite (@vget_ok _ data i []) by lia. cbn [bind]. eexists. split; [reflexivity|]. split; [apply vec_length|].
    intros h Hh. rewrite vec_nth by auto. unfold at_. fold (inner rows (nth i data []) u).
    assert (E : inner rows (nth i data []) u = inner rows (nth i data []) v).
    { rewrite (inner_minus rows (nth i data []) u v (fun l => nth l data []) (fun l => inner rows (nth l data []) v) i Hu).
      rewrite sumn_zero; [ring|]. intros l Hl. rewrite On by lia. destruct (Nat.eqb_spec i l); [lia|ring]. }
    rewrite E, Hu by auto. unfold along. rewrite sumn_S. ring.
  - rewrite Eu. cbn [bind]. destruct Hu as [Lu Hu]. rewrite Nat.add_0_l in Hu. clear Eu.
    assert (Ho : forall i, i <= iter -> inner rows (nth i data []) u = c0).
    { intros i Hi. rewrite (inner_minus rows (nth i data []) u v (fun l => nth l data []) (fun l => inner rows (nth l data []) v) (iter + 1) Hu).
      rewrite (sumn_ext Cring (iter + 1) _ (fun l => if i =? l then inner rows (nth l data []) v else c0)).
      - rewrite (sumn_delta Cring (iter + 1) (fun l => inner rows (nth l data []) v) i) by lia. ring.
      - intros l Hl. rewrite On by lia. destruct (Nat.eqb_spec i l); ring. }
    destruct (Req_EM_T _ _) as [Z|Nz].
    + eexists. split; [reflexivity|]. cbn match. intros h Hh. pose proof (sum_re_zero rows u Z h Hh) as E. rewrite Hu in E by auto.
      transitivity (cadd (csub (nth h v c0) (along rows data (iter + 1) v h)) (along rows data (iter + 1) v h)); [ring|]. rewrite E. ring.
    + set (n2 := sum_re rows u u) in *. assert (P : (0 < n2)%R) by (pose proof (sum_re_nonneg rows u); unfold n2 in *; lra).
      pose proof (sqrt_lt_R0 _ P) as Q. pose proof (sqrt_sqrt n2 ltac:(lra)) as Q2.
      eexists. split; [reflexivity|]. cbn match. set (w := scale rows (1 / sqrt n2) u).
      assert (Hw : forall h, h < rows -> nth h w c0 = cmul (RtoC (1 / sqrt n2)) (nth h u c0)).
      { intros h Hh. unfold w, scale. rewrite vec_nth by auto. unfold at_. apply (cmul_comm Cring). }
      split; [apply vec_length|]. split; [|split].
      * rewrite (inner_scale rows w w u _ Hw), <- inner_conj, (inner_scale rows u w u _ Hw), inner_self. fold n2.
        rewrite c_conj_mul, !conj_RtoC, <- !RtoC_mul, <- RtoC_1. f_equal. rewrite <- Q2 at 3. field. lra.
      * intros i Hi. rewrite (inner_scale rows _ w u _ Hw), Ho by auto. ring.
      * exists (sqrt n2). split; [auto|]. intros h Hh. rewrite Hw by auto. rewrite Hu by auto. rewrite (cmul_assoc Cring), <- RtoC_mul.
        replace (sqrt n2 * (1 / sqrt n2))%R with 1%R by (field; lra). rewrite RtoC_1. ring.
Qed.
Print Assumptions C60_reortho.

(** A case: one stored vector, and one that is not orthogonal to it. *)
Example C60_reortho_nonvacuous :
  let data : list vector := [[c1; c0]] in let v : vector := [c1; c1] in
  length v = 2 /\ (forall i j, i <= 0 -> j <= 0 -> inner 2 (nth i data []) (nth j data []) = if i =? j then c1 else c0) /\
  inner 2 (nth 0 data []) v = c1.
Proof.
  cbv zeta. split; [reflexivity|]. split.
  - intros i j Hi Hj. replace i with 0 by lia. replace j with 0 by lia. cbn [nth Nat.eqb]. unfold inner. rewrite !sumn_S, (sumn_zero Cring 0) by lia. cbn [nth].
    rewrite c_conj_1, cconj_0. ring.
  - cbn [nth]. unfold inner. rewrite !sumn_S, (sumn_zero Cring 0) by lia. cbn [nth]. rewrite c_conj_1, cconj_0. ring.
Qed.
