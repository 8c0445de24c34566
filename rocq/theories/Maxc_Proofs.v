From Verif Require Import Prelude Ring Geo_Model Geo_Spec Geo_Proofs Geo_Proofs2 Maxc_Model Maxc_Spec.
From Coq Require Import ZArith Lia Bool List.
Import ListNotations.
Local Open Scope Z_scope.

Definition covered {A} (n : Z) (P : A -> Prop) : Prop :=
  exists l : list A, Z.of_nat (length l) <= n /\ forall x, P x -> In x l.

Lemma covered_at_most {A} n (P : A -> Prop) : covered n P -> at_most n P.
Proof.
  intros (l & Hl & HP) k Hk HkP.
  pose proof (NoDup_incl_length Hk (fun x Hx => HP x (HkP x Hx))). lia.
Qed.
Lemma covered_or {A} a b n (P Q S : A -> Prop) : covered a P -> covered b Q -> a + b <= n ->
  (forall x, S x -> P x \/ Q x) -> covered n S.
Proof.
  intros (l & Hl & HP) (k & Hk & HQ) Hn HS. exists (l ++ k). rewrite app_length. split; [lia|].
  intros x Hx. apply in_or_app. destruct (HS x Hx); auto.
Qed.
Lemma covered_weak {A} a n (P S : A -> Prop) : covered a P -> a <= n -> (forall x, S x -> P x) -> covered n S.
Proof. intros (l & Hl & HP) Hn HS. exists l. split; [lia|auto]. Qed.
Lemma covered_none {A} n (P : A -> Prop) : 0 <= n -> (forall x, ~ P x) -> covered n P.
Proof. intros Hn H. exists []. split; [simpl; lia|]. intros x Hx. destruct (H x Hx). Qed.
Lemma covered_one {A} n (P : A -> Prop) a : 1 <= n -> (forall x, P x -> x = a) -> covered n P.
Proof. intros Hn H. exists [a]. split; [simpl; lia|]. intros x Hx. left. symmetry. auto. Qed.

(** The values of a function on 0..n-1. *)
Definition zmap {A} (f : Z -> A) (n : Z) : list A := map (fun k => f (Z.of_nat k)) (seq 0 (Z.to_nat n)).
Lemma zmap_length {A} (f : Z -> A) n : 0 <= n -> Z.of_nat (length (zmap f n)) = n.
Proof. intros. unfold zmap. rewrite map_length, seq_length. lia. Qed.
Lemma zmap_in {A} (f : Z -> A) n k : 0 <= k < n -> In (f k) (zmap f n).
Proof.
  intros. unfold zmap. apply in_map_iff. exists (Z.to_nat k). split; [f_equal; lia|]. apply in_seq. lia.
Qed.
Lemma zmap_inv {A} (f : Z -> A) n x : In x (zmap f n) -> exists k, 0 <= k < n /\ f k = x.
Proof.
  unfold zmap. rewrite in_map_iff. intros (k & E & H). apply in_seq in H. exists (Z.of_nat k). split; [lia|auto].
Qed.
Lemma zmap_nodup {A} (f : Z -> A) n : (forall a b, 0 <= a < n -> 0 <= b < n -> f a = f b -> a = b) -> NoDup (zmap f n).
Proof.
  intros H. unfold zmap. generalize (seq_NoDup (Z.to_nat n) 0).
  assert (G : forall k, In k (seq 0 (Z.to_nat n)) -> 0 <= Z.of_nat k < n) by (intros k Hk; apply in_seq in Hk; lia).
  revert G. generalize (seq 0 (Z.to_nat n)). induction l; intros G N; [constructor|]. inversion N; subst. cbn [map]. constructor.
  - rewrite in_map_iff. intros (b & E & Hb). apply H in E; try (apply G; simpl; auto). apply H2. replace a with b by lia. auto.
  - apply IHl; auto. intros. apply G. simpl; auto.
Qed.
Lemma covered_by {A} (f : Z -> A) c n (P : A -> Prop) : 0 <= c <= n -> (forall x, P x -> exists k, 0 <= k < c /\ x = f k) -> covered n P.
Proof.
  intros Hc H. exists (zmap f c). rewrite zmap_length by lia. split; [lia|]. intros x Hx.
  destruct (H x Hx) as (k & Hk & ->). now apply zmap_in.
Qed.

(** ** Chain *)
Lemma chain_covered g m : chain_ok g ->
  covered (if ch_per g then ch_L g else ch_d g)
    (broken (ch_L g) (fun i j => chain_connected g i j = true) m).
Proof.
  intros Hg. pose proof Hg as [Hd HL]. destruct (ch_per g) eqn:Hp.
  - apply (covered_or (ch_L g - ch_d g) (ch_d g) _
      (fun p => 0 <= fst p < ch_L g - ch_d g /\ snd p = fst p + ch_d g)
      (fun p => 0 <= fst p < ch_d g /\ snd p = fst p + (ch_L g - ch_d g))); [| |lia|].
    + apply covered_by with (f := fun k => (k, k + ch_d g)) (c := ch_L g - ch_d g); [lia|].
      intros [i j] (Hi & Hj). cbn [fst snd] in *. exists i. split; [lia|]. f_equal. lia.
    + apply covered_by with (f := fun k => (k, k + (ch_L g - ch_d g))) (c := ch_d g); [lia|].
      intros [i j] (Hi & Hj). cbn [fst snd] in *. exists i. split; [lia|]. f_equal. lia.
    + intros [i j] (Hi & Hj & C). cbn [fst snd] in *. apply chain_connected_iff in C; auto.
      destruct C as [N [C|[_ C]]]; lia.
  - apply covered_by with (f := fun k => (m - 1 - k, m - 1 - k + ch_d g)) (c := ch_d g); [lia|].
    intros [i j] (Hi & Hj & C). cbn [fst snd] in *. apply chain_connected_iff in C; auto.
    destruct C as [N [C|[C' C]]]; [|congruence]. exists (m - 1 - i). split; [lia|]. f_equal; lia.
Qed.

(** ** Ladder *)
Lemma ladder_bond leg lx px py i j : 0 < leg -> 0 < lx -> leg * lx < 18446744073709551616 ->
  0 <= i < j -> j < leg * lx ->
  ladder_connected (mkladder (leg * lx) leg px py) i j = true ->
  j = i + leg \/
  (px = true /\ 3 <= lx /\ i < leg /\ j = i + (leg * lx - leg)) \/
  (j = i + 1 /\ i mod leg < leg - 1) \/
  (py = true /\ 3 <= leg /\ i mod leg = 0 /\ j = i + (leg - 1)).
Proof.
  intros Hl Hx Hs Hij Hj C. unfold ladder_connected in C. cbn [la_leg la_L la_px la_py] in C.
  destruct (Z.eqb_spec i j); [lia|].
  replace (leg * lx / leg) with lx in C by (rewrite Z.mul_comm, Z.div_mul; lia).
  destruct (coord_ex leg lx i Hl ltac:(lia)) as (c1 & r1 & -> & Hr1 & Hc1).
  destruct (coord_ex leg lx j Hl ltac:(lia)) as (c2 & r2 & -> & Hr2 & Hc2).
  rewrite !coord_div, !coord_mod in C by lia. rewrite coord_mod by lia.
  assert (lx <= leg * lx) by nia. assert (leg <= leg * lx) by nia.
  rewrite !w64_small in C by lia.
  destruct (Z.eqb_spec c1 c2) as [->|Nc].
  - apply neighbors_iff in C. destruct C as [C|[-> C]]; [lia|].
    destruct (Z.eq_dec leg 2) as [->|]; [lia|]. destruct (Z.eq_dec leg 1) as [->|]; lia.
  - destruct (Z.eqb_spec r1 r2) as [->|]; [|discriminate].
    assert (c1 < c2) by nia.
    apply neighbors_iff in C. destruct C as [C|[-> C]].
    + left. replace c2 with (c1 + 1) by lia. lia.
    + assert (c2 = c1 + (lx - 1)) by lia. assert (c1 = 0) by lia. subst c1. replace c2 with (lx - 1) by lia.
      destruct (Z.eq_dec lx 2) as [->|]; [left; lia|]. right. left. repeat split; try lia.
Qed.

Lemma ladder_covered leg lx px py m : 0 < leg -> 0 < lx -> leg * lx < 18446744073709551616 ->
  0 <= m <= leg * lx ->
  covered (Z.min leg (Z.min m (leg * lx - m)) + (if px && (3 <=? lx) then Z.min leg (Z.min m (leg * lx - m)) else 0) +
           (if (2 <=? leg) && (0 <? m) && (m <? leg * lx) then 1 else 0) +
           (if py && (3 <=? leg) && (0 <? m) && (m <? leg * lx) then 1 else 0))
    (broken (leg * lx) (fun i j => ladder_connected (mkladder (leg * lx) leg px py) i j = true) m).
Proof.
  intros Hl Hx Hs Hm. set (k := Z.min leg (Z.min m (leg * lx - m))).
  set (B := broken _ _ m).
  assert (D : forall p, B p -> 0 <= fst p < m /\ m <= snd p < leg * lx /\
     (snd p = fst p + leg \/
      (px = true /\ 3 <= lx /\ fst p < leg /\ snd p = fst p + (leg * lx - leg)) \/
      (snd p = fst p + 1 /\ fst p mod leg < leg - 1) \/
      (py = true /\ 3 <= leg /\ fst p mod leg = 0 /\ snd p = fst p + (leg - 1)))).
  { intros [i j] (Hi & Hj & C). cbn [fst snd] in *. split; [lia|]. split; [lia|]. apply ladder_bond in C; auto; lia. }
  set (A1 := fun p : Z * Z => 0 <= fst p < m /\ m <= snd p < leg * lx /\ snd p = fst p + leg).
  set (A2 := fun p : Z * Z => 0 <= fst p < m /\ m <= snd p < leg * lx /\ px = true /\ 3 <= lx /\ fst p < leg /\ snd p = fst p + (leg * lx - leg)).
  set (A3 := fun p : Z * Z => 0 <= fst p < m /\ m <= snd p < leg * lx /\ snd p = fst p + 1 /\ fst p mod leg < leg - 1).
  set (A4 := fun p : Z * Z => 0 <= fst p < m /\ m <= snd p < leg * lx /\ py = true /\ 3 <= leg /\ fst p mod leg = 0 /\ snd p = fst p + (leg - 1)).
  assert (K : 0 <= k) by lia.
  assert (C1 : covered k A1).
  { (* the start of the window *)
    apply covered_by with (f := fun t => (Z.max 0 (m - leg) + t, Z.max 0 (m - leg) + t + leg)) (c := k); [lia|].
    intros [i j] (Hi & Hj & E). cbn [fst snd] in *. exists (i - Z.max 0 (m - leg)). split; [lia|]. f_equal; lia. }
  assert (C2 : covered (if px && (3 <=? lx) then k else 0) A2).
  { destruct px; [|apply covered_none; [reflexivity|]; intros p (_ & _ & H & _); discriminate].
    cbn [andb]. destruct (Z.leb_spec 3 lx); [|apply covered_none; [reflexivity|]; intros p (_ & _ & _ & H1 & _); lia].
    apply covered_by with (f := fun t => (Z.max 0 (m - (leg * lx - leg)) + t, Z.max 0 (m - (leg * lx - leg)) + t + (leg * lx - leg))) (c := k); [lia|].
    intros [i j] (Hi & Hj & _ & _ & Hlt & E). cbn [fst snd] in *. exists (i - Z.max 0 (m - (leg * lx - leg))). split; [lia|]. f_equal; lia. }
  assert (C3 : covered (if (2 <=? leg) && (0 <? m) && (m <? leg * lx) then 1 else 0) A3).
  { destruct (Z.leb_spec 2 leg); cbn [andb].
    - destruct (Z.ltb_spec 0 m); cbn [andb]; [|apply covered_none; [lia|]; intros p (? & _); lia].
      destruct (Z.ltb_spec m (leg * lx)); [|apply covered_none; [lia|]; intros p (_ & ? & _); lia].
      apply covered_one with (a := (m - 1, m)); [lia|]. intros [i j] (Hi & Hj & E & _). cbn [fst snd] in *. f_equal; lia.
    - apply covered_none; [lia|]. intros p (_ & _ & _ & H1). pose proof (Z.mod_pos_bound (fst p) leg ltac:(lia)). lia. }
  assert (C4 : covered (if py && (3 <=? leg) && (0 <? m) && (m <? leg * lx) then 1 else 0) A4).
  { destruct py; [|apply covered_none; [reflexivity|]; intros p (_ & _ & H & _); discriminate].
    cbn [andb]. destruct (Z.leb_spec 3 leg); cbn [andb]; [|apply covered_none; [lia|]; intros p (_ & _ & _ & H1 & _); lia].
    destruct (Z.ltb_spec 0 m); cbn [andb]; [|apply covered_none; [lia|]; intros p (? & _); lia].
    destruct (Z.ltb_spec m (leg * lx)); [|apply covered_none; [lia|]; intros p (_ & ? & _); lia].
    apply covered_one with (a := (m / leg * leg, m / leg * leg + (leg - 1))); [lia|].
    intros [i j] (Hi & Hj & _ & _ & M & E). cbn [fst snd] in *.
    assert (m / leg = i / leg).
    { pose proof (Z.div_mod i leg ltac:(lia)). symmetry. apply Z.div_unique with (r := m - leg * (i / leg)); lia. }
    pose proof (Z.div_mod i leg ltac:(lia)). f_equal; lia. }
  eapply covered_or with (P := fun p => A1 p \/ A2 p \/ A3 p) (Q := A4); [|exact C4|apply Z.le_refl|].
  - eapply covered_or with (P := fun p => A1 p \/ A2 p) (Q := A3); [|exact C3|apply Z.le_refl|tauto].
    eapply covered_or with (P := A1) (Q := A2); [exact C1|exact C2|apply Z.le_refl|tauto].
  - intros p Hp. destruct (D p Hp) as (H1 & H2 & [H3|[H3|[H3|H3]]]); unfold A1, A2, A3, A4; tauto.
Qed.

(** ** Honeycomb *)
Lemma ho_bond lx ly py px i j : 0 < ly -> 0 <= lx -> ly * lx < 9223372036854775808 ->
  0 <= i < j -> j < ly * lx ->
  ho_connected (mkhoney (ly * lx) ly py px) i j = Ok true ->
  (j = i + 1 /\ 2 <= ly) \/
  (3 <= ly /\ i mod ly = 0 /\ j = i + (ly - 1)) \/
  (j = i + ly + 1 /\ (i mod ly) mod 4 = 0 /\ i mod ly <= ly - 2) \/
  (px = true /\ i < ly - 1 /\ (i + 1) mod 3 = 0 /\ j = ly * (lx - 1) + i + 1).
Proof.
  intros Hl Hx Hs Hij Hj. unfold ho_connected, ho_conn. cbn [ho_ly].
  destruct (Z.eqb_spec i j); [lia|]. destruct (Z.ltb_spec i j); [|lia].
  destruct (Z.eqb_spec ly 0); [lia|]. cbn [negb bind].
  assert (0 < lx) by nia.
  destruct (coord_ex ly lx i Hl ltac:(lia)) as (c1 & r1 & -> & Hr1 & Hc1).
  destruct (coord_ex ly lx j Hl ltac:(lia)) as (c2 & r2 & -> & Hr2 & Hc2).
  rewrite !coord_div, !coord_mod by lia.
  assert (lx <= ly * lx) by nia. assert (ly <= ly * lx) by nia.
  assert (W : forall a b, 0 <= a < ly -> 0 <= b < ly -> w64 (b - a) = 1 -> b = a + 1).
  { intros a b Ha Hb. unfold w64. intros E. destruct (Z_le_dec a b).
    - rewrite Z.mod_small in E by lia. lia.
    - rewrite <- (Z_mod_plus_full _ 1), Z.mod_small in E by lia. lia. }
  destruct (Z.eq_dec c1 c2) as [->|Nc].
  - (* same column: consecutive, or first and last *)
    assert (r1 < r2) by lia.
    intros C. assert (r2 = r1 + 1 \/ (r2 - r1 + 1 = ly)) as [E|E].
    { revert C. unfold ho_isX, ho_isY, ho_isZ, ho_XsameCol, ho_YsameCol. rewrite !Z.eqb_refl. cbn [ho_py ho_ly negb].
      destruct (Z.ltb_spec r1 r2); [|lia]. cbn [bind].
      destruct (Z.eqb_spec (r2 - r1) 1); [left; lia|]. cbn [andb].
      destruct (Z.eqb_spec (r2 - r1 + 1) ly); [right; lia|]. rewrite !andb_false_r. cbn [andb bind].
      destruct py; discriminate. }
    + left. lia.
    + destruct (Z.eq_dec ly 2); [left; lia|]. assert (r1 = 0) by lia.
      destruct (Z.eq_dec ly 1); [lia|]. right. left. repeat split; try lia.
  - assert (c1 < c2) by nia.
    intros C. revert C. unfold ho_isX, ho_isY, ho_isZ. cbn [ho_px ho_L ho_ly].
    destruct (Z.eqb_spec c1 c2); [lia|]. cbn [negb].
    replace (ly * lx / ly) with lx by (rewrite Z.mul_comm, Z.div_mul; lia).
    destruct (Z.eqb_spec (w64 (r2 - r1)) 1) as [E|]; cbn [negb bind]; [|discriminate].
    apply W in E; auto. subst r2.
    destruct (Z.ltb_spec c1 c2); [|lia]. cbn [bind].
    destruct (Z.ltb_spec (r1 + 1) r1); [lia|]. destruct (Z.ltb_spec r1 (r1 + 1)); [|lia].
    rewrite !andb_false_r, !andb_true_r.
    destruct (Z.eqb_spec (c2 - c1) 1) as [E|E]; cbn [andb].
    + destruct (isMultipleOf4 r1) eqn:M; cbn [bind].
      * intros _. right. right. left. unfold isMultipleOf4 in M. apply Z.eqb_eq in M.
        replace c2 with (c1 + 1) by lia. repeat split; lia.
      * destruct px; cbn [negb bind]; [|discriminate].
        destruct (Z.eqb_spec (c2 - c1 + 1) lx); cbn [negb bind]; [|discriminate].
        destruct (isMultipleOf3 (r1 + 1)) eqn:M3; cbn [bind]; [|discriminate]. intros _.
        unfold isMultipleOf3 in M3. apply Z.eqb_eq in M3. assert (c1 = 0) by lia. subst c1.
        right. right. right. replace c2 with (lx - 1) by lia. rewrite Z.mul_0_l, Z.add_0_r. repeat split; lia.
    + cbn [bind]. destruct px; cbn [negb bind]; [|discriminate].
      destruct (Z.eqb_spec (c2 - c1 + 1) lx); cbn [negb bind]; [|discriminate].
      destruct (isMultipleOf3 (r1 + 1)) eqn:M3; cbn [bind]; [|discriminate]. intros _.
      unfold isMultipleOf3 in M3. apply Z.eqb_eq in M3. assert (c1 = 0) by lia. subst c1.
      right. right. right. replace c2 with (lx - 1) by lia. rewrite Z.mul_0_l, Z.add_0_r. repeat split; lia.
Qed.

Lemma ho_covered lx ly py px m : 0 < ly -> 0 <= lx -> ly * lx < 9223372036854775808 -> 0 <= m <= ly * lx ->
  covered (ly + 1) (broken (ly * lx) (fun i j => ho_connected (mkhoney (ly * lx) ly py px) i j = Ok true) m).
Proof.
  intros Hl Hx Hs Hm. set (B := broken _ _ m).
  assert (D : forall p, B p -> 0 <= fst p < m /\ m <= snd p < ly * lx /\
    ((snd p = fst p + 1 /\ 2 <= ly) \/
     (3 <= ly /\ fst p mod ly = 0 /\ snd p = fst p + (ly - 1)) \/
     (snd p = fst p + ly + 1 /\ (fst p mod ly) mod 4 = 0 /\ fst p mod ly <= ly - 2) \/
     (px = true /\ fst p < ly - 1 /\ (fst p + 1) mod 3 = 0 /\ snd p = ly * (lx - 1) + fst p + 1))).
  { intros [i j] (Hi & Hj & C). cbn [fst snd] in *. split; [lia|]. split; [lia|]. apply ho_bond in C; auto; lia. }
  set (A1 := fun p : Z * Z => 0 <= fst p < m /\ m <= snd p < ly * lx /\ snd p = fst p + 1 /\ 2 <= ly).
  set (A2 := fun p : Z * Z => 0 <= fst p < m /\ m <= snd p < ly * lx /\ 3 <= ly /\ fst p mod ly = 0 /\ snd p = fst p + (ly - 1)).
  set (A3 := fun p : Z * Z => 0 <= fst p < m /\ m <= snd p < ly * lx /\ snd p = fst p + ly + 1 /\ (fst p mod ly) mod 4 = 0 /\ fst p mod ly <= ly - 2 /\ fst p <> m - ly - 1).
  set (A4 := fun p : Z * Z => 0 <= fst p < m /\ m <= snd p < ly * lx /\ snd p = fst p + ly + 1 /\ fst p mod ly <= ly - 2 /\ fst p = m - ly - 1).
  set (A5 := fun p : Z * Z => 0 <= fst p < m /\ m <= snd p < ly * lx /\ fst p < ly - 1 /\ (fst p + 1) mod 3 = 0 /\ snd p = ly * (lx - 1) + fst p + 1).
  destruct (Z.eq_dec ly 1) as [->|N1].
  { apply covered_none; [lia|]. intros p Hp. destruct (D p Hp) as (H1 & H2 & [H3|[H3|[H3|H3]]]); try lia.
  }
  assert (C1 : covered 1 A1).
  { apply covered_one with (a := (m - 1, m)); [lia|]. intros [i j] (Hi & Hj & E & _). cbn [fst snd] in *. f_equal; lia. }
  assert (C2 : covered (if 3 <=? ly then 1 else 0) A2).
  { destruct (Z.leb_spec 3 ly); [|apply covered_none; [lia|]; intros p (_ & _ & ? & _); lia].
    apply covered_one with (a := (m / ly * ly, m / ly * ly + (ly - 1))); [lia|].
    intros [i j] (Hi & Hj & _ & M & E). cbn [fst snd] in *.
    assert (m / ly = i / ly).
    { pose proof (Z.div_mod i ly ltac:(lia)). symmetry. apply Z.div_unique with (r := m - ly * (i / ly)); lia. }
    pose proof (Z.div_mod i ly ltac:(lia)). f_equal; lia. }
  assert (C3 : covered ((ly + 2) / 4) A3).
  { apply covered_by with (f := fun k => let x := (m - 1 - 4 * k) / ly in (4 * k + x * ly, 4 * k + x * ly + ly + 1)) (c := (ly + 2) / 4).
    - split; [|lia]. apply Z.div_pos; lia.
    - intros [i j] (Hi & Hj & E & M & R & N). cbn [fst snd] in *.
      exists ((i mod ly) / 4). pose proof (Z.mod_pos_bound i ly ltac:(lia)). pose proof (Z.div_mod i ly ltac:(lia)) as DM.
      pose proof (Z.div_mod (i mod ly) 4 ltac:(lia)) as DM4.
      assert (Ey : 4 * (i mod ly / 4) = i mod ly) by lia.
      split.
      + split; [apply Z.div_pos; lia|]. apply Z.lt_le_trans with (i mod ly / 4 + 1); [lia|].
        apply Z.div_le_lower_bound; lia.
      + cbv zeta. rewrite Ey.
        assert (Ex : (m - 1 - i mod ly) / ly = i / ly).
        { symmetry. apply Z.div_unique with (r := m - 1 - i); lia. }
        rewrite Ex. f_equal; lia. }
  assert (C4 : covered 1 A4).
  { apply covered_one with (a := (m - ly - 1, m)); [lia|]. intros [i j] (Hi & Hj & E & _ & F). cbn [fst snd] in *. f_equal; lia. }
  assert (C5 : covered ((ly - 1) / 3) A5).
  { apply covered_by with (f := fun k => (3 * k + 2, ly * (lx - 1) + (3 * k + 2) + 1)) (c := (ly - 1) / 3).
    - split; [|lia]. apply Z.div_pos; lia.
    - intros [i j] (Hi & Hj & R & M & E). cbn [fst snd] in *. exists ((i + 1) / 3 - 1).
      pose proof (Z.div_mod (i + 1) 3 ltac:(lia)) as DM. split.
      + assert ((i + 1) / 3 <= (ly - 1) / 3) by (apply Z.div_le_mono; lia). lia.
      + f_equal; lia. }
  assert (S : 1 + (if 3 <=? ly then 1 else 0) + (ly + 2) / 4 + 1 + (ly - 1) / 3 <= ly + 1).
  { clear -Hl N1. destruct (Z.leb_spec 3 ly); Z.to_euclidean_division_equations; lia. }
  eapply covered_or with (P := fun p => A1 p \/ A2 p \/ A3 p \/ A4 p) (Q := A5); [|exact C5|exact S|].
  - eapply covered_or with (P := fun p => A1 p \/ A2 p \/ A3 p) (Q := A4); [|exact C4|apply Z.le_refl|tauto].
    eapply covered_or with (P := fun p => A1 p \/ A2 p) (Q := A3); [|exact C3|apply Z.le_refl|tauto].
    eapply covered_or with (P := A1) (Q := A2); [exact C1|exact C2|apply Z.le_refl|tauto].
  - intros p Hp. destruct (D p Hp) as (H1 & H2 & [H3|[H3|[H3|H3]]]); unfold A1, A2, A3, A4, A5.
    + tauto.
    + tauto.
    + destruct (Z.eq_dec (fst p) (m - ly - 1)); tauto.
    + tauto.
Qed.

(** ** Ladder with a bath *)
Lemma covered_map {A B} (f : A -> B) n (P : A -> Prop) (Q : B -> Prop) : covered n P ->
  (forall y, Q y -> exists x, P x /\ y = f x) -> covered n Q.
Proof.
  intros (l & Hl & HP) H. exists (map f l). rewrite map_length. split; [lia|].
  intros y Hy. destruct (H y Hy) as (x & Hx & ->). apply in_map. auto.
Qed.

Lemma lb_sum m b k leg lx (px py : bool) : 0 < m -> 0 <= b -> 0 < k < 2 * m -> 0 < leg -> leg * lx = 2 * m ->
  b <= 1 \/ (b = 2 /\ (px = false \/ py = false)) ->
  Z.min leg (Z.min k (2 * m - k)) + (if px && (3 <=? lx) then Z.min leg (Z.min k (2 * m - k)) else 0) +
    (if (2 <=? leg) && (0 <? k) && (k <? 2 * m) then 1 else 0) +
    (if py && (3 <=? leg) && (0 <? k) && (k <? 2 * m) then 1 else 0) +
    Z.max 0 (m - k) * b + Z.max 0 (k - m) * b <= 2 * m + 1.
Proof.
  intros Hm Hb Hk Hleg HL Hc.
  assert (N : px = true -> py = true -> 3 <= lx -> 3 <= leg -> b <= 1 /\ leg <= m - 1).
  { intros E1 E2 H3 H4. subst. split; [destruct Hc as [?|[? [?|?]]]; [lia|discriminate|discriminate]|].
    assert (leg * 3 <= leg * lx) by (apply Z.mul_le_mono_nonneg_l; lia). lia. }
  set (u := Z.min leg (Z.min k (2 * m - k))).
  assert (U : u <= k /\ u <= 2 * m - k /\ u <= leg /\ 0 <= u) by (unfold u; lia).
  set (v := Z.max 0 (m - k) * b + Z.max 0 (k - m) * b).
  assert (V : v <= 2 * Z.abs (m - k) /\ (b <= 1 -> v <= Z.abs (m - k))).
  { assert (E : v = Z.abs (m - k) * b).
    { unfold v. destruct (Z_le_dec k m); rewrite ?Z.max_r, ?Z.max_l by lia; lia. }
    rewrite E. split; [rewrite Z.mul_comm|intros B1; rewrite <- (Z.mul_1_r (Z.abs (m - k))) at 2]; [apply Z.mul_le_mono_nonneg_r|apply Z.mul_le_mono_nonneg_l]; lia. }
  rewrite <- Z.add_assoc. fold v. clearbody u v. clear -N U V Hk Hm.
  destruct (Z.ltb_spec 0 k); [|lia]. destruct (Z.ltb_spec k (2 * m)); [|lia]. rewrite !andb_true_r.
  destruct px, py; cbn [andb];
    destruct (Z.leb_spec 3 lx); cbn [andb]; destruct (Z.leb_spec 3 leg); cbn [andb];
    destruct (Z.leb_spec 2 leg); lia.
Qed.

Section Bath.
  Variables (m b leg lx : Z) (px py : bool).
  Hypothesis Hm : 0 < m.
  Hypothesis Hb : 0 <= b.
  Hypothesis Hleg : 0 < leg.
  Hypothesis Hlx : 0 < lx.
  Hypothesis HL : leg * lx = 2 * m.
  Hypothesis Hs : 2 * m * (1 + b) < 18446744073709551616.
  Let l := mkladder (leg * lx) leg px py.
  Let g := mklb (2 * m * (1 + b)) b l.

  Lemma lb_bond i j : 0 <= i < j -> j < 2 * m * (1 + b) -> lb_connected g i j = Ok true ->
    (in_cluster m b i /\ in_cluster m b j /\ ladder_connected l (i - m * b) (j - m * b) = true) \/
    (0 <= i < m * b /\ j = m * b + i mod m) \/
    (m * b + 2 * m <= j /\ i = m * b + m + (j - m * b - 2 * m) mod m).
  Proof.
    intros Hi Hj C. assert (El : la_L l = 2 * m) by exact HL.
    assert (D : forall k, 0 <= k < 2 * m * (1 + b) -> in_cluster m b k \/ in_bath m b k).
    { intros k Hk. unfold in_bath, in_cluster, in_range. destruct (Z_le_dec (m * b) k), (Z_lt_dec k (m * b + 2 * m)); auto; right; split; auto; lia. }
    destruct (D i ltac:(lia)) as [Ci|Bi], (D j ltac:(lia)) as [Cj|Bj].
    - left. unfold g in C. rewrite lb_connected_cluster in C by auto. apply Ok_inj in C. auto.
    - right. right. destruct (bath_site_ex m b Hm j Bj) as (s & k & Hs' & Hk & ->).
      assert (C' : lb_connected g (bath_site m b s k) i = Ok true).
      { destruct (lb_connected_sym g i (bath_site m b s k)) as [E|(t & E & [->| ->])].
        - rewrite <- E. exact C.
        - unfold g in E. rewrite (getClusterSite_cluster m b l El) in E by auto. discriminate.
        - unfold g in E. rewrite (getClusterSite_bath m b Hm Hb Hs l El) in E by auto. discriminate. }
      unfold g in C'. rewrite (lb_connected_bath m b Hm Hb Hs l El) in C' by auto. apply Ok_inj in C'. apply Z.eqb_eq in C'.
      unfold bath_site in *. destruct (Z.ltb_spec s m); [nia|].
      split; [nia|]. replace (k * m + (s - m) + m * b + 2 * m - m * b - 2 * m) with ((s - m) + k * m) by lia.
      rewrite Z.mod_add, Z.mod_small by lia. lia.
    - right. left. destruct (bath_site_ex m b Hm i Bi) as (s & k & Hs' & Hk & ->).
      unfold g in C. rewrite (lb_connected_bath m b Hm Hb Hs l El) in C by auto. apply Ok_inj in C. apply Z.eqb_eq in C.
      unfold bath_site in *. destruct (Z.ltb_spec s m); [|nia].
      split; [nia|]. replace (k * m + s) with (s + k * m) by lia. rewrite Z.mod_add, Z.mod_small by lia. lia.
    - unfold g in C. rewrite (lb_connected_bath_bath m b Hm Hb Hs l El) in C by auto. discriminate.
  Qed.

  Lemma lb_covered p : b <= 1 \/ (b = 2 /\ (px = false \/ py = false)) -> 0 <= p <= 2 * m * (1 + b) ->
    covered (2 * m + 1) (broken (2 * m * (1 + b)) (fun i j => lb_connected g i j = Ok true) p).
  Proof.
    intros Hc Hp. set (B := broken _ _ p). assert (b <= 2) by (clear -Hc; lia).
    assert (D : forall q, B q -> 0 <= fst q < p /\ p <= snd q < 2 * m * (1 + b) /\
     ((in_cluster m b (fst q) /\ in_cluster m b (snd q) /\ ladder_connected l (fst q - m * b) (snd q - m * b) = true) \/
      (0 <= fst q < m * b /\ snd q = m * b + fst q mod m) \/
      (m * b + 2 * m <= snd q /\ fst q = m * b + m + (snd q - m * b - 2 * m) mod m))).
    { intros [i j] (Hi & Hj & C). cbn [fst snd] in *. split; [lia|]. split; [lia|]. apply lb_bond; auto; lia. }
    assert (M : forall a, 0 <= a mod m < m) by (intros; apply Z.mod_pos_bound; lia).
    assert (Emb : 2 * m * (1 + b) = m * b + 2 * m + m * b) by lia.
    assert (m * b <= 2 * m) by nia.
    destruct (Z_le_dec p (m * b)).
    { (* the cut is in the bath of the left *)
      apply covered_by with (f := fun i => (i, m * b + i mod m)) (c := p); [lia|].
      intros [i j] Hq. destruct (D _ Hq) as (Q1 & Q2 & Q3). cbn [fst snd] in *. exists i. split; [lia|].
      destruct Q3 as [[Q3 _]|[[_ Q3]|[_ Q3]]].
      - unfold in_cluster in Q3. lia.
      - now rewrite Q3.
      - pose proof (M (j - m * b - 2 * m)). lia. }
    destruct (Z_le_dec (m * b + 2 * m) p).
    { (* the cut is in the bath of the right *)
      apply covered_by with (f := fun n => (m * b + m + (p + n - m * b - 2 * m) mod m, p + n)) (c := 2 * m * (1 + b) - p); [lia|].
      intros [i j] Hq. destruct (D _ Hq) as (Q1 & Q2 & Q3). cbn [fst snd] in *. exists (j - p). split; [lia|].
      destruct Q3 as [[_ [Q3 _]]|[[_ Q3]|[_ Q3]]].
      - unfold in_cluster in Q3. lia.
      - pose proof (M i). lia.
      - rewrite Q3. f_equal; [|lia]. do 2 f_equal. lia. }
    (* the cut is in the cluster *)
    set (k := p - m * b). assert (Hk : 0 < k < 2 * m) by (unfold k; lia).
    set (A1 := fun q : Z * Z => 0 <= fst q < p /\ p <= snd q < 2 * m * (1 + b) /\
      in_cluster m b (fst q) /\ in_cluster m b (snd q) /\ ladder_connected l (fst q - m * b) (snd q - m * b) = true).
    set (A2 := fun q : Z * Z => p <= snd q /\ 0 <= fst q < m * b /\ snd q = m * b + fst q mod m).
    set (A3 := fun q : Z * Z => fst q < p /\ m * b + 2 * m <= snd q < 2 * m * (1 + b) /\ fst q = m * b + m + (snd q - m * b - 2 * m) mod m).
    pose proof (ladder_covered leg lx px py k Hleg Hlx ltac:(nia) ltac:(lia)) as CL.
    rewrite HL in CL.
    assert (C1 : covered (Z.min leg (Z.min k (2 * m - k)) + (if px && (3 <=? lx) then Z.min leg (Z.min k (2 * m - k)) else 0) +
       (if (2 <=? leg) && (0 <? k) && (k <? 2 * m) then 1 else 0) +
       (if py && (3 <=? leg) && (0 <? k) && (k <? 2 * m) then 1 else 0)) A1).
    { apply covered_map with (f := fun q : Z * Z => (fst q + m * b, snd q + m * b)) (1 := CL).
      intros [i j] (Q1 & Q2 & Q3 & Q4 & Q5). cbn [fst snd] in *. unfold in_cluster in *.
      exists (i - m * b, j - m * b). split; [|cbn [fst snd]; f_equal; lia].
      unfold broken. cbn [fst snd]. split; [lia|]. split; [lia|]. rewrite <- HL. exact Q5. }
    assert (C2 : covered (Z.max 0 (m - k) * b) A2).
    { destruct (Z_le_dec m k).
      - apply covered_none; [nia|]. intros [i j] (Q1 & Q2 & Q3). cbn [fst snd] in *. pose proof (M i). lia.
      - apply covered_by with (f := fun n => ((n / (m - k)) * m + (k + n mod (m - k)), m * b + (k + n mod (m - k)))) (c := (m - k) * b).
        + rewrite Z.max_r by lia. nia.
        + intros [i j] (Q1 & Q2 & Q3). cbn [fst snd] in *. pose proof (M i).
          exists (i mod m - k + (i / m) * (m - k)).
          rewrite coord_div, coord_mod by lia.
          assert (0 <= i / m < b) by (split; [apply Z.div_pos; lia|apply Z.div_lt_upper_bound; lia]).
          split; [nia|]. pose proof (Z.div_mod i m ltac:(lia)). f_equal; lia. }
    assert (C3 : covered (Z.max 0 (k - m) * b) A3).
    { destruct (Z_le_dec k m).
      - apply covered_none; [nia|]. intros [i j] (Q1 & Q2 & Q3). cbn [fst snd] in *. pose proof (M (j - m * b - 2 * m)). lia.
      - apply covered_by with (f := fun n => (m * b + m + n mod (k - m), m * b + 2 * m + (n / (k - m)) * m + n mod (k - m))) (c := (k - m) * b).
        + rewrite Z.max_r by lia. nia.
        + intros [i j] (Q1 & Q2 & Q3). cbn [fst snd] in *. set (t := j - m * b - 2 * m) in *. pose proof (M t).
          exists (t mod m + (t / m) * (k - m)).
          rewrite coord_div, coord_mod by lia.
          assert (0 <= t / m < b) by (split; [apply Z.div_pos; lia|apply Z.div_lt_upper_bound; lia]).
          split; [nia|]. pose proof (Z.div_mod t m ltac:(lia)). f_equal; lia. }
    eapply covered_or with (P := fun q => A1 q \/ A2 q) (Q := A3); [|exact C3| |].
    - eapply covered_or with (P := A1) (Q := A2); [exact C1|exact C2|apply Z.le_refl|tauto].
    - apply lb_sum; auto; unfold k; lia.
    - intros q Hq. destruct (D q Hq) as (Q1 & Q2 & [Q3|[Q3|Q3]]); unfold A1, A2, A3; [tauto| |].
      + left. right. lia.
      + right. lia.
  Qed.
End Bath.
