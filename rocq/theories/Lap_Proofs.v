(** Lemmas for Lap_Props *)
From Coq Require Import Ascii String ZArith.
From Verif Require Import Prelude Ring Dense_Model Dense_Spec Dense_Proofs Lap_Model Lap_Spec.
Import List.

Lemma as_int_id n : (Z.of_nat n <= INT_MAX)%Z -> as_int n = Z.of_nat n.
Proof. unfold as_int, INT_MAX. intros H. rewrite Z.mod_small by lia. lia. Qed.
Lemma to_int_ok z : (-2147483648 <= z <= INT_MAX)%Z -> to_int z = Ok z.
Proof. intros H. unfold to_int. destruct (Z.leb_spec (-2147483648) z); [|lia]. destruct (Z.leb_spec z INT_MAX); [|lia]. reflexivity. Qed.
Lemma to_int_big z : (INT_MAX < z)%Z -> to_int z = UB.
Proof. intros H. unfold to_int. destruct (Z.leb_spec z INT_MAX); [lia|]. rewrite andb_false_r. reflexivity. Qed.

Lemma columns_ext {T} m n (f g : nat -> nat -> T) : (forall i j, i < m -> j < n -> f i j = g i j) -> columns m n f = columns m n g.
Proof.
  intros H. unfold columns. rewrite !flat_map_concat_map. f_equal. apply map_ext_in. intros j Hj. apply in_seq in Hj.
  apply map_ext_in. intros i Hi. apply in_seq in Hi. apply H; lia.
Qed.

Section P.
  Variables T R : cring.
  Variable L : lapack T R.

  Lemma store_length (a : list T) lda m n f : List.length (store T a lda m n f) = List.length a.
  Proof. unfold store. rewrite map_length, seq_length. reflexivity. Qed.
  Lemma write_length {A} (v : list A) n f d : List.length (write v n f d) = List.length v.
  Proof. unfold write. rewrite map_length, seq_length. reflexivity. Qed.
  Lemma nth_map_seq {A} (f : nat -> A) k n d : k < n -> nth k (map f (seq 0 n)) d = f k.
  Proof. intros H. rewrite (nth_indep _ d (f 0)) by (rewrite map_length, seq_length; auto). rewrite map_nth, seq_nth by auto. reflexivity. Qed.
  Lemma block_store (a : list T) lda m n f i j : i < m -> m <= Z.to_nat lda -> j < n -> i + j * Z.to_nat lda < List.length a ->
    block T (store T a lda m n f) lda i j = f i j.
  Proof.
    intros Hi Hm Hj Hl. unfold block, store. rewrite nth_map_seq by auto. set (d := Z.to_nat lda) in *.
    assert (E1 : (i + j * d) mod d = i) by (rewrite Nat.add_mod, Nat.mod_mul, Nat.add_0_r, Nat.mod_mod by lia; apply Nat.mod_small; lia).
    assert (E2 : (i + j * d) / d = j) by (rewrite Nat.div_add by lia; rewrite Nat.div_small by lia; lia).
    rewrite E1, E2. destruct (Nat.ltb_spec i m); [|lia]. destruct (Nat.ltb_spec j n); [|lia]. reflexivity.
  Qed.
  Lemma nth_write {A} (v : list A) n f d k d' : k < n -> k < List.length v -> nth k (write v n f d) d' = f k.
  Proof. intros H1 H2. unfold write. rewrite nth_map_seq by auto. destruct (Nat.ltb_spec k n); [|lia]. reflexivity. Qed.
  Lemma firstn_write {A} (v : list A) n f d : List.length v = n -> firstn n (write v n f d) = map f (seq 0 n).
  Proof.
    intros H. rewrite firstn_all2 by (rewrite write_length; lia). apply list_eq_nth with (d := d); [rewrite write_length, map_length, seq_length; auto|].
    intros k Hk. rewrite write_length in Hk. rewrite nth_write by lia. rewrite nth_map_seq by lia. reflexivity.
  Qed.

  (** The elements of the matrix that is made of an array *)
  Lemma melem_store nr nc (a : list T) n f i j : i < n -> j < nc -> nr = n -> List.length a = nr * nc ->
    melem (mkmat nr nc (store T a (Z.of_nat n) n nc f)) i j = f i j.
  Proof.
    intros Hi Hj -> Hl. unfold melem. cbn [m_nrow m_data]. pose proof (block_store a (Z.of_nat n) n nc f i j Hi) as B.
    rewrite Nat2Z.id in B. specialize (B (le_n n) Hj ltac:(nia)). unfold block in B. rewrite Nat2Z.id in B. exact B.
  Qed.

  Lemma fits_ok {A} (a : list A) n m k : List.length a = n * k -> (m <= n) -> fits a (Z.of_nat n) (Z.of_nat m) (Z.of_nat k) = true.
  Proof.
    intros H Hm. unfold fits. destruct (Z.leb_spec (Z.of_nat k) 0); auto. destruct (Z.leb_spec (Z.of_nat m) 0); auto.
    cbn [orb]. apply Z.leb_le. rewrite H. nia.
  Qed.
  Lemma has_ok {A} (v : list A) n : n <= List.length v -> has v (Z.of_nat n) = true.
  Proof. intros H. unfold has. apply Z.leb_le. lia. Qed.

  Definition jobz_ok (c : ascii) : Prop := c = "N"%char \/ c = "V"%char.
  Lemma jobz_test c : jobz_ok c -> (Ascii.eqb c "N" || Ascii.eqb c "V")%bool = true /\ (Ascii.eqb c "V" || Ascii.eqb c "N")%bool = true.
  Proof. intros [-> | ->]; auto. Qed.

  Lemma syev_query c n a w r : jobz_ok c -> 1 <= n -> syev T R L c "U" (Z.of_nat n) a (Z.of_nat n) w 3 (-1) r = Ok (a, w, lp_syev_opt L c (Z.of_nat n), 0%Z).
  Proof.
    intros J Hn. unfold syev. destruct (jobz_test c J) as [-> _]. cbn [negb]. cbn [Ascii.eqb Bool.eqb orb negb].
    destruct (Z.ltb_spec (Z.of_nat n) 0); [lia|]. destruct (Z.ltb_spec (Z.of_nat n) (Z.max 1 (Z.of_nat n))); [lia|].
    cbn [Z.eqb Pos.eqb negb]. rewrite andb_false_r. reflexivity.
  Qed.
  Lemma syev_call c n a w lw r : jobz_ok c -> 1 <= n -> List.length a = n * n -> List.length w = n ->
    (Z.max 1 (if lp_complex L then 2 * Z.of_nat n - 1 else 3 * Z.of_nat n - 1) <= lw)%Z -> (if lp_complex L then r = 3 * Z.of_nat n else True)%Z ->
    syev T R L c "U" (Z.of_nat n) a (Z.of_nat n) w lw lw r =
      (let '(v, e, info) := lp_syev L lw c n (triangle true n (fun i j => nth (i + j * n) a c0)) in
       Ok (store T a (Z.of_nat n) n n v, write w n e c0, lw, info)).
  Proof.
    intros J Hn La Lw Hl Hr. unfold syev. destruct (jobz_test c J) as [-> _]. cbn [negb]. cbn [Ascii.eqb Bool.eqb orb negb].
    destruct (Z.ltb_spec (Z.of_nat n) 0); [lia|]. destruct (Z.ltb_spec (Z.of_nat n) (Z.max 1 (Z.of_nat n))); [lia|].
    destruct (Z.ltb_spec lw (Z.max 1 (if lp_complex L then 2 * Z.of_nat n - 1 else 3 * Z.of_nat n - 1))); [lia|]. cbn [andb].
    assert (Hp : (1 <= lw)%Z) by lia. destruct (Z.leb_spec 1 lw); [|lia]. destruct (Z.eqb_spec lw (-1)); [lia|].
    rewrite fits_ok, has_ok by lia. destruct (Z.leb_spec lw lw); [|lia].
    assert (Hc : (if lp_complex L then Z.max 1 (3 * Z.of_nat n - 2) <=? r else true)%Z = true).
    { destruct (lp_complex L); auto. apply Z.leb_le. lia. }
    rewrite Hc, !Nat2Z.id. unfold block. rewrite Nat2Z.id. reflexivity.
  Qed.

  Lemma diag_ok ofR le (H : lapack_ok ofR le L) m eigs option n :
    mat_wf m -> m_nrow m = n -> m_ncol m = n -> 1 <= n -> (258 * Z.of_nat n <= INT_MAX)%Z -> (lp_syev_opt L option (Z.of_nat n) < INT_MAX)%Z -> jobz_ok option ->
    exists lwork, diag T R L m eigs option =
      (let '(v, e, info) := lp_syev L lwork option n (triangle true n (melem m)) in
       if negb (info =? 0)%Z then Throw else
       Ok (mkmat n n (store T (m_data m) (Z.of_nat n) n n v), write (vresize eigs n c0) n e c0)).
  Proof.
    intros W Hr Hc Hn Hb Ho J. unfold INT_MAX in *. pose proof (ok_syev_opt _ _ _ _ _ H option (Z.of_nat n) ltac:(lia)) as Q.
    set (opt := lp_syev_opt L option (Z.of_nat n)) in *.
    exists (Z.max (1 + opt) (258 * Z.of_nat n)). unfold diag. rewrite Hr, Hc, as_int_id by (unfold INT_MAX; lia).
    assert (La : List.length (m_data m) = n * n) by (unfold mat_wf in W; rewrite W, Hr, Hc; reflexivity).
    assert (Ew : exists r, (if lp_complex L then to_int (3 * Z.of_nat n) else Ok 0%Z) = Ok r /\ (0 <=? r)%Z = true /\ (if lp_complex L then r = 3 * Z.of_nat n else True)%Z).
    { destruct (lp_complex L); [|exists 0%Z; auto]. exists (3 * Z.of_nat n)%Z. rewrite to_int_ok by (unfold INT_MAX; lia). split; auto. split; auto. apply Z.leb_le; lia. }
    destruct Ew as (r & -> & Hr0 & Hrw). cbn [bind]. rewrite Hr0.
    assert (Hl : (negb (lp_complex L) && (Z.of_nat n <=? 0)%Z)%bool = false) by (destruct (Z.leb_spec (Z.of_nat n) 0); [lia|]; apply andb_false_r).
    rewrite Hl. destruct (Z.leb_spec 0 (Z.of_nat n)); [|lia]. rewrite Nat2Z.id.
    rewrite mget_ok by (auto; lia). cbn [bind]. rewrite (vget_ok _ c0) by (rewrite vresize_length; lia). cbn [bind].
    rewrite syev_query by auto. cbn [bind]. cbn [Z.eqb negb].
    fold opt. rewrite to_int_ok by (unfold INT_MAX; destruct (lp_complex L); lia). cbn [bind].
    rewrite (to_int_ok (1 + opt)) by (unfold INT_MAX; destruct (lp_complex L); lia). cbn [bind].
    change ((256 + 2) * Z.of_nat n)%Z with (258 * Z.of_nat n)%Z.
    rewrite (to_int_ok (258 * Z.of_nat n)) by (unfold INT_MAX; lia). cbn [bind].
    rewrite syev_call; [|auto|auto|auto|apply vresize_length| |auto].
    2:{ destruct (lp_complex L); lia. }
    assert (Et : (fun i j => nth (i + j * n) (m_data m) c0) = melem m) by (unfold melem; rewrite Hr; reflexivity).
    rewrite Et.
    destruct (lp_syev L _ option n (triangle true n (melem m))) as [[v e] info]. cbn [bind]. reflexivity.
  Qed.

  Lemma geev_query jl jr n a w l r rw : jobz_ok jl -> jobz_ok jr -> 1 <= n ->
    geev_ T R L jl jr (Z.of_nat n) a (Z.of_nat n) w l (Z.of_nat n) r (Z.of_nat n) 10 (-1) rw = Ok (a, w, l, r, lp_geev_opt L jl jr (Z.of_nat n), 0%Z).
  Proof.
    intros J1 J2 Hn. unfold geev_. destruct (jobz_test jl J1) as [_ ->]. destruct (jobz_test jr J2) as [_ ->]. cbn [negb].
    destruct (Z.ltb_spec (Z.of_nat n) 0); [lia|]. destruct (Z.ltb_spec (Z.of_nat n) (Z.max 1 (Z.of_nat n))); [lia|].
    destruct (Z.ltb_spec (Z.of_nat n) (if Ascii.eqb jl "V" then Z.max 1 (Z.of_nat n) else 1)); [destruct (Ascii.eqb jl "V"); lia|].
    destruct (Z.ltb_spec (Z.of_nat n) (if Ascii.eqb jr "V" then Z.max 1 (Z.of_nat n) else 1)); [destruct (Ascii.eqb jr "V"); lia|].
    cbn [Z.eqb Pos.eqb negb]. rewrite andb_false_r. reflexivity.
  Qed.
  Lemma geev_call jl jr n a w l r lw rw : jobz_ok jl -> jobz_ok jr -> 1 <= n -> List.length a = n * n -> n <= List.length w ->
    List.length l = n * n -> List.length r = n * n -> (Z.max 1 (2 * Z.of_nat n) <= lw)%Z -> (2 * Z.of_nat n <= rw)%Z ->
    geev_ T R L jl jr (Z.of_nat n) a (Z.of_nat n) w l (Z.of_nat n) r (Z.of_nat n) lw lw rw =
      (let '(a', e, x, y, info) := lp_geev L lw jl jr n (columns n n (fun i j => nth (i + j * n) a c0)) in
       Ok (store T a (Z.of_nat n) n n a', write w n e c0, (if Ascii.eqb jl "V" then store T l (Z.of_nat n) n n x else l),
           (if Ascii.eqb jr "V" then store T r (Z.of_nat n) n n y else r), lw, info)).
  Proof.
    intros J1 J2 Hn La Lw Ll Lr Hl Hr. unfold geev_. destruct (jobz_test jl J1) as [_ ->]. destruct (jobz_test jr J2) as [_ ->]. cbn [negb].
    destruct (Z.ltb_spec (Z.of_nat n) 0); [lia|]. destruct (Z.ltb_spec (Z.of_nat n) (Z.max 1 (Z.of_nat n))); [lia|].
    destruct (Z.ltb_spec (Z.of_nat n) (if Ascii.eqb jl "V" then Z.max 1 (Z.of_nat n) else 1)); [destruct (Ascii.eqb jl "V"); lia|].
    destruct (Z.ltb_spec (Z.of_nat n) (if Ascii.eqb jr "V" then Z.max 1 (Z.of_nat n) else 1)); [destruct (Ascii.eqb jr "V"); lia|].
    destruct (Z.ltb_spec lw (Z.max 1 (2 * Z.of_nat n))); [lia|]. cbn [andb]. destruct (Z.leb_spec 1 lw); [|lia]. destruct (Z.eqb_spec lw (-1)); [lia|].
    rewrite !fits_ok, has_ok by auto. assert (Hi : forall b : bool, (if b then true else true) = true) by (intros []; auto). rewrite !Hi.
    destruct (Z.leb_spec lw lw); [|lia]. destruct (Z.leb_spec (2 * Z.of_nat n) rw); [|lia].
    rewrite !Nat2Z.id. unfold block. rewrite Nat2Z.id. reflexivity.
  Qed.
  Lemma geev_ok ofR le (H : lapack_ok ofR le L) jl jr a w l r n : mat_wf a -> mat_wf l -> mat_wf r -> m_nrow a = n -> m_ncol a = n ->
    m_nrow l = n -> m_ncol l = n -> m_nrow r = n -> m_ncol r = n -> n <= List.length w -> 1 <= n -> (258 * Z.of_nat n <= INT_MAX)%Z ->
    (lp_geev_opt L jl jr (Z.of_nat n) < INT_MAX)%Z -> jobz_ok jl -> jobz_ok jr ->
    exists lwork, geev T R L jl jr a w l r =
      (let '(a', e, x, y, info) := lp_geev L lwork jl jr n (columns n n (melem a)) in
       if negb (info =? 0)%Z then Throw else
       Ok (mkmat n n (store T (m_data a) (Z.of_nat n) n n a'), write w n e c0,
           mkmat n n (if Ascii.eqb jl "V" then store T (m_data l) (Z.of_nat n) n n x else m_data l),
           mkmat n n (if Ascii.eqb jr "V" then store T (m_data r) (Z.of_nat n) n n y else m_data r))).
  Proof.
    intros Wa Wl Wr A1 A2 L1 L2 R1 R2 Hw Hn Hb Ho J1 J2. unfold INT_MAX in *. pose proof (ok_geev_opt _ _ _ _ _ H jl jr (Z.of_nat n) ltac:(lia)) as Q.
    set (opt := lp_geev_opt L jl jr (Z.of_nat n)) in *. exists (Z.max (1 + opt) (258 * Z.of_nat n)). unfold geev.
    unfold mat_wf in Wa, Wl, Wr. rewrite A1, A2 in Wa. rewrite L1, L2 in Wl. rewrite R1, R2 in Wr.
    rewrite A1, A2, L1, L2, R1, R2. rewrite as_int_id by (unfold INT_MAX; lia).
    rewrite (to_int_ok (2 * Z.of_nat n)) by (unfold INT_MAX; lia). cbn [bind]. rewrite (to_int_ok (2 * Z.of_nat n + 1)) by (unfold INT_MAX; lia). cbn [bind].
    destruct (Z.leb_spec 0 (2 * Z.of_nat n + 1)); [|lia].
    rewrite (mget_ok T a) by (unfold mat_wf; rewrite ?A1, ?A2; auto). cbn [bind].
    rewrite (vget_ok _ c0) by lia. cbn [bind].
    rewrite (mget_ok T l) by (unfold mat_wf; rewrite ?L1, ?L2; auto). cbn [bind].
    rewrite (mget_ok T r) by (unfold mat_wf; rewrite ?R1, ?R2; auto). cbn [bind].
    rewrite geev_query by auto. cbn [bind]. fold opt.
    rewrite to_int_ok by (unfold INT_MAX; lia). cbn [bind].
    rewrite (to_int_ok (1 + opt)) by (unfold INT_MAX; lia). cbn [bind].
    change ((256 + 2) * Z.of_nat n)%Z with (258 * Z.of_nat n)%Z.
    rewrite (to_int_ok (258 * Z.of_nat n)) by (unfold INT_MAX; lia). cbn [bind].
    rewrite geev_call by (auto; lia).
    assert (Et : (fun i j => nth (i + j * n) (m_data a) c0) = melem a) by (unfold melem; rewrite A1; reflexivity).
    rewrite Et. destruct (lp_geev L _ jl jr n (columns n n (melem a))) as [[[[a' e] x] y] info]. cbn [bind]. reflexivity.
  Qed.

  Lemma inverse_ok ofR le (H : lapack_ok ofR le L) m n : mat_wf m -> m_nrow m = n -> m_ncol m = n -> 1 <= n ->
    (Z.of_nat n <= INT_MAX)%Z -> (lp_getri_opt L (Z.of_nat n) + 2 <= INT_MAX)%Z ->
    exists lwork, inverse T R L m =
      (let '(lu, p, info1) := lp_getrf L n (columns n n (melem m)) in
       let '(g, info) := lp_getri L lwork n (columns n n lu) (map p (seq 0 n)) in
       if negb (info =? 0)%Z then Throw else
       Ok (mkmat n n (store T (store T (m_data m) (Z.of_nat n) n n lu) (Z.of_nat n) n n g))).
  Proof.
    intros W Hr Hc Hn Hb Ho. pose proof (ok_getri_opt _ _ _ _ _ H (Z.of_nat n) ltac:(lia)) as Q.
    set (opt := lp_getri_opt L (Z.of_nat n)) in *. exists opt. unfold inverse.
    assert (La : List.length (m_data m) = n * n) by (unfold mat_wf in W; rewrite W, Hr, Hc; reflexivity).
    rewrite Hr, Hc, as_int_id by auto. destruct (Z.leb_spec 0 (Z.of_nat n)); [|lia]. rewrite Nat2Z.id.
    rewrite mget_ok by (auto; lia). cbn [bind]. rewrite (vget_ok _ 0%Z) by (rewrite repeat_length; lia). cbn [bind].
    unfold getrf. destruct (Z.ltb_spec (Z.of_nat n) 0); [lia|]. destruct (Z.ltb_spec (Z.of_nat n) (Z.max 1 (Z.of_nat n))); [lia|].
    rewrite fits_ok by auto. rewrite has_ok by (rewrite repeat_length; lia). unfold block at 1. rewrite Nat2Z.id.
    assert (Et : (fun i j => nth (i + j * n) (m_data m) c0) = melem m) by (unfold melem; rewrite Hr; reflexivity).
    rewrite Et. destruct (lp_getrf L n (columns n n (melem m))) as [[lu p] info1]. cbn [bind].
    unfold getri. destruct (Z.ltb_spec (Z.of_nat n) 0); [lia|]. destruct (Z.ltb_spec (Z.of_nat n) (Z.max 1 (Z.of_nat n))); [lia|].
    cbn [Z.eqb Pos.eqb negb]. rewrite andb_false_r. cbn [Z.leb Z.compare Pos.compare Pos.compare_cont]. cbn [bind]. fold opt.
    unfold INT_MAX in *. rewrite to_int_ok by (unfold INT_MAX; lia). cbn [bind]. rewrite to_int_ok by (unfold INT_MAX; lia). cbn [bind].
    destruct (Z.ltb_spec 0 (opt + 2)); [|lia]. destruct (Z.ltb_spec opt (Z.max 1 (Z.of_nat n))); [lia|]. cbn [andb].
    destruct (Z.leb_spec 1 (opt + 2)); [|lia]. destruct (Z.eqb_spec opt (-1)); [lia|].
    rewrite fits_ok by (rewrite ?store_length; auto). rewrite has_ok by (rewrite write_length, repeat_length; lia).
    destruct (Z.leb_spec opt (opt + 2)); [|lia]. rewrite Nat2Z.id.
    rewrite firstn_write by (apply repeat_length).
    rewrite (columns_ext n n (block T (store T (m_data m) (Z.of_nat n) n n lu) (Z.of_nat n)) lu).
    2:{ intros i j Hi Hj. apply block_store; rewrite ?Nat2Z.id; auto. rewrite La. nia. }
    destruct (lp_getri L opt n (columns n n lu) (map p (seq 0 n))) as [g info]. cbn [bind]. reflexivity.
  Qed.

  (** Svd *)
  Definition dd_of (name : string) : option bool := if String.eqb name "gesdd" then Some true else if String.eqb name "gesvd" then Some false else None.
  Lemma mycall_dd name dd : dd_of name = Some dd -> mycall T R L name = gesxd T R L dd.
  Proof. unfold dd_of, mycall. destruct (String.eqb name "gesdd"); [intros H; injection H as <-; auto|]. destruct (String.eqb name "gesvd"); intros H; [injection H as <-; auto|discriminate]. Qed.

  Definition ucols (c : ascii) (m n : nat) : nat := if Ascii.eqb c "A" then m else Nat.min m n.
  Definition vrows (c : ascii) (m n : nat) : nat := if Ascii.eqb c "A" then n else Nat.min m n.
  Definition job_as (c : ascii) : Prop := c = "A"%char \/ c = "S"%char.

  Lemma gesxd_query dd c m n a s u vt rw iw : job_as c -> 1 <= m -> 1 <= n ->
    gesxd T R L dd c (Z.of_nat m) (Z.of_nat n) a (Z.of_nat m) s u (Z.of_nat m) vt (Z.of_nat (vrows c m n)) 100 (-1) rw iw =
      Ok (a, s, u, vt, lp_svd_opt L dd c (Z.of_nat m) (Z.of_nat n), 0%Z).
  Proof.
    intros J Hm Hn. unfold gesxd. assert (Jt : (Ascii.eqb c "A" || Ascii.eqb c "S")%bool = true) by (destruct J as [-> | ->]; auto). rewrite Jt.
    destruct (Z.ltb_spec (Z.of_nat m) 0); [lia|]. destruct (Z.ltb_spec (Z.of_nat n) 0); [lia|].
    destruct (Z.ltb_spec (Z.of_nat m) (Z.max 1 (Z.of_nat m))); [lia|].
    unfold vrows. destruct (Z.ltb_spec (Z.of_nat (if Ascii.eqb c "A" then n else Nat.min m n)) (Z.max 1 (if Ascii.eqb c "A" then Z.of_nat n else Z.min (Z.of_nat m) (Z.of_nat n)))); [destruct (Ascii.eqb c "A"); lia|].
    cbn [Z.eqb Pos.eqb negb]. rewrite andb_false_r. reflexivity.
  Qed.
  Lemma gesxd_call dd c m n a s u vt wk lw rw iw : job_as c -> 1 <= m -> 1 <= n -> List.length a = m * n -> List.length s = Nat.min m n ->
    List.length u = m * ucols c m n -> List.length vt = vrows c m n * n -> (svd_lwork T R L dd (Z.of_nat m) (Z.of_nat n) <= lw <= wk)%Z ->
    (svd_rwork T R L dd (Z.of_nat m) (Z.of_nat n) <= rw)%Z -> (8 * Z.of_nat (Nat.min m n) <= iw)%Z ->
    gesxd T R L dd c (Z.of_nat m) (Z.of_nat n) a (Z.of_nat m) s u (Z.of_nat m) vt (Z.of_nat (vrows c m n)) wk lw rw iw =
      (let '(a', e, x, y, info) := lp_svd L dd lw c m n (columns m n (fun i j => nth (i + j * m) a c0)) in
       Ok (store T a (Z.of_nat m) m n a', write s (Nat.min m n) e c0, store T u (Z.of_nat m) m (ucols c m n) x,
           store T vt (Z.of_nat (vrows c m n)) (vrows c m n) n y, lw, info)).
  Proof.
    intros J Hm Hn La Ls Lu Lv [Hl Hw] Hr Hi. assert (Hlw : (1 <= lw)%Z) by (eapply Z.le_trans; [apply Z.le_max_l|exact Hl]).
    unfold gesxd. assert (Jt : (Ascii.eqb c "A" || Ascii.eqb c "S")%bool = true) by (destruct J as [-> | ->]; auto). rewrite Jt.
    destruct (Z.ltb_spec (Z.of_nat m) 0); [lia|]. destruct (Z.ltb_spec (Z.of_nat n) 0); [lia|].
    destruct (Z.ltb_spec (Z.of_nat m) (Z.max 1 (Z.of_nat m))); [lia|].
    assert (Ev : (if Ascii.eqb c "A" then Z.of_nat n else Z.min (Z.of_nat m) (Z.of_nat n)) = Z.of_nat (vrows c m n)) by (unfold vrows; destruct (Ascii.eqb c "A"); lia).
    assert (Eu : (if Ascii.eqb c "A" then Z.of_nat m else Z.min (Z.of_nat m) (Z.of_nat n)) = Z.of_nat (ucols c m n)) by (unfold ucols; destruct (Ascii.eqb c "A"); lia).
    assert (Hv : 1 <= vrows c m n) by (unfold vrows; destruct (Ascii.eqb c "A"); lia).
    rewrite Ev, Eu. destruct (Z.ltb_spec (Z.of_nat (vrows c m n)) (Z.max 1 (Z.of_nat (vrows c m n)))); [lia|].
    destruct (Z.ltb_spec lw (svd_lwork T R L dd (Z.of_nat m) (Z.of_nat n))); [lia|]. cbn [andb].
    destruct (Z.leb_spec 1 wk); [|lia]. destruct (Z.eqb_spec lw (-1)); [lia|].
    rewrite <- Nat2Z.inj_min. rewrite (fits_ok a), (has_ok s), (fits_ok u), (fits_ok vt) by (auto; lia).
    destruct (Z.leb_spec lw wk); [|lia]. destruct (Z.leb_spec (svd_rwork T R L dd (Z.of_nat m) (Z.of_nat n)) rw); [|lia].
    assert (Hd : (if dd then 8 * Z.of_nat (Nat.min m n) <=? iw else true)%Z = true) by (destruct dd; auto; apply Z.leb_le; auto). rewrite Hd.
    rewrite !Nat2Z.id. unfold block. rewrite Nat2Z.id. fold (ucols c m n). fold (vrows c m n).
    destruct (lp_svd L dd lw c m n _) as [[[[a' e] x] y] info]. reflexivity.
  Qed.

  Definition svd_reals (m n : nat) : Z :=
    let k := Z.min (Z.of_nat m) (Z.of_nat n) in (2 * k * Z.max (5 * k + 7) (2 * Z.max (Z.of_nat m) (Z.of_nat n) + 2 * k + 1))%Z.
  Lemma svd_ok ofR le (H : lapack_ok ofR le L) name dd c a s vt m n : dd_of name = Some dd -> job_as c ->
    mat_wf a -> m_nrow a = m -> m_ncol a = n -> 1 <= m -> 1 <= n -> m_nrow vt = 0 \/ m_nrow vt = vrows c m n ->
    (svd_reals m n <= INT_MAX)%Z -> (lp_svd_opt L dd c (Z.of_nat m) (Z.of_nat n) + (Z.of_nat m + Z.of_nat n) * 256 + 10 <= INT_MAX)%Z ->
    exists lwork, svd T R L name c a s vt =
      (let '(a', e, x, y, info) := lp_svd L dd lwork c m n (columns m n (melem a)) in
       if (info <? 0)%Z then Throw else
       Ok (mkmat m (ucols c m n) (store T (repeat c0 (m * ucols c m n)) (Z.of_nat m) m (ucols c m n) x),
           write (vresize s (Nat.min m n) c0) (Nat.min m n) e c0,
           mkmat (vrows c m n) n (store T (vresize (m_data vt) (vrows c m n * n) c0) (Z.of_nat (vrows c m n)) (vrows c m n) n y))).
  Proof.
    intros Hd J W Hr Hc Hm Hn Hvt Hre Ho. pose proof (ok_svd_opt _ _ _ _ _ H dd c (Z.of_nat m) (Z.of_nat n) ltac:(lia) ltac:(lia)) as Q.
    set (opt := lp_svd_opt L dd c (Z.of_nat m) (Z.of_nat n)) in *. unfold INT_MAX, svd_reals in *.
    assert (Q1 : (1 <= opt)%Z) by (eapply Z.le_trans; [apply Z.le_max_l|exact Q]).
    exists (opt + (Z.of_nat m + Z.of_nat n) * 256)%Z. unfold svd. rewrite Hr, Hc.
    assert (La : List.length (m_data a) = m * n) by (unfold mat_wf in W; rewrite W, Hr, Hc; reflexivity).
    assert (Jt : (negb (Ascii.eqb c "A") && negb (Ascii.eqb c "S"))%bool = false) by (destruct J as [-> | ->]; auto). rewrite Jt.
    rewrite !as_int_id by (unfold INT_MAX; lia).
    assert (Em : (if Z.of_nat m <? Z.of_nat n then Z.of_nat m else Z.of_nat n)%Z = Z.of_nat (Nat.min m n)) by (destruct (Z.ltb_spec (Z.of_nat m) (Z.of_nat n)); lia).
    rewrite Em. destruct (Z.leb_spec 0 (Z.of_nat (Nat.min m n))); [|lia].
    assert (Ev : (if Ascii.eqb c "A" then Z.of_nat n else Z.of_nat (Nat.min m n)) = Z.of_nat (vrows c m n)) by (unfold vrows; destruct (Ascii.eqb c "A"); lia).
    assert (Eu : (if Ascii.eqb c "A" then Z.of_nat m else Z.of_nat (Nat.min m n)) = Z.of_nat (ucols c m n)) by (unfold ucols; destruct (Ascii.eqb c "A"); lia).
    assert (Hv : 1 <= vrows c m n) by (unfold vrows; destruct (Ascii.eqb c "A"); lia).
    assert (Hu : 1 <= ucols c m n) by (unfold ucols; destruct (Ascii.eqb c "A"); lia).
    rewrite Ev, Eu, !Nat2Z.id. unfold mat_resize.
    assert (Hg : ((0 <? m_nrow vt) && negb (m_nrow vt =? vrows c m n))%bool = false).
    { destruct Hvt as [-> | ->]; auto. rewrite Nat.eqb_refl. apply andb_false_r. }
    rewrite Hg. cbn [bind]. set (k := Nat.min m n) in *.
    assert (B : (2 * Z.of_nat k * Z.max (5 * Z.of_nat k + 7) (2 * Z.max (Z.of_nat m) (Z.of_nat n) + 2 * Z.of_nat k + 1) <= 2147483647)%Z).
    { rewrite <- Nat2Z.inj_min in Hre. exact Hre. }
    assert (Hk : 1 <= k) by (unfold k; lia).
    set (X := Z.max (5 * Z.of_nat k + 7) (2 * Z.max (Z.of_nat m) (Z.of_nat n) + 2 * Z.of_nat k + 1)) in *.
    assert (X1 : (12 <= X)%Z) by (unfold X; lia). assert (X2 : (5 * Z.of_nat k + 7 <= X)%Z) by (unfold X; lia).
    assert (X3 : (2 * Z.max (Z.of_nat m) (Z.of_nat n) + 2 * Z.of_nat k + 1 <= X)%Z) by (unfold X; lia).
    assert (X4 : (1 * X <= Z.of_nat k * X)%Z) by (apply Z.mul_le_mono_nonneg_r; lia).
    assert (X5 : (Z.of_nat k * 12 <= Z.of_nat k * X)%Z) by (apply Z.mul_le_mono_nonneg_l; lia).
    assert (X6 : (2 * Z.of_nat k * X = 2 * (Z.of_nat k * X))%Z) by ring.
    assert (B2 : (X <= 2147483647)%Z) by (clear -B X1 X4 X6; lia).
    rewrite (to_int_ok (5 * Z.of_nat k)) by (unfold INT_MAX; lia). cbn [bind].
    rewrite (to_int_ok (5 * Z.of_nat k + 7)) by (unfold INT_MAX; lia). cbn [bind].
    rewrite (to_int_ok (2 * Z.max (Z.of_nat m) (Z.of_nat n))) by (unfold INT_MAX; lia). cbn [bind].
    rewrite (to_int_ok (2 * Z.of_nat k)) by (unfold INT_MAX; lia). cbn [bind].
    rewrite (to_int_ok (2 * Z.max (Z.of_nat m) (Z.of_nat n) + 2 * Z.of_nat k)) by (unfold INT_MAX; lia). cbn [bind].
    rewrite (to_int_ok (2 * Z.max (Z.of_nat m) (Z.of_nat n) + 2 * Z.of_nat k + 1)) by (unfold INT_MAX; lia). cbn [bind].
    fold X. set (rw := (2 * Z.of_nat k * X)%Z) in *.
    assert (Rw : (10 * Z.of_nat k <= rw)%Z) by (clear -X5 X6; lia).
    rewrite (to_int_ok rw) by (unfold INT_MAX; lia). cbn [bind].
    rewrite (to_int_ok (8 * Z.of_nat k)) by (unfold INT_MAX; lia). cbn [bind].
    rewrite (mget_ok T a) by (auto; lia). cbn [bind]. rewrite (vget_ok _ c0) by (rewrite vresize_length; lia). cbn [bind].
    rewrite (mget_ok T (mat_new T m (ucols c m n))) by (try (apply mat_new_is); cbn; lia). cbn [bind].
    rewrite (mget_ok T (mkmat (vrows c m n) n _)) by (try (unfold mat_wf; cbn; apply vresize_length); cbn; lia). cbn [bind m_data m_nrow m_ncol mat_new].
    rewrite (mycall_dd name dd Hd). rewrite gesxd_query by auto. cbn [bind]. cbn [Z.eqb negb]. fold opt.
    rewrite (to_int_ok opt) by (unfold INT_MAX; lia). cbn [bind].
    rewrite (to_int_ok (Z.of_nat m + Z.of_nat n)) by (unfold INT_MAX; lia). cbn [bind].
    rewrite (to_int_ok ((Z.of_nat m + Z.of_nat n) * 256)) by (unfold INT_MAX; lia). cbn [bind].
    rewrite (to_int_ok (opt + (Z.of_nat m + Z.of_nat n) * 256)) by (unfold INT_MAX; lia). cbn [bind].
    rewrite (to_int_ok (opt + (Z.of_nat m + Z.of_nat n) * 256 + 10)) by (unfold INT_MAX; lia). cbn [bind].
    destruct (Z.leb_spec 0 (opt + (Z.of_nat m + Z.of_nat n) * 256 + 10)); [|lia].
    rewrite gesxd_call; [|auto|auto|auto|auto|apply vresize_length|apply repeat_length|apply vresize_length|lia| |fold k; lia].
    2:{ unfold svd_rwork. rewrite <- Nat2Z.inj_min. fold k. fold X. rewrite X6. clear -X1 X4 X5. destruct (lp_complex L); [|lia]. destruct dd; lia. }
    assert (Et : (fun i j => nth (i + j * m) (m_data a) c0) = melem a) by (unfold melem; rewrite Hr; reflexivity).
    rewrite Et. destruct (lp_svd L dd _ c m n (columns m n (melem a))) as [[[[a' e] x] y] info]. cbn [bind]. reflexivity.
  Qed.
End P.
