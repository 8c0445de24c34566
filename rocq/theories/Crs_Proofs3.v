(** Kronecker products, block embedding, in-place changes, predicates,
    validity check, triplets. *)
From Verif Require Import Prelude Ring Vec_Model Vec_Spec Vec_Proofs Dense_Model Dense_Spec Dense_Proofs.
From Verif Require Import Crs_Model Crs_Spec Crs_Base Crs_Proofs Crs_Proofs2.

Lemma flat_map_ext_in {A B} (f g : A -> list B) l :
  (forall a, In a l -> f a = g a) -> flat_map f l = flat_map g l.
Proof.
  induction l as [|a l IH]; intros H; simpl; [reflexivity|].
  rewrite H by (left; reflexivity). rewrite IH; [reflexivity|]. intros; apply H; right; assumption.
Qed.

Lemma nodup_app {A} (u v : list A) :
  NoDup u -> NoDup v -> (forall x, In x u -> In x v -> False) -> NoDup (u ++ v).
Proof.
  induction u as [|a u IH]; intros Hu Hv H; simpl; [exact Hv|].
  inversion Hu as [|? ? Ha Hu']; subst. constructor.
  - intros X. apply in_app_or in X. destruct X as [X|X]; [contradiction|].
    apply (H a); [left; reflexivity|exact X].
  - apply IH; auto. intros x Hx Hx'. apply (H x); [right; exact Hx|exact Hx'].
Qed.

(** Facts on permutations given as lists. *)
Section Perm.
  Variables (p : list nat) (n : nat).
  Hypothesis Hp : is_perm p n.

  Lemma perm_length : length p = n.
  Proof. apply Permutation_length in Hp. rewrite seq_length in Hp. auto. Qed.

  Lemma perm_lt i : i < n -> nth i p 0 < n.
  Proof.
    intros H. assert (Hin : In (nth i p 0) p) by (apply nth_In; rewrite perm_length; exact H).
    apply (Permutation_in _ (Permutation_sym Hp)) in Hin. apply in_seq in Hin. lia.
  Qed.

  Lemma perm_inj i j : i < n -> j < n -> nth i p 0 = nth j p 0 -> i = j.
  Proof.
    intros Hi Hj. apply NoDup_nth.
    - apply (Permutation_NoDup Hp), seq_NoDup.
    - rewrite perm_length. exact Hi.
    - rewrite perm_length. exact Hj.
  Qed.

  Lemma perm_surj k : k < n -> exists i, i < n /\ nth i p 0 = k.
  Proof.
    intros H. assert (Hin : In k p) by (apply (Permutation_in _ Hp), in_seq; lia).
    apply (In_nth _ _ 0) in Hin. destruct Hin as [i [Hi E]]. rewrite perm_length in Hi. eauto.
  Qed.
End Perm.

Section Proofs3.
  Variable R : cring.
  Local Open Scope cring_scope.
  Add Ring Rring3 : (c_ring R).
  Local Open Scope nat_scope.
  Implicit Types (m A B C : crs R) (rows : list (list (nat * R))) (row : list (nat * R)).

  (** ---------------------------------------------------------------- *)
  (** Product with an identity. *)
  (** Place in the product space of state [a] of A and state [e] outside. *)
  Definition kidx (order : bool) (na nout a e : nat) : nat := if order then a + e * na else e + a * nout.

  Lemma kidx_lt order na nout a e : a < na -> e < nout -> kidx order na nout a e < nout * na.
  Proof.
    intros Ha He. unfold kidx. destruct order.
    - rewrite (Nat.mul_comm nout). apply idx_lt; assumption.
    - apply idx_lt; assumption.
  Qed.

  Lemma kidx_inj order na nout a e a' e' :
    a < na -> e < nout -> a' < na -> e' < nout ->
    kidx order na nout a e = kidx order na nout a' e' -> a = a' /\ e = e'.
  Proof.
    intros Ha He Ha' He' H. unfold kidx in H. destruct order.
    - apply idx_inj in H; assumption.
    - apply idx_inj in H; try assumption. tauto.
  Qed.

  Lemma kidx_surj order na nout k : k < nout * na ->
    exists a e, a < na /\ e < nout /\ k = kidx order na nout a e.
  Proof.
    intros H. unfold kidx. destruct order.
    - rewrite Nat.mul_comm in H. destruct (idx_surj _ _ _ H) as [a [e [Ha [He E]]]]. eauto.
    - destruct (idx_surj _ _ _ H) as [e [a [He [Ha E]]]]. exists a, e. auto.
  Qed.

  Section Ext1.
    Variables (A : crs R) (nout : nat) (signs : list R) (order : bool) (p : list nat).
    Hypothesis W : crs_wf A.
    Hypothesis Hsq : c_nrow A = c_ncol A.
    Hypothesis Hp : is_perm p (nout * c_nrow A).
    Hypothesis Hs : order = false -> c_nrow A = 0 \/ nout <= length signs.
    Let na := c_nrow A.
    Let nf := nout * na.

    Definition kp (a e : nat) : nat := nth (kidx order na nout a e) p 0.

    Definition ksign (e : nat) : R := if order then c1 else nth e signs c0.

    Lemma kp_lt a e : a < na -> e < nout -> kp a e < nf.
    Proof. intros. apply perm_lt; [exact Hp|]. apply kidx_lt; assumption. Qed.

    Lemma kp_inj a e a' e' : a < na -> e < nout -> a' < na -> e' < nout ->
      kp a e = kp a' e' -> a = a' /\ e = e'.
    Proof.
      intros Ha He Ha' He' H. apply (perm_inj _ _ Hp) in H; try (apply kidx_lt; assumption).
      apply kidx_inj in H; assumption.
    Qed.

    Lemma kp_surj r : r < nf -> exists a e, a < na /\ e < nout /\ r = kp a e.
    Proof.
      intros H. destruct (perm_surj _ _ Hp r H) as [k [Hk <-]].
      destruct (kidx_surj order na nout k Hk) as [a [e [Ha [He ->]]]]. exists a, e. auto.
    Qed.

    Definition kitem (ia : nat) (e : nat * R) (ie : nat) : nat * (nat * R) :=
      (kp ia ie, (kp (fst e) ie, (snd e * ksign ie)%C)).

    Definition kitems : list (nat * (nat * R)) :=
      flat_map (fun ia => flat_map (fun e => map (kitem ia e) (seq 0 nout)) (crs_row A ia)) (seq 0 na).

    Lemma row_in a e : a < na -> In e (crs_row A a) -> fst e < na.
    Proof. intros Ha He. unfold na. rewrite Hsq. apply (crs_row_col R A a); assumption. Qed.

    Lemma kitems_bucket a e : a < na -> e < nout ->
      bucket kitems (kp a e) = map (fun x => (kp (fst x) e, (snd x * ksign e)%C)) (crs_row A a).
    Proof.
      intros Ha He. unfold kitems. rewrite bucket_flat_map.
      rewrite (flat_map_single _ _ a (seq_NoDup na 0)).
      - rewrite bucket_flat_map. rewrite <- flat_map_singleton. apply flat_map_ext_in.
        intros x Hx. rewrite <- flat_map_singleton, bucket_flat_map.
        rewrite (flat_map_single _ _ e (seq_NoDup nout 0)).
        + unfold bucket, kitem. simpl. rewrite Nat.eqb_refl. reflexivity.
        + apply in_seq. lia.
        + intros b Hb Hne. apply in_seq in Hb. unfold bucket, kitem. simpl.
          destruct (Nat.eqb_spec (kp a b) (kp a e)) as [E|]; [|reflexivity].
          apply kp_inj in E; try assumption; try lia. 
      - apply in_seq. lia.
      - intros b Hb Hne. apply in_seq in Hb. rewrite bucket_flat_map.
        rewrite (flat_map_ext_in _ (fun _ => [])).
        + induction (crs_row A b); simpl; auto.
        + intros x Hx. unfold bucket. 
          assert (E : filter (fun e0 => fst e0 =? kp a e) (map (kitem b x) (seq 0 nout)) = []).
          { assert (G : forall l, (forall y, In y l -> y < nout) ->
              filter (fun e0 => fst e0 =? kp a e) (map (kitem b x) l) = []).
            { induction l as [|y l IH]; intros Hl; [reflexivity|]. simpl.
              destruct (Nat.eqb_spec (kp b y) (kp a e)) as [E|].
              - apply kp_inj in E; try assumption; try lia. apply Hl. left. reflexivity.
              - apply IH. intros; apply Hl; right; assumption. }
            apply G. intros y Hy. apply in_seq in Hy. lia. }
          rewrite E. reflexivity.
    Qed.

    Lemma kitems_lt : Forall (fun e => fst e < nf) kitems.
    Proof.
      apply Forall_forall. intros x Hx. unfold kitems in Hx. apply in_flat_map in Hx.
      destruct Hx as [ia [Hia Hx]]. apply in_flat_map in Hx. destruct Hx as [e [He Hx]].
      apply in_map_iff in Hx. destruct Hx as [ie [<- Hie]]. apply in_seq in Hia, Hie.
      simpl. apply kp_lt; lia.
    Qed.

    Lemma kitems_length : length kitems = nout * length (c_colind A).
    Proof.
      rewrite <- (rows_total R A W). fold na. unfold kitems.
      generalize (seq 0 na). induction l as [|i l IH]; [simpl; lia|].
      cbn [flat_map map concat]. rewrite !app_length, IH.
      rewrite (flat_map_length_const _ _ nout) by (intros; rewrite map_length, seq_length; reflexivity). lia.
    Qed.

    Lemma ext1_counts : exists cnt,
      forM na 0 (fun ia cnt =>
        do b <- getRowPtr R A (ia + 1) ;; do a <- getRowPtr R A ia ;;
        forM nout 0 (fun ie cnt =>
          do ib <- (if order then vget p (ia + ie * na) else vget p (ie + ia * nout)) ;;
          vset cnt ib (b - a)) cnt) (repeat 0 nf) = Ok cnt /\
      length cnt = nf /\
      forall r, r < nf -> nth r cnt 0 = length (bucket kitems r).
    Proof.
      assert (Lp : length p = nf) by (apply perm_length; exact Hp).
      loopM (fun i (cnt : list nat) => length cnt = nf /\
               forall a e, a < i -> e < nout -> nth (kp a e) cnt 0 = length (crs_row A a)) as cnt E H.
      - rewrite repeat_length. split; [reflexivity|]. intros; lia.
      - intros i cnt [_ Hi] [L H]. simpl in Hi. rewrite wf_rp_S, wf_rp by assumption. cbn [bind].
        rewrite <- crs_row_length.
        loopM (fun j (u : list nat) => length u = nf /\
                 (forall a e, a < i -> e < nout -> nth (kp a e) u 0 = length (crs_row A a)) /\
                 (forall e, e < j -> nth (kp i e) u 0 = length (crs_row A i))) as u E2 H2.
        + split; [exact L|]. split; [exact H|]. intros; lia.
        + intros j u [_ Hj] [Lu [H1 H2]]. simpl in Hj.
          replace (if order then vget p (i + j * na) else vget p (j + i * nout)) with (Ok (kp i j)).
          * cbn [bind]. assert (Hk := kp_lt i j Hi Hj). rewrite vset_ok by lia.
            eexists. split; [reflexivity|]. rewrite upd_length. split; [exact Lu|]. split.
            -- intros a e Ha He. rewrite nth_upd_neq; [apply H1; assumption|].
               intros X. apply kp_inj in X; try assumption; lia.
            -- intros e He. destruct (Nat.eq_dec e j) as [->|Hne].
               ++ apply nth_upd_eq. lia.
               ++ rewrite nth_upd_neq; [apply H2; lia|]. intros X. apply kp_inj in X; try assumption; lia.
          * pose proof (kidx_lt order na nout i j Hi Hj) as Hk.
            unfold kp, kidx in *. destruct order; rewrite (vget_ok p 0) by (unfold nf in Lp; lia); reflexivity.
        + rewrite E2. exists u. split; [reflexivity|]. destruct H2 as [H2 [H3 H4]]. simpl in H4.
          split; [exact H2|]. intros a e Ha He. destruct (Nat.eq_dec a i) as [->|Hne].
          * apply H4. exact He.
          * apply H3; [lia|exact He].
      - exists cnt. split; [exact E|]. destruct H as [L H]. split; [exact L|]. intros r Hr.
        destruct (kp_surj r Hr) as [a [e [Ha [He ->]]]].
        rewrite kitems_bucket by assumption. rewrite map_length. apply H; assumption.
    Qed.

    Lemma externalProduct1_rows B :
      externalProduct1 R B A nout signs order p = Ok (of_rows nf (buckets kitems nf)).
    Proof.
      assert (Lp : length p = nf) by (apply perm_length; exact Hp).
      unfold externalProduct1. rewrite crs_nonZeros_ok by exact W. cbn [bind].
      replace (c_nrow A =? c_ncol A) with true by (symmetry; apply Nat.eqb_eq; exact Hsq). cbn [negb].
      fold na. rewrite Lp. replace (na * nout <=? nf) with true
        by (symmetry; apply Nat.leb_le; unfold nf; lia).
      destruct ext1_counts as [cnt [E1 [Lc Hc]]]. fold nf. rewrite E1. cbn [bind].
      set (rows := buckets kitems nf).
      assert (Tot : length (concat rows) = nout * length (c_colind A)).
      { unfold rows. rewrite buckets_total by exact kitems_lt. apply kitems_length. }
      rewrite <- Hsq. fold na. fold nf.
      set (B0 := crs_resize3 R B nf nf (nout * length (c_colind A))).
      assert (Lr : length rows = nf) by apply buckets_length.
      match goal with |- bind ?X _ = _ => assert (E2 : exists v, X =
         Ok (mkcrs v (c_colind B0) (c_values B0) nf nf, map (off rows) (seq 0 nf), length (concat rows)) /\
         length v = S nf /\ (forall k, k < nf -> nth k v 0 = off rows k)) end.
      { loopM (fun i (st : crs R * list nat * nat) => let '(B', ptr, ip) := st in
                 (exists v, B' = mkcrs v (c_colind B0) (c_values B0) nf nf /\
                   length v = S nf /\ (forall k, k < i -> nth k v 0 = off rows k)) /\
                 length ptr = nf /\ (forall k, k < i -> nth k ptr 0 = off rows k) /\
                 ip = off rows i) as [[B' ptr'] ip'] E2 H2.
        - split; [|rewrite repeat_length; split; [reflexivity|split; [intros; lia|reflexivity]]].
          exists (c_rowptr B0). split; [destruct B; reflexivity|]. split; [|intros; lia].
          unfold B0, crs_resize3. cbn [c_rowptr]. rewrite vresize_length. lia.
        - intros i [[B1 ptr1] ip1] [_ Hi] [[v [-> [Lv Hv]]] [L1 [H1 ->]]]. simpl in Hi.
          rewrite vset_ok by lia. cbn [bind]. unfold setRow.
          cbn [c_rowptr c_colind c_values c_nrow c_ncol]. rewrite vset_ok by lia. cbn [bind].
          rewrite (vget_ok cnt 0) by lia. cbn [bind]. eexists. split; [reflexivity|]. cbv beta iota.
          assert (G : forall (u : list nat) N, length u = N -> i < N -> (forall k, k < i -> nth k u 0 = off rows k) ->
                    forall k, k < S i -> nth k (upd u i (off rows i)) 0 = off rows k).
          { intros u N Lu HN Hu k Hk. destruct (Nat.eq_dec k i) as [->|Hne].
            - apply nth_upd_eq. lia.
            - rewrite nth_upd_neq by exact Hne. apply Hu. lia. }
          split; [|split; [rewrite upd_length; exact L1|split]].
          + eexists. split; [reflexivity|]. rewrite upd_length. split; [exact Lv|].
            apply (G _ (S nf)); auto.
          + apply (G _ nf); auto.
          + rewrite off_S by lia. rewrite Hc by exact Hi. unfold rows at 3. rewrite buckets_nth by exact Hi.
            reflexivity.
        - destruct H2 as [[v [-> [Lv Hv]]] [L1 [H1 ->]]]. simpl in *. exists v. rewrite E2.
          split; [|split; [exact Lv|exact Hv]]. f_equal. f_equal; [f_equal|].
          + apply (list_eq_nth _ _ 0); [rewrite map_length, seq_length; exact L1|].
            intros k Hk. rewrite nth_map_seq by lia. apply H1. lia.
          + apply off_all. lia. }
      destruct E2 as [v [E2 [Lv Hv]]]. rewrite E2. cbn [bind]. rewrite Tot, Nat.eqb_refl.
      unfold setRow at 1. cbn [c_rowptr c_colind c_values c_nrow c_ncol].
      rewrite vset_ok by lia. cbn [bind].
      set (v' := upd v nf (nout * length (c_colind A))).
      assert (Hv' : v' = map (off rows) (seq 0 (S nf))).
      { apply (list_eq_nth _ _ 0).
        - unfold v'. rewrite upd_length, map_length, seq_length. exact Lv.
        - intros k Hk. unfold v' in *. rewrite upd_length in Hk. rewrite nth_map_seq by lia.
          destruct (Nat.eq_dec k nf) as [->|Hne].
          + rewrite nth_upd_eq by lia. rewrite off_all by lia. symmetry; exact Tot.
          + rewrite nth_upd_neq by exact Hne. apply Hv. lia. }
      destruct (place_all R kitems nf (mkcrs v' (c_colind B0) (c_values B0) nf nf)
                 (map (off rows) (seq 0 nf)) nf) as [ptr' E4].
      { exact kitems_lt. }
      { reflexivity. }
      { reflexivity. }
      { unfold B0, crs_resize3. cbn [c_colind]. rewrite vresize_length. symmetry. apply kitems_length. }
      { unfold B0, crs_resize3. cbn [c_values]. rewrite vresize_length. symmetry. apply kitems_length. }
      { exact Hv'. }
      { rewrite map_length, seq_length. reflexivity. }
      { intros r Hr. apply nth_map_seq. exact Hr. }
      match goal with |- bind ?X _ = _ => assert (E5 : X =
        forL kitems place (mkcrs v' (c_colind B0) (c_values B0) nf nf, map (off rows) (seq 0 nf))) end.
      { rewrite forM_forL. unfold kitems. rewrite forL_flat_map. apply forL_ext_in.
        intros ia [B1 p1] Hia. apply in_seq in Hia. rewrite forL_flat_map.
        rewrite (for_row_forL R A ia _ (fun e st => forL (map (kitem ia e) (seq 0 nout)) place st));
          [reflexivity|exact W|unfold na in Hia; lia|].
        intros k [B2 p2] _ Hk. rewrite wf_getCol, wf_getValue by assumption. cbn [bind].
        rewrite forL_map, forM_forL. apply forL_ext_in. intros ie [B3 p3] Hie. apply in_seq in Hie.
        assert (Hcol : nth k (c_colind A) 0 < na).
        { unfold na. rewrite Hsq. apply wf_col; assumption. }
        replace (if order then Ok (nth k (c_values A) c0)
                 else do s <- vget signs ie ;; Ok (nth k (c_values A) c0 * s)%C)
          with (Ok (nth k (c_values A) c0 * ksign ie)%C).
        - cbn [bind].
          assert (Hk1 := kidx_lt order na nout ia ie ltac:(lia) ltac:(lia)).
          assert (Hk2 := kidx_lt order na nout (nth k (c_colind A) 0) ie Hcol ltac:(lia)).
          change (if order then ia + ie * na else ie + ia * nout) with (kidx order na nout ia ie).
          change (if order then nth k (c_colind A) 0 + ie * na else ie + nth k (c_colind A) 0 * nout)
            with (kidx order na nout (nth k (c_colind A) 0) ie).
          fold nf in Hk1, Hk2. rewrite (vget_ok p 0) by lia. cbn [bind].
          unfold place, kitem. cbn [fst snd]. fold (kp ia ie).
          destruct (vget p3 (kp ia ie)) as [ip| | |]; cbn [bind]; [|reflexivity..].
          rewrite (vget_ok p 0) by lia. reflexivity.
        - unfold ksign. destruct order eqn:Eo.
          + f_equal. ring.
          + destruct (Hs eq_refl) as [X|X]; [unfold na in *; lia|]. rewrite (vget_ok signs c0) by lia. reflexivity. }
      rewrite E5, E4. reflexivity.
    Qed.

    Lemma kitems_elem a1 e1 a2 e2 : a1 < na -> e1 < nout -> a2 < na -> e2 < nout ->
      row_elem (bucket kitems (kp a1 e1)) (kp a2 e2) =
      if e1 =? e2 then (crs_elem A a1 a2 * ksign e1)%C else c0.
    Proof.
      intros H1 H2 H3 H4. rewrite kitems_bucket by assumption. unfold row_elem. rewrite suml_map.
      cbn [fst snd]. unfold crs_elem, row_elem.
      rewrite (suml_ext_in R _ (fun e => if e1 =? e2 then ((if fst e =? a2 then snd e else c0) * ksign e1)%C else c0)).
      - destruct (e1 =? e2); [apply suml_mul_r|apply suml_zero_in; reflexivity].
      - intros [c x] Hin. assert (Hc := row_in a1 _ H1 Hin). simpl in *.
        destruct (Nat.eqb_spec (kp c e1) (kp a2 e2)) as [E|E].
        + apply kp_inj in E; try assumption. destruct E as [-> ->]. rewrite !Nat.eqb_refl. reflexivity.
        + destruct (Nat.eqb_spec e1 e2) as [->|]; [|reflexivity].
          destruct (Nat.eqb_spec c a2) as [->|]; [congruence|ring].
    Qed.

    Lemma kitems_rows_ok r : r < nf ->
      Forall (fun e => fst e < nf) (bucket kitems r) /\
      (crs_nodup A -> NoDup (map fst (bucket kitems r))).
    Proof.
      intros Hr. destruct (kp_surj r Hr) as [a [e [Ha [He ->]]]]. rewrite kitems_bucket by assumption. split.
      - apply Forall_map, Forall_forall. intros x Hx. simpl. apply kp_lt; [|exact He].
        apply (row_in a); assumption.
      - intros N. rewrite map_map. cbn [fst].
        assert (Hn := N a Ha). assert (Hlt : forall x, In x (crs_row A a) -> fst x < na)
          by (intros x Hx; apply (row_in a); assumption).
        induction (crs_row A a) as [|x l IH]; simpl in *; [constructor|].
        inversion Hn as [|? ? Hx Hn']; subst. constructor.
        + intros Hin. apply in_map_iff in Hin. destruct Hin as [y [E Hy]]. apply Hx.
          apply kp_inj in E; auto. destruct E as [<- _]. apply in_map. exact Hy.
        + apply IH; [exact Hn'|]. intros y Hy. apply Hlt. right. exact Hy.
    Qed.

    Lemma externalProduct1_ok B :
      exists B', externalProduct1 R B A nout signs order p = Ok B' /\
        c_nrow B' = nf /\ c_ncol B' = nf /\ length (c_rowptr B') = S nf /\ crs_wf B' /\
        (forall a1 e1 a2 e2, a1 < na -> e1 < nout -> a2 < na -> e2 < nout ->
           crs_elem B' (kp a1 e1) (kp a2 e2) =
           if e1 =? e2 then (crs_elem A a1 a2 * ksign e1)%C else c0) /\
        (crs_nodup A -> crs_nodup B').
    Proof.
      eexists. split; [apply externalProduct1_rows|].
      assert (Lr : length (buckets kitems nf) = nf) by apply buckets_length.
      split; [exact Lr|]. split; [reflexivity|].
      split; [unfold of_rows; cbn [c_rowptr]; rewrite map_length, seq_length, Lr; reflexivity|].
      assert (HF : Forall (Forall (fun e => fst e < nf)) (buckets kitems nf)).
      { apply Forall_forall. intros r Hr. unfold buckets in Hr. apply in_map_iff in Hr.
        destruct Hr as [k [<- Hk]]. apply in_seq in Hk. apply kitems_rows_ok. lia. }
      split; [apply of_rows_wf; exact HF|]. split.
      - intros a1 e1 a2 e2 H1 H2 H3 H4. unfold crs_elem at 1.
        rewrite of_rows_row by (rewrite Lr; apply kp_lt; assumption).
        rewrite buckets_nth by (apply kp_lt; assumption). apply kitems_elem; assumption.
      - intros N. apply of_rows_nodup. rewrite Lr. intros i Hi. rewrite buckets_nth by exact Hi.
        apply kitems_rows_ok; assumption.
    Qed.
  End Ext1.

  (** ---------------------------------------------------------------- *)
  (** Product of two matrices. *)
  Definition ext2_row (X Y : crs R) (signs : list R) (p : list nat) (k r q : nat) : list (nat * R) :=
    flat_map (fun e1 => map (fun e2 => (nth (fst e1 + fst e2 * k) p 0,
                                        (snd e1 * snd e2 * nth r signs c0)%C)) (crs_row Y q)) (crs_row X r).

  Lemma inv_perm_ok p n : is_perm p n ->
    exists q, forM n 0 (fun i perm => do x <- vget p i ;; vset perm x i) (repeat 0 n) = Ok q /\
      length q = n /\ forall i, i < n -> nth (nth i p 0) q 0 = i.
  Proof.
    intros Hp. assert (Lp := perm_length _ _ Hp).
    loopM (fun i (q : list nat) => length q = n /\ forall k, k < i -> nth (nth k p 0) q 0 = k) as q E H.
    - rewrite repeat_length. split; [reflexivity|]. intros; lia.
    - intros i q [_ Hi] [L H]. simpl in Hi. rewrite (vget_ok p 0) by lia. cbn [bind].
      assert (Hlt := perm_lt _ _ Hp i Hi). rewrite vset_ok by lia. eexists. split; [reflexivity|].
      rewrite upd_length. split; [exact L|]. intros k Hk. destruct (Nat.eq_dec k i) as [->|Hne].
      + apply nth_upd_eq. lia.
      + rewrite nth_upd_neq; [apply H; lia|]. intros X. apply (perm_inj _ _ Hp) in X; lia.
    - exists q. split; [exact E|exact H].
  Qed.

  (** X is the matrix of the fast index (of size k), Y the other one. *)
  Lemma ext2_core X Y signs p C0 perm :
    crs_wf X -> crs_wf Y -> c_nrow X = c_ncol X -> c_nrow Y = c_ncol Y ->
    is_perm p (c_nrow X * c_nrow Y) -> length signs = c_nrow X ->
    length perm = c_nrow X * c_nrow Y ->
    (forall i, i < c_nrow X * c_nrow Y -> nth (nth i p 0) perm 0 = i) ->
    let k := c_nrow X in let nf := c_nrow X * c_nrow Y in
    exists C',
      (do (C, counter) <- forM nf 0 (fun i '(C, counter) =>
        do C <- setRow R C i counter ;;
        do ind <- vget perm i ;;
        guard (0 <? k) ;;
        for_row R X (ind mod k) (fun k1 '(C, counter) =>
          do col1 <- getCol R X k1 ;;
          for_row R Y (ind / k) (fun k2 '(C, counter) =>
            do col2 <- getCol R Y k2 ;;
            do j <- vget p (col1 + col2 * k) ;;
            do v1 <- getValue R X k1 ;;
            do v2 <- getValue R Y k2 ;;
            do s <- vget signs (ind mod k) ;;
            Ok (pushValue R (pushCol R C j) (v1 * v2 * s)%C, S counter)) (C, counter)) (C, counter))
        (crs_resize2 R C0 nf nf, 0) ;;
      setRow R C nf counter) = Ok C' /\
      c_nrow C' = nf /\ c_ncol C' = nf /\ length (c_rowptr C') = S nf /\ crs_wf C' /\
      (forall r1 q1 r2 q2, r1 < k -> q1 < c_nrow Y -> r2 < k -> q2 < c_nrow Y ->
         crs_elem C' (nth (r1 + q1 * k) p 0) (nth (r2 + q2 * k) p 0) =
         (crs_elem X r1 r2 * crs_elem Y q1 q2 * nth r1 signs c0)%C) /\
      (crs_nodup X -> crs_nodup Y -> crs_nodup C').
  Proof.
    intros WX WY HX HY Hp Ls Lq Hq k nf.
    assert (Lp := perm_length _ _ Hp). fold nf in Lp, Lq, Hq, Hp.
    assert (Hperm : forall i, i < nf -> nth i perm 0 < nf).
    { intros i Hi. destruct (perm_surj _ _ Hp i Hi) as [j [Hj <-]]. rewrite Hq by exact Hj. exact Hj. }
    assert (Hpp : forall i, i < nf -> nth (nth i perm 0) p 0 = i).
    { intros i Hi. destruct (perm_surj _ _ Hp i Hi) as [j [Hj <-]]. rewrite Hq by exact Hj. reflexivity. }
    assert (Hdm : forall i, i < nf -> 0 < k /\ nth i perm 0 mod k < k /\ nth i perm 0 / k < c_nrow Y).
    { intros i Hi. assert (H := Hperm i Hi). assert (Hk : 0 < k).
      { destruct (Nat.eq_dec k 0) as [E|]; [|lia]. unfold nf in H. fold k in H. rewrite E in H. simpl in H. lia. }
      split; [exact Hk|]. split; [apply Nat.mod_upper_bound; lia|].
      apply Nat.div_lt_upper_bound; [lia|exact H]. }
    set (rowf := fun i => ext2_row X Y signs p k (nth i perm 0 mod k) (nth i perm 0 / k)).
    destruct (build_rows R nf nf rowf (fun i '(C, counter) =>
        do ind <- vget perm i ;;
        guard (0 <? k) ;;
        for_row R X (ind mod k) (fun k1 '(C, counter) =>
          do col1 <- getCol R X k1 ;;
          for_row R Y (ind / k) (fun k2 '(C, counter) =>
            do col2 <- getCol R Y k2 ;;
            do j <- vget p (col1 + col2 * k) ;;
            do v1 <- getValue R X k1 ;;
            do v2 <- getValue R Y k2 ;;
            do s <- vget signs (ind mod k) ;;
            Ok (pushValue R (pushCol R C j) (v1 * v2 * s)%C, S counter)) (C, counter)) (C, counter)) C0)
      as [C' [cnt' [E H]]].
    { intros i rows m cnt Hi Lr HB. destruct (Hdm i Hi) as [Hk [Hr Hqq]].
      rewrite (vget_ok perm 0) by lia. cbn [bind].
      replace (0 <? k) with true by (symmetry; apply Nat.ltb_lt; exact Hk).
      set (r := nth i perm 0 mod k) in *. set (q := nth i perm 0 / k) in *.
      rewrite (for_row_forL R X r _ (fun e1 st =>
        forL (map (fun e2 => (nth (fst e1 + fst e2 * k) p 0, (snd e1 * snd e2 * nth r signs c0)%C)) (crs_row Y q))
             (fun e '(C, counter) => Ok (pushValue R (pushCol R C (fst e)) (snd e), S counter)) st)).
      - rewrite <- forL_flat_map. change (flat_map _ (crs_row X r)) with (rowf i).
        loopL (fun P (st : crs R * nat) => let '(C, cnt) := st in bldr nf nf rows P C cnt) as [C1 cnt1] E1 H1.
        + exact HB.
        + intros P [j v] post [C2 cnt2] HL H2. eexists. split; [reflexivity|]. apply bldr_push. exact H2.
        + exists C1, cnt1. split; [exact E1|exact H1].
      - exact WX.
      - exact Hr.
      - intros k1 [C2 cnt2] _ Hk1. rewrite wf_getCol by exact Hk1. cbn [bind fst snd].
        rewrite forL_map. apply for_row_forL; [exact WY|exact Hqq|].
        intros k2 [C3 cnt3] _ Hk2. rewrite wf_getCol by exact Hk2. cbn [bind fst snd].
        assert (Hi1 : nth k1 (c_colind X) 0 + nth k2 (c_colind Y) 0 * k < nf).
        { apply idx_lt; [unfold k; rewrite HX|rewrite HY]; apply wf_col; assumption. }
        rewrite (vget_ok p 0) by lia. cbn [bind]. rewrite !wf_getValue by assumption. cbn [bind].
        rewrite (vget_ok signs c0) by lia. reflexivity. }
    assert (Lr : length (map rowf (seq 0 nf)) = nf) by (rewrite map_length, seq_length; reflexivity).
    exists (of_rows nf (map rowf (seq 0 nf))).
    assert (HX' : forall r e, r < k -> In e (crs_row X r) -> fst e < k).
    { intros r e Hr He. unfold k. rewrite HX. apply (crs_row_col R X r); assumption. }
    assert (HY' : forall q e, q < c_nrow Y -> In e (crs_row Y q) -> fst e < c_nrow Y).
    { intros q e Hr He. rewrite HY. apply (crs_row_col R Y q); assumption. }
    split; [|split; [exact Lr|split; [reflexivity|split; [|split; [|split]]]]].
    - match goal with |- bind ?X1 _ = _ => match type of E with ?X2 = _ => change X1 with X2 end end.
      rewrite E. cbn [bind]. apply bld_finish with (1 := H). exact Lr.
    - unfold of_rows. cbn [c_rowptr]. rewrite map_length, seq_length, Lr. reflexivity.
    - apply of_rows_wf. apply Forall_map, Forall_forall. intros i Hi. apply in_seq in Hi.
      destruct (Hdm i) as [Hk [Hr Hqq]]; [lia|]. apply Forall_forall. intros x Hx.
      apply in_flat_map in Hx. destruct Hx as [e1 [He1 Hx]]. apply in_map_iff in Hx.
      destruct Hx as [e2 [<- He2]]. cbn [fst]. apply (perm_lt _ _ Hp). apply idx_lt.
      + eapply HX'; eauto.
      + eapply HY'; eauto.
    - intros r1 q1 r2 q2 H1 H2 H3 H4. unfold crs_elem at 1.
      assert (Hi1 : r1 + q1 * k < nf) by (apply idx_lt; assumption).
      assert (Hi2 := perm_lt _ _ Hp _ Hi1).
      rewrite of_rows_row by (rewrite Lr; exact Hi2). rewrite nth_map_seq by exact Hi2.
      unfold rowf. rewrite Hq by exact Hi1.
      replace ((r1 + q1 * k) mod k) with r1 by (rewrite Nat.mod_add by lia; rewrite Nat.mod_small by lia; reflexivity).
      replace ((r1 + q1 * k) / k) with q1 by (rewrite Nat.div_add by lia; rewrite Nat.div_small by lia; reflexivity).
      unfold ext2_row, row_elem. rewrite suml_flat_map.
      unfold crs_elem, row_elem. rewrite <- cmul_assoc. rewrite <- suml_mul_r.
      apply suml_ext_in. intros [c x] Hc. rewrite suml_map. cbn [fst snd].
      replace ((if c =? r2 then x else c0) * (suml (fun e => if fst e =? q2 then snd e else c0) (crs_row Y q1) *
                nth r1 signs c0))%C
        with (((if c =? r2 then x else c0) * nth r1 signs c0) *
               suml (fun e => if fst e =? q2 then snd e else c0) (crs_row Y q1))%C by ring.
      rewrite <- suml_mul_l. apply suml_ext_in. intros [d y] Hd. cbn [fst snd].
      assert (Hc' := HX' _ _ H1 Hc). assert (Hd' := HY' _ _ H2 Hd). simpl in Hc', Hd'.
      destruct (Nat.eqb_spec (nth (c + d * k) p 0) (nth (r2 + q2 * k) p 0)) as [E1|E1].
      + apply (perm_inj _ _ Hp) in E1; [|apply idx_lt; assumption|apply idx_lt; assumption].
        apply idx_inj in E1; [|assumption|assumption]. destruct E1 as [-> ->]. rewrite !Nat.eqb_refl. ring.
      + destruct (Nat.eqb_spec c r2) as [->|]; [|ring]. destruct (Nat.eqb_spec d q2) as [->|]; [congruence|ring].
    - intros NX NY. apply rows_nodup. intros i Hi. destruct (Hdm i Hi) as [Hk [Hr Hqq]].
      unfold rowf, ext2_row. specialize (NX _ Hr). specialize (NY _ Hqq).
      assert (HX2 : forall e, In e (crs_row X (nth i perm 0 mod k)) -> fst e < k) by (intros; eapply HX'; eauto).
      assert (HY2 : forall e, In e (crs_row Y (nth i perm 0 / k)) -> fst e < c_nrow Y) by (intros; eapply HY'; eauto).
      set (s := nth (nth i perm 0 mod k) signs c0).
      revert NX NY HX2 HY2. generalize (crs_row X (nth i perm 0 mod k)), (crs_row Y (nth i perm 0 / k)).
      intros lx ly NX NY HX2 HY2. induction lx as [|[c x] lx IH]; simpl; [constructor|].
      simpl in NX. inversion NX as [|? ? Hc NX']; subst. rewrite map_app, map_map. cbn [fst].
      apply nodup_app.
      + clear IH. induction ly as [|[d y] ly IHy]; simpl in *; [constructor|].
        inversion NY as [|? ? Hd NY']; subst. constructor.
        * intros Hin. apply in_map_iff in Hin. destruct Hin as [[d' y'] [E1 Hin]]. cbn [fst] in E1.
          apply (perm_inj _ _ Hp) in E1.
          -- apply idx_inj in E1; [|apply (HX2 (c, x)); auto|apply (HX2 (c, x)); auto].
             destruct E1 as [_ ->]. apply Hd. apply in_map_iff. exists (d, y'). auto.
          -- apply idx_lt; [apply (HX2 (c, x)); auto|]. apply (HY2 (d', y')). auto.
          -- apply idx_lt; [apply (HX2 (c, x)); auto|]. apply (HY2 (d, y)). auto.
        * apply IHy; auto.
      + apply IH; [exact NX'|]. intros; apply HX2; right; assumption.
      + intros z Hz1 Hz2. apply in_map_iff in Hz1. destruct Hz1 as [[d y] [<- Hd]]. cbn [fst] in Hz2.
        apply in_map_iff in Hz2. destruct Hz2 as [[j v] [Ej Hj]]. cbn [fst] in Ej. subst j.
        apply in_flat_map in Hj. destruct Hj as [[c' x'] [Hc' Hj]]. apply in_map_iff in Hj.
        destruct Hj as [[d' y'] [Ej Hd']]. injection Ej as E1 _. cbn [fst] in E1.
        assert (Hc1 : c' < k) by (apply (HX2 (c', x')); right; exact Hc').
        assert (Hc2 : c < k) by (apply (HX2 (c, x)); left; reflexivity).
        assert (Hd1 : d < c_nrow Y) by (apply (HY2 (d, y)); exact Hd).
        assert (Hd2 : d' < c_nrow Y) by (apply (HY2 (d', y')); exact Hd').
        apply (perm_inj _ _ Hp) in E1; [|apply idx_lt; assumption|apply idx_lt; assumption].
        apply idx_inj in E1; [|assumption|assumption]. destruct E1 as [-> _].
        apply Hc. apply in_map_iff. exists (c, x'). auto.
  Qed.
End Proofs3.
