(** Theorems about stacks and pairs in files (C117). *)
From Coq Require Import ZArith Lia Ascii String.
From Verif Require Import Prelude Ring Str_Model Str_Proofs Text_Model Dense_Model Crs_Model Crs_Spec
  Ng_Model Ng_Spec Ng_Proofs Ng_Bool Ng_Codec Ng_Comp Ng_Store Ng_Props Ngs_Model.
Import List ListNotations.

(** The objects that stacks are made of here: dense and sparse matrices *)
Definition object (k : kind) : Prop := match k with KMat | KCrs => True | _ => False end.
(** t.write(name, serializer), which has the mode NO_OVERWRITE *)
Definition wr1 (R : cring) (k : kind) (f : file R) (n : str) (x : ty R k) : res (file R) := wr R k f n x NO_OVERWRITE.

Lemma pop_forM {F T} (wr : file F -> str -> T -> res (file F)) name : forall what f (pre : list T),
  pop_loop F wr f name (List.length pre) what =
  do g <- forM (List.length what) (List.length pre) (fun i f => do x <- vget (pre ++ what) i ;; wr f (subn name i) x) f ;; Ok (g, []).
Proof.
  induction what as [|t r IH]; intros f pre; [reflexivity|]. cbn [pop_loop List.length forM].
  assert (V : vget (pre ++ t :: r) (List.length pre) = Ok t).
  { unfold vget. rewrite nth_error_app2, Nat.sub_diag by lia. reflexivity. }
  rewrite V. cbn [bind]. destruct (wr f (subn name (List.length pre)) t) as [g| | |]; try reflexivity. cbn [bind].
  specialize (IH g (pre ++ [t])). rewrite app_length, <- app_assoc in IH. cbn [List.length app] in IH. rewrite Nat.add_1_r in IH. exact IH.
Qed.
Lemma stack_as_vec {R : cring} k f n x : object k ->
  write_stack R (wr1 R k) f n x NO_OVERWRITE = do g <- wr R (KVec k) f n x NO_OVERWRITE ;; Ok (g, []).
Proof.
  intros O. assert (W : wr R (KVec k) f n x NO_OVERWRITE = write_vecof R (wr R k) f n x NO_OVERWRITE) by (destruct k; try destruct O; reflexivity).
  rewrite W. unfold write_stack, write_vecof. destruct (createGroup R f n) as [f1| | |]; try reflexivity. cbn [bind].
  exact (pop_forM (wr1 R k) n x _ []).
Qed.

Lemma vec_loop_elems {F T} (d : T) (rd : file F -> str -> T -> res T) f name : forall m i s x,
  forM m i (fun i what => do old <- vget what i ;; do x <- rd f (subn name i) old ;; vset what i x) s = Ok x ->
  List.length s = i + m -> (forall j, i <= j < i + m -> nth j s d = d) ->
  List.length x = i + m /\ (forall j, j < i -> nth j x d = nth j s d) /\ forall j, i <= j < i + m -> rd f (subn name j) d = Ok (nth j x d).
Proof.
  induction m as [|m IH]; intros i s x E L D.
  - cbn [forM] in E. injection E as <-. split; [exact L|]. split; [auto|]. intros j Hj. lia.
  - cbn [forM] in E. rewrite (@vget_ok _ s i d) in E by lia. cbn [bind] in E. rewrite (D i) in E by lia.
    destruct (rd f (subn name i) d) as [y| | |] eqn:Y; cbn [bind] in E; try discriminate E.
    rewrite vset_ok in E by lia. cbn [bind] in E. destruct (IH (S i) (upd s i y) x) as (L1 & A & B); [exact E|rewrite upd_length; lia| |].
    + intros j Hj. rewrite nth_upd_neq by lia. apply D. lia.
    + split; [lia|]. split.
      * intros j Hj. rewrite A by lia. rewrite nth_upd_neq by lia. reflexivity.
      * intros j Hj. destruct (Nat.eq_dec j i) as [->|Ne]; [|apply B; lia]. rewrite A by lia. rewrite nth_upd_eq by lia. exact Y.
Qed.
Lemma vec_elems {F T} (d : T) (rd : file F -> str -> T -> res T) f name x : read_vecof F d rd f name [] = Ok x ->
  (exists z, read_int F f (sub name "Size") = Ok z /\ Z.to_nat z = List.length x) /\
  forall j, j < List.length x -> rd f (subn name j) d = Ok (nth j x d).
Proof.
  intros E. unfold read_vecof in E. destruct (read_int F f (sub name "Size")) as [z| | |] eqn:Z; cbn [bind] in E; try discriminate E.
  destruct (vec_loop_elems d rd f name _ _ _ _ E) as (L & _ & B).
  - rewrite vresize_length. reflexivity.
  - intros j Hj. unfold vresize. rewrite firstn_nil. cbn [app List.length]. apply nth_repeat.
  - rewrite L. cbn [Nat.add]. split; [exists z; auto|]. intros j Hj. apply B. lia.
Qed.

Lemma skipn_cons {A} (l : list A) d i : i < List.length l -> skipn i l = nth i l d :: skipn (S i) l.
Proof. revert i. induction l as [|a l IH]; intros i Hi; cbn [List.length] in Hi; [lia|]. destruct i as [|i]; [reflexivity|]. cbn [skipn nth]. rewrite (IH i) by lia. reflexivity. Qed.
Lemma read_stack_ok {F T} (d : T) (rd : file F -> str -> T -> res T) f name x old z : read_int F f (sub name "Size") = Ok z -> Z.to_nat z = List.length x ->
  (forall j, j < List.length x -> rd f (subn name j) d = Ok (nth j x d)) -> read_stack F d rd f name old = Ok (x ++ old).
Proof.
  intros E Lz H. unfold read_stack. rewrite E. cbn [bind]. rewrite Lz.
  destruct (@forM_inv (list T) (fun i s => s = skipn (List.length x - i) x ++ old) (List.length x) 0
    (fun i what => do t <- rd f (subn name (List.length x - i - 1)) d ;; Ok (t :: what)) old) as (s & Es & Hs).
  - rewrite Nat.sub_0_r, skipn_all. reflexivity.
  - intros j t Hj ->. rewrite H by lia. cbn [bind]. eexists. split; [reflexivity|].
    rewrite (skipn_cons x d (List.length x - S j)) by lia. replace (S (List.length x - S j)) with (List.length x - j) by lia.
    replace (List.length x - j - 1) with (List.length x - S j) by lia. reflexivity.
  - rewrite Es, Hs. cbn [Nat.add]. rewrite Nat.sub_diag. reflexivity.
Qed.

(** A stack written under a new name is empty afterwards. It is read back with the same top, and on top of what the stack
    read into held; and as a vector it is read from the top on. All other values stay. *)
Theorem C117_stack : forall (R : cring) (l : list (step R)) n k (x : list (ty R k)),
  propers R (empty_store R) l -> good_name n -> inside R (want_steps R (empty_store R) l) n -> want_steps R (empty_store R) l n = None ->
  object k -> (forall y, In y x -> storable R k y) ->
  exists s f0 f g, ser_new R None TRUNC = Ok s /\ se_file R s = Some f0 /\ do_steps R f0 l = Ok f /\
    write_stack R (wr1 R k) f n x NO_OVERWRITE = Ok (g, []) /\
    read_stack R (dflt R k) (rd R k) g n [] = Ok x /\
    (forall old, read_stack R (dflt R k) (rd R k) g n old = Ok (x ++ old)) /\
    (forall old, rd R (KVec k) g n old = Ok x) /\
    (forall n' k' x' old, want_steps R (empty_store R) l n' = Some (EVal k' x') -> rd R k' g n' old = Ok x').
Proof.
  intros R l n k x P G Is W O S. destruct (inv_new R) as (f0 & s & Es & Ef & I0 & _).
  destruct (inv_steps R l f0 _ I0 P) as (f & El & If & _).
  destruct (inv_step R f _ (SWrite n (KVec k) x) If) as (g & Eg & Ig & _).
  { split; [exact G|]. split; [exact W|]. split; [exact Is|]. split; [destruct k; try destruct O; exact I|exact S]. }
  cbn [do_step want_step] in Eg, Ig.
  assert (V : forall old, rd R (KVec k) g n old = Ok x) by (intros old; apply (inv_read R g _ n (KVec k) x old Ig), sset_eq).
  destruct (vec_elems (dflt R k) (rd R k) g n x (V [])) as ((z & Ez & Lz) & El').
  assert (RS : forall old, read_stack R (dflt R k) (rd R k) g n old = Ok (x ++ old)) by (intros old; exact (read_stack_ok _ _ _ _ _ old z Ez Lz El')).
  exists s, f0, f, g. split; [exact Es|]. split; [exact Ef|]. split; [exact El|]. split; [rewrite (stack_as_vec k f n x O), Eg; reflexivity|].
  split; [rewrite RS, app_nil_r; reflexivity|]. split; [exact RS|]. split; [exact V|].
  intros n' k' x' old W'. apply (inv_read R g _ n' k' x' old Ig). rewrite sset_neq; [exact W'|]. intros ->. congruence.
Qed.
Print Assumptions C117_stack.

(** A stack is not written under the name of a group, and nothing is written over with a stack. *)
Theorem C117_stack_refused : forall (R : cring) (l : list (step R)) n k (x : list (ty R k)),
  propers R (empty_store R) l -> want_steps R (empty_store R) l n = Some EGroup ->
  exists s f0 f, ser_new R None TRUNC = Ok s /\ se_file R s = Some f0 /\ do_steps R f0 l = Ok f /\
    write_stack R (wr1 R k) f n x NO_OVERWRITE = Throw /\ forall n' x', write_stack R (wr1 R k) f n' x' ALLOW_OVERWRITE = Throw.
Proof.
  intros R l n k x P W. destruct (inv_new R) as (f0 & s & Es & Ef & I0 & _).
  destruct (inv_steps R l f0 _ I0 P) as (f & El & If & _). exists s, f0, f. split; [exact Es|]. split; [exact Ef|]. split; [exact El|].
  split; [|reflexivity]. unfold write_stack, createGroup, h5_create. rewrite (i_grp _ _ _ If n W). reflexivity.
Qed.
Print Assumptions C117_stack_refused.

Lemma good_child n c : good_name n -> c <> [] -> c <> lit "." -> ~ In slash c -> (forall p, n ++ slash :: c <> p ++ lit "ComplexOrReal") -> good_name (n ++ slash :: c).
Proof.
  intros ((l & Nl & Hl & ->) & _ & _) C1 C2 C3 C4. split; [|split].
  - exists (l ++ [c]). split; [destruct l; discriminate|]. split.
    + intros d Hd. apply in_app_or in Hd. destruct Hd as [Hd|[<-|[]]]; [apply Hl, Hd|auto].
    + clear Hl C4. induction l as [|a l IH]; [congruence|]. destruct l as [|b l]; [reflexivity|].
      change (join (a :: b :: l)) with (a ++ slash :: join (b :: l)). change (join ((a :: b :: l) ++ [c])) with (a ++ slash :: join ((b :: l) ++ [c])).
      rewrite <- IH by discriminate. rewrite <- app_assoc. reflexivity.
  - exact C4.
  - intros E. apply canary_noslash. rewrite <- E. apply in_or_app. right; left; reflexivity.
Qed.
Lemma no_tag n a c (p : str) : a <> "l"%char -> n ++ slash :: c ++ [a] <> p ++ lit "ComplexOrReal".
Proof.
  intros A E. change (lit "ComplexOrReal") with (lit "ComplexOrRea" ++ ["l"%char]) in E.
  rewrite app_comm_cons, !app_assoc in E. apply app_inj_tail in E. destruct E as [_ E]. auto.
Qed.

(** A pair of a number and a matrix is read back as it was written, and all other values stay. *)
Theorem C117_pair : forall (R : cring) (l : list (step R)) n k a (b : ty R k),
  propers R (empty_store R) l -> good_name n -> inside R (want_steps R (empty_store R) l) n -> want_steps R (empty_store R) l n = None ->
  object k -> storable R k b ->
  exists s f0 f g, ser_new R None TRUNC = Ok s /\ se_file R s = Some f0 /\ do_steps R f0 l = Ok f /\
    write_pairof R (wr1 R k) f n a b NO_OVERWRITE = Ok g /\
    (forall old, read_pairof R (rd R k) g n old = Ok (a, b)) /\
    (forall n' k' x' old, want_steps R (empty_store R) l n' = Some (EVal k' x') -> rd R k' g n' old = Ok x').
Proof.
  intros R l n k a b P G Is W O S. destruct (inv_new R) as (f0 & s & Es & Ef & I0 & _).
  destruct (inv_steps R l f0 _ I0 P) as (f & El & If & _). set (st := want_steps R (empty_store R) l) in *.
  assert (WC : forall c, ~ In slash c -> st (n ++ slash :: c) = None).
  { intros c Hc. destruct (st (n ++ slash :: c)) as [e|] eqn:Ee; [|reflexivity]. destruct (proj2 (i_closed _ _ _ If _ _ Ee)) as [H|(g & d & E & Hd & Eg)].
    - destruct H. apply in_or_app. right; left; reflexivity.
    - pose proof (parent_child n c Hc) as A. rewrite E, (parent_child g d Hd) in A. injection A as ->. congruence. }
  assert (W0 : st (n ++ lit "/0") = None) by (apply WC; intros [H|[]]; discriminate H).
  assert (W1 : st (n ++ lit "/1") = None) by (apply WC; intros [H|[]]; discriminate H).
  assert (N0 : n ++ lit "/0" <> n) by apply not_eq_sym, snoc_ne. assert (N1 : n ++ lit "/1" <> n) by apply not_eq_sym, snoc_ne.
  assert (N2 : n ++ lit "/1" <> n ++ lit "/0") by (intros E; apply app_inv_head in E; discriminate E).
  assert (G0 : good_name (n ++ lit "/0")).
  { apply good_child; try discriminate; [exact G|intros [H|[]]; discriminate H|]. intros p. apply (no_tag n "0"%char [] p). discriminate. }
  assert (G1 : good_name (n ++ lit "/1")).
  { apply good_child; try discriminate; [exact G|intros [H|[]]; discriminate H|]. intros p. apply (no_tag n "1"%char [] p). discriminate. }
  destruct (inv_steps R [SGroup n; SWrite (n ++ lit "/0") KInt a; SWrite (n ++ lit "/1") k b] f st If) as (g & Eg & Ig & _).
  { cbn [propers proper want_step]. split; [auto|]. split; [|split; [|exact I]].
    - split; [exact G0|]. split; [rewrite sset_neq; auto|]. split; [|exact I]. right. exists n, (lit "0"). split; [reflexivity|].
      split; [intros [H|[]]; discriminate H|apply sset_eq].
    - split; [exact G1|]. split; [rewrite !sset_neq; auto|]. split; [|exact S]. right. exists n, (lit "1"). split; [reflexivity|].
      split; [intros [H|[]]; discriminate H|rewrite sset_neq by auto; apply sset_eq]. }
  cbn [want_steps fold_left want_step] in Ig.
  exists s, f0, f, g. split; [exact Es|]. split; [exact Ef|]. split; [exact El|]. split; [|split].
  - cbn [do_steps do_step] in Eg. unfold write_pairof. destruct (createGroup R f n) as [f1| | |]; cbn [bind] in Eg |- *; try discriminate Eg.
    cbn [wr bind] in Eg. unfold wr1. change (sub n "0") with (n ++ lit "/0"). change (sub n "1") with (n ++ lit "/1").
    destruct (wr R k _ (n ++ lit "/1") b NO_OVERWRITE) as [f2| | |]; cbn [bind] in Eg; try discriminate Eg. exact Eg.
  - intros old. unfold read_pairof. change (sub n "0") with (n ++ lit "/0"). change (sub n "1") with (n ++ lit "/1").
    pose proof (inv_read R g _ (n ++ lit "/0") KInt a 0%Z Ig) as R0. cbn [rd] in R0. rewrite R0 by (rewrite sset_neq by auto; apply sset_eq). cbn [bind].
    rewrite (inv_read R g _ (n ++ lit "/1") k b (snd old) Ig) by apply sset_eq. reflexivity.
  - intros n' k' x' old W'. apply (inv_read R g _ n' k' x' old Ig). rewrite !sset_neq; auto; intros ->; congruence.
Qed.
Print Assumptions C117_pair.

(** A stack of two dense matrices, and a sparse one for a pair, after other values *)
Example C117_nonvacuous : propers Zring (empty_store Zring) ex_steps /\ good_name (lit "g/new") /\ inside Zring (want_steps Zring (empty_store Zring) ex_steps) (lit "g/new") /\
  want_steps Zring (empty_store Zring) ex_steps (lit "g/new") = None /\ want_steps Zring (empty_store Zring) ex_steps (lit "g") = Some EGroup /\
  (forall y, In y [mkmat (R:=Zring) 1 2 [3; 4]%Z; mkmat (R:=Zring) 1 1 [5]%Z] -> storable Zring KMat y) /\ storable Zring KCrs ex_crs.
Proof.
  split; [exact ex_proper|]. split; [good [lit "g"; lit "new"]|]. split; [|split; [reflexivity|split; [reflexivity|split]]].
  - right. exists (lit "g"), (lit "new"). split; [reflexivity|]. split; [apply okc_ok; reflexivity|reflexivity].
  - intros y [<-|[<-|[]]]; (split; [cbn; lia|split; [cbn; lia|reflexivity]]).
  - split; [reflexivity|cbn; lia].
Qed.
