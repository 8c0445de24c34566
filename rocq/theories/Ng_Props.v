(** C49 (file store), C50 (canary), C51 (packing of bools), C81 (appended entries),
    and the parts of C29 and C31 that concern the file store. *)
From Coq Require Import Ascii String.
From Verif Require Import Prelude Ring Str_Model Str_Proofs Text_Model Dense_Model Crs_Model Crs_Spec
  Ng_Model Ng_Spec Ng_Proofs Ng_Bool Ng_Codec Ng_Comp Ng_Store.
Import List.

(** ** C51 *)
(** Vectors of fewer than 2^32 booleans read back unchanged from the characters they are packed in. *)
Theorem C51_round_trip : forall v : list bool, (Z.of_nat (List.length v) < 4294967296)%Z ->
  exists c, convertFromBoolean v = Ok c /\
    List.length c = match v with [] => 4%nat | _ => (List.length v / 8 + 5)%nat end /\
    forall dest, convertToBoolean dest c = Ok v.
Proof.
  intros v H. destruct (unpack_pack v H) as (c & E & D). exists c. split; auto. split; auto. apply pack_len; auto.
Qed.
Print Assumptions C51_round_trip.

(** Longer vectors are packed, but the length is kept modulo 2^32. *)
Theorem C51_too_long : forall v : list bool, (4294967296 <= Z.of_nat (List.length v))%Z ->
  exists c, convertFromBoolean v = Ok c /\ forall dest, convertToBoolean dest c <> Ok v.
Proof.
  intros v H. destruct (pack_ok v) as (body & E & _); [lia|]. eexists. split; [exact E|].
  intros dest D. pose proof (unpack_size dest v _ v E D) as L.
  pose proof (Z.mod_pos_bound (Z.of_nat (List.length v)) 4294967296). lia.
Qed.
Print Assumptions C51_too_long.
Example C51_nonvacuous :
  convertFromBoolean [true; false; true; true; false; false; false; true; true; false] = Ok [10; 0; 0; 0; 141; 1]%Z /\
  convertToBoolean [true] [10; 0; 0; 0; 141; 1]%Z = Ok [true; false; true; true; false; false; false; true; true; false].
Proof. split; vm_compute; reflexivity. Qed.
Example C51_nonvacuous_long : (4294967296 <= Z.of_nat (List.length (repeat true (Z.to_nat 4294967296))))%Z.
Proof. rewrite repeat_length, Z2Nat.id; [|discriminate]. discriminate. Qed.

(** ** C49 *)

(** Any history of steps used as intended, on a new file: every name reads back the value
    last written, whatever the target held; a name that was not written cannot be read;
    and so it is after the file is closed and opened again.
    Missing for the full claim: empty vectors and strings, matrices without elements,
    changes of type, and the types that cannot be overwritten (see below). *)
Theorem C49_history_partial : forall (R : cring) (l : list (step R)), propers R (empty_store R) l ->
  exists s f0 f s' disk s'' f'',
    ser_new R None TRUNC = Ok s /\ se_file R s = Some f0 /\
    do_steps R f0 l = Ok f /\
    ser_close R (mkser R (Some f) (se_h5mode R s) (se_mode R s)) = Ok (s', disk) /\
    ser_new R (Some disk) RDONLY = Ok s'' /\ se_file R s'' = Some f'' /\
    forall g, g = f \/ g = f'' -> forall n,
      (forall k x old, want_steps R (empty_store R) l n = Some (EVal k x) -> rd R k g n old = Ok x) /\
      (want_steps R (empty_store R) l n = Some EGroup -> doesGroupExist R g n = true) /\
      (want_steps R (empty_store R) l n = None -> good_name n -> inside R (want_steps R (empty_store R) l) n ->
        doesGroupExist R g n = false /\ forall k old, rd R k g n old = Throw).
Proof.
  intros R l P. destruct (inv_new R) as (f0 & s & Es & Ef & I0 & C0).
  destruct (inv_steps R l f0 _ I0 P) as (f & El & If & Cf).
  destruct (inv_canary R f _ If) as (f1 & W & I1 & C1); [left; congruence|].
  assert (Es' : s = mkser R (Some f0) TRUNC TRUNC).
  { inversion Es. subst s. cbn [se_file] in Ef. inversion Ef. auto. }
  exists s, f0, f. rewrite Es'. cbn [se_h5mode se_mode]. eexists. exists f1. eexists. exists f1.
  split; [congruence|]. split; [reflexivity|]. split; [auto|].
  split. { unfold ser_close, ser_flush. cbn [se_file se_mode se_h5mode isRO]. rewrite W. cbn [bind]. reflexivity. }
  split. { unfold ser_new, h5_openFile. cbn [bind]. unfold readCanary, h5_data. rewrite C1. cbn [bind Z.eqb Pos.eqb]. reflexivity. }
  split; [reflexivity|].
  assert (Q : forall g, Inv R g (want_steps R (empty_store R) l) -> forall n,
      (forall k x old, want_steps R (empty_store R) l n = Some (EVal k x) -> rd R k g n old = Ok x) /\
      (want_steps R (empty_store R) l n = Some EGroup -> doesGroupExist R g n = true) /\
      (want_steps R (empty_store R) l n = None -> good_name n -> inside R (want_steps R (empty_store R) l) n ->
        doesGroupExist R g n = false /\ forall k old, rd R k g n old = Throw)).
  { intros g I n. split; [|split].
    - intros k x old S. eapply inv_read; eauto.
    - intros S. unfold doesGroupExist. rewrite (i_grp _ _ _ I n S). auto.
    - intros S G In_. pose proof (inv_fresh R g _ n I G S In_) as Fr. split.
      + unfold doesGroupExist. rewrite Fr by apply foot_full. auto.
      + intros k old. apply fresh_read; auto. apply good_ne. auto. }
  intros g [-> | ->] n; apply Q; auto.
Qed.
Print Assumptions C49_history_partial.

(** A history with a group, a value of each type, and overwriting; a vector becomes longer. *)
Definition ex_mat : mat Zring := @mkmat Zring 2 1 [5; 6]%Z.
Definition ex_crs : crs Zring := @mkcrs Zring [0; 1; 2]%nat [1; 0]%nat [7; 8]%Z 2 2.
Definition ex_steps : list (step Zring) :=
  [ SWrite (lit "n") KInt 3%Z; SGroup (lit "g"); SWrite (lit "g/v") KInts [1; 2]%Z;
    SWrite (lit "m") KMat ex_mat; SWrite (lit "z") KCplx [(1, 2); (3, 4)]%Z;
    SWrite (lit "c") (KVec KCrs) [ex_crs; ex_crs]; SWrite (lit "b") KBools [true; false; true];
    SWrite (lit "s") KStr (lit "text"); SWrite (lit "w") (KVec KFlts) [[1]; [2; 3]]%Z;
    SOverwrite (lit "n") KInt 4%Z; SOverwrite (lit "w") (KVec KFlts) [[9]; [8]; [7; 6]]%Z;
    SOverwrite (lit "g/v") KInts [5]%Z ].
Definition okc (c : str) : bool := negb (str_eqb c []) && negb (str_eqb c (lit ".")) && negb (existsb (Ascii.eqb slash) c).
Lemma okc_ok c : okc c = true -> c <> [] /\ c <> lit "." /\ ~ In slash c.
Proof.
  unfold okc. rewrite !andb_true_iff, !negb_true_iff. intros [[A B] C]. split; [|split].
  - apply str_eqb_false. auto.
  - apply str_eqb_false. auto.
  - intros H. assert (existsb (Ascii.eqb slash) c = true); [|congruence]. apply existsb_exists. exists slash. split; auto.
Qed.
Lemma good_by l : forallb okc l = true -> l <> [] ->
  str_eqb (firstn 13 (rev (join l))) (rev (lit "ComplexOrReal")) = false -> str_eqb (join l) (lit "Canary") = false -> good_name (join l).
Proof.
  intros A B C D. split; [|split].
  - exists l. split; auto. split; auto. intros c Hc. apply okc_ok. rewrite forallb_forall in A. auto.
  - intros p E. rewrite E, rev_app_distr in C.
    rewrite firstn_app in C. rewrite rev_length in C. change (List.length (lit "ComplexOrReal")) with 13%nat in C.
    rewrite Nat.sub_diag in C. rewrite firstn_O, app_nil_r in C.
    rewrite firstn_all2 in C by (rewrite rev_length; simpl; lia). rewrite str_eqb_refl in C. discriminate.
  - apply str_eqb_false. auto.
Qed.
Ltac good l := apply (good_by l); [reflexivity|discriminate|reflexivity|reflexivity].
Ltac top := left; apply okc_ok; reflexivity.
Lemma ex_proper : propers Zring (empty_store Zring) ex_steps.
Proof.
  unfold ex_steps.
  split. { split; [good [lit "n"]|split; [reflexivity|split; [top|exact I]]]. }
  split. { split; [good [lit "g"]|split; [reflexivity|top]]. }
  split. { split; [good [lit "g"; lit "v"]|split; [reflexivity|split; [|discriminate]]].
    right. exists (lit "g"), (lit "v"). split; [reflexivity|]. split; [apply okc_ok; reflexivity|reflexivity]. }
  split. { split; [good [lit "m"]|split; [reflexivity|split; [top|]]]. split; [|split]; simpl; lia. }
  split. { split; [good [lit "z"]|split; [reflexivity|split; [top|discriminate]]]. }
  split. { split; [good [lit "c"]|split; [reflexivity|split; [top|]]]. split; [exact I|].
    intros y [<-|[<-|[]]]; (split; [reflexivity|simpl; lia]). }
  split. { split; [good [lit "b"]|split; [reflexivity|split; [top|]]]. reflexivity. }
  split. { split; [good [lit "s"]|split; [reflexivity|split; [top|discriminate]]]. }
  split. { split; [good [lit "w"]|split; [reflexivity|split; [top|]]]. split; [exact I|].
    intros y [<-|[<-|[]]]; discriminate. }
  split. { split; [exists 3%Z; reflexivity|split; exact I]. }
  split. { split; [exists [[1]; [2; 3]]%Z; reflexivity|split; [|exact I]]. split; [exact I|].
    intros y [<-|[<-|[<-|[]]]]; discriminate. }
  split. { split; [exists [1; 2]%Z; reflexivity|split; [discriminate|exact I]]. }
  exact I.
Qed.
Example C49_nonvacuous : propers Zring (empty_store Zring) ex_steps /\
  want_steps Zring (empty_store Zring) ex_steps (lit "g/v") = Some (EVal KInts [5]%Z) /\
  want_steps Zring (empty_store Zring) ex_steps (lit "w") = Some (EVal (KVec KFlts) [[9]; [8]; [7; 6]]%Z) /\
  want_steps Zring (empty_store Zring) ex_steps (lit "c") = Some (EVal (KVec KCrs) [ex_crs; ex_crs]).
Proof. split; [exact ex_proper|]. split; [|split]; reflexivity. Qed.

(** Vectors of sparse matrices have an overwrite function of their own; it may make the
    vector shorter or longer. *)
Theorem C49_overwrite_objects_partial : forall (R : cring) (l : list (step R)) n l0 x,
  propers R (empty_store R) l -> want_steps R (empty_store R) l n = Some (EVal (KVec KCrs) l0) -> storable R (KVec KCrs) x ->
  exists s f0 f g, ser_new R None TRUNC = Ok s /\ se_file R s = Some f0 /\ do_steps R f0 l = Ok f /\
    overwrite_vecof R (read_int R) (fun f n x => crs_write R f n x NO_OVERWRITE)
      (fun f n x => crs_write R f n x ALLOW_OVERWRITE) f n x = Ok g /\
    (forall old, rd R (KVec KCrs) g n old = Ok x) /\
    (forall n' k' x' old, n' <> n -> want_steps R (empty_store R) l n' = Some (EVal k' x') -> rd R k' g n' old = Ok x').
Proof.
  intros R l n l0 x P W S. destruct (inv_new R) as (f0 & s & Es & Ef & I0 & _).
  destruct (inv_steps R l f0 _ I0 P) as (f & El & If & _).
  destruct (inv_overwrite R f _ n l0 x If W S) as (g & E & Ig).
  exists s, f0, f, g. split; auto. split; auto. split; auto. split; auto. split.
  - intros old. apply (inv_read R g _ n (KVec KCrs) x old Ig). apply sset_eq.
  - intros n' k' x' old Ne W'. apply (inv_read R g _ n' k' x' old Ig). rewrite sset_neq; auto.
Qed.
Print Assumptions C49_overwrite_objects_partial.
Example C49_nonvacuous_objects :
  want_steps Zring (empty_store Zring) ex_steps (lit "c") = Some (EVal (KVec KCrs) [ex_crs; ex_crs]) /\
  storable Zring (KVec KCrs) [ex_crs; ex_crs; ex_crs].
Proof.
  split; [reflexivity|]. split; [exact I|]. intros y [<-|[<-|[<-|[]]]]; (split; [reflexivity|simpl; lia]).
Qed.

(** What happens to histories outside of the theorem, on a new file. *)
Definition on_new {A} (l : list (step Zring)) (k : file Z -> res A) : res A :=
  do s <- ser_new Z None TRUNC ;;
  match se_file Z s with Some f => do f <- do_steps Zring f l ;; k f | None => Throw end.

(** A second write under a name is lost without an error. *)
Theorem C49_rewrite_refuted : on_new [SWrite (lit "n") KInt 3%Z; SWrite (lit "n") KInt 4%Z] (fun f => rd Zring KInt f (lit "n") 0%Z) = Ok 3%Z.
Proof. vm_compute. reflexivity. Qed.
Print Assumptions C49_rewrite_refuted.
(** An empty vector does not overwrite. *)
Theorem C49_empty_refuted :
  on_new [SWrite (lit "n") KInts [1; 2]%Z; SOverwrite (lit "n") KInts []] (fun f => rd Zring KInts f (lit "n") []) = Ok [1; 2]%Z.
Proof. vm_compute. reflexivity. Qed.
Print Assumptions C49_empty_refuted.
(** An empty vector or string is written without an error, but cannot be read. *)
Theorem C49_empty_read_refuted :
  on_new [SWrite (lit "n") KInts []] (fun f => rd Zring KInts f (lit "n") [1]%Z) = Throw /\
  on_new [SWrite (lit "n") KStr []] (fun f => rd Zring KStr f (lit "n") []) = Throw.
Proof. split; vm_compute; reflexivity. Qed.
Print Assumptions C49_empty_read_refuted.
(** Overwriting a vector of complex numbers writes it elsewhere; the old one stays. *)
Theorem C49_complex_refuted :
  on_new [SWrite (lit "z") KCplx [(1, 2)]%Z; SOverwrite (lit "z") KCplx [(3, 4); (5, 6)]%Z] (fun f => rd Zring KCplx f (lit "z") []) = Ok [(1, 2)]%Z.
Proof. vm_compute. reflexivity. Qed.
Print Assumptions C49_complex_refuted.
(** A vector of complex numbers overwritten by one of reals cannot be read as either. *)
Theorem C49_type_refuted :
  let l := [SWrite (lit "z") KCplx [(1, 2)]%Z; SOverwrite (lit "z") KFlts [3; 4; 5]%Z] in
  on_new l (fun f => rd Zring KFlts f (lit "z") []) = Throw /\ on_new l (fun f => rd Zring KCplx f (lit "z") []) = Throw.
Proof. split; vm_compute; reflexivity. Qed.
Print Assumptions C49_type_refuted.
(** Strings and vectors of pairs cannot be overwritten. *)
Theorem C49_string_refuted :
  on_new [SWrite (lit "s") KStr (lit "ab"); SOverwrite (lit "s") KStr (lit "cd")] (fun f => Ok tt) = Throw /\
  on_new [SWrite (lit "p") (KVec KPair) [(1, 2)]%Z; SOverwrite (lit "p") (KVec KPair) [(3, 4)]%Z] (fun f => Ok tt) = Throw.
Proof. split; vm_compute; reflexivity. Qed.
Print Assumptions C49_string_refuted.
(** A vector of sparse matrices written again with more elements, through the mode argument
    of write: no error, and the vector cannot be read any more. *)
Theorem C49_objects_refuted :
  on_new [SWrite (lit "c") (KVec KCrs) [ex_crs]; SOverwrite (lit "c") (KVec KCrs) [ex_crs; ex_crs]]
    (fun f => rd Zring (KVec KCrs) f (lit "c") []) = Throw /\
  on_new [SWrite (lit "c") (KVec KCrs) [ex_crs]; SOverwrite (lit "c") (KVec KCrs) [ex_crs; ex_crs]] (fun f => Ok tt) = Ok tt.
Proof. split; vm_compute; reflexivity. Qed.
Print Assumptions C49_objects_refuted.

(** ** C29 and C31 for the file store *)
(** A valid matrix with at least one stored element, written under a new name after any proper history of writes, reads back unchanged into any matrix. *)
Theorem C29_store_partial : forall (R : cring) (l : list (step R)) n (m : crs R),
  propers R (empty_store R) l -> good_name n -> inside R (want_steps R (empty_store R) l) n ->
  want_steps R (empty_store R) l n = None ->
  checkValidity R m = Ok tt -> (0 < List.length (c_colind m))%nat ->
  exists s f0 f g, ser_new R None TRUNC = Ok s /\ se_file R s = Some f0 /\ do_steps R f0 l = Ok f /\
    crs_write R f n m NO_OVERWRITE = Ok g /\ forall old, crs_readNg R g n old = Ok m.
Proof.
  intros R l n m P G Is W V L. destruct (inv_new R) as (f0 & s & Es & Ef & I0 & _).
  destruct (inv_steps R l f0 _ I0 P) as (f & El & If & _).
  destruct (inv_step R f _ (SWrite n KCrs m) If) as (g & E & Ig & _); [split; auto; split; auto; split; auto; split; auto|].
  exists s, f0, f, g. split; auto. split; auto. split; auto. split; [exact E|].
  intros old. apply (inv_read R g _ n KCrs m old Ig). apply sset_eq.
Qed.
Print Assumptions C29_store_partial.
Example C29_nonvacuous_store : checkValidity Zring ex_crs = Ok tt /\ (0 < List.length (c_colind ex_crs))%nat /\
  good_name (lit "new") /\ inside Zring (want_steps Zring (empty_store Zring) ex_steps) (lit "new") /\
  want_steps Zring (empty_store Zring) ex_steps (lit "new") = None /\ propers Zring (empty_store Zring) ex_steps.
Proof.
  split; [reflexivity|]. split; [simpl; lia|]. split; [good [lit "new"]|]. split; [top|]. split; [reflexivity|apply ex_proper].
Qed.

(** A matrix of zeros, or without rows, read into a matrix that is not empty: columns and
    values of the old matrix stay. *)
Theorem C29_store_stale_refuted :
  let zero : crs Zring := mkcrs [0; 0; 0] [] [] 2 2 in
  let none : crs Zring := mkcrs [] [] [] 0 0 in
  checkValidity Zring zero = Ok tt /\
  (do f <- on_new [] (fun f => crs_write Zring f (lit "m") zero NO_OVERWRITE) ;; crs_readNg Zring f (lit "m") ex_crs)
    = Ok (@mkcrs Zring [0; 0; 0] [1; 0] [7; 8]%Z 2 2) /\
  (do f <- on_new [] (fun f => crs_write Zring f (lit "m") none NO_OVERWRITE) ;; crs_readNg Zring f (lit "m") ex_crs)
    = Ok (@mkcrs Zring [0; 1; 2] [1; 0] [7; 8]%Z 0 0).
Proof. split; [|split]; vm_compute; reflexivity. Qed.
Print Assumptions C29_store_stale_refuted.

(** A matrix that is not empty, written under a new name after any proper history of writes, reads back unchanged into any matrix. *)
Theorem C31_store_partial : forall (R : cring) (l : list (step R)) n (m : mat R),
  propers R (empty_store R) l -> good_name n -> inside R (want_steps R (empty_store R) l) n ->
  want_steps R (empty_store R) l n = None ->
  (0 < m_nrow m)%nat -> (0 < m_ncol m)%nat -> List.length (m_data m) = (m_nrow m * m_ncol m)%nat ->
  exists s f0 f g, ser_new R None TRUNC = Ok s /\ se_file R s = Some f0 /\ do_steps R f0 l = Ok f /\
    mat_write R f n m NO_OVERWRITE = Ok g /\ forall old, mat_readNg R g n old = Ok m.
Proof.
  intros R l n m P G Is W A B C. destruct (inv_new R) as (f0 & s & Es & Ef & I0 & _).
  destruct (inv_steps R l f0 _ I0 P) as (f & El & If & _).
  destruct (inv_step R f _ (SWrite n KMat m) If) as (g & E & Ig & _); [split; auto; split; auto; split; auto; split; auto|].
  exists s, f0, f, g. split; auto. split; auto. split; auto. split; [exact E|].
  intros old. apply (inv_read R g _ n KMat m old Ig). apply sset_eq.
Qed.
Print Assumptions C31_store_partial.
(** An empty matrix read into a matrix that is not empty: the old elements stay. *)
Theorem C31_store_stale_refuted :
  (do f <- on_new [] (fun f => mat_write Zring f (lit "m") (mkmat 0 0 []) NO_OVERWRITE) ;; mat_readNg Zring f (lit "m") ex_mat)
    = Ok (@mkmat Zring 0 0 [5; 6]%Z).
Proof. vm_compute. reflexivity. Qed.
Print Assumptions C31_store_stale_refuted.

(** ** C50 *)

(** A process that created the file and stopped between two calls, before close, flush or
    destruction: whatever it wrote (names that are not the canary's own), the file cannot be
    opened for reading. Stops inside a call are not modelled. *)
Theorem C50_crash_partial : forall (R : cring) disk (l : list (step R)) s f0 f,
  (forall x, In x l -> safe (step_name R x)) ->
  ser_new R disk TRUNC = Ok s -> se_file R s = Some f0 -> do_steps R f0 l = Ok f ->
  ser_new R (Some f) RDONLY = Throw.
Proof.
  intros R disk l s f0 f S Es Ef El. inversion Es. subst s. cbn [se_file] in Ef. inversion Ef. subst f0.
  apply kept_steps in El; auto; [|split; reflexivity]. destruct El as [C _].
  unfold ser_new, h5_openFile. cbn [bind]. unfold readCanary, h5_data. rewrite C. reflexivity.
Qed.
Print Assumptions C50_crash_partial.

(** After close the file can be opened, and holds what was written. *)
Theorem C50_close : forall (R : cring) disk (l : list (step R)) s f0 f,
  (forall x, In x l -> safe (step_name R x)) ->
  ser_new R disk TRUNC = Ok s -> se_file R s = Some f0 -> do_steps R f0 l = Ok f ->
  exists s' g s'' g', ser_close R (mkser R (Some f) (se_h5mode R s) (se_mode R s)) = Ok (s', g) /\
    se_file R s' = None /\ ser_new R (Some g) RDONLY = Ok s'' /\ se_file R s'' = Some g' /\
    forall p, p <> canary -> g' p = f p.
Proof.
  intros R disk l s f0 f S Es Ef El. inversion Es. subst s. cbn [se_file] in Ef. inversion Ef. subst f0. clear Es Ef.
  apply kept_steps in El; auto; [|split; reflexivity]. cbn [se_h5mode se_mode].
  eexists. exists (fset R f canary (Data [CI 170%Z])). eexists. exists (fset R f canary (Data [CI 170%Z])).
  split. { unfold ser_close, ser_flush. cbn [se_file se_mode se_h5mode isRO]. rewrite kept_write_canary by auto. cbn [bind]. reflexivity. }
  split; [reflexivity|].
  split. { unfold ser_new, h5_openFile. cbn [bind]. unfold readCanary, h5_data. rewrite fset_eq. cbn [bind Z.eqb Pos.eqb]. reflexivity. }
  split; [reflexivity|]. intros p Hp. apply fset_neq. auto.
Qed.
Print Assumptions C50_close.
Example C50_nonvacuous : exists s f0 f, (forall x, In x ex_steps -> safe (step_name Zring x)) /\
  ser_new Zring None TRUNC = Ok s /\ se_file Zring s = Some f0 /\ do_steps Zring f0 ex_steps = Ok f.
Proof.
  destruct (inv_new Zring) as (f0 & s & Es & Ef & I0 & _). destruct (inv_steps Zring ex_steps f0 _ I0 ex_proper) as (f & El & _).
  exists s, f0, f. split; [|auto].
  intros x Hx. repeat (destruct Hx as [<-|Hx]; [repeat split; discriminate|]). destruct Hx.
Qed.

(** A file that was closed, opened again for writing, and changed: the canary of the first
    time is still there, and a stop is not noticed. So with a flush. *)
Theorem C50_reopen_refuted : exists (f1 f2 : file Z) s1 s2 s3,
  ser_new Z None TRUNC = Ok s1 /\ ser_close Z s1 = Ok (s2, f1) /\
  ser_new Z (Some f1) RDWR = Ok s3 /\
  se_file Z s3 = Some f1 /\ do_steps Zring f1 [SWrite (lit "n") KInt 3%Z] = Ok f2 /\
  exists s4, ser_new Z (Some f2) RDONLY = Ok s4.
Proof. do 5 eexists. repeat (split; [reflexivity|]). eexists. vm_compute. reflexivity. Qed.
Print Assumptions C50_reopen_refuted.
(** After a flush the file counts as closed properly, although a writer goes on writing to it. *)
Theorem C50_flush_refuted : exists (f0 f1 f2 : file Z) s1 s2,
  ser_new Z None TRUNC = Ok s1 /\ ser_flush Z s1 = Ok (s2, f1) /\ se_file Z s2 = Some f0 /\
  do_steps Zring f0 [SWrite (lit "n") KInt 3%Z] = Ok f2 /\
  exists s3, ser_new Z (Some f2) RDONLY = Ok s3.
Proof. do 5 eexists. repeat (split; [reflexivity|]). eexists. vm_compute. reflexivity. Qed.
Print Assumptions C50_flush_refuted.
(** The member function open does not look at the canary: a reader opens a file that was not
    closed; and the file a writer opens has its canary from the start. *)
Theorem C50_open_refuted :
  (forall (R : cring) (s : ser R) f, se_file R s = None -> se_mode R s = RDONLY -> exists s', ser_open R s (Some f) RDONLY = Ok s') /\
  (forall (R : cring) (s : ser R) f s', se_file R s = None -> se_mode R s <> RDONLY -> f canary = None ->
     ser_open R s (Some f) RDWR = Ok s' -> exists g, se_file R s' = Some g /\ exists s'', ser_new R (Some g) RDONLY = Ok s'').
Proof.
  split.
  - intros R s f A B. unfold ser_open. rewrite A, B. eexists. reflexivity.
  - intros R s f s' A B C E. unfold ser_open in E. rewrite A in E. cbn [h5_openFile bind] in E.
    assert (X : isRO (se_mode R s) = false) by (destruct (se_mode R s); auto; contradiction). rewrite X in E. cbn [isRO] in E.
    unfold writeCanary in E. rewrite C in E. unfold h5_create in E. rewrite C in E. destruct (parent_ok R f canary); [|discriminate].
    inversion E. eexists. split; [reflexivity|]. unfold ser_new, h5_openFile. cbn [bind]. unfold readCanary, h5_data. rewrite fset_eq.
    eexists. reflexivity.
Qed.
Print Assumptions C50_open_refuted.

(** ** C81 *)
(** Of entries appended one by one the last one is read, and each one is found by its number. *)
Theorem C81_last_entry : forall (R : cring) (l : list (step R)) n (xs : list Z),
  propers R (empty_store R) l -> good_name n -> inside R (want_steps R (empty_store R) l) n ->
  want_steps R (empty_store R) l n = None -> xs <> [] ->
  exists s f0 f g, ser_new R None TRUNC = Ok s /\ se_file R s = Some f0 /\ do_steps R f0 l = Ok f /\
    forM (List.length xs) 0 (fun i f => do x <- vget xs i ;; writeVectorEntry R f (CI x) n i) f = Ok g /\
    readLastVectorEntry R g n = Ok (last xs 0%Z) /\
    (forall i, (i < List.length xs)%nat -> read_int R g (n ++ lit "/" ++ print_nat i) = Ok (nth i xs 0%Z)).
Proof.
  intros R l n xs P G Is W X. destruct (inv_new R) as (f0 & s & Es & Ef & I0 & _).
  destruct (inv_steps R l f0 _ I0 P) as (f & El & If & _).
  pose proof (good_ne n G) as Nn.
  destruct (append_ok R f n xs Nn) as (g & E & H & Sz & A & _); auto; [eapply inv_fresh; eauto|eapply inv_par; eauto|].
  exists s, f0, f, g. split; auto. split; auto. split; auto. split; auto. split.
  - apply append_last; auto.
  - intros i Hi. apply (has_int R g n (print_nat i)); auto.
Qed.
Print Assumptions C81_last_entry.
Example C81_nonvacuous : good_name (lit "g/new") /\ inside Zring (want_steps Zring (empty_store Zring) ex_steps) (lit "g/new") /\
  want_steps Zring (empty_store Zring) ex_steps (lit "g/new") = None /\ [3; 1; 4]%Z <> [].
Proof.
  split; [good [lit "g"; lit "new"]|]. split; [|split; [reflexivity|discriminate]].
  right. exists (lit "g"), (lit "new"). split; [reflexivity|]. split; [apply okc_ok; reflexivity|reflexivity].
Qed.
