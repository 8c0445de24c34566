(** Theorems about copying an object with what it points to. *)
From Coq Require Import ZArith List Bool Lia.
From Verif Require Import Prelude Mres_Model Mres_Spec Mres_Proofs.
Import ListNotations.
Local Open Scope Z_scope.

(** * C99 *)

(** dup copies chunks given in order of address into the new block: data is the
    same, null pointers are null, and every other pointer points, in the copy, to
    the copy of what it pointed to. *)
Theorem C99_dup_partial : forall mem dst r,
  let cs := mr_chunks r in
  mr_intoOffset r = 0 -> cs <> [] -> in_order (first_ptr cs) cs -> complete mem cs ->
  0 <= dst -> dst + layout_size cs < 2 ^ 64 ->
  exists r' block, mr_dup mem dst r = Ok (r', dst) /\ mr_garbage r' = mr_garbage r ++ [(dst, block)] /\
    Z.of_nat (length block) = layout_size cs /\
    let mem' := with_block mem (dst, block) in
    (forall a b, data_at cs a -> moved cs dst a b -> mem' b = mem a) /\
    (forall a b, pointer_at cs a -> moved cs dst a b -> word_at mem a = 0 -> word_at mem' b = 0) /\
    (forall a b, pointer_at cs a -> moved cs dst a b -> word_at mem a <> 0 ->
       moved cs dst (word_at mem a) (word_at mem' b)).
Proof.
  intros mem dst r cs I0 Hne Ho Hc Hd Hs. destruct (dup_image mem r Hne Ho Hc) as (z & H & _).
  destruct (H dst) as (r' & E & G & _). exists r', (image mem z dst cs).
  rewrite I0, Z.add_0_r in E. split; [exact E|]. split; [exact G|].
  split; [apply block_length; auto|]. cbv zeta. split; [|split].
  - intros a b. apply copy_data; auto.
  - intros a b. apply copy_null; auto.
  - intros a b. apply copy_pointer; auto.
Qed.
Print Assumptions C99_dup_partial.

(** So a walk along pointers that stays within the chunks, from the object and
    from its copy, ends at an address and at its copy, however long it is. *)
Theorem C99_walk : forall mem dst r,
  let cs := mr_chunks r in
  mr_intoOffset r = 0 -> cs <> [] -> in_order (first_ptr cs) cs -> complete mem cs ->
  0 <= dst -> dst + layout_size cs < 2 ^ 64 ->
  exists r' block, mr_dup mem dst r = Ok (r', dst) /\ mr_garbage r' = mr_garbage r ++ [(dst, block)] /\
    forall path a b, moved cs dst a b -> walkable mem cs a path ->
      moved cs dst (walk mem a path) (walk (with_block mem (dst, block)) b path).
Proof.
  intros mem dst r cs I0 Hne Ho Hc Hd Hs. destruct (dup_image mem r Hne Ho Hc) as (z & H & _).
  destruct (H dst) as (r' & E & G & _). exists r', (image mem z dst cs).
  rewrite I0, Z.add_0_r in E. split; [exact E|]. split; [exact G|].
  intros path a b. apply copy_walk; auto.
Qed.
Print Assumptions C99_walk.

(** The copy of an address is unique, lies in the block or just past its end, and
    has the alignment of the original, up to eight bytes, if the block has that of
    the first chunk. *)
Theorem C99_moved : forall mem cs dst a b,
  cs <> [] -> in_order (first_ptr cs) cs -> complete mem cs -> moved cs dst a b ->
  dst <= b <= dst + layout_size cs /\ (forall b', moved cs dst a b' -> b' = b) /\
  (dst mod 8 = first_ptr cs mod 8 -> b mod 8 = a mod 8).
Proof.
  intros mem cs dst a b Hne Ho Hc Hm. split; [|split].
  - apply (moved_bounds mem dst cs (0, 0) Hne Ho Hc a b Hm).
  - intros b' Hm'. apply (moved_fun dst cs Ho a b' b Hm' Hm).
  - intros Ha. destruct Hm as (c & p & Hin & _ & ->).
    pose proof (places_aligned cs 0 (first_ptr cs) c p Hin) as E.
    assert (D : (dst - first_ptr cs) mod 8 = 0) by (rewrite Zminus_mod, Ha, Z.sub_diag; reflexivity).
    replace (dst + p + (a - ck_ptr c)) with
      (a + ((dst - first_ptr cs) + (p - 0 - (ck_ptr c - first_ptr cs)))) by lia.
    rewrite Zplus_mod, (Zplus_mod (dst - first_ptr cs)), D, E. cbn [Z.add Z.modulo Z.div_eucl fst snd].
    rewrite Z.add_0_r, Zmod_mod. reflexivity.
Qed.
Print Assumptions C99_moved.

(** A chunk given before one at a lower address, or before one that starts inside
    it, makes dup throw: the chunks are never sorted. *)
Theorem C99_order_refuted : forall mem dst r l1 c1 c2 l2,
  mr_chunks r = l1 ++ c1 :: c2 :: l2 -> ck_ptr c2 < ck_ptr c1 + ck_len c1 ->
  mr_dup mem dst r = Throw.
Proof. exact dup_throw. Qed.
Print Assumptions C99_order_refuted.

(** In particular no vector of two or more vectors, the first not empty, can be
    copied, wherever its parts lie. *)
Theorem C99_nested_refuted : forall mem dst size v,
  let b := word_at mem v in
  let n0 := (word_at mem (b + 8) - word_at mem b) / size in
  2 <= (word_at mem (v + 8) - b) / 24 -> 0 < size * n0 < 2 ^ 32 -> v <> b -> v <> b + 24 ->
  mr_dup mem dst (mr_vectors mem mr_new size v) = Throw.
Proof.
  intros mem dst size v b n0 Hn H0 N1 N2. unfold mr_vectors. fold b.
  destruct (Z.to_nat ((word_at mem (v + 8) - b) / 24)) as [|[|k]] eqn:Ek; [lia|lia|].
  cbn [mr_vectors_loop].
  set (r0 := mr_push mr_new MEMORY_HEAPPTR 24 v).
  assert (E0 : mr_chunks r0 = [mkchunk MEMORY_HEAPPTR 24 v]) by reflexivity.
  unfold mr_vector at 2. fold n0. destruct (Z.eqb_spec (size * n0) 0); [lia|].
  set (r1 := mr_push r0 MEMORY_HEAPPTR 24 b).
  assert (E1 : mr_chunks r1 = [mkchunk MEMORY_HEAPPTR 24 v; mkchunk MEMORY_HEAPPTR 24 b]).
  { unfold r1. rewrite push_fresh; rewrite E0; [reflexivity|]. intros [E|[]]. injection E as E. contradiction. }
  set (r2 := mr_push r1 MEMORY_DATA (size * n0) (word_at mem b)).
  assert (E2 : mr_chunks r2 = mr_chunks r1 ++ [mkchunk MEMORY_DATA (size * n0) (word_at mem b)]).
  { unfold r2. rewrite push_fresh; rewrite (Z.mod_small (size * n0)) by lia; [reflexivity|].
    rewrite E1. intros [E|[E|[]]]; discriminate E. }
  assert (E3 : exists l, mr_chunks (mr_vector mem r2 size (b + 24)) =
     mr_chunks r2 ++ mkchunk MEMORY_HEAPPTR 24 (b + 24) :: l).
  { unfold mr_vector.
    assert (E3 : mr_chunks (mr_push r2 MEMORY_HEAPPTR 24 (b + 24)) =
              mr_chunks r2 ++ [mkchunk MEMORY_HEAPPTR 24 (b + 24)]).
    { rewrite push_fresh; [reflexivity|]. rewrite E2, E1. cbn [app].
      intros [E|[E|[E|[]]]]; [injection E as E; contradiction|injection E as E; lia|discriminate E]. }
    destruct (_ =? 0); [exists []; exact E3|].
    edestruct (push_app (mr_push r2 MEMORY_HEAPPTR 24 (b + 24))) as (l & E). rewrite E, E3, <- app_assoc.
    eexists. reflexivity. }
  destruct E3 as (l & E3).
  destruct (vectors_app k mem (mr_vector mem r2 size (b + 24)) size (b + 24 + 24)) as (l' & E4).
  rewrite E3, E2, E1 in E4. cbn [app] in E4.
  destruct (Z.ltb_spec (word_at mem b) (b + 24)).
  - eapply (dup_throw mem dst _ [_] _ _ _ E4). cbn [ck_ptr ck_len]. lia.
  - eapply (dup_throw mem dst _ [_; _] _ _ _ E4). cbn [ck_ptr ck_len]. lia.
Qed.
Print Assumptions C99_nested_refuted.

(** A vector of numbers whose elements lie after it is copied: the copy has its own
    elements, as many and with the same values. *)
Theorem C99_vector : forall mem dst size v n,
  let b := word_at mem v in
  0 <= v -> v + 24 <= b -> 0 < size -> 0 < size * n < 2 ^ 32 ->
  word_at mem (v + 8) = b + size * n -> word_at mem (v + 16) = b + size * n ->
  0 <= dst -> dst + size * n + 32 < 2 ^ 64 ->
  exists r' block b', mr_dup mem dst (mr_vector mem mr_new size v) = Ok (r', dst) /\
    mr_garbage r' = [(dst, block)] /\
    let mem' := with_block mem (dst, block) in
    word_at mem' dst = b' /\ word_at mem' (dst + 8) = b' + size * n /\ word_at mem' (dst + 16) = b' + size * n /\
    dst + 24 <= b' /\ b' + size * n <= dst + Z.of_nat (length block) /\
    forall k, 0 <= k < size * n -> mem' (b' + k) = mem (b + k).
Proof.
  intros mem dst size v n b Hv Hb Hsz Hn He Hr Hd Hs.
  assert (Ec : mr_chunks (mr_vector mem mr_new size v) =
    [mkchunk MEMORY_HEAPPTR 24 v; mkchunk MEMORY_DATA (size * n) b]).
  { unfold mr_vector. rewrite He. fold b. replace (b + size * n - b) with (n * size) by lia.
    rewrite Z.div_mul by lia. destruct (Z.eqb_spec (size * n) 0); [lia|].
    rewrite push_fresh; rewrite (Z.mod_small (size * n)) by lia; [reflexivity|].
    cbn [ck_type ck_ptr ck_len in_order first_ptr In]. intros [E|[]]. discriminate E. }
  assert (Eg : mr_garbage (mr_vector mem mr_new size v) = []).
  { unfold mr_vector. destruct (_ =? 0); [reflexivity|]. unfold mr_push at 1. destruct (existsb _ _); reflexivity. }
  assert (Ei : mr_intoOffset (mr_vector mem mr_new size v) = 0).
  { unfold mr_vector. destruct (_ =? 0); [reflexivity|]. unfold mr_push at 1. destruct (existsb _ _); reflexivity. }
  set (g := (b - (v + 24)) mod 8). pose proof (Z.mod_pos_bound (b - (v + 24)) 8 ltac:(lia)) as Hg. fold g in Hg.
  assert (El : layout (mr_chunks (mr_vector mem mr_new size v)) =
    [(mkchunk MEMORY_HEAPPTR 24 v, 0); (mkchunk MEMORY_DATA (size * n) b, 24 + g)]).
  { rewrite Ec. unfold layout. cbn [first_ptr places ck_ptr ck_len]. rewrite Z.sub_diag. reflexivity. }
  assert (Es : layout_size (mr_chunks (mr_vector mem mr_new size v)) = 24 + g + size * n).
  { unfold layout_size. rewrite El. reflexivity. }
  assert (Hp : forall a, pointer_at (mr_chunks (mr_vector mem mr_new size v)) a <-> a = v \/ a = v + 8 \/ a = v + 16).
  { intros a. rewrite Ec. split.
    - intros (c & k & [<-|[<-|[]]] & T & K0 & K & ->); cbn [ck_type ck_ptr ck_len] in *; [|discriminate T].
      assert (k = 0 \/ k = 1 \/ k = 2) by lia. lia.
    - intros H. exists (mkchunk MEMORY_HEAPPTR 24 v), ((a - v) / 8). split; [left; reflexivity|]. cbn.
      split; [reflexivity|].
      destruct H as [->|[->| ->]];
        [replace ((v - v) / 8) with 0 by (rewrite Z.sub_diag; reflexivity)|
         replace ((v + 8 - v) / 8) with 1 by (replace (v + 8 - v) with 8 by lia; reflexivity)|
         replace ((v + 16 - v) / 8) with 2 by (replace (v + 16 - v) with 16 by lia; reflexivity)]; lia. }
  destruct (C99_dup_partial mem dst (mr_vector mem mr_new size v)) as (r' & block & E1 & E2 & E3 & D & _ & P); auto.
  - rewrite Ec. discriminate.
  - rewrite Ec. cbn [ck_type ck_ptr ck_len in_order first_ptr In]. lia.
  - split.
    + rewrite Ec. intros c [<-|[<-|[]]] T; [reflexivity|discriminate T].
    + intros a Ha. apply Hp in Ha. right. exists (mkchunk MEMORY_DATA (size * n) b). rewrite Ec.
      split; [right; left; reflexivity|]. cbn [ck_type ck_ptr ck_len in_order first_ptr In]. destruct Ha as [->|[->| ->]]; rewrite ?He, ?Hr; fold b; lia.
  - rewrite Es. lia.
  - rewrite Eg in E2. exists r', block, (dst + (24 + g)). split; [exact E1|]. split; [exact E2|].
    cbv zeta in *. rewrite Es in E3.
    assert (M : forall o, 0 <= o <= 24 -> moved (mr_chunks (mr_vector mem mr_new size v)) dst (v + o) (dst + o)).
    { intros o Ho. exists (mkchunk MEMORY_HEAPPTR 24 v), 0. rewrite El. split; [left; reflexivity|]. cbn [ck_type ck_ptr ck_len in_order first_ptr In]. lia. }
    assert (Mb : forall o, 0 <= o <= size * n ->
      moved (mr_chunks (mr_vector mem mr_new size v)) dst (b + o) (dst + (24 + g) + o)).
    { intros o Ho. exists (mkchunk MEMORY_DATA (size * n) b), (24 + g). rewrite El.
      split; [right; left; reflexivity|]. cbn [ck_type ck_ptr ck_len in_order first_ptr In]. lia. }
    assert (U : forall a x y, moved (mr_chunks (mr_vector mem mr_new size v)) dst a x ->
      moved (mr_chunks (mr_vector mem mr_new size v)) dst a y -> x = y).
    { intros a x y. apply moved_fun. rewrite Ec. cbn [ck_type ck_ptr ck_len in_order first_ptr In]. lia. }
    assert (W : forall o w, o = 0 \/ o = 8 \/ o = 16 -> word_at mem (v + o) = b + w -> 0 <= w <= size * n ->
      word_at (with_block mem (dst, block)) (dst + o) = dst + (24 + g) + w).
    { intros o w Ho Ew Hw. eapply U; [|apply Mb; exact Hw]. rewrite <- Ew. apply P.
      - apply Hp. lia.
      - apply M. lia.
      - lia. }
    split; [|split; [|split; [|split; [|split]]]].
    + replace dst with (dst + 0) at 2 by lia. rewrite (W 0 0); [lia|auto|rewrite Z.add_0_r; fold b; lia|lia].
    + apply W; [auto|exact He|lia].
    + apply W; [auto|exact Hr|lia].
    + lia.
    + lia.
    + intros k Hk. apply D; [|apply Mb; lia].
      exists (mkchunk MEMORY_DATA (size * n) b). rewrite Ec. split; [right; left; reflexivity|]. cbn.
      split; [discriminate|lia].
Qed.
Print Assumptions C99_vector.

(** What dup does not do: a pointer that points outside of all chunks points, in
    the copy, neither there nor into the block; an empty chunk at the end makes it
    throw; a vector of 2^32 bytes is taken as having none. *)
Theorem C99_chunks_refuted :
  (let mem := fun a => if a =? 1001 then 1 else 0 in
   let r := mr_push mr_new MEMORY_HEAPPTR 8 1000 in
   word_at mem 1000 = 256 /\
   exists r' block, mr_dup mem 9000 r = Ok (r', 9000) /\ mr_garbage r' = [(9000, block)] /\
     length block = 8%nat /\ word_at (with_block mem (9000, block)) 9000 = 8256) /\
  mr_dup (fun _ => 0) 9000 (mr_push (mr_push mr_new MEMORY_DATA 8 1000) MEMORY_DATA 0 1008) = Throw /\
  (forall p, mr_chunks (mr_push mr_new MEMORY_DATA (2 ^ 32) p) = [mkchunk MEMORY_DATA 0 p]).
Proof.
  split; [|split; [vm_compute; reflexivity|intros p; reflexivity]].
  split; [vm_compute; reflexivity|].
  do 2 eexists. repeat split; vm_compute; reflexivity.
Qed.
Print Assumptions C99_chunks_refuted.

(** Giving a chunk again changes nothing, and no chunk is there twice. *)
Theorem C99_push : forall r t n p,
  let r' := mr_push r t n p in
  mr_push r' t n p = r' /\ In (mkchunk t (n mod 2 ^ 32) p) (mr_chunks r') /\
  (forall c, In c (mr_chunks r') <-> In c (mr_chunks r) \/ c = mkchunk t (n mod 2 ^ 32) p) /\
  (NoDup (mr_chunks r) -> NoDup (mr_chunks r')).
Proof.
  intros r t n p r'. assert (I : In (mkchunk t (n mod 2 ^ 32) p) (mr_chunks r')).
  { unfold r', mr_push. destruct (existsb _ _) eqn:E; [apply existsb_chunk; exact E|].
    cbn [mr_chunks]. apply in_or_app. right. left. reflexivity. }
  split; [|split; [exact I|split]].
  - unfold mr_push at 1. apply existsb_chunk in I. rewrite I. reflexivity.
  - intros c. unfold r', mr_push. destruct (existsb _ _) eqn:E.
    + apply existsb_chunk in E. split; [auto|]. intros [H| ->]; auto.
    + cbn [mr_chunks]. rewrite in_app_iff. cbn. split; intros [H|H]; auto. destruct H as [->|[]]; auto.
  - intros H. unfold r', mr_push. destruct (existsb _ _) eqn:E; [exact H|]. cbn [mr_chunks].
    assert (N : ~ In (mkchunk t (n mod 2 ^ 32) p) (mr_chunks r)).
    { intros H'. apply existsb_chunk in H'. rewrite H' in E. discriminate E. }
    clear - H N. induction (mr_chunks r) as [|x l IH]; cbn; [constructor; [intros []|constructor]|].
    inversion H as [|? ? H1 H2]; subst. constructor.
    + rewrite in_app_iff. intros [H'|[H'|[]]]; [contradiction|]. subst. apply N. left. reflexivity.
    + apply IH; auto. intros H'. apply N. right. exact H'.
Qed.
Print Assumptions C99_push.

(** A pair of integers of four bytes is not covered by its chunks: its second half
    is taken to be eight bytes after the first. *)
Theorem C99_pair_refuted : forall mem c,
  exists mem' r, mr_pair mem mr_new 4 4 c = Ok (mem', r, 8) /\
    mr_chunks r = [mkchunk MEMORY_DATA 4 c; mkchunk MEMORY_DATA 4 (c + 8)] /\
    ~ data_at (mr_chunks r) (c + 4).
Proof.
  intros mem c.
  assert (E : existsb (chunk_eqb (mkchunk MEMORY_DATA 4 (c + 8))) [mkchunk MEMORY_DATA 4 c] = false).
  { cbn. destruct (Z.eqb_spec (c + 8) c); [lia|reflexivity]. }
  do 2 eexists. split; [unfold mr_pair, mr_fundamental; cbn [Z.leb Z.compare Pos.compare Pos.compare_cont bind]; reflexivity|].
  assert (Ec : mr_chunks (mr_push (mkmr 0 0 (1, 0) [mkchunk MEMORY_DATA 4 c] []) MEMORY_DATA 4 (c + 8)) =
    [mkchunk MEMORY_DATA 4 c; mkchunk MEMORY_DATA 4 (c + 8)]).
  { rewrite push_fresh; [reflexivity|]. cbn. intros [H|[]]. injection H as H. lia. }
  split; [exact Ec|].
  match goal with |- ~ data_at ?l _ => change l with (mr_chunks (mr_push (mkmr 0 0 (1, 0) [mkchunk MEMORY_DATA 4 c] []) MEMORY_DATA 4 (c + 8))) end.
  rewrite Ec. intros (x & [<-|[<-|[]]] & _ & H); cbn in H; lia.
Qed.
Print Assumptions C99_pair_refuted.

(** save, and then loading with the same label, gives back the bytes of the copy
    that dup makes at the address of the original; get gives their address. *)
Theorem C99_save_load : forall mem r label new,
  let cs := mr_chunks r in
  mr_intoOffset r = 0 -> cs <> [] -> in_order (first_ptr cs) cs -> complete mem cs ->
  mr_garbage r <> [] -> (length label <= 128)%nat ->
  exists f r1 r2 block, mr_save mem r label = Ok f /\ mf_data f = block /\
    mr_dup mem (first_ptr cs) r = Ok (r1, first_ptr cs) /\
    mr_garbage r1 = mr_garbage r ++ [(first_ptr cs, block)] /\
    mr_load f label new = Ok r2 /\ mr_garbage r2 = [(new, block)] /\ mr_get r2 = Ok new.
Proof.
  intros mem r label new cs I0 Hne Ho Hc Hg Hl. destruct (dup_image mem r Hne Ho Hc) as (z & H & S).
  destruct (H (first_ptr cs)) as (r1 & E1 & G1 & _). rewrite I0, Z.add_0_r in E1.
  destruct (S Hg label Hl) as (info & Es).
  assert (L : length (padLabel label) = 128%nat).
  { unfold padLabel, LABEL_LENGTH. rewrite app_length, repeat_length. lia. }
  eexists _, r1, _, _. split; [exact Es|]. split; [reflexivity|]. split; [exact E1|]. split; [exact G1|].
  split.
  - unfold mr_load. cbn [mf_lenOfLabel mf_label mf_into mf_refText mf_chunks mf_len mf_data].
    rewrite L. change LABEL_LENGTH with 128%nat. rewrite Z.eqb_refl. cbn [negb].
    unfold stringEqual. rewrite Nat.eqb_refl, stringEqual_refl. cbn [negb]. reflexivity.
  - cbn [mr_garbage mr_get]. fold cs. rewrite firstn_all2.
    + split; [reflexivity|]. unfold mr_get. cbn [mr_garbage mr_intoOffset fst]. rewrite I0, Z.add_0_r. reflexivity.
    + rewrite <- (block_length mem (first_ptr cs) cs z Hne Ho Hc). lia.
Qed.
Print Assumptions C99_save_load.

(** The chunks that a loaded object knows are the saved ones, with their kinds and lengths, at the
    addresses of the copy that dup makes at the address of the original. *)
Theorem C99_save_chunks : forall mem r label f new r2,
  let cs := mr_chunks r in
  cs <> [] -> in_order (first_ptr cs) cs -> complete mem cs ->
  0 <= first_ptr cs -> first_ptr cs + layout_size cs < 2 ^ 64 ->
  mr_save mem r label = Ok f -> mr_load f label new = Ok r2 ->
  Forall2 (fun c c' => ck_type c' = ck_type c /\ ck_len c' = ck_len c /\
             moved cs (first_ptr cs) (ck_ptr c) (ck_ptr c')) cs (mr_chunks r2).
Proof.
  intros mem r label f new r2 cs Hne Ho Hc H0 Hs E L.
  assert (E2 : mr_chunks r2 = mf_chunks f).
  { unfold mr_load in L. repeat match type of L with (if ?b then _ else _) = _ => destruct b; [discriminate|] end.
    apply Ok_inj in L. subst r2. reflexivity. }
  rewrite E2. clear L E2. unfold mr_save in E. fold cs in E.
  destruct (mr_garbage r) as [|g0 gs]; [discriminate|]. cbn [negb] in E.
  match type of E with (if ?b then _ else _) = _ => destruct b; [discriminate|] end.
  assert (Hcs : forall l, (forall c, In c l -> In c cs) -> forall offsets,
     (forall v, correctionForHoles v offsets 0 = correctionForHoles v (offs (first_ptr cs) cs) 0) ->
     Forall2 (fun c c' => ck_type c' = ck_type c /\ ck_len c' = ck_len c /\
             moved cs (first_ptr cs) (ck_ptr c) (ck_ptr c')) l (saveChunkInfo l offsets)).
  { intros l Hl offsets Heq. induction l as [|c l IH]; [constructor|]. cbn [saveChunkInfo map]. constructor.
    2: { apply IH. intros x Hx. apply Hl. right. exact Hx. }
    cbn [ck_type ck_len ck_ptr]. split; [reflexivity|]. split; [reflexivity|]. rewrite Heq.
    pose proof (words_all _ _ _ Ho Hc) as W. rewrite Forall_forall in W. assert (Ic : In c cs) by (apply Hl; left; reflexivity).
    assert (Hlen : 0 <= ck_len c).
    { clear -Ho Ic. revert Ho. generalize (first_ptr cs). induction cs as [|x xs IH]; intros e Ho; [destruct Ic|].
      destruct Ho as (O1 & O2 & O3). destruct Ic as [->|Ic]; [lia|eapply IH; eauto]. }
    destruct (moved_in (first_ptr cs) cs c (ck_ptr c) Ic ltac:(lia)) as (b & Hb).
    pose proof (moved_eq (first_ptr cs) cs Ho _ _ Hb) as Eb.
    pose proof (moved_bounds mem (first_ptr cs) cs (0, 0) Hne Ho Hc _ _ Hb) as Bb.
    assert (Eb' : ck_ptr c + correctionForHoles (ck_ptr c) (offs (first_ptr cs) cs) 0 = b) by lia.
    rewrite Eb'. rewrite (Z.mod_small b) by lia.
    destruct (Z.eqb_spec (ck_ptr c) 0) as [Ez|]; [|exact Hb].
    enough (Z0 : b = 0) by (rewrite Z0 in Hb; exact Hb). clear Eb.
    rewrite <- Eb', Ez. rewrite corr_zero by (auto; lia). reflexivity. }
  destruct cs as [|c cs'] eqn:Ecs; [contradiction|]. cbn [first_ptr] in *.
  pose proof Ho as (_ & Hl & Ho').
  cbn [findSizes] in E. destruct (findSizes_loop_ok cs' (ck_ptr c + ck_len c) (ck_len c) 1 [] Ho') as (mh & F & _ & _).
  rewrite F in E. cbn [bind app] in E. apply bind_ok in E as (data & _ & E). apply Ok_inj in E. subst f. cbn [mf_chunks].
  apply Hcs; [auto|]. intros v. cbn [offs correctionForHoles]. rewrite Z.sub_diag, Zmod_0_l, Z.sub_diag.
  destruct (Z.ltb_spec v (ck_ptr c)); [|reflexivity]. apply corr_zero; auto. lia.
Qed.
Print Assumptions C99_save_chunks.

(** The pointers are not adjusted to where the block is loaded: the vector loaded
    at address 50000 still points to where the original's copy would have been. *)
Theorem C99_load_refuted :
  let mem := fun a => nth (Z.to_nat (a - 1000)) (bytes_of 8 1032 ++ bytes_of 8 1034 ++ bytes_of 8 1034 ++ bytes_of 8 0 ++ [7; 9]) 0 in
  exists r r' f r2 block,
    mr_dup mem 9000 (mr_vector mem mr_new 1 1000) = Ok (r, 9000) /\ r' = r /\
    mr_save mem r' [65] = Ok f /\ mr_load f [65] 50000 = Ok r2 /\ mr_garbage r2 = [(50000, block)] /\
    length block = 26%nat /\ word_at (with_block mem (50000, block)) 50000 = 1024.
Proof. cbv zeta. do 5 eexists. repeat split; vm_compute; reflexivity. Qed.
Print Assumptions C99_load_refuted.

(** Loading with another label throws, and a label of more than 128 characters can
    be neither saved nor loaded. *)
Theorem C99_label : forall mem r label label' f new,
  mr_save mem r label = Ok f ->
  (length label <= 128)%nat /\
  ((forall x, In x label -> x <> 0) -> (forall x, In x label' -> x <> 0) -> label <> label' ->
   mr_load f label' new = Throw).
Proof.
  intros mem r label label' f new H. unfold mr_save in H.
  destruct (negb (match mr_garbage r with [] => true | _ => false end)); [|discriminate H].
  destruct (negb _) eqn:El in H; [discriminate H|]. apply negb_false_iff, Nat.eqb_eq in El.
  apply bind_ok in H as ([[total mh] offsets] & _ & H). apply bind_ok in H as (ref & _ & H).
  apply bind_ok in H as (data & _ & H). injection H as <-.
  assert (Ll : (length label <= 128)%nat).
  { unfold padLabel, LABEL_LENGTH in El. rewrite app_length, repeat_length in El. lia. }
  split; [exact Ll|]. intros N1 N2 Hne. unfold mr_load. cbn [mf_lenOfLabel mf_label].
  rewrite El, Z.eqb_refl. cbn [negb].
  destruct (Z.eqb_spec (Z.of_nat LABEL_LENGTH) (Z.of_nat (length (padLabel label')))) as [E|]; [|reflexivity].
  cbn [negb]. unfold stringEqual. rewrite El. apply Nat2Z.inj in E. rewrite <- E, Nat.eqb_refl. cbn [negb].
  destruct (stringEqual_loop _ _) eqn:Es; [|reflexivity]. exfalso. apply Hne.
  unfold padLabel in Es. eapply stringEqual_pad; [exact N1|exact N2| |exact Es].
  unfold padLabel in E. rewrite app_length, repeat_length in E. unfold LABEL_LENGTH in *. lia.
Qed.
Print Assumptions C99_label.

(** Asking for the size of a fundamental type changes only the padding after it,
    and covers it with one chunk. *)
Theorem C99_fundamental : forall mem size c x,
  0 <= size <= x -> x < 2 ^ 32 ->
  exists mem' r, mr_fundamental mem mr_new size c x = Ok (mem', r, x) /\
    mr_chunks r = [mkchunk MEMORY_DATA x c] /\
    (forall a, ~ (c + size <= a < c + x) -> mem' a = mem a) /\
    (forall a, c + size <= a < c + x -> mem' a = 0).
Proof.
  intros mem size c x H1 H2. do 2 eexists. unfold mr_fundamental. destruct (Z.leb_spec size x); [|lia].
  split; [reflexivity|]. split; [|split].
  - rewrite push_fresh; [rewrite Z.mod_small by lia; reflexivity|intros []].
  - intros a Ha. destruct (Z.leb_spec (c + size) a); [|reflexivity].
    destruct (Z.ltb_spec a (c + x)); [lia|reflexivity].
  - intros a Ha. destruct (Z.leb_spec (c + size) a); [|lia]. destruct (Z.ltb_spec a (c + x)); [|lia].
    cbn [andb]. unfold updateZeroes, mr_new. cbn [mr_zeroes fst snd]. destruct (_ =? _) ; reflexivity.
Qed.
Print Assumptions C99_fundamental.

Example C99_nonvacuous :
  let mem := fun a => nth (Z.to_nat (a - 1000)) (bytes_of 8 1035 ++ bytes_of 8 1037 ++ bytes_of 8 1037 ++ repeat 0 11 ++ [7; 9]) 0 in
  let cs := mr_chunks (mr_vector mem mr_new 1 1000) in
  cs = [mkchunk MEMORY_HEAPPTR 24 1000; mkchunk MEMORY_DATA 2 1035] /\ in_order (first_ptr cs) cs /\
  complete mem cs /\ moved cs 9000 1036 9028 /\ walkable mem cs 1000 [0] /\
  layout_size cs = 29.
Proof.
  cbv zeta.
  match goal with |- context [mr_chunks (mr_vector ?m mr_new 1 1000)] => set (mem := m) end.
  assert (Ec : mr_chunks (mr_vector mem mr_new 1 1000) =
     [mkchunk MEMORY_HEAPPTR 24 1000; mkchunk MEMORY_DATA 2 1035]) by (vm_compute; reflexivity).
  rewrite Ec. split; [reflexivity|]. split; [cbn; lia|].
  assert (W : word_at mem 1000 = 1035 /\ word_at mem 1008 = 1037 /\ word_at mem 1016 = 1037) by (vm_compute; auto).
  split; [|split; [|split; [|reflexivity]]].
  - split.
    + intros c [<-|[<-|[]]] T; [reflexivity|discriminate T].
    + intros a (c & k & [<-|[<-|[]]] & T & K0 & K & ->); cbn [ck_type ck_ptr ck_len] in *; [|discriminate T].
      right. exists (mkchunk MEMORY_DATA 2 1035). split; [right; left; reflexivity|]. cbn [ck_type ck_ptr ck_len].
      assert (k = 0 \/ k = 1 \/ k = 2) as [->|[->| ->]] by lia;
        [change (1000 + 8 * 0) with 1000|change (1000 + 8 * 1) with 1008|change (1000 + 8 * 2) with 1016]; lia.
  - exists (mkchunk MEMORY_DATA 2 1035), 27. split; [right; left; reflexivity|]. cbn [ck_type ck_ptr ck_len]. lia.
  - cbn [walkable]. rewrite Z.add_0_r. split; [|split; [|split; [lia|exact I]]].
    + exists (mkchunk MEMORY_HEAPPTR 24 1000). split; [left; reflexivity|]. cbn [ck_type ck_ptr ck_len]. lia.
    + exists (mkchunk MEMORY_HEAPPTR 24 1000), 0. split; [left; reflexivity|]. cbn [ck_type ck_ptr ck_len]. repeat split; lia.
Qed.
