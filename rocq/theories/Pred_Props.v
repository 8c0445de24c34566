(** C53: predicates. *)
From Coq Require Import Ascii String.
From Verif Require Import Prelude Str_Model Str_Spec Str_Proofs Ast_Model Ast_Spec Ast_Proofs Text_Model Pred_Model Pred_Spec Pred_Proofs.
Import List.

(** Every comma separated list of &-separated comparisons, for any variables: it is true exactly when one
    of its items has all its comparisons true. The values of the two sides of comparison number [j] of
    item number [k] are [vs !! k !! j]. Partial: names must not occur inside other tokens or inside the
    written values, and no divisor may be close to zero (see [meaning]). *)
Theorem C53_predicate_partial : forall V (A : arith V) (C : cmps V) (value : str -> V) names vals
    (items : list (list comparison)) (vs : list (list (V * V))),
  good_vars C value names vals ->
  (forall s, real_text s -> a_input A s = Ok (value s)) ->
  items <> [] -> ~ In [] items ->
  Forall2 (Forall2 (fun c xy => let '(l, op, r) := c in
    (denotes (vmeaning A value names vals) l (fst xy) /\ (Z.of_nat (tsize l) < 2 ^ 64)%Z /\ names_apart names l) /\
    (denotes (vmeaning A value names vals) r (snd xy) /\ (Z.of_nat (tsize r) < 2 ^ 64)%Z /\ names_apart names r) /\
    op_defined C op (fst xy) (snd xy))) items vs ->
  exists f0, forall fuel, f0 <= fuel ->
  exists b, predicate A C fuel (pred_text items) names vals = Ok b /\
    (b = true <-> exists k item xys, nth_error items k = Some item /\ nth_error vs k = Some xys /\
      Forall2 (fun c xy => let '(l, op, r) := c in op_true C op (fst xy) (snd xy)) item xys).
Proof.
  intros V A C value names vals items vs G HA _ Hn H.
  exact (predicate_ok A C value names vals G HA items vs H Hn).
Qed.
Print Assumptions C53_predicate_partial.

(** The empty predicate is false. *)
Theorem C53_empty : forall V (A : arith V) (C : cmps V) fuel names vals, predicate A C fuel [] names vals = Ok false.
Proof. reflexivity. Qed.
Print Assumptions C53_empty.

(** Integers below 2^31 as values *)
Definition Zarith : arith Z :=
  mkarith Z Z.add Z.sub Z.mul Z.quot (fun y => (y =? 0)%Z) (fun x y => if (y =? 0)%Z then x else Z.modulo x y)
    (fun x => x) (fun x => x) (fun x => x) (fun x => x) (fun x => negb (x =? 0)%Z)
    (input_real dec_val).
Definition Zcmps : cmps Z := mkcmps Z Z.eqb Z.ltb Z.leb (fun x => Ok (x mod 18446744073709551616)%Z) print_Z.

(** A name that occurs in a function name is replaced there too: "log:l>0" with l = 7 is taken for
    "7og:7>0", which is refused. *)
Theorem C53_function_refuted : forall fuel, 20 <= fuel -> predicate Zarith Zcmps fuel (lit "log:l>0") [lit "l"] [7%Z] = Throw.
Proof.
  intros fuel H. do 20 (destruct fuel as [|fuel]; [lia|]). vm_compute. reflexivity.
Qed.
Print Assumptions C53_function_refuted.

(** If the written value contains the name, the replacement never ends: the name "e" and 1e-05. *)
Theorem C53_loop_refuted : forall fuel, replaceVariable fuel (lit "e") (lit "e") (lit "1e-05") = OutOfFuel.
Proof.
  assert (H : forall fuel a b, ~ In "e"%char a -> replaceVariable fuel (a ++ "e"%char :: b) (lit "e") (lit "1e-05") = OutOfFuel).
  { induction fuel as [|fuel IH]; intros a b Ha; [reflexivity|]. cbn [replaceVariable].
    assert (F : forall s, ~ In "e"%char s -> find_sub (lit "e") (s ++ "e"%char :: b) = Some (List.length s)).
    { induction s as [|x s IHs]; intros Hs; [reflexivity|]. cbn [app find_sub List.length]. change (lit "e") with ["e"%char] in *. cbn [prefixb].
      destruct (Ascii.eqb_spec "e"%char x) as [<-|]; [exfalso; apply Hs; left; auto|]. cbn [andb]. rewrite IHs by (intros X; apply Hs; right; auto). reflexivity. }
    unfold str_find. destruct (Nat.ltb_spec (List.length (a ++ "e"%char :: b)) 0); [lia|]. cbn [skipn]. rewrite F by auto. cbn [option_map Nat.add].
    assert (P1 : (if List.length a =? 0 then Ok [] else substr (a ++ "e"%char :: b) 0 (Some (List.length a))) = Ok a).
    { destruct (Nat.eqb_spec (List.length a) 0) as [E|]; [destruct a; [auto|discriminate]|]. pose proof (substr_at [] (a ++ "e"%char :: b) (List.length a)) as S0. cbn [app List.length] in S0. rewrite S0.
      rewrite firstn_app, firstn_all, Nat.sub_diag. cbn [firstn]. rewrite app_nil_r. auto. }
    rewrite P1. cbn [bind]. change (List.length (lit "e")) with 1.
    assert (P2 : exists c, substr (a ++ "e"%char :: b) (List.length a + 1) (Some (List.length (a ++ "e"%char :: b) - 1 - List.length a)) = Ok c).
    { unfold substr. rewrite app_length. cbn [List.length]. destruct (Nat.ltb_spec (List.length a + S (List.length b)) (List.length a + 1)); [lia|]. eauto. }
    destruct P2 as (c & P2). rewrite P2. cbn [bind]. change (lit "1e-05") with (["1"%char] ++ "e"%char :: lit "-05").
    rewrite <- app_assoc, app_assoc. change (("e"%char :: lit "-05") ++ c) with ("e"%char :: (lit "-05" ++ c)). apply IH.
    intros X. apply in_app_or in X. destruct X as [X|[X|[]]]; [auto|discriminate]. }
  intros fuel. apply (H fuel [] []). auto.
Qed.
Print Assumptions C53_loop_refuted.

(** The example of the documentation, "M=2,l%%2&l!=0,l>=7,l<11", is refused because of its setting; without
    the setting it is true of every value from 0 to 20, also of 0, 1, 3 and 5. *)
Theorem C53_documented_refuted : forall fuel, 60 <= fuel ->
  predicate Zarith Zcmps fuel (lit "M=2,l%%2&l!=0,l>=7,l<11") [lit "l"] [2%Z] = Throw /\
  forall z, (0 <= z <= 20)%Z -> predicate Zarith Zcmps fuel (lit "l%%2&l!=0,l>=7,l<11") [lit "l"] [z] = Ok true.
Proof.
  intros fuel H. do 60 (destruct fuel as [|fuel]; [lia|]). split; [vm_compute; reflexivity|].
  intros z Hz. assert (E : In z (map Z.of_nat (seq 0 21))).
  { replace z with (Z.of_nat (Z.to_nat z)) by lia. apply in_map. apply in_seq. lia. }
  cbn [map seq] in E. repeat (destruct E as [<-|E]; [vm_compute; reflexivity|]). contradiction.
Qed.
Print Assumptions C53_documented_refuted.

(** A divisor of zero in %% is not checked. *)
Theorem C53_zero_refuted : forall fuel, 20 <= fuel -> predicate Zarith Zcmps fuel (lit "l%%0") [lit "l"] [4%Z] = UB.
Proof. intros fuel H. do 20 (destruct fuel as [|fuel]; [lia|]). vm_compute. reflexivity. Qed.
Print Assumptions C53_zero_refuted.

(** "%:x:3==1&y>=10,+:x:y<5" with x = 7 and y = 12: the first item holds *)
Definition leaf (s : string) : tree := T (lit s) [].
Definition ex_items : list (list comparison) :=
  [[(T (lit "%") [leaf "x"; leaf "3"], lit "==", leaf "1"); (leaf "y", lit ">=", leaf "10")];
   [(T (lit "+") [leaf "x"; leaf "y"], lit "<", leaf "5")]].
Example C53_nonvacuous :
  pred_text ex_items = lit "%:x:3==1&y>=10,+:x:y<5" /\
  good_vars Zcmps dec_val [lit "x"; lit "y"] [7; 12]%Z /\
  Forall2 (Forall2 (fun c xy => let '(l, op, r) := c in
    (denotes (vmeaning Zarith dec_val [lit "x"; lit "y"] [7; 12]%Z) l (fst xy) /\ (Z.of_nat (tsize l) < 2 ^ 64)%Z /\ names_apart [lit "x"; lit "y"] l) /\
    (denotes (vmeaning Zarith dec_val [lit "x"; lit "y"] [7; 12]%Z) r (snd xy) /\ (Z.of_nat (tsize r) < 2 ^ 64)%Z /\ names_apart [lit "x"; lit "y"] r) /\
    op_defined Zcmps op (fst xy) (snd xy))) ex_items [[(1, 1); (12, 10)]; [(19, 5)]]%Z /\
  predicate Zarith Zcmps 100 (pred_text ex_items) [lit "x"; lit "y"] [7; 12]%Z = Ok true.
Proof.
  split; [vm_compute; reflexivity|].
  assert (Cn : forall (n : ascii) s, contains [n] s -> In n s).
  { intros n s (i & a & b & -> & _). apply in_or_app. right. left. auto. }
  assert (Ap : forall t, forallb (fun l => forallb (fun n => str_eqb n l || negb (existsb (Ascii.eqb (hd " "%char n)) l)) [lit "x"; lit "y"]) (level_order t) = true ->
               names_apart [lit "x"; lit "y"] t).
  { intros t Ht n l Hn Hl Hc. rewrite forallb_forall in Ht. specialize (Ht l Hl). rewrite forallb_forall in Ht. specialize (Ht n Hn). apply Bool.orb_true_iff in Ht.
    destruct Ht as [Ht|Ht]; [apply str_eqb_eq; auto|]. exfalso. apply Bool.negb_true_iff in Ht.
    destruct Hn as [<-|[<-|[]]]; (apply Cn in Hc; cbn [hd lit list_ascii_of_string] in Ht; assert (X : existsb (Ascii.eqb _) l = true) by (apply existsb_exists; eexists; split; [exact Hc|apply Ascii.eqb_refl]); rewrite X in Ht; discriminate). }
  assert (Num : forall s, (forall c, In c s -> is_digit c) -> s <> [] -> real_text s).
  { intros s H1 H2. split; [intros c Hc; left; auto|]. destruct s as [|c s]; [congruence|]. exists c. split; [left; auto|]. apply H1. left; auto. }
  assert (Leaf : forall s, (forall c, In c s -> is_digit c) -> s <> [] -> denotes (vmeaning Zarith dec_val [lit "x"; lit "y"] [7; 12]%Z) (T s []) (dec_val s)).
  { intros s H1 H2. apply (denotes_T _ s [] []); [constructor|]. apply vm_tok; [|apply m_num; apply Num; auto].
    intros [E|[E|[]]]; subst s; specialize (H1 _ (or_introl eq_refl)); unfold is_digit in H1; cbn in H1; intuition discriminate. }
  assert (Vx : denotes (vmeaning Zarith dec_val [lit "x"; lit "y"] [7; 12]%Z) (leaf "x") 7%Z).
  { apply (denotes_T _ _ [] []); [constructor|]. apply (vm_var _ _ _ _ 0); reflexivity. }
  assert (Vy : denotes (vmeaning Zarith dec_val [lit "x"; lit "y"] [7; 12]%Z) (leaf "y") 12%Z).
  { apply (denotes_T _ _ [] []); [constructor|]. apply (vm_var _ _ _ _ 1); reflexivity. }
  assert (Dig : forall s, forallb isdigit s = true -> forall c, In c s -> is_digit c).
  { intros s Hs c Hc. rewrite forallb_forall in Hs. apply isdigit_In. auto. }
  split.
  { constructor.
    - reflexivity.
    - intros n c [<-|[<-|[]]] [<-|[]] X; cbn in X; intuition discriminate.
    - intros [E|[E|[]]]; discriminate.
    - constructor; [intros [E|[]]; discriminate|]. constructor; [intros []|constructor].
    - intros n v [<-|[<-|[]]] [<-|[<-|[]]] Hc; apply Cn in Hc; vm_compute in Hc; intuition discriminate.
    - intros v [<-|[<-|[]]]; (split; [apply Num; [apply Dig; vm_compute; reflexivity|discriminate]|vm_compute; reflexivity]). }
  split.
  { constructor; [constructor; [|constructor; [|constructor]]|constructor; [constructor; [|constructor]|constructor]]; cbn [fst snd].
    - split; [|split].
      + split; [|split; [vm_compute; reflexivity|apply Ap; vm_compute; reflexivity]].
        apply (denotes_T _ _ _ [7; 3]%Z); [|apply vm_tok; [intros [E|[E|[]]]; discriminate|apply (m_mod Zarith dec_val 7%Z 3%Z)]].
        constructor; [exact Vx|]. constructor; [|constructor]. apply (Leaf (lit "3")); [apply Dig; vm_compute; reflexivity|discriminate].
      + split; [|split; [vm_compute; reflexivity|apply Ap; vm_compute; reflexivity]]. apply (Leaf (lit "1")); [apply Dig; vm_compute; reflexivity|discriminate].
      + left. cbn. tauto.
    - split; [|split].
      + split; [exact Vy|split; [vm_compute; reflexivity|apply Ap; vm_compute; reflexivity]].
      + split; [|split; [vm_compute; reflexivity|apply Ap; vm_compute; reflexivity]]. apply (Leaf (lit "10")); [apply Dig; vm_compute; reflexivity|discriminate].
      + left. cbn. tauto.
    - split; [|split].
      + split; [|split; [vm_compute; reflexivity|apply Ap; vm_compute; reflexivity]].
        apply (denotes_T _ _ _ [7; 12]%Z); [|apply vm_tok; [intros [E|[E|[]]]; discriminate|apply (m_plus Zarith dec_val 7%Z 12%Z)]].
        constructor; [exact Vx|]. constructor; [exact Vy|constructor].
      + split; [|split; [vm_compute; reflexivity|apply Ap; vm_compute; reflexivity]]. apply (Leaf (lit "5")); [apply Dig; vm_compute; reflexivity|discriminate].
      + left. cbn. tauto. }
  vm_compute. reflexivity.
Qed.
