(** C54: canonical expressions. *)
From Coq Require Import Ascii String.
From Verif Require Import Prelude Ring Str_Model Str_Spec Str_Proofs Ast_Model Ast_Spec Ast_Proofs Text_Model Pred_Spec Pred_Proofs Canon_Model Canon_Spec Canon_Proofs.
Import List.

(** A sum of terms, each with at least one item, is evaluated to the sum of the products of its factors.
    [Good] holds of the results that can be added and multiplied, such as square matrices of one size.
    Partial: every term needs an item, names must not look like numbers, and a minus sign is allowed only
    at the start of a term or of a parenthesis. *)
Theorem C54_sum_partial : forall (R : cring) (A : arith R) (value : str -> R) (im : option R) (pi_text : str)
    (X : Type) (item : str -> res X) isEmpty metaEqual (xadd xmul : X -> X -> X) (xscale : R -> X -> X) (Good : X -> Prop)
    ts x0 tvs result empty,
  (forall s, real_text s -> a_input A s = Ok (value s)) -> real_text pi_text ->
  (forall s x, item s = Ok x -> Good x) -> (forall x y, Good x -> Good y -> Good (xmul x y)) ->
  (forall r x, Good x -> Good (xscale r x)) -> (forall x y, Good x -> Good y -> Good (xadd x y)) ->
  (forall x, Good x -> isEmpty x = false) -> (forall x y, Good x -> Good y -> metaEqual x y = true) ->
  isEmpty empty = true -> (forall x, Good x -> metaEqual x result = true) ->
  Forall2 (fun fs v => exists p y ys, term_means R A value im pi_text item true fs p (y :: ys) /\ v = xscale p (fold_left xmul ys y)) ts (x0 :: tvs) ->
  exists f0, forall fuel, f0 <= fuel ->
  canonical R A value im pi_text item isEmpty metaEqual xadd xmul xscale fuel (expr_text ts) result empty = Ok (true, fold_left xadd tvs x0).
Proof.
  intros R A value im pi_text X item isEmpty metaEqual xadd xmul xscale Good ts x0 tvs result empty HA Hpi G1 G2 G3 G4 G5 G6 He Hm H.
  eapply (canonical_ok R A value im pi_text HA Hpi X item isEmpty metaEqual xadd xmul xscale Good); eauto.
Qed.
Print Assumptions C54_sum_partial.

(** Gaussian integers; the items are the letters, each a 2x2 matrix given by its rows; the empty result is
    None. *)
Fixpoint lead (s : str) : str := match s with c :: s' => if isdigit c then c :: lead s' else [] | [] => [] end.
(** the C library's atof on integers: it reads the digits it finds and ignores the rest *)
Definition gvalue (s : str) : Gring :=
  match s with c :: s' => if Ascii.eqb c "-"%char then ((- dec_val (lead s'))%Z, 0%Z) else (dec_val (lead s), 0%Z) | [] => (0%Z, 0%Z) end.
Definition GA : arith Gring :=
  mkarith (Gring : Type) (@cadd Gring) (@csub Gring) (@cmul Gring) (fun x y => x) (fun _ => false) (fun x y => x)
    (fun x => x) (fun x => x) (fun x => x) (fun x => x) (fun _ => true) (input_real gvalue).
Definition gi : Gring := (0%Z, 1%Z).
Definition M2 : Type := option (Gring * Gring * Gring * Gring).
Definition lift2 (f : Gring -> Gring -> Gring -> Gring -> Gring -> Gring -> Gring -> Gring -> Gring * Gring * Gring * Gring) (x y : M2) : M2 :=
  match x, y with Some (a, b, c, d), Some (a', b', c', d') => Some (f a b c d a' b' c' d') | _, _ => None end.
Definition m_add : M2 -> M2 -> M2 := lift2 (fun a b c d a' b' c' d' => ((a + a')%C, (b + b')%C, (c + c')%C, (d + d')%C)).
Definition m_mul : M2 -> M2 -> M2 :=
  lift2 (fun a b c d a' b' c' d' => ((a * a' + b * c')%C, (a * b' + b * d')%C, (c * a' + d * c')%C, (c * b' + d * d')%C)).
Definition m_scale (r : Gring) (x : M2) : M2 := match x with Some (a, b, c, d) => Some ((r * a)%C, (r * b)%C, (r * c)%C, (r * d)%C) | None => None end.
Definition m_empty (x : M2) : bool := match x with Some _ => false | None => true end.
Definition g (n : Z) : Gring := (n, 0%Z).
Definition m_item (s : str) : res M2 :=
  if str_eqb s (lit "A") then Ok (Some (g 1, g 2, g 3, g 4))
  else if str_eqb s (lit "B7") then Ok (Some (g 0, g 1, g 1, g 0))
  else Throw.
Definition eval (expr : string) (result : M2) : res (bool * M2) :=
  canonical Gring GA gvalue (Some gi) (lit "3") m_item m_empty (fun _ _ => true) m_add m_mul m_scale 100 (lit expr) result None.

(** A term without items is dropped: A+3 is A. *)
Theorem C54_scalar_dropped_refuted : eval "A+3" None = eval "A" None /\ eval "A" None = Ok (true, Some (g 1, g 2, g 3, g 4)).
Proof. split; vm_compute; reflexivity. Qed.
Print Assumptions C54_scalar_dropped_refuted.

(** If the first term has no items, the others are added to what the result was before: 3+A. *)
Theorem C54_first_scalar_refuted :
  eval "3+A" (Some (g 10, g 10, g 10, g 10)) = Ok (true, Some (g 11, g 12, g 13, g 14)) /\
  eval "A" (Some (g 10, g 10, g 10, g 10)) = Ok (true, Some (g 1, g 2, g 3, g 4)).
Proof. split; vm_compute; reflexivity. Qed.
Print Assumptions C54_first_scalar_refuted.

(** -A is refused although the minus sign is preceded by nothing, and 2e is taken for the number 2. *)
Theorem C54_names_refuted : eval "-A" None = Throw /\ eval "2e*A" None = eval "2*A" None.
Proof. split; vm_compute; reflexivity. Qed.
Print Assumptions C54_names_refuted.

(** -2*A*B7+(+:pi:1)*3i*B7+A: the hypotheses hold and the value is -2 A B7 + 12i B7 + A *)
Definition ex_ts : list (list factor) :=
  [[FNum (lit "-2"); FItem (lit "A"); FItem (lit "B7")];
   [FPar (T (lit "+") [T (lit "pi") []; T (lit "1") []]); FIm (lit "3"); FItem (lit "B7")];
   [FItem (lit "A")]].
Example C54_nonvacuous :
  expr_text ex_ts = lit "-2*A*B7+(+:pi:1)*3i*B7+A" /\
  (exists x0 tvs, Forall2 (fun fs v => exists p y ys, term_means Gring GA gvalue (Some gi) (lit "3") m_item true fs p (y :: ys) /\ v = m_scale p (fold_left m_mul ys y)) ex_ts (x0 :: tvs) /\
    fold_left m_add tvs x0 = Some ((-3, 0), (0, 12), (-5, 12), (-2, 0))%Z) /\
  eval "-2*A*B7+(+:pi:1)*3i*B7+A" None = Ok (true, Some ((-3, 0), (0, 12), (-5, 12), (-2, 0))%Z) /\
  (forall s, real_text s -> a_input GA s = Ok (gvalue s)) /\ real_text (lit "3") /\
  let Good x := m_empty x = false in
  (forall s x, m_item s = Ok x -> Good x) /\ (forall x y, Good x -> Good y -> Good (m_mul x y)) /\
  (forall r x, Good x -> Good (m_scale r x)) /\ (forall x y, Good x -> Good y -> Good (m_add x y)).
Proof.
  split; [vm_compute; reflexivity|].
  enough (H : exists x0 tvs, Forall2 (fun fs v => exists p y ys, term_means Gring GA gvalue (Some gi) (lit "3") m_item true fs p (y :: ys) /\ v = m_scale p (fold_left m_mul ys y)) ex_ts (x0 :: tvs) /\
    fold_left m_add tvs x0 = Some ((-3, 0), (0, 12), (-5, 12), (-2, 0))%Z).
  { split; [exact H|]. split; [vm_compute; reflexivity|]. split; [intros s Hs; apply (input_real_ok gvalue s Hs)|].
    split. { split; [intros c [<-|[]]; left; apply isdigit_In; reflexivity|exists "3"%char; split; [left; auto|apply isdigit_In; reflexivity]]. }
    split; [|split; [|split]].
    - intros s x E. unfold m_item in E. destruct (str_eqb s (lit "A")); [apply Ok_inj in E; subst; reflexivity|].
      destruct (str_eqb s (lit "B7")); [apply Ok_inj in E; subst; reflexivity|discriminate].
    - intros [[[[a b] c] d]|] [[[[a' b'] c'] d']|] H1 H2; try discriminate; reflexivity.
    - intros r [[[[a b] c] d]|] H1; try discriminate; reflexivity.
    - intros [[[[a b] c] d]|] [[[[a' b'] c'] d']|] H1 H2; try discriminate; reflexivity. }
  assert (Dg : forall s, forallb isdigit s = true -> forall c, In c s -> is_digit c).
  { intros s Hs c Hc. rewrite forallb_forall in Hs. apply isdigit_In. auto. }
  assert (Pn : forall s, forallb isdigit s = true -> s <> [] -> plain_num s).
  { intros s Hs Hn. split; [intros c Hc; left; apply (Dg s); auto|]. destruct s as [|c s]; [congruence|]. exists c. split; [left; auto|]. apply (Dg (c :: s)); auto. left; auto. }
  assert (NA : item_name (lit "A")).
  { split; [discriminate|]. split; [intros c [<-|[]] Hx; cbn in Hx; intuition discriminate|]. exists [], "A"%char, []. split; [reflexivity|].
    split; [intros Hd; unfold is_digit in Hd; cbn in Hd; intuition discriminate|]. split; [discriminate|auto]. }
  assert (NB : item_name (lit "B7")).
  { split; [discriminate|]. split; [intros c [<-|[<-|[]]] Hx; cbn in Hx; intuition discriminate|]. exists [], "B"%char, ["7"%char]. split; [reflexivity|].
    split; [intros Hd; unfold is_digit in Hd; cbn in Hd; intuition discriminate|]. split; [discriminate|auto]. }
  do 2 eexists. split.
  - constructor; [|constructor; [|constructor; [|constructor]]].
    + do 3 eexists. split; [|reflexivity]. eapply tm_scalar; [apply sc_num; right; split; [reflexivity|]; exists (lit "2"); split; [reflexivity|apply Pn; [reflexivity|discriminate]]|].
      eapply tm_item; [exact NA|vm_compute; reflexivity|]. eapply tm_item; [exact NB|vm_compute; reflexivity|]. apply tm_nil.
    + do 3 eexists. split; [|reflexivity]. eapply tm_scalar; [eapply sc_par|].
      * apply (denotes_T _ _ _ [gvalue (lit "3"); gvalue (lit "1")]); [|apply vm_tok; [intros [E|[]]; discriminate|apply (m_plus GA gvalue)]].
        constructor; [|constructor; [|constructor]].
        -- apply (denotes_T _ _ [] []); [constructor|]. apply (vm_var _ _ _ _ 0); reflexivity.
        -- apply (denotes_T _ _ [] []); [constructor|]. apply vm_tok; [intros [E|[]]; discriminate|]. apply (m_num GA gvalue (lit "1")).
           split; [intros c [<-|[]]; left; apply (Dg (lit "1")); [reflexivity|left; auto]|exists "1"%char; split; [left; auto|apply (Dg (lit "1")); [reflexivity|left; auto]]].
      * vm_compute. reflexivity.
      * intros n l [<-|[]] Hl (i & a & b & E & _). vm_compute in Hl. destruct Hl as [<-|[<-|[<-|[]]]]; [destruct a as [|? [|? ?]]; discriminate| |destruct a as [|? [|? ?]]; discriminate]. reflexivity.
      * intros Hx. vm_compute in Hx. intuition discriminate.
      * eapply tm_scalar; [apply sc_im; [reflexivity|left; apply Pn; [reflexivity|discriminate]]|]. eapply tm_item; [exact NB|vm_compute; reflexivity|]. apply tm_nil.
    + do 3 eexists. split; [|reflexivity]. eapply tm_item; [exact NA|vm_compute; reflexivity|]. apply tm_nil.
  - vm_compute. reflexivity.
Qed.
