(** C52: level-order expressions. *)
From Coq Require Import Ascii String QArith.
From Verif Require Import Prelude Str_Model Str_Spec Str_Proofs Ast_Model Ast_Spec Ast_Proofs.
Import List.

(** Whatever the primitives: if [sem] says what each token means for as many arguments as the primitives
    give to it, evaluating the level-order list of a tree gives the value of the tree. *)
Theorem C52_generic : forall V (find : str -> res (node V)) (sem : str -> list V -> V -> Prop) t v extra,
  (forall l vs v, sem l vs v -> exists f, find l = Ok (List.length vs, f) /\ f vs = Ok v) ->
  denotes sem t v -> (Z.of_nat (tsize t) < 2 ^ 64)%Z ->
  ast_eval find (level_order t ++ extra) = Ok v.
Proof. intros V find sem t v extra H Hd Hs. apply (ast_eval_ok find sem); auto. Qed.
Print Assumptions C52_generic.

(** Expressions over the real primitives, when no divisor is close to zero *)
Theorem C52_arith_partial : forall V (A : arith V) (value : str -> V) t v extra,
  (forall s, real_text s -> a_input A s = Ok (value s)) ->
  denotes (meaning A value) t v -> (Z.of_nat (tsize t) < 2 ^ 64)%Z ->
  ast_eval (findNodeFromCode A) (level_order t ++ extra) = Ok v.
Proof.
  intros V A value t v extra HA Hd Hs. apply (ast_eval_ok _ (meaning A value)); auto. apply find_meaning; auto.
Qed.
Print Assumptions C52_arith_partial.

(** The primitives for real numbers read every such text with std::atof. *)
Theorem C52_input : forall V (value : str -> V) s, real_text s -> input_real value s = Ok (value s).
Proof. intros V value s H. apply input_real_ok. auto. Qed.
Print Assumptions C52_input.

(** A text with the letter i, or that is not written like a number, is refused. *)
Theorem C52_input_refused : forall V (value : str -> V) s, In "i"%char s \/ isAfloat s = false -> input_real value s = Throw.
Proof.
  intros V value s H. unfold input_real. destruct (existsb (Ascii.eqb "i"%char) s) eqn:E; [reflexivity|].
  destruct H as [H|H]; [|rewrite H; reflexivity].
  assert (X : existsb (Ascii.eqb "i"%char) s = true) by (apply existsb_exists; exists "i"%char; split; [auto|apply Ascii.eqb_refl]). congruence.
Qed.
Print Assumptions C52_input_refused.

(** Rational arithmetic as an instance; only non-negative integers are read as numbers here. *)
Definition Qarith : arith Q :=
  mkarith Q Qplus Qminus Qmult Qdiv (fun y => if Qlt_le_dec (y * y) (1 # 1000000) then true else false)
    (fun x y => x) (fun x => x) (fun x => x) (fun x => x) (fun x => x)
    (fun x => negb (Z.abs (Qnum x) <? Zpos (Qden x))%Z)
    (input_real (fun s => inject_Z (dec_val s))).

(** Dividing by a number whose square is below 10^-6 gives the dividend: 6 / (1 / 2000) is 6. *)
Theorem C52_division_refuted :
  ast_eval (findNodeFromCode Qarith) (level_order (T (lit "/") [T (lit "6") []; T (lit "/") [T (lit "1") []; T (lit "2000") []]])) = Ok (6 # 1) /\
  ~ (6 # 1 == (6 # 1) / ((1 # 1) / (2000 # 1)))%Q.
Proof. split; [vm_compute; reflexivity|]. intros H. vm_compute in H. discriminate H. Qed.
Print Assumptions C52_division_refuted.

(** An operator whose arguments are missing is not reported: its function is called with too few. *)
Theorem C52_short_refuted : ast_eval (findNodeFromCode Qarith) [lit "+"; lit "1"] = UB /\ ast_eval (findNodeFromCode Qarith) [] = UB.
Proof. split; vm_compute; reflexivity. Qed.
Print Assumptions C52_short_refuted.

(** (2 * 7) + ((9 - 4) ? 5 : 8): level order, value, and the same with text after it *)
Definition ex_t : tree :=
  T (lit "+") [T (lit "*") [T (lit "2") []; T (lit "7") []];
               T (lit "?") [T (lit "-") [T (lit "9") []; T (lit "4") []]; T (lit "5") []; T (lit "8") []]].
Example C52_nonvacuous :
  level_order ex_t = map lit ["+"; "*"; "?"; "2"; "7"; "-"; "5"; "8"; "9"; "4"]%string /\
  (exists v, denotes (meaning Qarith (fun s => inject_Z (dec_val s))) ex_t v /\ v = (19 # 1)) /\
  ast_eval (findNodeFromCode Qarith) (level_order ex_t ++ [lit "junk"]) = Ok (19 # 1).
Proof.
  assert (D : forall s, real_text s -> denotes (meaning Qarith (fun s => inject_Z (dec_val s))) (T s []) (inject_Z (dec_val s))).
  { intros s Hs. apply (denotes_T _ s [] []); [constructor|]. apply (m_num Qarith (fun s => inject_Z (dec_val s))). auto. }
  assert (R : forall d, In d (map ascii_of_nat (seq 48 10)) -> real_text [d]).
  { intros d Hd. split; [intros c [<-|[]]; left; auto|]. exists d. split; [left; auto|auto]. }
  assert (Hd : denotes (meaning Qarith (fun s => inject_Z (dec_val s))) ex_t (a_add Qarith (a_mul Qarith (inject_Z 2) (inject_Z 7)) (inject_Z 5))).
  { unfold ex_t. eapply denotes_T; [|apply m_plus]. apply denotes_cons; [|apply denotes_cons; [|apply denotes_nil]].
    - eapply denotes_T; [|apply m_times]. apply denotes_cons; [|apply denotes_cons; [|apply denotes_nil]].
      + apply (D (lit "2")). apply R. vm_compute. tauto.
      + apply (D (lit "7")). apply R. vm_compute. tauto.
    - eapply denotes_T; [|apply m_then with (x := a_sub Qarith (inject_Z 9) (inject_Z 4)) (z := inject_Z 8); reflexivity].
      apply denotes_cons; [|apply denotes_cons; [|apply denotes_cons; [|apply denotes_nil]]].
      + eapply denotes_T; [|apply m_minus]. apply denotes_cons; [|apply denotes_cons; [|apply denotes_nil]].
        * apply (D (lit "9")). apply R. vm_compute. tauto.
        * apply (D (lit "4")). apply R. vm_compute. tauto.
      + apply (D (lit "5")). apply R. vm_compute. tauto.
      + apply (D (lit "8")). apply R. vm_compute. tauto. }
  split; [vm_compute; reflexivity|]. split.
  - eexists. split; [exact Hd|]. reflexivity.
  - rewrite (C52_arith_partial Q Qarith _ ex_t _ [lit "junk"] (input_real_ok _) Hd) by (vm_compute; reflexivity). reflexivity.
Qed.
