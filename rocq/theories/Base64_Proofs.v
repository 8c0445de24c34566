From Verif Require Import Prelude Base64_Model Base64_Spec.
Local Open Scope N_scope.

(** Finite sweeps. *)
Definition range (n : nat) : list N := map N.of_nat (seq 0 n).

Lemma range_in n x : x < N.of_nat n -> In x (range n).
Proof.
  intros H. unfold range. apply in_map_iff. exists (N.to_nat x).
  split; [apply N2Nat.id|]. apply in_seq. lia.
Qed.

Lemma sweep1 n (P : N -> bool) :
  forallb P (range n) = true -> forall x, x < N.of_nat n -> P x = true.
Proof. intros H x Hx. rewrite forallb_forall in H. apply H, range_in, Hx. Qed.

Lemma sweep2 n (P : N -> N -> bool) :
  forallb (fun x => forallb (P x) (range n)) (range n) = true ->
  forall x y, x < N.of_nat n -> y < N.of_nat n -> P x y = true.
Proof.
  intros H x y Hx Hy. rewrite forallb_forall in H. specialize (H x (range_in _ _ Hx)).
  rewrite forallb_forall in H. apply H, range_in, Hy.
Qed.

Definition s0 a := uchar (N.shiftr (N.land a 0xfc) 2).
Definition s1 a b := uchar (N.shiftl (N.land a 0x03) 4 + N.shiftr (N.land b 0xf0) 4).
Definition s2 b c := uchar (N.shiftl (N.land b 0x0f) 2 + N.shiftr (N.land c 0xc0) 6).
Definition s3 c := uchar (N.land c 0x3f).

Definition tb (x i : N) : bool := N.testbit x i.

Lemma s0_bits a : a < 256 ->
  s0 a = bits_value [tb a 7; tb a 6; tb a 5; tb a 4; tb a 3; tb a 2].
Proof.
  intros H. apply N.eqb_eq.
  exact (sweep1 256 (fun a => s0 a =? bits_value [tb a 7; tb a 6; tb a 5; tb a 4; tb a 3; tb a 2])
           ltac:(vm_compute; reflexivity) a H).
Qed.
Lemma s1_bits a b : a < 256 -> b < 256 ->
  s1 a b = bits_value [tb a 1; tb a 0; tb b 7; tb b 6; tb b 5; tb b 4].
Proof.
  intros H H'. apply N.eqb_eq.
  exact (sweep2 256 (fun a b => s1 a b =? bits_value [tb a 1; tb a 0; tb b 7; tb b 6; tb b 5; tb b 4])
           ltac:(vm_compute; reflexivity) a b H H').
Qed.
Lemma s2_bits b c : b < 256 -> c < 256 ->
  s2 b c = bits_value [tb b 3; tb b 2; tb b 1; tb b 0; tb c 7; tb c 6].
Proof.
  intros H H'. apply N.eqb_eq.
  exact (sweep2 256 (fun b c => s2 b c =? bits_value [tb b 3; tb b 2; tb b 1; tb b 0; tb c 7; tb c 6])
           ltac:(vm_compute; reflexivity) b c H H').
Qed.
Lemma s3_bits c : c < 256 ->
  s3 c = bits_value [tb c 5; tb c 4; tb c 3; tb c 2; tb c 1; tb c 0].
Proof.
  intros H. apply N.eqb_eq.
  exact (sweep1 256 (fun c => s3 c =? bits_value [tb c 5; tb c 4; tb c 3; tb c 2; tb c 1; tb c 0])
           ltac:(vm_compute; reflexivity) c H).
Qed.

Lemma bits_value6_lt b1 b2 b3 b4 b5 b6 : bits_value [b1; b2; b3; b4; b5; b6] < 64.
Proof. destruct b1, b2, b3, b4, b5, b6; reflexivity. Qed.

Lemma s0_lt a : a < 256 -> s0 a < 64.
Proof. intros; rewrite s0_bits by assumption; apply bits_value6_lt. Qed.
Lemma s1_lt a b : a < 256 -> b < 256 -> s1 a b < 64.
Proof. intros; rewrite s1_bits by assumption; apply bits_value6_lt. Qed.
Lemma s2_lt a b : a < 256 -> b < 256 -> s2 a b < 64.
Proof. intros; rewrite s2_bits by assumption; apply bits_value6_lt. Qed.
Lemma s3_lt a : a < 256 -> s3 a < 64.
Proof. intros; rewrite s3_bits by assumption; apply bits_value6_lt. Qed.

Lemma chars_alphabet x : x < 64 -> vget base64Chars (N.to_nat x) = Ok (alphabet x).
Proof.
  intros H.
  assert (E : forallb (fun x => match vget base64Chars (N.to_nat x) with
                     | Ok y => y =? alphabet x | _ => false end) (range 64) = true)
    by (vm_compute; reflexivity).
  pose proof (sweep1 64 _ E x H) as E'. cbv beta in E'.
  destruct (vget base64Chars (N.to_nat x)); try discriminate.
  apply N.eqb_eq in E'. now subst.
Qed.

Lemma find_alphabet x : x < 64 -> find_char (alphabet x) = x.
Proof.
  intros H. apply N.eqb_eq.
  exact (sweep1 64 (fun x => find_char (alphabet x) =? x) ltac:(vm_compute; reflexivity) x H).
Qed.

Lemma is_alphabet x : x < 64 -> negb (alphabet x =? 61) && isBase64 (alphabet x) = true.
Proof.
  intros H.
  exact (sweep1 64 (fun x => negb (alphabet x =? 61) && isBase64 (alphabet x))
           ltac:(vm_compute; reflexivity) x H).
Qed.

Lemma list_triple_ind (A : Type) (P : list A -> Prop) :
  P [] -> (forall a, P [a]) -> (forall a b, P [a; b]) ->
  (forall a b c l, P l -> P (a :: b :: c :: l)) -> forall l, P l.
Proof.
  intros H0 H1 H2 H3.
  assert (G : forall l, P l /\ (forall a, P (a :: l)) /\ forall a b, P (a :: b :: l)).
  { induction l as [|b l [IH1 [IH2 IH3]]]; repeat split; auto. }
  intros l. apply G.
Qed.

(** One full group. *)
Lemma encode_loop_full a b c l out :
  a < 256 -> b < 256 -> c < 256 ->
  encode_loop (a :: b :: c :: l) [] out =
  encode_loop l [] (out ++ [alphabet (s0 a); alphabet (s1 a b); alphabet (s2 b c); alphabet (s3 c)]).
Proof.
  intros Ha Hb Hc. cbn [encode_loop app length Nat.eqb].
  unfold enc4. cbn [vget nth_error bind]. unfold emit. cbn [forM vget nth_error bind].
  fold (s0 a) (s1 a b) (s2 b c) (s3 c).
  rewrite chars_alphabet by (apply s0_lt; assumption). cbn [bind].
  rewrite chars_alphabet by (apply s1_lt; assumption). cbn [bind].
  rewrite chars_alphabet by (apply s2_lt; assumption). cbn [bind].
  rewrite chars_alphabet by (apply s3_lt; assumption). cbn [bind].
  rewrite <- !app_assoc. reflexivity.
Qed.

Lemma encode_loop_one a out : a < 256 ->
  encode_loop [a] [] out = Ok (out ++ [alphabet (s0 a); alphabet (s1 a 0); 61; 61]).
Proof.
  intros Ha. cbn [encode_loop app length Nat.eqb Nat.sub repeat].
  unfold enc4. cbn [vget nth_error bind app]. unfold emit. cbn [Nat.add forM vget nth_error bind].
  fold (s0 a) (s1 a 0).
  rewrite chars_alphabet by (apply s0_lt; assumption). cbn [bind].
  rewrite chars_alphabet by (apply s1_lt; [assumption|lia]). cbn [bind].
  rewrite <- !app_assoc. reflexivity.
Qed.

Lemma encode_loop_two a b out : a < 256 -> b < 256 ->
  encode_loop [a; b] [] out =
  Ok (out ++ [alphabet (s0 a); alphabet (s1 a b); alphabet (s2 b 0); 61]).
Proof.
  intros Ha Hb. cbn [encode_loop app length Nat.eqb Nat.sub repeat].
  unfold enc4. cbn [vget nth_error bind app]. unfold emit. cbn [Nat.add forM vget nth_error bind].
  fold (s0 a) (s1 a b) (s2 b 0).
  rewrite chars_alphabet by (apply s0_lt; assumption). cbn [bind].
  rewrite chars_alphabet by (apply s1_lt; assumption). cbn [bind].
  rewrite chars_alphabet by (apply s2_lt; [assumption|lia]). cbn [bind].
  rewrite <- !app_assoc. reflexivity.
Qed.

Lemma rfc_full a b c l :
  a < 256 -> b < 256 -> c < 256 ->
  rfc4648 (a :: b :: c :: l) =
  [alphabet (s0 a); alphabet (s1 a b); alphabet (s2 b c); alphabet (s3 c)] ++ rfc4648 l.
Proof.
  intros Ha Hb Hc. unfold rfc4648.
  replace (length (a :: b :: c :: l) mod 3)%nat with (length l mod 3)%nat.
  2:{ cbn [length]. replace (S (S (S (length l)))) with (length l + 1 * 3)%nat by lia.
      rewrite Nat.mod_add by lia. reflexivity. }
  rewrite app_assoc. f_equal. cbn [flat_map byte_bits map app sextets].
  rewrite (s0_bits a Ha), (s1_bits a b Ha Hb), (s2_bits b c Hb Hc), (s3_bits c Hc). reflexivity.
Qed.

Lemma rfc_one a : a < 256 -> rfc4648 [a] = [alphabet (s0 a); alphabet (s1 a 0); 61; 61].
Proof.
  intros Ha. unfold rfc4648. cbn [flat_map byte_bits map app sextets].
  rewrite (s0_bits a Ha), (s1_bits a 0 Ha) by lia. reflexivity.
Qed.

Lemma rfc_two a b : a < 256 -> b < 256 ->
  rfc4648 [a; b] = [alphabet (s0 a); alphabet (s1 a b); alphabet (s2 b 0); 61].
Proof.
  intros Ha Hb. unfold rfc4648. cbn [flat_map byte_bits map app sextets].
  rewrite (s0_bits a Ha), (s1_bits a b Ha), (s2_bits b 0) by (assumption || lia). reflexivity.
Qed.

Lemma encode_loop_rfc l out : Forall is_byte l ->
  encode_loop l [] out = Ok (out ++ rfc4648 l).
Proof.
  revert out. induction l as [|a|a b|a b c l IH] using list_triple_ind; intros out HF;
    repeat match goal with H : Forall _ (_ :: _) |- _ => inversion H; clear H; subst end;
    unfold is_byte in *.
  - cbn. rewrite app_nil_r. reflexivity.
  - rewrite encode_loop_one, rfc_one by assumption. reflexivity.
  - rewrite encode_loop_two, rfc_two by assumption. reflexivity.
  - rewrite encode_loop_full, rfc_full by assumption. rewrite IH by assumption.
    rewrite <- app_assoc. reflexivity.
Qed.

Lemma encode_rfc l : Forall is_byte l -> encode l = Ok (rfc4648 l).
Proof. intros H. unfold encode. rewrite encode_loop_rfc by assumption. reflexivity. Qed.

(** Decoding. *)
Lemma d0 a b : a < 256 -> b < 256 ->
  uchar (N.shiftl (s0 a) 2 + N.shiftr (N.land (s1 a b) 0x30) 4) = a.
Proof.
  intros H H'. apply N.eqb_eq.
  exact (sweep2 256 (fun a b => uchar (N.shiftl (s0 a) 2 + N.shiftr (N.land (s1 a b) 0x30) 4) =? a)
           ltac:(vm_compute; reflexivity) a b H H').
Qed.
Lemma d1a a b : a < 256 -> b < 256 -> N.land (s1 a b) 0xf = b / 16.
Proof.
  intros H H'. apply N.eqb_eq.
  exact (sweep2 256 (fun a b => N.land (s1 a b) 0xf =? b / 16)
           ltac:(vm_compute; reflexivity) a b H H').
Qed.
Lemma d1b b c : b < 256 -> c < 256 -> N.shiftr (N.land (s2 b c) 0x3c) 2 = b mod 16.
Proof.
  intros H H'. apply N.eqb_eq.
  exact (sweep2 256 (fun b c => N.shiftr (N.land (s2 b c) 0x3c) 2 =? b mod 16)
           ltac:(vm_compute; reflexivity) b c H H').
Qed.
Lemma d1c b : b < 256 -> uchar (N.shiftl (b / 16) 4 + b mod 16) = b.
Proof.
  intros H. apply N.eqb_eq.
  exact (sweep1 256 (fun b => uchar (N.shiftl (b / 16) 4 + b mod 16) =? b)
           ltac:(vm_compute; reflexivity) b H).
Qed.
Lemma d2 b c : b < 256 -> c < 256 ->
  uchar (N.shiftl (N.land (s2 b c) 0x3) 6 + s3 c) = c.
Proof.
  intros H H'. apply N.eqb_eq.
  exact (sweep2 256 (fun b c => uchar (N.shiftl (N.land (s2 b c) 0x3) 6 + s3 c) =? c)
           ltac:(vm_compute; reflexivity) b c H H').
Qed.

Lemma decode_loop_full a b c s out :
  a < 256 -> b < 256 -> c < 256 ->
  decode_loop ([alphabet (s0 a); alphabet (s1 a b); alphabet (s2 b c); alphabet (s3 c)] ++ s) [] out
  = decode_loop s [] (out ++ [a; b; c]).
Proof.
  intros Ha Hb Hc.
  pose proof (s0_lt a Ha). pose proof (s1_lt a b Ha Hb).
  pose proof (s2_lt b c Hb Hc). pose proof (s3_lt c Hc).
  cbn [decode_loop app].
  rewrite !is_alphabet by assumption. cbn [length Nat.eqb app map].
  rewrite !find_alphabet by assumption.
  unfold dec3. cbn [vget nth_error bind].
  rewrite d0, d1a, d1b, d1c, d2 by assumption. reflexivity.
Qed.

Lemma decode_loop_one a s out : a < 256 ->
  decode_loop ([alphabet (s0 a); alphabet (s1 a 0); 61; 61] ++ s) [] out = Ok (out ++ [a]).
Proof.
  intros Ha.
  pose proof (s0_lt a Ha). pose proof (s1_lt a 0 Ha ltac:(lia)).
  cbn [decode_loop app].
  rewrite !is_alphabet by assumption. cbn [length Nat.eqb app map N.eqb Pos.eqb negb andb].
  cbn [Nat.sub repeat app map].
  rewrite !find_alphabet by assumption.
  unfold dec3. cbn [vget nth_error bind firstn].
  rewrite d0 by (assumption || lia). reflexivity.
Qed.

Lemma decode_loop_two a b s out : a < 256 -> b < 256 ->
  decode_loop ([alphabet (s0 a); alphabet (s1 a b); alphabet (s2 b 0); 61] ++ s) [] out
  = Ok (out ++ [a; b]).
Proof.
  intros Ha Hb.
  pose proof (s0_lt a Ha). pose proof (s1_lt a b Ha Hb). pose proof (s2_lt b 0 Hb ltac:(lia)).
  cbn [decode_loop app].
  rewrite !is_alphabet by assumption. cbn [length Nat.eqb app map N.eqb Pos.eqb negb andb].
  cbn [Nat.sub repeat app map].
  rewrite !find_alphabet by assumption.
  unfold dec3. cbn [vget nth_error bind firstn].
  rewrite d0, d1a, d1b, d1c by (assumption || lia). reflexivity.
Qed.

Lemma decode_loop_rfc l out : Forall is_byte l ->
  decode_loop (rfc4648 l) [] out = Ok (out ++ l).
Proof.
  revert out. induction l as [|a|a b|a b c l IH] using list_triple_ind; intros out HF;
    repeat match goal with H : Forall _ (_ :: _) |- _ => inversion H; clear H; subst end;
    unfold is_byte in *.
  - reflexivity || (cbn; now rewrite app_nil_r).
  - rewrite rfc_one by assumption. rewrite <- (app_nil_r [_; _; 61; 61]).
    apply decode_loop_one. assumption.
  - rewrite rfc_two by assumption. rewrite <- (app_nil_r [_; _; _; 61]).
    apply decode_loop_two; assumption.
  - rewrite rfc_full, decode_loop_full by assumption. rewrite IH by assumption.
    rewrite <- app_assoc. reflexivity.
Qed.

Lemma decode_rfc l : Forall is_byte l -> decode (rfc4648 l) = Ok l.
Proof. intros H. unfold decode. rewrite decode_loop_rfc by assumption. reflexivity. Qed.

Lemma decode_encode l : Forall is_byte l -> (do s <- encode l ;; decode s) = Ok l.
Proof. intros H. rewrite encode_rfc by assumption. apply decode_rfc. assumption. Qed.

Lemma rfc_length l : length (rfc4648 l) = (4 * ((length l + 2) / 3))%nat.
Proof.
  induction l as [|a|a b|a b c l IH] using list_triple_ind; try reflexivity.
  unfold rfc4648 in *.
  replace (length (a :: b :: c :: l) mod 3)%nat with (length l mod 3)%nat.
  2:{ cbn [length]. replace (S (S (S (length l)))) with (length l + 1 * 3)%nat by lia.
      rewrite Nat.mod_add by lia. reflexivity. }
  rewrite app_length in *. cbn [flat_map byte_bits map app sextets length].
  replace (S (S (S (length l))) + 2)%nat with ((length l + 2) + 1 * 3)%nat by lia.
  rewrite Nat.div_add by lia. lia.
Qed.

(** Decoding never performs an out-of-range access, whatever the text. *)
Lemma decode_loop_total s c4 out : (length c4 < 4)%nat ->
  exists l, decode_loop s c4 out = Ok l.
Proof.
  assert (D : forall x0 x1 x2 x3, exists l, dec3 [x0; x1; x2; x3] = Ok l)
    by (intros; eexists; reflexivity).
  assert (F : forall c4 out, (length c4 < 4)%nat -> exists l,
    (if (length c4 =? 0)%nat then Ok out
     else do c3 <- dec3 (map find_char (c4 ++ repeat 0 (4 - length c4))) ;;
      Ok (out ++ firstn (length c4 - 1) c3)) = Ok l).
  { intros p o Hp. destruct p as [|x0 [|x1 [|x2 [|x3 p]]]]; simpl in Hp; try lia;
      eexists; reflexivity. }
  revert c4 out. induction s as [|c s IH]; intros c4 out H; cbn [decode_loop].
  - apply F, H.
  - destruct (negb (c =? 61) && isBase64 c); [|apply F, H].
    destruct (Nat.eqb_spec (length (c4 ++ [c])) 4) as [E|E].
    + destruct c4 as [|x0 [|x1 [|x2 [|x3 c4]]]]; simpl in H, E; try lia.
      cbn [app map dec3 vget nth_error bind]. apply IH. simpl; lia.
    + apply IH. rewrite app_length in *. simpl in *. lia.
Qed.
