(** C01, C02: base64. *)
From Verif Require Import Prelude Base64_Model Base64_Spec Base64_Proofs.
Local Open Scope N_scope.

(** C01: decoding an encoded byte string gives the byte string. *)
Theorem C01_decode_encode :
  forall l, Forall is_byte l -> (do s <- encode l ;; decode s) = Ok l.
Proof. exact decode_encode. Qed.
Print Assumptions C01_decode_encode.

(** Decoding is defined (no out-of-range access) on every text, also on text
    that is not base64. *)
Theorem C01_decode_total : forall s, exists l, decode s = Ok l.
Proof. intros s. apply (decode_loop_total s [] []). repeat constructor. Qed.
Print Assumptions C01_decode_total.

(** C02: the output is the RFC 4648 encoding ... *)
Theorem C02_encode_is_rfc4648 : forall l, Forall is_byte l -> encode l = Ok (rfc4648 l).
Proof. exact encode_rfc. Qed.
Print Assumptions C02_encode_is_rfc4648.

(** ... its length is four times the number of (started) groups of three bytes ... *)
Theorem C02_encode_length : forall l, Forall is_byte l ->
  exists s, encode l = Ok s /\ length s = (4 * ((length l + 2) / 3))%nat.
Proof.
  intros l H. exists (rfc4648 l). split; [exact (encode_rfc l H)|exact (rfc_length l)].
Qed.
Print Assumptions C02_encode_length.

(** ... and any RFC 4648 encoding produced elsewhere is decoded correctly. *)
Theorem C02_decode_rfc4648 : forall l, Forall is_byte l -> decode (rfc4648 l) = Ok l.
Proof. exact decode_rfc. Qed.
Print Assumptions C02_decode_rfc4648.

(** "hello" -> "aGVsbG8=" *)
Example C01_nonvacuous :
  let hello := [104; 101; 108; 108; 111] in
  Forall is_byte hello /\ encode hello = Ok [97; 71; 86; 115; 98; 71; 56; 61] /\
  Forall is_byte [0; 255; 61; 10] /\ encode [0; 255; 61; 10] <> Ok [].
Proof.
  cbv zeta. split; [repeat constructor|]. split; [vm_compute; reflexivity|].
  split; [repeat constructor|]. vm_compute. discriminate.
Qed.

(** Decoding stops at the first character outside the alphabet: what follows does not count. *)
Theorem C02_stops : forall s c t, (forall x, x < 64 -> c <> alphabet x) -> decode (s ++ c :: t) = decode s.
Proof.
  intros s c t Hc. assert (E : negb (c =? 61) && isBase64 c = false).
  { destruct (isBase64 c) eqn:B; [exfalso|apply andb_false_r]. unfold isBase64 in B. repeat rewrite orb_true_iff in B. repeat rewrite andb_true_iff in B. repeat rewrite N.leb_le in B. repeat rewrite N.eqb_eq in B.
    assert (exists x, x < 64 /\ c = alphabet x) as (x & Hx & ->); [|eapply Hc; eauto].
    unfold alphabet. destruct B as [[[[B|B]|B]|B]|B].
    - exists (c + 4). split; [lia|]. destruct (N.ltb_spec (c + 4) 26); [lia|]. destruct (N.ltb_spec (c + 4) 52); [lia|]. destruct (N.ltb_spec (c + 4) 62); lia.
    - exists (c - 65). split; [lia|]. destruct (N.ltb_spec (c - 65) 26); lia.
    - exists (c - 71). split; [lia|]. destruct (N.ltb_spec (c - 71) 26); [lia|]. destruct (N.ltb_spec (c - 71) 52); lia.
    - exists 62. split; [lia|]. cbn. lia.
    - exists 63. split; [lia|]. cbn. lia. }
  unfold decode. generalize (@nil N) at 1 3. generalize (@nil N).
  induction s as [|x s IH]; intros out c4.
  - cbn [app decode_loop]. rewrite E. reflexivity.
  - cbn [app decode_loop]. destruct (negb (x =? 61) && isBase64 x); [|reflexivity].
    destruct (Nat.eqb (length (c4 ++ [x])) 4); [|apply IH]. destruct (dec3 _); cbn [bind]; auto.
Qed.
Print Assumptions C02_stops.
