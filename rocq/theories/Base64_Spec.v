(** RFC 4648 base64, stated on the bit string. *)
From Verif Require Import Prelude.
Local Open Scope N_scope.

Definition is_byte (b : N) : Prop := b < 256.

(** The bits of a byte, most significant first. *)
Definition byte_bits (b : N) : list bool :=
  map (N.testbit b) [7; 6; 5; 4; 3; 2; 1; 0].

(** The number written by a list of bits, most significant first. *)
Definition bits_value (l : list bool) : N :=
  fold_left (fun acc (b : bool) => 2 * acc + (if b then 1 else 0)) l 0.

(** Cut a bit string in groups of six, the last one padded with zero bits. *)
Fixpoint sextets (l : list bool) : list N :=
  match l with
  | a :: b :: c :: d :: e :: f :: l' => bits_value [a; b; c; d; e; f] :: sextets l'
  | [] => []
  | _ => [bits_value (firstn 6 (l ++ repeat false 6))]
  end.

(** Table 1 of RFC 4648, as character codes. *)
Definition alphabet (x : N) : N :=
  if x <? 26 then 65 + x                (* A..Z *)
  else if x <? 52 then 97 + (x - 26)    (* a..z *)
  else if x <? 62 then 48 + (x - 52)    (* 0..9 *)
  else if x =? 62 then 43               (* + *)
  else 47.                              (* / *)

(** 61 is the padding character '='. *)
Definition rfc4648 (bytes : list N) : list N :=
  map alphabet (sextets (flat_map byte_bits bytes))
  ++ repeat 61 ((3 - length bytes mod 3) mod 3)%nat.
