(** Model of src/PsiBase64.h and src/PsiBase64.cpp.
    A byte ([unsigned char]) is an [N] below 256; strings are lists of bytes.
    The counters [inLen] (unsigned int / int) are not modelled: strings are assumed
    shorter than 2^31 characters. *)
From Verif Require Import Prelude.
From Coq Require Import String Ascii.
Import List.  (* length is that of lists *)
Local Open Scope N_scope.

(** Conversion of an [unsigned int] expression to [unsigned char]. *)
Definition uchar (x : N) : N := x mod 256.

(** src/PsiBase64.cpp:41-43 [base64Chars_]. *)
Definition base64Chars : list N :=
  map N_of_ascii
      (list_ascii_of_string
         "ABCDEFGHIJKLMNOPQRSTUVWXYZabcdefghijklmnopqrstuvwxyz0123456789+/").

(** [base64Chars_.find(c)] converted to [unsigned char]; [npos] becomes 255
    (lines 146 and 164). *)
Fixpoint find_from (l : list N) (k c : N) : N :=
  match l with
  | [] => 255
  | a :: l' => if a =? c then uchar k else find_from l' (k + 1) c
  end.
Definition find_char (c : N) : N := find_from base64Chars 0 c.

(** src/PsiBase64.h:97-100 and 112-115: [charArray4] from [charArray3]. *)
Definition enc4 (c3 : list N) : res (list N) :=
  do c0 <- vget c3 0 ;;
  do c1 <- vget c3 1 ;;
  do c2 <- vget c3 2 ;;
  Ok [ uchar (N.shiftr (N.land c0 0xfc) 2)
     ; uchar (N.shiftl (N.land c0 0x03) 4 + N.shiftr (N.land c1 0xf0) 4)
     ; uchar (N.shiftl (N.land c1 0x0f) 2 + N.shiftr (N.land c2 0xc0) 6)
     ; uchar (N.land c2 0x3f) ].

(** [buffer_ += base64Chars_[charArray4[j]]] for j < cnt (lines 102-103, 117-118). *)
Definition emit (c4 : list N) (cnt : nat) (out : list N) : res (list N) :=
  forM cnt 0 (fun j o => do x <- vget c4 j ;;
                         do ch <- vget base64Chars (N.to_nat x) ;;
                         Ok (o ++ [ch])) out.

(** src/PsiBase64.h:85-123 [encode_]. [c3] holds the [i] bytes read so far
    (charArray3[0..i-1]); [out] is [buffer_]. 61 is '='. *)
Fixpoint encode_loop (bytes c3 out : list N) : res (list N) :=
  match bytes with
  | b :: bytes' =>
    let c3 := c3 ++ [b] in
    if (length c3 =? 3)%nat then
      do c4 <- enc4 c3 ;;
      do out <- emit c4 4 out ;;
      encode_loop bytes' [] out
    else encode_loop bytes' c3 out
  | [] =>
    let i := length c3 in
    if (i =? 0)%nat then Ok out
    else
      do c4 <- enc4 (c3 ++ repeat 0 (3 - i)) ;;
      do out <- emit c4 (i + 1) out ;;
      Ok (out ++ repeat 61 (3 - i))
  end.

Definition encode (bytes : list N) : res (list N) := encode_loop bytes [] [].

(** src/PsiBase64.h:179-182 [isBase64] ([isalnum] of the C locale). *)
Definition isBase64 (c : N) : bool :=
  ((48 <=? c) && (c <=? 57)) || ((65 <=? c) && (c <=? 90)) || ((97 <=? c) && (c <=? 122))
  || (c =? 43) || (c =? 47).

(** src/PsiBase64.h:149-151 and 166-168. *)
Definition dec3 (c4 : list N) : res (list N) :=
  do c0 <- vget c4 0 ;;
  do c1 <- vget c4 1 ;;
  do c2 <- vget c4 2 ;;
  do c3 <- vget c4 3 ;;
  Ok [ uchar (N.shiftl c0 2 + N.shiftr (N.land c1 0x30) 4)
     ; uchar (N.shiftl (N.land c1 0xf) 4 + N.shiftr (N.land c2 0x3c) 2)
     ; uchar (N.shiftl (N.land c2 0x3) 6 + c3) ].

(** src/PsiBase64.h:132-173 [Decode]. [c4] holds charArray4[0..i-1]. *)
Fixpoint decode_loop (s c4 out : list N) : res (list N) :=
  let finish :=
    let i := length c4 in
    if (i =? 0)%nat then Ok out
    else
      do c3 <- dec3 (map find_char (c4 ++ repeat 0 (4 - i))) ;;
      Ok (out ++ firstn (i - 1) c3) in
  match s with
  | [] => finish
  | c :: s' =>
    if negb (c =? 61) && isBase64 c then
      let c4 := c4 ++ [c] in
      if (length c4 =? 4)%nat then
        do c3 <- dec3 (map find_char c4) ;;
        decode_loop s' [] (out ++ c3)
      else decode_loop s' c4 out
    else finish
  end.

Definition decode (s : list N) : res (list N) := decode_loop s [] [].
