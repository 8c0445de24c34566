(** Model of enumerations in files: src/Io/IoNgSerializer.h and src/Io/TypeToH5.h. The files are those of Ng_Model.v. An enumerator
    is its number, a signed int; the bytes of an int are stored with the lowest first. *)
From Coq Require Import ZArith Ascii String.
From Verif Require Import Prelude Str_Model Text_Model Ng_Model.
Import List.

Section En.
  Variable F : Type.
  (** write of an enumerator: src/Io/IoNgSerializer.h:144-157, with typeToH5, src/Io/TypeToH5.h:11-15: the pointer to the int is
      taken for a pointer to a number of one byte. *)
  Definition first_byte (v : Z) : Z := (v mod 256)%Z.
  Definition write_enum (f : file F) (name2 : str) (v : Z) (m : wmode) : file F := fst (write_num F f name2 (CI (first_byte v)) m).
  (** read of an enumerator: src/Io/IoNgSerializer.h:420-426: the number is read into an integer and cast. *)
  Definition read_enum (f : file F) (name : str) : res Z := read_int F f name.

  (** write of a vector of enumerators: src/Io/IoNgSerializer.h:314-323; overwriteNotSupported: 601-606 *)
  Definition write_enums (f : file F) (name2 : str) (what : list Z) (m : wmode) : res (file F) :=
    match m with
    | ALLOW_OVERWRITE => Throw
    | NO_OVERWRITE =>
      let n := List.length what in
      do f <- createGroup F f name2 ;;
      let f := fst (write_num F f (sub name2 "Size") (CI (Z.of_nat n)) NO_OVERWRITE) in
      forM n 0 (fun i f => do x <- vget what i ;; Ok (write_enum f (subn name2 i) x NO_OVERWRITE)) f
    end.
  (** read of a vector of enumerators: src/Io/IoNgSerializer.h:472-480. New elements have the number 0. *)
  Definition read_enums (f : file F) (name : str) (what : list Z) : res (list Z) :=
    do size <- read_int F f (sub name "Size") ;;
    let what := vresize what (Z.to_nat size) 0%Z in
    forM (Z.to_nat size) 0 (fun i what => do x <- read_enum f (subn name i) ;; vset what i x) what.
End En.
