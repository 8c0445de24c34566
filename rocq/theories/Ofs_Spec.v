(** Files that are written. *)
From Coq Require Import Ascii String.
From Verif Require Import Prelude Str_Model Ofs_Model.
Import List.

(** What is asked for: a file is opened, emptied or not; a text is written; the file is closed. *)
Inductive act := AOpen (n : str) (trunc : bool) | AText (s : str) | AClose.
(** What the files then are if everything is on the disk at once. A text written while no file is open is lost. *)
Fixpoint direct (cur : option str) (d : str -> str) (l : list act) : str -> str :=
  match l with
  | [] => d
  | AOpen n trunc :: l => direct (Some n) (fun m => if str_eqb m n then (if trunc then [] else d n) else d m) l
  | AText s :: l => direct cur (match cur with None => d | Some n => fun m => if str_eqb m n then d n ++ s else d m end) l
  | AClose :: l => direct None d l
  end.
Definition newline : str := [ascii_of_nat 10].
Definition asked (p : op) : list act :=
  match p with
  | OOpen n trunc => [AOpen n trunc]
  | OClose => [AClose]
  | OLine s => [AText (s ++ newline)]
  | ONumber label x => [AText (label ++ lit "=" ++ x ++ newline)]
  | OThing label x => [AText (label ++ newline ++ x ++ newline)]
  | OPut s => [AText s]
  | ODrain _ => []
  end.
(** A file is opened only when none is open, and it can be; texts are written and files closed only when one is open. *)
Fixpoint proper (can : str -> bool) (cur : option str) (l : list act) : Prop :=
  match l, cur with
  | [], _ => True
  | AOpen n _ :: l, None => can n = true /\ proper can (Some n) l
  | AText _ :: l, Some _ => proper can cur l
  | AClose :: l, Some _ => proper can None l
  | _, _ => False
  end.
(** The name that stands for a stream of somebody else is not used for a file. *)
Definition real_names (fn : str) (l : list op) : Prop :=
  fn <> lit "OSTREAM" /\ forall n trunc, In (OOpen n trunc) l -> n <> lit "OSTREAM".

(** What a program writes to the standard output *)
Definition said (l : list event) : str := flat_map (fun e => match e with EWrite s => s | _ => [] end) l.
(** No redirection in it can be done. *)
Definition no_redirect (can : str -> bool) (l : list event) : Prop :=
  forall label trunc unb, In (ERedirect label trunc unb) l -> can label = false.
