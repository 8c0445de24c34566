(** Model of IoSimple::Out of src/Io/IoSimple.h and of src/RedirectOutput.hh, with what they need of std::ofstream.
    One program writes to a file at a time. *)
From Coq Require Import Ascii String.
From Verif Require Import Prelude Str_Model.
Import List.

(** The contents of the files on the disk; a file that is not there has the empty text. *)
Definition disk : Type := str -> str.
Definition put_file (d : disk) (n t : str) : disk := fun m => if str_eqb m n then t else d m.

(** std::filebuf: the file that is open, and what was written to it and is not yet on the disk *)
Record fbuf := mkfbuf { b_file : option str; b_pend : str }.
(** pubsync, and the first [k] characters going to the disk because the buffer was full *)
Definition b_sync (b : fbuf) (d : disk) : fbuf * disk :=
  match b_file b with
  | Some n => (mkfbuf (Some n) [], put_file d n (d n ++ b_pend b))
  | None => (b, d)
  end.
Definition b_drain (k : nat) (b : fbuf) (d : disk) : fbuf * disk :=
  match b_file b with
  | Some n => (mkfbuf (Some n) (skipn k (b_pend b)), put_file d n (d n ++ firstn k (b_pend b)))
  | None => (b, d)
  end.

(** std::ofstream: its buffer, and whether failbit or badbit is set *)
Record ofs := mkofs { s_buf : fbuf; s_fail : bool }.
Definition ofs_new : ofs := mkofs (mkfbuf None []) false.
(** open(name, mode); [can] says which files can be opened, [trunc] is the mode out, else it is app *)
Definition ofs_open (can : str -> bool) (name : str) (trunc : bool) (f : ofs) (d : disk) : ofs * disk :=
  match b_file (s_buf f) with
  | Some _ => (mkofs (s_buf f) true, d)
  | None => if can name then (mkofs (mkfbuf (Some name) []) false, if trunc then put_file d name [] else d)
            else (mkofs (s_buf f) true, d)
  end.
Definition ofs_close (f : ofs) (d : disk) : ofs * disk :=
  match b_file (s_buf f) with
  | Some _ => let '(_, d) := b_sync (s_buf f) d in (mkofs (mkfbuf None []) (s_fail f), d)
  | None => (mkofs (s_buf f) true, d)
  end.
(** f << s *)
Definition ofs_put (s : str) (f : ofs) : ofs :=
  if s_fail f then f else
  match b_file (s_buf f) with
  | Some n => mkofs (mkfbuf (Some n) (b_pend (s_buf f) ++ s)) false
  | None => mkofs (s_buf f) true
  end.

(** ** IoSimple::Out *)
(** fout_: no stream, its own, or one of somebody else (with the text it was given) *)
Inductive sink := Null | Own (f : ofs) | Ext (t : str).
(** rank_, filename_, fout_: src/Io/IoSimple.h:245-247 *)
Record out := mkout { o_rank : nat; o_name : str; o_sink : sink }.
Record world := mkworld { w_disk : disk; w_out : out }.
(** The end of a call: it returns, it throws, or it has no defined behaviour. After an exception the object is still there. *)
Inductive outcome := Done (w : world) | Refused (w : world) | Undefined.

Definition ostream_name : str := lit "OSTREAM".
(** Out(): src/Io/IoSimple.h:107-111 *)
Definition out_default (d : disk) : world := mkworld d (mkout 0 [] Null).
(** Out(os): src/Io/IoSimple.h:113-118 *)
Definition out_os (d : disk) : world := mkworld d (mkout 0 ostream_name (Ext [])).
(** Out(fn): src/Io/IoSimple.h:120-136. An exception here leaves no object. *)
Definition out_file (can : str -> bool) (d : disk) (rank : nat) (fn : str) : outcome :=
  if negb (rank =? 0) then Done (mkworld d (mkout rank fn Null))
  else
    let '(f, d) := ofs_open can fn true ofs_new d in
    let w := mkworld d (mkout rank fn (Own f)) in
    if s_fail f then Refused w else Done w.
(** ~Out: src/Io/IoSimple.h:138-146 *)
Definition out_end (w : world) : disk :=
  let o := w_out w in
  if negb (o_rank o =? 0) then w_disk w
  else if str_eqb (o_name o) ostream_name then w_disk w
  else match o_sink o with Own f => snd (ofs_close f (w_disk w)) | _ => w_disk w end.

(** What is done with it *)
Inductive op :=
| OOpen (fn : str) (trunc : bool)   (* open *)
| OClose                            (* close *)
| OLine (s : str)                   (* printline; with a stream, s is its text *)
| ONumber (label x : str)           (* write of a number; x is its text *)
| OThing (label x : str)            (* write of anything else *)
| OPut (s : str)                    (* operator<< *)
| ODrain (k : nat).                 (* the buffer is handed over in part *)

Definition nl : str := [ascii_of_nat 10].
(** fout_ << s, where fout_ may be null *)
Definition o_put (s : str) (w : world) : outcome :=
  let o := w_out w in
  match o_sink o with
  | Null => Undefined
  | Own f => Done (mkworld (w_disk w) (mkout (o_rank o) (o_name o) (Own (ofs_put s f))))
  | Ext t => Done (mkworld (w_disk w) (mkout (o_rank o) (o_name o) (Ext (t ++ s))))
  end.
Definition step (can : str -> bool) (w : world) (p : op) : outcome :=
  let o := w_out w in
  let rank_ok := o_rank o =? 0 in
  match p with
  (* open: src/Io/IoSimple.h:152-167 *)
  | OOpen fn trunc =>
    if negb rank_ok then Done w
    else if str_eqb (o_name o) ostream_name then Refused w
    else
      match (match o_sink o with Null => Some ofs_new | Own f => Some f | Ext _ => None end) with
      | None => Undefined
      | Some f =>
        let '(f, d) := ofs_open can fn trunc f (w_disk w) in
        let w := mkworld d (mkout (o_rank o) fn (Own f)) in
        if s_fail f then Refused w else Done w
      end
  (* close: src/Io/IoSimple.h:169-174 *)
  | OClose =>
    if str_eqb (o_name o) ostream_name then Refused w
    else match o_sink o with
         | Own f => let '(f, d) := ofs_close f (w_disk w) in Done (mkworld d (mkout (o_rank o) (o_name o) (Own f)))
         | _ => Undefined
         end
  (* printline: src/Io/IoSimple.h:182-199 *)
  | OLine s => if negb rank_ok then Done w else o_put (s ++ nl) w
  (* write: src/Io/IoSimple.h:201-205 *)
  | ONumber label x => o_put (label ++ lit "=" ++ x ++ nl) w
  (* write: src/Io/IoSimple.h:207-216 *)
  | OThing label x =>
    if negb rank_ok then Done w
    else match o_sink o with
         | Null => Undefined
         | Own f => if s_fail f then Refused w else o_put (label ++ nl ++ x ++ nl) w
         | Ext _ => o_put (label ++ nl ++ x ++ nl) w
         end
  (* operator<<: src/Io/IoSimple.h:234-241 *)
  | OPut s => if negb rank_ok then Done w else o_put s w
  | ODrain k =>
    match o_sink o with
    | Own f => let '(b, d) := b_drain k (s_buf f) (w_disk w) in Done (mkworld d (mkout (o_rank o) (o_name o) (Own (mkofs b (s_fail f)))))
    | _ => Done w
    end
  end.
(** One after the other, until something is refused or undefined *)
Fixpoint run (can : str -> bool) (w : world) (l : list op) : outcome :=
  match l with
  | [] => Done w
  | p :: l => match step can w p with Done w => run can w l | r => r end
  end.

(** ** RedirectOutput *)
(** What is at the end of a std::cout: the terminal, or the buffer of cout_stream_. What goes to the terminal is there at
    once. [r_saved] is cout_buffer_, [r_atexit] how often restoreCoutBuffer was given to atexit. *)
Inductive target := Terminal | ToFile.
Record rworld := mkr { r_disk : disk; r_term : str; r_err : str; r_stream : ofs; r_cout : target; r_unit : bool;
  r_saved : option target; r_redirected : bool; r_atexit : nat; r_name2 : str }.
(** The static members at the start, after setAppName: src/RedirectOutput.hh:14-24, 73-77 *)
Definition r_start (d : disk) (name2 : str) : rworld := mkr d [] [] ofs_new Terminal false None false 0 name2.

(** std::cout << s *)
Definition r_write (s : str) (w : rworld) : rworld :=
  match r_cout w with
  | Terminal => mkr (r_disk w) (r_term w ++ s) (r_err w) (r_stream w) (r_cout w) (r_unit w) (r_saved w) (r_redirected w) (r_atexit w) (r_name2 w)
  | ToFile =>
    match b_file (s_buf (r_stream w)) with
    | None => w
    | Some n =>
      let b := mkfbuf (Some n) (b_pend (s_buf (r_stream w)) ++ s) in
      let '(b, d) := if r_unit w then b_sync b (r_disk w) else (b, r_disk w) in
      mkr d (r_term w) (r_err w) (mkofs b (s_fail (r_stream w))) (r_cout w) (r_unit w) (r_saved w) (r_redirected w) (r_atexit w) (r_name2 w)
    end
  end.
(** doIt: src/RedirectOutput.hh:27-50; false if it throws *)
Definition doIt (can : str -> bool) (label : str) (trunc unbuffered : bool) (w : rworld) : bool * rworld :=
  let '(f, d) := ofs_open can label trunc (r_stream w) (r_disk w) in
  if s_fail f then (false, mkr d (r_term w) (r_err w) f (r_cout w) (r_unit w) (r_saved w) (r_redirected w) (r_atexit w) (r_name2 w))
  else
    (true, mkr d (r_term w) (r_err w ++ r_name2 w ++ lit ": Standard output sent to " ++ label ++ nl) f ToFile
      (unbuffered || r_unit w) (Some (r_cout w)) true (S (r_atexit w)) (r_name2 w)).
(** restoreCoutBuffer: src/RedirectOutput.hh:57-65 *)
Definition restore (w : rworld) : rworld :=
  match r_saved w with
  | None => w
  | Some t =>
    let '(f, d) := ofs_close (r_stream w) (r_disk w) in
    mkr d (r_term w) (r_err w) f t (r_unit w) (r_saved w) (r_redirected w) (r_atexit w) (r_name2 w)
  end.
(** The functions given to atexit *)
Definition r_exit (w : rworld) : rworld := Nat.iter (r_atexit w) restore w.

Inductive event := EWrite (s : str) | ERedirect (label : str) (trunc unbuffered : bool) | EDrain (k : nat).
Definition r_step (can : str -> bool) (w : rworld) (e : event) : rworld :=
  match e with
  | EWrite s => r_write s w
  | ERedirect label trunc unbuffered => snd (doIt can label trunc unbuffered w)
  | EDrain k =>
    let '(b, d) := b_drain k (s_buf (r_stream w)) (r_disk w) in
    mkr d (r_term w) (r_err w) (mkofs b (s_fail (r_stream w))) (r_cout w) (r_unit w) (r_saved w) (r_redirected w) (r_atexit w) (r_name2 w)
  end.
Definition r_run (can : str -> bool) (w : rworld) (l : list event) : rworld := fold_left (r_step can) l w.
