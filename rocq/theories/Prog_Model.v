(** Model of src/ProgressIndicator.h, src/ProgressIndicator.cpp, src/Profiling.h
    and src/MemoryUsage.h.
    Characters as in Str_Model.  The time that a call reads from the clock is
    an argument: the text of the elapsed seconds, with three decimals. *)
From Coq Require Import Ascii String QArith.
From Verif Require Import Prelude Str_Model.
Import List.
Local Open Scope nat_scope.

(** std::basic_ostringstream: its characters and the place at which the next
    character goes (src/AllocatorCpu.h:156-172 [OstringStream] wraps one). *)
Record ostr := mkostr { obuf : str; opos : nat }.

Definition ostr_empty : ostr := mkostr [] 0.

(** [os << t]: from the put position on, over what is there. *)
Definition ostr_write (o : ostr) (t : str) : ostr :=
  mkostr (firstn (opos o) (obuf o) ++ t ++ skipn (opos o + List.length t) (obuf o))
         (opos o + List.length t).

(** [os.seekp(std::ios_base::beg)]: [beg] converts to the offset 0, so this
    moves the put position to the start; the characters stay. *)
Definition ostr_seekp0 (o : ostr) : ostr := mkostr (obuf o) 0.

(** [os.str("")] *)
Definition ostr_clear (o : ostr) : ostr := ostr_empty.

(** How a stream prints numbers: ios_base::precision and the flag std::fixed. *)
Record fmt := mkfmt { prec : nat; fixedflag : bool }.

(** All that the functions below see or change: the stream [os] that they are
    given (its text and its format), the static members [buffer_] (with its
    format) and [bufferActive_], and the files written so far. *)
Record world := mkworld {
  scr : str; scrfmt : fmt;
  log : ostr; logfmt : fmt;
  active : bool;
  files : list (str * str)
}.

(** One ProgressIndicator: src/ProgressIndicator.h:228-230. *)
Record ind := mkind { caller : str; thread : nat; rank : nat }.

(** ProgressIndicator::ProgressIndicator, src/ProgressIndicator.h:101-110;
    [r] is Concurrency::rank(). *)
Definition newInd (c : str) (threadId r : nat) : ind :=
  if negb (threadId =? 0) then mkind [] threadId 0 else mkind c threadId r.

(** The end of line. *)
Definition nl : str := [ascii_of_nat 10].

(** What ProgressIndicator::prefix prints, src/ProgressIndicator.h:212-213. *)
Definition prefixText (i : ind) (t : str) : str :=
  caller i ++ lit " " ++ lit "[" ++ t ++ lit "]: ".

(** ProgressIndicator::prefix, src/ProgressIndicator.h:206-215: the precision is
    put back, the flag std::fixed is not. *)
Definition prefixFmt (f : fmt) : fmt :=
  let old := prec f in
  let f := mkfmt 3 (fixedflag f) in
  let f := mkfmt (prec f) true in
  mkfmt old (fixedflag f).

(** [os << s] *)
Definition scrOut (w : world) (s : str) : world :=
  mkworld (scr w ++ s) (scrfmt w) (log w) (logfmt w) (active w) (files w).
Definition setLog (w : world) (o : ostr) : world :=
  mkworld (scr w) (scrfmt w) o (logfmt w) (active w) (files w).
Definition logOut (w : world) (s : str) : world := setLog w (ostr_write (log w) s).

Definition prefixScr (w : world) (i : ind) (t : str) : world :=
  scrOut (mkworld (scr w) (prefixFmt (scrfmt w)) (log w) (logfmt w) (active w) (files w))
         (prefixText i t).
Definition prefixLog (w : world) (i : ind) (t : str) : world :=
  logOut (mkworld (scr w) (scrfmt w) (log w) (prefixFmt (logfmt w)) (active w) (files w))
         (prefixText i t).

(** ProgressIndicator::printline(const String&, os), src/ProgressIndicator.h:133-148;
    [t1] and [t2] are the two readings of the clock. *)
Definition printline (i : ind) (s : str) (t1 t2 : str) (w : world) : world :=
  if negb (thread i =? 0) then w
  else if negb (rank i =? 0) then w
  else
    let w := scrOut (scrOut (prefixScr w i t1) s) nl in
    if negb (active w) then w
    else logOut (logOut (prefixLog w i t2) s) nl.

(** ProgressIndicator::printline(OstringStream&, os), src/ProgressIndicator.h:150-166;
    [m] is the caller's stream. *)
Definition printlineMsg (i : ind) (m : ostr) (t1 t2 : str) (w : world) : ostr * world :=
  if negb (thread i =? 0) then (m, w)
  else if negb (rank i =? 0) then (m, w)
  else
    let w := scrOut (scrOut (prefixScr w i t1) (obuf m)) nl in
    let m := ostr_seekp0 m in
    if negb (active w) then (m, w)
    else
      let w := logOut (logOut (prefixLog w i t2) (obuf m)) nl in
      (ostr_seekp0 m, w).

(** The same function when the stream is [buffer_] itself. *)
Definition printlineBuffer (i : ind) (t1 t2 : str) (w : world) : world :=
  if negb (thread i =? 0) then w
  else if negb (rank i =? 0) then w
  else
    let w := scrOut (scrOut (prefixScr w i t1) (obuf (log w))) nl in
    let w := setLog w (ostr_seekp0 (log w)) in
    if negb (active w) then w
    else
      let w := prefixLog w i t2 in
      let w := logOut (logOut w (obuf (log w))) nl in
      setLog w (ostr_seekp0 (log w)).

(** ProgressIndicator::print, src/ProgressIndicator.h:168-182. *)
Definition print (i : ind) (s : str) (t1 t2 : str) (w : world) : world :=
  if negb (thread i =? 0) then w
  else if negb (rank i =? 0) then w
  else
    let w := scrOut (prefixScr w i t1) s in
    if negb (active w) then w
    else logOut (prefixLog w i t2) s.

(** The message of ProgressIndicator::printMemoryUsage,
    src/ProgressIndicator.h:190-191. *)
Definition memMessage (vmSize vmPeak : str) : str :=
  lit "Current virtual memory is " ++ vmSize ++ lit " maximum was " ++ vmPeak.

(** ProgressIndicator::printMemoryUsage, src/ProgressIndicator.h:184-200. *)
Definition printMemoryUsage (i : ind) (vmSize vmPeak : str) (t1 t2 t3 t4 : str) (w : world) : world :=
  let '(_, w) := printlineMsg i (ostr_write ostr_empty (memMessage vmSize vmPeak)) t1 t2 w in
  if negb (active w) then w
  else
    let w := logOut w (memMessage vmSize vmPeak) in
    printlineBuffer i t3 t4 w.

(** ProgressIndicator::updateBuffer, src/ProgressIndicator.h:112-131; [p] is the
    number of the process in decimal; the message on std::cerr is left out. *)
Definition updateBuffer (p : str) (w : world) : world :=
  let w := if active w then
             mkworld (scr w) (scrfmt w) (ostr_clear (log w)) (logfmt w) (active w)
               ((lit "buffer" ++ p ++ lit ".txt", obuf (log w) ++ nl) :: files w)
           else w in
  mkworld (scr w) (scrfmt w) (log w) (logfmt w) (negb (active w)) (files w).

(** Profiling: src/Profiling.h:65-73 [killIt], [isDead_]. *)
Definition killIt (i : ind) (message : str) (t1 t2 : str) (dw : bool * world) : bool * world :=
  let '(isDead, w) := dw in
  if isDead then (isDead, w)
  else
    let msg := ostr_write (ostr_write ostr_empty (lit "stopping clock ")) message in
    (true, snd (printlineMsg i msg t1 t2 w)).

(** Profiling::Profiling with an additional text, src/Profiling.h:36-45. *)
Definition newProfiling (i : ind) (additional : str) (t1 t2 : str) (w : world) : bool * world :=
  let msg := ostr_write (ostr_write ostr_empty (lit "starting clock ")) additional in
  (false, snd (printlineMsg i msg t1 t2 w)).

(** The life of a Profiling object: src/Profiling.h:36-45 (constructor), 61
    ([end], called as many times as the list has elements) and 59 (destructor). *)
Definition profileLife (i : ind) (additional : str) (ends : list str) (t1 t2 : str) (w : world)
  : world :=
  let dw := newProfiling i additional t1 t2 w in
  let dw := fold_left (fun dw m => killIt i m t1 t2 dw) ends dw in
  snd (killIt i [] t1 t2 dw).

(** ---------- src/MemoryUsage.h ---------- *)

(** src/MemoryUsage.h:88 MY_MAX_LINE *)
Definition MY_MAX_LINE : N := 40240.

(** An std::ifstream: the characters to come, eofbit, failbit. *)
Record ifs := mkifs { rest : str; eofbit : bool; failbit : bool }.

(** The extraction of istream::getline(tmp, n): stops at the end of the file
    (eofbit), at the end of line (extracted, not stored), or when [n - 1]
    characters are stored (failbit), looked for in this order. *)
Fixpoint getline_loop (room : N) (acc s : str) : str * ifs :=
  match s with
  | [] => (acc, mkifs [] true (match acc with [] => true | _ => false end))
  | c :: s' =>
    if Ascii.eqb c (ascii_of_nat 10) then (acc, mkifs s' false false)
    else if (room =? 0)%N then (acc, mkifs s false true)
    else getline_loop (room - 1)%N (acc ++ [c]) s'
  end.

(** istream::getline: on a stream that is not good() it stores an empty text
    and sets failbit. *)
Definition getline (n : N) (f : ifs) : str * ifs :=
  if eofbit f || failbit f then ([], mkifs (rest f) (eofbit f) true)
  else getline_loop (n - 1)%N [] (rest f).

(** [String(tmp)]: up to the first NUL. *)
Fixpoint cstr (s : str) : str :=
  match s with
  | [] => []
  | c :: s' => if Ascii.eqb c (ascii_of_nat 0) then [] else c :: cstr s'
  end.

(** The while loop of MemoryUsage::update, src/MemoryUsage.h:154-158; [fuel]
    bounds the number of turns. *)
Fixpoint update_loop (fuel : nat) (data : str) (f : ifs) : res str :=
  if eofbit f then Ok data
  else match fuel with
       | 0 => OutOfFuel
       | S fuel' =>
         let '(tmp, f) := getline MY_MAX_LINE f in
         update_loop fuel' (data ++ cstr tmp ++ nl) f
       end.

(** MemoryUsage::update, src/MemoryUsage.h:147-161; [content] is the text of the
    file, [None] if it cannot be opened; [data] is [data_] before the call. *)
Definition update (fuel : nat) (data : str) (content : option str) : res str :=
  match content with
  | None => Ok data
  | Some s => update_loop fuel [] (mkifs s false false)
  end.

(** The for loop of MemoryUsage::findEntry, src/MemoryUsage.h:177-183. *)
Fixpoint skip_blanks (s : str) (x : nat) : nat :=
  match s with
  | [] => x
  | c :: s' =>
    let x := S x in
    if Ascii.eqb c " "%char || Ascii.eqb c (ascii_of_nat 9) then skip_blanks s' x else x
  end.

(** MemoryUsage::findEntry, src/MemoryUsage.h:163-189. *)
Definition findEntry (data label : str) : res str :=
  match str_find data label 0 with
  | None => Ok (lit "NOT_FOUND")
  | Some x =>
    let x := x + List.length label in
    let y := str_find data nl x in
    let len := match y with Some y => y - x | None => List.length data - x end in
    do s2 <- substr data x (Some len) ;;
    let x := skip_blanks s2 0 in
    let x := if 0 <? x then x - 1 else x in
    let len := List.length s2 - x in
    substr s2 x (Some len)
  end.

(** MemoryUsage::TimeHandle, src/MemoryUsage.h:92-137: seconds and
    microseconds; time_t and suseconds_t are taken without bounds. *)
Record timeHandle := mktime { tv_sec : Z; tv_usec : Z }.

(** src/MemoryUsage.h:109-114 *)
Definition time_sub (a b : timeHandle) : timeHandle :=
  mktime (tv_sec a - tv_sec b) (tv_usec a - tv_usec b).
(** src/MemoryUsage.h:116-121 *)
Definition time_add (a b : timeHandle) : timeHandle :=
  mktime (tv_sec a + tv_sec b) (tv_usec a + tv_usec b).
(** src/MemoryUsage.h:123 *)
Definition seconds (a : timeHandle) : Z := tv_sec a.
(** src/MemoryUsage.h:125 *)
Definition useconds (a : timeHandle) : Z := tv_usec a.
(** TimeHandle::millis, src/MemoryUsage.h:127-131; the quotients are exact here,
    rounding to double is not modelled. *)
Definition millis (a : timeHandle) : Q :=
  let tmp := (inject_Z (tv_usec a) / inject_Z 1000 + inject_Z (tv_sec a) * inject_Z 1000)%Q in
  (tmp / inject_Z 1000)%Q.
