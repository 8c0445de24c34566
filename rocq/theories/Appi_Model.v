(** Model of the record of a run that a program keeps in its files: src/ApplicationInfo.h. The files are those of Ng_Model.v,
    the identifier of the run is that of Rid_Model.v. *)
From Coq Require Import ZArith Ascii String.
From Verif Require Import Prelude Str_Model Ng_Model Rid_Model.
Import List.

(** name_, runId_ and isFinalized_: src/ApplicationInfo.h:248-251. pid_ is not used here. *)
Record apinfo := mkapp { a_name : str; a_runId : str; a_final : bool }.

(** ctor: src/ApplicationInfo.h:101-107; [p] is the process number and [usec] the microseconds of the clock. *)
Definition app_new (name : str) (p usec : N) : res apinfo :=
  do id <- runIdInternal p usec ;; Ok (mkapp name id false).

(** finalize: src/ApplicationInfo.h:109 *)
Definition app_finalize (a : apinfo) : apinfo := mkapp (a_name a) (a_runId a) true.

Section App.
  Variable F : Type.
  (** write: src/ApplicationInfo.h:145-161; [t] are the seconds of the clock. *)
  Definition app_write (a : apinfo) (f : file F) (label : str) (t : Z) : res (file F) :=
    let root := label in
    if negb (a_final a) then
      do f <- createGroup F f root ;;
      do f <- write_string F f (sub root "Name") (a_name a) NO_OVERWRITE ;;
      do f <- write_string F f (sub root "RunId") (a_runId a) NO_OVERWRITE ;;
      Ok (fst (write_num F f (sub root "UnixTimeStart") (CI t) NO_OVERWRITE))
    else Ok (fst (write_num F f (sub root "UnixTimeEnd") (CI t) NO_OVERWRITE)).
End App.
