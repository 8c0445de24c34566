(** What a program does with the record of its run: it writes the record under a label at some time, ends the run, and does
    other things with the file. *)
From Coq Require Import ZArith Ascii String.
From Verif Require Import Prelude Ring Str_Model Ng_Model Ng_Spec Ng_Store Appi_Model.
Import List.

Section Spec.
  Variable R : cring.
  Inductive act := Other (s : step R) | Record (label : str) (t : Z) | Finish.

  (** what the code does *)
  Fixpoint do_acts (a : apinfo) (f : file R) (h : list act) : res (apinfo * file R) :=
    match h with
    | [] => Ok (a, f)
    | Other s :: h' => do f <- do_step R f s ;; do_acts a f h'
    | Record label t :: h' => do f <- app_write R a f label t ;; do_acts a f h'
    | Finish :: h' => do_acts (app_finalize a) f h'
    end.

  (** The store as it should be. [n] and [id] are the name of the program and the identifier of the run, [over] whether it has
      ended. *)
  Definition started (n id : str) (t : Z) (label : str) (st : store R) : store R :=
    let st := sset R st label EGroup in
    let st := sset R st (label ++ lit "/Name") (EVal KStr n) in
    let st := sset R st (label ++ lit "/RunId") (EVal KStr id) in
    sset R st (label ++ lit "/UnixTimeStart") (EVal KInt t).
  Definition ended (t : Z) (label : str) (st : store R) : store R := sset R st (label ++ lit "/UnixTimeEnd") (EVal KInt t).

  (** Used as intended: other steps are proper and leave the records alone, a record is begun under a new label, and ended once. *)
  Fixpoint proper_acts (n id : str) (over : bool) (st : store R) (h : list act) : Prop :=
    match h with
    | [] => True
    | Other s :: h' => proper R st s /\ proper_acts n id over (want_step R st s) h'
    | Finish :: h' => proper_acts n id true st h'
    | Record label t :: h' =>
      if over then good_name label /\ st label = Some EGroup /\ st (label ++ lit "/UnixTimeEnd") = None /\ proper_acts n id over (ended t label st) h'
      else good_name label /\ st label = None /\ inside R st label /\
        (forall w, In w ["/Name"; "/RunId"; "/UnixTimeStart"]%string -> st (label ++ lit w) = None) /\ proper_acts n id over (started n id t label st) h'
    end.
  Definition apart (h : list act) : Prop :=
    forall s label t r, In (Other s) h -> In (Record label t) h -> step_name R s <> label ++ lit "/" ++ r.
End Spec.
Arguments Other {R} s.
Arguments Record {R} label t.
Arguments Finish {R}.
