(** What users of the file store rely on. A store holds groups and values under
    names; a history is a list of steps, each of which writes a new value,
    overwrites one, or makes a group. *)
From Coq Require Import Ascii String.
From Verif Require Import Prelude Ring Str_Model Text_Model Dense_Model Crs_Model Crs_Spec Ng_Model.
Import List.

(** The types of values: integers, reals, bools, strings, vectors of them, pairs of
    integers, dense and sparse matrices, and vectors of values. *)
Inductive kind :=
  KInt | KFlt | KBool | KStr | KInts | KFlts | KCplx | KBools | KPair | KMat | KCrs | KVec (k : kind).

(** The element types the code has a vector overload for. *)
Definition elem_kind (k : kind) : Prop :=
  match k with KInts | KFlts | KCplx | KPair | KMat | KCrs => True | _ => False end.

Section Spec.
  Variable R : cring.

  Fixpoint ty (k : kind) : Type :=
    match k with
    | KInt => Z
    | KFlt => R
    | KBool => bool
    | KStr => str
    | KInts => list Z
    | KFlts => list R
    | KCplx => list (R * R)
    | KBools => list bool
    | KPair => Z * Z
    | KMat => mat R
    | KCrs => crs R
    | KVec k => list (ty k)
    end.
  Definition dflt (k : kind) : ty k :=
    match k with
    | KInt => 0%Z
    | KFlt => c0
    | KBool => false
    | KPair => (0, 0)%Z
    | KMat => mkmat 0 0 []
    | KCrs => mkcrs [] [] [] 0 0
    | _ => []
    end.

  (** The overload of write that the type of the value selects. *)
  Fixpoint wr (k : kind) : file R -> str -> ty k -> wmode -> res (file R) :=
    match k return file R -> str -> ty k -> wmode -> res (file R) with
    | KInt => fun f n x m => Ok (fst (write_num R f n (CI x) m))
    | KFlt => fun f n x m => Ok (fst (write_num R f n (CF x) m))
    | KBool => fun f n x m => Ok (write_bool R f n x m)
    | KStr => fun f n x m => write_string R f n x m
    | KInts => fun f n x m => Ok (write_vec R f n false (map CI x) m)
    | KFlts => fun f n x m => Ok (write_vec R f n true (map CF x) m)
    | KCplx => fun f n x m => Ok (write_cvec R f n x m)
    | KBools => fun f n x m => write_bools R f n x m
    | KPair => fun f n x m => write_pair R f n (CI (fst x)) (CI (snd x)) m
    | KMat => fun f n x m => mat_write R f n x m
    | KCrs => fun f n x m => crs_write R f n x m
    | KVec k => fun f n x m =>
        match k, m with
        | KPair, ALLOW_OVERWRITE => Throw     (* overwriteNotSupported: 601-606 *)
        | _, _ => write_vecof R (wr k) f n x m
        end
    end.

  (** The overload of read; the target held [old]. *)
  Fixpoint rd (k : kind) : file R -> str -> ty k -> res (ty k) :=
    match k return file R -> str -> ty k -> res (ty k) with
    | KInt => fun f n old => read_int R f n
    | KFlt => fun f n old => read_flt R f n
    | KBool => fun f n old => read_bool R f n
    | KStr => fun f n old => read_string R f n
    | KInts => fun f n old => read_vec_int R f n
    | KFlts => fun f n old => read_vec_flt R f n
    | KCplx => fun f n old => read_cvec R c0 f n
    | KBools => fun f n old => read_bools R f n old
    | KPair => fun f n old => read_pair R f n
    | KMat => fun f n old => mat_readNg R f n old
    | KCrs => fun f n old => crs_readNg R f n old
    | KVec k => fun f n old => read_vecof R (dflt k) (rd k) f n old
    end.

  (** The values covered: no empty vectors or strings, no matrix without elements. *)
  Fixpoint storable (k : kind) : ty k -> Prop :=
    match k return ty k -> Prop with
    | KInt | KFlt | KBool | KPair => fun _ => True
    | KStr => fun x => x <> []
    | KInts => fun x => x <> []
    | KFlts => fun x => x <> []
    | KCplx => fun x => x <> []
    | KBools => fun x => (Z.of_nat (List.length x) < 4294967296)%Z
    | KMat => fun m => (0 < m_nrow m)%nat /\ (0 < m_ncol m)%nat /\ List.length (m_data m) = (m_nrow m * m_ncol m)%nat
    | KCrs => fun m => checkValidity R m = Ok tt /\ (0 < List.length (c_colind m))%nat
    | KVec k => fun x => elem_kind k /\ forall y, In y x -> storable k y
    end.

  (** The types whose values can be overwritten. *)
  Definition overwritable (k : kind) : Prop :=
    match k with
    | KStr | KCplx => False
    | KVec k => match k with KInts | KFlts | KMat => True | _ => False end
    | _ => True
    end.

  Inductive entry := EGroup | EVal (k : kind) (x : ty k).
  Definition store := str -> option entry.
  Definition sset (st : store) (n : str) (e : entry) : store := fun m => if str_eqb m n then Some e else st m.

  Inductive step :=
  | SGroup (g : str)                         (* createGroup(g) *)
  | SWrite (n : str) (k : kind) (x : ty k)        (* write(n, x) *)
  | SOverwrite (n : str) (k : kind) (x : ty k).   (* write(n, x, ALLOW_OVERWRITE) *)

  (** What the code does, and what the user expects. *)
  Definition do_step (f : file R) (s : step) : res (file R) :=
    match s with
    | SGroup g => createGroup R f g
    | SWrite n k x => wr k f n x NO_OVERWRITE
    | SOverwrite n k x => wr k f n x ALLOW_OVERWRITE
    end.
  Definition want_step (st : store) (s : step) : store :=
    match s with
    | SGroup g => sset st g EGroup
    | SWrite n k x => sset st n (EVal k x)
    | SOverwrite n k x => sset st n (EVal k x)
    end.
  Fixpoint do_steps (f : file R) (l : list step) : res (file R) :=
    match l with
    | [] => Ok f
    | s :: l' => do f <- do_step f s ;; do_steps f l'
    end.
  Definition want_steps (st : store) (l : list step) : store := fold_left want_step l st.

  (** Names: components between slashes, which are not empty and not "."; the name does
      not end in "ComplexOrReal" and is not "Canary". *)
  Definition slash : ascii := "/"%char.
  Fixpoint join (l : list str) : str :=
    match l with
    | [] => []
    | [c] => c
    | c :: l' => c ++ slash :: join l'
    end.
  Definition good_name (n : str) : Prop :=
    (exists l, l <> [] /\ (forall c, In c l -> c <> [] /\ c <> lit "." /\ ~ In slash c) /\ n = join l) /\
    (forall p, n <> p ++ lit "ComplexOrReal") /\ n <> lit "Canary".

  (** The name is at the top or in a group that was made. *)
  Definition inside (st : store) (n : str) : Prop :=
    ~ In slash n \/ exists g c, n = g ++ slash :: c /\ ~ In slash c /\ st g = Some EGroup.

  (** A step is used as intended: new names are new, and a value is overwritten by one of
      its type. *)
  Definition proper (st : store) (s : step) : Prop :=
    match s with
    | SGroup g => good_name g /\ st g = None /\ inside st g
    | SWrite n k x => good_name n /\ st n = None /\ inside st n /\ storable k x
    | SOverwrite n k x => (exists x0, st n = Some (EVal k x0)) /\ storable k x /\ overwritable k
    end.
  Fixpoint propers (st : store) (l : list step) : Prop :=
    match l with
    | [] => True
    | s :: l' => proper st s /\ propers (want_step st s) l'
    end.

  Definition empty_store : store := fun _ => None.
End Spec.
Arguments EGroup {R}.
Arguments SGroup {R} g.
Arguments EVal {R} k x.
Arguments SWrite {R} n k x.
Arguments SOverwrite {R} n k x.
