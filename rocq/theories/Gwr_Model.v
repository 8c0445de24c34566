(** Model of how a geometry is written to a file: src/Geometry/Geometry.h, src/Geometry/GeometryTerm.h and
    src/Geometry/GeometryDirection.h. The files are those of Ng_Model.v. Numbers are real. *)
From Coq Require Import ZArith Ascii String.
From Verif Require Import Prelude Ring Str_Model Text_Model Dense_Model Ng_Model.
Import List.

Section Gwr.
  Variable R : cring.

  (** GeometryDirection: aux_ (constantValues, dirId, idof, orbitals), dataNumbers_, dataMatrices_ and rawHoppings_:
      src/Geometry/GeometryDirection.h:97-121, 264-268. The enumeration is 94-95. *)
  Inductive idofEnum := GENERAL | SPECIFIC.
  Record gdir := mkgdir {
    gd_const : bool; gd_dirId : nat; gd_idof : idofEnum; gd_orbitals : nat;
    gd_numbers : list R; gd_matrices : list (mat R); gd_raw : mat R }.
  (** GeometryTerm: aux_ (debug, termId, numberOfTerms, linSize), orbitals_, gOptions_, directions_ and cachedValues_:
      src/Geometry/GeometryTerm.h:113-138, 509-514. geometryBase_ is not written. *)
  Record gterm := mkgterm {
    gt_debug : bool; gt_termId : nat; gt_numberOfTerms : nat; gt_linSize : nat; gt_orbitals : nat; gt_options : str;
    gt_directions : list gdir; gt_cached : mat R }.
  (** Geometry: linSize_ and terms_: src/Geometry/Geometry.h *)
  Record geom := mkgeom { ge_linSize : nat; ge_terms : list gterm }.

  Definition numb (n : nat) : cell R := CI (Z.of_nat n).
  (** the number of an enumerator: src/Io/IoNgSerializer.h:144-157 with an enumeration *)
  Definition enumNumber (e : idofEnum) : Z := match e with GENERAL => 0 | SPECIFIC => 1 end.

  (** write of a vector of objects, src/Io/IoNgSerializer.h:292-301, and of pointers to them, 361-370 *)
  Definition write_objs {T} (w : file R -> str -> T -> res (file R)) (f : file R) (name2 : str) (what : list T) : res (file R) :=
    let n := List.length what in
    do f <- createGroup R f name2 ;;
    let f := fst (write_num R f (sub name2 "Size") (numb n) NO_OVERWRITE) in
    forM n 0 (fun i f => do x <- vget what i ;; w f (subn name2 i) x) f.

  (** GeometryDirection::Auxiliary::write: src/Geometry/GeometryDirection.h:107-115 *)
  Definition diraux_write (f : file R) (label : str) (d : gdir) : res (file R) :=
    do f <- createGroup R f label ;;
    let f := write_bool R f (sub label "constantValues") (gd_const d) NO_OVERWRITE in
    let f := fst (write_num R f (sub label "dirId") (numb (gd_dirId d)) NO_OVERWRITE) in
    Ok (fst (write_num R f (sub label "edof") (CI (enumNumber (gd_idof d))) NO_OVERWRITE)).
  (** GeometryDirection::write: src/Geometry/GeometryDirection.h:168-176 *)
  Definition dir_write (f : file R) (label : str) (d : gdir) : res (file R) :=
    do f <- createGroup R f label ;;
    do f <- diraux_write f (sub label "aux_") d ;;
    let f := write_vec R f (sub label "dataNumbers_") true (map CF (gd_numbers d)) NO_OVERWRITE in
    do f <- write_objs (fun f n m => mat_write R f n m NO_OVERWRITE) f (sub label "dataMatrices_") (gd_matrices d) ;;
    mat_write R f (sub label "rawHoppings_") (gd_raw d) NO_OVERWRITE.

  (** GeometryTerm::Auxiliary::write: src/Geometry/GeometryTerm.h:123-132 *)
  Definition termaux_write (f : file R) (label : str) (t : gterm) : res (file R) :=
    do f <- createGroup R f label ;;
    let f := write_bool R f (sub label "debug") (gt_debug t) NO_OVERWRITE in
    let f := fst (write_num R f (sub label "termId") (numb (gt_termId t)) NO_OVERWRITE) in
    let f := fst (write_num R f (sub label "numberOfTerms") (numb (gt_numberOfTerms t)) NO_OVERWRITE) in
    Ok (fst (write_num R f (sub label "linSize") (numb (gt_linSize t)) NO_OVERWRITE)).
  (** GeometryTerm::write: src/Geometry/GeometryTerm.h:273-282 *)
  Definition term_write (f : file R) (label : str) (t : gterm) : res (file R) :=
    do f <- createGroup R f label ;;
    do f <- termaux_write f (sub label "aux_") t ;;
    let f := fst (write_num R f (sub label "orbitals_") (numb (gt_orbitals t)) NO_OVERWRITE) in
    do f <- write_string R f (sub label "gOptions_") (gt_options t) NO_OVERWRITE ;;
    do f <- write_objs dir_write f (sub label "directions_") (gt_directions t) ;;
    mat_write R f (sub label "cachedValues_") (gt_cached t) NO_OVERWRITE.

  (** Geometry::write: src/Geometry/Geometry.h:149-154 *)
  Definition geom_write (f : file R) (label : str) (g : geom) : res (file R) :=
    do f <- createGroup R f label ;;
    let f := fst (write_num R f (sub label "linSize_") (numb (ge_linSize g)) NO_OVERWRITE) in
    write_objs term_write f (sub label "terms_") (ge_terms g).
End Gwr.
