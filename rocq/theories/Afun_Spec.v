(** Functions given by tables. *)
From Coq Require Import Ascii String.
From Verif Require Import Prelude Str_Model Str_Spec Input_Spec Solv_Spec.
Import List.

(** The words of a line, separated by spaces *)
Definition words (line : str) (ws : list str) : Prop := runs (fun c => c = " "%char) line ws.
(** A line gives the numbers x and y in its columns cx and cy, counted from 0. *)
Definition line_gives (cx cy : nat) (line x y : str) : Prop :=
  exists ws, words line ws /\ nth_error ws cx = Some x /\ nth_error ws cy = Some y /\ real_like x /\ real_like y.
Definition fits (line : str) : Prop := List.length line < 2048 /\ ~ In newline line /\ ~ In (ascii_of_nat 0) line.
(** A file with this content is a table with these pairs; lines with nothing in them do not count. *)
Inductive table (cx cy : nat) : str -> list (str * str) -> Prop :=
| table_end : table cx cy [] []
| table_last line x y : fits line -> line_gives cx cy line x y -> table cx cy line [(x, y)]
| table_empty s l : table cx cy s l -> table cx cy (newline :: s) l
| table_line line x y s l : fits line -> line_gives cx cy line x y -> table cx cy s l -> table cx cy (line ++ newline :: s) ((x, y) :: l).

(** y is what the table gives for x: in its first line whose number in column cx equals x. *)
Definition gives {D : Type} (num : str -> D) (same : D -> D -> bool) (l : list (str * str)) (x : D) (y : str) : Prop :=
  exists pre x' post, l = pre ++ (x', y) :: post /\ same (num x') x = true /\ forall p, In p pre -> same (num (fst p)) x = false.

(** The arguments: a name in quotes, optionally the separator and the columns *)
Inductive arguments (file : str) : nat -> nat -> str -> Prop :=
| args_1 : arguments file 0 1 (lit "(""" ++ file ++ lit """)")
| args_2 : arguments file 0 1 (lit "(""" ++ file ++ lit """,space)")
| args_3 cx x : written x (Z.of_nat cx) -> arguments file cx 1 (lit "(""" ++ file ++ lit """,space," ++ x ++ lit ")")
| args_4 cx cy x y : written x (Z.of_nat cx) -> written y (Z.of_nat cy) ->
    arguments file cx cy (lit "(""" ++ file ++ lit """,space," ++ x ++ lit "," ++ y ++ lit ")").
