(** The bonds of the K2NiF4 lattice: unit u has the oxygens 4u, 4u+1, 4u+2 and the copper 4u+3. *)
From Coq Require Import ZArith.
Local Open Scope Z_scope.

(** The bond between the sites has the direction: 0 along x, 1 along y, 2 along x+y, 3 along x-y. *)
Inductive bond_dir : Z -> Z -> Z -> Prop :=
| bd_x u : 0 <= u -> bond_dir (4 * u + 3) (4 * u) 0
| bd_x' u : 0 <= u -> bond_dir (4 * u + 3) (4 * u + 4) 0
| bd_y u : 0 <= u -> bond_dir (4 * u + 3) (4 * u + 1) 1
| bd_y' u : 0 <= u -> bond_dir (4 * u + 3) (4 * u + 2) 1
| bd_xpy u : 0 <= u -> bond_dir (4 * u) (4 * u + 1) 2
| bd_xpy' u : 0 <= u -> bond_dir (4 * u + 4) (4 * u + 2) 2
| bd_xmy u : 0 <= u -> bond_dir (4 * u) (4 * u + 2) 3
| bd_xmy' u : 0 <= u -> bond_dir (4 * u + 4) (4 * u + 1) 3.

(** A copper site *)
Definition copper (i : Z) : Prop := i mod 4 = 3.
(** A site whose bonds have the other sign if the sign is changed: the first oxygen of every second unit *)
Definition turned (i : Z) : Prop := i mod 8 = 4.
