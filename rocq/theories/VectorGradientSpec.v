(* The gradient of a function given by its values at the nodes. *)
From Coq Require Import List Bool Arith Reals.
From Verif Require Import Geometry VolumeSpec.
Import ListNotations.
Open Scope R_scope.

Definition value (vals : list R) (n : nat) : R := nth n vals 0.
(* the cells with corner n *)
Definition cells_of (n : nat) (cells : list (list nat)) : list (list nat) := filter (fun c => if in_dec Nat.eq_dec n c then true else false) cells.
(* the cells where the function is zero at no corner *)
Definition nonzero_cell (vals : list R) (c : list nat) : bool := forallb (fun m => if Req_EM_T (value vals m) 0 then false else true) c.
(* the cells that count for node n *)
Definition used_cells (avoidzero : bool) (vals : list R) (n : nat) (cells : list (list nat)) : list (list nat) :=
  filter (fun c => if avoidzero then nonzero_cell vals c else true) (cells_of n cells).
Definition average {A} (f : A -> R) (l : list A) : R := match l with [] => 0 | _ => total f l / INR (length l) end.
(* the difference quotient on an edge in one dimension *)
Definition slope (pos : list vec) (vals : list R) (e : list nat) : R :=
  let h := nth 0 e 0%nat in let t := nth 1 e 0%nat in
  (value vals t - value vals h) / (vx (P pos t) - vx (P pos h)).
(* on the cell c the values are those of a linear function with gradient g *)
Definition linear_on (pos : list vec) (vals : list R) (c : list nat) (g : vec) : Prop :=
  exists k, forall n, In n c -> value vals n = vx g * vx (P pos n) + vy g * vy (P pos n) + vz g * vz (P pos n) + k.
(* cells in the plane *)
Definition flat_triangle (pos : list vec) (c : list nat) : Prop :=
  exists a b d, c = [a; b; d] /\ NoDup c /\
  (vx (P pos b) - vx (P pos a)) * (vy (P pos d) - vy (P pos a)) - (vx (P pos d) - vx (P pos a)) * (vy (P pos b) - vy (P pos a)) <> 0.
