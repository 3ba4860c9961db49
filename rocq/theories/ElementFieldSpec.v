(* Vector fields on the edges of elements, from values on edges. *)
From Coq Require Import List Bool Arith Reals.
From Verif Require Import Geometry GeometrySpec VolumeSpec.
Import ListNotations.
Open Scope R_scope.

(* the component of F in the direction from node u to node v *)
Definition along (pos : list vec) (F : vec) (u v : nat) : R :=
  (vx F * (vx (P pos v) - vx (P pos u)) + vy F * (vy (P pos v) - vy (P pos u)) + vz F * (vz (P pos v) - vz (P pos u))) / dist (P pos u) (P pos v).
(* edge number e goes from u to v and both are corners of the cell c *)
Definition side (edges : list (list nat)) (c : list nat) (e u v : nat) : Prop := nth_error edges e = Some [u; v] /\ In u c /\ In v c.
(* on every edge of the cell c with an end in n the edge model is the component of F along the edge *)
Definition agrees (pos : list vec) (edges : list (list nat)) (ev : list R) (c : list nat) (n : nat) (F : vec) : Prop :=
  forall e u v, side edges c e u v -> n = u \/ n = v -> nth e ev 0 = along pos F u v.
(* the mean of two vectors with weights *)
Definition mean (wa : R) (a : vec) (wb : R) (b : vec) (m : vec) : Prop :=
  wa + wb <> 0 /\ vscale (wa + wb) m = vadd (vscale wa a) (vscale wb b).
(* an edge model computed from the values of a variable at the ends of the edge *)
Definition edge_values (f : list nat -> R -> R -> R) (w : nat -> R) (edges : list (list nat)) : list R :=
  map (fun e => f e (w (nth 0 e 0%nat)) (w (nth 1 e 0%nat))) edges.
Definition set_at (w : nat -> R) (n : nat) (x : R) : nat -> R := fun m => if Nat.eq_dec m n then x else w m.
(* f0 and f1 are the partial derivatives of f *)
Definition partials (f f0 f1 : list nat -> R -> R -> R) : Prop :=
  (forall e x y, derivable_pt_lim (fun x => f e x y) x (f0 e x y)) /\ (forall e x y, derivable_pt_lim (fun y => f e x y) y (f1 e x y)).
(* a dense solver for two equations: what it returns solves them, and it fails only if they are singular *)
Definition solver2 (solve2 : R * R -> R * R -> R * R -> option (R * R)) : Prop :=
  (forall r s y x, solve2 r s y = Some x -> fst r * fst x + snd r * snd x = fst y /\ fst s * fst x + snd s * snd x = snd y) /\
  (forall r s y, fst r * snd s - snd r * fst s <> 0 -> solve2 r s y <> None).
