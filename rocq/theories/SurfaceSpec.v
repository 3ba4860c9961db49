(* Boundaries of a region: which edges (triangles) they consist of, and how their area is divided among the nodes. *)
From Coq Require Import List Arith Reals.
From Verif Require Import Geometry GeometrySpec VolumeSpec Surface.
Import ListNotations.
Open Scope R_scope.

(* L has the elements for which Q holds, each once *)
Definition once (L : list nat) (Q : nat -> Prop) : Prop := NoDup L /\ forall e, In e L <-> Q e.
(* the element belongs to a contact of region r / to the side in region r of an interface *)
Definition of_contact (r : nat) (pick : contact -> list nat) (cs : list contact) (e : nat) : Prop :=
  exists c, In c cs /\ k_region c = r /\ In e (pick c).
Definition of_interface (r : nat) (pick0 pick1 : interface -> list nat) (is : list interface) (e : nat) : Prop :=
  exists i, In i is /\ ((i_region0 i = r /\ In e (pick0 i)) \/ (i_region1 i = r /\ In e (pick1 i))).
(* an interface separates two regions *)
Definition proper (is : list interface) : Prop := Forall (fun i => i_region0 i <> i_region1 i) is.

Definition ends (pos : list vec) (edges : list (list nat)) (e k : nat) : vec := P pos (nth k (nth e edges []) 0%nat).
Definition len (pos : list vec) (edges : list (list nat)) (e : nat) : R := dist (ends pos edges e 0) (ends pos edges e 1).
(* half the length of an edge for each of its nodes *)
Definition half_at (pos : list vec) (edges : list (list nat)) (n e : nat) : R :=
  if in_dec Nat.eq_dec n (nth e edges []) then len pos edges e / 2 else 0.
Definition cosine_with (d a b : vec) : R := vx d * (vx b - vx a) + vy d * (vy b - vy a) + vz d * (vz b - vz a).
(* the lateral area of the frustum swept by the segment a b; radial: the signed distance from the axis *)
Definition frustum (radial : vec -> R) (a b : vec) : R := PI * (Rabs (radial a) + Rabs (radial b)) * dist a b.
Definition frustum_at (radial : vec -> R) (pos : list vec) (edges : list (list nat)) (n e : nat) : R :=
  total (fun m => frustum radial (P pos n) (midpoint (P pos n) (P pos m))) (if in_dec Nat.eq_dec n (nth e edges []) then others n (nth e edges []) else []).

(* p is a nearest of the nodes to c *)
Definition nearest (pos : list vec) (c : vec) (nodes : list nat) (n : nat) : Prop := In n nodes /\ forall m, In m nodes -> dist c (P pos n) <= dist c (P pos m).
