(* Solids of revolution: volume by Pappus' theorem, area by that of the frustum (SurfaceSpec.v). *)
From Coq Require Import String List Arith Reals Permutation.
From Verif Require Import Geometry GeometrySpec VolumeSpec.
Import ListNotations.
Open Scope R_scope.

(* the area of a plane triangle *)
Definition area2 (a b c : vec) : R := Rabs ((vx b - vx a) * (vy c - vy a) - (vx c - vx a) * (vy b - vy a)) / 2.
(* the volume swept by the triangle: the way of the centroid times the area *)
Definition pappus (radius : vec -> R) (a b c : vec) : R := 2 * PI * ((radius a + radius b + radius c) / 3) * area2 a b c.
(* what node n gets of the triangle c with centre p *)
Definition ring_part (radius : vec -> R) (pos : list vec) (p : vec) (c : list nat) (n : nat) : R :=
  if in_dec Nat.eq_dec n c then total (fun m => pappus radius (P pos n) (midpoint (P pos n) (P pos m)) p) (others n c) else 0.
(* the triangle with these heights and radii, cut at the height of its middle vertex p1, falls into (at most) two pieces with
   a side of constant height; the opposite vertices p0 and p2 are not farther from the axis than the centre of that side *)
Definition tapers (l : list (R * R)) : Prop := forall z0 r0 z1 r1 z2 r2, Permutation l [(z0, r0); (z1, r1); (z2, r2)] -> z0 <= z1 <= z2 -> z0 < z2 ->
  let r3 := r0 + (z1 - z0) / (z2 - z0) * (r2 - r0) in (z0 < z1 -> 2 * r0 <= r1 + r3) /\ (z1 < z2 -> 2 * r2 <= r1 + r3).
(* the axis and the plane of the mesh: radius is the distance along x (y) from the position z0 of the axis *)
Definition turned (variable : string) (z0 : R) (radius height : vec -> R) : Prop :=
  (variable = "x"%string /\ radius = (fun p => vx p - z0) /\ height = vy) \/ (variable = "y"%string /\ radius = (fun p => vy p - z0) /\ height = vx).
(* the part of node n next to its neighbour m in the triangle with centre p *)
Definition tapers_at (radius height : vec -> R) (pos : list vec) (p : vec) (n m : nat) : Prop :=
  tapers (map (fun q => (height q, radius q)) [P pos n; p; midpoint (P pos n) (P pos m)]).
