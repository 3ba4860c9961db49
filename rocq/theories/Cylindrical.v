(* Volumes and couples of bodies of revolution: src/GeomModels/TriangleCylindricalNodeVolume.cc:45-267,
   TriangleCylindricalEdgeCouple.cc:35-160, CylindricalNodeVolume.cc:37-84, CylindricalEdgeNodeVolume.cc:38-71,
   CylindricalEdgeCouple.cc:31-65.  Real numbers; the connections are those of Adjacency.v. *)
From Coq Require Import String List Arith Reals.
From Verif Require Import Adjacency Geometry Volume Surface.
Import ListNotations.
Open Scope R_scope.

(* TriangleCylindricalNodeVolume.cc:53-89, TriangleCylindricalEdgeCouple.cc:45-81, CylindricalSurfaceArea.cc:138-172: the
   parameters of the region raxis_zero (if it is a number) and raxis_variable; None: fatal error *)
Inductive axis := AlongX | AlongY.
Definition axis_parameters (zero : option R) (variable : option string) : option (axis * R) :=
  match zero, variable with
  | Some z, Some v => if String.eqb v "x" then Some (AlongX, z) else if String.eqb v "y" then Some (AlongY, z) else None
  | _, _ => None
  end.
Definition radial (ax : axis * R) (p : vec) : R := match fst ax with AlongX => vx p | AlongY => vy p end - snd ax.
Definition axial (ax : axis * R) (p : vec) : R := match fst ax with AlongX => vy p | AlongY => vx p end.

(* TriangleCylindricalNodeVolume.cc:114-132 calcCylindricalTriangleVolumeFlat *)
Definition flat (r0 z0 r1 z1 r2 : R) : R :=
  let z := Rabs (z1 - z0) in
  let r20 := (r2 - r0) ^ 2 in let r10 := (r1 - r0) ^ 2 in
  (Rabs (r20 - r10) * z / 3 + Rabs (r2 - r1) * r0 * z) * PI.
(* std::pair operator<, std::sort *)
Definition pair_lt (p q : R * R) : bool :=
  if Rlt_dec (fst p) (fst q) then true else if Rlt_dec (fst q) (fst p) then false else if Rlt_dec (snd p) (snd q) then true else false.
Fixpoint insert (x : R * R) (l : list (R * R)) : list (R * R) :=
  match l with [] => [x] | y :: t => if pair_lt y x then y :: insert x t else x :: y :: t end.
Definition sort (l : list (R * R)) : list (R * R) := fold_right insert [] l.
(* TriangleCylindricalNodeVolume.cc:135-173 calcCylindricalTriangleVolume; pairs of height and radius *)
Definition swept (l : list (R * R)) : R :=
  match sort l with
  | [(z0, r0); (z1, r1); (z2, r2)] =>
      if Req_EM_T z0 z1 then flat r2 z2 r0 z0 r1
      else if Req_EM_T z1 z2 then flat r0 z0 r1 z1 r2
      else let r3 := (z1 - z0) * (r2 - r0) / (z2 - z0) + r0 in flat r0 z0 r1 z1 r3 + flat r2 z2 r1 z1 r3
  | _ => 0
  end.

Section M.
Variable eps : R.
Variable pos : list vec.
Variable edges tris : list simplex.
Variable a : adjacency.
Variable ax : axis * R.
Definition height_radius (p : vec) : R * R := (axial ax p, radial ax p).
(* one value for each edge of each triangle *)
Definition on_triangles (f : vec -> simplex -> R) : option (list R) :=
  option_map (@concat R) (opt_list (map (fun t =>
    match nth_error (triangle_centers eps pos tris) t with
    | None => None
    | Some c => opt_list (map (fun s => match s with
        | Some e => match nth_error edges e with Some g => Some (f c g) | None => None end
        | None => None end) (nth t (adj_tri_edges a) []))
    end) (seq 0 (length tris)))).
(* TriangleCylindricalNodeVolume.cc:176-255 calcTriangleCylindricalNodeVolume, 91-110; k: which end of the edge *)
Definition element_volumes (k : nat) : option (list R) :=
  on_triangles (fun c e => swept [height_radius (at_pos pos e k); height_radius c; height_radius (edge_center pos e)]).
(* TriangleCylindricalEdgeCouple.cc:98-160, 83-96 *)
Definition element_couples : option (list R) :=
  on_triangles (fun c e => Rabs (PI * (radial ax c + radial ax (edge_center pos e)) * magnitude (vsub (edge_center pos e) c))).
Definition on_edges_sum (v : option (list R)) : option (list R) :=
  match v with Some l => values_on_edges edges 3 (adj_edge_tris a) (tri_slots a) l | None => None end.
(* CylindricalNodeVolume.cc:37-84 *)
Definition add_ends (nv0 nv1 : list R) (f : nat -> R) (i : nat) : nat -> R :=
  let e := nth i edges [] in
  let n0 := nth 0 e 0%nat in let n1 := nth 1 e 0%nat in
  let g := upd f n0 (f n0 + nth i nv0 0) in upd g n1 (g n1 + nth i nv1 0).
Definition cylindrical_node_volume : option (nat -> R) :=
  match on_edges_sum (element_volumes 0), on_edges_sum (element_volumes 1) with
  | Some nv0, Some nv1 => Some (fold_left (add_ends nv0 nv1) (seq 0 (length edges)) (fun _ => 0))
  | _, _ => None
  end.
(* CylindricalEdgeNodeVolume.cc:38-71: CylindricalEdgeNodeVolume@n0 and @n1; the first is set twice, the second time to nv,
   zeros as many as nodes *)
Definition cylindrical_edge_volume : option (list R * list R) :=
  match on_edges_sum (element_volumes 0), on_edges_sum (element_volumes 1) with
  | Some nv0, Some nv1 => let nv := repeat 0 (length pos) in Some (nv, nv1)
  | _, _ => None
  end.
(* CylindricalEdgeCouple.cc:52-65 *)
Definition cylindrical_edge_couple : option (list R) := on_edges_sum element_couples.
End M.
