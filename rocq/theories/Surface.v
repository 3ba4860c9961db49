(* Surface areas and normals of contacts and interfaces: src/GeomModels/SurfaceArea.cc:70-297,
   SurfaceAreaUtil.cc:9-200, AtContactNode.cc:27-55, InterfaceNormal.cc:63-205, CylindricalSurfaceArea.cc:66-221.
   Real numbers instead of double or float128; the vectors nv, nvx, nvy, nvz are functions of the index of the node
   (all indices are those of nodes of the region).  The edges and triangles of contacts and interfaces are indices
   of edges and triangles of the region. *)
From Coq Require Import List Arith Bool Reals.
From Verif Require Import Adjacency Geometry Volume VectorGradient.
Import ListNotations.
Open Scope R_scope.

(* Contact.hh, Interface.hh: region, nodes, edges, triangles; the lists are in the order of the names (std::map) *)
Record contact := { k_region : nat; k_nodes : list nat; k_edges : list nat; k_tris : list nat }.
Record interface := { i_region0 : nat; i_region1 : nat; i_edges0 : list nat; i_edges1 : list nat; i_tris0 : list nat; i_tris1 : list nat }.

(* SurfaceArea.cc:138-151, 226-239 *)
Definition on_contacts (r : nat) (pick : contact -> list nat) (cs : list contact) : list nat :=
  concat (map (fun c => if Nat.eqb (k_region c) r then pick c else []) cs).
(* SurfaceArea.cc:153-178, 241-266 *)
Definition on_interfaces (r : nat) (pick0 pick1 : interface -> list nat) (is : list interface) : list nat :=
  concat (map (fun i => if Nat.eqb (i_region0 i) r then pick0 i else if Nat.eqb (i_region1 i) r then pick1 i else []) is).

(* SurfaceArea.cc:70-107 calcSurfaceArea1d: coord n is the index of the coordinate of node n; has c: whether the
   device has an interface (contact) at the coordinate *)
Definition area_1d (coord : nat -> nat) (has : nat -> bool) (n : nat) : R := if has (coord n) then 0 + 1 else 0.

(* nv, (nvx, nvy, nvz) *)
Record surf := { s_area : nat -> R; s_norm : nat -> vec }.
Definition empty : surf := {| s_area := fun _ => 0; s_norm := fun _ => mkvec 0 0 0 |}.
Definition upd {A} (f : nat -> A) (n : nat) (x : A) : nat -> A := fun m => if Nat.eqb m n then x else f m.

(* SurfaceAreaUtil.cc:21-50, 90-109 ProcessAreaAndNormal *)
Definition add_area (n : nat) (x : R) (s : surf) : surf := {| s_area := upd (s_area s) n (s_area s n + x); s_norm := s_norm s |}.
Definition add_norm (n : nat) (v : vec) (s : surf) : surf :=
  {| s_area := s_area s;
     s_norm := upd (s_norm s) n (if Rlt_dec (dot v (s_norm s n)) 0 then vsub (s_norm s n) v else vadd (s_norm s n) v) |}.

Section M.
Variable eps : R.
Variable pos : list vec.
Variable edges tris : list simplex.

(* SurfaceAreaUtil.cc:10-51 processEdge *)
Definition process_edge (e : simplex) (s : surf) : surf :=
  let half := / 2 * edge_length pos e in
  let u := unit_vec pos e in
  let v := mkvec (vy u * half) (- vx u * half) 0 in
  let n0 := nth 0 e 0%nat in let n1 := nth 1 e 0%nat in
  add_norm n1 v (add_norm n0 v (add_area n1 half (add_area n0 half s))).

(* SurfaceAreaUtil.cc:111-160 processTriangle *)
Definition corner_of (t : simplex) (k : nat) : nat := nth k t 0%nat.
Definition pair_area (c : vec) (t : simplex) (i j : nat) (s : surf) : surf :=
  let v := vscale (1 / 4) (cross (vsub (at_pos pos t i) (at_pos pos t j)) (vsub (at_pos pos t i) c)) in
  let vol := magnitude v in
  add_norm (corner_of t j) v (add_area (corner_of t j) vol (add_norm (corner_of t i) v (add_area (corner_of t i) vol s))).
Definition process_triangle (c : vec) (t : simplex) (s : surf) : surf := pair_area c t 1 2 (pair_area c t 0 2 (pair_area c t 0 1 s)).

(* SurfaceAreaUtil.cc:53-74, 162-182: elements visited before are skipped *)
Fixpoint visit (process : nat -> surf -> surf) (seen l : list nat) (s : surf) : surf :=
  match l with
  | [] => s
  | e :: t => if existsb (Nat.eqb e) seen then visit process seen t s else visit process (e :: seen) t (process e s)
  end.
(* SurfaceAreaUtil.cc:75-87, 184-197 *)
Definition normalize (s : surf) : surf :=
  {| s_area := s_area s;
     s_norm := fun n => let wt := magnitude (s_norm s n) in
       if Rlt_dec 0 (s_area s n) then if Rlt_dec 0 wt then vscale (/ wt) (s_norm s n) else s_norm s n else s_norm s n |}.
Definition edge_surface (l : list nat) : surf := normalize (visit (fun e => process_edge (nth e edges [])) [] l empty).
Definition triangle_surface (l : list nat) : surf :=
  normalize (visit (fun t => process_triangle (nth t (triangle_centers eps pos tris) (mkvec 0 0 0)) (nth t tris [])) [] l empty).

(* SurfaceArea.cc:109-204, 206-297: ContactSurfaceArea with ContactNSurfaceNormal_*, SurfaceArea with NSurfaceNormal_* *)
Definition contact_surface (dim r : nat) (cs : list contact) : surf :=
  match dim with 2%nat => edge_surface (on_contacts r k_edges cs) | _ => triangle_surface (on_contacts r k_tris cs) end.
Definition interface_surface (dim r : nat) (is : list interface) : surf :=
  match dim with 2%nat => edge_surface (on_interfaces r i_edges0 i_edges1 is) | _ => triangle_surface (on_interfaces r i_tris0 i_tris1 is) end.

(* AtContactNode.cc:27-55 *)
Definition at_contact (r : nat) (cs : list contact) : nat -> R :=
  fold_left (fun f n => upd f n (f n + 1)) (on_contacts r k_nodes cs) (fun _ => 0).

(* CylindricalSurfaceArea.cc:66-128 CalcAreasOnEdges; radial: the coordinate x or y minus raxis_zero *)
Definition process_ring (radial : vec -> R) (e : simplex) (f : nat -> R) : nat -> R :=
  let p0 := at_pos pos e 0 in let p1 := at_pos pos e 1 in
  let vmag := magnitude (vscale (/ 2) (vsub p1 p0)) in
  let r0 := radial p0 in let r1 := radial p1 in let rm := / 2 * (r0 + r1) in
  let n0 := nth 0 e 0%nat in let n1 := nth 1 e 0%nat in
  let g := upd f n0 (f n0 + PI * Rabs (rm + r0) * vmag) in
  upd g n1 (g n1 + PI * Rabs (r1 + rm) * vmag).
Fixpoint visit_rings (radial : vec -> R) (seen l : list nat) (f : nat -> R) : nat -> R :=
  match l with
  | [] => f
  | e :: t => if existsb (Nat.eqb e) seen then visit_rings radial seen t f
              else visit_rings radial (e :: seen) t (process_ring radial (nth e edges []) f)
  end.
(* CylindricalSurfaceArea.cc:130-221 *)
Definition cylindrical_surface (radial : vec -> R) (r : nat) (cs : list contact) (is : list interface) : nat -> R :=
  visit_rings radial [] (on_contacts r k_edges cs ++ on_interfaces r i_edges0 i_edges1 is) (fun _ => 0).

(* InterfaceNormal.cc:63-205 calcEdgeScalarValues: nodes of the interface in this region, normal n: NSurfaceNormal_* at
   node n, big: the largest double *)
Definition nearer (normal : nat -> vec) (c : vec) (st : R * vec) (n : nat) : R * vec :=
  let t := vsub (nth n pos (mkvec 0 0 0)) c in
  let d := dot t t in
  if Rlt_dec d (fst st) then (d, if Rlt_dec (dot t (normal n)) 0 then vneg (normal n) else normal n) else st.
Definition interface_normal (big : R) (normal : nat -> vec) (nodes : list nat) (e : simplex) : R * vec :=
  let st := fold_left (nearer normal (edge_center pos e)) nodes (big, mkvec 0 0 0) in (sqrt (fst st), snd st).
End M.
