(* What a two dimensional mesh has to be *)
From Coq Require Import String List Arith Reals Sorting.Sorted Sorting.Permutation.
From Verif Require Import MeshLine Mesh2.
Import ListNotations.
Open Scope R_scope.

(* the vertices of a triangle; a point of the plane with weights for the three vertices *)
Definition corners (t : tri) : list nat := let '(i, j, k) := t in [i; j; k].
Definition at_ (cs : list (R * R)) (i : nat) : R * R := nth i cs (0, 0).
Definition weights := (R * R * R)%type.
Definition proper (w : weights) : Prop := let '(a, b, c) := w in 0 <= a /\ 0 <= b /\ 0 <= c /\ a + b + c = 1.
Definition point (cs : list (R * R)) (t : tri) (w : weights) : R * R :=
  let '(i, j, k) := t in let '(a, b, c) := w in
  (a * fst (at_ cs i) + b * fst (at_ cs j) + c * fst (at_ cs k), a * snd (at_ cs i) + b * snd (at_ cs j) + c * snd (at_ cs k)).
(* the weight of the vertex v *)
Definition weight (t : tri) (w : weights) (v : nat) : R :=
  let '(i, j, k) := t in let '(a, b, c) := w in
  (if Nat.eq_dec v i then a else 0) + (if Nat.eq_dec v j then b else 0) + (if Nat.eq_dec v k then c else 0).
Definition area (cs : list (R * R)) (t : tri) : R :=
  let '(i, j, k) := t in
  Rabs ((fst (at_ cs j) - fst (at_ cs i)) * (snd (at_ cs k) - snd (at_ cs i)) - (fst (at_ cs k) - fst (at_ cs i)) * (snd (at_ cs j) - snd (at_ cs i))) / 2.

(* a conforming triangulation of the rectangle *)
Record triangulates (x0 x1 y0 y1 : R) (cs : list (R * R)) (ts : list tri) : Prop := mktriangulates {
  t_inside : Forall (fun p => x0 <= fst p <= x1 /\ y0 <= snd p <= y1) cs;
  t_distinct : NoDup cs;
  t_vertices : Forall (fun t => Forall (fun i => (i < length cs)%nat) (corners t) /\ NoDup (corners t)) ts;
  t_once : NoDup ts;
  (* every point of the rectangle is in some triangle *)
  t_cover : forall x y, x0 <= x <= x1 -> y0 <= y <= y1 -> exists t w, In t ts /\ proper w /\ point cs t w = (x, y);
  (* a point in two triangles is in their common face: it is the same combination of common vertices *)
  t_conform : forall t t' w w', In t ts -> In t' ts -> proper w -> proper w' -> point cs t w = point cs t' w' -> forall v, weight t w v = weight t' w' v;
  t_area : Forall (fun t => 0 < area cs t) ts;
  t_total : fold_right Rplus 0 (map (area cs) ts) = (x1 - x0) * (y1 - y0)
}.

(* the part of the mesh in a region: ts are the triangles in it *)
Record covers (rm : rmesh) (ts : list tri) : Prop := mkcovers {
  g_nodes : NoDup (rm_nodes rm);                                            (* one node at each coordinate *)
  g_triangles : Forall2 (fun t g => Permutation (map (fun n => nth_error (rm_nodes rm) n) (corners t)) (map Some (corners g))) (rm_triangles rm) ts;
  g_used : forall i, In i (rm_nodes rm) <-> exists g, In g ts /\ In i (corners g);
  g_edges : forall a b, In (a, b) (rm_edges rm) <-> (a < b)%nat /\ exists t, In t (rm_triangles rm) /\ In a (corners t) /\ In b (corners t)
}.

(* what the commands declare: the lines and boxes, with a negative spacing made up for; a rejected command declares nothing *)
Record decl := mkdecl { dname : string; dregions : list string; dx0 : R; dx1 : R; dy0 : R; dy1 : R; dbloat : R }.
Definition holds (d : decl) (x y : R) : Prop :=
  Rmin (dx0 d) (dx1 d) - dbloat d < x < Rmax (dx0 d) (dx1 d) + dbloat d /\ Rmin (dy0 d) (dy1 d) - dbloat d < y < Rmax (dy0 d) (dy1 d) + dbloat d.
Definition x_lines (cs : list (@command2 R)) : list R :=
  flat_map (fun c => match c with AddXLine p ps _ => if Rle_dec ps 0 then [] else [p] | _ => [] end) cs.
Definition y_lines (cs : list (@command2 R)) : list R :=
  flat_map (fun c => match c with AddYLine p ps _ => if Rle_dec ps 0 then [] else [p] | _ => [] end) cs.
Definition region_decls (cs : list (@command2 R)) : list decl :=
  flat_map (fun c => match c with Add2Region n x0 x1 y0 y1 b => if string_dec n "" then [] else [mkdecl n [] x0 x1 y0 y1 b] | _ => [] end) cs.
Definition contact_decls (cs : list (@command2 R)) : list decl :=
  flat_map (fun c => match c with Add2Contact n r x0 x1 y0 y1 b => if string_dec n "" then [] else if string_dec r "" then [] else [mkdecl n [r] x0 x1 y0 y1 b] | _ => [] end) cs.
Definition interface_decls (cs : list (@command2 R)) : list decl :=
  flat_map (fun c => match c with Add2Interface n r0 r1 x0 x1 y0 y1 b =>
    if string_dec n "" then [] else if string_dec r0 "" then [] else if string_dec r1 "" then [] else if string_dec r0 r1 then [] else [mkdecl n [r0; r1] x0 x1 y0 y1 b] | _ => [] end) cs.
(* the declarations of new names *)
Fixpoint news (seen : list string) (l : list decl) : list decl :=
  match l with [] => [] | d :: t => if in_dec string_dec (dname d) seen then news seen t else d :: news (dname d :: seen) t end.
(* d is the last of the declarations that hold at the point *)
Definition wins (ds : list decl) (x y : R) (d : decl) : Prop := holds d x y /\ exists pre post, ds = (pre ++ d :: post)%list /\ Forall (fun e => ~ holds e x y) post.
Definition centroid (cs : list (R * R)) (t : tri) : R * R := point cs t (/ 3, / 3, / 3).

(* node k of region r is at coordinate i *)
Definition has_node (l : @loaded R) (r : string) (i k : nat) : Prop := exists rm, In (r, rm) (l_regions l) /\ nth_error (rm_nodes rm) k = Some i.
(* the coordinate belongs to two regions *)
Definition shared (l : @loaded R) (i : nat) : Prop := exists r r' k k', r <> r' /\ has_node l r i k /\ has_node l r' i k'.
(* the contact or interface may have a node at the coordinate: it is in the box, and in the regions of it *)
Definition takes (l : @loaded R) (i : nat) (d : decl) : Prop :=
  holds d (fst (at_ (l_coords l) i)) (snd (at_ (l_coords l) i)) /\ Forall (fun r => exists k, has_node l r i k) (dregions d).
(* the first of those gets it *)
Definition gets (ds : list decl) (l : @loaded R) (i : nat) (d : decl) : Prop := takes l i d /\ exists pre post, ds = (pre ++ d :: post)%list /\ Forall (fun e => ~ takes l i e) pre.
