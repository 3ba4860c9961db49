(* Specification of the connections of a region, in terms of its nodes, edges, triangles and
   tetrahedra (lists of node numbers). *)
From Coq Require Import List Arith Permutation.
Import ListNotations.
Require Import Verif.Adjacency Verif.LoaderSpec.

(* l is a list of different elements with k different nodes each, in ascending order *)
Definition simplices (k : nat) (l : list (list nat)) : Prop :=
  NoDup l /\ Forall (fun f => length f = k /\ NoDup f /\ ascending f) l.
(* every side with k nodes of a cell is listed *)
Definition has_sides (k : nat) (sides cells : list (list nat)) : Prop :=
  forall f c, In c cells -> length f = k -> ascending f -> face f c -> In f sides.
Record complete_region (edges tris tets : list (list nat)) : Prop := {
  cr_edges : simplices 2 edges; cr_tris : simplices 3 tris; cr_tets : simplices 4 tets;
  cr_tri_sides : has_sides 2 edges tris; cr_tet_sides : has_sides 3 tris tets }.

(* p are the positions of the cells that have f as a side, each once *)
Definition cells_at (cells : list (list nat)) (f : list nat) (p : list nat) : Prop :=
  lists p (fun i => exists c, nth_error cells i = Some c /\ face f c).
(* every side in l belongs to one or two cells *)
Definition shared_by_two (l cells : list (list nat)) : Prop :=
  forall f, In f l -> exists p, cells_at cells f p /\ (length p = 1 \/ length p = 2).
(* the side f is what remains of the cell c without its node number j *)
Definition opposite_to (f c : list nat) (j : nat) : Prop := Permutation (nth j c 0 :: f) c.

(* what the lists of a region say *)
Record connected (edges tris tets : list (list nat)) (a : adjacency) : Prop := {
  (* the triangles at an edge *)
  cn_edge_tris : tris <> [] -> forall e f, nth_error edges e = Some f -> cells_at tris f (nth e (adj_edge_tris a) []);
  (* slot j of a triangle: the edge opposite to its node j *)
  cn_tri_edges : forall t c j, nth_error tris t = Some c -> j < 3 ->
    exists i f, nth j (nth t (adj_tri_edges a) []) None = Some i /\ nth_error edges i = Some f /\ opposite_to f c j;
  cn_edge_tets : tets <> [] -> forall e f, nth_error edges e = Some f -> cells_at tets f (nth e (adj_edge_tets a) []);
  cn_tri_tets : tets <> [] -> forall e f, nth_error tris e = Some f -> cells_at tets f (nth e (adj_tri_tets a) []);
  (* slot j of a tetrahedron: the triangle opposite to its node j *)
  cn_tet_tris : forall t c j, nth_error tets t = Some c -> j < 4 ->
    exists i f, nth j (nth t (adj_tet_tris a) []) None = Some i /\ nth_error tris i = Some f /\ opposite_to f c j;
  (* the edges of a tetrahedron, each once ... *)
  cn_tet_edges : forall t c, nth_error tets t = Some c ->
    lists (map ed_edge (nth t (adj_tet_data a) [])) (fun e => exists f, nth_error edges e = Some f /\ face f c);
  (* ... with the two triangles of the tetrahedron at the edge, and the node of the triangle that is not on the edge *)
  cn_tet_data : forall t c d, nth_error tets t = Some c -> In d (nth t (adj_tet_data a) []) ->
    exists f j1 t1 s1 n1 j2 t2 s2 n2, nth_error edges (ed_edge d) = Some f /\
      ed_faces d = [(j1, t1, Some n1); (j2, t2, Some n2)] /\ j1 < 4 /\ j2 < 4 /\ j1 <> j2 /\
      nth_error tris t1 = Some s1 /\ opposite_to s1 c j1 /\ Permutation (n1 :: f) s1 /\
      nth_error tris t2 = Some s2 /\ opposite_to s2 c j2 /\ Permutation (n2 :: f) s2 }.

