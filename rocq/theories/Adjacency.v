(* Region::FinalizeMesh (src/Geometry/Region.cc:305-770): the lists that connect nodes, edges,
   triangles and tetrahedra of a region, and the conditions under which a region is refused.
   Elements are lists of node numbers: an edge [head; tail], a triangle [n0; n1; n2], a tetrahedron
   [n0; n1; n2; n3]; an element is referred to by its position in its list (SetEdgeIndexes,
   SetTriangleIndexes, SetTetrahedronIndexes, Region.cc:329-362: the loaders number the elements in
   the order in which they add them).  A null pointer in a list is None. *)
From Coq Require Import List Bool Arith.
Import ListNotations.

Definition simplex := list nat.

(* std::set_intersection on two ascending ranges of element numbers (EdgeCompIndex,
   TriangleCompIndex, TetrahedronCompIndex: Edge.hh:72, Triangle.hh, Tetrahedron.hh) *)
Fixpoint inter (l1 l2 : list nat) : list nat :=
  match l1 with
  | [] => []
  | x :: t1 =>
      (fix go l2 := match l2 with
                    | [] => []
                    | y :: t2 => if x <? y then inter t1 l2 else if y <? x then go t2 else x :: inter t1 t2
                    end) l2
  end.

(* how many times the node occurs among the nodes of the element *)
Definition times (n : nat) (s : simplex) : nat := length (filter (Nat.eqb n) s).
Definition numbered (l : list simplex) : list (nat * simplex) := combine (seq 0 (length l)) l.
(* CreateNodeToEdgeList / CreateNodeToTriangleList / CreateNodeToTetrahedronList
   (Region.cc:364-428): the elements at node n, in ascending order, pushed once for each time the
   element names the node (the node numbers of elements are positions in the node list, checked by
   the loaders) *)
Definition at_node (l : list simplex) (n : nat) : list nat :=
  flat_map (fun p => repeat (fst p) (times n (snd p))) (numbered l).

(* CreateEdgeToTriangleList, CreateEdgeToTetrahedronList (Region.cc:430-499),
   CreateTriangleToTetrahedronList (Region.cc:610-652): the elements that have all the nodes of f *)
Definition around (l : list simplex) (f : simplex) : list nat :=
  match f with
  | [] => []
  | n :: t => fold_left (fun acc m => inter acc (at_node l m)) t (at_node l n)
  end.

(* the first position of a node of the element that is not a node of the face
   (Region.cc:531-540, 681-690) *)
Fixpoint first_out (face cell : simplex) : option nat :=
  match cell with
  | [] => None
  | n :: t => if existsb (Nat.eqb n) face then option_map S (first_out face t) else Some 0
  end.
Fixpoint set_nth {A} (l : list A) (i : nat) (x : A) : list A :=
  match l, i with
  | [], _ => []
  | _ :: t, 0 => x :: t
  | y :: t, S i => y :: set_nth t i x
  end.
Definition table := list (list (option nat)).
Definition cell (t : table) (i j : nat) : option nat := nth j (nth i t []) None.
Definition set_cell (t : table) (i j : nat) (v : nat) : table :=
  set_nth t i (set_nth (nth i t []) j (Some v)).
(* the assignments made by the loops over the faces and the elements around them *)
Definition writes (faces cells : list simplex) (ar : list (list nat)) : list (nat * nat * nat) :=
  flat_map (fun p =>
    flat_map (fun t => match first_out (snd p) (nth t cells []) with
                       | Some j => [(t, j, fst p)] | None => [] end)
             (nth (fst p) ar [])) (numbered faces).
(* CreateTriangleToEdgeList (Region.cc:501-544, width 3), CreateTetrahedronToTriangleList
   (Region.cc:654-693, width 4): slot j of an element gets the face (edge) without its node j *)
Definition opposite (width : nat) (faces cells : list simplex) (ar : list (list nat)) : table :=
  fold_left (fun acc w => set_cell acc (fst (fst w)) (snd (fst w)) (snd w))
            (writes faces cells ar) (repeat (repeat None width) (length cells)).

(* CreateTetrahedronToEdgeDataList (Region.cc:546-608).  None: a null pointer is dereferenced or
   more than two faces are recorded (EdgeData has room for two). *)
Record edgedata := { ed_edge : nat; ed_faces : list (nat * nat * option nat) (* slot, triangle, opposite node *) }.
(* k loop: is the edge among the edges of the triangle? *)
Fixpoint on_triangle (slots : list (option nat)) (e : nat) : option bool :=
  match slots with
  | [] => Some false
  | None :: _ => None
  | Some x :: t => if x =? e then Some true else on_triangle t e
  end.
(* j loop over the faces of the tetrahedron, from slot j *)
Fixpoint faces_with (tri_edges : table) (tris : list simplex) (edge : simplex) (e : nat)
    (trl : list (option nat)) (j : nat) : option (list (nat * nat * option nat)) :=
  match trl with
  | [] => Some []
  | None :: _ => None
  | Some f :: rest =>
      match on_triangle (nth f tri_edges []) e, faces_with tri_edges tris edge e rest (S j) with
      | Some b, Some l =>
          let opp := match first_out edge (nth f tris []) with Some k => nth_error (nth f tris []) k | None => None end in
          Some (if b then (j, f, opp) :: l else l)
      | _, _ => None
      end
  end.
Inductive finalized (A : Type) := Finished (a : A) | Asserted | Invalid.
Arguments Finished {A} a. Arguments Asserted {A}. Arguments Invalid {A}.

Record adjacency := {
  adj_edge_tris : list (list nat); adj_tri_edges : table;
  adj_edge_tets : list (list nat); adj_tri_tets : list (list nat);
  adj_tet_tris : table; adj_tet_data : list (list edgedata) }.

Definition one_or_two (l : list nat) : bool := (length l =? 1) || (length l =? 2).

(* the (edge, tetrahedron) loop, Region.cc:562-593 *)
Fixpoint edge_data (edges tris : list simplex) (tri_edges tet_tris : table)
    (pairs : list (nat * nat)) (acc : list (list edgedata)) : finalized (list (list edgedata)) :=
  match pairs with
  | [] => Finished acc
  | (e, t) :: rest =>
      match faces_with tri_edges tris (nth e edges []) e (nth t tet_tris []) 0 with
      | None => Invalid
      | Some l => if 2 <? length l then Invalid
                  else if length l =? 2
                  then edge_data edges tris tri_edges tet_tris rest
                         (set_nth acc t (nth t acc [] ++ [{| ed_edge := e; ed_faces := l |}]))
                  else Asserted
      end
  end.

(* FinalizeMesh (Region.cc:736-770); centres are not modelled here *)
Definition finalize_region (dim : nat) (edges tris tets : list simplex) : finalized adjacency :=
  let et := match tris with [] => [] | _ => map (around tris) edges end in
  let te := match tris with [] => [] | _ => opposite 3 edges tris et end in
  if match tris with [] => true | _ => negb (dim =? 2) || forallb one_or_two et end then
    match tets with
    | [] => Finished {| adj_edge_tris := et; adj_tri_edges := te; adj_edge_tets := [];
                        adj_tri_tets := []; adj_tet_tris := []; adj_tet_data := [] |}
    | _ =>
        let ete := map (around tets) edges in
        let tte := map (around tets) tris in
        if forallb one_or_two tte then
          let tt := opposite 4 tris tets tte in
          match edge_data edges tris te tt
                  (flat_map (fun p => map (pair (fst p)) (snd p)) (combine (seq 0 (length edges)) ete))
                  (repeat [] (length tets)) with
          | Finished d => Finished {| adj_edge_tris := et; adj_tri_edges := te; adj_edge_tets := ete;
                                      adj_tri_tets := tte; adj_tet_tris := tt; adj_tet_data := d |}
          | Asserted => Asserted
          | Invalid => Invalid
          end
        else Asserted
    end
  else Asserted.
