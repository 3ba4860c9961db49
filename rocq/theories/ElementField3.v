(* element_from_edge_model and element_from_node_model in three dimensions: src/Geometry/TetrahedronElementField.cc,
   src/models/TetrahedronEdgeFromEdgeModel.cc, TetrahedronEdgeFromEdgeModelDerivative.cc, TetrahedronEdgeFromNodeModel.cc.
   Real numbers; the dense solver is a parameter (three rows, right hand side; None if it reports a failure).
   None: an assertion fails, a null pointer is read, an access beyond the end of an array, or the use of an array element
   that was not written for this element (the arrays are thread_local and keep what an earlier element left). *)
From Coq Require Import List Bool Arith Reals.
From Verif Require Import Adjacency Geometry Volume VectorGradient ElementField.
Import ListNotations.
Open Scope R_scope.

(* an edge of a tetrahedron: its number, the edge, nodeopp[0], nodeopp[1] (Region.hh EdgeData) *)
Record tslot := { ts_num : nat; ts_edge : simplex; ts_o0 : nat; ts_o1 : nat }.

Section M3.
Variable solve : vec -> vec -> vec -> vec -> option vec.
Variable pos : list vec.
Variable t : simplex. (* the nodes of the tetrahedron *)
Variable dl : list tslot. (* its edges: TetrahedronToEdgeDataList *)
Definition touches (n : nat) (s : tslot) : bool := Nat.eqb (hd_ (ts_edge s)) n || Nat.eqb (tl_ (ts_edge s)) n.
(* edgeIndexes of a node: CalcMatrices, 112-130 *)
Definition at_slot (n : nat) : list nat := filter (fun j => match nth_error dl j with Some s => touches n s | None => false end) (seq 0 (length dl)).
(* the matrix of a node, 131-152, and the solution for the right hand side given for each slot, GetNodeVectors, 184-221 *)
Definition node_vector (rhs : nat -> option R) (n : nat) : option vec :=
  match at_slot n with
  | [j0; j1; j2] =>
      match nth_error dl j0, nth_error dl j1, nth_error dl j2, rhs j0, rhs j1, rhs j2 with
      | Some s0, Some s1, Some s2, Some b0, Some b1, Some b2 =>
          solve (unit_vec pos (ts_edge s0)) (unit_vec pos (ts_edge s1)) (unit_vec pos (ts_edge s2)) (mkvec b0 b1 b2)
      | _, _, _, _, _, _ => None
      end
  | _ => None (* dsAssert(k == 3) *)
  end.
(* node_based[j][n] at index 2 j + n.  GetFieldPairs, 222-256: what is written, in order *)
Definition node_writes (n : nat) (v : vec) : option (list (nat * vec)) :=
  opt_list (map (fun j => bind (nth_error dl j) (fun s => option_map (fun k => (2 * j + k, v)%nat) (end_of (ts_edge s) n))) (at_slot n)).
Definition writes (rhs : nat -> option R) : option (list (nat * vec)) :=
  option_map (@concat _) (opt_list (map (fun i => bind (nth_error t i) (fun n => bind (node_vector rhs n) (node_writes n))) [0; 1; 2; 3]%nat)).
Definition fill (l : list (nat * vec)) : arr vec := fold_left (fun m w => upd m (fst w) (snd w)) l empty.
(* GetTetrahedronElementField, 258-275: the vector on edge j *)
Definition half_sum (m : arr vec) (j : nat) : option vec :=
  match m (2 * j)%nat, m (2 * j + 1)%nat with
  | Some a, Some b => Some (vscale (1 / 2) (vadd a b)) | _, _ => None end.
Definition tet_field (rhs : nat -> option R) : option (list vec) :=
  bind (writes rhs) (fun l => opt_list (map (half_sum (fill l)) [0; 1; 2; 3; 4; 5]%nat)).
(* the right hand side for the derivative with respect to node dn, GetDerivativeNodeVectors, 322-352 *)
Definition drhs (ev0 ev1 : list R) (dn : nat) (j : nat) : option R :=
  bind (nth_error dl j) (fun s => if Nat.eqb (hd_ (ts_edge s)) dn then nth_error ev0 (ts_num s) else if Nat.eqb (tl_ (ts_edge s)) dn then nth_error ev1 (ts_num s) else Some 0).
(* GetDerivativeFieldPairs, 359-435: node_based_derivatives[nd][j][n] at index 12 nd + 2 j + n *)
Definition der_index3 (s : tslot) (dn : nat) : option nat :=
  if Nat.eqb (hd_ (ts_edge s)) dn then Some 0%nat else if Nat.eqb (tl_ (ts_edge s)) dn then Some 1%nat
  else if Nat.eqb (ts_o0 s) dn then Some 2%nat else if Nat.eqb (ts_o1 s) dn then Some 3%nat else None.
Definition dnode_writes (n dn : nat) (v : vec) : option (list (nat * vec)) :=
  opt_list (map (fun j => bind (nth_error dl j) (fun s => bind (der_index3 s dn) (fun nd =>
    option_map (fun k => (12 * nd + 2 * j + k, v)%nat) (end_of (ts_edge s) n)))) (at_slot n)).
Definition dwrites (ev0 ev1 : list R) : option (list (nat * vec)) :=
  option_map (@concat _) (opt_list (map (fun p => bind (nth_error t (fst p)) (fun n => bind (nth_error t (snd p)) (fun dn =>
    bind (node_vector (drhs ev0 ev1 dn) n) (dnode_writes n dn)))) (list_prod [0; 1; 2; 3]%nat [0; 1; 2; 3]%nat))).
(* GetTetrahedronElementField, 442-465 *)
Definition tet_dfield (ev0 ev1 : list R) (nd : nat) : option (list vec) :=
  bind (dwrites ev0 ev1) (fun l => opt_list (map (half_sum (fun k => fill l (12 * nd + k)%nat)) [0; 1; 2; 3; 4; 5]%nat)).
End M3.

(* ---- a region ------------------------------------------------------------------ *)
Section R3.
Variable solve : vec -> vec -> vec -> vec -> option vec.
Variable pos : list vec.
Variables edges tets : list simplex.
Variable a : adjacency.
Definition tslot_of (d : edgedata) : option tslot :=
  match nth_error edges (ed_edge d), ed_faces d with
  | Some e, (_, _, Some o0) :: (_, _, Some o1) :: _ => Some {| ts_num := ed_edge d; ts_edge := e; ts_o0 := o0; ts_o1 := o1 |}
  | _, _ => None
  end.
Definition tslots (k : nat) : option (list tslot) := opt_list (map tslot_of (nth k (adj_tet_data a) [])).
(* PopulateEdgeData, 52-66 *)
Definition slot_value (ev : list R) (dl : list tslot) (j : nat) : option R := bind (nth_error dl j) (fun s => nth_error ev (ts_num s)).
Definition over_tets {A} (f : nat -> simplex -> list tslot -> option (list A)) : option (list A) :=
  option_map (@concat A) (opt_list (map (fun k => bind (nth_error tets k) (fun c => bind (tslots k) (f k c))) (seq 0 (length tets)))).
(* TetrahedronEdgeFromEdgeModel.cc:34-72: the models e_x, e_y and e_z, six values for each tetrahedron *)
Definition element_from_edge3 (ev : list R) : option (list vec) :=
  over_tets (fun _ c dl => tet_field solve pos c dl (slot_value ev dl)).
(* TetrahedronEdgeFromEdgeModelDerivative.cc:67-150: e_x:v@en0 ... @en3 *)
Definition element_from_edge_d3 (ev0 ev1 : list R) (nd : nat) : option (list vec) :=
  over_tets (fun _ c dl => tet_dfield solve pos c dl ev0 ev1 nd).
(* TetrahedronEdgeFromNodeModel.cc:39-96: v@en0 ... @en3 *)
Definition element_from_node3 (nv : list R) (nd : nat) : option (list R) :=
  over_tets (fun _ c dl => opt_list (map (fun s => nth_error nv (match nd with
    | 0%nat => hd_ (ts_edge s) | 1%nat => tl_ (ts_edge s) | 2%nat => ts_o0 s | _ => ts_o1 s end)) dl)).
End R3.
