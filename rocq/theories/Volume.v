(* Edge lengths, couples and volumes of a region: src/GeomModels/EdgeLength.cc:25-48,
   EdgeInverseLength.cc, TriangleEdgeCouple.cc:26-80, TriangleNodeVolume.cc:30-85,
   TetrahedronEdgeCouple.cc:27-100, TetrahedronNodeVolume.cc:33-85, EdgeCouple.cc:31-80,
   EdgeNodeVolume.cc:38-100, NodeVolume.cc:27-55.
   The connections are those of Adjacency.v; real numbers; None is an access through a null pointer or
   beyond the end of an array. *)
From Coq Require Import List Arith Reals.
From Verif Require Import Adjacency Geometry.
Import ListNotations.
Open Scope R_scope.

Fixpoint opt_list {A} (l : list (option A)) : option (list A) :=
  match l with
  | [] => Some []
  | x :: t => match x, opt_list t with Some a, Some r => Some (a :: r) | _, _ => None end
  end.
(* volume = 0.0; volume += ... *)
Definition opt_sum (l : list (option R)) : option R := option_map (fun l => fold_left Rplus l 0) (opt_list l).

Section M.
Variable eps : R.
Variable solve : vec -> vec -> vec -> vec -> option vec.
Variable pos : list vec. (* positions of the nodes *)
Variable edges tris tets : list simplex.
Variable a : adjacency.
Definition at_pos (s : simplex) (k : nat) : vec := nth (nth k s 0%nat) pos (mkvec 0 0 0).

(* EdgeLength.cc:37-47 calcEdgeLength *)
Definition edge_length (e : simplex) : R := magnitude (vsub (at_pos e 0) (at_pos e 1)).
Definition edge_lengths : list R := map edge_length edges.
Definition edge_center (e : simplex) : vec := vscale (/ 2) (vadd (at_pos e 0) (at_pos e 1)).
(* Region.cc:704-711 SetTriangleCenters *)
Definition triangle_centers : list vec := map (fun t => triangle_center eps (at_pos t 0) (at_pos t 1) (at_pos t 2)) tris.
(* Region.cc:727-734 SetTetrahedronCenters *)
Definition tetrahedron_centers : option (list vec) :=
  opt_list (map (fun t => tetrahedron_center solve (at_pos t 0) (at_pos t 1) (at_pos t 2) (at_pos t 3)) tets).
(* TriangleEdgeCouple.cc:26-80 *)
Definition tri_couples : option (list R) :=
  option_map (@concat R) (opt_list (map (fun t =>
    match nth_error triangle_centers t with
    | None => None
    | Some c => opt_list (map (fun s => match s with
        | Some e => match nth_error edges e with Some f => Some (magnitude (vsub (edge_center f) c)) | None => None end
        | None => None end) (nth t (adj_tri_edges a) []))
    end) (seq 0 (length tris)))).
(* the loop over the edges of an element, whose slots are given: TriangleNodeVolume.cc:60-80, TetrahedronNodeVolume.cc:60-80 *)
Definition elem_volumes (width : nat) (factor : R) (slots : nat -> list (option nat)) (ncells : nat) (couples : list R) : option (list R) :=
  option_map (@concat R) (opt_list (map (fun t =>
    opt_list (map (fun p => match snd p with
        | Some e => match nth_error edge_lengths e, nth_error couples (width * t + fst p) with
            | Some l, Some c => Some (l * (c * factor)) | _, _ => None end
        | None => None end) (combine (seq 0 (length (slots t))) (slots t)))) (seq 0 ncells))).
Definition tri_slots (t : nat) : list (option nat) := nth t (adj_tri_edges a) [].
Definition tet_slots (t : nat) : list (option nat) := map (fun d => Some (ed_edge d)) (nth t (adj_tet_data a) []).
Definition tri_volumes (couples : list R) : option (list R) := elem_volumes 3 (1 / 4) tri_slots (length tris) couples.
(* TetrahedronEdgeCouple.cc:39-100 *)
Definition tet_couples (centers : list vec) : option (list R) :=
  option_map (@concat R) (opt_list (map (fun t =>
    match nth_error centers t with
    | None => None
    | Some c =>
        match opt_list (map (fun s => match s with
                | Some f => option_map (fun v => vsub v c) (nth_error triangle_centers f) | None => None end) (nth t (adj_tet_tris a) [])) with
        | None => None
        | Some to_center => if negb (Nat.eqb (length (nth t (adj_tet_data a) [])) 6) then None (* the loop visits six edges *) else opt_list (map (fun d =>
            match nth_error edges (ed_edge d), ed_faces d with
            | Some f, (j1, _, _) :: (j2, _, _) :: _ =>
                let v0 := vsub c (edge_center f) in
                match nth_error to_center j1, nth_error to_center j2 with
                | Some v1, Some v2 => Some (/ 2 * (magnitude (cross v0 v1) + magnitude (cross v0 v2)))
                | _, _ => None
                end
            | _, _ => None
            end) (nth t (adj_tet_data a) []))
        end
    end) (seq 0 (length tets)))).
Definition tet_volumes (couples : list R) : option (list R) := elem_volumes 6 (1 / 6) tet_slots (length tets) couples.

(* Region.cc:1463-1503 GetEdgeIndexOnTriangle, GetEdgeIndexOnTetrahedron *)
Fixpoint index_on (slots : list (option nat)) (e : nat) : option nat :=
  match slots with
  | [] => None
  | Some x :: t => if Nat.eqb x e then Some 0%nat else option_map S (index_on t e)
  | None :: t => option_map S (index_on t e)
  end.
(* TriangleEdgeModel.cc:304-330, TetrahedronEdgeModel.cc:311-337 GetValuesOnEdges *)
Definition values_on_edges (width : nat) (around : list (list nat)) (slots : nat -> list (option nat)) (vals : list R) : option (list R) :=
  opt_list (map (fun i => opt_sum (map (fun t => match index_on (slots t) i with
      | Some j => nth_error vals (width * t + j) | None => None end) (nth i around []))) (seq 0 (length edges))).
(* EdgeCouple.cc:31-80; EdgeNodeVolume.cc:38-100 *)
Definition edge_couples (dim : nat) : option (list R) :=
  match dim with
  | 1%nat => Some (repeat 1 (length edges))
  | 2%nat => match tri_couples with Some c => values_on_edges 3 (adj_edge_tris a) tri_slots c | None => None end
  | _ => match tetrahedron_centers with None => None | Some p =>
           match tet_couples p with Some c => values_on_edges 6 (adj_edge_tets a) tet_slots c | None => None end end
  end.
Definition edge_volumes (dim : nat) : option (list R) :=
  match dim with
  | 1%nat => option_map (fun c => map (fun p => fst p * snd p * / 2) (combine c edge_lengths)) (edge_couples 1)
  | 2%nat => match tri_couples with None => None | Some c =>
           match tri_volumes c with Some v => values_on_edges 3 (adj_edge_tris a) tri_slots v | None => None end end
  | _ => match tetrahedron_centers with None => None | Some p =>
         match tet_couples p with None => None | Some c =>
           match tet_volumes c with Some v => values_on_edges 6 (adj_edge_tets a) tet_slots v | None => None end end end
  end.
(* NodeVolume.cc:27-55 *)
Definition node_volumes (dim : nat) : option (list R) :=
  match edge_volumes dim with
  | None => None
  | Some ev => opt_list (map (fun n => opt_sum (map (nth_error ev) (at_node edges n))) (seq 0 (length pos)))
  end.
End M.
