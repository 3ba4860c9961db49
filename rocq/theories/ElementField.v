(* element_from_edge_model and element_from_node_model: src/Geometry/TriangleElementField.cc,
   src/Geometry/TetrahedronElementField.cc, src/models/TriangleEdgeFromEdgeModel.cc, TriangleEdgeFromEdgeModelDerivative.cc,
   TriangleEdgeFromNodeModel.cc, TetrahedronEdgeFromEdgeModel.cc, TetrahedronEdgeFromEdgeModelDerivative.cc,
   TetrahedronEdgeFromNodeModel.cc.
   Real numbers.  The dense solver (src/math/DenseMatrix.cc: LAPACK or Eigen) is a parameter: rows and right hand side, None
   if it reports a failure.  An edge is [head; tail].  The connections are those of Adjacency.v.
   None: an assertion fails, a null pointer is read, an access beyond the end of an array, or the use of an array element
   that was not written for this element (the arrays are thread_local and keep what an earlier element left). *)
From Coq Require Import List Bool Arith Reals.
From Verif Require Import Adjacency Geometry Volume VectorGradient.
Import ListNotations.
Open Scope R_scope.

Definition v2 := (R * R)%type.
Definition bind {A B} (o : option A) (f : A -> option B) : option B := match o with Some x => f x | None => None end.
(* arrays *)
Definition arr (A : Type) := nat -> option A.
Definition empty {A} : arr A := fun _ => None.
Definition upd {A} (m : arr A) (i : nat) (x : A) : arr A := fun j => if Nat.eqb j i then Some x else m j.
Definition hd_ (e : simplex) : nat := nth 0 e 0%nat.
Definition tl_ (e : simplex) : nat := nth 1 e 0%nat.
(* which end of the edge the node is: TriangleElementField.cc:215-240, TetrahedronElementField.cc:229-242 *)
Definition end_of (e : simplex) (n : nat) : option nat :=
  if Nat.eqb (hd_ e) n then Some 0%nat else if Nat.eqb (tl_ e) n then Some 1%nat else None.

Section M2.
Variable solve2 : v2 -> v2 -> v2 -> option v2.
Variable pos : list vec.
(* TriangleElementField.cc:36-45 *)
Definition row0 : list nat := [0; 0; 1]%nat.
Definition row1 : list nat := [1; 2; 2]%nat.
Definition node_shared : list nat := [2; 1; 0]%nat.
(* one triangle: its nodes, the edges in its slots *)
Variable t : simplex.
Variable el : list simplex.
Variable couples : list R. (* ElementEdgeCouple of the three edges *)
Definition el_ (i : nat) : option simplex := nth_error el i.
(* CalcMatrices, 71-128: the rows are (unitx, unity) of two edges; GetEdgePairVectors, 159-188 *)
Definition pair_vector (data : list R) (mi : nat) : option vec :=
  let i := nth mi row0 0%nat in let j := nth mi row1 0%nat in
  match el_ i, el_ j, nth_error data i, nth_error data j with
  | Some ei, Some ej, Some bi, Some bj =>
      let ui := unit_vec pos ei in let uj := unit_vec pos ej in
      match solve2 (vx ui, vy ui) (vx uj, vy uj) (bi, bj) with
      | Some b => Some (mkvec (fst b) (snd b) 0) | None => None end
  | _, _, _, _ => None
  end.
(* node_based[i][n] and weights[i][n] at index 2 i + n *)
Definition pairs := (arr vec * arr R)%type.
(* GetFieldPairs, 190-255: the body of the loop, given the vector of the pair *)
Definition field_step (v : vec) (mi : nat) (s : pairs) : option pairs :=
  let i := nth mi row0 0%nat in let j := nth mi row1 0%nat in
  match el_ i, el_ j, nth_error t (nth mi node_shared 0%nat), nth_error couples i, nth_error couples j with
  | Some ei, Some ej, Some np, Some wi, Some wj =>
      match end_of ei np, end_of ej np with
      | Some ni, Some nj =>
          Some (upd (upd (fst s) (2 * i + ni) v) (2 * j + nj) v,
                upd (upd (snd s) (2 * i + ni) wj) (2 * j + nj) wi)
      | _, _ => None
      end
  | _, _, _, _, _ => None
  end.
Fixpoint field_pairs (vector : nat -> option vec) (mis : list nat) (s : pairs) : option pairs :=
  match mis with
  | [] => Some s
  | mi :: rest => bind (vector mi) (fun v => bind (field_step v mi s) (field_pairs vector rest))
  end.
(* GetTriangleElementField, 271-298: the vector on edge i *)
Definition weighted (s : pairs) (i : nat) : option vec :=
  match fst s (2 * i)%nat, fst s (2 * i + 1)%nat, snd s (2 * i)%nat, snd s (2 * i + 1)%nat with
  | Some a, Some b, Some wa, Some wb =>
      let weight := 0 + wa + wb in
      if Req_EM_T weight 0 then None
      else Some (vscale (/ weight) (vadd (vadd zero_vec (vscale wa a)) (vscale wb b)))
  | _, _, _, _ => None
  end.
Definition tri_field (data : list R) : option (list vec) :=
  bind (field_pairs (pair_vector data) [0; 1; 2]%nat (empty, empty)) (fun s => opt_list (map (weighted s) [0; 1; 2]%nat)).
(* GetDerivativeEdgePairVectors, 300-364: d0, d1 are the derivative models of the three edges with respect to head and tail *)
Definition node_derivative (d0 d1 : list R) (n : nat) (k : nat) : option R :=
  match el_ k with
  | Some e => if Nat.eqb (hd_ e) n then nth_error d0 k else if Nat.eqb (tl_ e) n then nth_error d1 k else Some 0
  | None => None
  end.
Definition dpair_vector (d0 d1 : list R) (ni mi : nat) : option vec :=
  bind (nth_error t ni) (fun n =>
  let i := nth mi row0 0%nat in let j := nth mi row1 0%nat in
  match el_ i, el_ j, node_derivative d0 d1 n i, node_derivative d0 d1 n j with
  | Some ei, Some ej, Some bi, Some bj =>
      let ui := unit_vec pos ei in let uj := unit_vec pos ej in
      match solve2 (vx ui, vy ui) (vx uj, vy uj) (bi, bj) with
      | Some b => Some (mkvec (fst b) (snd b) 0) | None => None end
  | _, _, _, _ => None
  end).
(* GetDerivativeFieldPairs, 366-462: node_based[der][i][n] at index 6 der + 2 i + n *)
Definition der_index (e : simplex) (n : nat) : nat := if Nat.eqb (hd_ e) n then 0 else if Nat.eqb (tl_ e) n then 1 else 2.
Definition dfield_step (v : vec) (ni mi : nat) (s : pairs) : option pairs :=
  let i := nth mi row0 0%nat in let j := nth mi row1 0%nat in
  match el_ i, el_ j, nth_error t ni, nth_error t (nth mi node_shared 0%nat), nth_error couples i, nth_error couples j with
  | Some ei, Some ej, Some nd, Some np, Some wi, Some wj =>
      let di := der_index ei nd in let dj := der_index ej nd in
      match end_of ei np, end_of ej np with
      | Some pi, Some pj =>
          Some (upd (upd (fst s) (6 * di + 2 * i + pi) v) (6 * dj + 2 * j + pj) v,
                upd (upd (snd s) (6 * di + 2 * i + pi) wj) (6 * dj + 2 * j + pj) wi)
      | _, _ => None
      end
  | _, _, _, _, _, _ => None
  end.
Fixpoint dfield_pairs (d0 d1 : list R) (l : list (nat * nat)) (s : pairs) : option pairs :=
  match l with
  | [] => Some s
  | (ni, mi) :: rest => bind (dpair_vector d0 d1 ni mi) (fun v => bind (dfield_step v ni mi s) (dfield_pairs d0 d1 rest))
  end.
(* GetTriangleElementField, 465-497: the vectors [nd][i] *)
Definition dweighted (s : pairs) (nd i : nat) : option vec :=
  weighted (fun k => fst s (6 * nd + k)%nat, fun k => snd s (6 * nd + k)%nat) i.
Definition tri_dfield (d0 d1 : list R) : option (list (list vec)) :=
  bind (dfield_pairs d0 d1 (list_prod [0; 1; 2]%nat [0; 1; 2]%nat) (empty, empty)) (fun s =>
    opt_list (map (fun nd => opt_list (map (dweighted s nd) [0; 1; 2]%nat)) [0; 1; 2]%nat)).
End M2.

(* ---- a region ------------------------------------------------------------------ *)
Section R2.
Variable solve2 : v2 -> v2 -> v2 -> option v2.
Variable pos : list vec.
Variables edges tris : list simplex.
Variable a : adjacency.
Variable couples : list R. (* ElementEdgeCouple, 3 for each triangle *)
Definition slot_edges (t : nat) : option (list (nat * simplex)) :=
  opt_list (map (fun s => match s with Some e => option_map (pair e) (nth_error edges e) | None => None end) (nth t (adj_tri_edges a) [])).
(* PopulateEdgeData, 58-69 *)
Definition pick (ev : list R) (sl : list (nat * simplex)) : option (list R) := opt_list (map (fun s => nth_error ev (fst s)) sl).
Definition first3 (w : list R) (t : nat) : list R := firstn 3 (skipn (3 * t) w).
(* TriangleEdgeFromEdgeModel.cc:31-64: the models e_x and e_y, three values for each triangle *)
Definition element_from_edge (ev : list R) : option (list vec) :=
  option_map (@concat vec) (opt_list (map (fun t =>
    bind (nth_error tris t) (fun c => bind (slot_edges t) (fun sl => bind (pick ev sl) (fun data =>
      tri_field solve2 pos c (map snd sl) (first3 couples t) data)))) (seq 0 (length tris)))).
(* TriangleEdgeFromEdgeModelDerivative.cc:57-130: e_x:v@en0, @en1, @en2 *)
Definition element_from_edge_d (ev0 ev1 : list R) (nd : nat) : option (list vec) :=
  option_map (@concat vec) (opt_list (map (fun t =>
    bind (nth_error tris t) (fun c => bind (slot_edges t) (fun sl => bind (pick ev0 sl) (fun d0 => bind (pick ev1 sl) (fun d1 =>
      bind (tri_dfield solve2 pos c (map snd sl) (first3 couples t) d0 d1) (fun r => nth_error r nd)))))) (seq 0 (length tris)))).
(* TriangleEdgeFromNodeModel.cc:34-84: v@en0, @en1, @en2 *)
Definition element_from_node (nv : list R) (nd : nat) : option (list R) :=
  option_map (@concat R) (opt_list (map (fun t =>
    bind (nth_error tris t) (fun c => bind (slot_edges t) (fun sl =>
      opt_list (map (fun p => match nd with
        | 0%nat => nth_error nv (hd_ (snd (snd p))) | 1%nat => nth_error nv (tl_ (snd (snd p)))
        | _ => bind (nth_error c (fst p)) (nth_error nv) end) (combine (seq 0 (length sl)) sl))))) (seq 0 (length tris)))).
End R2.
