(* The command vector_gradient: src/GeomModels/VectorGradient.cc, src/Geometry/GradientField.cc,
   src/GeomModels/UnitVec.cc:46-86, src/GeomModels/EdgeInverseLength.cc.
   Real numbers.  The dense solver (LAPACK or Eigen, src/math/DenseMatrix.cc) is a parameter: three rows, right hand side;
   None if it reports a failure.  The lists of values have one value for each node, elements name nodes of the region
   (checked by the loaders): nth never takes its default. *)
From Coq Require Import List Bool Arith Reals.
From Verif Require Import Adjacency Geometry Volume.
Import ListNotations.
Open Scope R_scope.

Section M.
Variable solve : vec -> vec -> vec -> vec -> option vec.
Variable pos : list vec.
Variable vals : list R. (* the node model *)
Variable avoidzero : bool. (* calc_type *)
Definition val (n : nat) : R := nth n vals 0.
Definition is_zero (x : R) : bool := if Req_EM_T x 0 then true else false.
Definition zero_vec : vec := mkvec 0 0 0.
Definition node_pos (n : nat) : vec := nth n pos zero_vec.

(* UnitVec.cc:74-86 calcUnitVec *)
Definition unit_vec (e : simplex) : vec :=
  let v := vsub (at_pos pos e 1) (at_pos pos e 0) in vscale (/ magnitude v) v.

(* VectorGradient.cc:59-94: vgrad and zlist of an edge *)
Definition edge_grad (e : simplex) : R :=
  vx (unit_vec e) * (1 / edge_length pos e) * (val (nth 1 e 0%nat) - val (nth 0 e 0%nat)).
Definition edge_used (e : simplex) : bool :=
  negb (avoidzero && (is_zero (val (nth 0 e 0%nat)) || is_zero (val (nth 1 e 0%nat)))).
(* VectorGradient.cc:99-116: the loop over the edges at a node; val, count and vx[i] *)
Fixpoint node_loop (el : list simplex) (v : R) (count : nat) (out : R) : R :=
  match el with
  | [] => out
  | e :: rest =>
      let vc := if edge_used e then (v + edge_grad e, S count) else (v, count) in
      if Nat.eqb (snd vc) 0 then node_loop rest (fst vc) (snd vc) out
      else let v' := fst vc / INR (snd vc) in node_loop rest v' (snd vc) v'
  end.
Definition gradient_1d (edges : list simplex) : list R :=
  map (fun n => node_loop (map (fun e => nth e edges []) (at_node edges n)) 0 0 0) (seq 0 (length vals)).

(* GradientField.cc:30-77 CalcMatrices2d, 131-168 GetGradient *)
Definition tri_gradient (t : simplex) : vec :=
  let p k := at_pos pos t k in
  let row k := mkvec (vx (p k) - vx (p 0%nat)) (vy (p k) - vy (p 0%nat)) 1 in
  match solve (mkvec 0 0 1) (row 1%nat) (row 2%nat)
              (mkvec (val (nth 0 t 0%nat)) (val (nth 1 t 0%nat)) (val (nth 2 t 0%nat))) with
  | Some b => b | None => zero_vec end.
(* GradientField.cc:79-129 CalcMatrices3d (uz is the node model "y"), 170-210 GetGradient *)
Definition tet_gradient (t : simplex) : vec :=
  let p k := at_pos pos t k in
  let row k := mkvec (vx (p k) - vx (p 0%nat)) (vy (p k) - vy (p 0%nat)) (vy (p k) - vy (p 0%nat)) in
  let b k := val (nth k t 0%nat) - val (nth 0 t 0%nat) in
  match solve (row 1%nat) (row 2%nat) (row 3%nat) (mkvec (b 1%nat) (b 2%nat) (b 3%nat)) with
  | Some b => b | None => zero_vec end.
(* VectorGradient.cc:145-160, 213-228: elements at a node where the node model is zero are not used *)
Definition cell_used (cells : list simplex) (c : nat) : bool :=
  negb (avoidzero && existsb (fun n => is_zero (val n) && existsb (Nat.eqb c) (at_node cells n)) (seq 0 (length vals))).
(* VectorGradient.cc:162-185, 230-254 *)
Definition node_mean (cells : list simplex) (grad : simplex -> vec) (n : nat) : vec :=
  let l := filter (cell_used cells) (at_node cells n) in
  if Nat.eqb (length l) 0 then zero_vec
  else vscale (/ INR (length l)) (fold_left (fun a c => vadd a (grad (nth c cells []))) l zero_vec).
Definition gradient_2d (tris : list simplex) : list vec :=
  map (fun n => let g := node_mean tris tri_gradient n in mkvec (vx g) (vy g) 0) (seq 0 (length vals)).
Definition gradient_3d (tets : list simplex) : list vec :=
  map (node_mean tets tet_gradient) (seq 0 (length vals)).
End M.
