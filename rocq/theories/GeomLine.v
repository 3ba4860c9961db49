(* Lengths and volumes of one dimensional regions: GeomModels/EdgeLength.cc, EdgeCouple.cc, EdgeNodeVolume.cc, NodeVolume.cc.
   The arithmetic is that of the real numbers. *)
From Coq Require Import List Arith Reals.
Import ListNotations.
Open Scope R_scope.

(* Geometry/Vector.hh:15-40, 102-105 *)
Record vec := mkvec { vx : R; vy : R; vz : R }.
Definition vsub (a b : vec) : vec := mkvec (vx a - vx b) (vy a - vy b) (vz a - vz b).
Definition magnitude (v : vec) : R := sqrt (vx v * vx v + vy v * vy v + vz v * vz v).
(* EdgeLength.cc:42-52 *)
Definition edge_length (position : nat -> vec) (e : nat * nat) : R := magnitude (vsub (position (fst e)) (position (snd e))).
(* EdgeCouple.cc:37-41, EdgeNodeVolume.cc:46-59 *)
Definition edge_couple_1d (e : nat * nat) : R := 1.
Definition edge_node_volume_1d (position : nat -> vec) (e : nat * nat) : R := edge_couple_1d e * edge_length position e * 0.5.
(* Region.cc:364-382: the edges of the node i *)
Definition node_edges (es : list (nat * nat)) (i : nat) : list (nat * nat) :=
  flat_map (fun e => (if Nat.eqb (fst e) i then [e] else []) ++ (if Nat.eqb (snd e) i then [e] else []))%list es.
(* NodeVolume.cc:28-57 *)
Definition node_volume (vol : nat * nat -> R) (es : list (nat * nat)) (i : nat) : R := fold_left (fun v e => v + vol e) (node_edges es i) 0.
(* Mesh1d.cc:384-389: the coordinates of a region of a one dimensional device *)
Definition position_1d (coords : list R) (nodes : list nat) (k : nat) : vec := mkvec (nth (nth k nodes O) coords 0) 0 0.
