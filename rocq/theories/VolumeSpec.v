(* How the area or volume of the elements is divided among the nodes. *)
From Coq Require Import List Arith Reals.
From Verif Require Import Geometry GeometrySpec.
Import ListNotations.
Open Scope R_scope.

Definition total {A} (f : A -> R) (l : list A) : R := fold_right Rplus 0 (map f l).
Definition P (pos : list vec) (n : nat) : vec := nth n pos (mkvec 0 0 0).
Definition others (n : nat) (c : list nat) : list nat := remove Nat.eq_dec n c.
(* what node n gets of the triangle c with centre p: for each edge at n, the triangle between n, the middle of the edge and p *)
Definition part2 (pos : list vec) (p : vec) (c : list nat) (n : nat) : R :=
  if in_dec Nat.eq_dec n c then total (fun m => tri_area (P pos n) (midpoint (P pos n) (P pos m)) p) (others n c) else 0.
(* what it gets of the tetrahedron c with centre p: for each edge n m and each face n m k, the tetrahedron
   between n, the middle of the edge, the centre of the face and p *)
Definition part3 (pos : list vec) (center : list nat -> vec) (p : vec) (c : list nat) (n : nat) : R :=
  if in_dec Nat.eq_dec n c then
    total (fun m => total (fun k => tet_volume (P pos n) (midpoint (P pos n) (P pos m)) (center (others k c)) p) (others m (others n c))) (others n c)
  else 0.
