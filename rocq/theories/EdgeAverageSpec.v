(* What the averages of node values on an edge are. *)
From Coq Require Import String List Arith Reals.
From Verif Require Import Geometry GeometrySpec.
Import ListNotations.
Open Scope R_scope.

(* a, b: the values at the first and the second node of the edge, len: its length *)
Definition average_of (ty : string) (len a b : R) : R :=
  if string_dec ty "arithmetic" then (a + b) / 2
  else if string_dec ty "geometric" then sqrt (a * b)
  else if string_dec ty "gradient" then (b - a) / len
  else (a - b) / len.
(* u with the value at node n replaced by x *)
Definition with_value (u : nat -> R) (n : nat) (x : R) : nat -> R := fun m => if Nat.eqb m n then x else u m.
