(* What the statements of C64 talk about: unknowns, entries of a matrix, and what std::sort
   guarantees. *)
From Coq Require Import String List ZArith Reals Permutation Sorted.
From Verif Require Import StrMap EqTable Numbering.
Open Scope Z_scope.
Local Notation entry := (Z * Z * R)%type.

(* both unknowns belong to the same equation of the same region, or both to the circuit *)
Definition same_equation (u u' : unknown) : Prop :=
  match u, u' with
  | UBulk d r e _, UBulk d' r' e' _ => d = d' /\ r = r' /\ e = e'
  | UCircuit _, UCircuit _ => True
  | _, _ => False
  end.
(* both belong to the same region, or both to the circuit *)
Definition same_part (u u' : unknown) : Prop :=
  match u, u' with
  | UBulk d r _ _, UBulk d' r' _ _ => d = d' /\ r = r'
  | UCircuit _, UCircuit _ => True
  | _, _ => False
  end.
(* a region with an equation has a node *)
Definition populated_devs (devs : smap device) : Prop :=
  forall d dv r rg, find d devs = Some dv -> find r dv = Some rg -> t_eqs (r_table rg) <> nil -> r_nodes rg <> 0%nat.

(* a matrix is a list of entries *)
Definition row (e : entry) : Z := fst (fst e).
Definition col (e : entry) : Z := snd (fst e).
Definition mag (e : entry) : R := Rabs (snd e).
Definition off (e : entry) : Prop := row e <> col e.

(* the result of std::sort for SpecialSort: a permutation without inversions *)
Definition before (x y : entry) : Prop := row x < row y \/ row x = row y /\ (mag x > mag y)%R.
Definition std_sort (sorter : list entry -> list entry) : Prop :=
  forall l, Permutation l (sorter l) /\ StronglySorted (fun x y => ~ before y x) (sorter l).
