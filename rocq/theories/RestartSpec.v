(* What must be known after a file was read that write_devices wrote (C57), in terms of the device that was written. *)
From Coq Require Import String List Bool Arith ZArith.
Import ListNotations.
Require Import Verif.StrMap Verif.Adjacency Verif.Loader Verif.LoaderSpec Verif.Restart Verif.RestartWrite.
Open Scope string_scope.
Open Scope list_scope.

Section Spec.
Variable A : Type.
Variable of_int : Z -> A.
Notation sol := (solution A).

(* the arguments of a command are words *)
Definition strings (o : list (string * string)) : list (string * value A) := map (fun p => (fst p, VStr A (snd p))) o.
Definition called (c : call) : command A := (fst c, strings (snd c)).
Definition solution_of (m : mtype) (b : body A) : sol :=
  let s d vs p u c := {| s_type := m; s_data := d; s_values := vs; s_parent := p; s_uniform := u; s_command := c |} in
  let zero := of_int 0 in
  match b with
  | BBuiltin _ => s DBuiltin [] "" zero ("", [])
  | BUniform _ a => s DUniform [] "" a ("", [])
  | BData _ vs => s DData vs "" zero ("", [])
  | BParent _ p => s DParent [] p zero ("", [])
  | BCommand _ n o => s DCommand [] "" zero (n, strings o)
  end.
(* only the elements of the dimension of the device are in the file *)
Definition if_dim {X} (dim d : nat) (l : list X) : list X := if Nat.eqb dim d then l else [].
Definition region_read (dim : nat) (r : sregion A) : cregion A :=
  {| cr_material := sr_material A r;
     cr_part := {| mr_nodes := sr_nodes A r; mr_edges := if_dim dim 1 (sr_edges A r); mr_tris := if_dim dim 2 (sr_tris A r); mr_tets := if_dim dim 3 (sr_tets A r) |};
     cr_models := map (fun p => (fst p, solution_of (fst (snd p)) (snd (snd p)))) (sr_models A r);
     cr_equations := map (fun p => (fst p, called (snd p))) (sr_equations A r) |}.
Definition contact_read (dim : nat) (c : scontact) : ccontact A :=
  {| cc_region := sc_region c; cc_material := sc_material c;
     cc_part := {| mr_nodes := if_dim dim 1 (sc_nodes c); mr_edges := if_dim dim 2 (sc_edges c); mr_tris := if_dim dim 3 (sc_tris c); mr_tets := [] |};
     cc_equations := map (fun p => (fst p, called (snd p))) (sc_equations c) |}.
(* an interface is given by pairs of nodes or by pairs of edges or triangles *)
Definition by_nodes (dim : nat) (i : sinterface) : bool := Nat.eqb dim 1 || negb (si_provided i).
Definition equally {X} (l0 l1 l : list X) : list X := if Nat.eqb (length l0) (length l1) then l else [].
Definition interface_read (dim : nat) (i : sinterface) : cinterface A :=
  let els l0 l1 d := if by_nodes dim i then ([], []) else (if_dim dim d (equally l0 l1 l0), if_dim dim d (equally l0 l1 l1)) in
  let e := els (si_edges0 i) (si_edges1 i) 2 in
  let t := els (si_tris0 i) (si_tris1 i) 3 in
  {| ci_region0 := si_region0 i; ci_region1 := si_region1 i;
     ci_pairs := if by_nodes dim i then si_pairs i else [];
     ci_part0 := {| mr_nodes := []; mr_edges := fst e; mr_tris := fst t; mr_tets := [] |};
     ci_part1 := {| mr_nodes := []; mr_edges := snd e; mr_tris := snd t; mr_tets := [] |};
     ci_models := map (fun p => (fst p, solution_of MIface (BCommand A (fst (snd p)) (snd (snd p))))) (si_models i);
     ci_equations := map (fun p => (fst p, called (snd p))) (si_equations i) |}.
Definition read (s : saved A) : content A :=
  {| co_name := sv_name A s; co_coords := sv_coords A s;
     co_regions := map (fun p => (fst p, region_read (sv_dim A s) (snd p))) (sv_regions A s);
     co_contacts := map (fun p => (fst p, contact_read (sv_dim A s) (snd p))) (sv_contacts A s);
     co_interfaces := map (fun p => (fst p, interface_read (sv_dim A s) (snd p))) (sv_interfaces A s) |}.

(* a device: everything is listed by name, the nodes of an element are in ascending order *)
Definition simplices (k : nat) (l : list simplex) : Prop := Forall (fun e => length e = k /\ ascending e) l.
Definition proper_region (r : sregion A) : Prop :=
  simplices 2 (sr_edges A r) /\ simplices 3 (sr_tris A r) /\ simplices 4 (sr_tets A r) /\ sorted (sr_models A r) /\ sorted (sr_equations A r) /\
  Forall (fun p => fst (snd p) <> MIface) (sr_models A r).
Definition proper_contact (c : scontact) : Prop := simplices 2 (sc_edges c) /\ simplices 3 (sc_tris c) /\ sorted (sc_equations c).
Definition proper_interface (i : sinterface) : Prop :=
  simplices 2 (si_edges0 i) /\ simplices 2 (si_edges1 i) /\ simplices 3 (si_tris0 i) /\ simplices 3 (si_tris1 i) /\
  sorted (si_models i) /\ sorted (si_equations i).
Definition proper (s : saved A) : Prop :=
  sorted (sv_regions A s) /\ sorted (sv_contacts A s) /\ sorted (sv_interfaces A s) /\
  Forall (fun p => proper_region (snd p)) (sv_regions A s) /\ Forall (fun p => proper_contact (snd p)) (sv_contacts A s) /\
  Forall (fun p => proper_interface (snd p)) (sv_interfaces A s).
End Spec.
