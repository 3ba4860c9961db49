(* What is done with the models and equations of a device that was written (C57). *)
From Coq Require Import String List Bool Arith ZArith.
Import ListNotations.
Require Import Verif.StrMap Verif.Adjacency Verif.Loader Verif.LoaderSpec Verif.Restart Verif.RestartWrite Verif.RestartSpec.

Section Models.
Variable A : Type.
Variable of_int : Z -> A.
(* the commands that make models and equations of a region, an interface, a contact *)
Definition region_commands (r : sregion A) : list (command A) :=
  flat_map (fun q => match snd (snd q) with BCommand _ n o => [called A (n, o)] | _ => [] end) (sr_models A r) ++ map (fun q => called A (snd q)) (sr_equations A r).
Definition interface_commands (i : sinterface) : list (command A) :=
  map (fun q => called A (snd q)) (si_models i) ++ map (fun q => called A (snd q)) (si_equations i).
Definition contact_commands (c : scontact) : list (command A) := map (fun q => called A (snd q)) (sc_equations c).
Definition commands_of (s : saved A) : list (command A) :=
  flat_map (fun p => region_commands (snd p)) (sv_regions A s) ++ flat_map (fun p => interface_commands (snd p)) (sv_interfaces A s) ++
  flat_map (fun p => contact_commands (snd p)) (sv_contacts A s).
(* each of them succeeds after the ones before it *)
Definition succeed (run : list (command A) -> command A -> bool) (cs : list (command A)) : Prop :=
  forall before c after, cs = before ++ c :: after -> run before c = true.
(* the value a model has in the file *)
Definition value_of (b : body A) : given_values A :=
  match b with BUniform _ a => Uniform A a | BData _ vs => Values A vs | _ => Uniform A (of_int 0) end.
(* how many values a model has *)
Definition values_needed (r : sregion A) (m : mtype) : nat :=
  match m with MNode => length (sr_nodes A r) | MEdge => length (sr_edges A r) | MTri => 3 * length (sr_tris A r) | MTet => 6 * length (sr_tets A r) | MIface => 0 end.
Definition complete_data (s : saved A) : Prop :=
  forall n r k m vs, In (n, r) (sv_regions A s) -> In (k, (m, BData A vs)) (sr_models A r) -> length vs = values_needed r m.
(* every model of the file that the device does not have of itself has its value *)
Definition values_restored (builtin : mtype -> string -> bool) (s : saved A) (x : loaded A) : Prop :=
  forall n r, In (n, r) (sv_regions A s) -> exists vs, find n (ld_values A x) = Some vs /\
    forall k m b, In (k, (m, b)) (sr_models A r) -> builtin m k = false -> b <> BBuiltin A -> find k vs = Some (m, value_of b).
End Models.
