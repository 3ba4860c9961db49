(* What the equation commands are meant to report, from the commands that were done *)
From Coq Require Import String List Bool.
From Verif Require Import EqReport.
Import ListNotations.
Open Scope string_scope.
Open Scope list_scope.

(* the option that names the place *)
Definition at_option (k : kind) : string := match k with OnRegion => "region" | OnContact => "contact" | OnInterface => "interface" end.
(* the options of the manual *)
Definition documented (k : kind) : list string :=
  ["device"; at_option k; "name"] ++
  match k with
  | OnRegion => ["variable_name"; "variable_update"; "node_model"; "edge_model"; "edge_volume_model"; "element_model"; "volume_node0_model"; "volume_node1_model"; "time_node_model"]
  | OnContact => ["circuit_node"; "node_model"; "edge_model"; "edge_volume_model"; "element_model"; "volume_node0_model"; "volume_node1_model"; "node_charge_model";
                  "edge_charge_model"; "element_charge_model"; "node_current_model"; "edge_current_model"; "element_current_model"]
  | OnInterface => ["type"; "interface_model"; "name0"; "name1"]
  end.
(* the value of an option: the one given, or: no model; the standard update; the name of the equation on both sides *)
Fixpoint given_value (kw : args) (n : string) : option string :=
  match kw with [] => None | (m, v) :: t => if string_dec n m then Some v else given_value t n end.
Definition side (n : string) : bool := String.eqb n "name0" || String.eqb n "name1".
Definition meant (kw : args) (n : string) : string :=
  let v := match given_value kw n with Some v => v | None => "" end in
  if side n && String.eqb v "" then match given_value kw "name" with Some v => v | None => "" end
  else match given_value kw n with Some v => v | None => if String.eqb n "variable_update" then "default" else "" end.

(* the options with which each equation was last given, if it was not deleted since: from the commands and their replies *)
Definition place : Type := kind * string * string * string.
Definition place_dec : forall a b : place, {a = b} + {a <> b}.
Proof. repeat decide equality. Defined.
Definition given_step (g : place -> option args) (x : cmd * reply) : place -> option args :=
  match x with
  | (Create k kw, Done) => fun y => match y with
      | (k', d, p, n) => match given_value kw "device", given_value kw (at_option k), given_value kw "name" with
                         | Some d', Some p', Some n' => if place_dec y (k, d', p', n') then Some kw else g y
                         | _, _, _ => g y
                         end
      end
  | (Delete k d p n, Done) => fun y => if place_dec y (k, d, p, n) then None else g y
  | _ => g
  end.
Definition given (l : list (cmd * reply)) : place -> option args := fold_left given_step l (fun _ => None).
