(* What the commands that give values to models are for: nothing here refers to how the values are kept. *)
From Coq Require Import String List ZArith.
From Verif Require Import StrMap ModelData SetValues.
Import ListNotations.
Open Scope list_scope.

Section S.
Variable V : Type.
Variable zero : V.
Variable calcs : string -> region V -> string -> option (cell V).   (* what evaluating a model gives *)
Variable depss : string -> string -> list string.                   (* the models that depend on a model *)
Notation device := (smap (region V)).
Notation step := (exec zero calcs depss).

(* the state after commands, each on a region *)
Definition after (s : device) (l : list (string * command V)) : device :=
  fold_left (fun s rc => fst (step s (fst rc) (snd rc))) l s.
(* get_node_model_values, ... of the model n of kind k on the region gives l *)
Definition reads (s : device) (reg : string) (k : kind) (n : string) (l : list V) : Prop :=
  snd (step s reg (Get_values k n)) = Values l.
(* Devices made by commands: regions (only their elements) without models, then any commands.  Model names are not
   empty (stringCannotBeEmpty in all the commands that create models). *)
Definition named (c : command V) : Prop := match c with Define _ n _ _ _ => n <> ""%string | _ => True end.
Definition reachable (s : device) : Prop :=
  exists s0 l, sorted s0 /\ (forall reg r, find reg s0 = Some r -> models r = []) /\
    (forall rc, In rc l -> named (snd rc)) /\ s = after s0 l.
(* an evaluation gives a value for each element *)
Definition whole_evaluations : Prop := forall reg r n c M,
  find n (models r) = Some M -> calcs reg r n = Some c -> length (elems V c) = size r (m_kind M).

(* the number of elements of the kind in the region *)
Definition elements (s : device) (reg : string) (k : kind) (sz : nat) : Prop :=
  exists r, find reg s = Some r /\
    match k with
    | Node => sz = nodes r
    | Edge => sz = edges r
    | Element => dim r = 2 /\ sz = 3 * triangles r \/ dim r = 3 /\ sz = 6 * tetrahedra r
                 \/ dim r <> 2 /\ dim r <> 3 /\ sz = 0
    end.
(* there is a model of this kind and name (element models exist in two and three dimensions), with this property *)
Definition model_such_that (P : model V -> Prop) (s : device) (reg : string) (k : kind) (n : string) : Prop :=
  exists r M, find reg s = Some r /\ find n (models r) = Some M /\ m_kind M = k /\ P M /\ (k = Element -> dim r = 2 \/ dim r = 3).
Definition exists_model := model_such_that (fun _ => True).
(* not a contact_node_model or contact_edge_model *)
Definition ordinary := model_such_that (fun M => m_con M = None).
(* node_solution, edge_solution, ... (or the derivatives the program makes for element models) *)
Definition solution := model_such_that (fun M => m_sol M = true).
(* a solution whose values are only those that are given to it *)
Definition plain := model_such_that (fun M => m_calc M = false).

(* the model a command gives values to, creates or deletes *)
Definition writes (c : command V) (n : string) : Prop :=
  match c with
  | Set_values _ n' _ _ | Set_value n' _ _ | Delete _ n' | Define _ n' _ _ _ => n' = n
  | Get_values _ _ => False
  end.
(* the models named in a command: written or evaluated *)
Definition names (c : command V) (n : string) : Prop :=
  match c with
  | Set_values _ n' init _ => n' = n \/ init = n
  | Set_value n' _ _ | Delete _ n' | Define _ n' _ _ _ | Get_values _ n' => n' = n
  end.
(* the values given by the option init_from are read from another model *)
Definition only_writes (c : command V) : Prop :=
  match c with
  | Set_values _ _ init _ => init = ""%string
  | Get_values _ _ => False
  | _ => True
  end.
End S.
