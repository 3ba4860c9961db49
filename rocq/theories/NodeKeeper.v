(* Model of the circuit node table (Circuit/data/NodeKeeper.cc) and of the circuit
   commands that change it (commands/CircuitCommands.cc).  Solutions are only
   present as the lock they set. *)
From Coq Require Import String List Bool Arith.
From Verif Require Import StrMap.
Import ListNotations.
Open Scope string_scope.

(* Circuit/data/CircuitNode.hh:17-24 *)
Inductive ntype := NDefault | NMNA | NInternal | NGround.
Inductive utype := UDefault | ULogdamp | UPositive.
(* nodeNumber_: None is size_t(-1) *)
Record node := mkNode { n_type : ntype; n_upd : utype; n_num : option nat }.
Definition is_ground (n : node) : bool := match n_type n with NGround => true | _ => false end.

(* NodeTable_, NodeAliasTable_, SolutionLocked_, numberOfNodes_, minEquationNumber *)
Record keeper := mkK { k_nodes : smap node; k_alias : smap string; k_locked : bool;
  k_count : nat; k_min : nat }.
Definition k_new : keeper := mkK [] [] false 0 0.

(* NodeKeeper.cc:52-83 AddNode; None: FATAL throws.  CircuitNode.cc: a new node has number 0 *)
Definition add_node (k : keeper) (name : string) (nt : ntype) (ut : utype) : option keeper :=
  if k_locked k then None
  else if has name (k_nodes k) then Some k
  else Some (mkK (put name (mkNode nt ut (Some 0)) (k_nodes k)) (k_alias k) (k_locked k) (k_count k) (k_min k)).

(* NodeKeeper.cc:85-109 AddNodeAlias; None: throws *)
Definition add_alias (k : keeper) (alias name : string) : option keeper :=
  if negb (has name (k_nodes k)) then None
  else if has alias (k_nodes k) then None
  else Some (mkK (k_nodes k) (put alias name (k_alias k)) (k_locked k) (k_count k) (k_min k)).

(* the name under which the table is searched, NodeKeeper.cc:209-214, 503-507 *)
Definition resolve (k : keeper) (name : string) : string :=
  match find name (k_alias k) with Some n => n | None => name end.
(* NodeKeeper.cc:501-510 *)
Definition is_circuit_node (k : keeper) (name : string) : bool := has (resolve k name) (k_nodes k).

(* NodeKeeper.cc:149-193 SetNodeNumbers; false: dsAssert(hasGround) throws after the loop *)
Fixpoint number_nodes (i : nat) (m : smap node) : smap node * nat :=
  match m with
  | nil => (nil, i)
  | (s, n) :: t =>
    if is_ground n then let (t', j) := number_nodes i t in ((s, mkNode (n_type n) (n_upd n) None) :: t', j)
    else let (t', j) := number_nodes (S i) t in ((s, mkNode (n_type n) (n_upd n) (Some i)) :: t', j)
  end.
Definition set_node_numbers (k : keeper) (start : nat) : keeper * bool :=
  let (m, c) := number_nodes 0 (k_nodes k) in
  (mkK m (k_alias k) (k_locked k) c start, existsb (fun p => is_ground (snd p)) (k_nodes k)).

(* NodeKeeper.cc:207-226, 228-237 *)
Definition index_number (k : keeper) (name : string) : option nat :=
  match find (resolve k name) (k_nodes k) with Some n => n_num n | None => None end.
Definition equation_number (k : keeper) (name : string) : option nat :=
  option_map (fun i => i + k_min k) (index_number k name).

(* ---- commands ------------------------------------------------------------- *)
(* CircuitCommands.cc:31-43 AddGroundNode *)
Definition add_ground (k : keeper) : option keeper :=
  match (if is_circuit_node k "0" then Some k else add_node k "0" NGround UDefault) with
  | None => None
  | Some k1 => if is_circuit_node k1 "GND" then Some k1 else add_node k1 "GND" NGround UDefault
  end.
(* CircuitCommands.cc:45-55 CreateNode *)
Definition create_node (k : keeper) (name : string) (ut : utype) : option keeper :=
  match add_ground k with
  | None => None
  | Some k1 => if is_circuit_node k1 name then Some k1 else add_node k1 name NDefault ut
  end.

Inductive element := ER | EC | EL | EV | EI | EBad.   (* by the first letter of the name *)
Inductive ccmd :=
| AddCircuitNode (name : string) (ut : utype) (value_positive : bool)   (* :57-133 *)
| CircuitElement (e : element) (name n1 n2 : string)                    (* :135-245 *)
| NodeAlias (node alias : string)                                       (* :340-397 *)
| NodeList                                                              (* :399-433 get_circuit_node_list *)
| Solve (start : nat)             (* Newton.cc:107-126 numbering and 623-627 InitializeSolution *)
| DeleteCircuit.                                                        (* :535-553 *)

(* InstanceModel.cc:21-41: terminals with AddNode(name), internal nodes with
   name.I (L: INTERNAL, V: MNA).  The constructor runs AddNode in order and throws
   with the nodes already added kept. *)
Fixpoint add_nodes (k : keeper) (l : list (string * ntype)) : keeper * bool :=
  match l with
  | nil => (k, true)
  | (s, t) :: r => match add_node k s t UDefault with None => (k, false) | Some k' => add_nodes k' r end
  end.
Definition element_nodes (e : element) (name n1 n2 : string) : list (string * ntype) :=
  match e with
  | EL => [(n1, NDefault); (n2, NDefault); (name ++ ".I", NInternal)]
  | EV => [(n1, NDefault); (n2, NDefault); (name ++ ".I", NMNA)]
  | EBad => []
  | _ => [(n1, NDefault); (n2, NDefault)]
  end.

(* bool: the command succeeded.  The table of elements is not modelled, so that a
   duplicate element name (an error after its nodes were added) counts as success. *)
Definition cexec (k : keeper) (c : ccmd) : keeper * bool :=
  match c with
  | AddCircuitNode name ut vp =>
    match ut, vp with
    | UPositive, false => (k, false)
    | _, _ =>
      match add_ground k with
      | None => (k, false)
      | Some k1 => if is_circuit_node k1 name then (k1, false)
                   else match create_node k1 name UDefault with   (* :118, variable_update unused *)
                        | None => (k1, false)
                        | Some k2 => (k2, true)
                        end
      end
    end
  | CircuitElement e name n1 n2 =>
    match create_node k n1 UDefault with
    | None => (k, false)
    | Some k1 =>
      match create_node k1 n2 UDefault with
      | None => (k1, false)
      | Some k2 => match e with EBad => (k2, false) | _ => add_nodes k2 (element_nodes e name n1 n2) end
      end
    end
  | NodeAlias node alias =>
    match add_ground k with
    | None => (k, false)
    | Some k1 =>
      if negb (is_circuit_node k1 node) then (k1, false)
      else if is_circuit_node k1 alias then (k1, false)
      else match add_alias k1 alias node with None => (k1, false) | Some k2 => (k2, true) end
    end
  | NodeList => match add_ground k with None => (k, false) | Some k1 => (k1, true) end
  | Solve start =>
    match k_nodes k with
    | nil => (k, true)                                  (* !HaveNodes() *)
    | _ => let (k1, ok) := set_node_numbers k start in
           if negb ok then (k1, false)
           else (* CreateSolution (the first time) locks the table, then asserts numberOfNodes_ != 0,
                   and so does the creation of dcop_prev, at each later solve *)
             (mkK (k_nodes k1) (k_alias k1) true (k_count k1) (k_min k1), negb (Nat.eqb (k_count k1) 0))
    end
  | DeleteCircuit => (k_new, true)
  end.
Fixpoint crun (k : keeper) (cs : list ccmd) : keeper :=
  match cs with nil => k | c :: r => crun (fst (cexec k c)) r end.
