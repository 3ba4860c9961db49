(* Lazily evaluated models and their invalidation: src/models/NodeModel.cc (EdgeModel.cc, TriangleEdgeModel.cc and
   TetrahedronEdgeModel.cc are the same text for these members), src/Geometry/Region.cc, src/AutoEquation/NodeExprModel.cc,
   the model and variable references of src/AutoEquation/ModelExprEval.cc, and the commands that change their inputs.

   Simplifications: the values of a model on all nodes (edges) of the region are one value of type V; an expression is
   any computation (calc) that asks for models and variables one after the other and depends on the answers; of the
   model types only expression models and solutions (node_solution, edge_solution) without parent are modelled; of the
   kinds of models (node, edge, ...) only edge or not edge is kept; contact and interface models, the cache of
   sub-expressions and floating point exceptions are left out. *)
From Coq Require Import Ascii String List Bool Arith.
From Verif Require Import StrMap Params.
Import ListNotations.
Open Scope string_scope.
Open Scope list_scope.

Definition mem (x : string) (l : list string) : bool := existsb (String.eqb x) l.

Section S.
Variable V : Type.
Variable zero : V.   (* ModelExprEval.cc:157: a model that is not found counts as 0.0 *)

(* An expression under evaluation: Ret None is data of type INVALID. *)
Inductive calc :=
| Ret (o : option V)
| GetModel (n : string) (k : option V -> calc)
| GetVar (n : string) (k : option V -> calc).
(* Data: NodeSolution.cc; Expr: NodeExprModel.cc with the names of its MODEL_OBJ and VARIABLE_OBJ leaves *)
Inductive def := Data | Expr (ms vs : list string) (c : calc).
(* NodeModel.hh: model_data, uptodate; m_edge tells edge models from the others *)
Record model := mkM { m_edge : bool; m_def : def; m_val : V; m_up : bool }.
(* Region.hh: nodeModels, edgeModels, ... (names are unique among them, AddNodeModel) and DependencyMap *)
Record region := mkR { r_models : smap model; r_deps : smap (list string) }.

Definition put_model (r : region) (n : string) (M : model) : region := mkR (put n M (r_models r)) (r_deps r).
Definition set_up (r : region) (n : string) (b : bool) : region :=
  match find n (r_models r) with
  | Some M => put_model r n (mkM (m_edge M) (m_def M) (m_val M) b)
  | None => r
  end.
Definition set_val (r : region) (n : string) (v : V) : region :=
  match find n (r_models r) with
  | Some M => put_model r n (mkM (m_edge M) (m_def M) v (m_up M))
  | None => r
  end.

(* Region.cc:1040-1043 RegisterCallback: DependencyMap[n].insert(d) *)
Definition register (n : string) (dp : smap (list string)) (d : string) : smap (list string) :=
  let old := match find n dp with Some l => l | None => [] end in
  put n (if mem d old then old else d :: old) dp.
(* Region.cc:1061-1074: the models that depend on n *)
Definition dependents (r : region) (n : string) : list string :=
  map fst (filter (fun kl => mem n (snd kl)) (r_deps r)).
(* Region.cc:1059-1121 SignalCallbacks and NodeModel.cc:222-226 MarkOld, which it calls for the up to date dependents.
   The recursion is bounded by fuel; StaleProofs.signal_post shows that the fuel given by mark_old and signal_ suffices. *)
Fixpoint signal (fuel : nat) (r : region) (n : string) : region :=
  match fuel with
  | O => r
  | S f => fold_left (fun r m => match find m (r_models r) with
                                 | Some M => if m_up M then signal f (set_up r m false) m else r
                                 | None => r
                                 end) (dependents r n) r
  end.
Definition signal_ (r : region) (n : string) : region := signal (S (length (r_models r))) r n.
(* NodeModel.cc:222-226 MarkOld *)
Definition mark_old (r : region) (n : string) : region := signal_ (set_up r n false) n.
(* NodeModel.cc:134-150 and 158-174 SetValues *)
Definition set_values (r : region) (n : string) (v : V) : region := set_up (mark_old (set_val r n v) n) n true.

(* ModelExprEval.cc:160-175: the model in place of one that is not found; the length test is on the original name *)
Definition ends_en (n : string) : bool :=
  let s := substring (String.length n - 4) 4 n in String.eqb s "@en0" || String.eqb s "@en1".
Definition alias_of (n : string) : string :=
  if ends_en n then substring 0 (String.length n - 3) n ++ substring (String.length n - 2) 2 n else n.
(* ModelExprEval.cc:89-200 EvaluateModelType: which model a reference reads *)
Definition resolve (r : region) (n : string) : option string :=
  if has n (r_models r) then Some n
  else if Nat.ltb 4 (String.length n)
       then match find (alias_of n) (r_models r) with
            | Some M => if m_edge M then Some (alias_of n) else None
            | None => None
            end
       else None.

(* Throw: FATAL output throws; NoFuel is not a behaviour of the program (C25_terminates) *)
Inductive res := Val (v : V) | Throw | NoFuel.
(* ModelExprEval.cc: the leaves of an expression; ev computes a model, stk are the models IsInProcess *)
Fixpoint run (env : string -> option V) (ev : region -> string -> region * res) (stk : list string)
  (c : calc) (r : region) : region * res :=
  match c with
  | Ret (Some v) => (r, Val v)
  | Ret None => (r, Throw)      (* NodeExprModel.cc:126-134 *)
  | GetModel n k =>
      match resolve r n with
      | None => run env ev stk (k (Some zero)) r
      | Some m => if mem m stk then run env ev stk (k None) r
                  else match ev r m with
                       | (r', Val v) => run env ev stk (k (Some v)) r'
                       | (r', e) => (r', e)
                       end
      end
  | GetVar n k => run env ev stk (k (env n)) r   (* ModelExprEval.cc:204-238 EvaluateVariableType *)
  end.
(* NodeModel.cc:85-105 CalculateValues (inprocess is stk), NodeSolution.cc:46-64 (nothing is computed without a parent),
   NodeExprModel.cc:76-135 calcNodeScalarValues *)
Fixpoint eval (env : string -> option V) (fuel : nat) (stk : list string) (r : region) (n : string) : region * res :=
  match fuel with
  | O => (r, NoFuel)
  | S f =>
      match find n (r_models r) with
      | None => (r, Throw)
      | Some M =>
          if m_up M then (r, Val (m_val M))
          else match m_def M with
               | Data => (set_up r n true, Val (m_val M))
               | Expr _ _ c =>
                   match run env (eval env f (n :: stk)) (n :: stk) c r with
                   | (r', Val v) => (set_values r' n v, Val v)
                   | (r', e) => (r', e)
                   end
               end
      end
  end.
(* get_node_model_values etc. (NodeModel.cc:118-126 GetScalarValues) *)
Definition read_model (env : string -> option V) (r : region) (n : string) : region * res :=
  eval env (S (length (r_models r))) [] r n.

(* node_model, node_solution, edge_model, ...: Region.cc:884-921 AddNodeModel (902-917: another kind of model of that
   name is FATAL), NodeExprModel.cc:37-73 RegisterModels; the new object is not up to date, its values are 0.0
   and nobody is notified *)
Definition define (r : region) (n : string) (edge : bool) (d : def) : option region :=
  match find n (r_models r) with
  | Some M => if Bool.eqb (m_edge M) edge then
                Some (mkR (put n (mkM edge d zero false) (r_models r))
                          (fold_left (register n) (match d with Data => [] | Expr ms vs _ => ms ++ vs end) (r_deps r)))
              else None
  | None => Some (mkR (put n (mkM edge d zero false) (r_models r))
                      (fold_left (register n) (match d with Data => [] | Expr ms vs _ => ms ++ vs end) (r_deps r)))
  end.
(* Region.cc:832-843 DeleteNodeModel *)
Definition delete_ (r : region) (n : string) : region :=
  if has n (r_models r) then signal_ (mkR (erase n (r_models r)) (erase n (r_deps r))) n else r.
(* ModelCommands.cc:1097-1178 set_node_values, set_edge_values on an existing model *)
Definition set_model (r : region) (n : string) (v : V) : option region :=
  if has n (r_models r) then Some (set_values r n v) else None.

(* ---- the system: parameters, devices with their regions, circuit ---- *)
Variable W : Type.
Variable num : W -> option V.   (* ObjectHolder::GetDouble; None for strings *)
(* NodeKeeper.hh: NodeTable_ with the values of the solution "dcop"; NodeAliasTable_.  Node names are fixed here. *)
Record ckt := mkC { c_nodes : smap V; c_alias : smap string }.
Record sys := mkS { s_g : gdata W; s_devs : smap (smap region); s_ckt : ckt }.

(* NodeKeeper.cc:501-534 IsCircuitNode and GetNodeValue: an alias first *)
Definition real_name (c : ckt) (n : string) : string := match find n (c_alias c) with Some m => m | None => n end.
Definition ckt_value (c : ckt) (n : string) : option V := find (real_name c n) (c_nodes c).
(* ModelExprEval.cc:204-238, GlobalData.cc:198-222 GetDoubleDBEntryOnRegion *)
Definition env_of (s : sys) (d r n : string) : option V :=
  match match get_region W (s_g s) d r n with Some w => num w | None => None end with
  | Some v => Some v
  | None => ckt_value (s_ckt s) n
  end.
Definition get_reg (s : sys) (d r : string) : option region :=
  match find d (s_devs s) with Some rs => find r rs | None => None end.
Definition put_reg (devs : smap (smap region)) (d r : string) (R : region) : smap (smap region) :=
  match find d devs with Some rs => put d (put r R rs) devs | None => devs end.
(* the callbacks of GlobalData.cc:272-349 on the regions listed by Params.v *)
Definition signal_regions (devs : smap (smap region)) (l : list (string * string)) (n : string) : smap (smap region) :=
  fold_left (fun devs dr => match find (fst dr) devs with
                            | Some rs => match find (snd dr) rs with
                                         | Some R => put_reg devs (fst dr) (snd dr) (signal_ R n)
                                         | None => devs
                                         end
                            | None => devs
                            end) l devs.

Inductive op :=
| SetParam (d r n : string) (w : W)
| Define (d r n : string) (edge : bool) (df : def)
| Delete (d r n : string)
| SetVals (d r n : string) (v : V)
| Read (d r n : string)
| CktUpdate (vals : smap V)      (* Newton.cc:738-745 UpdateSolution and TriggerCallbacksOnNodes *)
| CktSet (n : string) (v : V)    (* CircuitCommands.cc:553-554 set_circuit_node_value *)
| CktRestore (vals : smap V).    (* Newton.cc:424-436: the backup is copied, no callbacks *)

(* NodeKeeper.cc:559-576 TriggerCallbackOnNode(s): SignalCallbacksOnGlobal *)
Definition trigger (g : gdata W) (devs : smap (smap region)) (n : string) : smap (smap region) :=
  signal_regions devs (signal_global W g devs n) n.
Definition on_region (s : sys) (d r : string) (f : region -> option region) : option sys :=
  match get_reg s d r with
  | Some R => match f R with Some R' => Some (mkS (s_g s) (put_reg (s_devs s) d r R') (s_ckt s)) | None => None end
  | None => None
  end.
(* Read gives its value; None is a command that reports an error and changes nothing.  A failing Read may have
   evaluated other models. *)
Definition read (s : sys) (d r n : string) : option (sys * res) :=
  match get_reg s d r with
  | Some R => if has n (r_models R) then
                let '(R', x) := read_model (env_of s d r) R n in
                Some (mkS (s_g s) (put_reg (s_devs s) d r R') (s_ckt s), x)
              else None
  | None => None
  end.
Definition same_keys {A} (a b : smap A) : bool := if list_eq_dec string_dec (keys a) (keys b) then true else false.
Definition exec (s : sys) (o : op) : option sys :=
  match o with
  | SetParam d r n w =>
      match set_parameter W (s_g s) (s_devs s) d r n w with
      | Some (g', l) => Some (mkS g' (signal_regions (s_devs s) l n) (s_ckt s))
      | None => None
      end
  | Define d r n e df => on_region s d r (fun R => define R n e df)
  | Delete d r n => on_region s d r (fun R => Some (delete_ R n))
  | SetVals d r n v => on_region s d r (fun R => set_model R n v)
  | Read d r n => option_map fst (read s d r n)
  | CktUpdate vals =>
      if same_keys vals (c_nodes (s_ckt s)) then
        Some (mkS (s_g s)
                (fold_left (trigger (s_g s)) (keys vals ++ keys (c_alias (s_ckt s))) (s_devs s))
                (mkC vals (c_alias (s_ckt s))))
      else None
  | CktSet n v =>
      if has (real_name (s_ckt s) n) (c_nodes (s_ckt s)) then
        Some (mkS (s_g s) (trigger (s_g s) (s_devs s) n)
                (mkC (put (real_name (s_ckt s) n) v (c_nodes (s_ckt s))) (c_alias (s_ckt s))))
      else None
  | CktRestore vals =>
      if same_keys vals (c_nodes (s_ckt s)) then Some (mkS (s_g s) (s_devs s) (mkC vals (c_alias (s_ckt s)))) else None
  end.
End S.
Arguments Ret {V}. Arguments GetModel {V}. Arguments GetVar {V}. Arguments Data {V}. Arguments Expr {V}.
Arguments mkM {V}. Arguments m_edge {V}. Arguments m_def {V}. Arguments m_val {V}. Arguments m_up {V}.
Arguments mkR {V}. Arguments r_models {V}. Arguments r_deps {V}.
Arguments Val {V}. Arguments Throw {V}. Arguments NoFuel {V}.
Arguments mkC {V}. Arguments c_nodes {V}. Arguments c_alias {V}.
Arguments mkS {V W}. Arguments s_g {V W}. Arguments s_devs {V W}. Arguments s_ckt {V W}.
Arguments SetParam {V W}. Arguments Define {V W}. Arguments Delete {V W}. Arguments SetVals {V W}. Arguments Read {V W}.
Arguments CktUpdate {V W}. Arguments CktSet {V W}. Arguments CktRestore {V W}.
