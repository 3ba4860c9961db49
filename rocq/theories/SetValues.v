(* Values given by the user and read back: src/commands/ModelCommands.cc set_node_values, set_edge_values,
   set_element_values (setNodeValuesCmd), set_node_value (setNodeValueCmd), get_node_model_values,
   get_edge_model_values, get_element_model_values and delete_node_model etc. (printNodeValuesCmd, printEdgeValuesCmd,
   printElementEdgeValuesCmd) with the members of src/models/NodeModel.cc, EdgeModel.cc, TriangleEdgeModel.cc,
   TetrahedronEdgeModel.cc that they call.

   Simplifications: one device, which exists (mustBeValidDevice); double precision only (the default build); the
   evaluation of a model that is not up to date is any function (calc) of the region: that it stores other models on the
   way is left out (C25); deps n are all the models that Region::SignalCallbacks(n) marks as not up to date (C25);
   contact indexes are indexes of the model. *)
From Coq Require Import String List Bool Arith ZArith.
From Verif Require Import StrMap ModelData.
Import ListNotations.
Open Scope list_scope.

(* NodeModel.hh, EdgeModel.hh, TriangleEdgeModel.hh or TetrahedronEdgeModel.hh *)
Inductive kind := Node | Edge | Element.
Definition same_kind (a b : kind) : bool :=
  match a, b with Node, Node | Edge, Edge | Element, Element => true | _, _ => false end.

Section S.
Variable V : Type.
Variable zero : V.

(* NodeModel.hh: m_sol: the object is a NodeSolution, EdgeSubModel, ...; m_calc: calcNodeScalarValues computes something
   (not so for a solution without parent); m_con: the indexes at the contact, for contact models; m_cell: model_data;
   m_up: uptodate *)
Record model := mkM { m_kind : kind; m_sol : bool; m_calc : bool; m_con : option (list nat); m_cell : cell V; m_up : bool }.
(* Region.hh; the names are unique among the kinds (Region.cc:884-921) *)
Record region := mkR { dim : nat; nodes : nat; edges : nat; triangles : nat; tetrahedra : nat; models : smap model }.
(* the values of an evaluation; None: it throws *)
Variable calc : region -> string -> option (cell V).
Variable deps : string -> list string.

(* ModelCommands.cc:943, 974, 1007, 1036 values_expected, the lengths given to model_data by the constructors *)
Definition size (r : region) (k : kind) : nat :=
  match k with
  | Node => nodes r
  | Edge => edges r
  | Element => if dim r =? 2 then 3 * triangles r else if dim r =? 3 then 6 * tetrahedra r else 0
  end.
(* Region.cc GetNodeModel, GetEdgeModel, GetTriangleEdgeModel, GetTetrahedronEdgeModel; ModelCommands.cc:997-1052 and
   1407-1423: there are no element models in one dimension *)
Definition lookup (r : region) (k : kind) (n : string) : option model :=
  match find n (models r) with
  | Some M => if same_kind (m_kind M) k && negb (same_kind k Element && negb ((dim r =? 2) || (dim r =? 3))) then Some M else None
  | None => None
  end.
Definition with_models (r : region) (ms : smap model) : region := mkR (dim r) (nodes r) (edges r) (triangles r) (tetrahedra r) ms.
(* NodeModel.cc:222-226 MarkOld of the models in l *)
Definition old (l : list string) (ms : smap model) : smap model :=
  map (fun nM => let M := snd nM in
                 (fst nM, mkM (m_kind M) (m_sol M) (m_calc M) (m_con M) (m_cell M)
                            (if existsb (String.eqb (fst nM)) l then false else m_up M))) ms.
(* NodeModel.cc:146-149, 170-173, 216-218: MarkOld, then uptodate *)
Definition store (r : region) (n : string) (M : model) (c : cell V) : region :=
  with_models r (put n (mkM (m_kind M) (m_sol M) (m_calc M) (m_con M) c true) (old (deps n) (models r))).
(* NodeModel.cc:134-150, EdgeModel.cc:275-290, TriangleEdgeModel.cc:100-108 SetValues of a list;
   ModelDataHolder.cc:232-247 set_indexes *)
Definition list_cell (M : model) (l : list V) : cell V :=
  match m_con M with
  | Some idx => Vals (mask zero (length l) idx (fun i => nth i l zero))
  | None => Vals l
  end.
(* NodeModel.cc:158-174 SetValues of a number; ModelDataHolder.cc:193-208, 142-152 *)
Definition number_cell (r : region) (M : model) (v : V) : cell V :=
  match m_con M with
  | Some idx => Vals (mask zero (size r (m_kind M)) idx (fun _ => v))
  | None => Uni v (size r (m_kind M))
  end.
(* NodeModel.cc:85-105 CalculateValues; None: throws *)
Definition calculate (r : region) (n : string) (M : model) : option (region * model) :=
  if m_up M then Some (r, M)
  else if m_calc M then
    match calc r n with
    | Some c => Some (store r n M c, mkM (m_kind M) (m_sol M) (m_calc M) (m_con M) c true)
    | None => None
    end
  else let M' := mkM (m_kind M) (m_sol M) (m_calc M) (m_con M) (m_cell M) true in
       Some (with_models r (put n M' (models r)), M').
(* NodeModel.cc:118-126 GetScalarValues *)
Definition values (r : region) (n : string) (M : model) : option (region * list V) :=
  match calculate r n M with Some (r', M') => Some (r', elems V (m_cell M')) | None => None end.

Inductive error := No_region | No_model | No_initializer | Wrong_number | No_index | Empty | Thrown | Other_kind.
Inductive reply := Done | Values (l : list V) | Error (e : error).

(* setNodeValuesCmd 895-1103.  The errors about values (905-917) are lost: 923 assigns errorString.
   given: None: no option values; Some None: not a list of numbers; Some (Some l) *)
Definition set_values (r : region) (k : kind) (n init : string) (given : option (option (list V))) : region * reply :=
  let l := match given with Some (Some l) => l | _ => [] end in
  let M := lookup r k n in
  let Mi := lookup r k init in
  match (match Mi, M with
         | Some Mi, Some M => if m_sol M then values r init Mi else Some (r, l)
         | _, _ => Some (r, l)
         end) with
  | None => (r, Error Thrown)
  | Some (r', l) =>
      match M with
      | None => (r', Error No_model)
      | Some _ =>
          if negb (String.eqb init "") && match Mi with None => true | Some _ => false end then (r', Error No_initializer)
          else if length l =? size r k then
            match lookup r' k n with     (* the same object; the initializer may be the model itself *)
            | Some M => (store r' n M (list_cell M l), Done)
            | None => (r', Error No_model)
            end
          else (r', Error Wrong_number)
      end
  end.
(* setNodeValueCmd 1106-1178; NodeModel.cc:194-220 SetNodeValue: the model is evaluated before *)
Definition set_value (r : region) (n : string) (index : Z) (v : V) : region * reply :=
  match lookup r Node n with
  | None => (r, Error No_model)
  | Some M =>
      if ((index <? -1) || (negb (index =? -1) && (Z.of_nat (nodes r) <=? index)))%Z then (r, Error No_index)
      else if (index =? -1)%Z then (store r n M (number_cell r M v), Done)
      else match calculate r n M with
           | None => (r, Error Thrown)
           | Some (r', M') =>
               (store r' n M' (match m_con M' with
                               | Some _ => number_cell r' M' v
                               | None => assign V (m_cell M') (Z.to_nat index) v
                               end), Done)
           end
  end.
(* printNodeValuesCmd 1240-1278, printEdgeValuesCmd 1324-1362, printElementEdgeValuesCmd 1407-1495, SetListAsResult 1181-1195 *)
Definition get_values (r : region) (k : kind) (n : string) : region * reply :=
  match lookup r k n with
  | None => (r, Error No_model)
  | Some M => match values r n M with
              | None => (r, Error Thrown)
              | Some (r', []) => (r', Error Empty)
              | Some (r', l) => (r', Values l)
              end
  end.
(* printNodeValuesCmd 1271-1277; Region.cc:832-843 DeleteNodeModel *)
Definition delete_model (r : region) (k : kind) (n : string) : region * reply :=
  match lookup r k n with
  | None => (r, Error No_model)
  | Some _ => (with_models r (old (deps n) (erase n (models r))), Done)
  end.
(* node_solution, node_model, contact_node_model, edge_model, ...: NodeModel.cc:42-56 the constructor (the values are
   0.0, not up to date), Region.cc:884-921 AddNodeModel: nobody is notified, a model of another kind is FATAL *)
Definition define (r : region) (k : kind) (n : string) (sol computed : bool) (con : option (list nat)) : region * reply :=
  match find n (models r) with
  | Some M => if same_kind (m_kind M) k then (with_models r (put n (mkM k sol computed con (Uni zero (size r k)) false) (models r)), Done)
              else (r, Error Other_kind)
  | None => (with_models r (put n (mkM k sol computed con (Uni zero (size r k)) false) (models r)), Done)
  end.

Inductive command :=
| Set_values (k : kind) (name init_from : string) (values : option (option (list V)))
| Set_value (name : string) (index : Z) (v : V)
| Get_values (k : kind) (name : string)
| Delete (k : kind) (name : string)
| Define (k : kind) (name : string) (solution computed : bool) (contact : option (list nat)).
Definition on_region (r : region) (c : command) : region * reply :=
  match c with
  | Set_values k n i g => set_values r k n i g
  | Set_value n i v => set_value r n i v
  | Get_values k n => get_values r k n
  | Delete k n => delete_model r k n
  | Define k n s c con => define r k n s c con
  end.
End S.
Arguments region : clear implicits.
Section D.
Variable V : Type.
Variable zero : V.
(* for each region of the device *)
Variable calcs : string -> region V -> string -> option (cell V).
Variable depss : string -> string -> list string.
(* CheckFunctions.cc ValidateDeviceAndRegion *)
Definition exec (s : smap (region V)) (reg : string) (c : command V) : smap (region V) * reply V :=
  match find reg s with
  | None => (s, Error V No_region)
  | Some r => let '(r', a) := on_region V zero (calcs reg) (depss reg) r c in (put reg r' s, a)
  end.
End D.
Arguments mkM {V}. Arguments m_kind {V}. Arguments m_sol {V}. Arguments m_calc {V}. Arguments m_con {V}. Arguments m_cell {V}. Arguments m_up {V}.
Arguments mkR {V}. Arguments dim {V}. Arguments nodes {V}. Arguments edges {V}. Arguments triangles {V}. Arguments tetrahedra {V}. Arguments models {V}.
Arguments Done {V}. Arguments Values {V}. Arguments Error {V}.
Arguments Set_values {V}. Arguments Set_value {V}. Arguments Get_values {V}. Arguments Delete {V}. Arguments Define {V}.
Arguments on_region {V}. Arguments exec {V}.
Arguments size {V}. Arguments lookup {V}.
