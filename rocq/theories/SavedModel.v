(* The models made from other models, and the commands with which they are saved: src/commands/ModelCommands.cc:595-711, 1767-1903, the constructors, the
   submodels and Serialize of models/EdgeFromNodeModel.cc, TriangleEdgeFromNodeModel.cc, TetrahedronEdgeFromNodeModel.cc, TriangleEdgeFromEdgeModel.cc,
   TetrahedronEdgeFromEdgeModel.cc, TriangleEdgeFromEdgeModelDerivative.cc, TetrahedronEdgeFromEdgeModelDerivative.cc and the Pair variants.

   Simplifications: the values of the models are not modelled (Element*.v); arguments are strings; the models that exist are given for each
   command; the option calc_type and the command vector_gradient of ModelCommands.cc:680-711 are left out. *)
From Coq Require Import String List Bool Arith.
From Verif Require Import EqReport.
Import ListNotations.
Open Scope string_scope.
Open Scope list_scope.
Open Scope nat_scope.

(* the classes of models *)
Inductive cls := EdgeFromNode | TriFromNode | TetFromNode | TriFromEdge | TetFromEdge | TriFromEdgeDer | TetFromEdgeDer | TriPair | TetPair | TriPairDer | TetPairDer.
(* the data of a model: nodeModelName or edgeModelName; the variable of the derivative (member nodeModelName of the derivatives) *)
Record model := mkM { m_cls : cls; m_device : string; m_region : string; m_of : string; m_var : string }.
Local Notation "a & b" := (String.append a b) (at level 60, right associativity).

(* the names of the model and its submodels, in the order in which they are made *)
Definition names (m : model) : list string :=
  let e := m_of m in let d := m_var m in
  let s0 := ":" & d & "@en0" in let s1 := ":" & d & "@en1" in let s2 := ":" & d & "@en2" in let s3 := ":" & d & "@en3" in
  match m_cls m with
  | EdgeFromNode => [e & "@n0"; e & "@n1"]                                   (* ModelCommands.cc:646-651, EdgeFromNodeModel.cc:28-46 *)
  | TriFromNode => [e & "@en0"; e & "@en1"; e & "@en2"]                      (* ModelCommands.cc:664-671, TriangleEdgeFromNodeModel.cc:18-34 *)
  | TetFromNode => [e & "@en0"; e & "@en1"; e & "@en2"; e & "@en3"]          (* ModelCommands.cc:672-680, TetrahedronEdgeFromNodeModel.cc:18-38 *)
  | TriFromEdge => [e & "_x"; e & "_y"]                                      (* TriangleEdgeFromEdgeModel.cc:18-27 *)
  | TetFromEdge => [e & "_x"; e & "_y"; e & "_z"]                            (* TetrahedronEdgeFromEdgeModel.cc:19-30 *)
  | TriFromEdgeDer => [e & "_x" & s0; e & "_x" & s1; e & "_x" & s2; e & "_y" & s0; e & "_y" & s1; e & "_y" & s2]   (* TriangleEdgeFromEdgeModelDerivative.cc:18-54 *)
  | TetFromEdgeDer => [e & "_x" & s0; e & "_x" & s1; e & "_x" & s2; e & "_x" & s3; e & "_y" & s0; e & "_y" & s1; e & "_y" & s2; e & "_y" & s3;
                       e & "_z" & s0; e & "_z" & s1; e & "_z" & s2; e & "_z" & s3]   (* TetrahedronEdgeFromEdgeModelDerivative.cc:16-66 *)
  | TriPair => [e & "_node0_x"; e & "_node0_y"; e & "_node1_x"; e & "_node1_y"]      (* TriangleEdgePairFromEdgeModel.cc:18-35 *)
  | TetPair => [e & "_node0_x"; e & "_node0_y"; e & "_node0_z"; e & "_node1_x"; e & "_node1_y"; e & "_node1_z"]   (* TetrahedronEdgePairFromEdgeModel.cc:19-39 *)
  | TriPairDer => flat_map (fun s => flat_map (fun j => map (fun k => e & "_node" & j & "_" & k & s) ["x"; "y"]) ["0"; "1"]) [s0; s1; s2]   (* TriangleEdgePairFromEdgeModelDerivative.cc:18-63 *)
  | TetPairDer => flat_map (fun s => flat_map (fun j => map (fun k => e & "_node" & j & "_" & k & s) ["x"; "y"; "z"]) ["0"; "1"]) [s0; s1; s2; s3]   (* TetrahedronEdgePairFromEdgeModelDerivative.cc:16-62 *)
  end.

(* Serialize: the command and its options *)
Definition of_node (m : model) : args := [("device", m_device m); ("region", m_region m); ("node_model", m_of m)].
Definition of_edge (m : model) : args := [("device", m_device m); ("region", m_region m); ("edge_model", m_of m)].
Definition of_edge_der (m : model) : args := of_edge m ++ [("derivative", m_var m)].
Definition saved (m : model) : string * args :=
  match m_cls m with
  | EdgeFromNode => ("edge_from_node_model", of_node m)                      (* EdgeFromNodeModel.cc:83-86 *)
  | TriFromNode => ("element_from_node_model", of_node m)                    (* TriangleEdgeFromNodeModel.cc:90-93 *)
  | TetFromNode => ("element_from_node_model", of_node m)                    (* TetrahedronEdgeFromNodeModel.cc:100-103 *)
  | TriFromEdge => ("element_from_edge_model", of_edge m)                    (* TriangleEdgeFromEdgeModel.cc:67-70 *)
  | TetFromEdge => ("element_from_edge_model", of_edge m)                    (* TetrahedronEdgeFromEdgeModel.cc:74-77 *)
  | TriFromEdgeDer => ("element_from_edge_model", of_edge_der m)             (* TriangleEdgeFromEdgeModelDerivative.cc:127-130 *)
  | TetFromEdgeDer => ("element_pair_from_edge_model", of_edge_der m)        (* TetrahedronEdgeFromEdgeModelDerivative.cc:148-151 *)
  | TriPair => ("element_pair_from_edge_model", of_edge m)                   (* TriangleEdgePairFromEdgeModel.cc:92-95 *)
  | TetPair => ("element_pair_from_edge_model", of_edge m)                   (* TetrahedronEdgePairFromEdgeModel.cc:94-97 *)
  | TriPairDer => ("element_pair_from_edge_model", of_edge_der m)            (* TriangleEdgePairFromEdgeModelDerivative.cc:135-138 *)
  | TetPairDer => ("element_pair_from_edge_model", of_edge_der m)            (* TetrahedronEdgePairFromEdgeModelDerivative.cc:131-134 *)
  end.

(* a value or the default, which is the empty string *)
Definition val (kw : args) (n : string) : string := match arg n kw with Some v => v | None => "" end.
(* the options are known, the required ones are given and not empty *)
Definition known (req opt : list string) (kw : args) : bool :=
  forallb (fun p => is_in (fst p) (req ++ opt)) kw && forallb (fun n => negb (String.eqb (val kw n) "")) req.

Section S.
(* the dimension of each device; whether the region exists; the node and edge models of the region *)
Variable dimension : string -> nat.
Variable there : string -> string -> bool.
Variables node_model edge_model : string -> string -> string -> bool.

(* ModelCommands.cc:595-680; None: the command is an error *)
Definition from_node (command : string) (kw : args) : option model :=
  let d := val kw "device" in let r := val kw "region" in let n := val kw "node_model" in
  if known ["device"; "region"; "node_model"] [] kw && there d r && node_model d r n then
    if String.eqb command "edge_from_node_model" then Some (mkM EdgeFromNode d r n "")
    else if dimension d =? 2 then Some (mkM TriFromNode d r n "")
    else if dimension d =? 3 then Some (mkM TetFromNode d r n "")
    else None
  else None.
(* ModelCommands.cc:1767-1903 *)
Definition from_edge (command : string) (kw : args) : option model :=
  let d := val kw "device" in let r := val kw "region" in let e := val kw "edge_model" in let v := val kw "derivative" in
  if known ["device"; "region"; "edge_model"] ["derivative"] kw && there d r &&
     (if String.eqb v "" then edge_model d r e else edge_model d r (e & ":" & v & "@n0") && edge_model d r (e & ":" & v & "@n1")) then
    let one := String.eqb command "element_from_edge_model" in
    if dimension d =? 2 then
      Some (mkM (if one then if String.eqb v "" then TriFromEdge else TriFromEdgeDer else if String.eqb v "" then TriPair else TriPairDer) d r e v)
    else if dimension d =? 3 then
      Some (mkM (if one then if String.eqb v "" then TetFromEdge else TetFromEdgeDer else if String.eqb v "" then TetPair else TetPairDer) d r e v)
    else None
  else None.
(* the table of commands, CommandTable.cc *)
Definition exec (c : string * args) : option model :=
  if is_in (fst c) ["edge_from_node_model"; "element_from_node_model"] then from_node (fst c) (snd c)
  else if is_in (fst c) ["element_from_edge_model"; "element_pair_from_edge_model"] then from_edge (fst c) (snd c)
  else None.
End S.
