(* node_model, edge_model and element_model, and the commands with which the models are saved: src/commands/ModelCommands.cc:157-384,
   AutoEquation/EquationFunctions.cc:285-450, Serialize of AutoEquation/NodeExprModel.cc, EdgeExprModel.cc, TriangleEdgeExprModel.cc, TetrahedronEdgeExprModel.cc.

   Simplifications: expressions are any type with their text and parser (CreateExprModel, EquationFunctions.cc, is the parser); the values of the
   models are not modelled; contact_node_model and contact_edge_model are left out; whether a model of another kind has the name, which is an error, is given for each command. *)
From Coq Require Import String List Bool Arith.
From Verif Require Import EqReport SavedModel.
Import ListNotations.
Open Scope string_scope.
Open Scope list_scope.
Open Scope nat_scope.

Inductive kind := KNode | KEdge | KTriangle | KTetrahedron.
Inductive shown := NoShow | ScalarShow | VectorShow.
(* EquationFunctions.cc:285-361: the display types of the commands *)
Definition read_shown (k : kind) (s : string) : option shown :=
  if String.eqb s "nodisplay" then Some NoShow
  else if String.eqb s "scalar" then Some ScalarShow
  else if String.eqb s "vector" then match k with KEdge => Some VectorShow | _ => None end
  else None.
(* DisplayTypeString of NodeModel.cc:19, EdgeModel.cc:22, TriangleEdgeModel.cc:20, TetrahedronEdgeModel.cc:22 *)
Definition shown_text (s : shown) : string := match s with NoShow => "nodisplay" | ScalarShow => "scalar" | VectorShow => "vector" end.

Section S.
Variable E : Type.
Variable print : E -> string.
Variable parse : string -> option E.
Record emodel := mkE { e_kind : kind; e_device : string; e_region : string; e_name : string; e_equation : E; e_shown : shown }.
Variable dimension : string -> nat.
Variable there : string -> string -> bool.
(* a model of another kind has the name *)
Variable taken : kind -> string -> string -> string -> bool.

(* ModelCommands.cc:188-358: the kind of a command *)
Definition kind_of (command : string) (dim : nat) : option kind :=
  if String.eqb command "node_model" then Some KNode
  else if String.eqb command "edge_model" then Some KEdge
  else if String.eqb command "element_model" then if dim =? 2 then Some KTriangle else if dim =? 3 then Some KTetrahedron else None
  else None.
(* ModelCommands.cc:157-384; None: the command is an error *)
Definition exec_expr (c : string * args) : option emodel :=
  let kw := snd c in
  let d := val kw "device" in let r := val kw "region" in let n := val kw "name" in let t := val kw "display_type" in
  match kind_of (fst c) (dimension d) with
  | None => None
  | Some k =>
    if known ["device"; "region"; "name"] ["equation"; "display_type"] kw && there d r && negb (taken k d r n) then
      match (if String.eqb t "" then Some ScalarShow else read_shown k t), arg "equation" kw with
      | Some s, Some q => match parse q with Some e => Some (mkE k d r n e s) | None => None end
      | _, _ => None
      end
    else None
  end.
(* Serialize: NodeExprModel.cc:137-152, EdgeExprModel.cc:127-142, TriangleEdgeExprModel.cc:133-136, TetrahedronEdgeExprModel.cc:133-136 *)
Definition saved_expr (m : emodel) : string * args :=
  let place := [("device", e_device m); ("region", e_region m)] in
  let name := [("name", e_name m); ("equation", String.append (print (e_equation m)) ";")] in
  let show := [("display_type", shown_text (e_shown m))] in
  match e_kind m with
  | KNode => ("node_model", place ++ show ++ name)
  | KEdge => ("edge_model", place ++ name ++ show)
  | KTriangle => ("element_model", place ++ name)
  | KTetrahedron => ("element_model", place ++ name ++ show)
  end.
End S.
