(* write_devices, type devsim: src/meshing/DevsimRestartWriter.cc:32-395 and the DevsimSerialize functions of models and
   equations (NodeModel.cc:260, EdgeModel.cc:375, TriangleEdgeModel.cc:286, TetrahedronEdgeModel.cc:294,
   InterfaceNodeModel.cc:177, Equation.cc:1307, ContactEquation.cc:2142, InterfaceEquation.cc:832).
   White space between lexemes and empty lines are left out, as the scanner does. *)
From Coq Require Import String List Bool Arith ZArith.
Import ListNotations.
Require Import Verif.StrMap Verif.Adjacency Verif.Loader Verif.Restart.
Open Scope string_scope.
Open Scope list_scope.

Section Writer.
Variable A : Type.
Notation lexeme := (lexeme A).
Arguments Line {A}. Arguments Bare {A}. Arguments Opt {A}. Arguments Quoted {A}. Arguments Int {A}. Arguments Flt {A}. Arguments NL {A}.

(* how a model is written: Serialize of its class; the values of options are quoted words *)
Inductive body := BBuiltin | BUniform (a : A) | BData (vs : list A) | BParent (p : string) | BCommand (name : string) (opts : list (string * string)).
Definition call : Type := string * list (string * string).
(* what the writer asks a device for: Device, Region, Contact and Interface *)
Record sregion := { sr_material : string; sr_nodes : list nat; sr_edges : list simplex; sr_tris : list simplex; sr_tets : list simplex;
                    sr_models : smap (mtype * body); sr_equations : smap call }.
Record scontact := { sc_region : string; sc_material : string; sc_nodes : list nat; sc_edges : list simplex; sc_tris : list simplex;
                     sc_equations : smap call }.
(* si_provided: ElementsProvided(); si_edges0 ...: GetEdges0() and so on *)
Record sinterface := { si_region0 : string; si_region1 : string; si_pairs : list (nat * nat); si_provided : bool;
                       si_edges0 : list simplex; si_edges1 : list simplex; si_tris0 : list simplex; si_tris1 : list simplex;
                       si_models : smap call; si_equations : smap call }.
Record saved := { sv_name : string; sv_dim : nat; sv_coords : list (A * A * A); sv_regions : smap sregion; sv_contacts : smap scontact;
                  sv_interfaces : smap sinterface }.

(* operator<< of an index *)
Definition index (i : nat) : lexeme := Int (Z.of_nat i).
Definition lines (l : list (list nat)) : list lexeme := flat_map (fun e => map index e ++ [NL]) l.
(* DevsimRestartWriter.cc:33-96 *)
Definition section (b e : string) (items : list lexeme) : list lexeme := Line b :: NL :: items ++ [Line e; NL; NL].
Definition unless_empty {X} (l : list X) (o : list lexeme) : list lexeme := match l with [] => [] | _ => o end.
Definition write_coordinates (l : list (A * A * A)) : list lexeme :=
  section "begin_coordinates" "end_coordinates" (flat_map (fun p => [Flt (fst (fst p)); Flt (snd (fst p)); Flt (snd p); NL]) l).
Definition write_nodes (l : list nat) := section "begin_nodes" "end_nodes" (lines (map (fun i => [i]) l)).
Definition write_edges (l : list simplex) := section "begin_edges" "end_edges" (lines l).
Definition write_triangles (l : list simplex) := section "begin_triangles" "end_triangles" (lines l).
Definition write_tetrahedra (l : list simplex) := section "begin_tetrahedra" "end_tetrahedra" (lines l).
Definition write_call (name : string) (opts : list (string * string)) : list lexeme :=
  Line "COMMAND" :: Bare name :: flat_map (fun p => [Opt (fst p); Quoted (snd p)]) opts.
Definition write_body (b : body) : list lexeme :=
  match b with
  | BBuiltin => [Line "BUILTIN"]
  | BUniform a => [Line "UNIFORM"; Flt a]
  | BData vs => Line "DATA" :: flat_map (fun v => [NL; Flt v]) vs
  | BParent p => [Line "DATAPARENT"; Quoted p]
  | BCommand n o => write_call n o
  end.
Definition begin_model (m : mtype) : string :=
  match m with
  | MNode => "begin_node_model" | MEdge => "begin_edge_model" | MTri => "begin_triangle_edge_model"
  | MTet => "begin_tetrahedron_edge_model" | MIface => "begin_interface_node_model"
  end.
Definition end_model (m : mtype) : string :=
  match m with
  | MNode => "end_node_model" | MEdge => "end_edge_model" | MTri => "end_triangle_edge_model"
  | MTet => "end_tetrahedron_edge_model" | MIface => "end_interface_node_model"
  end.
Definition write_model (n : string) (m : mtype) (b : body) : list lexeme :=
  [Line (begin_model m); Quoted n; NL] ++ write_body b ++ [NL; Line (end_model m); NL; NL].
Definition write_equation (n : string) (c : call) : list lexeme :=
  [Line "begin_equation"; Quoted n; NL] ++ write_call (fst c) (snd c) ++ [NL; Line "end_equation"; NL; NL].
Definition write_equations (l : smap call) : list lexeme := flat_map (fun p => write_equation (fst p) (snd p)) l.
Definition mtype_eqb (a b : mtype) : bool :=
  match a, b with MNode, MNode | MEdge, MEdge | MTri, MTri | MTet, MTet | MIface, MIface => true | _, _ => false end.
(* one loop for each kind of model: the models are in four maps *)
Definition of_type (m : mtype) (l : smap (mtype * body)) : smap (mtype * body) := filter (fun p => mtype_eqb (fst (snd p)) m) l.
Definition write_models (l : smap (mtype * body)) : list lexeme := flat_map (fun p => write_model (fst p) (fst (snd p)) (snd (snd p))) l.
Definition write_region (dim : nat) (n : string) (r : sregion) : list lexeme :=
  [Line "begin_region"; Quoted n; Quoted (sr_material r); NL] ++
  write_nodes (sr_nodes r) ++
  match dim with
  | 1 => write_edges (sr_edges r)
  | 2 => unless_empty (sr_tris r) (write_triangles (sr_tris r))
  | 3 => unless_empty (sr_tets r) (write_tetrahedra (sr_tets r))
  | _ => []
  end ++
  write_models (of_type MNode (sr_models r)) ++ write_models (of_type MEdge (sr_models r)) ++
  write_models (of_type MTri (sr_models r)) ++ write_models (of_type MTet (sr_models r)) ++
  write_equations (sr_equations r) ++ [Line "end_region"; NL; NL].
Definition write_contact (dim : nat) (n : string) (c : scontact) : list lexeme :=
  [Line "begin_contact"; Quoted n; Quoted (sc_region c); Quoted (sc_material c); NL] ++
  match dim with
  | 1 => write_nodes (sc_nodes c)
  | 2 => unless_empty (sc_edges c) (write_edges (sc_edges c))
  | 3 => unless_empty (sc_tris c) (write_triangles (sc_tris c))
  | _ => []
  end ++ write_equations (sc_equations c) ++ [Line "end_contact"; NL; NL].
(* both sides of an element on one line; written only if both lists have the same length and are not empty *)
Definition beside (l0 l1 : list simplex) : list (list nat) := map (fun p => fst p ++ snd p) (combine l0 l1).
Definition if_paired (l0 l1 : list simplex) (o : list lexeme) : list lexeme :=
  if nonempty l0 && Nat.eqb (length l0) (length l1) then o else [].
Definition write_interface (dim : nat) (n : string) (i : sinterface) : list lexeme :=
  [Line "begin_interface"; Quoted n; Quoted (si_region0 i); Quoted (si_region1 i); NL] ++
  (if Nat.eqb dim 1 || negb (si_provided i) then section "begin_nodes" "end_nodes" (lines (map (fun p => [fst p; snd p]) (si_pairs i)))
   else match dim with
        | 2 => if_paired (si_edges0 i) (si_edges1 i) (section "begin_edges" "end_edges" (lines (beside (si_edges0 i) (si_edges1 i))))
        | 3 => if_paired (si_tris0 i) (si_tris1 i) (section "begin_triangles" "end_triangles" (lines (beside (si_tris0 i) (si_tris1 i))))
        | _ => []
        end) ++
  flat_map (fun p => write_model (fst p) MIface (BCommand (fst (snd p)) (snd (snd p)))) (si_models i) ++
  write_equations (si_equations i) ++ [Line "end_interface"; NL; NL].
Definition write_device (s : saved) : list lexeme :=
  [Line "begin_device"; Quoted (sv_name s); NL] ++ write_coordinates (sv_coords s) ++
  flat_map (fun p => write_region (sv_dim s) (fst p) (snd p)) (sv_regions s) ++
  flat_map (fun p => write_contact (sv_dim s) (fst p) (snd p)) (sv_contacts s) ++
  flat_map (fun p => write_interface (sv_dim s) (fst p) (snd p)) (sv_interfaces s) ++
  [Line "end_device"; NL; NL].
(* WriteMeshes_ (DevsimRestartWriter.cc:407-440): one device after the other *)
Definition write_devices (l : list saved) : list lexeme := flat_map write_device l.
End Writer.
