(* The devsim file format: what write_devices (type devsim) writes and what load_devices reads back.
   src/meshing/DevsimRestartWriter.cc:32-395, DevsimScanner.l:40-310, DevsimParser.y:45-950, DevsimReader.cc,
   DevsimLoader.cc:381-960.
   A file is the sequence of its lexemes; the characters of a lexeme are in RestartText.v.  A number is an element of
   the type A (its text), of_int gives the number an integer stands for.  Not modelled: the deprecated sections
   begin_node_solution and begin_edge_solution (never written), integers beyond int, messages and materials of
   interfaces. *)
From Coq Require Import String List Bool Arith ZArith.
Import ListNotations.
Require Import Verif.StrMap Verif.Adjacency Verif.Loader.
Open Scope string_scope.
Open Scope list_scope.

Inductive mtype := MNode | MEdge | MTri | MTet | MIface.
(* the start conditions of the scanner (DevsimScanner.l:38-39); the three equation sections differ only in what
   encloses them *)
Inductive sec := S_device | S_coord | S_region | S_node | S_edge | S_tri | S_tet | S_contact | S_interface
  | S_model (m : mtype) | S_equation | S_command.
(* DevsimScanner.l: DATA, BUILTIN, DATAPARENT, UNIFORM *)
Inductive dkey := KData | KBuiltin | KParent | KUniform.

Section Format.
Variable A : Type.
Variable of_int : Z -> A.

(* Line: a word without quotes at the beginning of a line; Bare: elsewhere; Opt w: -w; NL: end of a line *)
Inductive lexeme := Line (w : string) | Bare (w : string) | Opt (w : string) | Quoted (s : string) | Int (z : Z) | Flt (a : A) | NL.
Inductive token := TBeg (s : sec) | TEnd (s : sec) | TKey (k : dkey) | TCommand | TWord (w : string) | TOpt (w : string)
  | TInt (z : Z) | TFlt (a : A) | TEol | TOther.

(* ---------------------------------------------------------------- the scanner *)
(* DevsimScanner.l:59-285: the words that open a section, by the innermost open section *)
Definition opens (st : list sec) : list (string * sec) :=
  match st with
  | [] => [("begin_device", S_device)]
  | S_device :: _ => [("begin_coordinates", S_coord); ("begin_region", S_region); ("begin_contact", S_contact); ("begin_interface", S_interface)]
  | S_region :: _ => [("begin_nodes", S_node); ("begin_edges", S_edge); ("begin_triangles", S_tri); ("begin_tetrahedra", S_tet);
                      ("begin_node_model", S_model MNode); ("begin_edge_model", S_model MEdge);
                      ("begin_triangle_edge_model", S_model MTri); ("begin_tetrahedron_edge_model", S_model MTet);
                      ("begin_equation", S_equation)]
  | S_contact :: _ => [("begin_nodes", S_node); ("begin_edges", S_edge); ("begin_triangles", S_tri); ("begin_equation", S_equation)]
  | S_interface :: _ => [("begin_nodes", S_node); ("begin_edges", S_edge); ("begin_triangles", S_tri);
                         ("begin_interface_node_model", S_model MIface); ("begin_equation", S_equation)]
  | _ => []
  end.
Definition end_word (s : sec) : string :=
  match s with
  | S_device => "end_device" | S_coord => "end_coordinates" | S_region => "end_region" | S_node => "end_nodes"
  | S_edge => "end_edges" | S_tri => "end_triangles" | S_tet => "end_tetrahedra" | S_contact => "end_contact"
  | S_interface => "end_interface" | S_model MNode => "end_node_model" | S_model MEdge => "end_edge_model"
  | S_model MTri => "end_triangle_edge_model" | S_model MTet => "end_tetrahedron_edge_model"
  | S_model MIface => "end_interface_node_model" | S_equation => "end_equation" | S_command => ""
  end.
(* DevsimScanner.l:241-262 *)
Definition data_key (st : list sec) (w : string) : option dkey :=
  match st with
  | S_model MIface :: _ => None
  | S_model _ :: _ => find w [("DATA", KData); ("BUILTIN", KBuiltin); ("DATAPARENT", KParent); ("UNIFORM", KUniform)]
  | _ => None
  end.
Definition in_model (st : list sec) : bool := match st with S_model _ :: _ | S_equation :: _ => true | _ => false end.
Definition in_command (st : list sec) : bool := match st with S_command :: _ => true | _ => false end.
Definition line_word (st : list sec) (w : string) : token * list sec :=
  match find w (opens st) with
  | Some s => (TBeg s, s :: st)
  | None =>
      if match st with s :: _ => negb (in_command st) && String.eqb w (end_word s) | [] => false end
      then (TEnd (hd S_device st), tl st)
      else match data_key st w with
           | Some k => (TKey k, st)
           | None => if in_model st && String.eqb w "COMMAND" then (TCommand, S_command :: st) else (TWord w, st)
           end
  end.
Definition lex (st : list sec) (x : lexeme) : option token * list sec :=
  match x with
  | Line w => let (t, st') := line_word st w in (Some t, st')
  | Bare w | Quoted w => (Some (TWord w), st)
  | Int z => (Some (TInt z), st)
  | Flt a => (Some (TFlt a), st)
  | Opt w => (Some (if in_command st then TOpt w else TOther), st)
  | NL => if in_command st then (Some TEol, tl st) else (None, st)
  end.

(* ---------------------------------------------------------------- what has been read *)
Inductive value := VNum (a : A) | VInt (z : Z) | VStr (s : string).
Definition command : Type := string * list (string * value).
(* class Solution (MeshLoaderStructs.hh:53-147): model type, data type, values, parent, uniform value, command *)
Inductive dtype := DNone | DBuiltin | DParent | DUniform | DData | DCommand.
Record solution := { s_type : mtype; s_data : dtype; s_values : list A; s_parent : string; s_uniform : A; s_command : command }.
Definition new_solution (m : mtype) (zero : A) : solution :=
  {| s_type := m; s_data := DNone; s_values := []; s_parent := ""; s_uniform := zero; s_command := ("", []) |}.
Definition set_data (d : dtype) (x : solution) := {| s_type := s_type x; s_data := d; s_values := s_values x; s_parent := s_parent x; s_uniform := s_uniform x; s_command := s_command x |}.
Definition add_value (a : A) (x : solution) := {| s_type := s_type x; s_data := s_data x; s_values := s_values x ++ [a]; s_parent := s_parent x; s_uniform := s_uniform x; s_command := s_command x |}.
Definition set_parent (p : string) (x : solution) := {| s_type := s_type x; s_data := DParent; s_values := s_values x; s_parent := p; s_uniform := s_uniform x; s_command := s_command x |}.
Definition set_uniform (a : A) (x : solution) := {| s_type := s_type x; s_data := DUniform; s_values := s_values x; s_parent := s_parent x; s_uniform := a; s_command := s_command x |}.
Definition set_command (c : command) (x : solution) := {| s_type := s_type x; s_data := s_data x; s_values := s_values x; s_parent := s_parent x; s_uniform := s_uniform x; s_command := c |}.

(* MeshRegion, MeshContact, MeshInterface (MeshLoaderStructs.hh:394-818), DevsimLoader *)
Record cregion := { cr_material : string; cr_part : mregion; cr_models : smap solution; cr_equations : smap command }.
Record ccontact := { cc_region : string; cc_material : string; cc_part : mregion; cc_equations : smap command }.
Record cinterface := { ci_region0 : string; ci_region1 : string; ci_pairs : list (nat * nat); ci_part0 : mregion; ci_part1 : mregion;
                       ci_models : smap solution; ci_equations : smap command }.
Record content := { co_name : string; co_coords : list (A * A * A); co_regions : smap cregion; co_contacts : smap ccontact;
                    co_interfaces : smap cinterface }.
Definition no_part : mregion := {| mr_nodes := []; mr_edges := []; mr_tris := []; mr_tets := [] |}.
Definition new_content (n : string) : content := {| co_name := n; co_coords := []; co_regions := []; co_contacts := []; co_interfaces := [] |}.

(* ---------------------------------------------------------------- the parser *)
(* where the parser is: Open: BEG_x has been read and words are awaited; Within: in a region, contact or interface;
   Part: in a list of nodes, edges, triangles or tetrahedra of one of these; Model, Equation: in a model or an equation *)
Inductive inner := INone | IData | IParent | IUniform | ICommand | IOptions | IOption (w : string) | IEol.
Inductive place := Top | Device | Coords (p : list A) | Open (s : sec) (enclosing : sec) (ws : list string) | Within (s : sec)
  | Part (s k : sec) (p : list Z) | Model (s : sec) (m : mtype) (i : inner) | Equation (s : sec) (i : inner).
(* dsDevsimParse::MeshRegion, MeshContact, MeshInterface, Sol, Equation (DevsimReader.cc:12-20) *)
Record partial := { q_place : place; q_region : option (string * cregion); q_contact : option (string * ccontact);
                    q_interface : option (string * cinterface); q_sol : option (string * solution); q_eq : option (string * command) }.
Definition fresh : partial := {| q_place := Top; q_region := None; q_contact := None; q_interface := None; q_sol := None; q_eq := None |}.
Definition at_place (p : place) (q : partial) := {| q_place := p; q_region := q_region q; q_contact := q_contact q; q_interface := q_interface q; q_sol := q_sol q; q_eq := q_eq q |}.
Definition with_region (x : option (string * cregion)) (q : partial) := {| q_place := q_place q; q_region := x; q_contact := q_contact q; q_interface := q_interface q; q_sol := q_sol q; q_eq := q_eq q |}.
Definition with_contact (x : option (string * ccontact)) (q : partial) := {| q_place := q_place q; q_region := q_region q; q_contact := x; q_interface := q_interface q; q_sol := q_sol q; q_eq := q_eq q |}.
Definition with_interface (x : option (string * cinterface)) (q : partial) := {| q_place := q_place q; q_region := q_region q; q_contact := q_contact q; q_interface := x; q_sol := q_sol q; q_eq := q_eq q |}.
Definition with_sol (x : option (string * solution)) (q : partial) := {| q_place := q_place q; q_region := q_region q; q_contact := q_contact q; q_interface := q_interface q; q_sol := x; q_eq := q_eq q |}.
Definition with_eq (x : option (string * command)) (q : partial) := {| q_place := q_place q; q_region := q_region q; q_contact := q_contact q; q_interface := q_interface q; q_sol := q_sol q; q_eq := x |}.

(* Go: continue; Stop: YYABORT or a syntax error; Crash: a null pointer is dereferenced; Finish: end_device *)
Inductive moved := Go (l : option content) (q : partial) | Stop | Crash | Finish (l : content) (q : partial).

Definition size_of (k : sec) : nat := match k with S_node => 1 | S_edge => 2 | S_tri => 3 | S_tet => 4 | _ => 0 end.
Definition element (zs : list Z) : list nat :=
  match map Z.to_nat zs with
  | [a; b] => mk_edge a b
  | [a; b; c] => mk_triangle a b c
  | [a; b; c; d] => mk_tetrahedron a b c d
  | l => l
  end.
(* AddNode, AddEdge, AddTriangle, AddTetrahedron (MeshLoaderStructs.hh:453-474) *)
Definition add_element (k : sec) (zs : list Z) (r : mregion) : mregion :=
  match k with
  | S_node => {| mr_nodes := mr_nodes r ++ element zs; mr_edges := mr_edges r; mr_tris := mr_tris r; mr_tets := mr_tets r |}
  | S_edge => {| mr_nodes := mr_nodes r; mr_edges := mr_edges r ++ [element zs]; mr_tris := mr_tris r; mr_tets := mr_tets r |}
  | S_tri => {| mr_nodes := mr_nodes r; mr_edges := mr_edges r; mr_tris := mr_tris r ++ [element zs]; mr_tets := mr_tets r |}
  | _ => {| mr_nodes := mr_nodes r; mr_edges := mr_edges r; mr_tris := mr_tris r; mr_tets := mr_tets r ++ [element zs] |}
  end.
Definition has_elements (k : sec) (r : mregion) : bool :=
  match k with S_node => nonempty (mr_nodes r) | S_edge => nonempty (mr_edges r) | S_tri => nonempty (mr_tris r) | _ => nonempty (mr_tets r) end.
(* how many numbers make one entry of a section: in an interface both sides are given *)
Definition group_size (s k : sec) : nat := match s with S_interface => 2 * size_of k | _ => size_of k end.
Definition update_part (s k : sec) (zs : list Z) (q : partial) : option partial :=
  match s with
  | S_region => match q_region q with
      | Some (n, r) => Some (with_region (Some (n, {| cr_material := cr_material r; cr_part := add_element k zs (cr_part r); cr_models := cr_models r; cr_equations := cr_equations r |})) q)
      | None => None end
  | S_contact => match q_contact q with
      | Some (n, c) => Some (with_contact (Some (n, {| cc_region := cc_region c; cc_material := cc_material c; cc_part := add_element k zs (cc_part c); cc_equations := cc_equations c |})) q)
      | None => None end
  | _ => match q_interface q with
      | Some (n, i) =>
          let h := size_of k in
          Some (with_interface (Some (n,
            match k with
            | S_node => {| ci_region0 := ci_region0 i; ci_region1 := ci_region1 i; ci_pairs := ci_pairs i ++ [(Z.to_nat (nth 0 zs 0%Z), Z.to_nat (nth 1 zs 0%Z))];
                           ci_part0 := ci_part0 i; ci_part1 := ci_part1 i; ci_models := ci_models i; ci_equations := ci_equations i |}
            | _ => {| ci_region0 := ci_region0 i; ci_region1 := ci_region1 i; ci_pairs := ci_pairs i;
                      ci_part0 := add_element k (firstn h zs) (ci_part0 i); ci_part1 := add_element k (skipn h zs) (ci_part1 i);
                      ci_models := ci_models i; ci_equations := ci_equations i |}
            end)) q)
      | None => None end
  end.
(* BEG_NODE, BEG_EDGE, ... : None: null pointer; Some true: there are such elements already (DevsimParser.y:173-500) *)
Definition part_taken (s k : sec) (q : partial) : option bool :=
  match s with
  | S_region => option_map (fun p => has_elements k (cr_part (snd p))) (q_region q)
  | S_contact => option_map (fun p => has_elements k (cc_part (snd p))) (q_contact q)
  | _ => option_map (fun p => match k with S_node => nonempty (ci_pairs (snd p)) | _ => has_elements k (ci_part0 (snd p)) end) (q_interface q)
  end.
(* IsSolution, IsEquation: None: null pointer *)
Definition model_taken (s : sec) (n : string) (q : partial) : option bool :=
  match s with
  | S_region => option_map (fun p => has n (cr_models (snd p))) (q_region q)
  | _ => option_map (fun p => has n (ci_models (snd p))) (q_interface q)
  end.
Definition equation_taken (s : sec) (n : string) (q : partial) : option bool :=
  match s with
  | S_region => option_map (fun p => has n (cr_equations (snd p))) (q_region q)
  | S_contact => option_map (fun p => has n (cc_equations (snd p))) (q_contact q)
  | _ => option_map (fun p => has n (ci_equations (snd p))) (q_interface q)
  end.
Definition store_model (s : sec) (n : string) (x : solution) (q : partial) : option partial :=
  match s with
  | S_region => match q_region q with
      | Some (m, r) => Some (with_region (Some (m, {| cr_material := cr_material r; cr_part := cr_part r; cr_models := put n x (cr_models r); cr_equations := cr_equations r |})) q)
      | None => None end
  | _ => match q_interface q with
      | Some (m, i) => Some (with_interface (Some (m, {| ci_region0 := ci_region0 i; ci_region1 := ci_region1 i; ci_pairs := ci_pairs i; ci_part0 := ci_part0 i; ci_part1 := ci_part1 i;
                                                         ci_models := put n x (ci_models i); ci_equations := ci_equations i |})) q)
      | None => None end
  end.
Definition store_equation (s : sec) (n : string) (x : command) (q : partial) : option partial :=
  match s with
  | S_region => match q_region q with
      | Some (m, r) => Some (with_region (Some (m, {| cr_material := cr_material r; cr_part := cr_part r; cr_models := cr_models r; cr_equations := put n x (cr_equations r) |})) q)
      | None => None end
  | S_contact => match q_contact q with
      | Some (m, c) => Some (with_contact (Some (m, {| cc_region := cc_region c; cc_material := cc_material c; cc_part := cc_part c; cc_equations := put n x (cc_equations c) |})) q)
      | None => None end
  | _ => match q_interface q with
      | Some (m, i) => Some (with_interface (Some (m, {| ci_region0 := ci_region0 i; ci_region1 := ci_region1 i; ci_pairs := ci_pairs i; ci_part0 := ci_part0 i; ci_part1 := ci_part1 i;
                                                         ci_models := ci_models i; ci_equations := put n x (ci_equations i) |})) q)
      | None => None end
  end.

(* words a section begins with *)
Definition words_of (s : sec) : nat :=
  match s with S_device => 1 | S_region => 2 | S_contact | S_interface => 3 | S_model _ | S_equation => 1 | _ => 0 end.
(* the actions for BEG_x WORD ... (DevsimParser.y:57-80, 124-146, 504-530, 552-578, 624-930); meshes: the names in MeshKeeper *)
Definition enter (meshes : list string) (l : option content) (q : partial) (s enclosing : sec) (ws : list string) : moved :=
  let w i := nth i ws "" in
  match s with
  | S_device => match l with
                | Some _ => Stop
                | None => if existsb (String.eqb (w 0)) meshes then Stop else Go (Some (new_content (w 0))) (at_place Device q)
                end
  | S_region => match q_region q, l with
                | Some _, _ => Stop
                | None, None => Crash
                | None, Some c => if has (w 0) (co_regions c) then Stop
                    else Go l (at_place (Within S_region) (with_region (Some (w 0, {| cr_material := w 1; cr_part := no_part; cr_models := []; cr_equations := [] |})) q))
                end
  | S_contact => match q_contact q, l with
                | Some _, _ => Stop
                | None, None => Crash
                | None, Some c => if has (w 0) (co_contacts c) then Stop
                    else Go l (at_place (Within S_contact) (with_contact (Some (w 0, {| cc_region := w 1; cc_material := w 2; cc_part := no_part; cc_equations := [] |})) q))
                end
  | S_interface => match q_interface q, l with
                | Some _, _ => Stop
                | None, None => Crash
                | None, Some c => if has (w 0) (co_interfaces c) then Stop
                    else Go l (at_place (Within S_interface) (with_interface (Some (w 0, {| ci_region0 := w 1; ci_region1 := w 2; ci_pairs := []; ci_part0 := no_part; ci_part1 := no_part;
                                                                                             ci_models := []; ci_equations := [] |})) q))
                end
  | S_model m => match q_sol q with
                | Some _ => Stop
                | None => match model_taken enclosing (w 0) q with
                          | None => Crash
                          | Some true => Stop
                          | Some false => Go l (at_place (Model enclosing m INone) (with_sol (Some (w 0, new_solution m (of_int 0))) q))
                          end
                end
  | S_equation => match q_eq q with
                | Some _ => Stop
                | None => match equation_taken enclosing (w 0) q with
                          | None => Crash
                          | Some true => Stop
                          | Some false => Go l (at_place (Equation enclosing INone) (with_eq (Some (w 0, ("", []))) q))
                          end
                end
  | _ => Stop
  end.

(* a token that does not continue the innermost list is a token of what encloses it *)
Definition top_token (l : option content) (q : partial) (t : token) : moved :=
  match t with TBeg S_device => Go l (at_place (Open S_device S_device []) q) | _ => Stop end.
Definition device_token (l : option content) (q : partial) (t : token) : moved :=
  match t with
  | TBeg S_coord => Go l (at_place (Coords []) q)
  | TBeg S_region => Go l (at_place (Open S_region S_device []) q)
  | TBeg S_contact => Go l (at_place (Open S_contact S_device []) q)
  | TBeg S_interface => Go l (at_place (Open S_interface S_device []) q)
  | TEnd S_device => match l with Some c => Finish c (at_place Device q) | None => Crash end
  | _ => top_token l q t
  end.
Definition close (s : sec) (l : option content) (q : partial) : moved :=
  match l with
  | None => Crash
  | Some c =>
      match s with
      | S_region => match q_region q with
          | Some (n, r) => Go (Some {| co_name := co_name c; co_coords := co_coords c; co_regions := put n r (co_regions c); co_contacts := co_contacts c; co_interfaces := co_interfaces c |})
                              (at_place (Within s) (with_region None q))
          | None => Crash end
      | S_contact => match q_contact q with
          | Some (n, r) => Go (Some {| co_name := co_name c; co_coords := co_coords c; co_regions := co_regions c; co_contacts := put n r (co_contacts c); co_interfaces := co_interfaces c |})
                              (at_place (Within s) (with_contact None q))
          | None => Crash end
      | _ => match q_interface q with
          | Some (n, r) => Go (Some {| co_name := co_name c; co_coords := co_coords c; co_regions := co_regions c; co_contacts := co_contacts c; co_interfaces := put n r (co_interfaces c) |})
                              (at_place (Within s) (with_interface None q))
          | None => Crash end
      end
  end.
Definition same_kind (a b : sec) : bool :=
  match a, b with
  | S_region, S_region | S_contact, S_contact | S_interface, S_interface => true
  | S_node, S_node | S_edge, S_edge | S_tri, S_tri | S_tet, S_tet => true
  | _, _ => false
  end.
Definition within_token (s : sec) (l : option content) (q : partial) (t : token) : moved :=
  match t with
  | TBeg ((S_node | S_edge | S_tri | S_tet) as k) =>
      match part_taken s k q with
      | None => Crash
      | Some true => Stop
      | Some false => Go l (at_place (Part s k []) q)
      end
  | TBeg (S_model m) => Go l (at_place (Open (S_model m) s []) q)
  | TBeg S_equation => Go l (at_place (Open S_equation s []) q)
  | TEnd e => if same_kind e s then close s l q else device_token l q t
  | _ => device_token l q t
  end.
Definition number (t : token) : option A := match t with TFlt a => Some a | TInt z => Some (of_int z) | _ => None end.
Definition on_sol (f : solution -> solution) (p : place) (l : option content) (q : partial) : moved :=
  match q_sol q with Some (n, x) => Go l (at_place p (with_sol (Some (n, f x)) q)) | None => Crash end.
Definition on_eq (f : command -> command) (p : place) (l : option content) (q : partial) : moved :=
  match q_eq q with Some (n, x) => Go l (at_place p (with_eq (Some (n, f x)) q)) | None => Crash end.
Definition option_value (t : token) : option value :=
  match t with TFlt a => Some (VNum a) | TInt z => Some (VInt z) | TWord w => Some (VStr w) | _ => None end.
(* the items of a model section (DevsimParser.y:700-890) *)
Definition model_token (s : sec) (m : mtype) (l : option content) (q : partial) (t : token) : moved :=
  match t with
  | TKey KData => on_sol (set_data DData) (Model s m IData) l q
  | TKey KBuiltin => on_sol (set_data DBuiltin) (Model s m INone) l q
  | TKey KParent => Go l (at_place (Model s m IParent) q)
  | TKey KUniform => Go l (at_place (Model s m IUniform) q)
  | TCommand => Go l (at_place (Model s m ICommand) q)
  | TEnd (S_model _) => match q_sol q with
                        | Some (n, x) => match store_model s n x (with_sol None q) with Some q' => Go l (at_place (Model s m INone) q') | None => Crash end
                        | None => Crash
                        end
  | _ => within_token s l q t
  end.
Definition equation_token (s : sec) (l : option content) (q : partial) (t : token) : moved :=
  match t with
  | TCommand => Go l (at_place (Equation s ICommand) q)
  | TEnd S_equation => match q_eq q with
                       | Some (n, x) => match store_equation s n x (with_eq None q) with Some q' => Go l (at_place (Equation s INone) q') | None => Crash end
                       | None => Crash
                       end
  | _ => within_token s l q t
  end.
Definition nonneg (zs : list Z) : bool := forallb (fun z => Z.leb 0 z) zs.

Definition step (meshes : list string) (l : option content) (q : partial) (t : token) : moved :=
  match q_place q with
  | Top => top_token l q t
  | Device => device_token l q t
  | Coords p =>
      match number t with
      | Some a => match p with
                  | [x; y] => match l with
                              | Some c => Go (Some {| co_name := co_name c; co_coords := co_coords c ++ [(x, y, a)]; co_regions := co_regions c;
                                                      co_contacts := co_contacts c; co_interfaces := co_interfaces c |}) (at_place (Coords []) q)
                              | None => Crash
                              end
                  | _ => Go l (at_place (Coords (p ++ [a])) q)
                  end
      | None => match p with
                | [] => match t with TEnd S_coord => Go l q | _ => device_token l q t end
                | _ => Stop
                end
      end
  | Open s e ws => match t with
                 | TWord w => if Nat.eqb (length (ws ++ [w])) (words_of s) then enter meshes l q s e (ws ++ [w]) else Go l (at_place (Open s e (ws ++ [w])) q)
                 | _ => Stop
                 end
  | Within s => within_token s l q t
  | Part s k p =>
      match t with
      | TInt z => if Nat.eqb (length (p ++ [z])) (group_size s k)
                  then if nonneg (p ++ [z]) then match update_part s k (p ++ [z]) q with Some q' => Go l (at_place (Part s k []) q') | None => Crash end else Stop
                  else Go l (at_place (Part s k (p ++ [z])) q)
      | TEnd e => match p with [] => if same_kind e k then Go l q else within_token s l q t | _ => Stop end
      | _ => match p with [] => within_token s l q t | _ => Stop end
      end
  | Model s m i =>
      match i with
      | INone => model_token s m l q t
      | IData => match number t with Some a => on_sol (add_value a) (Model s m IData) l q | None => model_token s m l q t end
      | IParent => match t with TWord w => on_sol (set_parent w) (Model s m INone) l q | _ => Stop end
      | IUniform => match number t with Some a => on_sol (set_uniform a) (Model s m INone) l q | None => Stop end
      | ICommand => match t with TWord w => on_sol (fun x => set_command (w, snd (s_command x)) (set_data DCommand x)) (Model s m IOptions) l q | _ => Stop end
      | IOptions => match t with TOpt w => Go l (at_place (Model s m (IOption w)) q) | TEol => Go l (at_place (Model s m IEol) q) | _ => model_token s m l q t end
      | IOption w => match option_value t with
                     | Some v => on_sol (fun x => set_command (fst (s_command x), snd (s_command x) ++ [(w, v)]) x) (Model s m IOptions) l q
                     | None => Stop end
      | IEol => match t with TEol => Go l q | _ => model_token s m l q t end
      end
  | Equation s i =>
      match i with
      | ICommand => match t with TWord w => on_eq (fun x => (w, snd x)) (Equation s IOptions) l q | _ => Stop end
      | IOptions => match t with TOpt w => Go l (at_place (Equation s (IOption w)) q) | TEol => Go l (at_place (Equation s IEol) q) | _ => equation_token s l q t end
      | IOption w => match option_value t with
                     | Some v => on_eq (fun x => (fst x, snd x ++ [(w, v)])) (Equation s IOptions) l q
                     | None => Stop end
      | IEol => match t with TEol => Go l q | _ => equation_token s l q t end
      | _ => equation_token s l q t
      end
  end.
(* the end of the file is accepted unless something was begun that needs more tokens *)
Definition at_end (q : partial) : bool :=
  match q_place q with
  | Coords [] | Part _ _ [] | Top | Device | Within _ => true
  | Model _ _ i | Equation _ i => match i with IParent | IUniform | ICommand | IOption _ => false | _ => true end
  | _ => false
  end.

(* ---------------------------------------------------------------- load_devices *)
(* the mesh given by the file, as in Loader.v *)
Definition mesh_of (c : content) : dmesh :=
  {| m_ncoords := length (co_coords c);
     m_regions := map (fun p => (fst p, cr_part (snd p))) (co_regions c);
     m_contacts := map (fun p => (fst p, {| mc_region := cc_region (snd p); mc_part := cc_part (snd p) |})) (co_contacts c);
     m_interfaces := map (fun p => (fst p, {| mi_region0 := ci_region0 (snd p); mi_region1 := ci_region1 (snd p); mi_part0 := ci_part0 (snd p);
                                              mi_part1 := ci_part1 (snd p); mi_pairs := ci_pairs (snd p) |})) (co_interfaces c);
     m_final := false |}.
(* the values given to models by the first pass over a region (DevsimLoader.cc:660-810): the models that exist are
   left alone, a model that is computed by a command gets a value to begin with; false: wrong number of values *)
Inductive given_values := Values (vs : list A) | Uniform (a : A).
Definition expected (r : region) (m : mtype) : nat :=
  match m with MNode => length (r_nodes r) | MEdge => length (r_edges r) | MTri => 3 * length (r_tris r) | MTet => 6 * length (r_tets r) | MIface => 0 end.
Definition give (r : region) (x : solution) : bool * given_values :=
  match s_data x with
  | DUniform => (true, Uniform (s_uniform x))
  | DData => if Nat.eqb (length (s_values x)) (expected r (s_type x)) then (true, Values (s_values x)) else (false, Uniform (of_int 0))
  | _ => (true, Uniform (of_int 0))
  end.
Record loaded := { ld_device : device; ld_coords : list (A * A * A); ld_materials : smap string; ld_cmaterials : smap string;
                   ld_values : smap (smap (mtype * given_values)); ld_commands : list command }.
Section Run.
(* whether a command run while loading succeeds, given the commands that were run before *)
Variable run : list command -> command -> bool.
(* default models of a region: they exist before the first pass *)
Variable builtin : mtype -> string -> bool.
(* ret = RunCommand(...) for one command after the other (DevsimLoader.cc:812-955) *)
Fixpoint run_all (cs log : list command) (ret : bool) : bool * list command :=
  match cs with [] => (ret, log) | c :: t => run_all t (log ++ [c]) (run log c) end.
Definition commands_in (ms : smap solution) : list command :=
  flat_map (fun p => match s_data (snd p) with DCommand => [s_command (snd p)] | _ => [] end) ms.
Definition give_all (r : region) (ms : smap solution) : bool * smap (mtype * given_values) :=
  fold_left (fun acc p => let x := snd p in
               if builtin (s_type x) (fst p) then acc
               else match s_data x with
                    | DBuiltin => acc
                    | _ => (fst acc && fst (give r x), put (fst p) (s_type x, snd (give r x)) (snd acc))
                    end) ms (true, []).
Fixpoint load_regions (rs : smap region) (l : smap cregion) (ret : bool) (vals : smap (smap (mtype * given_values))) (log : list command)
    : bool * smap (smap (mtype * given_values)) * list command :=
  match l with
  | [] => (ret, vals, log)
  | (n, r) :: t =>
      match find n rs with
      | None => (false, vals, log)
      | Some x =>
          let (ok, vs) := give_all x (cr_models r) in
          let (ret, log) := run_all (commands_in (cr_models r) ++ map snd (cr_equations r)) log (ret && ok) in
          load_regions rs t ret (put n vs vals) log
      end
  end.
(* everything after the mesh (DevsimLoader.cc:639-958): regions, then interfaces, then contacts *)
Definition load_models (c : content) (d : device) : bool * loaded :=
  let '(ret, vals, log) := load_regions (d_regions d) (co_regions c) true [] [] in
  let (ret, log) := run_all (flat_map (fun p => commands_in (ci_models (snd p)) ++ map snd (ci_equations (snd p))) (co_interfaces c)) log ret in
  let (ret, log) := run_all (flat_map (fun p => map snd (cc_equations (snd p))) (co_contacts c)) log ret in
  (ret, {| ld_device := d; ld_coords := co_coords c; ld_materials := map (fun p => (fst p, cr_material (snd p))) (co_regions c);
           ld_cmaterials := map (fun p => (fst p, cc_material (snd p))) (co_contacts c); ld_values := vals; ld_commands := log |}).

(* what persists between two commands: the start conditions of the scanner, dsDevsimParse::DevsimLoader, the meshes and the
   devices; DeletePointers (DevsimReader.cc:24-32) clears the rest *)
Record world := { w_stack : list sec; w_loader : option content; w_meshes : list string; w_devices : smap device; w_loaded : smap loaded }.
Inductive ending := Success (w : world) | Failure (w : world) | Exception | Undefined_.
(* Finalize, Instantiate (DevsimParser.y:82-106): the loader is forgotten only if the mesh was finalized *)
Definition finish (w : world) (st : list sec) (c : content) (q : partial) : ending + (world * partial) :=
  let w' l ds ld := {| w_stack := st; w_loader := l; w_meshes := w_meshes w; w_devices := ds; w_loaded := ld |} in
  match devsim_finalize (mesh_of c) with
  | (false, _) => inl (Failure (w' (Some c) (w_devices w) (w_loaded w)))
  | (true, m) =>
      match devsim_create m (co_name c) (w_devices w) with
      | Done (ds, _) =>
          match find (co_name c) ds with
          | None => inl Undefined_
          | Some d => let (ok, x) := load_models c d in
                      let w2 := w' None ds (put (co_name c) x (w_loaded w)) in
                      if ok then inr (w2, at_place Device fresh) else inl (Failure w2)
          end
      | Failed (ds, _) => inl (Failure (w' None ds (w_loaded w)))
      | Thrown _ => inl Exception
      | Undefined => inl Undefined_
      end
  end.
Fixpoint parse_file (w : world) (q : partial) (f : list lexeme) : ending :=
  match f with
  | [] => if at_end q then Success w else Failure w
  | x :: f' =>
      let (o, st) := lex (w_stack w) x in
      let w1 l := {| w_stack := st; w_loader := l; w_meshes := w_meshes w; w_devices := w_devices w; w_loaded := w_loaded w |} in
      match o with
      | None => parse_file (w1 (w_loader w)) q f'
      | Some t =>
          match step (w_meshes w) (w_loader w) q t with
          | Go l q' =>
              (* mk.AddMesh (DevsimParser.y:77) *)
              let ms := match w_loader w, l with None, Some c => co_name c :: w_meshes w | _, _ => w_meshes w end in
              parse_file {| w_stack := st; w_loader := l; w_meshes := ms; w_devices := w_devices w; w_loaded := w_loaded w |} q' f'
          | Stop => Failure (w1 (w_loader w))
          | Crash => Undefined_
          | Finish c q' => match finish w st c q' with inl e => e | inr (w', q'') => parse_file w' q'' f' end
          end
      end
  end.
(* load_devices (MeshingCommands.cc:716-750, DevsimScanner.l:288-327): nothing is reset before *)
Definition load_devices (w : world) (f : list lexeme) : ending := parse_file w fresh f.
End Run.
End Format.
