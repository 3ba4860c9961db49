(* Model of the bulk assembly of a region: AutoEquation/ExprEquation.cc:44-95 and the
   assembly functions of Equation/Equation.cc:430-1295, called by
   Newton<>::AssembleBulk (math/Newton.cc:146-149), which always asks for
   MATRIXANDRHS.  Scalars are abstract; row numbers are exact (C13 shows that
   GetEquationNumber does not wrap); None is FATAL / dsAssert (an exception). *)
From Coq Require Import String List Bool Arith.
From Verif Require Import StrMap EqTable.
Import ListNotations.
Open Scope string_scope.

Record scalar (S : Type) := mkSc { s_zero : S; s_one : S; s_add : S -> S -> S; s_mul : S -> S -> S; s_opp : S -> S }.
Arguments s_zero {S}. Arguments s_one {S}. Arguments s_add {S}. Arguments s_mul {S}. Arguments s_opp {S}.

(* Region.hh: nodeList, edgeList (head, tail), triangles with their nodes and
   GetTriangleToEdgeList (edge j is opposite node j), GetTetrahedronToEdgeDataList
   (edge and the two opposite nodes); nodes by index *)
Record mesh := mkMesh { m_dim : nat; m_nodes : nat; m_edges : list (nat * nat);
  m_tris : list (list nat * list (nat * nat)); m_tets : list (list (nat * nat * (nat * nat))) }.

(* options of an equation, ExprEquation.cc:25-41; "" is not given *)
Record body := mkBody { b_node : string; b_edge : string; b_edgevol : string; b_element : string;
  b_vol0 : string; b_vol1 : string; b_time : string }.

(* names of the geometric models of the region, Region.cc:1511-1600 *)
Record geom := mkGeom { g_nodevol : string; g_edgecouple : string; g_edgevol0 : string; g_edgevol1 : string;
  g_elcouple : string; g_elvol0 : string; g_elvol1 : string }.

Section Assembly.
Context {S : Type} (F : scalar S).
Notation "a * b" := (s_mul F a b).

(* models: values by element index (node, edge, 3*triangle+j or 6*tetrahedron+j) *)
Definition store := string -> option (nat -> S).
Record region := mkReg { rg_mesh : mesh; rg_base : nat; rg_table : table body; rg_geom : geom;
  rg_node : store; rg_edge : store; rg_element : store }.

(* Region.cc:1250-1259 *)
Definition eqnum (r : region) (idx node : nat) : nat := rg_base r + (idx * m_nodes (rg_mesh r))%nat + node.
(* GetEquationIndex(myname); GetEquationIndex(GetEquationNameFromVariable(var)) *)
Definition row_index (r : region) (eq : string) : option nat := equation_index (rg_table r) eq.
Definition col_index (r : region) (var : string) : option nat :=
  match equation_of_variable (rg_table r) var with
  | Some e => equation_index (rg_table r) e
  | None => equation_index (rg_table r) ""
  end.
(* Region.cc:1291-1302 GetVariableList *)
Definition variables (r : region) : list string := keys (t_var (rg_table r)).
(* Equation.cc:1297-1304 GetDerivativeModelName *)
Definition der_name (model var : string) : string := model ++ ":" ++ var.

Definition rhs_list := list (nat * S).
Definition mat_list := list (nat * nat * S).
Definition loads := option (mat_list * rhs_list).
Definition both (a b : loads) : loads :=
  match a, b with Some (m, v), Some (m', v') => Some (m ++ m', v ++ v')%list | _, _ => None end.
Definition nothing : loads := Some ([], []).

(* ---- node models: Equation.cc:771-793, 795-828, 838-907 ------------------------ *)
Definition node_assemble_rhs (r : region) (eq : string) (vals : nat -> S) : option rhs_list :=
  match row_index r eq with
  | None => None
  | Some i0 => Some (map (fun i => (eqnum r i0 i, vals i)) (seq 0 (m_nodes (rg_mesh r))))
  end.
Definition node_assemble_jacobian (r : region) (eq : string) (ders : nat -> S) (var : string) : option mat_list :=
  match row_index r eq, col_index r var with
  | Some i0, Some i1 => Some (map (fun i => (eqnum r i0 i, eqnum r i1 i, ders i)) (seq 0 (m_nodes (rg_mesh r))))
  | _, _ => None
  end.
Fixpoint node_jacobians (r : region) (eq model : string) (vol : nat -> S) (vars : list string) : option mat_list :=
  match vars with
  | nil => Some []
  | var :: t =>
    match rg_node r (der_name model var) with
    | None => node_jacobians r eq model vol t
    | Some d => match node_assemble_jacobian r eq (fun i => vol i * d i) var, node_jacobians r eq model vol t with
                | Some m, Some m' => Some (m ++ m')%list
                | _, _ => None
                end
    end
  end.
Definition node_volume_assemble (r : region) (eq model volume : string) : loads :=
  match rg_node r model, rg_node r volume with
  | Some nm, Some nv =>
    match node_assemble_rhs r eq (fun i => nv i * nm i), node_jacobians r eq model nv (variables r) with
    | Some v, Some m => Some (m, v)
    | _, _ => None
    end
  | _, _ => None
  end.

(* ---- edge, triangle-edge and tetrahedron-edge models ------------------------------ *)
(* the loops over elements: value index, the two nodes of the edge, the other nodes.
   Equation.cc:441-454, 566-588 (edges); 472-490, 617-665 (3*i+j, opposite node j);
   509-529, 721-767 (6*i+j, nodeopp) *)
Definition elem := (nat * nat * nat * list nat)%type.
Fixpoint from {A B} (f : nat -> A -> B) (i : nat) (l : list A) : list B :=
  match l with nil => nil | a :: t => f i a :: from f (i + 1) t end.
Definition edge_elems (g : mesh) : list elem := from (fun i e => (i, fst e, snd e, [])) 0 (m_edges g).
Definition tri_elems (g : mesh) : list elem :=
  concat (from (fun i t => from (fun j e => ((3 * i)%nat + j, fst e, snd e, [nth j (fst t) 0])) 0 (snd t)) 0 (m_tris g)).
Definition tet_elems (g : mesh) : list elem :=
  concat (from (fun i t => from (fun j e => ((6 * i)%nat + j, fst (fst e), snd (fst e), [fst (snd e); snd (snd e)])) 0 t) 0 (m_tets g)).

(* Equation.cc:429-455, 457-491, 493-530 *)
Definition couple_rhs (r : region) (eq : string) (els : list elem) (flux : nat -> S) (s0 s1 : S) : option rhs_list :=
  match row_index r eq with
  | None => None
  | Some i0 => Some (flat_map (fun e => let '(k, n0, n1, _) := e in
        [(eqnum r i0 n0, s0 * flux k); (eqnum r i0 n1, s1 * flux k)]) els)
  end.
(* Equation.cc:580-596, 598-665, 667-768: one variable; ders: @n0, @n1, then the opposite nodes *)
Definition elem_jacobian (r : region) (i0 i1 : nat) (ders : list (nat -> S)) (s0 s1 : S) (e : elem) : mat_list :=
  let '(k, n0, n1, opp) := e in
  match ders with
  | d0 :: d1 :: rest =>
    [(eqnum r i0 n0, eqnum r i1 n0, s0 * d0 k); (eqnum r i0 n1, eqnum r i1 n1, s1 * d1 k);
     (eqnum r i0 n0, eqnum r i1 n1, s0 * d1 k); (eqnum r i0 n1, eqnum r i1 n0, s1 * d0 k)] ++
    flat_map (fun nd => [(eqnum r i0 n0, eqnum r i1 (fst nd), s0 * snd nd k); (eqnum r i0 n1, eqnum r i1 (fst nd), s1 * snd nd k)])
      (combine opp rest)
  | _ => []
  end%list.
Definition couple_jacobian (r : region) (eq var : string) (els : list elem) (ders : list (nat -> S)) (s0 s1 : S) : option mat_list :=
  match row_index r eq, col_index r var with
  | Some i0, Some i1 => Some (flat_map (elem_jacobian r i0 i1 ders s0 s1) els)
  | _, _ => None
  end.
(* all derivative models or none of them; None: FATAL *)
Fixpoint all_or_none {A} (l : list (option A)) : option (list A) :=
  match l with
  | nil => Some []
  | Some a :: t => option_map (cons a) (all_or_none t)
  | None :: _ => None
  end.
Definition der_models (look : store) (sfx : list string) (model var : string) : option (option (list (nat -> S))) :=
  let l := map (fun s => look (der_name model var ++ s)) sfx in
  if forallb (fun o => match o with None => true | _ => false end) l then Some None
  else option_map Some (all_or_none l).
Fixpoint couple_jacobians (r : region) (eq : string) (els : list elem) (look : store) (sfx : list string)
    (model : string) (couple : nat -> S) (s0 s1 : S) (vars : list string) : option mat_list :=
  match vars with
  | nil => Some []
  | var :: t =>
    match der_models look sfx model var with
    | None => None
    | Some None => couple_jacobians r eq els look sfx model couple s0 s1 t
    | Some (Some ds) =>
      match couple_jacobian r eq var els (map (fun d k => d k * couple k) ds) s0 s1,
            couple_jacobians r eq els look sfx model couple s0 s1 t with
      | Some m, Some m' => Some (m ++ m')%list
      | _, _ => None
      end
    end
  end.
(* Equation.cc:942-1028, 1030-1130, 1132-1243 *)
Definition couple_assemble (r : region) (eq : string) (els : list elem) (look : store) (sfx : list string)
    (model couple : string) (s0 s1 : S) : loads :=
  match look model, look couple with
  | Some ef, Some ec =>
    match couple_rhs r eq els (fun k => ef k * ec k) s0 s1,
          couple_jacobians r eq els look sfx model ec s0 s1 (variables r) with
    | Some v, Some m => Some (m, v)
    | _, _ => None
    end
  | _, _ => None
  end.
Definition edge_couple (r : region) (eq model couple : string) (s0 s1 : S) : loads :=
  couple_assemble r eq (edge_elems (rg_mesh r)) (rg_edge r) ["@n0"; "@n1"] model couple s0 s1.
Definition tri_couple (r : region) (eq model couple : string) (s0 s1 : S) : loads :=
  couple_assemble r eq (tri_elems (rg_mesh r)) (rg_element r) ["@en0"; "@en1"; "@en2"] model couple s0 s1.
Definition tet_couple (r : region) (eq model couple : string) (s0 s1 : S) : loads :=
  couple_assemble r eq (tet_elems (rg_mesh r)) (rg_element r) ["@en0"; "@en1"; "@en2"; "@en3"] model couple s0 s1.

Definition one := s_one F.
Definition zero := s_zero F.
Definition minus_one := s_opp F (s_one F).
(* Equation.cc:909-915 *)
Definition edge_couple_assemble (r : region) (eq model : string) : loads :=
  edge_couple r eq model (g_edgecouple (rg_geom r)) one minus_one.
(* Equation.cc:917-934 *)
Definition edge_volume_assemble (r : region) (eq model : string) : loads :=
  let v0 := g_edgevol0 (rg_geom r) in
  let v1 := g_edgevol1 (rg_geom r) in
  if String.eqb v0 v1 then edge_couple r eq model v0 one one
  else both (edge_couple r eq model v0 one zero) (edge_couple r eq model v1 zero one).
(* Equation.cc:1245-1261 *)
Definition element_couple (r : region) (eq model couple : string) (s0 s1 : S) : loads :=
  match m_dim (rg_mesh r) with
  | 2 => tri_couple r eq model couple s0 s1
  | 3 => tet_couple r eq model couple s0 s1
  | _ => nothing
  end.
Definition element_couple_assemble (r : region) (eq model : string) : loads :=
  element_couple r eq model (g_elcouple (rg_geom r)) one minus_one.
(* Equation.cc:1263-1295 *)
Definition element_volume_assemble (r : region) (eq model0 model1 : string) : loads :=
  let v0 := g_elvol0 (rg_geom r) in
  let v1 := g_elvol1 (rg_geom r) in
  if (String.eqb v0 v1 && String.eqb model0 model1)%bool then element_couple r eq model0 v0 one one
  else both (element_couple r eq model0 v0 one zero) (element_couple r eq model1 v1 zero one).

Definition given (s : string) : bool := negb (String.eqb s "").
Inductive mode := DC | TIME.
(* ExprEquation.cc:44-95 DerivedAssemble (the expression cache is not modelled) *)
Definition equation_assemble (r : region) (eq : string) (b : body) (t : mode) : loads :=
  match t with
  | DC =>
    both (if given (b_edge b)
          then both (edge_couple_assemble r eq (b_edge b))
                    (if given (b_edgevol b) then edge_volume_assemble r eq (b_edgevol b) else nothing)
          else nothing)
   (both (if given (b_node b) then node_volume_assemble r eq (b_node b) (g_nodevol (rg_geom r)) else nothing)
   (both (if given (b_element b) then element_couple_assemble r eq (b_element b) else nothing)
         (if (given (b_vol0 b) || given (b_vol1 b))%bool then element_volume_assemble r eq (b_vol0 b) (b_vol1 b) else nothing)))
  | TIME => if given (b_time b) then node_volume_assemble r eq (b_time b) (g_nodevol (rg_geom r)) else nothing
  end.
(* Region.cc:1386-1404 Region::Assemble: the equations in the order of their names *)
Definition region_assemble (r : region) (t : mode) : loads :=
  match t_num (rg_table r) with
  | 0 => nothing
  | _ => fold_right (fun p acc => both (equation_assemble r (q_name (snd p)) (q_body (snd p)) t) acc) nothing (t_eqs (rg_table r))
  end.
End Assembly.
Arguments region : clear implicits.
Arguments store : clear implicits.
Arguments loads : clear implicits.
Arguments rhs_list : clear implicits.
Arguments mat_list : clear implicits.
