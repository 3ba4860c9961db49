(* Model of contact equations: Equation/ContactEquation.cc and
   AutoEquation/ExprContactEquation.cc:55-205.  Newton<>::AssembleContactsAndInterfaces
   (math/Newton.cc:151-190) asks for PERMUTATIONSONLY or MATRIXANDRHS.
   Simplifications: entries that the code first adds up per node or per element before
   pushing them are pushed one by one (matrix) or summed per node (right hand side); the
   order of entries of one node within an element may differ; the incident elements of a
   node are found by filtering the element list (Region.cc:330-420 builds these lists). *)
From Coq Require Import String List Bool Arith.
From Verif Require Import StrMap EqTable Assembly Load.
Import ListNotations.
Open Scope string_scope.

(* ---- active nodes: ContactEquation.cc:86-155 ------------------------------------------ *)
(* a contact: name, region, the coordinates of its nodes, the names of its equations *)
Record contact := mkContact { k_name : string; k_region : string; k_nodes : list nat; k_eqs : list string }.
(* Device.cc:86-137: the contacts with a node at the coordinate, in order of address;
   [all] is the list of all contacts of the device in order of address *)
Definition contacts_at (all : list contact) (ci : nat) : list contact :=
  filter (fun o => existsb (Nat.eqb ci) (k_nodes o)) all.
(* ContactEquation.cc:119-147: the loop over these contacts; the equation list searched
   is that of the own contact, as in the code (line 133) *)
Fixpoint use_node (c : contact) (eq : string) (v : list contact) : bool :=
  match v with
  | nil => true
  | o :: t =>
    if String.eqb (k_region o) (k_region c)
    then if String.eqb (k_name o) (k_name c) then true
         else if existsb (String.eqb eq) (k_eqs c) then false else use_node c eq t
    else use_node c eq t
  end.
Definition active_nodes (all : list contact) (c : contact) (eq : string) : list nat :=
  filter (fun ci => use_node c eq (contacts_at all ci)) (k_nodes c).

(* ---- assembly ---------------------------------------------------------------------------- *)
(* options of a contact equation, ExprContactEquation.cc:25-52; "" is not given *)
Record cbody := mkCBody { c_node : string; c_edge : string; c_edgevol : string; c_element : string; c_vol0 : string; c_vol1 : string;
  c_nodecur : string; c_edgecur : string; c_elcur : string; c_nodeq : string; c_edgeq : string; c_elq : string; c_circuit : string }.

Section Contact.
Context {S : Type} (F : scalar S).
Notation "a * b" := (s_mul F a b).

(* NodeKeeper::IsCircuitNode and GetEquationNumber: None is no circuit node, Some None is
   ground (size_t(-1)), otherwise the row of the node *)
Definition circuit_rows := string -> option (option nat).

Definition head_of (e : elem) : nat := snd (fst (fst e)).
Definition tail_of (e : elem) : nat := snd (fst e).
Definition pos_of (e : elem) : nat := fst (fst (fst e)).
Definition nodes_of_elem (e : elem) : list nat := head_of e :: tail_of e :: snd e.
(* Region::GetNodeToEdgeList etc: elements with an edge at the node *)
Definition incident (els : list elem) (n : nat) : list elem := filter (fun e => Nat.eqb (head_of e) n || Nat.eqb (tail_of e) n) els.
(* ContactEquation.cc:36-58 bothNodesOnContact (used with signs 1 and -1 only), GetHeadOrTail *)
Definition both_on (act : list nat) (e : elem) : bool := existsb (Nat.eqb (head_of e)) act && existsb (Nat.eqb (tail_of e)) act.
Definition sign_at (s0 s1 : S) (n : nat) (e : elem) : S := if Nat.eqb (head_of e) n then s0 else s1.

Definition sum_over {A} (f : A -> S) (l : list A) (z : S) : S := fold_left (fun a x => s_add F a (f x)) l z.

(* 190-227 *)
Definition integrate_node (r : region S) (act : list nat) (model : string) : option S :=
  if given model then
    match rg_node r model, rg_node r (g_nodevol (rg_geom r)) with
    | Some nm, Some nv => Some (sum_over (fun n => nv n * nm n) act (s_zero F))
    | _, _ => None
    end
  else Some (s_zero F).
(* 230-282, 285-345, 348-405: edges with both nodes on the contact are left out *)
Definition integrate_positions (look : store S) (els : list elem) (act : list nat) (model couple : string) (s0 s1 : S) : option S :=
  if given model then
    match look model, look couple with
    | Some em, Some ec =>
      Some (fold_left (fun ch n => sum_over (fun e => sign_at s0 s1 n e * (ec (pos_of e) * em (pos_of e)))
              (filter (fun e => negb (both_on act e)) (incident els n)) ch) act (s_zero F))
    | _, _ => None
    end
  else Some (s_zero F).
(* 408-427 *)
Definition integrate_element (r : region S) (act : list nat) (model couple : string) (s0 s1 : S) : option S :=
  match m_dim (rg_mesh r) with
  | 2 => integrate_positions (rg_element r) (tri_elems (rg_mesh r)) act model couple s0 s1
  | 3 => integrate_positions (rg_element r) (tet_elems (rg_mesh r)) act model couple s0 s1
  | _ => Some (s_zero F)
  end.
Definition add3 (a b c : option S) : option S :=
  match a, b, c with Some x, Some y, Some z => Some (s_add F (s_add F x y) z) | _, _, _ => None end.
(* ExprContactEquation.cc:182-205 calcCurrent, calcCharge (get_contact_current, get_contact_charge) *)
Definition integrate (r : region S) (act : list nat) (node edge element : string) : option S :=
  add3 (integrate_node r act node)
       (integrate_positions (rg_edge r) (edge_elems (rg_mesh r)) act edge (g_edgecouple (rg_geom r)) (one F) (minus_one F))
       (integrate_element r act element (g_elcouple (rg_geom r)) (one F) (minus_one F)).
Definition contact_current (r : region S) (act : list nat) (b : cbody) : option S := integrate r act (c_nodecur b) (c_edgecur b) (c_elcur b).
Definition contact_charge (r : region S) (act : list nat) (b : cbody) : option S := integrate r act (c_nodeq b) (c_edgeq b) (c_elq b).

(* results: OK entries, Throw (FATAL), UB (null pointer) *)
Definition cloads := out (mat_list S * rhs_list S).
Definition cboth (a b : cloads) : cloads :=
  bind a (fun x => bind b (fun y => OK (fst x ++ fst y, snd x ++ snd y)%list)).
Definition cnothing : cloads := OK ([], []).

(* the column of the circuit node: 459-472, 719-732 *)
Definition circuit_col (cr : circuit_rows) (cnode : string) : out (option nat) :=
  if given cnode then match cr cnode with None => Throw | Some o => OK o end else OK None.

(* the loop over the variables of the region *)
Fixpoint over_vars {A} (f : string -> out (list A)) (vars : list string) : out (list A) :=
  match vars with
  | nil => OK []
  | v :: t => bind (f v) (fun a => bind (over_vars f t) (fun b => OK (a ++ b)%list))
  end.

(* AssembleNodeEquation, 429-570 *)
Definition node_perms (r : region S) (eq : string) (cr : circuit_rows) (cnode : string) (act : list nat) : out (list (nat * pentry)) :=
  match row_index r eq, rg_node r (g_nodevol (rg_geom r)) with
  | Some i0, Some _ => bind (circuit_col cr cnode) (fun _ => OK (map (fun n => (eqnum r i0 n, (None, false))) act))
  | _, _ => Throw
  end.
Definition node_equation (r : region S) (eq : string) (cr : circuit_rows) (cnode : string) (act : list nat) (model : string) : cloads :=
  match row_index r eq, rg_node r (g_nodevol (rg_geom r)) with
  | Some i0, Some nv =>
    bind (circuit_col cr cnode) (fun ccol =>
    match rg_node r model with
    | None => Throw
    | Some nm =>
      bind (over_vars (fun var => match rg_node r (der_name model var) with
                                  | None => OK []
                                  | Some d => match col_index r var with
                                              | None => Throw
                                              | Some i1 => OK (map (fun n => (eqnum r i0 n, eqnum r i1 n, nv n * d n)) act)
                                              end
                                  end) (variables r)) (fun m =>
      let mc := match ccol with
                | None => []
                | Some cc => match rg_node r (der_name model cnode) with
                             | None => []
                             | Some d => map (fun n => (eqnum r i0 n, cc, nv n * d n)) act
                             end
                end in
      OK (m ++ mc, map (fun n => (eqnum r i0 n, nv n * nm n)) act)%list)
    end)
  | _, _ => Throw
  end.

(* the derivative models of an edge or element model: when the first one is missing the
   variable is skipped (767-770); when another one is missing its null pointer is used
   (776-777) *)
Definition ders (look : store S) (sfx : list string) (model var : string) : out (option (list (nat -> S))) :=
  match map (fun s => look (der_name model var ++ s)) sfx with
  | nil => OK None
  | None :: _ => OK None
  | l => match all_or_none l with Some ds => OK (Some ds) | None => UB end
  end.
(* AssembleEdgeEquation 694-888, AssembleTriangleEdgeEquation 891-1129,
   AssembleTetrahedronEdgeEquation 1132-1379 *)
Definition positions_equation (look : store S) (els : list elem) (sfx : list string)
    (r : region S) (eq : string) (cr : circuit_rows) (cnode : string) (act : list nat) (model couple : string) (s0 s1 : S) : cloads :=
  match row_index r eq, look couple with
  | Some i0, Some ec =>
    bind (circuit_col cr cnode) (fun ccol =>
    match look model with
    | None => Throw
    | Some em =>
      bind (over_vars (fun var => bind (ders look sfx model var) (fun o => match o with
             | None => OK []
             | Some ds => match col_index r var with
                 | None => Throw
                 | Some i1 => OK (flat_map (fun n => flat_map (fun e =>
                     map (fun nd => (eqnum r i0 n, eqnum r i1 (fst nd), sign_at s0 s1 n e * (ec (pos_of e) * snd nd (pos_of e))))
                       (combine (nodes_of_elem e) ds)) (incident els n)) act)
                 end
             end)) (variables r)) (fun m =>
      let mc := match ccol with
                | None => []
                | Some cc => match look (der_name model cnode) with
                             | None => []
                             | Some d => flat_map (fun n => map (fun e =>
                                 (eqnum r i0 n, cc, sign_at s0 s1 n e * (ec (pos_of e) * d (pos_of e)))) (incident els n)) act
                             end
                end in
      OK (m ++ mc, flat_map (fun n => map (fun e => (eqnum r i0 n, sign_at s0 s1 n e * (ec (pos_of e) * em (pos_of e)))) (incident els n)) act)%list)
    end)
  | _, _ => Throw
  end.

(* AssembleNodeEquationOnCircuit, 573-691 *)
Definition node_on_circuit (r : region S) (cr : circuit_rows) (cnode : string) (act : list nat) (model : string) : cloads :=
  match cr cnode with
  | None => Throw
  | Some None => cnothing
  | Some (Some crow) =>
    match rg_node r (g_nodevol (rg_geom r)), rg_node r model with
    | Some nv, Some nm =>
      bind (over_vars (fun var => match rg_node r (der_name model var) with
                                  | None => OK []
                                  | Some d => match act, col_index r var with
                                              | nil, _ => OK []
                                              | _, None => Throw
                                              | _, Some i1 => OK (map (fun n => (crow, eqnum r i1 n, nv n * d n)) act)
                                              end
                                  end) (variables r)) (fun m =>
      let mc := match rg_node r (der_name model cnode) with
                | None => []
                | Some d => map (fun n => (crow, crow, nv n * d n)) act
                end in
      OK (m ++ mc, map (fun n => (crow, nv n * nm n)) act)%list)
    | _, _ => Throw
    end
  end.
(* AssembleEdgeEquationOnCircuit 1396-1609, AssembleTriangleEdgeEquationOnCircuit
   1612-1856, AssembleTetrahedronEdgeEquationOnCircuit 1860-2125.  [repeated]: the
   entries for the circuit node are pushed within the loop over the variables (edges:
   1563-1606, triangles: 1812-1852), or once after it (tetrahedra: 2085-2122) *)
Definition positions_on_circuit (repeated : bool) (look : store S) (els : list elem) (sfx : list string)
    (r : region S) (cr : circuit_rows) (cnode : string) (act : list nat) (model couple : string) (s0 s1 : S) : cloads :=
  match cr cnode with
  | None => Throw
  | Some None => cnothing
  | Some (Some crow) =>
    match look couple, look model with
    | Some ec, Some em =>
      let free n := filter (fun e => negb (both_on act e)) (incident els n) in
      let block := match look (der_name model cnode) with
                   | None => []
                   | Some d => flat_map (fun n => map (fun e => (crow, crow, sign_at s0 s1 n e * (ec (pos_of e) * d (pos_of e)))) (free n)) act
                   end in
      bind (over_vars (fun var => bind (ders look sfx model var) (fun o =>
             bind (match o with
                   | None => OK []
                   | Some ds => match col_index r var with
                       | None => Throw
                       | Some i1 => OK (flat_map (fun n => flat_map (fun e =>
                           map (fun nd => (crow, eqnum r i1 (fst nd), sign_at s0 s1 n e * (ec (pos_of e) * snd nd (pos_of e))))
                             (combine (nodes_of_elem e) ds)) (free n)) act)
                       end
                   end) (fun m => OK (m ++ (if repeated then block else [])))%list)) (variables r)) (fun m =>
      OK (m ++ (if repeated then [] else block),
          map (fun n => (crow, sum_over (fun e => sign_at s0 s1 n e * (ec (pos_of e) * em (pos_of e))) (free n) (s_zero F))) act)%list)
    | _, _ => Throw
    end
  end.

Definition edge_sfxs : list string := ["@n0"; "@n1"].
Definition tri_sfxs : list string := ["@en0"; "@en1"; "@en2"].
Definition tet_sfxs : list string := ["@en0"; "@en1"; "@en2"; "@en3"].
Section Equation.
Variables (r : region S) (eq : string) (cr : circuit_rows) (act : list nat) (b : cbody).
Let cn := c_circuit b.
Definition contact_edge (model couple : string) (s0 s1 : S) : cloads :=
  positions_equation (rg_edge r) (edge_elems (rg_mesh r)) edge_sfxs r eq cr cn act model couple s0 s1.
(* 1381-1393 *)
Definition contact_element (model couple : string) (s0 s1 : S) : cloads :=
  match m_dim (rg_mesh r) with
  | 2 => positions_equation (rg_element r) (tri_elems (rg_mesh r)) tri_sfxs r eq cr cn act model couple s0 s1
  | 3 => positions_equation (rg_element r) (tet_elems (rg_mesh r)) tet_sfxs r eq cr cn act model couple s0 s1
  | _ => cnothing
  end.
Definition edge_on_circuit (model : string) : cloads :=
  positions_on_circuit true (rg_edge r) (edge_elems (rg_mesh r)) edge_sfxs r cr cn act model (g_edgecouple (rg_geom r)) (one F) (minus_one F).
(* 2128-2140 *)
Definition element_on_circuit (model : string) : cloads :=
  match m_dim (rg_mesh r) with
  | 2 => positions_on_circuit true (rg_element r) (tri_elems (rg_mesh r)) tri_sfxs r cr cn act model (g_elcouple (rg_geom r)) (one F) (minus_one F)
  | 3 => positions_on_circuit false (rg_element r) (tet_elems (rg_mesh r)) tet_sfxs r cr cn act model (g_elcouple (rg_geom r)) (one F) (minus_one F)
  | _ => cnothing
  end.
(* ExprContactEquation.cc:70-77 *)
Definition contact_perms : out (list (nat * pentry)) := if given (c_node b) then node_perms r eq cr cn act else OK [].
Definition on_circuit (node edge element : string) : cloads :=
  if given cn
  then cboth (if given node then node_on_circuit r cr cn act node else cnothing)
      (cboth (if given edge then edge_on_circuit edge else cnothing)
             (if given element then element_on_circuit element else cnothing))
  else cnothing.
(* ExprContactEquation.cc:78-144, 145-178 *)
Definition contact_assemble (t : mode) : cloads :=
  match t with
  | DC =>
    cboth (if given (c_node b) then node_equation r eq cr cn act (c_node b) else cnothing)
   (cboth (if given (c_edge b) then contact_edge (c_edge b) (g_edgecouple (rg_geom r)) (one F) (minus_one F) else cnothing)
   (cboth (if given (c_edgevol b)
           then let v0 := g_edgevol0 (rg_geom r) in let v1 := g_edgevol1 (rg_geom r) in
                if String.eqb v0 v1 then contact_edge (c_edgevol b) v0 (one F) (one F)
                else cboth (contact_edge (c_edgevol b) v0 (one F) (zero F)) (contact_edge (c_edgevol b) v1 (zero F) (one F))
           else cnothing)
   (cboth (if given (c_element b) then contact_element (c_element b) (g_elcouple (rg_geom r)) (one F) (minus_one F) else cnothing)
   (cboth (if (given (c_vol0 b) || given (c_vol1 b))%bool
           then let v0 := g_elvol0 (rg_geom r) in let v1 := g_elvol1 (rg_geom r) in
                if (String.eqb v0 v1 && String.eqb (c_vol0 b) (c_vol1 b))%bool then contact_element (c_vol0 b) v0 (one F) (one F)
                else cboth (contact_element (c_vol0 b) v0 (one F) (zero F)) (contact_element (c_vol1 b) v1 (zero F) (one F))
           else cnothing)
          (on_circuit (c_nodecur b) (c_edgecur b) (c_elcur b))))))
  | TIME => on_circuit (c_nodeq b) (c_edgeq b) (c_elq b)
  end.
End Equation.
End Contact.
