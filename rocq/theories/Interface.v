(* Model of interface equations: Equation/InterfaceEquation.cc and
   AutoEquation/InterfaceExprEquation.cc:52-98, called by Interface::Assemble
   (Geometry/Interface.cc:127-134).  Newton<>::AssembleContactsAndInterfaces
   (math/Newton.cc:151-190) asks for PERMUTATIONSONLY or MATRIXANDRHS.
   Simplifications: regions are compared by name; matrix entries are listed variable by
   variable as in the code; node lists of both sides have the same length (a list of
   pairs; the code asserts it). *)
From Coq Require Import String List Bool Arith.
From Verif Require Import StrMap EqTable Assembly Load Contact.
Import ListNotations.
Open Scope string_scope.

(* a pair of nodes: coordinate and index of either node (Geometry/Interface.hh nodes0, nodes1) *)
Record ipair := mkPair { p_c0 : nat; p_n0 : nat; p_c1 : nat; p_n1 : nat }.
Inductive etype := CONTINUOUS | FLUXTERM | HYBRID.
(* InterfaceExprEquation: names on both sides, model and type *)
Record ieq := mkIEq { e_name : string; e_name0 : string; e_name1 : string; e_model : string; e_type : etype }.
Record interface := mkIface { i_name : string; i_r0 : string; i_r1 : string; i_pairs : list ipair; i_eqs : list ieq }.

(* ---- active nodes ---------------------------------------------------------------------- *)
(* InterfaceEquation.cc:45-103: no contact of the region at the coordinate has the equation *)
Definition free_of_contacts (cs : list contact) (rg eq : string) (ci : nat) : bool :=
  negb (existsb (fun c => String.eqb (k_region c) rg && existsb (String.eqb eq) (k_eqs c)) (contacts_at cs ci)).
(* Device.cc:139-191: the interfaces with a node at the coordinate *)
Definition interfaces_at (is : list interface) (ci : nat) : list interface :=
  filter (fun i => existsb (fun p => Nat.eqb ci (p_c0 p) || Nat.eqb ci (p_c1 p)) (i_pairs i)) is.
(* InterfaceEquation.cc:131-154 *)
Definition has_equation (o : interface) (rg eq : string) : bool :=
  if String.eqb rg (i_r0 o) then existsb (fun e => String.eqb (e_name0 e) eq) (i_eqs o)
  else if String.eqb rg (i_r1 o) then existsb (fun e => String.eqb (e_name1 e) eq) (i_eqs o)
  else false.
(* 108-163 *)
Definition free_of_interfaces (is : list interface) (i : interface) (rg eq : string) (ci : nat) : bool :=
  negb (existsb (fun o => negb (String.eqb (i_name o) (i_name i)) && has_equation o rg eq) (interfaces_at is ci)).
(* 166-193 GetActiveNodesFromList *)
Definition active_side (cs : list contact) (is : list interface) (i : interface) (e : ieq) (rg : string) (ci : nat) : bool :=
  let eq := if String.eqb rg (i_r0 i) then e_name0 e else if String.eqb rg (i_r1 i) then e_name1 e else "" in
  free_of_contacts cs rg eq ci && free_of_interfaces is i rg eq ci.
(* 196-220: activeNodes0, activeNodes1; a node that occurs in several pairs has one coordinate *)
Definition active_pair (cs : list contact) (is : list interface) (i : interface) (e : ieq) (p : ipair) : bool :=
  active_side cs is i e (i_r0 i) (p_c0 p) && active_side cs is i e (i_r1 i) (p_c1 p).

(* ---- assembly ---------------------------------------------------------------------------- *)
Section Interface.
Context {S : Type} (F : scalar S).
Notation "a * b" := (s_mul F a b).
(* interface node models by position in the list of pairs *)
Definition istore := string -> option (nat -> S).

Fixpoint numbered (k : nat) (l : list ipair) : list (nat * ipair) :=
  match l with nil => nil | p :: t => (k, p) :: numbered (k + 1) t end.

Section Equation.
Variables (r0 r1 : region S) (st : istore) (surface : string) (name0 name1 model : string).
Variable act : ipair -> bool.
Variable pairs : list ipair.
Definition active_numbered : list (nat * ipair) := filter (fun kp => act (snd kp)) (numbered 0 pairs).

(* the entries of one derivative model; [col] is the column at a pair *)
Definition der_sfx (var sfx : string) : string := (der_name model var ++ sfx)%string.
(* 353-396, 546-589: derivative models of the variables of both regions; a missing
   derivative is skipped, a missing equation index is asserted (410, 603) *)
Definition derivatives (entries : (nat -> S) -> (ipair -> nat) -> mat_list S) : out (mat_list S) :=
  bind (over_vars (fun var => match st (der_sfx var "@r0") with
                              | None => OK []
                              | Some d => match col_index r0 var with None => Throw | Some i => OK (entries d (fun p => eqnum r0 i (p_n0 p))) end
                              end) (variables r0)) (fun m0 =>
  bind (over_vars (fun var => match st (der_sfx var "@r1") with
                              | None => OK []
                              | Some d => match col_index r1 var with None => Throw | Some i => OK (entries d (fun p => eqnum r1 i (p_n1 p))) end
                              end) (variables r1)) (fun m1 => OK (m0 ++ m1)%list)).

(* NodeVolumeType1Assemble, 258-452 *)
Definition type1_perms : out (list (nat * pentry)) :=
  match row_index r0 name0, row_index r1 name1, st model with
  | Some i0, Some i1, Some _ => OK (map (fun kp => (eqnum r1 i1 (p_n1 (snd kp)), (Some (eqnum r0 i0 (p_n0 (snd kp))), false))) active_numbered)
  | _, _, _ => Throw
  end.
Definition type1 : cloads (S := S) :=
  match row_index r0 name0, row_index r1 name1, st model with
  | Some i0, Some i1, Some g =>
    bind (derivatives (fun d col => map (fun kp => (eqnum r1 i1 (p_n1 (snd kp)), col (snd kp), d (fst kp))) active_numbered)) (fun m =>
    OK (m, map (fun kp => (eqnum r1 i1 (p_n1 (snd kp)), g (fst kp))) active_numbered))
  | _, _, _ => Throw
  end.
(* NodeVolumeType2Assemble, 454-637; no permutations (457-461) *)
Definition type2 : cloads (S := S) :=
  match row_index r0 name0, row_index r1 name1, st model, rg_node r0 surface, rg_node r1 surface with
  | Some i0, Some i1, Some g, Some sa0, Some sa1 =>
    bind (derivatives (fun d col => flat_map (fun kp =>
            [(eqnum r0 i0 (p_n0 (snd kp)), col (snd kp), d (fst kp) * sa0 (p_n0 (snd kp)));
             (eqnum r1 i1 (p_n1 (snd kp)), col (snd kp), s_opp F (d (fst kp)) * sa1 (p_n1 (snd kp)))]) active_numbered)) (fun m =>
    OK (m, flat_map (fun kp =>
            [(eqnum r0 i0 (p_n0 (snd kp)), g (fst kp) * sa0 (p_n0 (snd kp)));
             (eqnum r1 i1 (p_n1 (snd kp)), s_opp F (g (fst kp)) * sa1 (p_n1 (snd kp)))]) active_numbered))
  | _, _, _, _, _ => Throw
  end.
(* NodeVolumeType3Assemble, 639-845 *)
Definition type3_perms : out (list (nat * pentry)) :=
  match row_index r0 name0, row_index r1 name1, st model, rg_node r0 surface, rg_node r1 surface with
  | Some i0, Some i1, Some _, Some _, Some _ =>
    OK (map (fun kp => (eqnum r1 i1 (p_n1 (snd kp)), (Some (eqnum r0 i0 (p_n0 (snd kp))), true))) active_numbered)
  | _, _, _, _, _ => Throw
  end.
Definition type3 : cloads (S := S) :=
  match row_index r0 name0, row_index r1 name1, st model, rg_node r0 surface, rg_node r1 surface with
  | Some i0, Some i1, Some g, Some sa0, Some sa1 =>
    bind (derivatives (fun d col => map (fun kp => (eqnum r1 i1 (p_n1 (snd kp)), col (snd kp), s_opp F (d (fst kp)) * sa1 (p_n1 (snd kp)))) active_numbered)) (fun m =>
    OK (m, map (fun kp => (eqnum r1 i1 (p_n1 (snd kp)), s_opp F (g (fst kp)) * sa1 (p_n1 (snd kp)))) active_numbered))
  | _, _, _, _, _ => Throw
  end.
(* InterfaceExprEquation.cc:52-98 DerivedAssemble *)
Definition interface_perms (ty : etype) (t : mode) : out (list (nat * pentry)) :=
  match t with
  | DC => if given model then match ty with CONTINUOUS => type1_perms | FLUXTERM => OK [] | HYBRID => type3_perms end else OK []
  | TIME => OK []
  end.
Definition interface_assemble (ty : etype) (t : mode) : cloads (S := S) :=
  match t with
  | DC => if given model then match ty with CONTINUOUS => type1 | FLUXTERM => type2 | HYBRID => type3 end else cnothing
  | TIME => cnothing
  end.
End Equation.
End Interface.
