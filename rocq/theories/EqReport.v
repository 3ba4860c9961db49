(* The equation commands and what they report: src/commands/EquationCommands.cc:36-690, the constructors and
   GetCommandOptions_Impl of AutoEquation/ExprEquation.cc, ExprContactEquation.cc, InterfaceExprEquation.cc, and the
   tables of Geometry/Contact.cc:99-139, Geometry/Interface.cc:46-84; the table of a region is EqTable.v.

   Simplifications: the arguments of a command are strings (processing of other objects: Options.v); the devices with
   their regions, contacts and interfaces do not change (there); whether a model exists is decided by the environment of
   each command; a message is the reply Failed; the precision of the equations (UseExtendedPrecisionEquations) is left out. *)
From Coq Require Import String List Bool Arith.
From Verif Require Import StrMap EqTable.
Import ListNotations.
Open Scope string_scope.
Open Scope list_scope.

Inductive kind := OnRegion | OnContact | OnInterface.
(* the option that names the place; EquationCommands.cc:46-61, 262-275, 438-460 (the options that are required) *)
Definition place_option (k : kind) : string := match k with OnRegion => "region" | OnContact => "contact" | OnInterface => "interface" end.
Definition required (k : kind) : list string :=
  match k with OnRegion => ["device"; "region"; "name"; "variable_name"] | OnContact => ["device"; "contact"; "name"] | OnInterface => ["device"; "interface"; "name"; "type"] end.
Definition optional (k : kind) : list string :=
  match k with
  | OnRegion => ["node_model"; "edge_model"; "edge_volume_model"; "element_model"; "volume_node0_model"; "volume_node1_model"; "time_node_model"; "variable_update"]
  | OnContact => ["node_model"; "edge_model"; "edge_volume_model"; "element_model"; "volume_node0_model"; "volume_node1_model"; "node_current_model";
                  "edge_current_model"; "element_current_model"; "node_charge_model"; "edge_charge_model"; "element_charge_model"; "circuit_node"]
  | OnInterface => ["interface_model"; "name0"; "name1"]
  end.
Definition args := list (string * string).
Definition is_in (s : string) (l : list string) : bool := existsb (String.eqb s) l.
Fixpoint arg (n : string) (kw : args) : option string :=
  match kw with [] => None | (n', v) :: t => if String.eqb n n' then Some v else arg n t end.
(* GetStringOption: the value or the default of the table of options *)
Definition value (kw : args) (n : string) : string :=
  match arg n kw with Some v => v | None => if String.eqb n "variable_update" then "default" else "" end.
(* processOptions: every option is known, the required ones are given and not empty *)
Definition options_ok (k : kind) (kw : args) : bool :=
  forallb (fun p => is_in (fst p) (required k ++ optional k)) kw && forallb (fun n => negb (String.eqb (value kw n) "")) (required k).

(* EquationEnum::UpdateType, InterfaceExprEquationEnum::EquationType with Equation.cc:41-45 UpdateTypeString and
   InterfaceExprEquation.cc:26-32 EquationTypeString *)
Inductive update := DEFAULT | LOGDAMP | POSITIVE.
Inductive itype := CONTINUOUS | FLUXTERM | HYBRID.
Definition update_string (u : update) : string := match u with DEFAULT => "default" | LOGDAMP => "log_damp" | POSITIVE => "positive" end.
Definition itype_string (t : itype) : string := match t with CONTINUOUS => "continuous" | FLUXTERM => "fluxterm" | HYBRID => "hybrid" end.
(* EquationCommands.cc:105-125 *)
Definition update_of (s : string) : option update :=
  if String.eqb s "default" then Some DEFAULT else if String.eqb s "log_damp" then Some LOGDAMP else if String.eqb s "positive" then Some POSITIVE else None.
(* EquationCommands.cc:310-328 *)
Definition itype_of (s : string) : option itype :=
  if String.eqb s "continuous" then Some CONTINUOUS else if String.eqb s "fluxterm" then Some FLUXTERM else if String.eqb s "hybrid" then Some HYBRID else None.

(* ExprEquation.hh, Equation.hh: the data of an equation *)
Record requation := mkR { r_device : string; r_region : string; r_name : string; r_var : string; r_node : string; r_edge : string; r_edge_volume : string;
  r_element : string; r_volume0 : string; r_volume1 : string; r_time : string; r_update : update }.
(* ExprEquation.cc:25-39: eqname, region, var, nmodel, emodel, evmodel, eemodel, eev0model, eev1model, tdnmodel, ut *)
Definition expr_equation (nm dev reg var n e ev ee v0 v1 td : string) (ut : update) : requation := mkR dev reg nm var n e ev ee v0 v1 td ut.
(* ExprContactEquation.hh, ContactEquation.hh *)
Record cequation := mkC { c_device : string; c_contact : string; c_name : string; c_circuit : string; c_node : string; c_edge : string; c_edge_volume : string;
  c_element : string; c_volume0 : string; c_volume1 : string; c_node_current : string; c_edge_current : string; c_element_current : string;
  c_node_charge : string; c_edge_charge : string; c_element_charge : string }.
(* ExprContactEquation.cc:19-51 *)
Definition expr_contact_equation (nm cnode dev con nmi emi evmi eemi v0 v1 nmc emc eemc nmq emq eemq : string) : cequation :=
  mkC dev con nm cnode nmi emi evmi eemi v0 v1 nmc emc eemc nmq emq eemq.
(* InterfaceExprEquation.hh, InterfaceEquation.hh *)
Record iequation := mkI { i_device : string; i_interface : string; i_name : string; i_name0 : string; i_name1 : string; i_model : string; i_type : itype }.
(* InterfaceExprEquation.cc:34-45, InterfaceEquation.cc:28-39 *)
Definition interface_equation (nm nm0 nm1 dev int model : string) (et : itype) : iequation :=
  mkI dev int nm (if String.eqb nm0 "" then nm else nm0) (if String.eqb nm1 "" then nm else nm1) model et.

(* omap[n] = v for each pair *)
Definition map_of (l : list (string * string)) : smap string := fold_left (fun m p => put (fst p) (snd p) m) l [].
(* ExprEquation.cc:130-145 GetCommandOptions_Impl *)
Definition region_options (q : requation) : smap string := map_of
  [("device", r_device q); ("region", r_region q); ("name", r_name q); ("variable_name", r_var q); ("variable_update", update_string (r_update q));
   ("node_model", r_node q); ("edge_model", r_edge q); ("edge_volume_model", r_edge_volume q); ("element_model", r_element q);
   ("volume_node0_model", r_volume0 q); ("volume_node1_model", r_volume1 q); ("time_node_model", r_time q)].
(* ExprContactEquation.cc:232-251 *)
Definition contact_options (q : cequation) : smap string := map_of
  [("device", c_device q); ("contact", c_contact q); ("name", c_name q); ("edge_charge_model", c_edge_charge q); ("edge_current_model", c_edge_current q);
   ("edge_model", c_edge q); ("edge_volume_model", c_edge_volume q); ("element_charge_model", c_element_charge q); ("element_current_model", c_element_current q);
   ("element_model", c_element q); ("volume_node0_model", c_volume0 q); ("volume_node1_model", c_volume1 q); ("node_charge_model", c_node_charge q);
   ("node_current_model", c_node_current q); ("node_model", c_node q); ("circuit_node", c_circuit q)].
(* InterfaceExprEquation.cc:115-125 *)
Definition interface_options (q : iequation) : smap string := map_of
  [("device", i_device q); ("interface", i_interface q); ("name", i_name q); ("name0", i_name0 q); ("name1", i_name1 q); ("interface_model", i_model q);
   ("type", itype_string (i_type q))].

(* the tables of each place: device and name of the region, contact or interface *)
Record st := mkS { regions : string -> string -> table requation; contacts : string -> string -> smap cequation; interfaces : string -> string -> smap iequation; next : nat }.
Definition start : st := mkS (fun _ _ => EqTable.empty) (fun _ _ => []) (fun _ _ => []) 0.
Definition at_place {A} (f : string -> string -> A) (d p : string) (x : A) : string -> string -> A :=
  fun d' p' => if String.eqb d d' && String.eqb p p' then x else f d' p'.

Inductive reply := Done | Failed | Names (l : list string) | Reported (o : smap string).
Inductive cmd :=
| Create (k : kind) (kw : args)                       (* equation, contact_equation, interface_equation *)
| Delete (k : kind) (d p n : string)                  (* delete_equation, ... *)
| List_ (k : kind) (d p : string)                     (* get_equation_list, ... *)
| Get (k : kind) (d p n : string).                    (* get_equation_command, ... *)

Inductive mkind := NodeModel | EdgeModel | InterfaceModel.
Section E.
(* the devices with their regions, contacts and interfaces *)
Variable there : kind -> string -> string -> bool.
(* environment of a command: the models of the place that exist *)
Definition env := mkind -> string -> string -> string -> bool.

(* EquationCommands.cc:36-153 createEquationCmd; Validate.cc:248-266: a model that is named must exist *)
Definition optional_model (en : env) (m : mkind) (d p s : string) : bool := String.eqb s "" || en m d p s.
Definition create_region (en : env) (s : st) (kw : args) : st * reply :=
  let v := value kw in let d := v "device" in let p := v "region" in
  if optional_model en NodeModel d p (v "node_model") && optional_model en NodeModel d p (v "time_node_model") &&
     optional_model en EdgeModel d p (v "edge_model") && optional_model en EdgeModel d p (v "edge_volume_model") then
    match update_of (v "variable_update") with
    | None => (s, Failed)
    | Some u =>
        let q := expr_equation (v "name") d p (v "variable_name") (v "node_model") (v "edge_model") (v "edge_volume_model") (v "element_model")
                   (v "volume_node0_model") (v "volume_node1_model") (v "time_node_model") u in
        let '(t, ok) := add_equation (regions s d p) (mkQ (r_name q) (r_var q) q (next s)) in
        (mkS (at_place (regions s) d p t) (contacts s) (interfaces s) (S (next s)), if ok then Done else Failed)
    end
  else (s, Failed).
(* EquationCommands.cc:428-541 createContactEquationCmd, Contact.cc:99-130 *)
Definition create_contact (s : st) (kw : args) : st * reply :=
  let v := value kw in let d := v "device" in let p := v "contact" in
  let q := expr_contact_equation (v "name") (v "circuit_node") d p (v "node_model") (v "edge_model") (v "edge_volume_model") (v "element_model")
             (v "volume_node0_model") (v "volume_node1_model") (v "node_current_model") (v "edge_current_model") (v "element_current_model")
             (v "node_charge_model") (v "edge_charge_model") (v "element_charge_model") in
  (mkS (regions s) (at_place (contacts s) d p (put (c_name q) q (contacts s d p))) (interfaces s) (next s), Done).
(* EquationCommands.cc:262-354 createInterfaceEquationCmd; Validate.cc:268-289: the model must exist; Interface.cc:46-62 *)
Definition create_interface (en : env) (s : st) (kw : args) : st * reply :=
  let v := value kw in let d := v "device" in let p := v "interface" in
  if negb (String.eqb (v "interface_model") "") && en InterfaceModel d p (v "interface_model") then
    match itype_of (v "type") with
    | None => (s, Failed)
    | Some t =>
        let q := interface_equation (v "name") (v "name0") (v "name1") d p (v "interface_model") t in
        (mkS (regions s) (contacts s) (at_place (interfaces s) d p (put (i_name q) q (interfaces s d p))) (next s), Done)
    end
  else (s, Failed).
Definition create (en : env) (s : st) (k : kind) (kw : args) : st * reply :=
  if options_ok k kw && there k (value kw "device") (value kw (place_option k)) then
    match k with OnRegion => create_region en s kw | OnContact => create_contact s kw | OnInterface => create_interface en s kw end
  else (s, Failed).

(* EquationCommands.cc:193-260, 398-466, 609-677: delete_* and get_*_command *)
Definition delete (s : st) (k : kind) (d p n : string) : st * reply :=
  match k with
  | OnRegion => match find n (t_eqs (regions s d p)) with
                | None => (s, Failed)
                | Some q => let '(t, ok) := delete_equation (regions s d p) q in
                            (mkS (at_place (regions s) d p t) (contacts s) (interfaces s) (next s), if ok then Done else Failed)
                end
  | OnContact => match find n (contacts s d p) with
                 | None => (s, Failed)
                 | Some q => (mkS (regions s) (at_place (contacts s) d p (erase (c_name q) (contacts s d p))) (interfaces s) (next s), Done)
                 end
  | OnInterface => match find n (interfaces s d p) with
                   | None => (s, Failed)
                   | Some q => (mkS (regions s) (contacts s) (at_place (interfaces s) d p (erase (i_name q) (interfaces s d p))) (next s), Done)
                   end
  end.
Definition get (s : st) (k : kind) (d p n : string) : reply :=
  match k with
  | OnRegion => match find n (t_eqs (regions s d p)) with None => Failed | Some q => Reported (region_options (q_body q)) end
  | OnContact => match find n (contacts s d p) with None => Failed | Some q => Reported (contact_options q) end
  | OnInterface => match find n (interfaces s d p) with None => Failed | Some q => Reported (interface_options q) end
  end.
(* EquationCommands.cc:179-190: each name at the place of its index; None: the assertion fails *)
Fixpoint set_at (l : list string) (i : nat) (x : string) : option (list string) :=
  match l, i with
  | "" :: t, 0 => Some (x :: t)
  | y :: t, S i => option_map (cons y) (set_at t i x)
  | _, _ => None
  end.
Definition by_index {B} (t : table B) : option (list string) :=
  fold_left (fun l n => match l, equation_index t n with Some l, Some i => set_at l i n | _, _ => None end) (keys (t_eqs t))
    (Some (repeat "" (length (t_eqs t)))).
(* EquationCommands.cc:155-191, 356-396, 563-607 *)
Definition names (s : st) (k : kind) (d p : string) : reply :=
  match k with
  | OnRegion => match by_index (regions s d p) with Some l => Names l | None => Failed end
  | OnContact => Names (keys (contacts s d p))
  | OnInterface => Names (keys (interfaces s d p))
  end.

Definition step (s : st) (en : env) (c : cmd) : st * reply :=
  match c with
  | Create k kw => create en s k kw
  | Delete k d p n => if there k d p && negb (String.eqb n "") then delete s k d p n else (s, Failed)
  | List_ k d p => if there k d p then (s, names s k d p) else (s, Failed)
  | Get k d p n => if there k d p && negb (String.eqb n "") then (s, get s k d p n) else (s, Failed)
  end.
Fixpoint run (s : st) (h : list (env * cmd)) : st * list reply :=
  match h with
  | [] => (s, [])
  | (en, c) :: t => let '(s, r) := step s en c in let '(s, l) := run s t in (s, r :: l)
  end.
End E.
