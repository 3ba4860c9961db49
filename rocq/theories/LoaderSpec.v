(* Specification of imported meshes, in terms of what the user gives: elements are lists of node
   numbers in any order. *)
From Coq Require Import String List Arith Permutation Sorting.Sorted DecimalString.
Import ListNotations.

(* f is a face of s: some further nodes complete it to the nodes of s *)
Definition face (f s : list nat) : Prop := exists rest, Permutation (f ++ rest) s.
Definition ascending (f : list nat) : Prop := StronglySorted le f.
(* the nodes (k = 1), edges (k = 2), triangles (k = 3) and tetrahedra (k = 4) that make up the
   elements els, each written with its nodes in ascending order *)
Definition part_of (k : nat) (els : list (list nat)) (f : list nat) : Prop :=
  length f = k /\ ascending f /\ exists s, In s els /\ face f s.
(* l lists what satisfies P, each once *)
Definition lists {A} (l : list A) (P : A -> Prop) : Prop := NoDup l /\ forall x, In x l <-> P x.

(* The argument "elements" of create_gmsh_mesh: for each element its type (0 point, 1 line,
   2 triangle, 3 tetrahedron), its physical number and its nodes. *)
Record given := { gv_type : nat; gv_number : nat; gv_nodes : list nat }.
Definition proper (e : given) : Prop := gv_type e < 4 /\ length (gv_nodes e) = S (gv_type e).
Definition encode (es : list given) : list nat :=
  flat_map (fun e => gv_type e :: gv_number e :: gv_nodes e) es.
(* the physical name of an element; a number that is not the position of a name is its own name *)
Definition group (names : list string) (e : given) : string :=
  nth (gv_number e) names (NilZero.string_of_uint (Nat.to_uint (gv_number e))).
(* the elements in the groups with given names *)
Definition members (names : list string) (es : list given) (ps : list string) : list (list nat) :=
  map gv_nodes (filter (fun e => existsb (String.eqb (group names e)) ps) es).

(* the commands that describe the device *)
Inductive described :=
  | AddRegion (gmsh_name region : string)
  | AddContact (gmsh_name name region : string)
  | AddInterface (gmsh_name name region0 region1 : string).
(* the physical names given for a region, contact or interface *)
Definition region_groups (cs : list described) (r : string) : list string :=
  flat_map (fun c => match c with AddRegion p r' => if String.eqb r r' then [p] else [] | _ => [] end) cs.
Definition contact_groups (cs : list described) (n : string) : list string :=
  flat_map (fun c => match c with AddContact p n' _ => if String.eqb n n' then [p] else [] | _ => [] end) cs.
Definition interface_groups (cs : list described) (n : string) : list string :=
  flat_map (fun c => match c with AddInterface p n' _ _ => if String.eqb n n' then [p] else [] | _ => [] end) cs.
(* the region of a contact, the regions of an interface: the last given ones *)
Definition contact_regions (cs : list described) (n : string) : list string :=
  flat_map (fun c => match c with AddContact _ n' r => if String.eqb n n' then [r] else [] | _ => [] end) cs.
Definition interface_regions (cs : list described) (n : string) : list (string * string) :=
  flat_map (fun c => match c with AddInterface _ n' r0 r1 => if String.eqb n n' then [(r0, r1)] else [] | _ => [] end) cs.
Definition max_type (es : list given) : nat := list_max (map gv_type es).
