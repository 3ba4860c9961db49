(* Imported meshes: create_gmsh_mesh, add_gmsh_region/contact/interface, finalize_mesh and
   create_device for a gmsh mesh (src/meshing/GmshReader.cc, GmshLoader.cc, MeshLoaderUtility.cc),
   and regions, contacts and interfaces of a mesh in the devsim format (src/meshing/DevsimLoader.cc,
   MeshLoaderStructs.cc).  Materials, models, equations and the text of messages are not modelled;
   the values of coordinates do not influence anything here, so a coordinate is its number. *)
From Coq Require Import String List Bool Arith DecimalString.
Require Import Coq.Init.Nat.
Import ListNotations.
Require Import Verif.StrMap Verif.Adjacency.

(* ---------------------------------------------------------------- elements *)
(* MeshTriangle, MeshTetrahedron constructors sort their nodes (MeshLoaderStructs.hh:262-275,
   325-341: std::sort on 3 or 4 numbers); MeshEdge swaps (MeshLoaderStructs.hh:220-227) *)
Fixpoint ninsert (x : nat) (l : list nat) : list nat :=
  match l with [] => [x] | y :: t => if x <=? y then x :: l else y :: ninsert x t end.
Definition nsort (l : list nat) : list nat := fold_right ninsert [] l.
Definition mk_node (i : nat) : simplex := [i].
Definition mk_edge (i j : nat) : simplex := if j <? i then [j; i] else [i; j].
Definition mk_triangle (i j k : nat) : simplex := nsort [i; j; k].
Definition mk_tetrahedron (i j k l : nat) : simplex := nsort [i; j; k; l].
(* operator< of MeshNode, MeshEdge, MeshTriangle, MeshTetrahedron: lexicographic
   (MeshLoaderStructs.hh:206, 243-255, 284-302, 351-375); operator==: componentwise *)
Fixpoint lex (a b : simplex) : bool :=
  match a, b with
  | x :: a', y :: b' => if x <? y then true else if x =? y then lex a' b' else false
  | _, _ => false
  end.
Fixpoint same (a b : simplex) : bool :=
  match a, b with
  | [], [] => true
  | x :: a', y :: b' => (x =? y) && same a' b'
  | _, _ => false
  end.
(* std::sort (the order is total on elements of one type, so the result does not depend on the
   algorithm), then std::unique and erase *)
Fixpoint sinsert (x : simplex) (l : list simplex) : list simplex :=
  match l with [] => [x] | y :: t => if lex x y then x :: l else y :: sinsert x t end.
Definition ssort (l : list simplex) : list simplex := fold_right sinsert [] l.
Fixpoint unique (l : list simplex) : list simplex :=
  match l with
  | x :: t => match unique t with
              | y :: t' => if same x y then y :: t' else x :: y :: t'
              | [] => [x]
              end
  | [] => []
  end.
Definition sort_unique (l : list simplex) : list simplex := unique (ssort l).

Definition nth_ (s : simplex) (i : nat) : nat := nth i s 0.
(* the faces pushed for a tetrahedron, edges for a triangle, nodes for an edge
   (MeshLoaderUtility.cc:23-67, MeshLoaderStructs.cc:37-75) *)
Definition faces_of (t : simplex) : list simplex :=
  [mk_triangle (nth_ t 0) (nth_ t 1) (nth_ t 2); mk_triangle (nth_ t 0) (nth_ t 1) (nth_ t 3);
   mk_triangle (nth_ t 0) (nth_ t 2) (nth_ t 3); mk_triangle (nth_ t 1) (nth_ t 2) (nth_ t 3)].
Definition edges_of (t : simplex) : list simplex :=
  [mk_edge (nth_ t 0) (nth_ t 1); mk_edge (nth_ t 0) (nth_ t 2); mk_edge (nth_ t 1) (nth_ t 2)].
Definition nodes_of (e : simplex) : list simplex := [mk_node (nth_ e 0); mk_node (nth_ e 1)].

(* struct Shapes (MeshLoaderUtility.hh:19-40) *)
Record shapes := { Points : list simplex; Lines : list simplex; Triangles : list simplex; Tetrahedra : list simplex }.
Definition no_shapes : shapes := {| Points := []; Lines := []; Triangles := []; Tetrahedra := [] |}.
(* Shapes::DecomposeAndUniquify (MeshLoaderUtility.cc:17-69) *)
Definition decompose (s : shapes) : shapes :=
  let tets := sort_unique (Tetrahedra s) in
  let tris := sort_unique (Triangles s ++ flat_map faces_of tets) in
  let lines := sort_unique (Lines s ++ flat_map edges_of tris) in
  let points := sort_unique (Points s ++ flat_map nodes_of lines) in
  {| Points := points; Lines := lines; Triangles := tris; Tetrahedra := tets |}.

(* an element of a gmsh mesh: type = dimension 0..3, physical number, nodes
   (struct GmshElement, GmshLoader.hh:30-42) *)
Record element := { el_type : nat; el_number : nat; el_nodes : list nat }.
(* Shapes::AddShape (MeshLoaderUtility.cc:71-90) *)
Definition add_shape (s : shapes) (e : element) : shapes :=
  let n := nth_ (el_nodes e) in
  match el_type e with
  | 0 => {| Points := Points s ++ [mk_node (n 0)]; Lines := Lines s; Triangles := Triangles s; Tetrahedra := Tetrahedra s |}
  | 1 => {| Points := Points s; Lines := Lines s ++ [mk_edge (n 0) (n 1)]; Triangles := Triangles s; Tetrahedra := Tetrahedra s |}
  | 2 => {| Points := Points s; Lines := Lines s; Triangles := Triangles s ++ [mk_triangle (n 0) (n 1) (n 2)]; Tetrahedra := Tetrahedra s |}
  | 3 => {| Points := Points s; Lines := Lines s; Triangles := Triangles s; Tetrahedra := Tetrahedra s ++ [mk_tetrahedron (n 0) (n 1) (n 2) (n 3)] |}
  | _ => s
  end.
Definition nonempty {A} (l : list A) : bool := match l with [] => false | _ => true end.
(* GetNumberOfTypes, GetDimension (MeshLoaderUtility.cc:97-146) *)
Definition number_of_types (s : shapes) : nat :=
  (if nonempty (Tetrahedra s) then 1 else 0) + (if nonempty (Triangles s) then 1 else 0) +
  (if nonempty (Lines s) then 1 else 0) + (if nonempty (Points s) then 1 else 0).
Definition shapes_dimension (s : shapes) : nat :=
  if nonempty (Tetrahedra s) then 3 else if nonempty (Triangles s) then 2 else if nonempty (Lines s) then 1 else 0.

(* ---------------------------------------------------------------- gmsh meshes *)
Record group_info := { gi_names : list string; gi_region0 : string; gi_region1 : string }.
Definition no_info : group_info := {| gi_names := []; gi_region0 := EmptyString; gi_region1 := EmptyString |}.
(* class GmshLoader (GmshLoader.hh:75-200) *)
Record gmsh := {
  g_coords : list nat;                          (* numbers given to AddCoordinate *)
  g_names : list (nat * nat * string);          (* dimension, physical number, name: newest first *)
  g_elements : list element;
  g_regions : smap group_info; g_contacts : smap group_info; g_interfaces : smap group_info;
  g_shapes : smap shapes; g_dim : nat; g_final : bool }.
Definition new_gmsh : gmsh :=
  {| g_coords := []; g_names := []; g_elements := []; g_regions := []; g_contacts := []; g_interfaces := [];
     g_shapes := []; g_dim := 0; g_final := false |}.

(* dsGmshParse::LoadMeshesFromArgs (GmshReader.cc:25-154), the loop over the element list: [rem] are
   the entries from eeindex on, [dims] is physical_dimensions.  Numbers are not truncated to int. *)
Inductive parsed := Parsed (es : list element) (dims : list (nat * nat)) | Rejected (es : list element) | Overrun.
Fixpoint assoc {B} (k : nat) (l : list (nat * B)) : option B :=
  match l with [] => None | (k', v) :: t => if k =? k' then Some v else assoc k t end.
Fixpoint parse (fuel : nat) (names : nat) (rem : list nat) (es : list element) (dims : list (nat * nat)) : parsed :=
  match fuel with
  | 0 => Rejected es
  | S fuel =>
    match rem with
    | [] => Parsed es dims
    | ty :: _ =>
        let get := if ty <? 4 then S ty else 0 in            (* nodes_to_get, lines 55-77 *)
        if get =? 0 then Rejected es                         (* 79-85 *)
        else if length rem <? get + 1 then Rejected es       (* 86-92 *)
        else
          let number := nth 1 rem 0 in
          if names <? number then Rejected es                (* 96-102 *)
          else
            match assoc number dims with
            | Some d => if d =? ty then
                          (if length rem <? get + 2 then Overrun   (* elements[eeindex + i + 2], 117-120 *)
                           else parse fuel names (skipn (get + 2) rem)
                                  (es ++ [{| el_type := ty; el_number := number; el_nodes := firstn get (skipn 2 rem) |}]) dims)
                        else Rejected es                     (* 107-113 *)
            | None => if length rem <? get + 2 then Overrun
                      else parse fuel names (skipn (get + 2) rem)
                             (es ++ [{| el_type := ty; el_number := number; el_nodes := firstn get (skipn 2 rem) |}])
                             ((number, ty) :: dims)
            end
    end
  end.
(* the loop over physical_names (GmshReader.cc:136-151): Some names, and whether every name has elements *)
Fixpoint add_names (i : nat) (names : list string) (dims : list (nat * nat)) (acc : list (nat * nat * string))
    : bool * list (nat * nat * string) :=
  match names with
  | [] => (true, acc)
  | s :: t => match assoc i dims with
              | Some d => add_names (S i) t dims ((d, i, s) :: acc)
              | None => (false, acc)
              end
  end.
(* the mesh that is left in the mesh list, and whether the command succeeds *)
Definition load_args (ncoords3 : nat (* length of the coordinate list *)) (names : list string) (elements : list nat)
    : option (bool * gmsh) :=
  let n := ncoords3 / 3 in
  if negb (3 * n =? ncoords3) then Some (false, new_gmsh)
  else
    let m es nm := {| g_coords := seq 0 n; g_names := nm; g_elements := es; g_regions := []; g_contacts := [];
                      g_interfaces := []; g_shapes := []; g_dim := 0; g_final := false |} in
    match parse (S (length elements)) (length names) elements [] [] with
    | Overrun => None
    | Rejected es => Some (false, m es [])
    | Parsed es dims => let (ok, nm) := add_names 0 names dims [] in Some (ok, m es nm)
    end.

(* create_gmsh_mesh with lists (MeshingCommands.cc:855-980; the mesh must not exist): the mesh is
   entered in the list of meshes before its data are read (GmshReader.cc:27-29).  Undefined: the
   element list is read past its end. *)
(* how a command ends: success, error result, exception (dsAssert), undefined behaviour; with the
   state it leaves *)
Inductive ended (A : Type) := Done (a : A) | Failed (a : A) | Thrown (a : A) | Undefined.
Arguments Done {A} a. Arguments Failed {A} a. Arguments Thrown {A} a. Arguments Undefined {A}.
Definition create_gmsh_mesh (meshes : smap gmsh) (name : string) (ncoords3 : nat) (names : list string) (elements : list nat)
    : ended (smap gmsh) :=
  if has name meshes then Failed meshes
  else match load_args ncoords3 names elements with
       | None => Undefined
       | Some (true, g) => Done (put name g meshes)
       | Some (false, g) => Failed (put name g meshes)
       end.

(* add_gmsh_region, add_gmsh_contact, add_gmsh_interface (MeshingCommands.cc:983-1126; the options
   cannot be empty and the mesh must not be finalized): MapPhysicalNameTo... (GmshLoader.hh:132-175) *)
Inductive gcommand := GRegion (gname region : string) | GContact (gname name region : string)
                    | GInterface (gname name region0 region1 : string).
Definition found {A} (d : A) (o : option A) : A := match o with Some x => x | None => d end.
Definition gcommand_run (g : gmsh) (c : gcommand) : gmsh :=
  match c with
  | GRegion p r =>
      let i := found no_info (find r (g_regions g)) in
      {| g_coords := g_coords g; g_names := g_names g; g_elements := g_elements g;
         g_regions := put r {| gi_names := gi_names i ++ [p]; gi_region0 := gi_region0 i; gi_region1 := gi_region1 i |} (g_regions g);
         g_contacts := g_contacts g; g_interfaces := g_interfaces g; g_shapes := g_shapes g; g_dim := g_dim g; g_final := g_final g |}
  | GContact p n r =>
      let i := found no_info (find n (g_contacts g)) in
      {| g_coords := g_coords g; g_names := g_names g; g_elements := g_elements g; g_regions := g_regions g;
         g_contacts := put n {| gi_names := gi_names i ++ [p]; gi_region0 := r; gi_region1 := gi_region1 i |} (g_contacts g);
         g_interfaces := g_interfaces g; g_shapes := g_shapes g; g_dim := g_dim g; g_final := g_final g |}
  | GInterface p n r0 r1 =>
      let i := found no_info (find n (g_interfaces g)) in
      {| g_coords := g_coords g; g_names := g_names g; g_elements := g_elements g; g_regions := g_regions g; g_contacts := g_contacts g;
         g_interfaces := put n {| gi_names := gi_names i ++ [p]; gi_region0 := r0; gi_region1 := r1 |} (g_interfaces g);
         g_shapes := g_shapes g; g_dim := g_dim g; g_final := g_final g |}
  end.

(* the decimal text of a physical number: os << physical_number (GmshLoader.cc:740-742) *)
Definition decimal (n : nat) : string := NilZero.string_of_uint (Nat.to_uint n).
(* the name of the group of an element (GmshLoader.cc:733-743) *)
Fixpoint physical_name (names : list (nat * nat * string)) (d n : nat) : option string :=
  match names with
  | [] => None
  | (d', n', s) :: t => if (d =? d') && (n =? n') then Some s else physical_name t d n
  end.
Definition group_of (g : gmsh) (e : element) : string :=
  found (decimal (el_number e)) (physical_name (g_names g) (el_type e) (el_number e)).
(* GmshLoader::Finalize_ (GmshLoader.cc:717-781) *)
Definition collect (g : gmsh) : smap shapes :=
  fold_left (fun m e => put (group_of g e) (add_shape (found no_shapes (find (group_of g e) m)) e) m)
            (g_elements g) (g_shapes g).
Definition gmsh_finalize (g : gmsh) : bool * gmsh :=
  if g_final g then (false, g)                         (* Mesh::Finalize, Mesh.cc:52-66 *)
  else
    let groups := collect g in
    let ok := forallb (fun p => number_of_types (snd p) =? 1) groups in
    let dim := fold_left (fun d p => if number_of_types (snd p) =? 1
                                     then (if d <? shapes_dimension (snd p) then shapes_dimension (snd p) else d)
                                     else d) groups (g_dim g) in
    (ok, {| g_coords := g_coords g; g_names := g_names g; g_elements := g_elements g; g_regions := g_regions g;
            g_contacts := g_contacts g; g_interfaces := g_interfaces g;
            g_shapes := map (fun p => (fst p, decompose (snd p))) groups; g_dim := dim; g_final := ok |}).

(* ---------------------------------------------------------------- devices *)
(* A region of a device: nodes in order, each given by its coordinate; elements by the coordinates
   of their nodes (gmsh: a region has at most one node at a coordinate, see processNodes) or by
   node numbers (devsim format). *)
Record region := { r_nodes : list nat; r_edges : list simplex; r_tris : list simplex; r_tets : list simplex; r_adj : adjacency }.
Record contact := { c_region : string; c_nodes : list nat; c_edges : list nat; c_tris : list nat }.
Record interface := { i_region0 : string; i_region1 : string; i_nodes0 : list nat; i_nodes1 : list nat;
                      i_edges : list (nat * nat); i_tris : list (nat * nat) }.
Record device := { d_dim : nat; d_regions : smap region; d_contacts : smap contact; d_interfaces : smap interface }.
Definition new_device (dim : nat) : device := {| d_dim := dim; d_regions := []; d_contacts := []; d_interfaces := [] |}.
Definition with_regions (d : device) r := {| d_dim := d_dim d; d_regions := r; d_contacts := d_contacts d; d_interfaces := d_interfaces d |}.
Definition with_contacts (d : device) c := {| d_dim := d_dim d; d_regions := d_regions d; d_contacts := c; d_interfaces := d_interfaces d |}.
Definition with_interfaces (d : device) i := {| d_dim := d_dim d; d_regions := d_regions d; d_contacts := d_contacts d; d_interfaces := i |}.

(* GetUnique{Nodes,Edges,Triangles,Tetrahedra}FromPhysicalNames (GmshLoader.cc:148-228); a name
   without group counts as an empty group *)
Definition of_names (sel : shapes -> list simplex) (groups : smap shapes) (names : list string) : list simplex :=
  sort_unique (flat_map (fun n => sel (found no_shapes (find n groups))) names).
Definition mem (n : nat) (l : list nat) : bool := existsb (Nat.eqb n) l.

(* one region (GmshLoader.cc:262-328).  The node list is indexed by coordinates and nodes are added in
   that order; processNodes asserts that the coordinate exists, processEdges etc. that their nodes
   exist.  None: dsAssert. *)
Definition gmsh_region (g : gmsh) (i : group_info) : finalized region :=
  let nodes := map (fun s => nth_ s 0) (of_names Points (g_shapes g) (gi_names i)) in
  let tets := if g_dim g =? 3 then of_names Tetrahedra (g_shapes g) (gi_names i) else [] in
  let tris := if 2 <=? g_dim g then of_names Triangles (g_shapes g) (gi_names i) else [] in
  let edges := of_names Lines (g_shapes g) (gi_names i) in
  if forallb (fun n => mem n (g_coords g)) nodes &&
     forallb (forallb (fun n => mem n nodes)) (tets ++ tris ++ edges) then
    match finalize_region (g_dim g) edges tris tets with
    | Finished a => Finished {| r_nodes := nodes; r_edges := edges; r_tris := tris; r_tets := tets; r_adj := a |}
    | Asserted => Asserted
    | Invalid => Invalid
    end
  else Asserted.
(* the regions in the order of their names; a region that throws is dropped from the model's
   device (it would be left in the device unfinished) *)
Fixpoint gmsh_regions (g : gmsh) (l : smap group_info) (acc : smap region) : ended (smap region) :=
  match l with
  | [] => Done acc
  | (n, i) :: t => match gmsh_region g i with
                   | Finished r => gmsh_regions g t (put n r acc)
                   | Asserted => Thrown acc
                   | Invalid => Undefined
                   end
  end.
(* Region::FindEdge, FindTriangle (Region.cc:1615-1668): the first element that has all the nodes.
   None: one of the pointers is null or read past the end of the node list. *)
Definition find_element (nodes : list nat) (l : list simplex) (s : simplex) : option (option nat) :=
  if forallb (fun n => mem n nodes) s then Some (hd_error (around l s)) else None.
Fixpoint find_all (nodes : list nat) (l : list simplex) (ss : list simplex) : option (list nat) :=
  match ss with
  | [] => Some []
  | s :: t => match find_element nodes l s, find_all nodes l t with
              | Some (Some e), Some r => Some (e :: r)
              | Some None, Some r => Some r
              | _, _ => None
              end
  end.
Definition wrong_dimension (dim : nat) (tris edges : list simplex) : bool :=
  ((dim =? 2) && nonempty tris) || ((dim =? 1) && nonempty edges).
(* one contact (GmshLoader.cc:337-462): Some None: nothing is added; the boolean is false if an
   error was reported *)
Definition gmsh_contact (g : gmsh) (rs : smap region) (i : group_info) : option (bool * option contact) :=
  match find (gi_region0 i) rs with
  | None => Some (false, None)
  | Some r =>
      let pts := map (fun s => nth_ s 0) (of_names Points (g_shapes g) (gi_names i)) in
      let edges := of_names Lines (g_shapes g) (gi_names i) in
      let tris := of_names Triangles (g_shapes g) (gi_names i) in
      let ok := negb (wrong_dimension (g_dim g) tris edges) && forallb (fun n => mem n (r_nodes r)) pts in
      let nodes := filter (fun n => mem n (r_nodes r)) pts in
      if nonempty nodes then
        match find_all (r_nodes r) (r_edges r) edges, find_all (r_nodes r) (r_tris r) tris with
        | Some es, Some ts => Some (ok, Some {| c_region := gi_region0 i; c_nodes := nodes; c_edges := es; c_tris := ts |})
        | _, _ => None
        end
      else Some (false, None)
  end.
Fixpoint gmsh_contacts (g : gmsh) (rs : smap region) (l : smap group_info) (ok : bool) (acc : smap contact)
    : option (bool * smap contact) :=
  match l with
  | [] => Some (ok, acc)
  | (n, i) :: t => match gmsh_contact g rs i with
                   | None => None
                   | Some (b, None) => gmsh_contacts g rs t (ok && b) acc
                   | Some (b, Some c) => gmsh_contacts g rs t (ok && b) (put n c acc)
                   end
  end.
Fixpoint find_pairs (n0 n1 : list nat) (l0 l1 : list simplex) (ss : list simplex) : option (list (nat * nat)) :=
  match ss with
  | [] => Some []
  | s :: t => match find_element n0 l0 s, find_element n1 l1 s, find_pairs n0 n1 l0 l1 t with
              | Some (Some a), Some (Some b), Some r => Some ((a, b) :: r)
              | Some _, Some _, Some r => Some r
              | _, _, _ => None
              end
  end.
(* one interface (GmshLoader.cc:473-700) *)
Definition gmsh_interface (g : gmsh) (rs : smap region) (i : group_info) : option (bool * option interface) :=
  match find (gi_region0 i) rs, find (gi_region1 i) rs with
  | Some r0, Some r1 =>
      let pts := map (fun s => nth_ s 0) (of_names Points (g_shapes g) (gi_names i)) in
      let edges := of_names Lines (g_shapes g) (gi_names i) in
      let tris := of_names Triangles (g_shapes g) (gi_names i) in
      let both n := mem n (r_nodes r0) && mem n (r_nodes r1) in
      let ok := negb (wrong_dimension (g_dim g) tris edges) && forallb both pts in
      let nodes := filter both pts in
      if nonempty nodes then
        match find_pairs (r_nodes r0) (r_nodes r1) (r_edges r0) (r_edges r1) edges,
              find_pairs (r_nodes r0) (r_nodes r1) (r_tris r0) (r_tris r1) tris with
        | Some es, Some ts => Some (ok, Some {| i_region0 := gi_region0 i; i_region1 := gi_region1 i;
                                                i_nodes0 := nodes; i_nodes1 := nodes; i_edges := es; i_tris := ts |})
        | _, _ => None
        end
      else Some (false, None)
  | _, _ => Some (false, None)
  end.
Fixpoint gmsh_interfaces (g : gmsh) (rs : smap region) (l : smap group_info) (ok : bool) (acc : smap interface)
    : option (bool * smap interface) :=
  match l with
  | [] => Some (ok, acc)
  | (n, i) :: t => match gmsh_interface g rs i with
                   | None => None
                   | Some (b, None) => gmsh_interfaces g rs t (ok && b) acc
                   | Some (b, Some c) => gmsh_interfaces g rs t (ok && b) (put n c acc)
                   end
  end.
(* create_device (MeshingCommands.cc:638-676: the mesh must be finalized; Mesh::Instantiate,
   Mesh.cc:37-50) on a gmsh mesh: GmshLoader::Instantiate_ (GmshLoader.cc:230-715).  The device is
   registered (GlobalData::AddDevice, line 246) before anything is checked.  Device::Device asserts
   1 <= dimension <= 3 (Device.cc:30). *)
Definition gmsh_create (g : gmsh) (name : string) (devices : smap device) : ended (smap device) :=
  if negb (g_final g) || has name devices then Failed devices
  else if g_dim g =? 0 then Thrown devices
  else
    let d := new_device (g_dim g) in
    match gmsh_regions g (g_regions g) [] with
    | Done rs =>
        match gmsh_contacts g rs (g_contacts g) true [] with
        | None => Undefined
        | Some (ok, cs) =>
            match gmsh_interfaces g rs (g_interfaces g) ok [] with
            | None => Undefined
            | Some (ok, is_) =>
                let devs := put name (with_interfaces (with_contacts (with_regions d rs) cs) is_) devices in
                if ok then Done devs else Failed devs
            end
        end
    | Thrown rs => Thrown (put name (with_regions d rs) devices)
    | _ => Undefined
    end.

(* ---------------------------------------------------------------- the devsim format *)
(* MeshRegion (MeshLoaderStructs.hh:400-): nodes give coordinates, elements give node numbers *)
Record mregion := { mr_nodes : list nat; mr_edges : list simplex; mr_tris : list simplex; mr_tets : list simplex }.
Definition coords_of (l : list simplex) : list nat := map (fun s => nth_ s 0) l.
(* MeshRegion::DecomposeAndUniquify (MeshLoaderStructs.cc:32-79): an empty list is filled from
   the elements one dimension higher *)
Definition decompose_region (r : mregion) : mregion :=
  let tris := if nonempty (mr_tets r) && negb (nonempty (mr_tris r))
              then sort_unique (flat_map faces_of (mr_tets r)) else mr_tris r in
  let edges := if nonempty tris && negb (nonempty (mr_edges r))
               then sort_unique (flat_map edges_of tris) else mr_edges r in
  let nodes := if nonempty edges && negb (nonempty (mr_nodes r))
               then coords_of (sort_unique (flat_map nodes_of edges)) else mr_nodes r in
  {| mr_nodes := nodes; mr_edges := edges; mr_tris := tris; mr_tets := mr_tets r |}.
Record mcontact := { mc_region : string; mc_part : mregion }.
Record minterface := { mi_region0 : string; mi_region1 : string; mi_part0 : mregion; mi_part1 : mregion;
                       mi_pairs : list (nat * nat) }.
Record dmesh := { m_ncoords : nat; m_regions : smap mregion; m_contacts : smap mcontact; m_interfaces : smap minterface; m_final : bool }.

Definition mregion_dimension (r : mregion) : nat :=
  if nonempty (mr_tets r) then 3 else if nonempty (mr_tris r) then 2 else 1.
(* DevsimLoader::Finalize_ (DevsimLoader.cc:963-1155).  The dimension of the first region is read
   before it is decomposed and is 0 if it has no elements. *)
Definition first_dimension (rs : smap mregion) : nat :=
  match rs with
  | [] => 0
  | (_, r) :: _ => if nonempty (mr_tets r) then 3 else if nonempty (mr_tris r) then 2 else if nonempty (mr_edges r) then 1 else 0
  end.
Definition below (n : nat) (l : list simplex) : bool := forallb (forallb (fun i => i <? n)) l.
Definition region_ok (ncoords dim : nat) (r : mregion) : bool :=
  (mregion_dimension r =? dim) && nonempty (mr_nodes r) &&
  (length (mr_nodes r) <=? ncoords) && forallb (fun i => i <? ncoords) (mr_nodes r) &&
  nonempty (mr_edges r) && below (length (mr_nodes r)) (mr_edges r) && below (length (mr_nodes r)) (mr_tris r).
Definition devsim_finalize (m : dmesh) : bool * dmesh :=
  if m_final m then (false, m)
  else
    let rs := map (fun p => (fst p, decompose_region (snd p))) (m_regions m) in
    let ok := negb (m_ncoords m =? 0) && nonempty rs &&
              forallb (fun p => region_ok (m_ncoords m) (first_dimension (m_regions m)) (snd p)) rs in
    (ok, {| m_ncoords := m_ncoords m; m_regions := rs; m_contacts := m_contacts m; m_interfaces := m_interfaces m; m_final := ok |}).

(* createRegion, processNodes, processEdges, processTriangles, processTetrahedra
   (DevsimLoader.cc:43-235) *)
Definition devsim_region (ncoords : nat) (r : mregion) : finalized region :=
  let dim := mregion_dimension r in
  let n := length (mr_nodes r) in
  let edges := sort_unique (mr_edges r) in
  let tris := sort_unique (mr_tris r) in
  let tets := if dim =? 3 then sort_unique (mr_tets r) else [] in
  if forallb (fun i => i <? ncoords) (mr_nodes r) && below n edges && below n tris && below n tets then
    match finalize_region dim edges tris tets with
    | Finished a => Finished {| r_nodes := mr_nodes r; r_edges := edges; r_tris := tris; r_tets := tets; r_adj := a |}
    | Asserted => Asserted
    | Invalid => Invalid
    end
  else Asserted.
(* Device::AddRegion asserts that the region has the dimension of the device (Device.cc:77), which is
   the dimension of the first region (DevsimLoader.cc:398-408) *)
Fixpoint devsim_regions (ncoords dim : nat) (l : smap mregion) (acc : smap region) : ended (smap region) :=
  match l with
  | [] => Done acc
  | (n, r) :: t =>
      if mregion_dimension r =? dim then
        match devsim_region ncoords r with
        | Finished x => devsim_regions ncoords dim t (put n x acc)
        | Asserted => Thrown acc
        | Invalid => Undefined
        end
      else Thrown acc
  end.
(* GetNodes, GetEdges, GetTriangles (DevsimLoader.cc:253-347): node numbers out of range are skipped *)
Definition part_nodes (p : mregion) (r : region) : list nat := filter (fun i => i <? length (r_nodes r)) (mr_nodes p).
Definition part_elements (l : list simplex) (r : region) (els : list simplex) : list nat :=
  flat_map (fun s => if forallb (fun i => i <? length (r_nodes r)) s
                     then match hd_error (around els s) with Some e => [e] | None => [] end else []) l.
(* one contact (DevsimLoader.cc:457-513): None: an error is reported and the loop ends *)
Definition devsim_contact (rs : smap region) (c : mcontact) : option contact :=
  match find (mc_region c) rs with
  | None => None
  | Some r =>
      let p := decompose_region (mc_part c) in
      if forallb (fun i => i <? length (r_nodes r)) (mr_nodes p)
      then Some {| c_region := mc_region c; c_nodes := mr_nodes p;
                   c_edges := part_elements (mr_edges p) r (r_edges r); c_tris := part_elements (mr_tris p) r (r_tris r) |}
      else None
  end.
Fixpoint devsim_contacts (rs : smap region) (l : smap mcontact) (acc : smap contact) : bool * smap contact :=
  match l with
  | [] => (true, acc)
  | (n, c) :: t => match devsim_contact rs c with
                   | Some x => devsim_contacts rs t (put n x acc)
                   | None => (false, acc)
                   end
  end.
(* std::map<size_t, pair<size_t, size_t>> *)
Fixpoint nput (k : nat) (v : nat * option nat) (m : list (nat * (nat * option nat))) :=
  match m with
  | [] => [(k, v)]
  | (k', v') :: t => if k <? k' then (k, v) :: m else if k =? k' then (k, v) :: t else (k', v') :: nput k v t
  end.
(* FixNodePairs (DevsimLoader.cc:349-379): the nodes are given by their numbers, coord0 and coord1
   give their coordinates.  None: mmap.erase(mmap.end()). *)
Fixpoint fix_second (coord1 : nat -> nat) (cn1 : list nat) (m : list (nat * (nat * option nat)))
    : option (list (nat * (nat * option nat))) :=
  match cn1 with
  | [] => Some m
  | j :: t => match assoc (coord1 j) m with
              | Some (i, _) => fix_second coord1 t (nput (coord1 j) (i, Some j) m)
              | None => None
              end
  end.
Definition fix_node_pairs (coord0 coord1 : nat -> nat) (cn0 cn1 : list nat) : option (list (nat * nat)) :=
  match fix_second coord1 cn1 (fold_left (fun m i => nput (coord0 i) (i, None) m) cn0 []) with
  | None => None
  | Some m => Some (flat_map (fun p => match snd (snd p) with Some j => [(fst (snd p), j)] | None => [] end) m)
  end.
(* one interface (DevsimLoader.cc:530-625): the nodes on both sides and the node pairs stored in
   the mesh.  The boolean is false if an error is reported. *)
Inductive paired := Paired (ok : bool) (n0 n1 : list nat) (stored : list (nat * nat)) | NoRegion | BadErase.
Definition devsim_pairs (rs : smap region) (i : minterface) : paired :=
  match find (mi_region0 i) rs, find (mi_region1 i) rs with
  | Some r0, Some r1 =>
      match mi_pairs i with
      | [] =>
          let cn0 := part_nodes (decompose_region (mi_part0 i)) r0 in
          let cn1 := part_nodes (decompose_region (mi_part1 i)) r1 in
          match fix_node_pairs (fun n => nth n (r_nodes r0) 0) (fun n => nth n (r_nodes r1) 0) cn0 cn1 with
          | Some ps => Paired true cn0 cn1 ps
          | None => BadErase
          end
      | ps =>
          let good p := (fst p <? length (r_nodes r0)) && (snd p <? length (r_nodes r1)) in
          Paired (forallb good ps) (map fst (filter good ps)) (map snd (filter good ps)) ps
      end
  | _, _ => NoRegion
  end.
(* the loop over the interfaces; AddInterface asserts that the lists have the same length
   (Device.cc:154) after the interface was entered *)
Fixpoint devsim_interfaces (rs : smap region) (l : smap minterface) (acc : smap interface) (done_ : smap minterface)
    : ended (smap interface * smap minterface) :=
  match l with
  | [] => Done (acc, done_)
  | (n, i) :: t =>
      match devsim_pairs rs i with
      | BadErase => Undefined
      | NoRegion => Failed (acc, done_ ++ (n, i) :: t)
      | Paired ok n0 n1 ps =>
          let i' := {| mi_region0 := mi_region0 i; mi_region1 := mi_region1 i; mi_part0 := decompose_region (mi_part0 i);
                       mi_part1 := decompose_region (mi_part1 i); mi_pairs := ps |} in
          if ok then
            match find (mi_region0 i) rs, find (mi_region1 i) rs with
            | Some r0, Some r1 =>
                let x := {| i_region0 := mi_region0 i; i_region1 := mi_region1 i; i_nodes0 := n0; i_nodes1 := n1;
                            i_edges := []; i_tris := [] |} in
                if length n0 =? length n1 then devsim_interfaces rs t (put n x acc) (done_ ++ [(n, i')])
                else Thrown (put n x acc, done_ ++ (n, i') :: t)
            | _, _ => Failed (acc, done_ ++ (n, i) :: t)
            end
          else Failed (acc, done_ ++ (n, i') :: t)
      end
  end.
(* create_device on a mesh in the devsim format: DevsimLoader::Instantiate_ (DevsimLoader.cc:381-640;
   the models, equations and data stored in the file are not modelled, nor the edges and triangles
   of interfaces).  The mesh itself is changed: node pairs are stored in it. *)
Definition devsim_create (m : dmesh) (name : string) (devices : smap device) : ended (smap device * dmesh) :=
  if negb (m_final m) || has name devices then Failed (devices, m)
  else
    let dim := match m_regions m with [] => 1 | (_, r) :: _ => mregion_dimension r end in
    let d := new_device dim in
    match devsim_regions (m_ncoords m) dim (m_regions m) [] with
    | Done rs =>
        let (ok, cs) := devsim_contacts rs (m_contacts m) [] in
        let d := with_contacts (with_regions d rs) cs in
        if ok then
          let upd is_ := {| m_ncoords := m_ncoords m; m_regions := m_regions m; m_contacts := m_contacts m; m_interfaces := is_; m_final := m_final m |} in
          match devsim_interfaces rs (m_interfaces m) [] [] with
          | Done (is_, mi) => Done (put name (with_interfaces d is_) devices, upd mi)
          | Failed (is_, mi) => Failed (put name (with_interfaces d is_) devices, upd mi)
          | Thrown (is_, mi) => Thrown (put name (with_interfaces d is_) devices, upd mi)
          | Undefined => Undefined
          end
        else Failed (put name d devices, m)
    | Thrown rs => Thrown (put name (with_regions d rs) devices, m)
    | _ => Undefined
    end.
