(* Two dimensional meshes: meshing/Mesh2d.cc, Mesh2dStructs.hh/.cc, commands/MeshingCommands.cc, and what DevsimLoader.cc makes of them.
   Simplifications: materials and messages are left out; std::sort of the lines is any sorted permutation; CoordinateToNode (a vector per region,
   -1 where there is no node) is the place of the coordinate in the list of nodes of the region, to which new nodes are appended. *)
From Coq Require Import String List Bool Arith.
From Verif Require Import StrMap MeshLine.
Import ListNotations.

(* MeshLoaderStructs.hh:214-250: an edge has its indices in order *)
Definition edge (i j : nat) : nat * nat := if Nat.ltb j i then (j, i) else (i, j).
(* MeshLoaderStructs.hh:252-300: a triangle, too *)
Definition tri := (nat * nat * nat)%type.
Definition triangle (i j k : nat) : tri :=
  let a := Nat.min i j in let b := Nat.max i j in
  (Nat.min a k, Nat.max a (Nat.min b k), Nat.max b k).

Section M.
Context {T : Type}.
Variable N : num T.
Variable eqb : T -> T -> bool.   (* == *)
Variable three : T.              (* 3.0 *)

(* Mesh2dStructs.hh:16-48 BoundingBox *)
Record box := mkbox { bx0 : T; bx1 : T; by0 : T; by1 : T; bloat : T }.
Definition make_box (x0 x1 y0 y1 b : T) : box :=
  let (x0, x1) := if ltb N x1 x0 then (x1, x0) else (x0, x1) in
  let (y0, y1) := if ltb N y1 y0 then (y1, y0) else (y0, y1) in
  mkbox x0 x1 y0 y1 b.
Definition inside_box (b : box) (x y : T) : bool :=
  ltb N (sub N (bx0 b) (bloat b)) x && ltb N x (add N (bx1 b) (bloat b)) && ltb N (sub N (by0 b) (bloat b)) y && ltb N y (add N (by1 b) (bloat b)).

(* a region, contact or interface declared: its name, its regions, its boxes *)
Record shape := mkshape { h_name : string; h_regions : list string; h_boxes : list box }.
Definition inside (s : shape) (x y : T) : bool := existsb (fun b => inside_box b x y) (h_boxes s).   (* Mesh2dStructs.cc:52-68 *)

(* Mesh2d.cc:70-84 FindRegion *)
Fixpoint find_region (rs : list shape) (x y : T) (ret : option string) : option string :=
  match rs with [] => ret | r :: t => find_region t x y (if inside r x y then Some (h_name r) else ret) end.

(* the mesh; the lists of shapes are in order of declaration *)
Record mesh2 := mkmesh2 { m_x : list (@line T); m_y : list (@line T); m_reg : list shape; m_con : list shape; m_int : list shape }.
Definition new_mesh2 : mesh2 := mkmesh2 [] [] [] [] [].
(* Mesh2d.cc:417-490 AddRegion, AddInterface, AddContact, MeshingCommands.cc:449-452, 526-529, 629-632: the box is added to the object handed over after
   that; when the name is known, the object is dropped after its boxes, none so far, were copied *)
Definition add_shape (l : list shape) (name : string) (rs : list string) (b : box) : list shape :=
  if existsb (fun s => String.eqb (h_name s) name) l then l else (l ++ [mkshape name rs [b]])%list.
(* MeshingCommands.cc:235-306, 394-459, 461-531, 581-635 *)
Inductive command2 := AddXLine (p ps ns : T) | AddYLine (p ps ns : T) | Add2Region (name : string) (x0 x1 y0 y1 b : T)
  | Add2Contact (name region : string) (x0 x1 y0 y1 b : T) | Add2Interface (name r0 r1 : string) (x0 x1 y0 y1 b : T).
Definition exec2 (c : command2) (m : mesh2) : option mesh2 :=
  match c with
  | AddXLine p ps ns => if leb N ps (zero N) then None
      else Some (mkmesh2 (m_x m ++ [mkline p ps (if leb N ns (zero N) then ps else ns) EmptyString])%list (m_y m) (m_reg m) (m_con m) (m_int m))
  | AddYLine p ps ns => if leb N ps (zero N) then None
      else Some (mkmesh2 (m_x m) (m_y m ++ [mkline p ps (if leb N ns (zero N) then ps else ns) EmptyString])%list (m_reg m) (m_con m) (m_int m))
  | Add2Region n x0 x1 y0 y1 b => if empty n then None
      else Some (mkmesh2 (m_x m) (m_y m) (add_shape (m_reg m) n [] (make_box x0 x1 y0 y1 b)) (m_con m) (m_int m))
  | Add2Contact n r x0 x1 y0 y1 b => if empty n || empty r then None
      else Some (mkmesh2 (m_x m) (m_y m) (m_reg m) (add_shape (m_con m) n [r] (make_box x0 x1 y0 y1 b)) (m_int m))
  | Add2Interface n r0 r1 x0 x1 y0 y1 b => if empty n || empty r0 || empty r1 || String.eqb r0 r1 then None
      else Some (mkmesh2 (m_x m) (m_y m) (m_reg m) (m_con m) (add_shape (m_int m) n [r0; r1] (make_box x0 x1 y0 y1 b)))
  end.
(* a sequence of commands; rejected commands change nothing *)
Fixpoint run2 (cs : list command2) (m : mesh2) : mesh2 :=
  match cs with [] => m | c :: t => run2 t (match exec2 c m with Some m1 => m1 | None => m end) end.

(* Mesh2d.cc:99-150: a line at the position of the line before it is dropped *)
Fixpoint drop_same (prev : @line T) (l : list (@line T)) : list (@line T) :=
  match l with [] => [] | a :: t => if eqb (pos a) (pos prev) then drop_same a t else a :: drop_same a t end.
Definition collapse (l : list (@line T)) : list (@line T) := match l with [] => [] | a :: t => a :: drop_same a t end.
(* Mesh2d.cc:39-68 GetLocations *)
Fixpoint more_locations (fuel : nat) (a : @line T) (acc : list T) (l : list (@line T)) : res (list T) :=
  match l with
  | [] => Ok acc
  | b :: t => rbind (getPoints N fuel (pos a) (pos b) (psp a) (nsp b)) (fun pts => more_locations fuel b (acc ++ tl pts)%list t)
  end.
Definition get_locations (fuel : nat) (l : list (@line T)) : res (list T) :=
  match l with [] => Abort | a :: t => more_locations fuel a [pos a] t end.

(* Mesh2d.cc:181-196 the coordinates *)
Definition grid_points (xs ys : list T) : list (T * T) := flat_map (fun x => map (fun y => (x, y)) ys) xs.
(* Mesh2d.cc:199-211 the triangles *)
Definition grid_triangles (nx ny : nat) : list tri :=
  flat_map (fun i => flat_map (fun j =>
    let ul := i * ny + j in let ur := (i + 1) * ny + j in let ll := i * ny + (j + 1) in let lr := (i + 1) * ny + (j + 1) in
    [triangle ul ur ll; triangle ur lr ll]) (seq 0 (ny - 1))) (seq 0 (nx - 1)).

(* Mesh2d.cc:236-239 the centre of a triangle *)
Definition centre (cs : list (T * T)) (t : tri) : T * T :=
  let '(i, j, k) := t in
  let p n := nth n cs (zero N, zero N) in
  (div N (add N (add N (fst (p i)) (fst (p j))) (fst (p k))) three, div N (add N (add N (snd (p i)) (snd (p j))) (snd (p k))) three).

(* the parts of a region: MeshLoaderStructs.hh MeshRegion *)
Record rmesh := mkrmesh { rm_nodes : list nat; rm_edges : list (nat * nat); rm_triangles : list tri }.
Definition no_mesh : rmesh := mkrmesh [] [] [].
(* the place of a coordinate in the nodes *)
Fixpoint place (c : nat) (l : list nat) : option nat :=
  match l with [] => None | a :: t => if Nat.eqb a c then Some 0 else option_map S (place c t) end.
Definition add_node (c : nat) (l : list nat) : list nat := match place c l with Some _ => l | None => (l ++ [c])%list end.
Definition node_at (c : nat) (l : list nat) : nat := match place c l with Some n => n | None => 0 end.
(* Mesh2d.cc:254-289 a triangle of the region *)
Definition add_triangle (r : rmesh) (t : tri) : rmesh :=
  let '(i, j, k) := t in
  let ns := add_node k (add_node j (add_node i (rm_nodes r))) in
  let n0 := node_at i ns in let n1 := node_at j ns in let n2 := node_at k ns in
  mkrmesh ns (rm_edges r ++ [edge n0 n1; edge n1 n2; edge n2 n0])%list (rm_triangles r ++ [triangle n0 n1 n2])%list.
(* Mesh2d.cc:228-301 the triangles; regions: in any order, by name *)
Definition region_of (cs : list (T * T)) (rs : list shape) (t : tri) : option string :=
  let c := centre cs t in find_region rs (fst c) (snd c) None.
Definition region_mesh (cs : list (T * T)) (rs : list shape) (name : string) (ts : list tri) : rmesh :=
  fold_left (fun r t => match region_of cs rs t with Some n => if String.eqb n name then add_triangle r t else r | None => r end) ts no_mesh.
Definition regions_of (cs : list (T * T)) (rs : list shape) (ts : list tri) : list (string * rmesh) :=
  map (fun s => (h_name s, region_mesh cs rs (h_name s) ts)) rs.
Fixpoint mesh_of (name : string) (l : list (string * rmesh)) : option rmesh :=
  match l with [] => None | (n, r) :: t => if String.eqb n name then Some r else mesh_of name t end.
(* Mesh2d.cc:306-308 nodesAtCoordinate *)
Definition node_count (l : list (string * rmesh)) (i : nat) : nat :=
  length (filter (fun p => match place i (rm_nodes (snd p)) with Some _ => true | None => false end) l).

(* Mesh2d.cc:311-349 the contact of coordinate i, and its node *)
Definition node_in (l : list (string * rmesh)) (r : string) (i : nat) : option nat :=
  match mesh_of r l with Some m => place i (rm_nodes m) | None => None end.
Fixpoint contact_at (l : list (string * rmesh)) (i : nat) (x y : T) (cs : list shape) : option (string * nat) :=
  match cs with
  | [] => None
  | c :: t => if inside c x y then match node_in l (hd EmptyString (h_regions c)) i with Some n => Some (h_name c, n) | None => contact_at l i x y t end
              else contact_at l i x y t
  end.
(* Mesh2d.cc:352-393 the interface of coordinate i, and its nodes *)
Fixpoint interface_at (l : list (string * rmesh)) (i : nat) (x y : T) (is : list shape) : option (string * (nat * nat)) :=
  match is with
  | [] => None
  | c :: t => if inside c x y then
                match node_in l (hd EmptyString (h_regions c)) i, node_in l (nth 1 (h_regions c) EmptyString) i with
                | Some a, Some b => Some (h_name c, (a, b))
                | _, _ => interface_at l i x y t
                end
              else interface_at l i x y t
  end.
Definition contact_of (cs : list (T * T)) (l : list (string * rmesh)) (con : list shape) (i : nat) : option (string * nat) :=
  let p := nth i cs (zero N, zero N) in if Nat.ltb 1 (node_count l i) then contact_at l i (fst p) (snd p) con else None.
Definition interface_of (cs : list (T * T)) (l : list (string * rmesh)) (con int : list shape) (i : nat) : option (string * (nat * nat)) :=
  let p := nth i cs (zero N, zero N) in
  if Nat.ltb 1 (node_count l i) then match contact_at l i (fst p) (snd p) con with Some _ => None | None => interface_at l i (fst p) (snd p) int end else None.
Definition select {B} (name : string) (f : nat -> option (string * B)) (n : nat) : list B :=
  flat_map (fun i => match f i with Some (s, b) => if String.eqb s name then [b] else [] | None => [] end) (seq 0 n).

(* the mesh loaded: DevsimLoader.cc *)
Record loaded := mkloaded { l_coords : list (T * T); l_regions : list (string * rmesh); l_contacts : list (string * list nat); l_interfaces : list (string * list (nat * nat)) }.
Variable sort_lines : list (@line T) -> list (@line T).
(* Mesh2d.cc:86-407 Finalize_; DevsimLoader.cc:1005-1140: without a region it fails *)
Definition finalize2 (fuel : nat) (m : mesh2) : res loaded :=
  let xl := collapse (sort_lines (m_x m)) in
  let yl := collapse (sort_lines (m_y m)) in
  if Nat.ltb (length xl) 2 || Nat.ltb (length yl) 2 then Fail
  else rbind (get_locations fuel xl) (fun xs => rbind (get_locations fuel yl) (fun ys =>
       let cs := grid_points xs ys in
       let ts := grid_triangles (length xs) (length ys) in
       let l := regions_of cs (m_reg m) ts in
       if forallb (fun p => match rm_triangles (snd p) with [] => true | _ => false end) l then Fail
       else Ok (mkloaded cs (filter (fun p => match rm_triangles (snd p) with [] => false | _ => true end) l)
                  (map (fun s => (h_name s, select (h_name s) (contact_of cs l (m_con m)) (length cs))) (m_con m))
                  (map (fun s => (h_name s, select (h_name s) (interface_of cs l (m_con m) (m_int m)) (length cs))) (m_int m))))).
End M.
Arguments mkbox {T}. Arguments mkshape {T}. Arguments mkmesh2 {T}. Arguments mkloaded {T}. Arguments new_mesh2 {T}.
