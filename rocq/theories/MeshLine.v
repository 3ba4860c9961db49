(* One dimensional meshes: src/meshing/MeshUtil.cc, Mesh1d.cc, Mesh1dStructs.cc.
   The arithmetic is a parameter (real numbers or doubles). Simplifications: materials and messages are left out;
   std::sort of the lines is any sorted permutation, std::sort of the regions any permutation. *)
From Coq Require Import String List Bool Arith.
From Verif Require Import StrMap.
Import ListNotations.

(* Abort: dsAssert (the command raises a fatal exception); Fail: the command returns an error;
   Running: the loops have not ended after the given number of rounds *)
Inductive res (A : Type) := Ok (a : A) | Fail | Abort | Running.
Arguments Ok {A} a.
Arguments Fail {A}.
Arguments Abort {A}.
Arguments Running {A}.
Definition rbind {A B} (x : res A) (f : A -> res B) : res B :=
  match x with Ok a => f a | Fail => Fail | Abort => Abort | Running => Running end.

Record num (T : Type) := mknum {
  ltb : T -> T -> bool; leb : T -> T -> bool; zero : T; add : T -> T -> T; sub : T -> T -> T; mul : T -> T -> T; div : T -> T -> T; absv : T -> T;
  powi : T -> nat -> T;      (* std::pow(double, int) *)
  tol : T                    (* MeshUtil.cc:18 *)
}.
Arguments ltb {T}. Arguments leb {T}. Arguments zero {T}. Arguments add {T}. Arguments sub {T}. Arguments mul {T}. Arguments div {T}. Arguments absv {T}.
Arguments powi {T}. Arguments tol {T}.

Section M.
Context {T : Type}.
Variable N : num T.

(* MeshUtil.cc:20-36 equidistance; the points after x *)
Fixpoint equi_loop (fuel : nat) (xh sl x : T) : res (list T) :=
  if ltb N x xh then
    match fuel with
    | O => Running
    | S n => let x1 := add N x sl in
             let x2 := if ltb N (sub N xh (tol N)) x1 then xh else x1 in
             rbind (equi_loop n xh sl x2) (fun l => Ok (x2 :: l))
    end
  else Ok [].
Definition equidistance (fuel : nat) (xl xh sl : T) : res (list T) := rbind (equi_loop fuel xh sl xl) (fun l => Ok (xl :: l)).

(* MeshUtil.cc:38-68 variable; ret.back() is the x of the round before *)
Fixpoint var_loop (fuel : nat) (xh sl sh r : T) (i : nat) (x : T) : res (list T) :=
  if ltb N x xh then
    match fuel with
    | O => Running
    | S n => let x1 := add N x (mul N sl (powi N r i)) in
             if ltb N (sub N xh (tol N)) x1 then
               let tpos := sub N xh sh in
               rbind (var_loop n xh sl sh r (S i) xh) (fun l => Ok ((if ltb N x tpos then [tpos; xh] else [xh]) ++ l))
             else rbind (var_loop n xh sl sh r (S i) x1) (fun l => Ok (x1 :: l))
    end
  else Ok [].
Definition variable (fuel : nat) (xl xh sl sh : T) : res (list T) :=
  let L := sub N xh xl in
  let r := div N (sub N L sl) (sub N L sh) in
  rbind (var_loop fuel xh sl sh r 0 xl) (fun l => Ok (xl :: l)).

(* MeshUtil.cc:70-100 getPoints *)
Definition getPoints (fuel : nat) (xl xh sl sh : T) : res (list T) :=
  if negb (ltb N xl xh) then Abort
  else if ltb N (div N (absv N (sub N sh sl)) sh) (tol N) then equidistance fuel xl xh sl
  else if ltb N (sub N xh sh) (add N xl sl) then equidistance fuel xl xh (sub N xh xl)
  else variable fuel xl xh sl sh.

(* Mesh1dStructs.hh:14-51 *)
Record line := mkline { pos : T; psp : T; nsp : T; ltag : string }.
(* the state of the lines: locations, tagsToIndices, indicesToTags (its keys) *)
Record grid := mkgrid { locs : list T; t2i : smap nat; i2t : list nat }.
(* Mesh1d.cc:66-73, 91-104 the tag of the line at index p *)
Definition set_tag (g : grid) (tag : string) (p : nat) : res grid :=
  if String.eqb tag "" then Ok g
  else if has tag (t2i g) || existsb (Nat.eqb p) (i2t g) then Abort
  else Ok (mkgrid (locs g) (put tag p (t2i g)) (p :: i2t g)).
(* Mesh1d.cc:77-108 the loop over the lines *)
Fixpoint set_lines (fuel : nat) (xl sl : T) (g : grid) (l : list line) : res grid :=
  match l with
  | [] => Ok g
  | a :: t =>
      rbind (getPoints fuel xl (pos a) sl (nsp a)) (fun pts =>
      let locs1 := (locs g ++ tl pts)%list in
      rbind (set_tag (mkgrid locs1 (t2i g) (i2t g)) (ltag a) (length locs1 - 1)) (fun g1 =>
      set_lines fuel (pos a) (psp a) g1 t))
  end.
(* Mesh1d.cc:54-109 SetLocationsAndTags; ps: the lines sorted by position *)
Definition set_locations (fuel : nat) (g : grid) (ps : list line) : res grid :=
  match ps with
  | [] => Abort
  | a :: t => rbind (set_tag (mkgrid (locs g ++ [pos a])%list (t2i g) (i2t g)) (ltag a) 0) (fun g1 => set_lines fuel (pos a) (psp a) g1 t)
  end.

(* Mesh1dStructs.hh:54-78; the indices are set by sortTags *)
Record region := mkregion { rname : string; rtag0 : string; rtag1 : string }.
Record span := mkspan { sname : string; i0 : nat; i1 : nat }.
(* Mesh1dStructs.cc:60-77 sortTags *)
Definition sortTags (t : smap nat) (r : region) : res span :=
  match find (rtag0 r) t, find (rtag1 r) t with
  | Some a, Some b => if Nat.eqb a b then Abort else Ok (if Nat.ltb b a then mkspan (rname r) b a else mkspan (rname r) a b)
  | _, _ => Abort
  end.
Fixpoint rmap {A B} (f : A -> res B) (l : list A) : res (list B) :=
  match l with [] => Ok [] | a :: t => rbind (f a) (fun b => rbind (rmap f t) (fun bs => Ok (b :: bs))) end.
(* Mesh1d.cc:113-122 RegionSort *)
Definition region_sort (a b : span) : res bool := if Nat.ltb (i0 a) (i1 a) && Nat.ltb (i0 b) (i1 b) then Ok (Nat.ltb (i0 a) (i1 b)) else Abort.

Record named := mknamed { nname : string; ntag : string }.   (* contacts and interfaces *)
(* Mesh1d.cc:170-206 the interfaces; result: the index of each interface, in order *)
Fixpoint set_interfaces (t : smap nat) (names : list string) (used : list nat) (l : list named) : res (list nat) :=
  match l with
  | [] => Ok []
  | a :: tl =>
      if existsb (String.eqb (nname a)) names then Fail
      else match find (ntag a) t with
           | None => Fail
           | Some p => if existsb (Nat.eqb p) used then Fail
                       else rbind (set_interfaces t (nname a :: names) (p :: used) tl) (fun ps => Ok (p :: ps))
           end
  end.
(* Mesh1d.cc:213-246 the regions; cpos: the end of the regions before *)
Fixpoint cover (endindex : nat) (ifs : list nat) (cpos : nat) (l : list span) : res nat :=
  match l with
  | [] => Ok cpos
  | a :: t =>
      if negb (Nat.ltb (i0 a) (i1 a)) then Abort
      else if negb (Nat.eqb cpos (i0 a)) then Fail
      else if negb (Nat.eqb (i1 a) endindex) && negb (existsb (Nat.eqb (i1 a)) ifs) then Fail
      else cover endindex ifs (i1 a) t
  end.
(* Mesh1d.cc:125-289 SanityCheckingAndSetInterfaceIndices; result: the indices of the contacts and of the interfaces *)
Definition sanity (g : grid) (contacts interfaces : list named) (rs : list span) : res (list nat * list nat) :=
  let endindex := length (locs g) - 1 in
  match contacts with
  | [c0; c1] =>
      match find (ntag c0) (t2i g), find (ntag c1) (t2i g) with
      | Some p0, Some p1 =>
          if Nat.eqb p0 p1 then Fail
          else if negb ((Nat.eqb p0 0 && Nat.eqb p1 endindex) || (Nat.eqb p1 0 && Nat.eqb p0 endindex)) then Fail
          else rbind (set_interfaces (t2i g) [] [] interfaces) (fun ifs =>
               rbind (cover endindex ifs 0 rs) (fun cpos =>
               if negb (Nat.eqb cpos endindex) && negb (match rs with [] => true | _ => false end) then Fail
               else if existsb (Nat.eqb 0) ifs || existsb (Nat.eqb endindex) ifs then Fail
               else match rs with
                    | [] => Fail
                    | _ => if forallb (fun i => negb (existsb (Nat.eqb i) ifs) || existsb (fun r => Nat.eqb (i0 r) i) rs) (seq 0 (length (locs g)))
                           then Ok ([p0; p1], ifs) else Fail
                    end))
      | _, _ => Abort
      end
  | _ => Fail
  end.

(* the mesh: Mesh1d.hh:43-58 *)
Record mesh := mkmesh { m_lines : list line; m_regions : list region; m_contacts : list named; m_interfaces : list named;
  m_grid : grid; m_spans : list span; m_cidx : list nat; m_iidx : list nat; m_final : bool }.
Definition new_mesh : mesh := mkmesh [] [] [] [] (mkgrid [] [] []) [] [] [] false.
(* the sorts: any order of equal elements *)
Variable sort_lines : list line -> list line.
Variable sort_regions : list span -> list span.
(* Mesh1d.cc:291-369 Finalize_, Mesh.cc:50-64 Finalize; the state of the mesh is returned also after an error.
   dsAssert(indexToInterfaceIndex.empty()) cannot fail before those of the tags when there is an interface (its tag is in the map) *)
Definition finalize (fuel : nat) (m : mesh) : res unit * mesh :=
  if m_final m then (Fail, m)
  else if Nat.ltb (length (m_lines m)) 2 then (Fail, m)
  else match set_locations fuel (m_grid m) (sort_lines (m_lines m)) with
       | Abort => (Abort, m) | Running => (Running, m) | Fail => (Fail, m)
       | Ok g =>
           let m1 := mkmesh (sort_lines (m_lines m)) (m_regions m) (m_contacts m) (m_interfaces m) g (m_spans m) (m_cidx m) (m_iidx m) false in
           match rmap (sortTags (t2i g)) (m_regions m) with
           | Abort => (Abort, m1) | Running => (Running, m1) | Fail => (Fail, m1)
           | Ok rs =>
               match sanity g (m_contacts m) (m_interfaces m) (sort_regions rs) with
               | Abort => (Abort, m1) | Running => (Running, m1) | Fail => (Fail, m1)
               | Ok (cs, ifs) => (Ok tt, mkmesh (m_lines m1) (m_regions m) (m_contacts m) (m_interfaces m) g (sort_regions rs) cs ifs true)
               end
           end
       end.

(* the commands that build the mesh: MeshingCommands.cc:178-231, 312-392, 534-585; mustBePositive and stringCannotBeEmpty: CheckFunctions.cc:17-49.
   Every command checks meshMustNotBeFinalized *)
Inductive command := AddLine (p ps ns : T) (tag : string) | AddRegion (name tag0 tag1 : string)
  | AddContact (name tag : string) | AddInterface (name tag : string) | FinalizeMesh (fuel : nat).
Definition empty (s : string) : bool := String.eqb s "".
Definition exec (c : command) (m : mesh) : res unit * mesh :=
  if m_final m then (Fail, m)
  else match c with
  | AddLine p ps ns tag =>
      if leb N ps (zero N) then (Fail, m)
      else (Ok tt, mkmesh (m_lines m ++ [mkline p ps (if leb N ns (zero N) then ps else ns) tag])%list (m_regions m) (m_contacts m) (m_interfaces m)
                     (m_grid m) (m_spans m) (m_cidx m) (m_iidx m) (m_final m))
  | AddRegion n a b =>
      if empty n || empty a || empty b then (Fail, m)
      else (Ok tt, mkmesh (m_lines m) (m_regions m ++ [mkregion n a b])%list (m_contacts m) (m_interfaces m) (m_grid m) (m_spans m) (m_cidx m) (m_iidx m) (m_final m))
  | AddContact n a =>
      if empty n || empty a then (Fail, m)
      else (Ok tt, mkmesh (m_lines m) (m_regions m) (m_contacts m ++ [mknamed n a])%list (m_interfaces m) (m_grid m) (m_spans m) (m_cidx m) (m_iidx m) (m_final m))
  | AddInterface n a =>
      if empty n || empty a then (Fail, m)
      else (Ok tt, mkmesh (m_lines m) (m_regions m) (m_contacts m) (m_interfaces m ++ [mknamed n a])%list (m_grid m) (m_spans m) (m_cidx m) (m_iidx m) (m_final m))
  | FinalizeMesh fuel => finalize fuel m
  end.
(* a sequence of commands: the result of each and the mesh *)
Fixpoint run (cs : list command) (m : mesh) : list (res unit) * mesh :=
  match cs with [] => ([], m) | c :: t => let (r, m1) := exec c m in let (rs, m2) := run t m1 in (r :: rs, m2) end.

(* Mesh1d.cc:374-469 Instantiate_: the device *)
Record dregion := mkdregion { d_name : string; d_nodes : list nat; d_edges : list (nat * nat) }.   (* nodes: indices of coordinates *)
Record dcontact := mkdcontact { dc_name : string; dc_region : nat; dc_node : nat }.                (* node: index in the region *)
Record dinterface := mkdinterface { di_name : string; di_r0 : nat; di_r1 : nat; di_n0 : nat; di_n1 : nat }.
Record device := mkdevice { dv_coords : list T; dv_regions : list dregion; dv_contacts : list dcontact; dv_interfaces : list dinterface }.
Definition mk_dregion (s : span) : dregion :=
  mkdregion (sname s) (seq (i0 s) (i1 s - i0 s + 1)) (map (fun n => (n - 1, n)) (seq 1 (i1 s - i0 s))).
Definition mk_contact (spans : list span) (c : named) (index : nat) : dcontact :=
  if Nat.eqb index 0 then mkdcontact (nname c) 0 0
  else mkdcontact (nname c) (length spans - 1) (match rev spans with s :: _ => i1 s - i0 s | [] => 0 end).
(* the first interface declared at index p *)
Fixpoint find_interface (p : nat) (l : list (named * nat)) : option named :=
  match l with [] => None | (a, q) :: t => if Nat.eqb p q then Some a else find_interface p t end.
Fixpoint mk_interfaces (ifs : list (named * nat)) (i : nat) (l : list span) : res (list dinterface) :=
  match l with
  | a :: ((b :: _) as t) =>
      match find_interface (i1 a) ifs with
      | None => Abort
      | Some n => rbind (mk_interfaces ifs (S i) t) (fun ds => Ok (mkdinterface (nname n) i (S i) (i1 a - i0 a) 0 :: ds))
      end
  | _ => Ok []
  end.
Fixpoint distinct (l : list string) : bool :=
  match l with [] => true | a :: t => negb (existsb (String.eqb a) t) && distinct t end.
(* Device.cc:74-90 regions and contacts of the same name abort *)
Definition instantiate (m : mesh) : res device :=
  if negb (m_final m) then Fail
  else if negb (distinct (map sname (m_spans m)) && distinct (map nname (m_contacts m))) then Abort
  else rbind (mk_interfaces (combine (m_interfaces m) (m_iidx m)) 0 (m_spans m)) (fun is =>
       Ok (mkdevice (locs (m_grid m)) (map mk_dregion (m_spans m))
             (map (fun p => mk_contact (m_spans m) (fst p) (snd p)) (combine (m_contacts m) (m_cidx m))) is)).
End M.
Arguments mkline {T}. Arguments mkgrid {T}. Arguments mkmesh {T}. Arguments new_mesh {T}.
