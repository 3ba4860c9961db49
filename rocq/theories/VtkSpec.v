(* Reading the files of VTK (C67): https://docs.vtk.org, XML file formats. *)
From Coq Require Import Ascii String List Bool Arith ZArith DecimalString.
From Flocq Require Import IEEE754.Bits.
Import ListNotations.
Require Import Verif.VtkArraySpec Verif.Vtk.
Open Scope string_scope.
Open Scope list_scope.
Open Scope nat_scope.
Local Notation text := (list ascii).

(* ---- elements ---- *)
Inductive tree := Elem (tag : string) (attributes : list (string * string)) (content : list tree) (t : text).
Fixpoint parse (l : list item) (open : list (string * list (string * string) * list tree * text)) : option tree :=
  match l, open with
  | Open n a :: l', _ => parse l' ((n, a, [], []) :: open)
  | Chars t :: l', (n, a, k, x) :: open' => parse l' ((n, a, k, (x ++ t)%list) :: open')
  | Close n :: l', (n', a, k, x) :: open' =>
      if String.eqb n n' then
        match open' with
        | [] => match l' with [] => Some (Elem n a k x) | _ => None end
        | (m, b, k', x') :: open'' => parse l' ((m, b, (k' ++ [Elem n a k x])%list, x') :: open'')
        end
      else None
  | _, _ => None
  end.
Definition tag_of (e : tree) : string := let '(Elem n _ _ _) := e in n.
Definition children (e : tree) : list tree := let '(Elem _ _ k _) := e in k.
Definition text_of (e : tree) : text := let '(Elem _ _ _ t) := e in t.
Definition attribute (name : string) (e : tree) : option string := let '(Elem _ a _ _) := e in option_map snd (find (fun p => String.eqb name (fst p)) a).
Definition child (name : string) (e : tree) : option tree := find (fun k => String.eqb name (tag_of k)) (children e).
Definition is (a : option string) (v : string) : bool := match a with Some s => String.eqb s v | None => false end.
Definition bind {A B : Type} (o : option A) (f : A -> option B) : option B := match o with Some a => f a | None => None end.
Definition check (b : bool) : option unit := if b then Some tt else None.
Local Notation "x <- a ; b" := (bind a (fun x => b)) (at level 61, right associativity, a at next level).
Fixpoint all {A B : Type} (f : A -> option B) (l : list A) : option (list B) :=
  match l with [] => Some [] | x :: l' => y <- f x; r <- all f l'; Some (y :: r) end.

(* ---- numbers in decimal ---- *)
Definition read_nat (s : string) : option nat := option_map Nat.of_uint (NilEmpty.uint_of_string s).
Definition blank (c : ascii) : bool := Ascii.eqb c " " || Ascii.eqb c "010".
(* the words between blanks *)
Fixpoint words (t : text) : list text :=
  match t with
  | [] => []
  | c :: t' =>
      if blank c then words t'
      else match t' with
           | [] => [[c]]
           | d :: _ => if blank d then [c] :: words t' else match words t' with w :: l => (c :: w) :: l | [] => [[c]] end
           end
  end.
Definition read_nats (t : text) : option (list nat) := all (fun w => read_nat (string_of_list_ascii w)) (words t).

(* ---- the file of a region ---- *)
Record grid := { g_points : list (binary64 * binary64 * binary64); g_cells : list (nat * list nat); g_point_data : list (string * nat * list binary64); g_cell_data : list (string * nat * list binary64) }.
Section Reader.
Variable decompress : list Z -> option (list Z).
Definition read_data (e : tree) : option (string * nat * list binary64) :=
  _ <- check (String.eqb (tag_of e) "DataArray" && is (attribute "type" e) "Float64" && is (attribute "format" e) "binary");
  v <- read_doubles decompress (filter (fun c => negb (blank c)) (text_of e));
  c <- match attribute "NumberOfComponents" e with Some s => read_nat s | None => Some 1 end;
  Some (match attribute "Name" e with Some n => n | None => "" end, c, v).
Definition read_ints (name : string) (e : tree) : option (list nat) :=
  a <- find (fun k => String.eqb (tag_of k) "DataArray" && is (attribute "Name" k) name) (children e);
  _ <- check (is (attribute "format" a) "ascii");
  read_nats (text_of a).
Fixpoint triples (l : list binary64) : option (list (binary64 * binary64 * binary64)) :=
  match l with [] => Some [] | x :: y :: z :: l' => option_map (cons (x, y, z)) (triples l') | _ => None end.
(* offsets are the ends of the cells in connectivity *)
Fixpoint cells (start : nat) (conn offs types : list nat) : option (list (nat * list nat)) :=
  match offs, types with
  | [], [] => match conn with [] => Some [] | _ => None end
  | o :: offs', t :: types' =>
      _ <- check ((start <=? o) && (o - start <=? length conn));
      r <- cells o (skipn (o - start) conn) offs' types'; Some ((t, firstn (o - start) conn) :: r)
  | _, _ => None
  end.
(* the arrays of a section, n values each *)
Definition read_section (name : string) (n : nat) (e : tree) : option (list (string * nat * list binary64)) :=
  match child name e with
  | None => Some []
  | Some s =>
      l <- all read_data (children s);
      _ <- check (forallb (fun a => length (snd a) =? snd (fst a) * n) l);
      Some l
  end.
Definition read_vtu (l : list item) : option grid :=
  root <- parse l [];
  _ <- check (String.eqb (tag_of root) "VTKFile" && is (attribute "type" root) "UnstructuredGrid" && is (attribute "byte_order" root) "LittleEndian" && is (attribute "compressor" root) "vtkZLibDataCompressor");
  ug <- child "UnstructuredGrid" root;
  piece <- child "Piece" ug;
  np <- bind (attribute "NumberOfPoints" piece) read_nat;
  nc <- bind (attribute "NumberOfCells" piece) read_nat;
  points <- child "Points" piece;
  parray <- child "DataArray" points;
  pdata <- read_data parray;
  _ <- check (snd (fst pdata) =? 3);
  pts <- triples (snd pdata);
  _ <- check (length pts =? np);
  cs <- child "Cells" piece;
  conn <- read_ints "connectivity" cs;
  offs <- read_ints "offsets" cs;
  types <- read_ints "types" cs;
  cl <- cells 0 conn offs types;
  _ <- check ((length cl =? nc) && forallb (fun c => forallb (fun i => i <? np) (snd c)) cl);
  pd <- read_section "PointData" np piece;
  cd <- read_section "CellData" nc piece;
  Some {| g_points := pts; g_cells := cl; g_point_data := pd; g_cell_data := cd |}.
End Reader.
(* the names in a .vtm file *)
Definition read_vtm (l : list item) : option (list string) :=
  root <- parse l [];
  _ <- check (String.eqb (tag_of root) "VTKFile" && is (attribute "type" root) "vtkMultiBlockDataSet");
  mb <- child "vtkMultiBlockDataSet" root;
  all (attribute "file") (filter (fun k => String.eqb (tag_of k) "DataSet") (children mb)).

(* ---- what a region is in VTK: lines, triangles or tetrahedra (3, 5, 10) and the values of the models displayed ---- *)
Definition cells_of (r : region) : list (nat * list nat) :=
  match r_dim r with
  | 1 => map (fun '(a, b) => (3, [a; b])) (r_edges r)
  | 2 => map (fun '(a, b, c) => (5, [a; b; c])) (r_tris r)
  | 3 => map (fun '(a, b, c, d) => (10, [a; b; c; d])) (r_tets r)
  | _ => []
  end.
(* every model has a value for each node or element, elements have nodes of the region, models have names *)
Record proper (r : region) : Prop := {
  p_dim : 1 <= r_dim r <= 3;
  p_cells : Forall (fun c => Forall (fun i => i < length (r_nodes r)) (snd c)) (cells_of r);
  p_node : Forall (fun p => fst p <> "" /\ length (snd (snd p)) = length (r_nodes r)) (r_node_models r);
  p_edge : Forall (fun p => fst p <> "" /\ length (em_scalars (snd p)) = length (r_nodes r) /\ length (em_vectors (snd p)) = length (r_nodes r)) (r_edge_models r);
  p_tri : Forall (fun p => fst p <> "" /\ length (snd (snd p)) = length (cells_of r)) (r_tri_models r);
  p_tet : Forall (fun p => fst p <> "" /\ length (snd (snd p)) = length (cells_of r)) (r_tet_models r) }.
Definition scalar (d : display) : bool := match d with Scalar => true | _ => false end.
Definition vector (d : display) : bool := match d with Vector => true | _ => false end.
(* zlib: what was compressed can be decompressed *)
Record zlib (compress : list Z -> list Z) (decompress : list Z -> option (list Z)) : Prop := {
  z_back : forall l, Forall (fun b => (0 <= b < 256)%Z) l -> decompress (compress l) = Some l;
  z_bytes : forall l, Forall (fun b => (0 <= b < 256)%Z) (compress l);
  z_size : forall l, (Z.of_nat (length l) <= 32768)%Z -> (Z.of_nat (length (compress l)) < 2 ^ 32)%Z }.
(* a name in a file is relative to the directory of this file *)
Definition slash : ascii := "/"%char.
Fixpoint directory (f : text) : text := match f with [] => [] | c :: f' => if existsb (Ascii.eqb slash) f then c :: directory f' else [] end.
Definition resolve (from name : string) : string :=
  match list_ascii_of_string name with c :: _ => if Ascii.eqb c slash then name else (string_of_list_ascii (directory (list_ascii_of_string from)) ++ name)%string | [] => name end.
