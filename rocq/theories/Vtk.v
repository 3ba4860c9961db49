(* Model of meshing/VTKWriter.cc: write_devices(type="vtk"). *)
From Coq Require Import Ascii String List Bool Arith ZArith DecimalString.
From Flocq Require Import IEEE754.Bits.
Import ListNotations.
Require Import Verif.StrMap Verif.VtkArray.
Open Scope list_scope.
Open Scope string_scope.
Local Notation text := (list ascii).
Local Notation chars := list_ascii_of_string.

(* models: the display type, NodeModel.hh:43, EdgeModel.hh:50, TriangleEdgeModel.hh:47 and TetrahedronEdgeModel.hh:48; UNKNOWN is never
   given to a model by the commands *)
Inductive display := NoDisplay | Scalar | Vector.
(* what the writer asks a region for; the values are those GetScalarValues (uniform models expanded), GetScalarValuesOnNodes,
   GetVectorValuesOnNodes and GetScalarValuesOnElements return. Simplified: the values are there, evaluating a model cannot fail. *)
Record edge_model := { em_display : display; em_scalars : list binary64; em_vectors : list (binary64 * binary64 * binary64) }.
Record region := {
  r_dim : nat;
  r_nodes : list (binary64 * binary64 * binary64);
  r_edges : list (nat * nat);                 (* index of head and tail *)
  r_tris : list (nat * nat * nat);
  r_tets : list (nat * nat * nat * nat);
  r_node_models : smap (display * list binary64);
  r_edge_models : smap edge_model;
  r_tri_models : smap (display * list binary64);
  r_tet_models : smap (display * list binary64) }.

(* what is written: tags with their attributes, the ends of tags and the characters between. Simplified: the XML declaration and the
   line ends between tags are left out; names are written as they are (the program does not escape <, & and quotation marks), so that
   this is the meaning of the file for names without these characters. *)
Inductive item := Open (tag : string) (attributes : list (string * string)) | Close (tag : string) | Chars (t : text).
Definition dec (n : nat) : string := NilEmpty.string_of_uint (Nat.to_uint n).
Definition newline : ascii := "010"%char.

Section Vtk.
Variable compress : list Z -> list Z.

(* VTKWriter.cc:51-68: WriteDataArray *)
Definition data_array (values : list binary64) (name : string) (components : nat) : list item :=
  [Open "DataArray" (("type", "Float64") :: (if String.eqb name "" then [] else [("Name", name)]) ++ (if Nat.eqb components 1 then [] else [("NumberOfComponents", dec components)]) ++ [("format", "binary")]);
   Chars (zlib_base64 compress values ++ [newline]); Close "DataArray"].
Definition coordinates (l : list (binary64 * binary64 * binary64)) : list binary64 := flat_map (fun p => [fst (fst p); snd (fst p); snd p]) l.
(* VTKWriter.cc:70-88: WritePoints *)
Definition write_points (r : region) : list item := Open "Points" [] :: data_array (coordinates (r_nodes r)) "" 3 ++ [Close "Points"].
(* VTKWriter.cc:108-131, 200-227, 229-249: a loop on models with one array for a displayed scalar *)
Definition write_scalars (include : string -> bool) (l : smap (display * list binary64)) : list item :=
  flat_map (fun p => if include (fst p) then match fst (snd p) with Scalar => data_array (snd (snd p)) (fst p) 1 | _ => [] end else []) l.
(* VTKWriter.cc:90-187: WritePointData; include_test is not called for vectors *)
Definition write_point_data (r : region) (include : string -> bool) : list item :=
  match r_node_models r, r_edge_models r with
  | [], [] => []
  | _, _ =>
      Open "PointData" [] :: write_scalars include (r_node_models r) ++
      flat_map (fun p => if include (fst p) then match em_display (snd p) with Scalar => data_array (em_scalars (snd p)) (fst p) 1 | _ => [] end else []) (r_edge_models r) ++
      flat_map (fun p => match em_display (snd p) with Vector => data_array (coordinates (em_vectors (snd p))) (fst p) 3 | _ => [] end) (r_edge_models r) ++
      [Close "PointData"]
  end.
(* VTKWriter.cc:189-252: WriteElementData; include_test is not called for tetrahedra *)
Definition write_element_data (r : region) (include : string -> bool) : list item :=
  match r_tri_models r, r_tet_models r with
  | [], [] => []
  | _, _ => Open "CellData" [] :: write_scalars include (r_tri_models r) ++ write_scalars (fun _ => true) (r_tet_models r) ++ [Close "CellData"]
  end.
(* VTKWriter.cc:254-296, 298-343, 345-391: WriteLines, WriteTriangles, WriteTetrahedrons; nodes are the nodes of each element, k their
   number and type the number of the type *)
Definition ints (l : list nat) : text := flat_map (fun n => " "%char :: chars (dec n)) l.
Definition int_array (type name : string) (l : list nat) : list item :=
  [Open "DataArray" [("type", type); ("Name", name); ("format", "ascii")]; Chars (ints l ++ [newline]); Close "DataArray"].
Fixpoint offsets (off k : nat) (n : nat) : list nat := match n with O => [] | Datatypes.S n' => off :: offsets (off + k) k n' end.
Definition write_cells (k type : nat) (nodes : list (list nat)) : list item :=
  Open "Cells" [] :: int_array "Int32" "connectivity" (concat nodes) ++ int_array "Int32" "offsets" (offsets k k (length nodes)) ++
  int_array "UInt8" "types" (map (fun _ => type) nodes) ++ [Close "Cells"].
Definition write_lines (r : region) : list item := write_cells 2 3 (map (fun e => [fst e; snd e]) (r_edges r)).
Definition write_triangles (r : region) : list item := write_cells 3 5 (map (fun t => [fst (fst t); snd (fst t); snd t]) (r_tris r)).
Definition write_tetrahedrons (r : region) : list item := write_cells 4 10 (map (fun t => [fst (fst (fst t)); snd (fst (fst t)); snd (fst t); snd t]) (r_tets r)).
(* VTKWriter.cc:393-448: WriteRegionWithEdgeData *)
Definition num_cells (r : region) : nat :=
  if Nat.eqb (r_dim r) 1 then length (r_edges r) else if Nat.eqb (r_dim r) 2 then length (r_tris r) else if Nat.eqb (r_dim r) 3 then length (r_tets r) else 0.
Definition write_region (r : region) (include : string -> bool) : list item :=
  Open "Piece" [("NumberOfPoints", dec (length (r_nodes r))); ("NumberOfCells", dec (num_cells r))] ::
  write_points r ++
  (if Nat.eqb (r_dim r) 1 then write_lines r else if Nat.eqb (r_dim r) 2 then write_triangles r else if Nat.eqb (r_dim r) 3 then write_tetrahedrons r else []) ++
  write_point_data r include ++
  (if Nat.eqb (r_dim r) 2 || Nat.eqb (r_dim r) 3 then write_element_data r include else []) ++
  [Close "Piece"].
(* VTKWriter.cc:34-49: WriteHeader and WriteFooter, and 509-524 *)
Definition write_vtu (r : region) (include : string -> bool) : list item :=
  [Open "VTKFile" [("type", "UnstructuredGrid"); ("version", "0.1"); ("byte_order", "LittleEndian"); ("compressor", "vtkZLibDataCompressor")]; Open "UnstructuredGrid" []] ++
  write_region r include ++ [Close "UnstructuredGrid"; Close "VTKFile"].

(* ---- files ---- *)
Inductive file := Xml (l : list item) | Lines (l : list text).
Local Notation files := (string -> option file).
(* std::ofstream: a file that can be opened is truncated and gets what is written; when it cannot be opened what is written is lost
   and fail() is true, but bad() is not, and it is bad() that is asked (VTKWriter.cc:477, 482, 509) *)
Variable can_open : string -> bool.
Definition write (name : string) (f : file) (fs : files) : files := if can_open name then fun n => if String.eqb n name then Some f else fs n else fs.
Definition bad : bool := false.
(* VTKWriter.cc:499-529: the loop on regions; the result is the names of the files, or None for a failure *)
Fixpoint write_regions (filename : string) (include : string -> bool) (i : nat) (l : list region) (fs : files) : files * option (list string) :=
  match l with
  | [] => (fs, Some [])
  | r :: l' =>
      let name := filename ++ "_" ++ dec i ++ ".vtu" in
      if bad then (fs, None)
      else let fs' := write name (Xml (write_vtu r include)) fs in
           let out := write_regions filename include (i + 1) l' fs' in
           (fst out, option_map (cons name) (snd out))
  end.
(* VTKWriter.cc:531-551: the .vtm and .visit files *)
Fixpoint data_sets (i : nat) (l : list string) : list item :=
  match l with [] => [] | f :: l' => [Open "DataSet" [("group", dec i); ("dataset", "0"); ("file", f)]; Close "DataSet"] ++ data_sets (i + 1) l' end.
Definition vtm (l : list string) : list item :=
  [Open "VTKFile" [("type", "vtkMultiBlockDataSet"); ("version", "0.1"); ("byte_order", "LittleEndian"); ("compressor", "vtkZLibDataCompressor")]; Open "vtkMultiBlockDataSet" []] ++
  data_sets 0 l ++ [Close "vtkMultiBlockDataSet"; Close "VTKFile"].
Definition visit (l : list string) : list text := chars ("!NBLOCKS " ++ dec (length l)) :: map chars l.
(* VTKWriter.cc:451-560: WriteSingleDevice; the regions of the device in the order of their names *)
Definition write_single_device (device : option (smap region)) (filename : string) (include : string -> bool) (fs : files) : files * bool :=
  match device with
  | None => (fs, false)
  | Some regions =>
      let vtmname := filename ++ ".vtm" in let visitname := filename ++ ".visit" in
      let fs1 := write visitname (Lines []) (write vtmname (Xml []) fs) in
      if bad then (fs1, false)
      else let out := write_regions filename include 0 (map snd regions) fs1 in
           match snd out with
           | Some names => (write visitname (Lines (visit names)) (write vtmname (Xml (vtm names)) (fst out)), true)
           | None => (fst out, false)
           end
  end.
(* VTKWriter.cc:567-576 and 578-597: WriteMesh_ and WriteMeshes_; MeshingCommands.cc:834-842: without device option all devices *)
Definition write_vtk (devices : smap (smap region)) (device filename : string) (include : string -> bool) (fs : files) : files * bool :=
  if String.eqb device "" then
    match devices with
    | [] => (fs, true)
    | [d] => write_single_device (Some (snd d)) filename include fs
    | _ => (fs, false)
    end
  else write_single_device (find device devices) filename include fs.
End Vtk.
