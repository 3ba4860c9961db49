(* Model of meshing/TecplotWriter.cc: write_devices(type="tecplot"). *)
From Coq Require Import Ascii String List Bool Arith ZArith DecimalString.
Import ListNotations.
Require Import Verif.StrMap.
Open Scope string_scope.
Open Scope list_scope.
Open Scope nat_scope.
Local Notation text := (list ascii).
Local Notation chars := list_ascii_of_string.
Definition newline : ascii := "010"%char.
Definition space : ascii := " "%char.

(* ---------------------------------------------------------------- TecplotWriter.cc:31-91: BreakLine *)
(* std::string::rfind of a character: the last position not after seek *)
Fixpoint last_index (c : ascii) (t : text) : option nat :=
  match t with
  | [] => None
  | d :: t' => match last_index c t' with Some n => Some (S n) | None => if Ascii.eqb c d then Some 0 else None end
  end.
Definition rfind (c : ascii) (t : text) (seek : nat) : option nat := last_index c (firstn (S seek) t).
(* substr(start, pos - start): when pos < start the count is a huge number *)
Definition piece (t : text) (start pos : nat) : text := if pos <? start then skipn start t else firstn (pos - start) (skipn start t).
(* width: 29999, TecplotWriter.cc:51.  fuel: None means that the loop had not ended *)
Fixpoint break_loop (width fuel : nat) (t : text) (start : nat) : option text :=
  match fuel with
  | O => None
  | S fuel' =>
      let len := length t in
      let seek := start + width in
      let next out start' := if len <=? start' then Some out else option_map (app out) (break_loop width fuel' t start') in
      if len - 1 <? seek then Some (skipn start t)
      else match rfind space t seek with
           | Some pos => next (piece t start pos ++ [newline]) (pos + 1)
           | None =>
               match rfind newline t seek with
               | Some pos => next (piece t start pos ++ [newline]) (pos + 1)
               | None => next (firstn seek (skipn start t) ++ [newline]) (seek + 1)
               end
           end
  end.
(* 30000 is width + 1; every turn of the loop that goes forward takes at least one character *)
Definition break_line (width : nat) (t : text) : option text :=
  match t with [] => Some [] | _ => if length t <? width + 1 then Some t else break_loop width (S (length t)) t 0 end.
Definition width : nat := Z.to_nat 29999.

(* ---------------------------------------------------------------- devices *)
Inductive display := NoDisplay | Scalar | Vector.
(* a model is uniform or has a value for each node or element *)
Inductive values (A : Type) := Uniform (a : A) | Values (l : list A).
Arguments Uniform {A}. Arguments Values {A}.
Definition dec (n : nat) : string := NilEmpty.string_of_uint (Nat.to_uint n).
Section Tecplot.
Variable A : Type.
Variable null : A.
(* operator<< of a double; the program leaves the precision at 6 digits (TecplotWriter.cc:401 is a comment) *)
Variable show : A -> text.
(* the values are those GetScalarValues, GetScalarValuesOnNodes, GetVectorValuesOnNodes and GetScalarValuesOnElements return *)
Record edge_model := { em_display : display; em_scalars : values A; em_vectors : list (A * A * A) }.
Record region := {
  r_nodes : nat;
  r_elements : list (list nat);                     (* the nodes of the edges, triangles or tetrahedra, in the order of the dimension *)
  r_node_models : smap (display * values A);       (* with x, y and z *)
  r_edge_models : smap edge_model;
  r_element_models : smap (display * values A) }.  (* triangle or tetrahedron edge models, none in one dimension *)

(* TecplotWriter.cc:94-106, 108-129: WriteBlock and WriteUniform; a blank between numbers *)
Fixpoint block (l : list A) : text :=
  match l with [] => [] | [a] => show a | a :: l' => show a ++ space :: block l' end.
Definition uniform (n : nat) (a : A) : text := block (repeat a n).
Definition values_block (n : nat) (v : values A) : text := match v with Uniform a => uniform n a | Values l => block l end.
Notation lines := (option text).
Definition both (a b : lines) : lines := match a, b with Some x, Some y => Some (x ++ y) | _, _ => None end.
Definition put_line (t : text) : lines := break_line width (t ++ [newline]).
(* TecplotWriter.cc:131-158: WriteNodeBlock *)
Definition node_block (r : region) (n : string) : lines :=
  put_line (match find n (r_node_models r) with Some (_, v) => values_block (r_nodes r) v | None => uniform (r_nodes r) null end).
(* TecplotWriter.cc:160-188: WriteEdgeBlockScalar *)
Definition edge_block (r : region) (n : string) : lines :=
  put_line (match find n (r_edge_models r) with Some m => values_block (r_nodes r) (em_scalars m) | None => uniform (r_nodes r) null end).
(* TecplotWriter.cc:190-251: WriteTriangleEdgeBlockScalar, WriteTetrahedronEdgeBlockScalar *)
Definition element_block (r : region) (n : string) : lines :=
  put_line (match find n (r_element_models r) with Some (_, v) => values_block (length (r_elements r)) v | None => uniform (length (r_elements r)) null end).
(* TecplotWriter.cc:254-313: WriteEdgeBlockVector; a failed dsAssert ends the program: None *)
Definition component (axis : nat) (p : A * A * A) : A := match axis with 0 => fst (fst p) | 1 => snd (fst p) | _ => snd p end.
Definition vector_block (dim : nat) (r : region) (n : string) : lines :=
  let axes := seq 0 (if 2 <? dim then 3 else if 1 <? dim then 2 else 1) in
  match find n (r_edge_models r) with
  | Some m =>
      match em_display m, em_vectors m with
      | Vector, _ :: _ => fold_right (fun k => both (put_line (flat_map (fun p => space :: show (component k p)) (em_vectors m)))) (Some []) axes
      | _, _ => None
      end
  | None => fold_right (fun _ => both (put_line (uniform (r_nodes r) null))) (Some []) axes
  end.
(* TecplotWriter.cc:349-393: WriteEdges, WriteTriangles, WriteTetrahedra *)
Fixpoint element_line (l : list nat) : text := match l with [] => [newline] | [n] => chars (dec (n + 1)) ++ [newline] | n :: l' => chars (dec (n + 1)) ++ space :: element_line l' end.
Definition all_blocks (f : string -> lines) (l : list string) : lines := fold_right (fun n => both (f n)) (Some []) l.

(* ---------------------------------------------------------------- variables, TecplotWriter.cc:418-600 *)
Notation set := (smap unit).
Definition add (n : string) (s : set) : set := put n tt s.
Definition coordinate (n : string) : bool := String.eqb n "x" || String.eqb n "y" || String.eqb n "z".
(* 436-492: (nodisplay, scalar) *)
Definition collect_node (include : string -> bool) (s : set * set) (p : string * (display * values A)) : set * set :=
  let (n, m) := p in
  if coordinate n then s else if negb (include n) then s
  else match fst m with
       | NoDisplay => if has n (snd s) then s else (add n (fst s), snd s)
       | _ => if has n (fst s) then s else (fst s, add n (snd s))
       end.
(* 494-568: (nodisplay, scalar, vector) *)
Definition collect_edge (include : string -> bool) (s : set * set * set) (p : string * edge_model) : set * set * set :=
  let (n, m) := p in
  let '(nd, sc, ve) := s in
  if negb (include n) then s
  else match em_display m with
       | NoDisplay => if has n ve then s else if has n sc then s else (add n nd, sc, ve)
       | Scalar => if has n ve then s else if has n nd then s else (nd, add n sc, ve)
       | Vector => if has n sc then s else if has n nd then s else (nd, sc, add n ve)
       end.
(* 570-625 *)
Definition collect_element (include : string -> bool) (s : set) (p : string * (display * values A)) : set :=
  if negb (include (fst p)) then s else match fst (snd p) with Scalar => add (fst p) s | _ => s end.
Definition collect (include : string -> bool) (regions : smap region) : set * (set * set) * set :=
  let rs := map snd regions in
  let node := fold_left (fun s r => fold_left (collect_node include) (r_node_models r) s) rs ([], []) in
  let edge := fold_left (fun s r => fold_left (collect_edge include) (r_edge_models r) s) rs ([], [], []) in
  (snd node, (snd (fst edge), snd edge), fold_left (fun s r => fold_left (collect_element include) (r_element_models r) s) rs []).

(* ---------------------------------------------------------------- the file *)
(* Simplified: the lines TITLE, VARIABLES and ZONE are what they say, without their characters *)
Record zone := { z_title : string; z_nodes : nat; z_elements : nat; z_type : string; z_cell : list nat; z_body : text }.
Record file := { f_title : string; f_variables : list string; f_zones : list zone }.
Definition axes (dim : nat) : list string := if dim =? 1 then ["x"] else if dim =? 2 then ["x"; "y"] else ["x"; "y"; "z"].
Definition vector_names (dim : nat) (n : string) : list string := map (fun a => (n ++ "_" ++ a ++ "_onNode")%string) (axes dim).
Definition zone_type (dim : nat) : string := if dim =? 1 then "FELINESEG" else if dim =? 2 then "FETRIANGLE" else "FETETRAHEDRON".
(* 717-765 *)
Definition write_zone (dim : nat) (nodes edges vectors elements : list string) (cell : list nat) (p : string * region) : option zone :=
  let (n, r) := p in
  let body :=
    both (all_blocks (node_block r) (axes dim))
      (both (all_blocks (node_block r) nodes)
        (both (all_blocks (edge_block r) edges)
          (both (all_blocks (vector_block dim r) vectors)
            (both (if (dim =? 2) || (dim =? 3) then all_blocks (element_block r) elements else Some [])
              (Some (flat_map element_line (r_elements r))))))) in
  option_map (fun b => {| z_title := n; z_nodes := r_nodes r; z_elements := length (r_elements r); z_type := zone_type dim; z_cell := cell; z_body := b |}) body.
Fixpoint all_zones (f : string * region -> option zone) (l : smap region) : option (list zone) :=
  match l with [] => Some [] | p :: l' => match f p, all_zones f l' with Some z, Some r => Some (z :: r) | _, _ => None end end.
(* 395-773: WriteSingleDevice; None: the program ends or does not *)
Definition write_tecplot (title : string) (dim : nat) (include : string -> bool) (regions : smap region) : option file :=
  let '(nodes, (edges, vectors), elements) := collect include regions in
  let nodal := axes dim ++ keys nodes ++ keys edges ++ flat_map (vector_names dim) (keys vectors) in
  let cell := seq (length nodal + 1) (length (keys elements)) in
  option_map (fun zs => {| f_title := title; f_variables := nodal ++ keys elements; f_zones := zs |})
    (all_zones (write_zone dim (keys nodes) (keys edges) (keys vectors) (keys elements) cell) regions).
End Tecplot.
