(* Reading a Tecplot file (C68): Tecplot data format guide, ASCII files with DATAPACKING=BLOCK. *)
From Coq Require Import Ascii String List Bool Arith ZArith DecimalString.
Import ListNotations.
Require Verif.StrMap.
Require Import Verif.Tecplot.
Open Scope string_scope.
Open Scope list_scope.
Open Scope nat_scope.
Local Notation text := (list ascii).

(* ---- lines ---- *)
(* the same text, with newlines in place of some blanks *)
Definition rewrapped (t t' : text) : Prop := Forall2 (fun c d => d = c \/ c = " "%char /\ d = "010"%char) t t'.
Fixpoint join (ls : list text) : text := match ls with [] => [] | [l] => l | l :: ls' => l ++ "010"%char :: join ls' end.
(* every n + 1 characters in a row have a blank *)
Definition spaced (n : nat) (t : text) : Prop := forall p, p + n < length t -> exists q, p <= q <= p + n /\ nth_error t q = Some " "%char.
Definition separator (c : ascii) : bool := Ascii.eqb c " " || Ascii.eqb c "010".
(* the words between blanks and newlines *)
Fixpoint words (t : text) : list text :=
  match t with
  | [] => []
  | c :: t' =>
      if separator c then words t'
      else match t' with
           | [] => [[c]]
           | d :: _ => if separator d then [c] :: words t' else match words t' with w :: l => (c :: w) :: l | [] => [[c]] end
           end
  end.

(* ---- a zone ---- *)
Definition read_nat (s : string) : option nat := option_map Nat.of_uint (NilEmpty.uint_of_string s).
Definition take (n : nat) (l : list text) : option (list text * list text) := if n <=? length l then Some (firstn n l, skipn n l) else None.
(* the values of each variable: one for each node, or for each element if it is a cell variable; k is the number of the variable, from 1 *)
Fixpoint read_columns (z : zone) (variables : list string) (k : nat) (ws : list text) : option (list (list text) * list text) :=
  match variables with
  | [] => Some ([], ws)
  | _ :: variables' =>
      match take (if existsb (Nat.eqb k) (z_cell z) then z_elements z else z_nodes z) ws with
      | Some (c, ws') => match read_columns z variables' (S k) ws' with Some (cs, r) => Some (c :: cs, r) | None => None end
      | None => None
      end
  end.
(* the number of a node, from 1 *)
Definition read_node (w : text) : option nat := match read_nat (string_of_list_ascii w) with Some (S n) => Some n | _ => None end.
Fixpoint read_list {A B : Type} (f : A -> option B) (l : list A) : option (list B) :=
  match l with [] => Some [] | x :: l' => match f x, read_list f l' with Some y, Some r => Some (y :: r) | _, _ => None end end.
Fixpoint read_elements (n corners : nat) (ws : list text) : option (list (list nat)) :=
  match n with
  | 0 => match ws with [] => Some [] | _ => None end
  | S n' =>
      match take corners ws with
      | Some (e, ws') => match read_list read_node e, read_elements n' corners ws' with Some x, Some r => Some (x :: r) | _, _ => None end
      | None => None
      end
  end.
Definition corners (type : string) : option nat :=
  if String.eqb type "FELINESEG" then Some 2 else if String.eqb type "FETRIANGLE" then Some 3 else if String.eqb type "FETETRAHEDRON" then Some 4 else None.
Definition read_zone (variables : list string) (z : zone) : option (list (list text) * list (list nat)) :=
  match corners (z_type z) with
  | None => None
  | Some k =>
      match read_columns z variables 1 (words (z_body z)) with
      | Some (cs, ws) => match read_elements (z_elements z) k ws with Some e => Some (cs, e) | None => None end
      | None => None
      end
  end.

(* ---- what the file should hold ---- *)
(* a column of the file *)
Inductive column := Coordinate (axis : string) | AtNodes (model : string) | EdgesAtNodes (model : string) | VectorAtNodes (axis : nat) (model : string) | AtElements (model : string).
Definition axis_name (k : nat) : string := match k with 0 => "x" | 1 => "y" | _ => "z" end.
Definition variable (c : column) : string :=
  match c with
  | Coordinate a => a
  | AtNodes n | EdgesAtNodes n | AtElements n => n
  | VectorAtNodes k n => (n ++ "_" ++ axis_name k ++ "_onNode")%string
  end.
Section Values.
Variable A : Type.
Variable null : A.
Definition expand (n : nat) (v : values A) : list A := match v with Uniform a => repeat a n | Values l => l end.
Definition coordinate_of (k : nat) (p : A * A * A) : A := let '(x, y, z) := p in match k with 0 => x | 1 => y | _ => z end.
(* the values of a region; those of a model that the region does not have are zero *)
Definition column_values (r : region A) (c : column) : list A :=
  match c with
  | Coordinate n | AtNodes n => match StrMap.find n (r_node_models A r) with Some (_, v) => expand (r_nodes A r) v | None => repeat null (r_nodes A r) end
  | EdgesAtNodes n => match StrMap.find n (r_edge_models A r) with Some m => expand (r_nodes A r) (em_scalars A m) | None => repeat null (r_nodes A r) end
  | VectorAtNodes k n => match StrMap.find n (r_edge_models A r) with Some m => map (coordinate_of k) (em_vectors A m) | None => repeat null (r_nodes A r) end
  | AtElements n => match StrMap.find n (r_element_models A r) with Some (_, v) => expand (length (r_elements A r)) v | None => repeat null (length (r_elements A r)) end
  end.
Definition sized (n : nat) (v : values A) : Prop := match v with Uniform _ => True | Values l => length l = n end.
(* a region of the device as the program keeps it *)
Record region_of (dim : nat) (r : region A) : Prop := {
  p_nodes : 1 <= r_nodes A r;
  p_elements : Forall (fun e => length e = S dim) (r_elements A r);
  p_node : forall n d v, In (n, (d, v)) (r_node_models A r) -> sized (r_nodes A r) v /\ d <> Vector;
  p_edge : forall n m, In (n, m) (r_edge_models A r) -> sized (r_nodes A r) (em_scalars A m) /\ length (em_vectors A m) = r_nodes A r;
  p_element : forall n d v, In (n, (d, v)) (r_element_models A r) -> sized (length (r_elements A r)) v;
  p_line : dim = 1 -> r_element_models A r = [];
  p_names : NoDup (map fst (r_node_models A r)) /\ NoDup (map fst (r_edge_models A r)) /\ NoDup (map fst (r_element_models A r)) }.
(* the first region, in the order of the names, that has the model *)
Definition first_display {M : Type} (models : region A -> StrMap.smap M) (display_of : M -> display) (n : string) (regions : list (region A)) (d : display) : Prop :=
  exists before r after m, regions = before ++ r :: after /\ (forall q, In q before -> ~ In n (map fst (models q))) /\ In (n, m) (models r) /\ display_of m = d.
(* a model written as a vector is a vector model in every region that has it *)
Definition consistent (regions : list (region A)) : Prop :=
  forall n, first_display (r_edge_models A) (em_display A) n regions Vector -> forall r m, In r regions -> In (n, m) (r_edge_models A r) -> em_display A m = Vector.
Definition column_of (dim : nat) (include : string -> bool) (regions : list (region A)) (c : column) : Prop :=
  match c with
  | Coordinate a => exists k, k < dim /\ a = axis_name k
  | AtNodes n => ~ In n ["x"; "y"; "z"] /\ include n = true /\ first_display (r_node_models A) fst n regions Scalar
  | EdgesAtNodes n => include n = true /\ first_display (r_edge_models A) (em_display A) n regions Scalar
  | VectorAtNodes k n => k < dim /\ include n = true /\ first_display (r_edge_models A) (em_display A) n regions Vector
  | AtElements n => include n = true /\ exists r v, In r regions /\ In (n, (Scalar, v)) (r_element_models A r)
  end.
End Values.
