(* Edge models computed from node models: the commands edge_from_node_model and edge_average_model
   (src/commands/ModelCommands.cc:594-804), src/models/EdgeFromNodeModel.cc, src/models/EdgeScalarData.cc:19-32,
   src/GeomModels/AverageEdgeModel.cc, src/GeomModels/EdgeInverseLength.cc, src/Geometry/Region.cc:922-958.
   Real numbers; None is an access beyond the end of an array.  The models are evaluated from the present values of
   the node models (when they are evaluated again is the subject of Stale.v); EdgeInverseLength is the built-in model;
   the names of the element edge models are not in the way of the new edge models. *)
From Coq Require Import String List Bool Arith Reals.
From Verif Require Import StrMap Adjacency Geometry Volume.
Import ListNotations.
Open Scope R_scope.

(* AverageEdgeModel.hh, AverageEdgeModel.cc:22-27, 350-372 GetTypeName *)
Inductive avg := Arithmetic | Geometric | Gradient | NegGradient.
Definition type_of_name (s : string) : option avg :=
  if String.eqb "arithmetic" s then Some Arithmetic
  else if String.eqb "geometric" s then Some Geometric
  else if String.eqb "gradient" s then Some Gradient
  else if String.eqb "negative_gradient" s then Some NegGradient
  else None.

(* the edge models of a region: a copy of a node model at the head (false) or tail (true); an average; the derivative
   of an average with respect to the head (false) or tail (true), with the node model of the derivative (None: the
   node model itself is the variable); any other model *)
Inductive emodel :=
| FromNode (tail : bool) (nm : string)
| Average (t : avg) (nm : string)
| Deriv (tail : bool) (t : avg) (nm : string) (dm : option string)
| Other (v : list R).
Record region := mkRegion { r_pos : list vec; r_edges : list simplex; r_node : smap (list R); r_edge : smap emodel }.
Definition head (e : simplex) : nat := nth 0 e 0%nat.
Definition tail (e : simplex) : nat := nth 1 e 0%nat.

(* AverageEdgeModel.cc:106-137 *)
Definition arithmetic (x y : R) : R := / 2 * (x + y).
Definition arithmetic_d (x xd y yd : R) : R * R := (/ 2 * xd, / 2 * yd).
Definition geometric (x y : R) : R := sqrt (x * y).
Definition geometric_d (x xd y yd : R) : R * R :=
  let ratio := sqrt (y / x) in (/ 2 * xd * ratio, / 2 * yd / ratio).
(* AverageEdgeModel.cc:268-291, EdgeInverseLength.cc:30-45 *)
Definition gradient (scl inv x y : R) : R := scl * inv * (y - x).
(* AverageEdgeModel.cc:293-342 *)
Definition gradient_d (scl inv xd yd : R) : R * R := let ev := scl * inv in (- ev * xd, ev * yd).
(* AverageEdgeModel.cc:164-181 *)
Definition mean (t : avg) (inv x y : R) : R :=
  match t with
  | Arithmetic => arithmetic x y
  | Geometric => geometric x y
  | Gradient => gradient 1 inv x y
  | NegGradient => gradient (- 1) inv x y
  end.
(* AverageEdgeModel.cc:205-219 *)
Definition mean_d (t : avg) (inv x xd y yd : R) : R * R :=
  match t with
  | Arithmetic => arithmetic_d x xd y yd
  | Geometric => geometric_d x xd y yd
  | Gradient => gradient_d 1 inv xd yd
  | NegGradient => gradient_d (- 1) inv xd yd
  end.
(* the loops over the edges: AverageEdgeModel.cc:226-266, EdgeScalarData.cc:26-31 *)
Definition on_edges (r : region) (f : simplex -> option R) : option (list R) := opt_list (map f (r_edges r)).
Definition edge_value (r : region) (m : emodel) : option (list R) :=
  match m with
  | FromNode b nm =>
      match find nm (r_node r) with
      | Some v => on_edges r (fun e => nth_error v (if b then tail e else head e))
      | None => None
      end
  | Average t nm =>
      match find nm (r_node r) with
      | Some v => on_edges r (fun e =>
          match nth_error v (head e), nth_error v (tail e) with
          | Some x, Some y => Some (mean t (1 / edge_length (r_pos r) e) x y) | _, _ => None end)
      | None => None
      end
  | Deriv b t nm dm =>
      let pick p := if b then snd p else fst p in
      match find nm (r_node r) with
      | Some v =>
          match dm with
          | None => on_edges r (fun e =>
              match nth_error v (head e), nth_error v (tail e) with
              | Some x, Some y => Some (pick (mean_d t (1 / edge_length (r_pos r) e) x 1 y 1 : R * R)) | _, _ => None end)
          | Some d =>
              match find d (r_node r) with
              | Some w => on_edges r (fun e =>
                  match nth_error v (head e), nth_error v (tail e), nth_error w (head e), nth_error w (tail e) with
                  | Some x, Some y, Some xd, Some yd => Some (pick (mean_d t (1 / edge_length (r_pos r) e) x xd y yd))
                  | _, _, _, _ => None end)
              | None => None
              end
          end
      | None => None
      end
  | Other v => Some v
  end.
(* the values of an edge model, as get_edge_model_values returns them *)
Definition values (r : region) (em : string) : option (list R) :=
  match find em (r_edge r) with Some m => edge_value r m | None => None end.

(* Region.cc:922-958 AddEdgeModel; false: FATAL *)
Definition add_edge_model (r : region) (n : string) (m : emodel) : region * bool :=
  if negb (has n (r_edge r)) && has n (r_node r) then (r, false)
  else (mkRegion (r_pos r) (r_edges r) (r_node r) (put n m (r_edge r)), true).

(* ModelCommands.cc:637-655 edge_from_node_model; EdgeFromNodeModel.cc:29-48.  The flag: no error *)
Definition edge_from_node (r : region) (nm : string) : region * bool :=
  if has nm (r_node r) then
    match add_edge_model r (nm ++ "@n0")%string (FromNode false nm) with
    | (r1, true) => add_edge_model r1 (nm ++ "@n1")%string (FromNode true nm)
    | x => x
    end
  else (r, false).
(* ModelCommands.cc:707-804 edge_average_model (derivative: empty if there is none); AverageEdgeModel.cc:33-104 *)
Definition edge_average (r : region) (nm em ty var : string) : region * bool :=
  if negb (has nm (r_node r)) then (r, false)
  else if negb (String.eqb var "") && negb (has var (r_node r)) then (r, false)
  else match type_of_name ty with
  | None => (r, false)
  | Some t =>
      if String.eqb var "" then add_edge_model r em (Average t nm)
      else
        let dm := if String.eqb var nm then None else Some (nm ++ ":" ++ var)%string in
        match add_edge_model r (em ++ ":" ++ var ++ "@n0")%string (Deriv false t nm dm) with
        | (r1, true) =>
            match add_edge_model r1 (em ++ ":" ++ var ++ "@n1")%string (Deriv true t nm dm) with
            | (r2, true) =>
                (r2, match dm with None => true | Some d => has d (r_node r2) end)
            | x => x
            end
        | x => x
        end
  end.
