(* Model of get_matrix_and_rhs: commands/MathCommands.cc:264-304 (the format option), math/Newton.cc:521-617
   (GetMatrixAndRHSForExternalUse).  The matrix is the one of CMatrix.v, what is loaded into it that of Load.v.
   Simplifications: the equations are already numbered and the circuit initialised (Numbering.v, NodeKeeper.v); row
   numbers are exact naturals; the arrays are lists (CreateIntPODArray, CreateDoublePODArray). *)
From Coq Require Import Ascii String List Bool Arith ZArith.
From Verif Require Import StrMap Assembly Load CMatrix.
Import ListNotations.
Open Scope list_scope.

Section Export.
Context {S : Type} (F : scalar S) (iszero : S -> bool).

(* Newton.cc:560-564 *)
Record compressed_system := mkComp { x_ap : list nat; x_ai : list nat; x_av : list S; x_rhs : list S }.
(* Newton.cc:520-614 the result *)
Record exported := mkExp { x_static : compressed_system; x_dynamic : compressed_system;
  x_row : list Z; x_copy : list Z; x_format : string }.

(* the entries of one load, added to the matrix one after the other; None is an access out of bounds *)
Definition add_all (ops : mat_list S) : list (op S) := map (fun '(r, c, v) => Add S false r c v) ops.
(* Newton.cc:553-567: load one part into a zero right hand side and the matrix, then Finalize *)
Definition export_part (n : nat) (pv : permvec) (p : parts S) (m : mat S) : out (mat S * compressed_system) :=
  bind (load_system F n pv p (s_one F) (mkSys [] (repeat (s_zero F) n))) (fun s =>
  match run S (s_zero F) (s_add F) iszero (add_all (sy_ops s) ++ [Finalize S]) m with
  | None => UB
  | Some m' => OK (m', mkComp (ap S m') (ai S m') (ax S m' false) (sy_rhs s))
  end).
(* Newton.cc:572-597 *)
Definition export_row (e : pentry) : Z := match fst e with Some r => Z.of_nat r | None => (-1)%Z end.
Definition export_copy (e : pentry) : Z := if snd e then 1%Z else 0%Z.
(* Newton.cc:521-617; isCRM is CompressionType::CRM *)
Definition export (isCRM : bool) (n : nat) (dc time : parts S) : out exported :=
  bind (load_perms (identity n) (p_devices dc)) (fun pv =>
  bind (export_part n pv dc (mnew S n false isCRM)) (fun '(m1, st) =>
  match run S (s_zero F) (s_add F) iszero [Clear S] m1 with          (* line 566 *)
  | None => UB
  | Some m2 =>
    bind (export_part n pv time m2) (fun '(_, dy) =>
    OK (mkExp st dy (map export_row pv) (map export_copy pv) (if isCRM then "csr" else "csc")))
  end)).

(* MathCommands.cc:268-293: None is an error result *)
Definition get_matrix_and_rhs (format : string) (n : nat) (dc time : parts S) : option (out exported) :=
  if String.eqb format "csc" then Some (export false n dc time)
  else if String.eqb format "csr" then Some (export true n dc time)
  else if negb (String.eqb format "") then None
  else Some (export false n dc time).
End Export.
Arguments compressed_system : clear implicits.
Arguments exported : clear implicits.
