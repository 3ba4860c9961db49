(* Model of custom equations: Data/GlobalData.cc:395-415 (registration), math/Newton.cc:1352-1424
   (AssembleTclEquation), 1427-1490 (AssembleTclEquations) and 359-368 (their loading).
   Python objects and their conversions are those of Options.v.
   Simplifications: what a procedure returns depends only on the two arguments it is given (no side effects on the
   simulator while a system is being assembled); the text of messages is left out; an error of class FATAL is an
   exception (OutputStream.cc:67-73). *)
From Coq Require Import Ascii String List Bool ZArith.
From Verif Require Import StrMap Options Assembly Load.
Import ListNotations.
Open Scope list_scope.

(* MathEnum.hh:11-13; PERMUTATIONSONLY does not reach the custom equations (Newton.cc:346) *)
Inductive what := MATRIXONLY | RHSONLY | MATRIXANDRHS.
Inductive tmode := DC | TIME.

(* MatrixEntries.hh:24, 40-41: rows and columns are int; Newton.cc:229-230, 243-244, 274, 287-288: converted to size_t *)
Definition size_of (z : Z) : nat := Z.to_nat (z mod 2 ^ 64).

Section Custom.
Context {S : Type} (F : scalar S).
Variables (fz : Z -> option S) (is0 : S -> bool) (repr : obj S -> string).
Variables (float_text : string -> option S) (int_text : string -> option Z).
Notation integer := (get_integer S repr int_text).
Notation double := (get_double S fz float_text).
Notation boolean := (get_boolean S is0).

(* ObjectHolder.cc:303-325 GetListOfObjects: any sequence; the items of a text are texts, those of bytes are integers *)
Definition list_of (o : obj S) : option (list (obj S)) :=
  match o with
  | PList l => Some l
  | PStr s => Some (map (fun c => PStr (String c EmptyString)) (list_ascii_of_string s))
  | PBytes s => Some (map (fun c => PInt (Z.of_nat (nat_of_ascii c))) (list_ascii_of_string s))
  | _ => None
  end.
(* Newton.cc:1370-1386 *)
Fixpoint rhs_entries (l : list (obj S)) : out (rhs_list S) :=
  match l with
  | a :: b :: t =>
    match integer a, double b with
    | Some row, Some v => bind (rhs_entries t) (fun r => OK ((size_of row, v) :: r))
    | _, _ => Throw
    end
  | _ => OK []
  end.
(* Newton.cc:1404-1421 *)
Fixpoint mat_entries (l : list (obj S)) : out (mat_list S) :=
  match l with
  | a :: b :: c :: t =>
    match integer a, integer b, double c with
    | Some row, Some col, Some v => bind (mat_entries t) (fun m => OK ((size_of row, size_of col, v) :: m))
    | _, _, _ => Throw
    end
  | _ => OK []
  end.
(* Newton.cc:1357-1387 *)
Definition read_rhs (o : obj S) : out (rhs_list S) :=
  match list_of o with
  | None => Throw
  | Some l => if Nat.eqb (length l mod 2) 0 then rhs_entries l else Throw
  end.
(* Newton.cc:1389-1423 *)
Definition read_mat (o : obj S) : out (mat_list S) :=
  match list_of o with
  | None => Throw
  | Some l => if Nat.eqb (length l mod 3) 0 then mat_entries l else Throw
  end.
(* Newton.cc:1352-1424: what is appended to the two lists *)
Definition assemble_one (w : what) (mo ro : obj S) : out (mat_list S * rhs_list S) :=
  bind (match w with MATRIXONLY => OK [] | _ => read_rhs ro end) (fun r =>
  bind (match w with RHSONLY => OK [] | _ => read_mat mo end) (fun m => OK (m, r))).

Record custom := mkCustom { c_pm : mat_list S; c_pv : rhs_list S; c_m : mat_list S; c_v : rhs_list S }.
(* a registered procedure: None is an exception *)
Definition procedure := what -> tmode -> option (obj S).
(* Newton.cc:1444-1489; the map is in the order of the names *)
Fixpoint assemble_custom (w : what) (t : tmode) (ps : smap procedure) (c : custom) : out custom :=
  match ps with
  | [] => OK c
  | (_, p) :: rest =>
    match p w t with
    | None => Throw
    | Some o =>
      match list_of o with
      | Some [mo; ro; fo] =>
        match boolean fo with
        | None => Throw
        | Some is_bulk =>
          bind (assemble_one w mo ro) (fun '(m, r) =>
          assemble_custom w t rest
            (if is_bulk then mkCustom (c_pm c ++ m) (c_pv c ++ r) (c_m c) (c_v c)
             else mkCustom (c_pm c) (c_pv c) (c_m c ++ m) (c_v c ++ r)))
        end
      | _ => Throw
      end
    end
  end.
(* Newton.cc:307-369 with the custom equations that are registered; base is everything else (its custom lists are not looked at).
   The entries of devices and circuit are loaded before the procedures are called (line 363); an exception leaves no system either way. *)
Definition load_custom (n : nat) (pv : permvec) (base : parts S) (w : what) (t : tmode) (ps : smap procedure) (scl : S) (s : system S) : out (system S) :=
  bind (assemble_custom w t ps (mkCustom [] [] [] [])) (fun c =>
  load_system F n pv (mkParts (p_devices base) (p_circuit base) (c_pm c) (c_pv c) (c_m c) (c_v c)) scl s).
End Custom.

(* GlobalData.cc:395-415 AddTclEquation and EquationCommands.cc:703-712: true is success; an object that cannot be called
   is refused and the registered procedures stay *)
Definition register {P} (callable : bool) (name : string) (p : P) (ps : smap P) : bool * smap P :=
  if callable then (true, put name p ps) else (false, ps).
