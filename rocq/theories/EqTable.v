(* Model of the equation tables of a region (Geometry/Region.cc:1126-1250) and of
   the commands equation and delete_equation (commands/EquationCommands.cc:37-140,
   193-260).  The device and region options are taken as valid; validation of the
   named models is not part of the table and is left out. *)
From Coq Require Import String List Bool Arith.
From Verif Require Import StrMap.
Import ListNotations.

(* Equation/EquationHolder.cc:65 compares the shared pointers: q_id is the identity
   of the object created by an equation command; q_body stands for its other options *)
Record eqn (B : Type) := mkQ { q_name : string; q_var : string; q_body : B; q_id : nat }.
Arguments mkQ {B}. Arguments q_name {B}. Arguments q_var {B}. Arguments q_body {B}. Arguments q_id {B}.

(* Region.hh: equationPointerMap, equationIndexMap, variableEquationMap, numequations *)
Record table (B : Type) := mkT { t_eqs : smap (eqn B); t_idx : smap nat; t_var : smap string; t_num : nat }.
Arguments mkT {B}. Arguments t_eqs {B}. Arguments t_idx {B}. Arguments t_var {B}. Arguments t_num {B}.

Section Table.
Context {B : Type}.
Definition empty : table B := mkT [] [] [] 0.

(* Region.cc:1126-1182 AddEquation; false: FATAL, throws before any change *)
Definition add_equation (t : table B) (q : eqn B) : table B * bool :=
  let nm := q_name q in
  let var := q_var q in
  match find nm (t_eqs t) with
  | Some oq =>
    if Nat.eqb (q_id oq) (q_id q) then (t, true)
    else if negb (String.eqb (q_var oq) var) then
      (mkT (put nm q (t_eqs t)) (t_idx t) (put var nm (erase var (t_var t))) (t_num t), true)
    else (mkT (put nm q (t_eqs t)) (t_idx t) (t_var t) (t_num t), true)
  | None =>
    if has var (t_var t) then (t, false)
    else
      let a := length (t_eqs t) in
      let e := put nm q (t_eqs t) in
      (mkT e (put nm a (t_idx t)) (put var nm (t_var t)) (length e), true)
  end.

(* Region.cc:1186-1214 DeleteEquation; false: dsAssert throws before any change *)
Definition delete_equation (t : table B) (q : eqn B) : table B * bool :=
  let nm := q_name q in
  let var := q_var q in
  match find nm (t_eqs t), find nm (t_idx t), find var (t_var t) with
  | Some _, Some a, Some _ =>
    let e := erase nm (t_eqs t) in
    (mkT e (map (fun p => (fst p, if a <? snd p then snd p - 1 else snd p)) (erase nm (t_idx t)))
       (erase var (t_var t)) (length e), true)
  | _, _, _ => (t, false)
  end.

(* Region.cc:1227-1237 GetEquationIndex, None for size_t(-1);
   1239-1248 GetEquationNameFromVariable, None for "" *)
Definition equation_index (t : table B) (nm : string) : option nat := find nm (t_idx t).
Definition equation_of_variable (t : table B) (v : string) : option string := find v (t_var t).

(* ---- commands ------------------------------------------------------------- *)
Inductive cmd := Equation (name var : string) (body : B) | DeleteEquation (name : string).
(* the [id]-th command; false: the command is an error *)
Definition exec (id : nat) (t : table B) (c : cmd) : table B * bool :=
  match c with
  | Equation nm var b => add_equation t (mkQ nm var b id)
  | DeleteEquation nm => match find nm (t_eqs t) with
                         | None => (t, false)
                         | Some q => delete_equation t q
                         end
  end.
(* run commands; the log holds the accepted ones, oldest first *)
Fixpoint run (id : nat) (t : table B) (cs : list cmd) : table B * list cmd :=
  match cs with
  | nil => (t, nil)
  | c :: r => let (t', ok) := exec id t c in
              let (t'', l) := run (S id) t' r in (t'', if ok then c :: l else l)
  end.
End Table.
Arguments cmd : clear implicits.
