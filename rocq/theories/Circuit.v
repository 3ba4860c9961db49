(* Model of the circuit elements: their creation and alteration by commands
   (commands/CircuitCommands.cc:144-358), their table (Circuit/data/InstanceKeeper.cc)
   and what they load into the system of equations (Circuit/models).
   Scalars are abstract; inv is pow(., -1); nonzero is `!= 0.0`. *)
From Coq Require Import String List Bool Arith.
From Verif Require Import StrMap NodeKeeper Assembly.
Import ListNotations.
Open Scope string_scope.

Definition is_char (c : Ascii.ascii) (s : string) : bool := match s with String d _ => Ascii.eqb c d | _ => false end.
Section Circuit.
Context {S : Type} (F : scalar S) (inv : S -> S) (nonzero : S -> bool).
Notation zero := (s_zero F). Notation one := (s_one F).
Notation "a * b" := (s_mul F a b). Notation "- a" := (s_opp F a).
Notation "a - b" := (s_add F a (s_opp F b)).   (* IEEE: a - b is a + (-b) *)
Notation "a + b" := (s_add F a b).

(* parameters of an element: R, C, L, voltage and its small-signal value, current.
   A source's DCOnly signal is created with its value and only changed by addParam
   (sources/Signal.hh:22-23), so the value is kept instead of the signal. *)
Inductive kind := KR (r : S) | KC (c : S) | KL (l : S) | KV (v re im : S) | KI (i : S).

(* ---- stamps ------------------------------------------------------------------ *)
(* an element holds pointers to its nodes; the internal node only exists for KL and KV *)
Record elem := mkElem { e_kind : kind; e_n1 : node; e_n2 : node; e_int : node }.
(* rows as the code numbers them: None is the number of a ground node, size_t(-1) *)
Definition orhs := list (option nat * S).
Definition omat := list (option nat * option nat * S).
(* the vector of the solution; None would be out of bounds *)
Definition solution := option nat -> S.
(* sol[getNumber()] or 0.0 for a ground node *)
Definition at_terminal (sol : solution) (n : node) : S := if is_ground n then zero else sol (n_num n).
(* if (!isGROUND()) push_back *)
Definition row1 (n : node) (v : S) : orhs := if is_ground n then [] else [(n_num n, v)].
Definition ent (r c : node) (v : S) : omat := if is_ground r then [] else if is_ground c then [] else [(n_num r, n_num c, v)].

(* ideal/IdealResistor.cc:14-56; ideal/IdealCapacitor.cc:15-24 (nothing);
   ideal/IdealInductor.cc:15-67; sources/IdealVoltage.cc:80-116 (the node of the
   current is not tested for ground); sources/IdealCurrent.cc:38-54 *)
Definition dc_rhs (sol : solution) (e : elem) : orhs :=
  let top := e_n1 e in let bot := e_n2 e in let v1 := at_terminal sol top in let v2 := at_terminal sol bot in
  match e_kind e with
  | KR r => let ir := (v1 - v2) * inv r in (row1 bot (- ir) ++ row1 top ir)%list
  | KC _ => []
  | KL _ => let i := at_terminal sol (e_int e) in (row1 (e_int e) (v2 - v1) ++ row1 bot (- i) ++ row1 top i)%list
  | KV v _ _ => let i := sol (n_num (e_int e)) in
      (row1 top i ++ row1 bot (- i) ++ [(n_num (e_int e), (- v + v1) - v2)])%list
  | KI i => (row1 top (- i) ++ row1 bot i)%list
  end.
Definition dc_mat (e : elem) : omat :=
  let top := e_n1 e in let bot := e_n2 e in
  match e_kind e with
  | KR r => let g := inv r in (ent bot top (- g) ++ ent bot bot (- - g) ++ ent top top g ++ ent top bot (- g))%list
  | KC _ => []
  | KL _ => (ent (e_int e) top (- one) ++ ent (e_int e) bot one ++ ent bot (e_int e) (- one) ++ ent top (e_int e) one)%list
  | KV _ _ _ => let i := n_num (e_int e) in
      ((if is_ground top then [] else [(n_num top, i, one); (i, n_num top, one)]) ++
       (if is_ground bot then [] else [(n_num bot, i, - one); (i, n_num bot, - one)]))%list
  | KI _ => []
  end.
(* ideal/IdealCapacitor.cc:27-71, ideal/IdealInductor.cc:70-96; nothing for the others
   (IdealResistor.cc:59-72, IdealVoltage.hh:51, IdealCurrent.hh) *)
Definition tr_rhs (scl : S) (sol : solution) (e : elem) : orhs :=
  let top := e_n1 e in let bot := e_n2 e in
  match e_kind e with
  | KC c => let iq := c * (at_terminal sol top - at_terminal sol bot) in (row1 bot (scl * - iq) ++ row1 top (scl * iq))%list
  | KL l => row1 (e_int e) (scl * (at_terminal sol (e_int e) * l))
  | _ => []
  end.
Definition tr_mat (scl : S) (e : elem) : omat :=
  let top := e_n1 e in let bot := e_n2 e in
  match e_kind e with
  | KC c => (ent bot top (scl * - c) ++ ent bot bot (scl * - - c) ++ ent top top (scl * c) ++ ent top bot (scl * - c))%list
  | KL l => ent (e_int e) (e_int e) (scl * l)
  | _ => []
  end.
(* sources/IdealVoltage.cc:122-131; nothing for the others *)
Definition ac_rhs (e : elem) : list (option nat * (S * S)) :=
  match e_kind e with KV _ re im => [(n_num (e_int e), (re, im))] | _ => [] end.

(* ---- the table of elements --------------------------------------------------- *)
Record inst := mkInst { i_kind : kind; i_n1 : string; i_n2 : string }.
Record ckt := mkCkt { c_nodes : keeper; c_insts : smap inst }.
Definition c_new : ckt := mkCkt k_new [].
Inductive command :=
| CNode (name : string) (u : utype) (value_positive : bool)
| CElement (name n1 n2 : string) (value acreal acimag : S)      (* :144-259 *)
| CAlter (name param : string) (value : S)                      (* :261-358 *)
| CAlias (node alias : string) | CList | CSolve (start : nat) | CDelete.

(* type = name[0], CircuitCommands.cc:183, 210-246 *)
Definition letter (name : string) : element :=
  match name with
  | String c _ =>
    if is_char c "V" || is_char c "v" then EV
    else if is_char c "I" || is_char c "i" then EI
    else if is_char c "C" || is_char c "c" then EC
    else if is_char c "L" || is_char c "l" then EL
    else if is_char c "R" || is_char c "r" then ER
    else EBad
  | EmptyString => EBad
  end.
Definition make (t : element) (v re im : S) : option kind :=
  match t with EV => Some (KV v re im) | EI => Some (KI v) | EC => Some (KC v) | EL => Some (KL v) | ER => Some (KR v) | EBad => None end.
Definition is_v (t : element) : bool := match t with EV => true | _ => false end.

(* addParam: IdealVoltage.cc:134-153, IdealCurrent.cc:56-65, IdealResistor.cc:74-83,
   IdealCapacitor.cc:73-82, IdealInductor.cc:98-107; None is false *)
Definition add_param (k : kind) (p : string) (x : S) : option kind :=
  match k with
  | KR _ => if p =? "R" then Some (KR x) else None
  | KC _ => if p =? "C" then Some (KC x) else None
  | KL _ => if p =? "L" then Some (KL x) else None
  | KV v re im => if p =? "V" then Some (KV x re im) else if p =? "acreal" then Some (KV v x im)
                  else if p =? "acimag" then Some (KV v re x) else None
  | KI _ => if p =? "I" then Some (KI x) else None
  end.
(* CircuitCommands.cc:309-337 *)
Definition param_name (name p : string) : string :=
  let p := if p =? "" then "value" else p in
  if p =? "value" then match letter name with EV => "V" | EI => "I" | EC => "C" | EL => "L" | ER => "R" | EBad => p end else p.

Definition node_command (k : ckt) (c : ccmd) : ckt * bool :=
  let (n, ok) := cexec (c_nodes k) c in (mkCkt n (c_insts k), ok).
(* bool: the command succeeded *)
Definition step (k : ckt) (c : command) : ckt * bool :=
  match c with
  | CNode name u p => node_command k (AddCircuitNode name u p)
  | CAlias n a => node_command k (NodeAlias n a)
  | CList => node_command k NodeList
  | CSolve s => node_command k (Solve s)
  | CDelete => (c_new, true)                       (* :560-578: both tables are deleted *)
  | CElement name n1 n2 v re im =>
    let t := letter name in
    if negb (is_v t) && (nonzero re || nonzero im) then (k, false)
    else
      let (n, ok) := cexec (c_nodes k) (CircuitElement t name n1 n2) in
      match make t v re im with
      | Some ki => if negb ok then (mkCkt n (c_insts k), false)
                   else if has name (c_insts k) then (mkCkt n (c_insts k), false)   (* InstanceKeeper.cc:50 *)
                   else (mkCkt n (put name (mkInst ki n1 n2) (c_insts k)), true)
      | None => (mkCkt n (c_insts k), false)
      end
  | CAlter name p v =>
    match find name (c_insts k) with
    | None => (k, false)
    | Some i => match add_param (i_kind i) (param_name name p) v with
                | Some ki => (mkCkt (c_nodes k) (put name (mkInst ki (i_n1 i) (i_n2 i)) (c_insts k)), true)
                | None => (k, false)
                end
    end
  end.
Fixpoint exec (k : ckt) (cs : list command) : ckt :=
  match cs with nil => k | c :: r => exec (fst (step k c)) r end.

(* the node an element points to; the default is never used (C22_nodes_exist) *)
Definition pointed (k : ckt) (s : string) : node :=
  match find s (k_nodes (c_nodes k)) with Some n => n | None => mkNode NGround UDefault None end.
Definition internal (name : string) : string := name ++ ".I".
Definition elem_of (k : ckt) (p : string * inst) : elem :=
  mkElem (i_kind (snd p)) (pointed k (i_n1 (snd p))) (pointed k (i_n2 (snd p))) (pointed k (internal (fst p))).
Definition elems (k : ckt) : list elem := map (elem_of k) (c_insts k).

(* ---- assembly: InstanceKeeper.cc:73-104, Newton.cc:152-223 --------------------- *)
(* None: a row or column of a ground node, size_t(-1), was produced (out of bounds) *)
Fixpoint all_rows {A} (l : list (option nat * A)) : option (list (nat * A)) :=
  match l with
  | nil => Some []
  | (Some r, v) :: t => option_map (cons (r, v)) (all_rows t)
  | (None, _) :: _ => None
  end.
Fixpoint all_entries (l : omat) : option (mat_list S) :=
  match l with
  | nil => Some []
  | (Some r, Some c, v) :: t => option_map (cons (r, c, v)) (all_entries t)
  | _ => None
  end.
Definition pack (m : omat) (v : orhs) : option (mat_list S * rhs_list S) :=
  match all_entries m, all_rows v with Some m, Some v => Some (m, v) | _, _ => None end.
Definition assemble_dc (k : ckt) (sol : solution) : option (mat_list S * rhs_list S) :=
  pack (flat_map dc_mat (elems k)) (flat_map (dc_rhs sol) (elems k)).
(* scl is 1.0 (Newton.cc:190-200) *)
Definition assemble_tr (k : ckt) (sol : solution) : option (mat_list S * rhs_list S) :=
  pack (flat_map (tr_mat one) (elems k)) (flat_map (tr_rhs one sol) (elems k)).
Definition assemble_ac (k : ckt) : option (list (nat * (S * S))) := all_rows (flat_map ac_rhs (elems k)).
(* Newton.cc:394-397: rhs[row + offset] is assigned *)
Fixpoint set_rhs (rhs : nat -> S * S) (offset : nat) (l : list (nat * (S * S))) : nat -> S * S :=
  match l with
  | nil => rhs
  | (r, v) :: t => set_rhs (fun i => if Nat.eqb i (r + offset)%nat then v else rhs i) offset t
  end.
End Circuit.
Arguments kind : clear implicits. Arguments inst : clear implicits. Arguments ckt : clear implicits.
Arguments elem : clear implicits. Arguments command : clear implicits.
Arguments orhs : clear implicits. Arguments omat : clear implicits. Arguments solution : clear implicits.
