(* Evaluation of model expressions: src/AutoEquation/ModelExprEval.cc, ModelExprData.cc and the calculation of the
   expression models (NodeExprModel.cc, EdgeExprModel.cc, TriangleEdgeExprModel.cc, TetrahedronEdgeExprModel.cc).

   Simplifications: the parsed expression (EngineAPI, an external library) is the tree expr and getStringValue is the
   function key; a model that is not found is 0.0 (the substitution of @en0 by @n0 is in Stale.v); an unknown function
   or a wrong number of arguments is an error whatever the length of the data; a floating point exception of a
   function at any element raises the flag (Parallel.v); an object that refers to the vector of a model (refdata) has a
   copy of it; circuit nodes and parameters are var. *)
From Coq Require Import String List Bool Arith.
From Verif Require Import StrMap ModelData.
Import ListNotations.
Open Scope list_scope.

(* ModelExprData.hh:76-83 datatype *)
Inductive kind := Node | Edge | Tri | Tet.
Definition kind_eqb (a b : kind) : bool :=
  match a, b with Node, Node | Edge, Edge | Tri, Tri | Tet, Tet => true | _, _ => false end.

Section E.
Variable V : Type.
Variables (zero one : V) (add mul : V -> V -> V) (is0 : V -> bool) (lt : V -> V -> bool).
(* operands for which the operation raises overflow, invalid or division by zero (FPECheck.cc:66-69) *)
Variables (bad_add bad_mul : V -> V -> bool).
Variable of_nat : nat -> V.
(* MathEval.cc: function by name and number of arguments; the flag is a floating point exception *)
Variable fn : string -> nat -> option (list V -> V * bool).
Variable var : string -> option V.
(* Region: number of triangles, edge of each slot of the triangles (3 per triangle) and of the tetrahedra (6 each) *)
Variable ntri : nat.
Variables (tri_edge tet_edge : list nat).

(* EngineAPI: the types evaluated in ModelExprEval.cc:427-458 *)
Inductive expr :=
| Const (v : V)
| Var (s : string)
| Model (s : string)
| Prod (l : list expr)
| Sum (l : list expr)
| If (t a : expr)
| IfElse (t a b : expr)
| Fun (f : string) (l : list expr).
Variable key : expr -> string.

(* ModelExprData.hh:175-186: the data are held by shared pointers: copies of a ModelExprData share the object (heap) *)
Inductive data := Inv | Dbl (v : V) | Dat (k : kind) (p : nat).
(* an expression model: of kind m_kind, at the contact indexes m_idx (empty: not a contact model) *)
Inductive body := Done (c : cell V) | Pending (e : expr).
Record mdl := mkMd { m_kind : kind; m_idx : list nat; m_body : body }.
(* cache: Region::modelExprDataCache, shared by the evaluations in progress; err: the list of errors of the model under
   evaluation is not empty; fpe: floating point exception flag *)
Record st := mkSt { heap : list (cell V); cache : list (string * data); mods : smap mdl; err : bool; fpe : bool }.
(* Throw: FATAL or dsAssert; UB: undefined behavior; NoFuel: bound on the recursion of this model *)
Inductive res (A : Type) := Ok (a : A) | Throw | UB | NoFuel.
Arguments Ok {A}. Arguments Throw {A}. Arguments UB {A}. Arguments NoFuel {A}.

Definition set_heap (s : st) (h : list (cell V)) : st := mkSt h (cache s) (mods s) (err s) (fpe s).
Definition set_cache (s : st) (c : list (string * data)) : st := mkSt (heap s) c (mods s) (err s) (fpe s).
Definition set_mods (s : st) (m : smap mdl) : st := mkSt (heap s) (cache s) m (err s) (fpe s).
Definition set_err (s : st) (b : bool) : st := mkSt (heap s) (cache s) (mods s) b (fpe s).
Definition set_fpe (s : st) (b : bool) : st := mkSt (heap s) (cache s) (mods s) (err s) b.
Definition get (s : st) (p : nat) : cell V := nth p (heap s) (Vals []).
Definition alloc (s : st) (c : cell V) : st * nat := (set_heap s (heap s ++ [c]), length (heap s)).
Definition raise (s : st) (b : bool) : st := set_fpe s (fpe s || b).

(* ModelExprData.cc:194-282 convertToTriangleEdgeData, convertToTetrahedronEdgeData on edge data.
   The number of elements of a uniform value on tetrahedra is computed from the number of TRIANGLES (260).
   None: there are no elements; the type stays EDGEDATA and the new pointer is null. *)
Definition conv (k : kind) (c : cell V) : option (cell V) :=
  match k, c with
  | Tri, Uni v _ => Some (Uni v (3 * ntri))
  | Tet, Uni v _ => Some (Uni v (6 * ntri))
  | Tri, Vals l => match tri_edge with [] => None | _ => Some (Vals (map (fun e => nth e l zero) tri_edge)) end
  | Tet, Vals l => match tet_edge with [] => None | _ => Some (Vals (map (fun e => nth e l zero) tet_edge)) end
  | _, _ => None
  end.

(* ScalarData.cc:136-174 op_equal_data, op_equal_scalar with the exceptions they raise *)
Definition bad_scalar (bad : V -> V -> bool) (c : cell V) (v : V) : bool :=
  match c with Uni u _ => bad u v | Vals l => existsb (fun x => bad x v) l end.
Definition bad_data (bad : V -> V -> bool) (c d : cell V) : bool :=
  match c, d with
  | Uni u _, Uni v _ => bad u v
  | _, Uni v _ => bad_scalar bad c v
  | _, Vals l => existsb (fun p => bad (fst p) (snd p)) (combine (elems V c) l)
  end.
Definition op_cell (op : V -> V -> V) (bad : V -> V -> bool) (s : st) (p : nat) (d : cell V) (r : data) : st * res data :=
  match op_data V op (get s p) d with
  | Some c' => (raise (set_heap s (put_at (heap s) p c')) (bad_data bad (get s p) d), Ok r)
  | None => (s, UB)
  end.
(* ModelExprData.cc:284-470 op_equal: node_op_equal, edge_op_equal, triangle_edge_op_equal, tetrahedron_edge_op_equal,
   double_op_equal; a is modified, the object it points to too *)
Definition op_equal (op : V -> V -> V) (bad : V -> V -> bool) (s : st) (a b : data) : st * res data :=
  match a, b with
  | Inv, _ => (s, Ok Inv)
  | _, Inv => (s, Ok Inv)
  | Dbl x, Dbl y => (raise s (bad x y), Ok (Dbl (op x y)))
  | Dbl x, Dat k q => let '(s', p) := alloc s (Uni x (clen V (get s q))) in op_cell op bad s' p (get s q) (Dat k p)
  | Dat k p, Dbl y => (raise (set_heap s (put_at (heap s) p (op_scalar V op (get s p) y))) (bad_scalar bad (get s p) y), Ok (Dat k p))
  | Dat k p, Dat k' q =>
      if kind_eqb k k' then op_cell op bad s p (get s q) (Dat k p)
      else match k, k' with
           | Edge, Tri | Edge, Tet =>
               match conv k' (get s p) with
               | Some c => let '(s', p') := alloc s c in op_cell op bad s' p' (get s q) (Dat k' p')
               | None => (s, UB)
               end
           | Tri, Edge | Tet, Edge =>
               match conv k (get s q) with
               | Some c => op_cell op bad s p c (Dat k p)
               | None => (s, UB)
               end
           | _, _ => (s, Ok Inv)
           end
  end.

(* ModelExprEval.cc:665-757: the functions at the contact indexes only; the other elements are 0.0 *)
Fixpoint at_indexes (f : nat -> V) (i n : nat) (idx : list nat) : list V :=
  match n with
  | O => []
  | S n => match idx with
           | [] => zero :: at_indexes f (S i) n []
           | m :: t => if i <? m then zero :: at_indexes f (S i) n idx
                       else f i :: at_indexes f (S i) n (if i =? m then t else idx)
           end
  end.
(* the model under evaluation: ModelExprEval.cc:38-79 etype, indexes *)
Record ctx := mkCx { c_kind : kind; c_idx : list nat }.
(* an argument of a function: a number or the elements of some data *)
Inductive arg := ANum (v : V) | ACell (k : kind) (c : cell V).
Definition arg_of (s : st) (d : data) : option arg :=
  match d with Inv => None | Dbl v => Some (ANum v) | Dat k p => Some (ACell k (get s p)) end.
Fixpoint get_args (s : st) (l : list data) : option (list arg) :=
  match l with [] => Some [] | d :: t => match arg_of s d, get_args s t with Some a, Some r => Some (a :: r) | _, _ => None end end.
Definition has_kind (k : kind) (l : list arg) : bool :=
  existsb (fun a => match a with ACell k' _ => kind_eqb k k' | _ => false end) l.
Definition all_num (l : list arg) : bool := forallb (fun a => match a with ANum _ => true | _ => false end) l.
(* the value of an argument at element i *)
Definition at_elem (i : nat) (a : arg) : V :=
  match a with ANum v => v | ACell _ (Uni v _) => v | ACell _ (Vals l) => nth i l zero end.
(* the numbers used when every argument is a number or uniform *)
Definition uniform_arg (a : arg) : bool := match a with ACell _ (Vals _) => false | _ => true end.
(* vlen: the length of the last argument that is not a number (627-655) *)
Definition vlen (l : list arg) : nat := fold_left (fun n a => match a with ACell _ c => clen V c | _ => n end) l 0.
Fixpoint conv_all (k : kind) (l : list arg) : option (list arg) :=
  match l with
  | [] => Some []
  | ACell Edge c :: t => match conv k c, conv_all k t with Some c', Some t' => Some (ACell k c' :: t') | _, _ => None end
  | a :: t => option_map (cons a) (conv_all k t)
  end.
Definition fold_max (better : V -> V -> bool) (l : list V) : option V :=
  match l with [] => None | x :: t => Some (fold_left (fun m y => if better m y then y else m) t x) end.
Definition is_vec (f : string) : bool := String.eqb f "vec_sum" || String.eqb f "vec_max" || String.eqb f "vec_min".

(* ModelExprEval.cc:546-862 EvaluateExternalMath *)
Definition ext_math (cx : ctx) (s : st) (f : string) (argv : list data) : st * res data :=
  let fail := (set_err s true, Ok Inv) in
  match argv with
  | [] => (s, Throw)       (* checks::doit asserts *)
  | _ =>
    match get_args s argv with
    | None => fail         (* an invalid argument *)
    | Some args =>
      if has_kind Node args && (has_kind Edge args || has_kind Tri args || has_kind Tet args) then fail
      else if negb (has_kind Edge args) && has_kind Tet args && has_kind Tri args then fail
      else
        let args' := if has_kind Edge args then
                       if has_kind Tri args then conv_all Tri args
                       else if has_kind Tet args then conv_all Tet args else Some args
                     else Some args in
        match args' with
        | None => (s, UB)
        | Some args =>
          if has_kind Tri args && has_kind Tet args then (s, UB)   (* both, with edge data: lengths differ *)
          else match fn f (length args) with
          | None => fail
          | Some g =>
            if all_num args then
              let '(v, b) := g (map (at_elem 0) args) in
              (raise s b, Ok (if err s then Inv else Dbl v))
            else
              let k := if has_kind Node args then Node else if has_kind Edge args then Edge else if has_kind Tri args then Tri else Tet in
              let n := vlen args in
              let uni := forallb uniform_arg args in
              let ev i := fst (g (map (at_elem i) args)) in
              let bad i := snd (g (map (at_elem i) args)) in
              let out :=
                match c_idx cx with
                | [] => if uni then Uni (ev 0) n else Vals (map ev (seq 0 n))
                | idx => Vals (at_indexes ev 0 n (if kind_eqb (c_kind cx) k then idx else []))
                end in
              let flag :=
                match c_idx cx with
                | [] => if uni then bad 0 else existsb bad (seq 0 n)
                | idx => if uni then bad 0 else kind_eqb (c_kind cx) k && existsb (fun i => existsb (Nat.eqb i) idx && bad i) (seq 0 n)
                end in
              let s := raise s flag in
              if err s then (s, Ok Inv)
              else if is_vec f then
                let l := match out with Uni v _ => [v] | Vals l => l end in
                if String.eqb f "vec_sum" then
                  match out with
                  | Uni v n => (raise s (bad_mul v (of_nat n)), Ok (Dbl (mul v (of_nat n))))
                  | Vals l => (s, Ok (Dbl (fold_left add l zero)))
                  end
                else match fold_max (if String.eqb f "vec_max" then lt else fun a b => lt b a) l with
                     | Some v => (s, Ok (Dbl v))
                     | None => (s, UB)
                     end
              else let '(s, p) := alloc s out in (s, Ok (Dat k p))
          end
        end
    end
  end.

(* the values a model gets from the result of its expression (NodeExprModel.cc:99-134, TriangleEdgeExprModel.cc:91-119)
   and how they are stored (NodeModel.cc:134-174, EdgeModel.cc:276-312) *)
Definition node_edge (k : kind) : bool := match k with Node | Edge => true | _ => false end.
Definition model_cell (len : kind -> nat) (s : st) (m : mdl) (d : data) : res (cell V) :=
  let store c := match m_idx m with
                 | [] => c
                 | idx => match c with
                          | Uni v n => Vals (mask zero n idx (fun _ => v))
                          | Vals l => Vals (mask zero (length l) idx (fun i => nth i l zero))
                          end
                 end in
  match d with
  | Inv => Throw
  | Dbl v => Ok (store (Uni v (len (m_kind m))))
  | Dat k p => if kind_eqb k (m_kind m) then Ok (store (match get s p with Uni v _ => Uni v (len k) | c => c end))
               else if negb (node_edge (m_kind m)) && kind_eqb k Edge then
                 match conv (m_kind m) (get s p) with
                 | Some (Uni v _) => Ok (Uni v (len (m_kind m)))
                 | Some c => Ok c
                 | None => Throw
                 end
               else Throw
  end.
(* Region.hh: number of nodes, edges, 3 * triangles, 6 * tetrahedra *)
Variable len : kind -> nat.

Fixpoint lookup (k : string) (c : list (string * data)) : option data :=
  match c with [] => None | (k', d) :: t => if String.eqb k k' then Some d else lookup k t end.

(* ModelExprEval.cc:396-477 eval_function *)
Definition finish (s : st) (e : expr) (r : res data) : st * res data :=
  match r with
  | Ok d => if fpe s then (set_fpe (set_err s true) false, Ok Inv)
            else match d with
                 | Inv => (s, Ok Inv)
                 | _ => (set_cache s ((key e, d) :: cache s), Ok d)
                 end
  | r => (s, r)
  end.

Section Loops.
Variable ev : st -> expr -> st * res data.
(* ModelExprEval.cc:240-271 EvaluateProductType *)
Fixpoint prod_loop (s : st) (out : data) (l : list expr) : st * res data :=
  match l with
  | [] => (s, Ok out)
  | e :: t => match ev s e with
              | (s, Ok x) => match x with
                             | Dbl v => if is0 v then (s, Ok (Dbl zero)) else
                                        match op_equal mul bad_mul s out x with (s, Ok o) => prod_loop s o t | r => r end
                             | _ => match op_equal mul bad_mul s out x with (s, Ok o) => prod_loop s o t | r => r end
                             end
              | r => r
              end
  end.
(* ModelExprEval.cc:337-350 EvaluateAddType *)
Fixpoint sum_loop (s : st) (out : data) (l : list expr) : st * res data :=
  match l with
  | [] => (s, Ok out)
  | e :: t => match ev s e with
              | (s, Ok x) => match op_equal add bad_add s out x with (s, Ok o) => sum_loop s o t | r => r end
              | r => r
              end
  end.
(* ModelExprEval.cc:352-373 EvaluateFunctionType *)
Fixpoint args_loop (s : st) (acc : list data) (l : list expr) : st * res (list data) :=
  match l with
  | [] => (s, Ok (rev acc))
  | e :: t => match ev s e with
              | (s, Ok x) => args_loop s (x :: acc) t
              | (s, Throw) => (s, Throw) | (s, UB) => (s, UB) | (s, NoFuel) => (s, NoFuel)
              end
  end.
End Loops.

Fixpoint eval (fuel : nat) (stk : list string) (cx : ctx) (s : st) (e : expr) : st * res data :=
  match fuel with
  | O => (s, NoFuel)
  | S fuel =>
    let s := set_fpe s false in
    match lookup (key e) (cache s) with
    | Some d => (s, Ok d)
    | None =>
      let '(s, r) :=
        match e with
        | Const v => (s, Ok (Dbl v))                                       (* 386-394 EvaluateConstantType *)
        | Var n => match var n with                                        (* 204-238 EvaluateVariableType *)
                   | Some v => (s, Ok (Dbl v))
                   | None => (set_err s true, Ok Inv)
                   end
        | Model n =>                                                       (* 87-201 EvaluateModelType *)
            match find n (mods s) with
            | None => (s, Ok (Dbl zero))
            | Some m =>
                if existsb (String.eqb n) stk then (set_err s true, Ok Inv)
                else match m_body m with
                     | Done c => let '(s, p) := alloc s c in (s, Ok (Dat (m_kind m) p))
                     | Pending e' =>
                         (* NodeModel.cc:85-116 CalculateValues, NodeExprModel.cc:76-135: a new evaluation with its own
                            list of errors and its own contact indexes, and the same cache *)
                         let old := err s in
                         let '(s, r) := eval fuel (n :: stk) (mkCx (m_kind m) (m_idx m)) (set_err s false) e' in
                         let s := set_err s old in
                         match r with
                         | Ok d => match model_cell len s m d with
                                   | Ok c => let s := set_mods s (put n (mkMd (m_kind m) (m_idx m) (Done c)) (mods s)) in
                                             let '(s, p) := alloc s c in (s, Ok (Dat (m_kind m) p))
                                   | Throw => (s, Throw) | UB => (s, UB) | NoFuel => (s, NoFuel)
                                   end
                         | r => (s, r)
                         end
                     end
            end
        | Prod l => prod_loop (eval fuel stk cx) s (Dbl one) l
        | Sum l => sum_loop (eval fuel stk cx) s (Dbl zero) l
        | If t a =>                                                        (* 273-302 EvaluateIfType *)
            match eval fuel stk cx s t with
            | (s, Ok (Dbl v)) => if is0 v then (s, Ok (Dbl zero)) else eval fuel stk cx s a
            | (s, Ok x) => match eval fuel stk cx s a with
                           | (s, Ok y) => op_equal mul bad_mul s x y    (* test *= ... : the object in the cache changes *)
                           | r => r
                           end
            | r => r
            end
        | IfElse t a b =>                                                  (* 304-335 EvaluateIfElseType *)
            match eval fuel stk cx s t with
            | (s, Ok (Dbl v)) => if is0 v then eval fuel stk cx s b else eval fuel stk cx s a
            | (s, Ok x) => match args_loop (eval fuel stk cx) s [x] [a; b] with
                           | (s, Ok l) => ext_math cx s "ifelse" l
                           | (s, Throw) => (s, Throw) | (s, UB) => (s, UB) | (s, NoFuel) => (s, NoFuel)
                           end
            | r => r
            end
        | Fun f l => match args_loop (eval fuel stk cx) s [] l with
                     | (s, Ok l) => ext_math cx s f l
                     | (s, Throw) => (s, Throw) | (s, UB) => (s, UB) | (s, NoFuel) => (s, NoFuel)
                     end
        end in
      finish s e r
    end
  end.
End E.
Arguments Const {V}. Arguments Var {V}. Arguments Model {V}. Arguments Prod {V}. Arguments Sum {V}. Arguments If {V}.
Arguments IfElse {V}. Arguments Fun {V}. Arguments Inv {V}. Arguments Dbl {V}. Arguments Dat {V}.
Arguments Done {V}. Arguments Pending {V}. Arguments mkMd {V}. Arguments m_kind {V}. Arguments m_idx {V}. Arguments m_body {V}.
Arguments mkSt {V}. Arguments heap {V}. Arguments cache {V}. Arguments mods {V}. Arguments err {V}. Arguments fpe {V}.
Arguments Ok {A}. Arguments Throw {A}. Arguments UB {A}. Arguments NoFuel {A}.
Arguments ANum {V}. Arguments ACell {V}.
