(* Evaluation of the expressions of interface models: src/AutoEquation/InterfaceModelExprEval.cc, InterfaceModelExprData.cc,
   InterfaceNodeExprModel.cc, src/models/InterfaceNodeModel.cc.

   Simplifications: the parsed expression (EngineAPI, an external library) is the tree expr of ModelExpr.v and
   getStringValue is the function key; an object that refers to the vector of an interface model (refdata) has a copy of
   it, calculated when the object is made; the messages are one flag; a function reads the element i of each vector
   argument, whatever its length; an unknown function or a wrong number of arguments is an error whatever the length. *)
From Coq Require Import Ascii String List Bool Arith.
From Verif Require Import ModelData ModelExpr.
Import ListNotations.
Open Scope string_scope.
Open Scope list_scope.
Open Scope nat_scope.

(* std::string::rfind: the last position of pat in s *)
Definition rfind (pat s : string) : option nat :=
  List.find (fun i => String.eqb (substring i (String.length pat) s) pat) (rev (seq 0 (S (String.length s)))).
Definition at_pos (o : option nat) (i : nat) : bool := match o with Some j => j =? i | None => false end.
(* InterfaceModelExprEval.cc:33-56 GetRegionAndName: the region (false: region 0) and the name in the region *)
Definition region_and_name (nm : string) : option (bool * string) :=
  let n := String.length nm in
  let rpos := if 3 <? n then n - 3 else n in
  if at_pos (rfind "@r0" nm) rpos then Some (false, substring 0 rpos nm)
  else if at_pos (rfind "@r1" nm) rpos then Some (true, substring 0 rpos nm)
  else None.

Section E.
Variable V : Type.
Variables (zero one : V) (add mul : V -> V -> V) (is0 : V -> bool) (lt same : V -> V -> bool).
(* operands for which the operation raises overflow, invalid or division by zero (FPECheck.cc:66-69) *)
Variables (bad_add bad_mul : V -> V -> bool).
(* MathEval.cc: function by name and number of arguments; the flag is a floating point exception *)
Variable fn : string -> nat -> option (list V -> V * bool).
Variable key : expr V -> string.
(* GlobalData.cc GetDoubleDBEntryOnRegion for region 0 and 1; NodeKeeper.cc IsCircuitNode, GetNodeValue of "dcop" *)
Variable par : bool -> string -> option V.
Variable circuit : string -> option V.
(* the interface models of the interface; the node models of the two regions with their values *)
Variable imodel : string -> option (expr V).
Variable nmodel : bool -> string -> option (list V).
(* Interface.cc GetNodes0, GetNodes1: the indexes of the nodes of the interface in the two regions *)
Variable nodes : bool -> list nat.

(* InterfaceModelExprData.hh:55-97: the data are held by shared pointers: copies of an object share it *)
Inductive data := Inv | Dbl (v : V) | Dat (p : nat).
(* cache: the cache of the interface, shared by the evaluations in progress; err: the list of errors of the model under
   evaluation is not empty; fpe: floating point exception flag; said: some message was written (ERROR, not FATAL) *)
Record st := mkSt { heap : list (cell V); cache : list (string * data); err : bool; fpe : bool; said : bool }.
Definition set_heap (s : st) (h : list (cell V)) : st := mkSt h (cache s) (err s) (fpe s) (said s).
Definition set_cache (s : st) (c : list (string * data)) : st := mkSt (heap s) c (err s) (fpe s) (said s).
Definition set_err (s : st) (b : bool) : st := mkSt (heap s) (cache s) b (fpe s) (said s).
Definition set_fpe (s : st) (b : bool) : st := mkSt (heap s) (cache s) (err s) b (said s).
Definition set_said (s : st) (b : bool) : st := mkSt (heap s) (cache s) (err s) (fpe s) b.
Definition get (s : st) (p : nat) : cell V := nth p (heap s) (Vals []).
Definition alloc (s : st) (c : cell V) : st * nat := (set_heap s (heap s ++ [c]), length (heap s)).
Definition raise (s : st) (b : bool) : st := set_fpe s (fpe s || b).

(* ScalarData.cc:136-174 op_equal_data, op_equal_scalar with the exceptions they raise *)
Definition bad_cell (bad : V -> V -> bool) (c d : cell V) : bool :=
  match c, d with
  | Uni u _, Uni v _ => bad u v
  | Vals l, Uni v _ => existsb (fun x => bad x v) l
  | _, Vals l => existsb (fun q => bad (fst q) (snd q)) (combine (elems V c) l)
  end.
Definition op_cell (op : V -> V -> V) (bad : V -> V -> bool) (s : st) (p : nat) (d : cell V) : st * res data :=
  match op_data V op (get s p) d with
  | Some c' => (raise (set_heap s (put_at (heap s) p c')) (bad_cell bad (get s p) d), Ok (Dat p))
  | None => (s, UB)
  end.
(* InterfaceModelExprData.cc:78-120 op_equal: a is modified, the object it points to too *)
Definition op_equal (op : V -> V -> V) (bad : V -> V -> bool) (s : st) (a b : data) : st * res data :=
  match a, b with
  | Inv, _ => (s, Ok Inv)
  | _, Inv => (s, Ok Inv)
  | Dat p, Dat q => op_cell op bad s p (get s q)
  | Dat p, Dbl y => op_cell op bad s p (Uni y 1)
  | Dbl x, Dat q => let '(s', p) := alloc s (Uni x (clen V (get s q))) in op_cell op bad s' p (get s q)
  | Dbl x, Dbl y => (raise s (bad x y), Ok (Dbl (op x y)))
  end.

(* InterfaceModelExprEval.cc:78-140 EvaluateVariableType *)
Definition eval_var (s : st) (nm : string) : st * res data :=
  match region_and_name nm with
  | Some (r, name) =>
      match par r name with
      | Some v => (s, Ok (Dbl v))
      | None => match circuit nm with Some v => (s, Ok (Dbl v)) | None => (s, Ok Inv) end
      end
  | None =>
      match par false nm, par true nm with
      | Some v, Some w => if same v w then (s, Ok (Dbl v)) else (set_err s true, Ok Inv)
      | _, _ => match circuit nm with Some v => (s, Ok (Dbl v)) | None => (set_err s true, Ok Inv) end
      end
  end.

(* an argument of a function: a number or the elements of some data *)
Inductive arg := ANum (v : V) | ACell (c : cell V).
Fixpoint get_args (s : st) (l : list data) : option (list arg) :=
  match l with
  | [] => Some []
  | Inv :: _ => None
  | Dbl v :: t => option_map (cons (ANum v)) (get_args s t)
  | Dat p :: t => option_map (cons (ACell (get s p))) (get_args s t)
  end.
Definition all_num (l : list arg) : bool := forallb (fun a => match a with ANum _ => true | _ => false end) l.
Definition at_elem (i : nat) (a : arg) : V :=
  match a with ANum v => v | ACell (Uni v _) => v | ACell (Vals l) => nth i l zero end.
Definition uniform_arg (a : arg) : bool := match a with ACell (Vals _) => false | _ => true end.
(* 576-605: vlen is the length of the last argument that is not a number *)
Definition vlen (l : list arg) : nat := fold_left (fun n a => match a with ACell c => clen V c | _ => n end) l 0.
(* std::max_element, std::min_element; None: the vector is empty *)
Definition extreme (better : V -> V -> bool) (l : list V) : option V :=
  match l with [] => None | x :: t => Some (fold_left (fun m y => if better m y then y else m) t x) end.
(* 472-684 checks::doit, EvaluateExternalMath *)
Definition ext_math (s : st) (f : string) (argv : list data) : st * res data :=
  let fail := (set_err s true, Ok Inv) in
  match argv with
  | [] => (s, Throw)       (* checks::doit asserts *)
  | _ =>
    match get_args s argv with
    | None => fail         (* an invalid argument *)
    | Some args =>
      match fn f (length args) with
      | None => fail
      | Some g =>
        let ev i := fst (g (map (at_elem i) args)) in
        let bad i := snd (g (map (at_elem i) args)) in
        if all_num args then (raise s (bad 0), Ok (if err s then Inv else Dbl (ev 0)))
        else
          let n := vlen args in
          if forallb uniform_arg args then
            let s := raise s (bad 0) in
            if err s then (s, Ok Inv) else let '(s, p) := alloc s (Uni (ev 0) n) in (s, Ok (Dat p))
          else
            let l := map ev (seq 0 n) in
            let s := raise s (existsb bad (seq 0 n)) in
            let out (o : option V) := match o with
                                      | Some v => (s, Ok (if err s then Inv else Dbl v))
                                      | None => (s, UB)
                                      end in
            if String.eqb f "vec_sum" then out (Some (fold_left add l zero))
            else if String.eqb f "vec_max" then out (extreme lt l)
            else if String.eqb f "vec_min" then out (extreme (fun a b => lt b a) l)
            else if err s then (s, Ok Inv) else let '(s, p) := alloc s (Vals l) in (s, Ok (Dat p))
      end
    end
  end.

(* InterfaceNodeExprModel.cc:98-126: the values a model gets; ERROR when there are errors, FATAL when there is no value *)
Definition model_cell (s : st) (d : data) : res (cell V) :=
  match d with
  | Dat p => Ok (match get s p with Uni v _ => Uni v (length (nodes false)) | c => c end)
  | Dbl v => Ok (Vals (repeat v (length (nodes false))))
  | Inv => Throw
  end.

Fixpoint lookup (k : string) (c : list (string * data)) : option data :=
  match c with [] => None | (k', d) :: t => if String.eqb k k' then Some d else lookup k t end.
(* 452-467: the end of eval_function *)
Definition finish (s : st) (e : expr V) (r : res data) : st * res data :=
  match r with
  | Ok d => if fpe s then (set_fpe (set_err s true) false, Ok Inv)
            else match d with
                 | Inv => (s, Ok Inv)
                 | _ => (set_cache s ((key e, d) :: cache s), Ok d)
                 end
  | r => (s, r)
  end.

Section Loops.
Variable ev : st -> expr V -> st * res data.
(* 239-268 EvaluateProductType *)
Fixpoint prod_loop (s : st) (out : data) (l : list (expr V)) : st * res data :=
  match l with
  | [] => (s, Ok out)
  | e :: t =>
      match ev s e with
      | (s, Ok x) =>
          if match x with Dbl v => is0 v | _ => false end then (s, Ok (Dbl zero))
          else match op_equal mul bad_mul s out x with (s, Ok o) => prod_loop s o t | r => r end
      | r => r
      end
  end.
(* 270-283 EvaluateAddType *)
Fixpoint sum_loop (s : st) (out : data) (l : list (expr V)) : st * res data :=
  match l with
  | [] => (s, Ok out)
  | e :: t =>
      match ev s e with
      | (s, Ok x) => match op_equal add bad_add s out x with (s, Ok o) => sum_loop s o t | r => r end
      | r => r
      end
  end.
(* 353-372 EvaluateFunctionType *)
Fixpoint args_loop (s : st) (acc : list data) (l : list (expr V)) : st * res (list data) :=
  match l with
  | [] => (s, Ok (rev acc))
  | e :: t => match ev s e with
              | (s, Ok x) => args_loop s (x :: acc) t
              | (s, Throw) => (s, Throw) | (s, UB) => (s, UB) | (s, NoFuel) => (s, NoFuel)
              end
  end.
End Loops.

(* 228-234: a name for which there is no value is 0.0; an error *)
Definition no_model (s : st) : st * res data := (set_err s true, Ok (Dbl zero)).
(* 388-468 eval_function; stk: the interface models being calculated *)
Fixpoint eval (fuel : nat) (stk : list string) (s : st) (e : expr V) : st * res data :=
  match fuel with
  | O => (s, NoFuel)
  | S fuel =>
    let s := set_fpe s false in
    match lookup (key e) (cache s) with
    | Some d => (s, Ok d)
    | None =>
      let '(s, r) :=
        match e with
        | Const v => (s, Ok (Dbl v))                                       (* 68-76 EvaluateConstantType *)
        | Var n => eval_var s n
        | Model n =>                                                       (* 165-237 EvaluateInterfaceModelType *)
            match imodel n with
            | Some e' =>
                if existsb (String.eqb n) stk then no_model s              (* in process *)
                else
                  (* InterfaceNodeModel.cc:47-84 CalculateValues, InterfaceNodeExprModel.cc:69-128: calculated each time
                     it is used, with its own list of errors and the same cache *)
                  let old := err s in
                  let '(s, r) := eval fuel (n :: stk) (set_err s false) e' in
                  let s := set_err (set_said s (said s || err s)) old in
                  match r with
                  | Ok d => match model_cell s d with
                            | Ok c => let '(s, p) := alloc s c in (s, Ok (Dat p))
                            | Throw => (s, Throw) | UB => (s, UB) | NoFuel => (s, NoFuel)
                            end
                  | r => (s, r)
                  end
            | None =>
                match region_and_name n with
                | Some (r, name) =>
                    match nmodel r name with
                    | Some nvals => let '(s, p) := alloc s (Vals (map (fun i => nth i nvals zero) (nodes r))) in (s, Ok (Dat p))
                    | None => no_model s
                    end
                | None => no_model s
                end
            end
        | Prod l => prod_loop (eval fuel stk) s (Dbl one) l
        | Sum l => sum_loop (eval fuel stk) s (Dbl zero) l
        | If t a =>                                                        (* 285-315 EvaluateIfType *)
            match eval fuel stk s t with
            | (s, Ok (Dbl v)) => if is0 v then (s, Ok (Dbl zero)) else eval fuel stk s a
            | (s, Ok x) => match eval fuel stk s a with
                           | (s, Ok y) => op_equal mul bad_mul s x y    (* test *= ... : the object in the cache changes *)
                           | r => r
                           end
            | r => r
            end
        | IfElse t a b =>                                                  (* 317-351 EvaluateIfElseType *)
            match eval fuel stk s t with
            | (s, Ok (Dbl v)) => if is0 v then eval fuel stk s b else eval fuel stk s a
            | (s, Ok x) => match args_loop (eval fuel stk) s [x] [a; b] with
                           | (s, Ok l) => ext_math s "ifelse" l
                           | (s, Throw) => (s, Throw) | (s, UB) => (s, UB) | (s, NoFuel) => (s, NoFuel)
                           end
            | r => r
            end
        | Fun f l => match args_loop (eval fuel stk) s [] l with
                     | (s, Ok l) => ext_math s f l
                     | (s, Throw) => (s, Throw) | (s, UB) => (s, UB) | (s, NoFuel) => (s, NoFuel)
                     end
        end in
      finish s e r
    end
  end.

(* InterfaceNodeModel.cc:89-97 GetScalarValues of the interface model n: its values, and whether a message was written *)
Definition start : st := mkSt [] [] false false false.
Definition values (fuel : nat) (n : string) : res (list V) * bool :=
  match imodel n with
  | None => (Throw, false)
  | Some e =>
      let '(s, r) := eval fuel [n] start e in
      (match r with
       | Ok d => match model_cell s d with Ok c => Ok (elems V c) | Throw => Throw | UB => UB | NoFuel => NoFuel end
       | Throw => Throw | UB => UB | NoFuel => NoFuel
       end, said s || err s)
  end.
(* expressions evaluated one after the other with one cache (InterfaceExprEquation.cc:54-67) *)
Definition number (s : st) (d : data) : option (V + list V) :=
  match d with Inv => None | Dbl v => Some (inl v) | Dat p => Some (inr (elems V (get s p))) end.
Fixpoint run (fuel : nat) (s : st) (es : list (expr V)) : st * list (option (V + list V)) :=
  match es with
  | [] => (s, [])
  | e :: t => match eval fuel [] s e with
              | (s, Ok d) => let '(s', r) := run fuel s t in (s', number s d :: r)
              | (s, _) => (s, [None])
              end
  end.
End E.
Arguments Inv {V}. Arguments Dbl {V}. Arguments Dat {V}. Arguments ANum {V}. Arguments ACell {V}.
Arguments mkSt {V}. Arguments heap {V}. Arguments cache {V}. Arguments err {V}. Arguments fpe {V}. Arguments said {V}.
