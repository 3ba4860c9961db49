(* Symbolic expressions of the model compiler: src/adiff/EquationObject.cc, EquationObject.hh, UserFunc.cc.
   Simplifications: constants are real numbers; SortEqVector is any permutation (srt) and the text of an expression
   (stringValue) any function (key); the scale of a product (getScale) is the product of its constant factors.
   Logical operators and references to other models (mcModel.cc) are not here. *)
From Coq Require Import String List Bool Reals.
Import ListNotations.
Open Scope list_scope.
Open Scope R_scope.

(* EquationObject.hh:30 *)
Inductive expr :=
| Con (c : R)
| Var (s : string)
| Add (l : list expr)
| Prod (l : list expr)
| Exp (e : expr)
| Pow (b e : expr)
| Log (e : expr)
| User (f : string) (l : list expr).

Definition reqb (x y : R) : bool := if Req_EM_T x y then true else false.
(* EquationObject.cc:336-344, 727-738 isZero: other types are false *)
Fixpoint is_zero (e : expr) : bool := match e with Con c => reqb c 0 | Prod l => existsb is_zero l | _ => false end.
(* EquationObject.cc:341-344, 740-754 isOne *)
Fixpoint is_one (e : expr) : bool :=
  match e with Con c => reqb c 1 | Prod l => match l with [] => false | _ => forallb is_one l end | _ => false end.
Definition is_con (e : expr) : bool := match e with Con _ => true | _ => false end.

Section M.
(* EquationObject.cc:152-155 SortEqVector; 157-165 stringValue *)
Variable srt : list expr -> list expr.
Variable key : expr -> string.
(* UserFunc.cc:19 UserFuncMap: the name of each argument and the derivative with respect to it (null: none) *)
Variable info : string -> list (string * option expr).

(* EquationObject.cc:376-380 Product(vector), 1023-1027 Add(vector) *)
Definition mk_prod (l : list expr) : expr := Prod (srt l).
Definition mk_add (l : list expr) : expr := Add (srt l).
(* EquationObject.hh:547-596 operator* *)
Definition times (x y : expr) : expr :=
  if is_zero x || is_zero y then Con 0
  else if is_one x then y
  else if is_one y then x
  else match x, y with
       | Prod l, Prod l' => mk_prod (l ++ l')
       | Prod l, _ => mk_prod (l ++ [y])
       | _, Prod l' => mk_prod (x :: l')
       | _, _ => Prod [x; y]
       end.
(* EquationObject.hh:613-661 operator+ *)
Definition plus (x y : expr) : expr :=
  if is_zero x then y
  else if is_zero y then x
  else match x, y with
       | Add l, Add l' => mk_add (l ++ l')
       | Add l, _ => mk_add (l ++ [y])
       | _, Add l' => mk_add (x :: l')
       | _, _ => Add [x; y]
       end.
(* EquationObject.hh:663-666 operator- *)
Definition minus (x y : expr) : expr := plus x (times (Con (-1)) y).
(* clone: a copy, products and sums being sorted again *)
Fixpoint clone (e : expr) : expr :=
  match e with
  | Con c => Con c
  | Var s => Var s
  | Add l => mk_add (map clone l)
  | Prod l => mk_prod (map clone l)
  | Exp a => Exp (clone a)
  | Pow b a => Pow (clone b) (clone a)
  | Log a => Log (clone a)
  | User f l => User f (map clone l)
  end.
(* EquationObject.cc:758-796 getScale, getUnscaledValue of a product *)
Definition con_val (e : expr) : R := match e with Con c => c | _ => 1 end.
Definition scale (l : list expr) : R := fold_left Rmult (map con_val (filter is_con l)) 1.
Definition unscaled (l : list expr) : expr :=
  match filter (fun e => negb (is_con e)) l with [] => Con 1 | [x] => x | t => mk_prod t end.
(* subst of the different types: EquationObject.cc:259-265, 351-357, 914-934, 1263-1276, 1409-1415, 1520-1526, 1764-1774;
   UserFunc.cc:86-98 *)
Fixpoint subst (v : string) (a : expr) (e : expr) : expr :=
  if String.eqb v (key e) then a
  else match e with
       | Con c => Con c
       | Var s => Var s
       | Add l => mk_add (map (subst v a) l)
       | Prod l => if String.eqb v (key (unscaled l)) then times (Con (scale l)) a else mk_prod (map (subst v a) l)
       | Exp b => Exp (subst v a b)
       | Pow b c => Pow (subst v a b) (subst v a c)
       | Log b => Log (subst v a b)
       | User f l => User f (map (subst v a) l)
       end.

(* EquationObject.cc:425-472 Product::Derivative: the terms; l: the factors with their derivatives, pre: those before *)
Fixpoint prod_terms (pre : list expr) (l : list (expr * expr)) : list expr :=
  match l with
  | [] => []
  | (v, d) :: t =>
      (if is_zero d then []
       else match (if is_one d then [] else [d]) ++ rev pre ++ map fst t with
            | [] => []
            | [y] => [y]
            | vp => [mk_prod vp]
            end) ++ prod_terms (v :: pre) t
  end.
Definition sum_of (l : list expr) : expr := match l with [] => Con 0 | [y] => y | _ => mk_add l end.
(* UserFunc.cc:117-120 all the arguments are substituted one after the other *)
Definition subst_all (names : list string) (args : list expr) (e : expr) : expr :=
  fold_left (fun e p => subst (fst p) (snd p) e) (combine names args) e.
(* UserFunc.cc:102-140 *)
Definition user_term (names : list string) (args : list expr) (di : option expr) (y : expr) : expr :=
  let x := subst_all names args (match di with Some d => d | None => Con 0 end) in
  if is_zero y then Con 0 else if is_one y then x else times x y.
(* Derivative with respect to the variable x *)
Fixpoint D (x : string) (e : expr) : expr :=
  match e with
  | Con c => Con 0                                                   (* EquationObject.cc:311-315 *)
  | Var s => if String.eqb x s then Con 1 else Con 0                 (* 205-211 *)
  | Add l => sum_of (filter (fun d => negb (is_zero d)) (map (D x) l))   (* 1053-1077 *)
  | Prod l => sum_of (prod_terms [] (map (fun v => (v, D x v)) l))   (* 425-472 *)
  | Exp a => if is_con a then Con 0 else times (D x a) (Exp a)       (* 1334-1344 *)
  | Log a => if is_con a then Con 0 else times (D x a) (Pow a (Con (-1)))   (* 1431-1444 *)
  | Pow b a =>                                                       (* 1561-1611 *)
      match a with
      | Con ex =>
          if reqb ex 0 || is_con b then Con 0
          else if reqb ex 1 then D x b
          else if reqb ex 2 then times (times (Con 2) b) (D x b)
          else times (times (Con ex) (Pow b (Con (ex - 1)))) (D x b)
      | _ =>
          if is_con b then
            if is_zero b || is_one b then Con 0 else times (times (Log b) (Pow b a)) (D x a)
          else plus (times (times a (Pow b (minus a (Con 1)))) (D x b))
                    (times (times (Log b) (clone (Pow b a))) (D x a))
      end
  | User f l =>                                                      (* UserFunc.cc:102-148 *)
      let ts := map (fun p => user_term (map fst (info f)) l (fst p) (snd p)) (combine (map snd (info f)) (map (D x) l)) in
      match ts with [y] => y | _ => mk_add ts end
  end.
(* How a function was made known to the model compiler.
   Declared: mcParser.y:300-308, UserFunc.cc:22-26, 58-61 (only the number of arguments);
   Defined: mcParser.y:230-264 definefuncdiff of a new name, with the names of the arguments and one derivative each;
   Redefined: mcParser.y:265-299 definefuncdiff of a function already declared *)
Inductive decl := Declared (n : nat) | Defined (names : list string) (ds : list expr) | Redefined (names : list string) (ds : list expr).
Definition reserved (s : string) : string := String.append "@" s.
Definition rename (names : list string) (d : expr) : expr := fold_left (fun d foo => subst foo (Var (reserved foo)) d) names d.
Definition info_of (d : decl) : list (string * option expr) :=
  match d with
  | Declared n => repeat (EmptyString, None) n
  | Defined names ds => combine (map reserved names) (map (fun d => Some (rename names d)) ds)
  | Redefined names ds => combine names (map Some ds)
  end.

(* mcModel.cc:56-88 Model::Derivative, ModelList of mcModelCompiler.cc. Simplifications: the expression of a model contains
   no other model; simp is any simplification; an unknown model (dsAssert) has derivative 0 *)
Definition models := list (string * expr).
Fixpoint lookup (ms : models) (v : string) : option expr :=
  match ms with [] => None | (n, e) :: t => if String.eqb n v then Some e else lookup t v end.
Definition bar (v x : string) : string := String.append "d_" (String.append v (String.append "_d_" x)).
Definition model_D (simp : expr -> expr) (ms : models) (v x : string) : models * expr :=
  if String.eqb x v then (ms, Con 1)
  else match lookup ms v with
       | None => (ms, Con 0)
       | Some m =>
           let d := simp (D x m) in
           if is_zero d then (ms, Con 0)
           else match lookup ms (bar v x) with
                | None => ((ms ++ [(bar v x, d)])%list, Var (bar v x))
                | Some _ => (ms, Var (bar v x))
                end
       end.
(* a history of derivatives *)
Fixpoint model_Ds (simp : expr -> expr) (ms : models) (qs : list (string * string)) : models * list expr :=
  match qs with
  | [] => (ms, [])
  | (v, x) :: t => let '(ms1, e) := model_D simp ms v x in let '(ms2, l) := model_Ds simp ms1 t in (ms2, e :: l)
  end.
End M.
