(* What the value of an expression on an interface is meant to be: no cache, no sharing, no uniform representation.
   A value is a number or one number per node of the interface; None: the expression has no value here. *)
From Coq Require Import String List Bool Arith.
From Verif Require Import ModelExpr.
Import ListNotations.
Open Scope list_scope.

(* x@r0, x@r1: x in region 0, region 1 *)
Definition of_region (i : bool) (x s : string) : Prop := x <> ""%string /\ s = String.append x (if i then "@r1" else "@r0").
Definition plain (s : string) : Prop := forall i x, ~ of_region i x s.

Section S.
Variable V : Type.
Variables (zero one : V) (add mul : V -> V -> V) (is0 : V -> bool) (lt same : V -> V -> bool).
Variables (bad_add bad_mul : V -> V -> bool).
Variable fn : string -> nat -> option (list V -> V * bool).
Variable par : bool -> string -> option V.
Variable circuit : string -> option V.
(* number of nodes of the interface *)
Variable n : nat.

(* the value of a name that is not a model: a parameter of the region, a parameter with the same value in both regions,
   or the voltage of a circuit node *)
Inductive var_is (s : string) : V -> Prop :=
| VReg : forall i x v, of_region i x s -> par i x = Some v -> var_is s v
| VRegNode : forall i x v, of_region i x s -> par i x = None -> circuit s = Some v -> var_is s v
| VBoth : forall v w, plain s -> par false s = Some v -> par true s = Some w -> same v w = true -> var_is s v
| VNode : forall i v, plain s -> par i s = None -> circuit s = Some v -> var_is s v.

Variable var : string -> option V.
(* the values of the models: see model_is *)
Variable rho : string -> option (list V).

Inductive val := Sc (v : V) | Fl (l : list V).
Definition elem (i : nat) (x : val) : V := match x with Sc v => v | Fl l => nth i l zero end.
Definition lift2 (op : V -> V -> V) (bad : V -> V -> bool) (a b : val) : option val :=
  match a, b with
  | Sc x, Sc y => if bad x y then None else Some (Sc (op x y))
  | _, _ => if existsb (fun i => bad (elem i a) (elem i b)) (seq 0 n) then None
            else Some (Fl (map (fun i => op (elem i a) (elem i b)) (seq 0 n)))
  end.
Definition is_number (x : val) : bool := match x with Sc _ => true | _ => false end.
Definition best (better : V -> V -> bool) (l : list V) : option V :=
  match l with [] => None | x :: t => Some (fold_left (fun m y => if better m y then y else m) t x) end.
Definition reduce (f : string) (l : list V) : option val :=
  if String.eqb f "vec_sum" then Some (Sc (fold_left add l zero))
  else if String.eqb f "vec_max" then option_map Sc (best lt l)
  else if String.eqb f "vec_min" then option_map Sc (best (fun a b => lt b a) l)
  else Some (Fl l).
Definition apply (f : string) (vs : list val) : option val :=
  match vs, fn f (length vs) with
  | _ :: _, Some g =>
      if forallb is_number vs then let r := g (map (elem 0) vs) in if snd r then None else Some (Sc (fst r))
      else let rows := map (fun i => g (map (elem i) vs)) (seq 0 n) in
           if existsb snd rows then None else reduce f (map fst rows)
  | _, _ => None
  end.
Fixpoint all {A} (l : list (option A)) : option (list A) :=
  match l with
  | [] => Some []
  | x :: t => match x, all t with Some x, Some t => Some (x :: t) | _, _ => None end
  end.
Fixpoint total (acc : val) (l : list (option val)) : option val :=
  match l with
  | [] => Some acc
  | Some x :: t => match lift2 add bad_add acc x with Some acc => total acc t | None => None end
  | None :: _ => None
  end.
(* the product, up to the first factor that is the number 0 *)
Fixpoint product (acc : val) (l : list (option val)) : option val :=
  match l with
  | [] => Some acc
  | Some x :: t => if match x with Sc v => is0 v | _ => false end then Some (Sc zero)
                   else match lift2 mul bad_mul acc x with Some acc => product acc t | None => None end
  | None :: _ => None
  end.
(* the test of "if" must be a number *)
Fixpoint sem (e : expr V) : option val :=
  match e with
  | Const v => Some (Sc v)
  | Var s => option_map Sc (var s)
  | Model m => option_map Fl (rho m)
  | Prod l => product (Sc one) (map sem l)
  | Sum l => total (Sc zero) (map sem l)
  | If t a => match sem t with
              | Some (Sc v) => if is0 v then Some (Sc zero) else sem a
              | _ => None
              end
  | IfElse t a b => match sem t with
                    | Some (Sc v) => if is0 v then sem b else sem a
                    | Some x => match sem a, sem b with Some y, Some z => apply "ifelse" [x; y; z] | _, _ => None end
                    | None => None
                    end
  | Fun f l => match all (map sem l) with Some vs => apply f vs | None => None end
  end.
(* one value per node *)
Definition per_node (x : val) : list V := map (fun i => elem i x) (seq 0 n).

(* the models an expression uses, directly *)
Fixpoint uses (e : expr V) : list string :=
  match e with
  | Const _ | Var _ => []
  | Model m => [m]
  | Prod l | Sum l | Fun _ l => flat_map uses l
  | If t a => uses t ++ uses a
  | IfElse t a b => uses t ++ uses a ++ uses b
  end.

(* the names that are not models in an expression *)
Fixpoint names (e : expr V) : list string :=
  match e with
  | Const _ | Model _ => []
  | Var s => [s]
  | Prod l | Sum l | Fun _ l => flat_map names l
  | If t a => names t ++ names a
  | IfElse t a b => names t ++ names a ++ names b
  end.
(* "if" is not used *)
Fixpoint no_if (e : expr V) : bool :=
  match e with
  | Const _ | Var _ | Model _ => true
  | Prod l | Sum l | Fun _ l => forallb no_if l
  | If _ _ => false
  | IfElse t a b => no_if t && no_if a && no_if b
  end.

(* rho m = Some l: m is an interface model with these values, or m is x@r0, x@r1 and these are the values of the node
   model x of that region at the nodes of the interface *)
Variable imodel : string -> option (expr V).
Variable nmodel : bool -> string -> option (list V).
Variable nodes : bool -> list nat.
Definition model_is (m : string) (l : list V) : Prop :=
  match imodel m with
  | Some e => exists v, sem e = Some v /\ l = per_node v
  | None => exists i x vals, of_region i x m /\ nmodel i x = Some vals /\ l = map (fun k => nth k vals zero) (nodes i)
  end.
End S.
Arguments Sc {V}. Arguments Fl {V}.
