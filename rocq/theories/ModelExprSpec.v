(* What the value of a model expression is meant to be: no cache, no sharing, no uniform representation.
   A value is a number or one number per node, edge, triangle edge or tetrahedron edge; arithmetic and functions act
   element by element, edge values being copied to the edges of the triangles (tetrahedra) when mixed with values there.
   None: the expression has no value here (unknown variable, floating point exception, node values mixed with edge
   values, test of "if" that is not a number). *)
From Coq Require Import String List Bool Arith.
From Verif Require Import ModelData ModelExpr.
Import ListNotations.
Open Scope list_scope.

Section S.
Variable V : Type.
Variables (zero one : V) (add mul : V -> V -> V) (is0 : V -> bool) (lt : V -> V -> bool).
Variables (bad_add bad_mul : V -> V -> bool).
Variable fn : string -> nat -> option (list V -> V * bool).
Variable var : string -> option V.
Variables (tri_edge tet_edge : list nat).
Variable len : kind -> nat.
(* what may be mixed: edge with triangle edge values, edge with tetrahedron edge values; whether vec_sum is allowed *)
Variables (mix_tri mix_tet vec : bool).
(* the values of the models of the region; None: there is no model of that name *)
Variable rho : string -> option (kind * list V).

Inductive val := Sc (v : V) | Fl (k : kind) (l : list V).
Definition join (a b : kind) : option kind :=
  match a, b with
  | Node, Node => Some Node
  | Edge, Edge => Some Edge
  | Tri, Tri => Some Tri
  | Tet, Tet => Some Tet
  | Edge, Tri | Tri, Edge => if mix_tri then Some Tri else None
  | Edge, Tet | Tet, Edge => if mix_tet then Some Tet else None
  | _, _ => None
  end.
Definition slots (k : kind) : list nat := match k with Tri => tri_edge | _ => tet_edge end.
Definition up (j k : kind) (l : list V) : list V :=
  match k, j with
  | Edge, Tri | Edge, Tet => map (fun e => nth e l zero) (slots j)
  | _, _ => l
  end.
Definition lift2 (op : V -> V -> V) (bad : V -> V -> bool) (a b : val) : option val :=
  match a, b with
  | Sc x, Sc y => if bad x y then None else Some (Sc (op x y))
  | Sc x, Fl k l => if existsb (fun y => bad x y) l then None else Some (Fl k (map (fun y => op x y) l))
  | Fl k l, Sc y => if existsb (fun x => bad x y) l then None else Some (Fl k (map (fun x => op x y) l))
  | Fl k l, Fl k' l' =>
      match join k k' with
      | None => None
      | Some j => let p := combine (up j k l) (up j k' l') in
                  if existsb (fun q => bad (fst q) (snd q)) p then None
                  else Some (Fl j (map (fun q => op (fst q) (snd q)) p))
      end
  end.
(* the kind of a list of values: Some None when they are all numbers *)
Definition meet (k : kind) (r : option kind) : option (option kind) :=
  match r with None => Some (Some k) | Some j => option_map Some (join k j) end.
Fixpoint kinds (l : list val) : option (option kind) :=
  match l with
  | [] => Some None
  | Sc _ :: t => kinds t
  | Fl k _ :: t => match kinds t with None => None | Some r => meet k r end
  end.
Definition elem (j : kind) (i : nat) (x : val) : V := match x with Sc v => v | Fl k l => nth i (up j k l) zero end.
Definition best (better : V -> V -> bool) (l : list V) : option V :=
  match l with [] => None | x :: t => Some (fold_left (fun m y => if better m y then y else m) t x) end.
Definition reduce (f : string) (k : kind) (l : list V) : option val :=
  if String.eqb f "vec_sum" then if vec then Some (Sc (fold_left add l zero)) else None
  else if String.eqb f "vec_max" then option_map Sc (best lt l)
  else if String.eqb f "vec_min" then option_map Sc (best (fun a b => lt b a) l)
  else Some (Fl k l).
Definition apply (f : string) (vs : list val) : option val :=
  match vs, fn f (length vs), kinds vs with
  | _ :: _, Some g, Some None => let r := g (map (elem Node 0) vs) in if snd r then None else Some (Sc (fst r))
  | _ :: _, Some g, Some (Some j) =>
      let rows := map (fun i => g (map (elem j i) vs)) (seq 0 (len j)) in
      if existsb snd rows then None else reduce f j (map fst rows)
  | _, _, _ => None
  end.

Fixpoint all {A} (l : list (option A)) : option (list A) :=
  match l with
  | [] => Some []
  | x :: t => match x, all t with Some x, Some t => Some (x :: t) | _, _ => None end
  end.
(* the sum of the values, from the left; the product, up to the first factor that is the number 0 *)
Fixpoint total (acc : val) (l : list (option val)) : option val :=
  match l with
  | [] => Some acc
  | x :: t => match x with
              | Some x => match lift2 add bad_add acc x with Some acc => total acc t | None => None end
              | None => None
              end
  end.
Definition is_zero (x : val) : bool := match x with Sc v => is0 v | _ => false end.
Fixpoint product (acc : val) (l : list (option val)) : option val :=
  match l with
  | [] => Some acc
  | x :: t => match x with
              | Some x => if is_zero x then Some (Sc zero)
                          else match lift2 mul bad_mul acc x with Some acc => product acc t | None => None end
              | None => None
              end
  end.

Fixpoint sem (e : expr V) : option val :=
  match e with
  | Const v => Some (Sc v)
  | Var s => option_map Sc (var s)
  | Model n => match rho n with Some (k, l) => Some (Fl k l) | None => Some (Sc zero) end
  | Prod l => product (Sc one) (map sem l)
  | Sum l => total (Sc zero) (map sem l)
  | If t a => match sem t with
              | Some (Sc v) => if is0 v then Some (Sc zero) else sem a
              | _ => None
              end
  | IfElse t a b => match sem t with
                    | Some (Sc v) => if is0 v then sem b else sem a
                    | Some x => match sem a, sem b with Some y, Some z => apply "ifelse" [x; y; z] | _, _ => None end
                    | None => None
                    end
  | Fun f l => match all (map sem l) with Some vs => apply f vs | None => None end
  end.

(* the values a model of kind k gets from an expression *)
Definition assign (k : kind) (x : val) : option (list V) :=
  match x with
  | Sc v => Some (repeat v (len k))
  | Fl k' l => match join k k' with Some j => if kind_eqb j k then Some (up k k' l) else None | None => None end
  end.

Fixpoint models (e : expr V) : list string :=
  match e with
  | Const _ | Var _ => []
  | Model n => [n]
  | Prod l | Sum l | Fun _ l => flat_map models l
  | If t a => models t ++ models a
  | IfElse t a b => models t ++ models a ++ models b
  end.
End S.
Arguments Sc {V}. Arguments Fl {V}.
