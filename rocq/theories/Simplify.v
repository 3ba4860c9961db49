(* Simplification of symbolic expressions: src/adiff/EquationObject.cc, UserFunc.cc.
   Simplifications: constants are real numbers; the order given by SortEqVector is any permutation (srt); comparing the texts of
   two expressions is any relation (same), and comparing the lengths of the texts any relation (shorter); the scale of a product
   is the product of its constants; the depth of the recursion and the number of rounds are limited by fuel, and running out of it gives None.
   Logical operators (LogicalFunc.cc) and references to other models (mcModel.cc) are not here. *)
From Coq Require Import String List Bool Reals.
From Verif Require Import Sym SymSpec.
Import ListNotations.
Open Scope list_scope.
Open Scope R_scope.

(* EquationObject.hh:30 EqObjType, getType *)
Definition kind (e : expr) : nat :=
  match e with Con _ => 0 | Var _ => 1 | Add _ => 2 | Prod _ => 3 | Exp _ => 4 | Pow _ _ => 5 | Log _ => 6 | User _ _ => 7 end.
Definition same_kind (x y : expr) : bool := Nat.eqb (kind x) (kind y).
(* the loops with isDone, EquationObject.cc:504-535, 1086-1122, 1168-1205, 1679-1705: each element with the later ones which are like it *)
Fixpoint groups (like : expr -> expr -> bool) (n : nat) (l : list expr) : list (expr * list expr) :=
  match n, l with
  | S n, x :: t => (x, filter (like x) t) :: groups like n (filter (fun y => negb (like x y)) t)
  | _, _ => []
  end.
Fixpoint opt_map (f : expr -> option expr) (l : list expr) : option (list expr) :=
  match l with
  | [] => Some []
  | a :: t => match f a with None => None | Some b => match opt_map f t with None => None | Some u => Some (b :: u) end end
  end.
Definition factors (e : expr) : list expr := match e with Prod l => l | _ => [e] end.
Definition addends (e : expr) : list expr := match e with Add l => l | _ => [e] end.
Definition argument (e : expr) : expr := match e with Exp a => a | _ => e end.
Definition base (e : expr) : expr := match e with Pow b _ => b | _ => e end.
Definition exponent (e : expr) : expr := match e with Pow _ a => a | _ => e end.

Section M.
Variable srt : list expr -> list expr.
Variable same shorter : expr -> expr -> bool.
Notation mk_prod := (mk_prod srt).
Notation mk_add := (mk_add srt).
Notation times := (times srt).

Definition prod_of (l : list expr) : expr := match l with [x] => x | _ => mk_prod l end.
(* EquationObject.cc:1675-1714 Pow::CombineProduct; y: all the powers *)
Definition pow_combine (y : list expr) : expr :=
  prod_of (map (fun g => Pow (base (fst g)) (match snd g with [] => exponent (fst g) | t => mk_add (exponent (fst g) :: map exponent t) end))
               (groups (fun a b => same (base a) (base b)) (length y) y)).
(* CombineProduct of the different types: EquationObject.cc:216-223, 318-328, 704-717, 1225-1232, 1361-1372, 1487-1494; UserFunc.cc:217-228 *)
Definition combine_prod (x : expr) (y : list expr) : expr :=
  match y with
  | [] => x
  | _ =>
      match x with
      | Con c => Con (fold_left Rmult (map con_val y) c)
      | Prod l => mk_prod (l ++ flat_map factors y)
      | Exp a => Exp (mk_add (a :: map argument y))
      | Pow _ _ => pow_combine (y ++ [x])
      | _ => mk_prod (y ++ [x])
      end
  end.
(* CombineAdd: EquationObject.cc:225-232, 330-346, 719-727, 1234-1247, 1374-1381, 1500-1507, 1716-1720; UserFunc.cc:204-215 *)
Definition combine_add (x : expr) (y : list expr) : expr :=
  match y with
  | [] => x
  | _ =>
      match x with
      | Con c => Con (fold_left Rplus (map (fun e => match e with Con d => d | _ => 0 end) y) (0 + c))
      | Add l => mk_add (l ++ flat_map addends y)
      | _ => mk_add (y ++ [x])
      end
  end.

Section R.
(* Simplify of the parts *)
Variable simp : expr -> option expr.
(* EquationObject.cc:482-583 ProductVecSimplify *)
Definition vec_simplify (l : list expr) : option (list expr) :=
  let l1 := map (fun e => match e with Var _ => Pow e (Con 1) | _ => e end) l in
  let l2 := map (fun g => combine_prod (fst g) (snd g)) (groups same_kind (length l1) l1) in
  let l3 := flat_map factors l2 in
  match opt_map simp (filter (fun e => negb (is_one e)) l3) with
  | None => None
  | Some [] => Some (if existsb is_one l3 then [Con 1] else [])
  | Some l4 => Some l4
  end.
(* EquationObject.cc:683-689 *)
Fixpoint reduce (n : nat) (l : list expr) : option (list expr) :=
  match n with
  | O => None
  | S n => match vec_simplify l with
           | None => None
           | Some t => if Nat.ltb (length t) (length l) then reduce n t else Some t
           end
  end.
(* EquationObject.cc:637-681 *)
Definition split_pow (e : expr) : list expr :=
  match e with
  | Pow b a =>
      if is_one a then [b]
      else match b with
           | Prod xx => xx ++ [Pow b (minus srt a (Con 1))]
           | _ => [b; Pow b (minus srt a (Con 1))]
           end
  | _ => [clone srt e]
  end.
(* EquationObject.cc:585-702 Product::Simplify *)
Definition prod_simplify (n : nat) (l : list expr) : option expr :=
  if existsb is_zero l then Some (Con 0)
  else match l with
       | [x] => simp x
       | _ =>
           match opt_map simp l with None => None | Some t0 =>
           match vec_simplify t0 with None => None | Some t =>
           let out := prod_of t in
           match (if Nat.ltb 1 (length t)
                  then match vec_simplify (srt (map (fun e => match e with Pow _ _ => e | _ => Pow e (Con 1) end) t)) with
                       | None => None
                       | Some u => Some (if shorter (prod_of u) out then prod_of u else out)
                       end
                  else Some out) with None => None | Some out =>
           match reduce n (flat_map split_pow t) with None => None | Some u =>
           Some (if shorter (prod_of u) out then prod_of u else out)
           end end end end
       end.
(* getScale, getUnscaledValue: EquationObject.cc:169-177, 263-271, 759-795, 1287-1295, 1393-1401, 1519-1527, 1732-1740; UserFunc.cc:184-192 *)
Definition get_scale (e : expr) : expr := match e with Con c => Con c | Prod l => Con (scale l) | _ => Con 1 end.
Definition get_unscaled (e : expr) : expr := match e with Con c => Con 1 | Prod l => unscaled srt l | _ => e end.
(* EquationObject.cc:1207-1212 *)
Definition scale_group (g : expr * list expr) : option expr :=
  let u := get_unscaled (fst g) in
  match simp (mk_add (get_scale (fst g) :: map get_scale (snd g))) with
  | None => None
  | Some fact => if is_one fact then Some u else simp (times fact u)
  end.
Fixpoint opt_groups (l : list (expr * list expr)) : option (list expr) :=
  match l with
  | [] => Some []
  | g :: t => match scale_group g with None => None | Some b => match opt_groups t with None => None | Some u => Some (b :: u) end end
  end.
(* EquationObject.cc:1067-1223 Add::Simplify. Terms which are zero are taken out before the factors are compared. *)
Definition add_simplify (l : list expr) : option expr :=
  match l with
  | [x] => simp x
  | _ =>
      match opt_map simp l with None => None | Some t =>
      let t2 := map (fun g => combine_add (fst g) (snd g)) (groups same_kind (length t) t) in
      match opt_map simp (flat_map addends t2) with None => None | Some t3 =>
      let t4 := filter (fun e => negb (is_zero e)) t3 in
      match opt_groups (groups (fun a b => same (get_unscaled a) (get_unscaled b)) (length t4) t4) with
      | None => None
      | Some [] => Some (Con 0)
      | Some [x] => Some x
      | Some t5 => Some (mk_add t5)
      end end end
  end.
(* EquationObject.cc:1628-1666 Pow::Simplify *)
Definition pow_simplify (b0 e0 : expr) : option expr :=
  match simp b0, simp e0 with
  | Some b, Some e =>
      if is_zero e then Some (Con 1)
      else if is_one e then Some b0
      else if is_one b then Some (Con 1)
      else if is_zero b then Some (Con 0)
      else match b, e with
           | Con x, Con y => Some (Con (rpow x y))
           | Pow b1 e1, _ => match simp (times e1 e) with None => None | Some e2 => Some (Pow b1 e2) end
           | _, _ => Some (Pow b e)
           end
  | _, _ => None
  end.
Definition opt_exp (o : option expr) (f : expr -> expr) : option expr := match o with None => None | Some a => Some (f a) end.
End R.

(* Simplify: EquationObject.cc:207-210, 313-316, 585, 1067, 1344-1356, 1458-1485, 1628; UserFunc.cc:150-159 *)
Fixpoint simplify (fuel : nat) (e : expr) : option expr :=
  match fuel with
  | O => None
  | S n =>
      match e with
      | Con c => Some (Con c)
      | Var s => Some (Var s)
      | Add l => add_simplify (simplify n) l
      | Prod l => prod_simplify (simplify n) n l
      | Exp a =>
          if is_zero a then Some (Con 1)
          else match a with
               | Log y => Some y
               | _ => opt_exp (simplify n a) Exp
               end
      | Log a =>
          if is_one a then Some (Con 0)
          else match a with
               | Exp y => Some y
               | Pow b x => Some (times x (Log b))
               | _ => opt_exp (simplify n a) Log
               end
      | Pow b x => pow_simplify (simplify n) b x
      | User f l => match opt_map (simplify n) l with None => None | Some t => Some (User f t) end
      end
  end.
End M.
