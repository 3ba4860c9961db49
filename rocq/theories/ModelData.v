(* Storage of model values: src/models/ModelDataHolder.cc and src/models/ScalarData.cc.
   Simplifications: the lists given to set_values have the length of the model (the callers check it:
   ModelCommands.cc:1060-1085, NodeExprModel.cc:103-118); indexes given to set_indexes are in range. *)
From Coq Require Import List Bool Arith.
Import ListNotations.

Definition put_at {A} (l : list A) (i : nat) (v : A) : list A := firstn i l ++ match skipn i l with [] => [] | _ :: t => v :: t end.
Definition is_nil {A} (l : list A) : bool := match l with [] => true | _ => false end.

(* ---- ModelDataHolder ---- *)
Section H.
Variables (D X : Type) (d0 : D) (x0 : X) (up : D -> X) (down : X -> D).
(* ModelDataHolder.hh:79-88; ext: type is EXTENDED *)
Record holder := mkH { dv : list D; du : D; xv : list X; xu : X; len : nat; ext : bool; uni : bool }.
(* ModelDataHolder.hh:24-27 *)
Definition new_holder (n : nat) : holder := mkH [] d0 [] x0 n false true.
(* ModelDataHolder.cc:90-100 clear *)
Definition clear (h : holder) : holder := mkH [] d0 [] x0 (len h) false true.
(* ModelDataHolder.cc:63-88 expand_uniform *)
Definition expand (h : holder) : holder :=
  if uni h then if ext h then mkH [] d0 (repeat (xu h) (len h)) x0 (len h) true false
                else mkH (repeat (du h) (len h)) d0 [] x0 (len h) false false
  else h.
(* ModelDataHolder.cc:24-56 set_type EXTENDED *)
Definition to_ext (h : holder) : holder :=
  if ext h then h
  else if uni h then mkH (dv h) (du h) (xv h) (xu h) (len h) true true
  else mkH [] (du h) (map up (dv h)) (xu h) (len h) true false.
(* ModelDataHolder.cc:142-152 SetUniformValue *)
Definition set_uniform_d (h : holder) (v : D) : holder := mkH [] v [] (up v) (len h) false true.
Definition set_uniform_x (h : holder) (v : X) : holder := mkH [] (down v) [] v (len h) true true.
(* ModelDataHolder.cc:159-191 GetValues *)
Definition read_d (h : holder) : holder * list D :=
  let h := expand h in
  let h := if ext h && is_nil (dv h) then mkH (map down (xv h)) (du h) (xv h) (xu h) (len h) (ext h) (uni h) else h in
  (h, dv h).
Definition read_x (h : holder) : holder * list X :=
  let h := expand h in
  let h := if negb (ext h) && is_nil (xv h) then mkH (dv h) (du h) (map up (dv h)) (xu h) (len h) (ext h) (uni h) else h in
  (h, xv h).
(* ModelDataHolder.cc:193-260 set_indexes: the other elements become 0 *)
Definition mask {A} (z : A) (n : nat) (idx : list nat) (f : nat -> A) : list A :=
  map (fun i => if existsb (Nat.eqb i) idx then f i else z) (seq 0 n).
Definition set_indexes_d (h : holder) (idx : list nat) (f : nat -> D) : holder :=
  mkH (mask d0 (len h) idx f) d0 [] x0 (len h) false false.
Definition set_indexes_x (h : holder) (idx : list nat) (f : nat -> X) : holder :=
  mkH [] d0 (mask x0 (len h) idx f) x0 (len h) true false.
(* ModelDataHolder.cc:262-281 set_values *)
Definition set_values_d (h : holder) (l : list D) : holder := mkH l (du h) [] (xu h) (len h) false false.
Definition set_values_x (h : holder) (l : list X) : holder := mkH [] (du h) l (xu h) (len h) true false.
(* ModelDataHolder.cc:283-299 SetValue, extended *)
Definition set_value_x (h : holder) (i : nat) (v : X) : holder :=
  if len h <=? i then h else
  let h := expand (to_ext h) in mkH (dv h) (du h) (put_at (xv h) i v) (xu h) (len h) (ext h) (uni h).
(* ModelDataHolder.cc:301-321 SetValue, double *)
Definition set_value_d (h : holder) (i : nat) (v : D) : holder :=
  if len h <=? i then h else
  if ext h then set_value_x h i (up v)
  else let h := expand h in mkH (put_at (dv h) i v) (du h) (xv h) (xu h) (len h) (ext h) (uni h).
(* ModelDataHolder.cc:102-112 IsZero, IsOne *)
Definition is_const (is : D -> bool) (h : holder) : bool := uni h && is (du h).

Inductive hop :=
| SetUniformD (v : D) | SetUniformX (v : X)
| SetValueD (i : nat) (v : D) | SetValueX (i : nat) (v : X)
| SetIndexesD (idx : list nat) (f : nat -> D) | SetIndexesX (idx : list nat) (f : nat -> X)
| SetValuesD (l : list D) | SetValuesX (l : list X)
| ReadD | ReadX | Clear.
Definition hstep (h : holder) (o : hop) : holder :=
  match o with
  | SetUniformD v => set_uniform_d h v
  | SetUniformX v => set_uniform_x h v
  | SetValueD i v => set_value_d h i v
  | SetValueX i v => set_value_x h i v
  | SetIndexesD idx f => set_indexes_d h idx f
  | SetIndexesX idx f => set_indexes_x h idx f
  | SetValuesD l => set_values_d h l
  | SetValuesX l => set_values_x h l
  | ReadD => fst (read_d h)
  | ReadX => fst (read_x h)
  | Clear => clear h
  end.
End H.

(* ---- ScalarData ---- *)
Section D.
Variable V : Type.
Variables (zero one : V) (add mul : V -> V -> V) (is0 is1 : V -> bool).
(* ScalarData.hh:127-137: isuniform with uniform_value and length; otherwise the values, its own (values) or those of
   the model it refers to (refdata), which do not change while it is in use *)
Inductive cell := Uni (v : V) (n : nat) | Vals (l : list V).
(* ScalarData.cc:109-126 GetScalarList, 79-99 operator[] const *)
Definition elems (c : cell) : list V := match c with Uni v n => repeat v n | Vals l => l end.
(* ScalarData.cc:62-76 MakeAssignable, 101-107 operator[] *)
Definition assign (c : cell) (i : nat) (v : V) : cell := Vals (put_at (elems c) i v).
(* ScalarData.cc:160-174 op_equal_scalar *)
Definition op_scalar (op : V -> V -> V) (c : cell) (v : V) : cell :=
  match c with Uni u n => Uni (op u v) n | Vals l => Vals (map (fun x => op x v) l) end.
(* ScalarData.cc:136-158 op_equal_data: the loop runs over the elements of this object; None: the other one is shorter,
   its vector is read outside its bounds *)
Fixpoint zip (op : V -> V -> V) (a b : list V) : option (list V) :=
  match a, b with
  | [], _ => Some []
  | x :: a, y :: b => option_map (cons (op x y)) (zip op a b)
  | _ :: _, [] => None
  end.
Definition op_data (op : V -> V -> V) (c d : cell) : option cell :=
  match c, d with
  | Uni u n, Uni v _ => Some (Uni (op u v) n)
  | _, Uni v _ => Some (op_scalar op c v)
  | _, Vals l => option_map Vals (zip op (elems c) l)
  end.
(* ScalarData.hh:113-121 IsZero, IsOne *)
Definition is_zero (c : cell) : bool := match c with Uni v _ => is0 v | _ => false end.
Definition is_one (c : cell) : bool := match c with Uni v _ => is1 v | _ => false end.
Definition clen (c : cell) : nat := match c with Uni _ n => n | Vals l => length l end.
(* ScalarData.cc:177-219 times_equal_model, times_equal_data *)
Definition times_data (c d : cell) : option cell :=
  if is_zero c || is_one d then Some c
  else if is_zero d then Some (Uni zero (clen c))
  else if is_one c then Some d
  else op_data mul c d.
(* ScalarData.cc:221-244 times_equal_scalar *)
Definition times_scalar (c : cell) (v : V) : cell :=
  if is_zero c || is1 v then c
  else if is0 v then Uni zero (clen c)
  else if is_one c then Uni v (clen c)
  else op_scalar mul c v.
(* ScalarData.cc:262-278 plus_equal_data *)
Definition plus_data (c d : cell) : option cell :=
  if is_zero c then Some d else if is_zero d then Some c else op_data add c d.
(* ScalarData.cc:247-260 plus_equal_model *)
Definition plus_model (c d : cell) : option cell :=
  if is_zero c then Some d else op_data add c d.
(* ScalarData.cc:281-299 plus_equal_scalar *)
Definition plus_scalar (c : cell) (v : V) : cell :=
  if is0 v then c else match c with Uni u n => if is0 u then Uni v n else op_scalar add c v | Vals _ => op_scalar add c v end.
Inductive sop :=
| TimesData (d : cell) | TimesScalar (v : V) | PlusData (d : cell) | PlusModel (d : cell) | PlusScalar (v : V) | Assign (i : nat) (v : V).
Definition sstep (c : cell) (o : sop) : option cell :=
  match o with
  | TimesData d => times_data c d
  | TimesScalar v => Some (times_scalar c v)
  | PlusData d => plus_data c d
  | PlusModel d => plus_model c d
  | PlusScalar v => Some (plus_scalar c v)
  | Assign i v => Some (assign c i v)
  end.
(* ModelExprEval.cc:782-796 vec_sum (identity on elements): a uniform value is multiplied by the length *)
Variable of_nat : nat -> V.
Definition vec_sum (c : cell) : V := match c with Uni v n => mul v (of_nat n) | Vals l => fold_left add l zero end.
End D.
Arguments Uni {V}. Arguments Vals {V}.
Arguments mkH {D X}. Arguments dv {D X}. Arguments du {D X}. Arguments xv {D X}. Arguments xu {D X}. Arguments len {D X}. Arguments ext {D X}. Arguments uni {D X}.
Arguments SetUniformD {D X}. Arguments SetUniformX {D X}. Arguments SetValueD {D X}. Arguments SetValueX {D X}. Arguments SetIndexesD {D X}. Arguments SetIndexesX {D X}.
Arguments SetValuesD {D X}. Arguments SetValuesX {D X}. Arguments ReadD {D X}. Arguments ReadX {D X}. Arguments Clear {D X}.
Arguments TimesData {V}. Arguments TimesScalar {V}. Arguments PlusData {V}. Arguments PlusModel {V}. Arguments PlusScalar {V}. Arguments Assign {V}.
