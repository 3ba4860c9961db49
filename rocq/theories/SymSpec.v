(* The value of a symbolic expression at a point *)
From Coq Require Import Ascii String List Bool Reals ZArith.
From Verif Require Import Sym.
Import ListNotations.
Open Scope R_scope.

Definition env := string -> R.
Definition upd (r : env) (x : string) (t : R) : env := fun s => if String.eqb s x then t else r s.
(* std::pow: a negative or zero base needs an integer exponent *)
Definition rpow (b e : R) : R :=
  if Rlt_dec 0 b then Rpower b e
  else if Req_EM_T e (IZR (Int_part e)) then powerRZ b (Int_part e) else 0.

Section S.
(* the functions declared by the user *)
Variable F : string -> list R -> R.
Fixpoint ev (r : env) (e : expr) : R :=
  match e with
  | Con c => c
  | Var s => r s
  | Add l => fold_right (fun a s => ev r a + s) 0 l
  | Prod l => fold_right (fun a s => ev r a * s) 1 l
  | Exp a => exp (ev r a)
  | Pow b a => rpow (ev r b) (ev r a)
  | Log a => ln (ev r a)
  | User f l => F f (map (ev r) l)
  end.

(* f is differentiable at vs with partial derivatives ps: the chain rule holds along every differentiable curve *)
Definition differentiable (f : list R -> R) (vs ps : list R) : Prop :=
  forall (g : list (R -> R)) t dg, map (fun h => h t) g = vs -> Forall2 (fun h d => derivable_pt_lim h t d) g dg ->
  derivable_pt_lim (fun s => f (map (fun h => h s) g)) t (fold_right Rplus 0 (map (fun p => fst p * snd p) (combine ps dg))).

(* values of the formal arguments *)
Definition bind (r : env) (names : list string) (vs : list R) : env := fold_right (fun p r => upd r (fst p) (snd p)) r (combine names vs).

(* the derivatives of a function with respect to its arguments, as declared by the user, at the point r *)
Variable partials : string -> env -> list R -> list R.
(* the points at which e is regular: arguments of log positive; base of a power positive, or the exponent an integer
   constant (not negative when the base is 0); user functions differentiable, with the partial derivatives declared *)
Fixpoint regular (r : env) (e : expr) : Prop :=
  match e with
  | Con _ | Var _ => True
  | Add l | Prod l => (fix go l := match l with [] => True | a :: t => regular r a /\ go t end) l
  | Exp a => regular r a
  | Log a => regular r a /\ 0 < ev r a
  | Pow b a => regular r b /\ regular r a /\
      (0 < ev r b \/ exists n : Z, a = Con (IZR n) /\ (ev r b <> 0 \/ (0 <= n)%Z))
  | User f l => (fix go l := match l with [] => True | a :: t => regular r a /\ go t end) l /\
      differentiable (F f) (map (ev r) l) (partials f r (map (ev r) l))
  end.
End S.

(* products made by the operators have at least two factors; the number of arguments of a function is that declared *)
Fixpoint wf (arity : string -> nat) (e : expr) : Prop :=
  match e with
  | Con _ | Var _ => True
  | Add l => (fix go l := match l with [] => True | a :: t => wf arity a /\ go t end) l
  | Prod l => (2 <= length l)%nat /\ (fix go l := match l with [] => True | a :: t => wf arity a /\ go t end) l
  | Exp a | Log a => wf arity a
  | Pow b a => wf arity b /\ wf arity a
  | User f l => length l = arity f /\ (fix go l := match l with [] => True | a :: t => wf arity a /\ go t end) l
  end.
Fixpoint vars (e : expr) : list string :=
  match e with
  | Con _ => []
  | Var s => [s]
  | Add l | Prod l | User _ l => flat_map vars l
  | Exp a | Log a => vars a
  | Pow b a => vars b ++ vars a
  end.

(* names accepted by the scanner: mcScanner.l:87 *)
Definition letter (c : ascii) : Prop := let n := nat_of_ascii c in (65 <= n <= 90 \/ 97 <= n <= 122)%nat.
Definition ident (s : string) : Prop := match s with EmptyString => False | String c _ => letter c end.
(* the text of an expression is that of a name only for the variable of that name *)
Definition text (key : expr -> string) : Prop := forall e v, (v = EmptyString \/ ident v \/ exists w, ident w /\ v = reserved w) -> key e = v <-> e = Var v.
Definition darity (d : decl) : nat := match d with Declared n => n | Defined names _ | Redefined names _ => length names end.
Definition dpartials (F : string -> list R -> R) (d : decl) (r : env) (vs : list R) : list R :=
  match d with Declared n => repeat 0 n | Defined names ds | Redefined names ds => map (ev F (bind r names vs)) ds end.
Definition idents (e : expr) : Prop := forall s, In s (vars e) -> ident s.
(* definitions the theorem is about: not those of functions which were declared before *)
Definition good_decl (arity : string -> nat) (d : decl) : Prop :=
  match d with
  | Declared _ => True
  | Defined names ds => length ds = length names /\ NoDup names /\ Forall ident names /\ Forall idents ds /\ Forall (wf arity) ds
  | Redefined _ _ => False
  end.
