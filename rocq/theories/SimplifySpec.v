(* The points at which the simplification of an expression is claimed to keep its value. *)
From Coq Require Import String List Bool Reals ZArith.
From Verif Require Import Sym SymSpec.
Import ListNotations.
Open Scope R_scope.

(* sums and products of constants *)
Fixpoint constants (e : expr) : Prop :=
  match e with
  | Con _ => True
  | Add l => fold_right (fun a p => constants a /\ p) True l
  | Prod l => l <> [] /\ fold_right (fun a p => constants a /\ p) True l
  | _ => False
  end.
Definition product (e : expr) : Prop := exists l, e = Prod l.

Section S.
Variable F : string -> list R -> R.
Notation ev := (ev F).
(* Every log has a positive argument. Every power has a positive base, or an exponent which is an integer constant, then
   positive if the base is 0. Inside the arguments of log and the bases of powers of the first sort (strict), also:
   there is no other log, powers have positive bases, the factors of products are constants or positive,
   and the terms of sums are constants, positive, or products. Products are not empty. *)
Fixpoint tame (strict : bool) (r : env) (e : expr) : Prop :=
  match e with
  | Con _ | Var _ => True
  | Add l => fold_right (fun a p => (tame strict r a /\ (strict = true -> constants a \/ 0 < ev r a \/ product a)) /\ p) True l
  | Prod l => l <> [] /\ fold_right (fun a p => (tame strict r a /\ (strict = true -> constants a \/ 0 < ev r a)) /\ p) True l
  | Exp a => tame false r a
  | Log a => strict = false /\ tame true r a /\ 0 < ev r a
  | Pow b x => (tame true r b /\ 0 < ev r b /\ tame false r x) \/
      (strict = false /\ tame false r b /\ exists n : Z, x = Con (IZR n) /\ (ev r b <> 0 \/ (1 <= n)%Z))
  | User f l => fold_right (fun a p => tame false r a /\ p) True l
  end.
End S.
