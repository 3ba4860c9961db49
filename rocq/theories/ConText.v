(* The text of a constant: src/adiff/EquationObject.cc:289-305 Constant::createStringValue, with the
   formatting of doubles by the C++ library (operator<< as %.6g, std::scientific with setprecision(15) as %.15e):
   the value correctly rounded to the given number of decimal digits, ties to even.
   Simplifications: constants are real numbers, so there is no -0, infinity or NaN. *)
From Coq Require Import Ascii String List Bool ZArith Reals.
From Flocq Require Import Core.
Import ListNotations.
Open Scope Z_scope.

Definition r10 : radix := Build_radix 10 eq_refl.
(* x rounded to p decimal digits; the exponent of its first digit; its p digits as a number *)
Definition rnd (p : Z) (x : R) : R := round r10 (FLX_exp p) ZnearestE x.
Definition expo (p : Z) (x : R) : Z := mag r10 (rnd p x) - 1.
Definition man (p : Z) (x : R) : Z := Ztrunc (scaled_mantissa r10 (FLX_exp p) (rnd p x)).
(* the last n decimal digits of m *)
Definition dig (d : Z) : ascii := ascii_of_nat (48 + Z.to_nat d).
Fixpoint wd (n : nat) (m : Z) : list ascii := match n with O => [] | S n => wd n (m / 10) ++ [dig (m mod 10)] end.
(* exponents: a sign and at least two digits *)
Definition exp_text (k : Z) : list ascii :=
  "e"%char :: (if k <? 0 then "-"%char else "+"%char) :: wd (Z.to_nat (Z.max 2 (Zdigits r10 (Z.abs k)))) (Z.abs k).
(* %g: zeros at the end are left out *)
Fixpoint drop0 (l : list ascii) : list ascii := match l with c :: t => if Ascii.eqb c "0" then drop0 t else l | [] => [] end.
Definition strip0 (l : list ascii) : list ascii := rev (drop0 (rev l)).
Definition point (l : list ascii) : list ascii := match l with c :: d :: t => c :: "."%char :: d :: t | _ => l end.
(* %.6g of |x|, x an integer: without exponent below 10^6 *)
Definition int_text (x : R) : list ascii :=
  if Req_EM_T x 0 then ["0"%char]
  else let k := expo 6 x in
       if k <? 6 then wd (Z.to_nat (k + 1)) (Z.abs (Ztrunc (rnd 6 x)))
       else point (strip0 (wd 6 (Z.abs (man 6 x)))) ++ exp_text k.
(* %.15e of |x| *)
Definition sci_text (x : R) : list ascii := point (wd 16 (Z.abs (man 16 x))) ++ exp_text (expo 16 x).
Definition whole (x : R) : bool := if Req_EM_T x (IZR (Zfloor x)) then true else false.
Definition con_text (x : R) : string :=
  let t := if whole x then int_text x else sci_text x in
  string_of_list_ascii (if Rlt_dec x 0 then "("%char :: "-"%char :: t ++ [")"%char] else t).
