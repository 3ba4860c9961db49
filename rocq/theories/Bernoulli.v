(* B(x) and dBdx of the expressions: src/MathEval/Bernoulli.cc:16-185 (not Android).
   Simplifications: real numbers; expm1 is a parameter (exp x - 1 or a rounded version); eps is the epsilon of the precision. *)
From Coq Require Import Reals.
Open Scope R_scope.

Section M.
Variable eps : R.
Variable expm1 : R -> R.
(* Bernoulli.cc:12-20 GetLogEpsilon *)
Definition pleps : R := Rabs (ln eps).
(* Bernoulli.cc:24-76 BernoulliImpl *)
Definition bernoulli_impl (x : R) : R :=
  if Rlt_dec (Rabs x) pleps then
    let ex1 := expm1 x in
    if Req_EM_T x ex1 then 1 / (1 + 1 / 2 * x) else x * / ex1
  else if Rlt_dec 0 x then x * exp (- x)
  else - x.
(* Bernoulli.cc:82-94 Bernoulli *)
Definition bernoulli (x : R) : R := if Req_EM_T x 0 then 1 else bernoulli_impl x.
(* Bernoulli.cc:98-160 derBernoulliImpl *)
Definition der_bernoulli_impl (x : R) : R :=
  if Rlt_dec (Rabs x) pleps then
    let ex1 := expm1 x in
    if Req_EM_T x ex1 then (- (1 / 2) - x / 3) / (1 + x)
    else (ex1 - x * exp x) * / (ex1 * ex1)
  else if Rlt_dec 0 x then exp (- x) * (1 - x)
  else - 1 - x * exp x.
(* Bernoulli.cc:163-176 derBernoulli *)
Definition der_bernoulli (x : R) : R := if Req_EM_T x 0 then - (1 / 2) else der_bernoulli_impl x.
End M.
