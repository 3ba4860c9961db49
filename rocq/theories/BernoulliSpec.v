(* The Bernoulli function x / (exp x - 1), continued by 1 at 0. *)
From Coq Require Import Reals.
Open Scope R_scope.
Definition Bern (x : R) : R := if Req_EM_T x 0 then 1 else x / (exp x - 1).
