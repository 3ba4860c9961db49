(* Time integration coefficients (C08) over the real numbers, and the history
   of accepted solves (C09). *)
From Coq Require Import List Bool Arith Reals.
From Verif Require Import Newton.
Import ListNotations.
Open Scope R_scope.

(* exact arithmetic instance of the numbers of Newton.v.  log_damp:
   Equation/Equation.cc:156-160 and Circuit/data/NodeKeeper.cc:334-338 *)
Definition log_damp (upd : R) : R :=
  let sign := if Rlt_dec 0 upd then 1 else -1 in
  sign * 0.0259 * ln (1 + Rabs upd / 0.0259).
Definition rb {P Q : Prop} (d : {P} + {Q}) : bool := if d then true else false.
Definition rops : ops R :=
  mkOps R 0 Rplus Rminus Rmult Rdiv Ropp Rabs
    (fun a b => rb (Rlt_dec a b)) (fun a b => rb (Rle_dec a b)) (fun a b => rb (Req_EM_T a b))
    log_damp 0.0259 0.001 (/ 2) (/ 10 ^ 20) (/ 10 ^ 10).

(* math/Newton.hh:70-87 DCOnly, TransientDC *)
Definition dc_only : @tparams R := mkTP DCONLY 0 0 0 0 1 0 0.
Definition transient_dc : @tparams R := mkTP INTEGRATEDC 0 0 0 0 1 0 0.
(* math/Newton.hh:89-104 BDF1 *)
Definition bdf1 (tstep gamma : R) : @tparams R :=
  let tdelta := gamma * tstep in
  let tf := 1 / tdelta in
  mkTP INTEGRATEBDF1 tdelta tf (- tf) 0 1 0 0.
(* math/Newton.hh:106-124 BDF2 *)
Definition bdf2 (tstep gamma : R) : @tparams R :=
  let tdelta := (1 - gamma) * tstep in
  mkTP INTEGRATEBDF2 tdelta ((2 - gamma) / tdelta) ((-1) / (gamma * tdelta)) ((1 - gamma) / (gamma * tstep)) 1 0 0.
(* math/Newton.hh:126-144 TR *)
Definition tr (tstep gamma : R) : @tparams R :=
  let tdelta := gamma * tstep in
  let tf := 2 / tdelta in
  mkTP INTEGRATETR tdelta tf (- tf) 0 1 1 0.

(* math/Newton.cc:673,686-699: right hand side of one row in an iteration.  [q], [i]:
   charge and current of the row as assembled at the present solution (the
   assembly of the charge is skipped when a0 = 0). *)
Definition transient_row (t : @tparams R) (rc q i : R) : R :=
  if is_transient t then
    let r := rc + tb0 t * i in
    if rb (Req_EM_T (ta0 t) 0) then r else r + ta0 t * q
  else rc + i.
