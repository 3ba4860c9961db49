(* Model of Newton::Solve, of the solution update it drives, and of the
   transient history.

   Numbers: [D] with operations [ops], no law assumed in this file, so the model
   covers IEEE double (where comparisons with NaN are false) as well as exact
   arithmetic.  The assembled linear system and its solver are an oracle: it may
   look at the iteration number, the whole state and the constant part of the
   right hand side, and returns either a failure or a vector.  [asmQ]/[asmI] are
   the assembled charge and current vectors of a state (LoadMatrixAndRHS with
   TIME resp. DC, WhatToLoad::RHS, scale 1); also oracles.

   Simplifications: double only (no extended precision build); an element model
   is its kind (solution or not) and its vector of values: models that are not
   solutions do not change while solve runs as far as backup/restore can see;
   output and the info dictionary are not modelled, except the error figures.
   A C++ exception (dsException from FATAL or dsAssert) is the outcome Threw: it
   unwinds out of Solve up to PythonCommands.cc:128, no handler in between. *)
From Coq Require Import String List ZArith Arith Bool.
Import ListNotations.

Record ops (D : Type) := mkOps {
  zero : D; add : D -> D -> D; sub : D -> D -> D; mul : D -> D -> D; div : D -> D -> D;
  opp : D -> D; absv : D -> D; ltb : D -> D -> bool; leb : D -> D -> bool; eqb : D -> D -> bool;
  logdamp : D -> D;        (* the LOGDAMP step for |upd| > 0.0259 *)
  c0259 : D; c001 : D; half : D; qeps : D; (* 0.0259, 0.001, 0.5, 1e-20 *)
  cirmin : D }.            (* 1e-10, NodeKeeper.cc:311 *)
Arguments zero {D}. Arguments add {D}. Arguments sub {D}. Arguments mul {D}.
Arguments div {D}. Arguments opp {D}. Arguments absv {D}. Arguments ltb {D}.
Arguments leb {D}. Arguments eqb {D}. Arguments logdamp {D}. Arguments c0259 {D}.
Arguments c001 {D}. Arguments half {D}. Arguments qeps {D}. Arguments cirmin {D}.

(* EquationEnum::UpdateType (Equation/Equation.hh) and CircuitUpdateType
   (Circuit/data/CircuitNode.hh) *)
Inductive updtype := DEFAULT | LOGDAMP | POSITIVE.

(* Equation/Equation.cc:241-315 works on one equation: its index in the region,
   its variable, update type and minError *)
Record eqn (D : Type) := mkEqn { e_name : string; e_index : nat; e_var : string; e_upd : updtype; e_min : D }.
Arguments e_name {D}. Arguments e_index {D}. Arguments e_var {D}. Arguments e_upd {D}. Arguments e_min {D}.

(* models/NodeModel.hh, models/NodeSolution.hh: kind and values *)
Record nmodel (D : Type) := mkNM { nm_sol : bool; nm_vals : list D }.
Arguments mkNM {D}. Arguments nm_sol {D}. Arguments nm_vals {D}.

(* Geometry/Region.hh: first row (baseeqnnum), number of nodes, keys of
   variableEquationMap, equations in name order (equationPointerMap), node models *)
Record region (D : Type) := mkReg { r_base : nat; r_nn : nat; r_vars : list string;
  r_eqs : list (eqn D); r_models : string -> option (nmodel D) }.
Arguments mkReg {D}. Arguments r_base {D}. Arguments r_nn {D}. Arguments r_vars {D}.
Arguments r_eqs {D}. Arguments r_models {D}.

(* Geometry/Device.hh: regions in name order *)
Definition device (D : Type) := list (region D).

(* Circuit/data/NodeKeeper.hh: the node table (update type of the non-ground nodes,
   the i-th of them has number i, see SetNodeNumbers), minEquationNumber, and the
   solutions "dcop" and "dcop_prev" (None: not created yet).
   c_have = HaveNodes() *)
Record circuit (D : Type) := mkCir { c_have : bool; c_types : list updtype; c_min : nat;
  c_sol : option (list D); c_prev : option (list D) }.
Arguments mkCir {D}. Arguments c_have {D}. Arguments c_types {D}. Arguments c_min {D}.
Arguments c_sol {D}. Arguments c_prev {D}.

(* math/TimeData.hh:15-62: charge and current at TM0, TM1, TM2; [] = empty *)
Record tdata (D : Type) := mkTD { q0 : list D; q1 : list D; q2 : list D; i0 : list D; i1 : list D; i2 : list D }.
Arguments mkTD {D}. Arguments q0 {D}. Arguments q1 {D}. Arguments q2 {D}.
Arguments i0 {D}. Arguments i1 {D}. Arguments i2 {D}.

Record state (D : Type) := mkSt { s_devs : list (device D); s_cir : circuit D; s_td : tdata D }.
Arguments mkSt {D}. Arguments s_devs {D}. Arguments s_cir {D}. Arguments s_td {D}.

(* result of a C++ call that may throw or (NodeKeeper POSITIVE loop) not return *)
Inductive res (A : Type) := Ok (a : A) | Throw | Hang.
Arguments Ok {A}. Arguments Throw {A}. Arguments Hang {A}.

Section Newton.
Context {D : Type} (F : ops D).

(* ---- Equation/Equation.cc:149-239, one node ---------------------------- *)
(* returns (nval, upd); None: SolutionVariableNonPositive is FATAL, throws *)
(* Equation.cc:150-173 *)
Definition log_update (oval upd : D) : option (D * D) :=
  let u := if ltb F (c0259 F) (absv F upd) then logdamp F upd else upd in
  Some (add F u oval, u).
(* Equation.cc:175-223 *)
Definition positive_update (oval upd : D) : option (D * D) :=
  let nval := add F upd oval in
  if ltb F (zero F) oval then
    if leb F nval (zero F) then
      let n1 := mul F (c001 F) oval in
      let n2 := if leb F n1 (zero F) then mul F (half F) oval else n1 in
      let n3 := if leb F n1 (zero F) then (if leb F n2 (zero F) then oval else n2) else n2 in
      Some (n3, sub F n3 oval)
    else Some (nval, upd)
  else None.
(* Equation.cc:225-238 *)
Definition default_update (oval upd : D) : option (D * D) := Some (add F upd oval, upd).

(* Equation.cc:271-289 dispatch *)
Definition node_update (ut : updtype) : D -> D -> option (D * D) :=
  match ut with LOGDAMP => log_update | POSITIVE => positive_update | DEFAULT => default_update end.

Fixpoint node_updates (ut : updtype) (ovals upds : list D) : option (list (D * D)) :=
  match ovals, upds with
  | o :: os, u :: us => match node_update ut o u with
                        | Some p => option_map (cons p) (node_updates ut os us)
                        | None => None
                        end
  | _, _ => Some nil
  end.

(* Equation.cc:293-312: maxima over the nodes, with the index of the last
   strict increase of the absolute error *)
Record err := mkErr { aerr : D; rerr : D; anode : nat; rnode : nat }.
Fixpoint errs (mine : D) (i : nat) (l : list (D * D)) (a r : D) (an : nat) : err :=
  match l with
  | nil => mkErr a r an an       (* 314-317: setRelErrorNodeIndex(aerr_node) *)
  | (nval, upd) :: t =>
    let n1 := absv F upd in
    let a' := if ltb F a n1 then n1 else a in
    let an' := if ltb F a n1 then i else an in
    let rel := div F n1 (add F (absv F nval) mine) in
    let r' := if ltb F r rel then rel else r in
    errs mine (S i) t a' r' an'
  end.

Definition set_model (r : region D) (v : string) (m : nmodel D) : region D :=
  mkReg (r_base r) (r_nn r) (r_vars r) (r_eqs r)
    (fun s => if String.eqb s v then Some m else r_models r s).

(* Equation.cc:241-317 DefaultUpdate with Region.cc:1305-1331 fetching the model.
   Row of node i: Region::GetEquationNumber = base + index*nnodes + i; a node model
   has one value per node (length ovals = r_nn).
   None: exception (missing model, or non positive variable). *)
Definition eq_update (r : region D) (e : eqn D) (result : nat -> D) : option (region D * err) :=
  match r_models r (e_var e) with
  | None => None
  | Some m =>
    let ovals := nm_vals m in
    let upds := map (fun i => result (r_base r + e_index e * r_nn r + i)) (seq 0 (length ovals)) in
    match node_updates (e_upd e) ovals upds with
    | None => None
    | Some l => Some (set_model r (e_var e) (mkNM (nm_sol m) (map fst l)),
                      errs (e_min e) 0 l (zero F) (zero F) 0)
    end
  end.

(* Region.cc:1304-1345 Update: sums over the equations.  The state reached so
   far is returned with an exception too (fst). *)
Fixpoint region_update_eqs (r : region D) (es : list (eqn D)) (result : nat -> D) (a rl : D)
  : region D * option (D * D) :=
  match es with
  | nil => (r, Some (a, rl))
  | e :: t => match eq_update r e result with
              | None => (r, None)
              | Some (r', er) => region_update_eqs r' t result (add F a (aerr er)) (add F rl (rerr er))
              end
  end.
Definition region_update (r : region D) (result : nat -> D) : region D * option (D * D) :=
  region_update_eqs r (r_eqs r) result (zero F) (zero F).

(* Device.cc:336-358 Update: absError maximum, relError sum over the regions *)
Fixpoint device_update (d : device D) (result : nat -> D) (a rl : D) : device D * option (D * D) :=
  match d with
  | nil => (nil, Some (a, rl))
  | r :: t => match region_update r result with
              | (r', None) => (r' :: t, None)
              | (r', Some (ra, rr)) =>
                let (t', o) := device_update t result (if ltb F a ra then ra else a) (add F rl rr) in
                (r' :: t', o)
              end
  end.

(* Newton.cc:730-739 *)
Fixpoint devices_update (ds : list (device D)) (result : nat -> D)
  : list (device D) * option (list (D * D)) :=
  match ds with
  | nil => (nil, Some nil)
  | d :: t => match device_update d result (zero F) (zero F) with
              | (d', None) => (d' :: t, None)
              | (d', Some er) =>
                let (t', o) := devices_update t result in
                (d' :: t', option_map (cons er) o)
              end
  end.

(* ---- Circuit/data/NodeKeeper.cc:299-368 UpdateSolution ----------------- *)
(* 340-346: while ((upd+oval) <= 0) upd /= 2 (written mul half, equal in IEEE);  fuel exhausted = Hang *)
Fixpoint halve (fuel : nat) (oval upd : D) : res D :=
  if leb F (add F upd oval) (zero F) then
    match fuel with O => Hang | S f => halve f oval (mul F (half F) upd) end
  else Ok upd.
Definition cir_node_update (fuel : nat) (ut : updtype) (oval upd : D) : res D :=
  match ut with
  | LOGDAMP => Ok (if ltb F (c0259 F) (absv F upd) then logdamp F upd else upd)
  | POSITIVE => halve fuel oval upd
  | DEFAULT => Ok upd
  end.
Fixpoint cir_update (fuel : nat) (types : list updtype) (sol : list D) (row : nat) (result : nat -> D)
    (a r : D) : res (list D * (D * D)) :=
  match types, sol with
  | ut :: ts, oval :: os =>
    match cir_node_update fuel ut oval (result row) with
    | Hang => Hang | Throw => Throw
    | Ok upd =>
      let nval := add F upd oval in
      let n1 := absv F upd in
      let rel := div F n1 (add F (absv F nval) (cirmin F)) in
      match cir_update fuel ts os (S row) result (add F a n1) (if ltb F r rel then rel else r) with
      | Ok (l, er) => Ok (nval :: l, er)
      | Throw => Throw | Hang => Hang
      end
    end
  | _, _ => Ok (sol, (a, r))
  end.

(* ---- Newton.cc:424-480, Region.cc:1399-1461 backup and restore ---------- *)
Definition prev (v : string) : string := (v ++ "_prev")%string.

Definition backup_var (r : region D) (v : string) : option (region D) :=
  match r_models r v with
  | None => None                                 (* dsAssert "not available" *)
  | Some m =>
    match r_models r (prev v) with
    | Some b => Some (if nm_sol b then set_model r (prev v) (mkNM true (nm_vals m)) else r)
    | None => if nm_sol m then Some (set_model r (prev v) (mkNM true (nm_vals m)))
              else None                          (* dsAssert "is not a Node Solution" *)
    end
  end.
Definition restore_var (r : region D) (v : string) : option (region D) :=
  match r_models r v, r_models r (prev v) with
  | Some m, Some b => if nm_sol m then Some (set_model r v (mkNM true (nm_vals b))) else None
  | _, _ => None
  end.

(* run a fallible step over a list, keeping the state reached *)
Fixpoint run_vars (f : region D -> string -> option (region D)) (r : region D) (l : list string)
  : region D * bool :=
  match l with
  | nil => (r, true)
  | v :: t => match f r v with None => (r, false) | Some r' => run_vars f r' t end
  end.
Fixpoint run_regions (f : region D -> string -> option (region D)) (d : device D) : device D * bool :=
  match d with
  | nil => (nil, true)
  | r :: t => match run_vars f r (r_vars r) with
              | (r', false) => (r' :: t, false)
              | (r', true) => let (t', b) := run_regions f t in (r' :: t', b)
              end
  end.
Fixpoint run_devices (f : region D -> string -> option (region D)) (ds : list (device D))
  : list (device D) * bool :=
  match ds with
  | nil => (nil, true)
  | d :: t => match run_regions f d with
              | (d', false) => (d' :: t, false)
              | (d', true) => let (t', b) := run_devices f t in (d' :: t', b)
              end
  end.

(* NodeKeeper.cc:280-286 InitializeSolution (numberOfNodes_ zeros if absent;
   CreateSolution asserts numberOfNodes_ != 0) *)
Definition init_sol (n : nat) (o : option (list D)) : option (list D) :=
  match o with Some l => Some l | None => match n with O => None | _ => Some (repeat (zero F) n) end end.

(* Newton.cc:634-637 and 451-480 *)
Definition backup (s : state D) : state D * bool :=
  let (ds, ok) := run_devices backup_var (s_devs s) in
  let c := s_cir s in
  if ok then
    if c_have c then
      match c_sol c, init_sol (length (c_types c)) (c_prev c) with
      | Some l, Some _ => (mkSt ds (mkCir true (c_types c) (c_min c) (Some l) (Some l)) (s_td s), true)
      | _, _ => (mkSt ds c (s_td s), false)
      end
    else (mkSt ds c (s_td s), true)
  else (mkSt ds c (s_td s), false).

(* Newton.cc:424-449 *)
Definition restore (s : state D) : state D * bool :=
  let (ds, ok) := run_devices restore_var (s_devs s) in
  let c := s_cir s in
  if ok then
    if c_have c then
      match c_prev c with
      | Some l => (mkSt ds (mkCir true (c_types c) (c_min c) (Some l) (c_prev c)) (s_td s), true)
      | None => (mkSt ds c (s_td s), false)
      end
    else (mkSt ds c (s_td s), true)
  else (mkSt ds c (s_td s), false).

(* ---- time integration, Newton.hh:34-144 --------------------------------- *)
Inductive tmethod := DCONLY | INTEGRATEDC | INTEGRATETR | INTEGRATEBDF1 | INTEGRATEBDF2.
Record tparams := mkTP { t_method : tmethod; t_delta : D;
  ta0 : D; ta1 : D; ta2 : D; tb0 : D; tb1 : D; tb2 : D }.
Definition is_transient (t : tparams) : bool := match t_method t with DCONLY => false | _ => true end.
Definition is_dc (t : tparams) : bool := match t_method t with DCONLY | INTEGRATEDC => true | _ => false end.
Definition is_integration (t : tparams) : bool := negb (is_dc t).

(* TimeData.cc:86-112 AssembleI/AssembleQ: v += scale*data, asserts data present
   and of the size of v *)
Definition axpy (scale : D) (data v : list D) : option (list D) :=
  match data with
  | nil => None
  | _ => if Nat.eqb (length data) (length v)
         then Some (map (fun p => add F (fst p) (mul F scale (snd p))) (combine v data))
         else None
  end.
Definition axpy_if (scale : D) (data : list D) (v : option (list D)) : option (list D) :=
  match v with None => None
  | Some l => if negb (eqb F scale (zero F)) then axpy scale data l else Some l end.

(* Newton.cc:1012-1032 InitializeTransientAssemble *)
Definition rhs_const (t : tparams) (td : tdata D) (n : nat) : option (list D) :=
  let z := repeat (zero F) n in
  if is_dc t then Some z else
  axpy_if (tb2 t) (i1 td) (axpy_if (tb1 t) (i0 td)
   (axpy_if (ta2 t) (q1 td) (axpy_if (ta1 t) (q0 td) (Some z)))).

(* Newton.cc:1035-1075 CheckTransientProjection: (charge error) *)
Fixpoint qrel (newQ proj : list D) (acc : D) : D :=
  match newQ, proj with
  | qn :: ns, qp :: ps =>
    let acc' := if negb (eqb F qn (zero F)) then
        let qr := div F (absv F (sub F qn qp)) (add F (add F (qeps F) (absv F qn)) (absv F qp)) in
        if ltb F acc qr then qr else acc
      else acc in
    qrel ns ps acc'
  | _, _ => acc
  end.
Definition charge_check (t : tparams) (td : tdata D) (newQ : list D) (qlim : D) : option bool :=
  match axpy (opp F (t_delta t)) (i0 td) (repeat (zero F) (length newQ)) with
  | None => None
  | Some p1 =>
    (* AssembleQ(TM0, 1.0): 1.0*x is x in IEEE and in exact arithmetic *)
    match q0 td with
    | nil => None
    | _ => if Nat.eqb (length (q0 td)) (length p1)
           then Some (negb (ltb F qlim (qrel newQ (map (fun p => add F (fst p) (snd p)) (combine p1 (q0 td))) (zero F))))
           else None
    end
  end.

(* Newton.cc:1078-1119 UpdateTransientCurrent *)
Definition push_td (t : tparams) (td : tdata D) (newI newQ : list D) : tdata D :=
  if is_dc t then mkTD newQ nil nil newI nil nil
  else mkTD newQ
    (match q0 td with nil => q1 td | l => l end) (match q1 td with nil => q2 td | l => l end)
    newI
    (match i0 td with nil => i1 td | l => l end) (match i1 td with nil => i2 td | l => l end).

(* commands/MathCommands.cc:435-526 set_initial_condition, after validation
   (both lists nonempty and of one size): shifts unconditionally *)
Definition set_initial_condition (td : tdata D) (static_rhs dynamic_rhs : list D) : tdata D :=
  mkTD dynamic_rhs (q0 td) (q1 td) static_rhs (i0 td) (i1 td).

(* ---- Newton.cc:613-867 Solve -------------------------------------------- *)
Record params := mkParams { relLimit : D; absLimit : D; maxLimit : D; qrelLimit : D;
  maxiter : nat; maxdiv : nat; hfuel : nat }.

Inductive outcome := Converged | NotConverged | Threw | Hung.

(* 747-797: convergence and divergence bookkeeping over the devices *)
Record track := mkTrack { k_div : nat; k_max : bool; k_rel : D; k_abs : D; k_conv : bool }.
Definition track_dev (p : params) (k : track) (er : D * D) : track :=
  let (da, dr) := er in
  let diverged := (ltb F (relLimit p) dr && ltb F (k_rel k) dr) || (ltb F (absLimit p) da && ltb F (k_abs k) da) in
  mkTrack (if diverged then S (k_div k) else 0) (k_max k || ltb F (maxLimit p) da) dr da
    (k_conv k && ltb F dr (relLimit p) && ltb F da (absLimit p)).
Definition track_devs (p : params) (k : track) (ers : list (D * D)) : track :=
  fold_left (track_dev p) ers (mkTrack (k_div k) (k_max k) (k_rel k) (k_abs k) true).
Definition track_cir (p : params) (k : track) (er : D * D) : track :=
  let (ca, cr) := er in
  mkTrack (k_div k) (k_max k || ltb F (maxLimit p) ca) (k_rel k) (k_abs k)
    (k_conv k && ltb F cr (relLimit p) && ltb F ca (absLimit p)).

(* one iteration after a successful linear solve: 729-797 *)
Definition iterate (p : params) (s : state D) (k : track) (result : nat -> D) : state D * res track :=
  match devices_update (s_devs s) result with
  | (ds, None) => (mkSt ds (s_cir s) (s_td s), Throw)
  | (ds, Some ers) =>
    let k1 := track_devs p k ers in
    let c := s_cir s in
    if c_have c then
      match c_sol c with
      | None => (mkSt ds c (s_td s), Throw)
      | Some sol =>
        match cir_update (hfuel p) (c_types c) sol (c_min c) result (zero F) (zero F) with
        | Hang => (mkSt ds c (s_td s), Hang)
        | Throw => (mkSt ds c (s_td s), Throw)
        | Ok (sol', cer) =>
          (mkSt ds (mkCir true (c_types c) (c_min c) (Some sol') (c_prev c)) (s_td s), Ok (track_cir p k1 cer))
        end
      end
    else (mkSt ds c (s_td s), Ok k1)
  end.

(* the linear system of one iteration: iteration number, state, rhs_constant *)
Variable linsolve : nat -> state D -> list D -> option (nat -> D).

(* loop 673-803; [n] iterations left of maxiter.  Returns the state, the track
   (Ok), and the number of linear systems set up *)
Fixpoint loop (p : params) (rc : list D) (n iter : nat) (s : state D) (k : track)
  : state D * res bool * nat :=
  match n with
  | O => (s, Ok (k_conv k), iter)
  | S n' =>
    if k_conv k || (maxdiv p <=? k_div k) || k_max k then (s, Ok (k_conv k), iter)
    else match linsolve iter s rc with
         | None => (s, Ok false, S iter)
         | Some result =>
           match iterate p s k result with
           | (s', Ok k') => loop p rc n' (S iter) s' k'
           | (s', Throw) => (s', Throw, S iter)
           | (s', Hang) => (s', Hang, S iter)
           end
         end
  end.

(* assembled charge and current depend on the solutions only *)
Variables asmQ asmI : list (device D) * circuit D -> list D.
Definition sols (s : state D) : list (device D) * circuit D := (s_devs s, s_cir s).

Definition set_td (s : state D) (td : tdata D) : state D := mkSt (s_devs s) (s_cir s) td.

(* 634-637: InitializeSolution("dcop") *)
Definition init_dcop (s : state D) : state D * bool :=
  let c := s_cir s in
  if c_have c then
    match init_sol (length (c_types c)) (c_sol c) with
    | Some l => (mkSt (s_devs s) (mkCir true (c_types c) (c_min c) (Some l) (c_prev c)) (s_td s), true)
    | None => (s, false)
    end
  else (s, true).

Definition finish (s : state D) (n : nat) : state D * outcome * nat :=
  (fst (restore s), (if snd (restore s) then NotConverged else Threw), n).

Definition solve (p : params) (t : tparams) (neq : nat) (s : state D) : state D * outcome * nat :=
  match init_dcop s with
  | (s0, false) => (s0, Threw, 0)
  | (s0, true) =>
  match backup s0 with
  | (s1, false) => (s1, Threw, 0)
  | (s1, true) =>
    match rhs_const t (s_td s1) neq with
    | None => (s1, Threw, 0)
    | Some rc =>
      match loop p rc (maxiter p) 0 s1 (mkTrack 0 false (zero F) (zero F) false) with
      | (s2, Throw, n) => (s2, Threw, n)
      | (s2, Hang, n) => (s2, Hung, n)
      | (s2, Ok conv, n) =>
        (* 805-817 *)
        let newQ := asmQ (sols s2) in
        let chk := if is_integration t && conv then charge_check t (s_td s2) newQ (qrelLimit p) else Some true in
        match chk with
        | None => (s2, Threw, n)
        | Some qok =>
          if conv && qok then
            if is_transient t then (set_td s2 (push_td t (s_td s2) (asmI (sols s2)) newQ), Converged, n)
            else (s2, Converged, n)
          else finish s2 n
        end
      end
    end
  end
  end.
End Newton.
