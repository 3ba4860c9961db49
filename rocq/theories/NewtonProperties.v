(* C10, C11, C12: the nonlinear solve.
   solve F linsolve asmQ asmI p t neq s = (s', o, n): from the state s, with an
   arbitrary linear system / linear solver [linsolve], the solve command ends in
   s' with outcome o after setting up n linear systems (Newton.v).
   [F] are the numbers (any type; IEEE doubles in particular). *)
From Coq Require Import String List Bool Arith Reals Lra Lia ZArith QArith.
From Verif Require Import Newton NewtonProofs NewtonConv NewtonNum TimeMethods NewtonUpdate NewtonReal CMatrixFloat.
Import ListNotations.
Open Scope nat_scope.

(* ---- C10 ------------------------------------------------------------------ *)
(* any numbers with the order laws of doubles.  last_iteration (NewtonConv.v): for
   each node of each equation, and for each circuit node, the update made in the
   last iteration, and the relative update, are each below the limit or NaN *)
Theorem C10_converged_partial : forall (D : Type) (F : ops D) (num : D -> Prop), num_laws F num ->
  forall linsolve asmQ asmI p t neq s s' n, wf_state s -> distinct_state s ->
  solve F linsolve asmQ asmI p t neq s = (s', Converged, n) ->
  exists s0 result rc, 0 < n <= maxiter p /\
    iterate_of F linsolve p t neq s rc (n - 1) s0 /\ linsolve (n - 1) s0 rc = Some result /\
    last_iteration F num p s0 result s' /\
    (is_integration t = true -> charge_check F t (s_td s) (asmQ (sols s')) (qrelLimit p) = Some true).
Proof. exact @solve_converged. Qed.
Print Assumptions C10_converged_partial.

(* the laws hold of IEEE double arithmetic, with any log damping function and constants *)
Theorem C10_num_laws_double : forall ld a b c d e, num_laws (dops ld a b c d e) dnum.
Proof. exact dops_laws. Qed.
Print Assumptions C10_num_laws_double.

(* in exact arithmetic, in terms of the values before (s0) and after (s') the last iteration *)
Theorem C10_converged_exact : forall linsolve asmQ asmI p t neq s s' n, wf_state s -> distinct_state s ->
  solve rops linsolve asmQ asmI p t neq s = (s', Converged, n) ->
  exists (s0 : state R) rc, iterate_of rops linsolve p t neq s rc (n - 1) s0 /\ (0 < n)%nat /\
    Forall2 (Forall2 (fun r r' => forall e, In e (r_eqs r) -> exists m m',
       r_models r (e_var e) = Some m /\ r_models r' (e_var e) = Some m' /\
       moved_little p (e_min e) (nm_vals m) (nm_vals m'))) (s_devs s0) (s_devs s') /\
    (c_have (s_cir s0) = true -> exists os ns, c_sol (s_cir s0) = Some os /\ c_sol (s_cir s') = Some ns /\
       length ns = length os /\ forall i, (i < length (c_types (s_cir s0)))%nat -> (i < length os)%nat ->
         (Rabs (nth i ns 0 - nth i os 0) < absLimit p /\
         Rabs (nth i ns 0 - nth i os 0) / (Rabs (nth i ns 0) + / 10 ^ 10) < relLimit p)%R).
Proof. exact solve_converged_real. Qed.
Print Assumptions C10_converged_exact.

(* an accepted integration step: projected charge Q0 - tdelta I0 *)
Theorem C10_charge_error : forall linsolve asmQ asmI p t neq s s' n, wf_state s -> distinct_state s ->
  is_integration t = true ->
  solve rops linsolve asmQ asmI p t neq s = (s', Converged, n) ->
  let newQ := asmQ (sols s') in
  forall i, (i < length newQ)%nat -> nth i newQ 0%R <> 0%R ->
    let proj := (nth i (q0 (s_td s)) 0 - t_delta t * nth i (i0 (s_td s)) 0)%R in
    (Rabs (nth i newQ 0 - proj) / (/ 10 ^ 20 + Rabs (nth i newQ 0) + Rabs proj) <= qrelLimit p)%R.
Proof.
  intros ls asmQ asmI p t neq s s' n W ND Hi H newQ i Hl Hz proj.
  destruct (solve_converged rops _ rops_laws ls asmQ asmI p t neq s s' n W ND H) as (_ & _ & _ & _ & _ & _ & _ & Hc).
  destruct (charge_real _ _ _ _ (Hc Hi)) as (_ & _ & Q). exact (Q i Hl Hz).
Qed.
Print Assumptions C10_charge_error.

(* the property without "or NaN" is false: a NaN update passes the test, the
   solve is reported converged and the solution is NaN *)
Definition qv (z : Z) : option Q := Some (inject_Z z).
Definition models (l : list (string * nmodel (option Q))) (s : string) : option (nmodel (option Q)) :=
  option_map snd (find (fun x => String.eqb (fst x) s) l).
Definition val (s : state (option Q)) (v : string) : option (list (option Q)) :=
  match s_devs s with [[r]] => option_map nm_vals (r_models r v) | _ => None end.
Definition nocir : circuit (option Q) := mkCir false [] 0 None None.
Definition notd : tdata (option Q) := mkTD [] [] [] [] [] [].
Definition dc : @tparams (option Q) := mkTP DCONLY (qv 0) (qv 0) (qv 0) (qv 0) (qv 1) (qv 0) (qv 0).
Definition pars : @params (option Q) := mkParams (qv 1) (qv 1) (qv 100) (qv 1) 7 3 10.
Definition noasm (x : list (device (option Q)) * circuit (option Q)) : list (option Q) := [qv 0].
Definition st1 : state (option Q) :=
  mkSt [[mkReg 0 1 ["V"%string] [mkEqn _ "E" 0 "V" DEFAULT (qv 1)] (models [("V"%string, mkNM true [qv 1])])]] nocir notd.

Lemma wf_st1 : wf_state st1 /\ distinct_state st1.
Proof.
  split; [split; [|discriminate]|].
  - repeat (apply Forall_cons || apply Forall_nil); constructor; cbn.
    + intros v [<-|[]]. eexists; split; reflexivity.
    + intros v w [<-|[]] [<-|[]]. discriminate.
    + intros v m [<-|[]]. discriminate.
    + intros e [<-|[]]. left. reflexivity.
  - repeat constructor. intros [].
Qed.

Theorem C10_nan_converges_refuted :
  ~ (forall linsolve asmQ asmI p t neq s s' n, wf_state s -> distinct_state s ->
     solve xq linsolve asmQ asmI p t neq s = (s', Converged, n) ->
     Forall2 (Forall2 (fun r r' => forall e, In e (r_eqs r) -> exists m m',
       r_models r (e_var e) = Some m /\ r_models r' (e_var e) = Some m' /\
       forall i, (i < length (nm_vals m))%nat -> nth i (nm_vals m') None <> None)) (s_devs s) (s_devs s')).
Proof.
  intros H.
  pose proof (H (fun _ _ _ => Some (fun _ => None)) noasm noasm pars dc 1%nat st1) as K.
  destruct (solve xq (fun _ _ _ => Some (fun _ => None)) noasm noasm pars dc 1 st1) as [[s' o] n] eqn:E.
  assert (Eo : o = Converged) by (transitivity (snd (fst (s', o, n))); [reflexivity|]; rewrite <- E; vm_compute; reflexivity).
  assert (Ev : val s' "V" = Some [None]) by (transitivity (val (fst (fst (s', o, n))) "V"); [reflexivity|]; rewrite <- E; vm_compute; reflexivity).
  subst o. specialize (K s' n (proj1 wf_st1) (proj2 wf_st1) eq_refl).
  unfold val in Ev. destruct (s_devs s') as [|d' ds']; [discriminate|].
  inversion K as [|? ? ? ? Kd Kt]; subst. destruct d' as [|r' rs']; [discriminate|]. inversion Kd as [|? ? ? ? Kr Krt]; subst.
  destruct (Kr _ (or_introl eq_refl)) as (m & m' & E1 & E2 & E3).
  destruct rs'; [|discriminate]. destruct ds'; [|discriminate]. cbn in E1, E2.
  rewrite E2 in Ev. injection Ev as Ev. injection E1 as <-.
  apply (E3 0%nat); [cbn; lia|]. rewrite Ev. reflexivity.
Qed.
Print Assumptions C10_nan_converges_refuted.

(* a solve that converges in two iterations: second update half the first *)
Definition ls2 (i : nat) (s : state (option Q)) (rc : list (option Q)) : option (nat -> option Q) :=
  Some (fun _ => if Nat.eqb i 0 then qv 8 else Some (1 # 2)%Q).
Example C10_ex : let r := solve xq ls2 noasm noasm pars dc 1 st1 in
  snd (fst r) = Converged /\ snd r = 2%nat /\ val (fst (fst r)) "V" = Some [Some (19 # 2)%Q].
Proof. vm_compute. auto. Qed.

(* ---- C11 ------------------------------------------------------------------ *)
(* wf_state (NewtonProofs.v): every variable is a node solution, no variable is
   named like the backup <v>_prev of another, no backup name is taken by an
   expression model.  solved_ok: all node models except the backups, the circuit
   solution (zeros if it did not exist), and the transient history are as before *)
Theorem C11_failed_solve_restores : forall (D : Type) (F : ops D) linsolve asmQ asmI p t neq s s' n, wf_state s ->
  solve F linsolve asmQ asmI p t neq s = (s', NotConverged, n) -> solved_ok F s s'.
Proof. exact @solve_restores. Qed.
Print Assumptions C11_failed_solve_restores.

(* all the ways to fail that are not an exception or an endless loop end in the above *)
Theorem C11_failures : forall (D : Type) (F : ops D) linsolve asmQ asmI p t neq s s' n, wf_state s ->
  solve F linsolve asmQ asmI p t neq s = (s', Threw, n) ->
  rhs_const F t (s_td s) neq = None \/
  (exists s1 rc, started F s s1 /\ rhs_const F t (s_td s) neq = Some rc /\
    (snd (fst (loop F linsolve p rc (maxiter p) 0 s1 (mkTrack 0 false (zero F) (zero F) false))) = Throw \/
     exists s2 newQ, charge_check F t (s_td s2) newQ (qrelLimit p) = None)).
Proof. exact @solve_restore_total. Qed.
Print Assumptions C11_failures.

(* a successful solve changes only variables and backups *)
Theorem C11_frame : forall (D : Type) (F : ops D) linsolve asmQ asmI p t neq s s' n, wf_state s ->
  solve F linsolve asmQ asmI p t neq s = (s', Converged, n) ->
  Forall2 (Forall2 (fun r r' => same_region r r' /\
    forall x, ~ In x (r_vars r) -> (forall v, In v (r_vars r) -> x <> prev v) -> r_models r' x = r_models r x))
    (s_devs s) (s_devs s').
Proof. exact @solve_frame. Qed.
Print Assumptions C11_frame.

Example C11_ex : let r := solve xq (fun i _ _ => if Nat.eqb i 2 then None else Some (fun _ => qv 8)) noasm noasm pars dc 1 st1 in
  wf_state st1 /\ snd (fst r) = NotConverged /\ snd r = 3%nat /\ val (fst (fst r)) "V" = Some [qv 1].
Proof. split; [apply wf_st1|]. vm_compute. auto. Qed.

(* an exception during the update (positive variable that is not positive) leaves
   the already updated variables changed *)
Definition st2 : state (option Q) :=
  mkSt [[mkReg 0 1 ["V"; "n"]%string [mkEqn _ "E" 0 "V" DEFAULT (qv 1); mkEqn _ "F" 1 "n" POSITIVE (qv 1)]
    (models [("V"%string, mkNM true [qv 1]); ("n"%string, mkNM true [qv 0])])]] nocir notd.
Lemma wf_st2 : wf_state st2.
Proof.
  split; [|discriminate]. repeat (apply Forall_cons || apply Forall_nil); constructor; cbn.
  - intros v [<-|[<-|[]]]; eexists; split; reflexivity.
  - intros v w [<-|[<-|[]]] [<-|[<-|[]]]; discriminate.
  - intros v m [<-|[<-|[]]]; discriminate.
  - intros e [<-|[<-|[]]]; cbn; auto.
Qed.
Theorem C11_exception_not_restored_refuted :
  ~ (forall linsolve asmQ asmI p t neq s s' n v, wf_state s ->
     solve xq linsolve asmQ asmI p t neq s = (s', Threw, n) ->
     (match s_devs s with [[r]] => In v (r_vars r) | _ => False end) -> val s' v = val s v).
Proof.
  intros H. pose proof (H (fun _ _ _ => Some (fun _ => qv 8)) noasm noasm pars dc 2%nat st2) as K.
  destruct (solve xq _ noasm noasm pars dc 2 st2) as [[s' o] n] eqn:E.
  assert (Eo : o = Threw) by (transitivity (snd (fst (s', o, n))); [reflexivity|]; rewrite <- E; vm_compute; reflexivity).
  assert (Ev : val s' "V" = Some [qv 9]) by (transitivity (val (fst (fst (s', o, n))) "V"); [reflexivity|]; rewrite <- E; vm_compute; reflexivity).
  subst o. specialize (K s' n "V"%string wf_st2 eq_refl (or_introl eq_refl)). rewrite Ev in K. vm_compute in K. discriminate.
Qed.
Print Assumptions C11_exception_not_restored_refuted.

(* without the naming conditions: a variable called V_prev beside V is lost, *)
Definition st3 : state (option Q) :=
  mkSt [[mkReg 0 1 ["V"; "V_prev"]%string [mkEqn _ "E" 0 "V" DEFAULT (qv 1)]
    (models [("V"%string, mkNM true [qv 1]); ("V_prev"%string, mkNM true [qv 5])])]] nocir notd.
Theorem C11_name_clash_refuted : let r := solve xq (fun _ _ _ => None) noasm noasm pars dc 1 st3 in
  snd (fst r) = NotConverged /\ val st3 "V_prev" = Some [qv 5] /\ val (fst (fst r)) "V_prev" = Some [qv 1].
Proof. vm_compute. auto. Qed.
Print Assumptions C11_name_clash_refuted.

(* and an expression node model called V_prev is not overwritten by the backup, so
   that the restored V is wrong *)
Definition st4 : state (option Q) :=
  mkSt [[mkReg 0 1 ["V"]%string [mkEqn _ "E" 0 "V" DEFAULT (qv 1)]
    (models [("V"%string, mkNM true [qv 1]); ("V_prev"%string, mkNM false [qv 5])])]] nocir notd.
Theorem C11_backup_kind_refuted : let r := solve xq (fun _ _ _ => None) noasm noasm pars dc 1 st4 in
  snd (fst r) = NotConverged /\ val st4 "V" = Some [qv 1] /\ val (fst (fst r)) "V" = Some [qv 5].
Proof. vm_compute. auto. Qed.
Print Assumptions C11_backup_kind_refuted.

(* ---- C12 ------------------------------------------------------------------ *)
Theorem C12_bounded : forall (D : Type) (F : ops D) linsolve asmQ asmI p t neq s s' o n,
  solve F linsolve asmQ asmI p t neq s = (s', o, n) -> n <= maxiter p.
Proof. exact @solve_bounded. Qed.
Print Assumptions C12_bounded.

(* loop_spec (NewtonConv.v): before each of the n iterations the solve had not
   converged, its divergence count was below maxdiv and no update had exceeded
   maximum_error; it stopped because one of these held, or n = maxiter, or the
   linear solver failed, or an update threw or did not return *)
Theorem C12_stops_when_done : forall (D : Type) (F : ops D) linsolve asmQ asmI p t neq s s' o n,
  solve F linsolve asmQ asmI p t neq s = (s', o, n) -> 0 < n ->
  exists s1 rc s2 r, rhs_const F t (s_td s1) neq = Some rc /\
    loop_spec F linsolve p rc (maxiter p) s1 (mkTrack 0 false (zero F) (zero F) false) s2 r n /\
    (o = Converged -> r = Ok true) /\ (o = Hung <-> r = Hang).
Proof. exact @solve_trace. Qed.
Print Assumptions C12_stops_when_done.

(* the counter is the length of the current run of diverging device updates: error
   above the limit and larger than that of the device update before it *)
Theorem C12_divergence_count : forall (D : Type) (F : ops D) p ers k,
  let k' := track_devs F p k ers in
  k_div k' = trailing (k_div k) (flags F p (k_abs k, k_rel k) ers) /\
  k_max k' = k_max k || existsb (fun e => ltb F (maxLimit p) (fst e)) ers /\
  k_conv k' = forallb (fun e => ltb F (snd e) (relLimit p) && ltb F (fst e) (absLimit p)) ers.
Proof. exact @track_devs_div. Qed.
Print Assumptions C12_divergence_count.

(* maximum_divergence = 3: growing updates stop the solve after 3 of 7 iterations *)
Example C12_ex : let r := solve xq (fun i _ _ => Some (fun _ => qv (Z.of_nat (2 + i)))) noasm noasm pars dc 1 st1 in
  snd (fst r) = NotConverged /\ snd r = 3%nat.
Proof. vm_compute. auto. Qed.

(* "previous error" is that of the device before in the list, not of the same device in
   the iteration before: two devices with constant errors count as diverging *)
Definition st5 : state (option Q) :=
  mkSt [[mkReg 0 1 ["V"%string] [mkEqn _ "E" 0 "V" DEFAULT (qv 1)] (models [("V"%string, mkNM true [qv 1])])];
        [mkReg 1 1 ["V"%string] [mkEqn _ "E" 0 "V" DEFAULT (qv 1)] (models [("V"%string, mkNM true [qv 1])])]] nocir notd.
Definition ls5 (i : nat) (s : state (option Q)) (rc : list (option Q)) : option (nat -> option Q) :=
  Some (fun row => if Nat.eqb row 0 then qv 2 else qv 4).
Definition pars2 (d : nat) : @params (option Q) := mkParams (qv 10) (qv 1) (qv 100) (qv 1) 7 d 10.
Theorem C12_device_order_refuted :
  (* each device alone: constant errors, one diverging update at most *)
  flags xq (pars2 2) (qv 0, qv 0) (repeat (qv 2, qv 1) 7) = true :: repeat false 6 /\
  flags xq (pars2 2) (qv 0, qv 0) (repeat (qv 4, qv 1) 7) = true :: repeat false 6 /\
  (* together they stop after the first of 7 iterations *)
  let r := solve xq ls5 noasm noasm (pars2 2) dc 2 st5 in
  snd (fst r) = NotConverged /\ snd r = 1%nat.
Proof. vm_compute. auto. Qed.
Print Assumptions C12_device_order_refuted.
