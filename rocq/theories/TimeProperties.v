(* C08, C09: time integration.
   [rows t td n Q I row]: row j of the system assembled for the step t on the
   stored history td, when the charge and the current of the present solution
   are Q j and I j (TimeMethodsProofs.step_rows, from Newton.rhs_const and
   TimeMethods.transient_row).  [stored f n] is the list of values f 0 .. f (n-1). *)
From Coq Require Import String List Bool Arith Reals Lra Lia QArith.
From Coquelicot Require Import Coquelicot.
From Verif Require Import Newton NewtonProofs NewtonConv NewtonNum NewtonSpec TimeMethods TimeMethodsProofs TimeOrder.
Import ListNotations.
Open Scope R_scope.

Definition stored (f : nat -> R) (n : nat) : list R := map f (seq 0 n).
(* charge of row j as a polynomial in time *)
Definition poly (c0 c1 c2 : nat -> R) (t : R) (j : nat) : R := c0 j + c1 j * t + c2 j * t ^ 2.
Definition dpoly (c1 c2 : nat -> R) (t : R) (j : nat) : R := c1 j + 2 * c2 j * t.

(* what each step requires: dQ/dt + I (TR: the mean of it over the step, times 2) *)
Theorem C08_bdf1_exact : forall tstep gamma t n td c0 c1 I0 I, gamma * tstep <> 0 -> (0 < n)%nat ->
  let P := poly c0 c1 (fun _ => 0) in
  q0 td = stored (P t) n -> i0 td = stored I0 n ->
  step_rows (bdf1 tstep gamma) td n (P (t + gamma * tstep)) I (fun j => c1 j + I j).
Proof.
  intros tstep g t n td c0 c1 I0 I Hne Hn P HQ HI.
  destruct (bdf1_row tstep g _ I0 n td (P (t + g * tstep)) I Hne Hn HQ HI) as (rc & E1 & E2 & E3).
  exists rc. split; [exact E1|]. split; [exact E2|]. intros j Hj. rewrite <- (E3 j Hj).
  unfold P, poly. field. split; intros Z; apply Hne; rewrite Z; ring.
Qed.
Print Assumptions C08_bdf1_exact.

Theorem C08_tr_exact : forall tstep gamma t n td c0 c1 c2 I0 I, gamma * tstep <> 0 -> (0 < n)%nat ->
  let P := poly c0 c1 c2 in
  let t1 := t + gamma * tstep in
  q0 td = stored (P t) n -> i0 td = stored I0 n ->
  step_rows (tr tstep gamma) td n (P t1) I
    (fun j => (dpoly c1 c2 t1 j + I j) + (dpoly c1 c2 t j + I0 j)).
Proof.
  intros tstep g t n td c0 c1 c2 I0 I Hne Hn P t1 HQ HI.
  destruct (tr_row tstep g _ I0 n td (P t1) I Hne Hn HQ HI) as (rc & E1 & E2 & E3).
  exists rc. split; [exact E1|]. split; [exact E2|]. intros j Hj. rewrite <- (E3 j Hj).
  unfold P, t1, poly, dpoly. field. split; intros Z; apply Hne; rewrite Z; ring.
Qed.
Print Assumptions C08_tr_exact.

(* BDF2: the two preceding solves were at t and t + gamma*tstep; steps unequal unless gamma = 1/2 *)
Theorem C08_bdf2_exact : forall tstep gamma t n td c0 c1 c2 I0 I, tstep <> 0 -> 0 < gamma < 1 -> (0 < n)%nat ->
  let P := poly c0 c1 c2 in
  q1 td = stored (P t) n -> q0 td = stored (P (t + gamma * tstep)) n -> i0 td = stored I0 n ->
  step_rows (bdf2 tstep gamma) td n (P (t + tstep)) I (fun j => dpoly c1 c2 (t + tstep) j + I j).
Proof.
  intros tstep g t n td c0 c1 c2 I0 I Ht Hg Hn P HQ1 HQ0 HI.
  destruct (bdf2_row tstep g _ I0 (P t) n td (P (t + tstep)) I Ht ltac:(lra) ltac:(lra) ltac:(lra) Hn HQ0 HI HQ1) as (rc & E1 & E2 & E3).
  exists rc. split; [exact E1|]. split; [exact E2|]. intros j Hj. rewrite <- (E3 j Hj).
  unfold P, poly, dpoly. field. repeat split; lra.
Qed.
Print Assumptions C08_bdf2_exact.

(* order of accuracy for smooth charges *)
Theorem C08_bdf1_order : forall tstep gamma t n td (q q' q'' : nat -> R -> R) M I0 I, 0 < gamma * tstep -> (0 < n)%nat ->
  (forall j, diffable (q j) (q' j)) -> (forall j, diffable (q' j) (q'' j)) -> (forall j x, Rabs (q'' j x) <= M) ->
  q0 td = stored (fun j => q j t) n -> i0 td = stored I0 n ->
  let t1 := t + gamma * tstep in
  exists row, step_rows (bdf1 tstep gamma) td n (fun j => q j t1) I row /\
    forall j, (j < n)%nat -> Rabs (row j - (q' j t1 + I j)) <= M * (gamma * tstep).
Proof.
  intros tstep g t n td q q' q'' M I0 I Hp Hn D1 D2 HM HQ HI t1.
  exists (fun j => (q j t1 - q j t) / (g * tstep) + I j). split.
  - apply (bdf1_row tstep g (fun j => q j t) I0 n td (fun j => q j t1) I); try assumption; lra.
  - intros j Hj. replace (_ - _) with ((q j (t + g * tstep) - q j t) / (g * tstep) - q' j (t + g * tstep)) by (unfold t1; ring).
    apply (bdf1_order (q j) (q' j) (q'' j)); auto.
Qed.
Print Assumptions C08_bdf1_order.

Theorem C08_tr_order : forall tstep gamma t n td (q q' q'' q3 : nat -> R -> R) M I0 I, 0 < gamma * tstep -> (0 < n)%nat ->
  (forall j, diffable (q j) (q' j)) -> (forall j, diffable (q' j) (q'' j)) -> (forall j, diffable (q'' j) (q3 j)) ->
  (forall j x, Rabs (q3 j x) <= M) ->
  q0 td = stored (fun j => q j t) n -> i0 td = stored I0 n ->
  let t1 := t + gamma * tstep in
  exists row, step_rows (tr tstep gamma) td n (fun j => q j t1) I row /\
    forall j, (j < n)%nat -> Rabs (row j - ((q' j t1 + I j) + (q' j t + I0 j))) <= M * (gamma * tstep) ^ 2.
Proof.
  intros tstep g t n td q q' q'' q3 M I0 I Hp Hn D1 D2 D3 HM HQ HI t1.
  exists (fun j => 2 / (g * tstep) * (q j t1 - q j t) + I j + I0 j). split.
  - apply (tr_row tstep g (fun j => q j t) I0 n td (fun j => q j t1) I); try assumption; lra.
  - intros j Hj. replace (_ - _) with (2 / (g * tstep) * (q j (t + g * tstep) - q j t) - (q' j (t + g * tstep) + q' j t)) by (unfold t1; ring).
    apply (tr_order (q j) (q' j) (q'' j) (q3 j)); auto.
Qed.
Print Assumptions C08_tr_order.

Theorem C08_bdf2_order : forall tstep gamma t n td (q q' q'' q3 : nat -> R -> R) M I0 I, 0 < tstep -> 0 < gamma < 1 -> (0 < n)%nat ->
  (forall j, diffable (q j) (q' j)) -> (forall j, diffable (q' j) (q'' j)) -> (forall j, diffable (q'' j) (q3 j)) ->
  (forall j x, Rabs (q3 j x) <= M) ->
  q1 td = stored (fun j => q j t) n -> q0 td = stored (fun j => q j (t + gamma * tstep)) n -> i0 td = stored I0 n ->
  let t1 := t + tstep in
  exists row, step_rows (bdf2 tstep gamma) td n (fun j => q j t1) I row /\
    forall j, (j < n)%nat -> Rabs (row j - (q' j t1 + I j)) <= M * tstep ^ 2 / (1 - gamma).
Proof.
  intros tstep g t n td q q' q'' q3 M I0 I Ht Hg Hn D1 D2 D3 HM HQ1 HQ0 HI t1.
  eexists. split.
  - apply (bdf2_row tstep g (fun j => q j (t + g * tstep)) I0 (fun j => q j t) n td (fun j => q j t1) I); try assumption; lra.
  - intros j Hj. cbn beta. match goal with |- Rabs ?x <= _ =>
      replace x with ((2 - g) / ((1 - g) * tstep) * q j (t + tstep) - 1 / (g * (1 - g) * tstep) * q j (t + g * tstep) + (1 - g) / (g * tstep) * q j t - q' j (t + tstep)) by (unfold t1; ring) end.
    apply (bdf2_order (q j) (q' j) (q'' j) (q3 j)); auto.
Qed.
Print Assumptions C08_bdf2_order.

(* q = t^2 solved at t = 0, 1, 2 and current 5: the BDF2 row at t = 2 is q'(2) + 5 *)
Example C08_ex : exists row,
  step_rows (bdf2 2 (/ 2)) (mkTD [1] [0] [] [0] [0] []) 1 (fun _ => 4) (fun _ => 5) row /\ row 0%nat = 9.
Proof.
  eexists. split; [apply (bdf2_row 2 (/ 2) (fun _ => 1) (fun _ => 0) (fun _ => 0) 1); try lra; try reflexivity; lia|].
  cbn. field.
Qed.

(* the command accepts gamma = 1 (the default) for transient_bdf2 (MathCommands.cc:73-93
   only rejects 0), but then the step used by the formula is zero: its coefficients are
   quotients by zero, whatever tstep *)
Theorem C08_bdf2_default_gamma_refuted : ~ (forall tstep, tstep <> 0 -> t_delta (bdf2 tstep 1) <> 0).
Proof. intros H. apply (H 1); [lra|]. cbn. ring. Qed.
Print Assumptions C08_bdf2_default_gamma_refuted.

(* ---- C09 ---------------------------------------------------------------- *)
(* For every sequence of solve, set_initial_condition and arbitrary edits of the
   solutions, the stored TM0, TM1, TM2 are the charges and currents of the newest
   three accepted steps of the history (NewtonSpec.spec_hist), where a failed
   solve adds nothing and a transient_dc solve starts a new history *)
Theorem C09_history : forall (D : Type) (F : ops D) asmQ asmI,
  (forall x, asmQ x <> nil) -> (forall x, asmI x <> nil) ->
  forall cs ds cir, List.Forall valid_cmd cs ->
  let '(s, h) := NewtonSpec.run F asmQ asmI (mkSt ds cir (mkTD [] [] [] [] [] [])) [] cs in
  holds (s_td s) h.
Proof.
  intros D F asmQ asmI HQ HI cs ds cir Hv.
  pose proof (run_holds F asmQ asmI HQ HI cs (mkSt ds cir (mkTD [] [] [] [] [] [])) []) as H.
  destruct (NewtonSpec.run F asmQ asmI _ [] cs) as [s h]. apply H; [constructor| |exact Hv].
  unfold holds; cbn. repeat split.
Qed.
Print Assumptions C09_history.

(* a solve that does not succeed, and any dc (non transient) solve, leave the history alone *)
Theorem C09_failed_or_dc : forall (D : Type) (F : ops D) ls asmQ asmI p t neq s s' o n,
  solve F ls asmQ asmI p t neq s = (s', o, n) ->
  o <> Converged \/ t_method t = DCONLY -> s_td s' = s_td s.
Proof.
  intros D F ls asmQ asmI p t neq s s' o n H Hc.
  pose proof (solve_td F ls asmQ asmI p t neq s s' o n H) as E. rewrite E.
  destruct o; try reflexivity. destruct Hc as [Hc|Hc]; [contradiction|].
  unfold is_transient. rewrite Hc. reflexivity.
Qed.
Print Assumptions C09_failed_or_dc.

(* an integration step without any stored history throws and performs no iteration *)
Theorem C09_no_history_throws : forall (D : Type) (F : ops D) ls asmQ asmI p t neq s,
  is_integration t = true -> eqb F (ta1 t) (zero F) = false -> q0 (s_td s) = [] ->
  snd (fst (solve F ls asmQ asmI p t neq s)) = Threw /\ snd (solve F ls asmQ asmI p t neq s) = 0%nat.
Proof.
  intros D F ls asmQ asmI p t neq s Hi Ha Hq. unfold solve.
  assert (E0 : forall s0 b, init_dcop F s = (s0, b) -> s_td s0 = s_td s).
  { intros s0 b. unfold init_dcop. destruct (c_have (s_cir s)); [destruct (init_sol _ _ _)|]; intros E; injection E as <- _; reflexivity. }
  destruct (init_dcop F s) as [s0 [|]] eqn:E; [|split; reflexivity]. specialize (E0 s0 true eq_refl).
  assert (E1 : s_td (fst (backup F s0)) = s_td s0).
  { unfold backup. destruct (run_devices _ _) as [ds ok]. destruct ok; [|reflexivity].
    destruct (c_have _); [|reflexivity]. destruct (c_sol _); [|reflexivity]. destruct (init_sol _ _ _); reflexivity. }
  destruct (backup F s0) as [s1 [|]]; [|split; reflexivity]. cbn [fst] in E1.
  unfold rhs_const. unfold is_integration in Hi. apply negb_true_iff in Hi. rewrite Hi.
  unfold axpy_if. rewrite Ha, E1, E0, Hq. cbn. split; reflexivity.
Qed.
Print Assumptions C09_no_history_throws.

(* non trivial case: transient_dc, failed step, accepted step; one node, exact rationals *)
Definition qv (z : Z) : option Q := Some (inject_Z z).
Definition reg1 (v : option Q) : region (option Q) :=
  mkReg 0 1 ["V"%string] [mkEqn _ "E" 0 "V" DEFAULT (qv 1)]
    (fun s => if String.eqb s "V" then Some (mkNM true [v]) else None).
Definition cir0 : circuit (option Q) := mkCir false [] 0 None None.
Definition asm1 (x : list (device (option Q)) * circuit (option Q)) : list (option Q) :=
  match fst x with
  | [[r]] => match r_models r "V" with Some m => nm_vals m | None => [qv 0] end
  | _ => [qv 0]
  end.
Definition par1 : @params (option Q) := mkParams (qv 1) (qv 10) (qv 100) (qv 5) 5 2 10.
Definition step0 : @tparams (option Q) := mkTP INTEGRATEDC (qv 0) (qv 0) (qv 0) (qv 0) (qv 1) (qv 0) (qv 0).
Definition step1 : @tparams (option Q) := mkTP INTEGRATEBDF1 (qv 1) (qv 1) (qv (-1)) (qv 0) (qv 1) (qv 0) (qv 0).
Definition cmds1 : list (NewtonSpec.cmd (option Q)) :=
  [CSolve (fun _ _ _ => Some (fun _ => qv 4)) par1 step0 1;
   CSolve (fun _ _ _ => None) par1 step1 1;
   CSolve (fun _ _ _ => Some (fun _ => qv 2)) par1 step1 1].
Example C09_ex :
  snd (NewtonSpec.run xq asm1 asm1 (mkSt [[reg1 (qv 1)]] cir0 (mkTD [] [] [] [] [] [])) [] cmds1) =
    [([Some 7%Q], [Some 7%Q]); ([Some 5%Q], [Some 5%Q])].
Proof. vm_compute. reflexivity. Qed.
