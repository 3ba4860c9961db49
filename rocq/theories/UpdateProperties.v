(* C21: solution update rules.  node_update F rule old step = Some (new, applied step)
   for one node of an equation (None: the command throws); cir_node_update for a
   circuit node (result: applied step). *)
From Coq Require Import String List Arith Bool ZArith Reals Lra Lia QArith.
From Verif Require Import Newton NewtonConv NewtonNum TimeMethods NewtonUpdate CMatrixFloat.
Import ListNotations.
Open Scope R_scope.

Theorem C21_default : forall o u, node_update rops DEFAULT o u = Some (o + u, u).
Proof. exact default_rule. Qed.
Print Assumptions C21_default.

(* positive: throws on a non positive old value, else the new value is positive and
   the full step is taken whenever that is positive *)
Theorem C21_positive : forall o u,
  (o <= 0 -> node_update rops POSITIVE o u = None) /\
  (0 < o -> exists n, node_update rops POSITIVE o u = Some (n, n - o) /\ 0 < n /\ (0 < o + u -> n = o + u) /\ (n = o + u \/ n = 0.001 * o)).
Proof.
  intros o u. rewrite positive_rule. split; intros H.
  - destruct (Rlt_dec 0 o); [lra|reflexivity].
  - destruct (Rlt_dec 0 o); [|lra]. destruct (Rle_dec (o + u) 0).
    + exists (0.001 * o). repeat split; try lra.
    + exists (o + u). split; [f_equal; f_equal; ring|]. repeat split; try lra.
Qed.
Print Assumptions C21_positive.

(* also in floating point: never a non positive number (double: any log damping and constants) *)
Theorem C21_positive_double : forall ld a b c d e o u n u',
  node_update (dops ld a b c d e) POSITIVE o u = Some (n, u') -> dnum n ->
  ltb (dops ld a b c d e) (zero (dops ld a b c d e)) n = true.
Proof.
  intros ld a b c d e. apply positive_rule_gen.
  - intros x y Nx Ny. unfold leb, ltb, dops, dlt, dcmp.
    rewrite (Flocq.IEEE754.BinarySingleNaN.Bcompare_swap _ _ x y).
    destruct (Flocq.IEEE754.BinarySingleNaN.Bcompare x y) as [[| |]|] eqn:E; try reflexivity.
    exfalso. destruct x as [[]|[]| |[]], y as [[]|[]| |[]]; try discriminate.
  - reflexivity.
  - exact dlt_num.
Qed.
Print Assumptions C21_positive_double.

Theorem C21_log_damp : forall o u, exists v, node_update rops LOGDAMP o u = Some (o + v, v) /\
  Rabs v <= Rabs u /\ (u <> 0 -> 0 < u * v) /\ (u = 0 -> v = 0) /\
  (0.0259 < Rabs u -> Rabs v = 0.0259 * ln (1 + Rabs u / 0.0259)) /\
  (Rabs u <= 0.0259 -> v = u).
Proof. intros o u. exists (damped u). split; [apply log_rule|apply damped_facts]. Qed.
Print Assumptions C21_log_damp.

(* the damped step is discontinuous at the threshold: steps of 0.0259 and just above *)
Theorem C21_log_damp_monotone_refuted : ~ (forall u v, 0 <= u <= v -> damped u <= damped v).
Proof.
  intros H. specialize (H 0.0259 0.026 ltac:(lra)). unfold damped in H.
  rewrite !Rabs_right in H by lra.
  destruct (Rlt_dec 0.0259 0.0259); [lra|]. destruct (Rlt_dec 0.0259 0.026); [|lra].
  destruct (log_damp_abs 0.026 ltac:(lra)) as (A & B).
  rewrite (Rabs_right 0.026) in A by lra.
  assert (P : 0 < log_damp 0.026) by nra. rewrite Rabs_right in A by lra. rewrite A in H.
  assert (L : ln (1 + 0.026 / 0.0259) < 1).
  { apply exp_lt_inv. rewrite exp_ln by lra. pose proof (exp_ineq1 1 ltac:(lra)).
    assert (E : 2.25 <= exp 1).
    { replace 1 with (/ 2 + / 2) by lra. rewrite exp_plus. pose proof (exp_ineq1 (/ 2) ltac:(lra)). nra. }
    lra. }
  nra.
Qed.
Print Assumptions C21_log_damp_monotone_refuted.

(* errors of an equation over its nodes l = (new value, applied step) *)
Theorem C21_errors : forall mine l, 0 < mine ->
  let e := errs rops mine 0 l 0 0 0 in
  is_max (fun x => exists p, In p l /\ x = Rabs (snd p)) (aerr e) /\
  is_max (fun x => exists p, In p l /\ x = Rabs (snd p) / (Rabs (fst p) + mine)) (rerr e) /\
  (l <> [] -> exists p, nth_error l (anode e) = Some p /\ aerr e = Rabs (snd p)).
Proof.
  intros mine l Hm e.
  destruct (errs_max mine l 0 0 0 0 ltac:(lra) ltac:(lra)) as (A & B & C & D & E). fold e in A, B, C, D, E.
  split; [split|split; [split|]].
  - intros x (p & Hp & ->). apply (C p Hp).
  - destruct D as [(D & _)|(k & p & Hk & D & _)]; [left; exact D|right; exists p; split; [eapply nth_error_In; exact Hk|exact D]].
  - intros x (p & Hp & ->). apply (C p Hp).
  - destruct E as [E|(p & Hp & E)]; [left; exact E|right; exists p; split; [exact Hp|exact E]].
  - intros Hl. destruct D as [(D1 & D2)|(k & p & Hk & D1 & D2)].
    + destruct l as [|p l]; [contradiction|]. exists p. rewrite D2. split; [reflexivity|].
      rewrite D1. pose proof (proj1 (C p (or_introl eq_refl))) as Hp. rewrite D1 in Hp. pose proof (Rabs_pos (snd p)). lra.
    + exists p. rewrite D2. split; [exact Hk|exact D1].
Qed.
Print Assumptions C21_errors.

(* the node reported for the relative error is not one where it occurs: steps 2 and 1
   at nodes with new values 100 and 1 *)
Theorem C21_relative_error_node_refuted :
  ~ (forall mine l, 0 < mine -> l <> [] -> let e := errs rops mine 0 l 0 0 0 in
     exists p, nth_error l (rnode e) = Some p /\ rerr e = Rabs (snd p) / (Rabs (fst p) + mine)).
Proof.
  intros H. specialize (H 1 [(100, 2); (1, 1)] ltac:(lra) ltac:(discriminate)). cbn zeta in H.
  unfold errs in H. cbn [absv rops div add] in H.
  assert (E1 : ltb rops 0 (Rabs 2) = true) by (apply rlt; rewrite Rabs_right; lra).
  assert (E2 : ltb rops (Rabs 2) (Rabs 1) = false) by (apply rlt_f; rewrite !Rabs_right; lra).
  assert (E3 : ltb rops 0 (Rabs 2 / (Rabs 100 + 1)) = true) by (apply rlt; rewrite !Rabs_right; lra).
  assert (E4 : ltb rops (Rabs 2 / (Rabs 100 + 1)) (Rabs 1 / (Rabs 1 + 1)) = true) by (apply rlt; rewrite !Rabs_right; lra).
  rewrite E1, E2, E3, E4 in H. cbn [rnode rerr nth_error] in H. destruct H as (p & Hp & Hr). injection Hp as <-.
  cbn [fst snd] in Hr. rewrite !Rabs_right in Hr by lra. lra.
Qed.
Print Assumptions C21_relative_error_node_refuted.

(* circuit nodes *)
Theorem C21_circuit_default_log : forall fuel o u,
  cir_node_update rops fuel DEFAULT o u = Ok u /\ cir_node_update rops fuel LOGDAMP o u = Ok (damped u).
Proof.
  intros fuel o u. split; [reflexivity|]. unfold cir_node_update, damped.
  cbn [c0259 rops absv]. destruct (Rlt_dec 0.0259 (Rabs u)) as [L|L].
  - apply rlt in L. rewrite L. reflexivity.
  - apply Rnot_lt_le, rlt_f in L. rewrite L. reflexivity.
Qed.
Print Assumptions C21_circuit_default_log.

(* positive: from a positive value the step is halved as often as needed, and no more *)
Theorem C21_circuit_positive : forall o u, 0 < o -> exists fuel0, forall fuel, (fuel0 <= fuel)%nat ->
  exists k, cir_node_update rops fuel POSITIVE o u = Ok (u / 2 ^ k) /\ 0 < u / 2 ^ k + o /\
    (k = 0%nat \/ u / 2 ^ (k - 1) + o <= 0).
Proof. exact halve_ok. Qed.
Print Assumptions C21_circuit_positive.

(* from a non positive value (initially all are 0) with a step that does not make it
   positive the loop never ends, however much fuel *)
Theorem C21_circuit_positive_hang_refuted : exists o u, forall fuel, cir_node_update rops fuel POSITIVE o u = Hang.
Proof. exists 0, (-1). intros fuel. apply halve_hang; lra. Qed.
Print Assumptions C21_circuit_positive_hang_refuted.
