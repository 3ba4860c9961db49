From Coq Require Import List Bool Arith Reals Lra Lia.
From Verif Require Import Newton NewtonProofs NewtonConv TimeMethods.
Import ListNotations.
Open Scope R_scope.

Definition mktd (q0 i0 q1 i1 : list R) : tdata R := mkTD q0 q1 nil i0 i1 nil.

Lemma axpy_map : forall s (f g : nat -> R) n, (0 < n)%nat ->
  axpy rops s (map f (seq 0 n)) (map g (seq 0 n)) = Some (map (fun j => g j + s * f j) (seq 0 n)).
Proof.
  intros s f g n Hn. unfold axpy. destruct (map f (seq 0 n)) eqn:E.
  - destruct n; [lia|discriminate].
  - rewrite <- E. rewrite !map_length, Nat.eqb_refl. f_equal. clear.
    generalize (seq 0 n). induction l as [|x l IH]; cbn [map combine]; [reflexivity|]. f_equal. exact IH.
Qed.
Lemma axpy_if_map : forall s (f g : nat -> R) n, (0 < n)%nat -> 
  axpy_if rops s (map f (seq 0 n)) (Some (map g (seq 0 n))) = Some (map (fun j => g j + s * f j) (seq 0 n)).
Proof.
  intros s f g n Hn. unfold axpy_if. cbn [eqb rops zero]. destruct (Req_EM_T s 0) as [->|]; cbn [rb negb].
  - f_equal. apply map_ext. intros j. ring.
  - apply axpy_map. exact Hn.
Qed.
Lemma axpy_if_zero : forall l v, axpy_if rops 0 l (Some v) = Some v.
Proof. intros. unfold axpy_if. cbn [eqb rops zero]. destruct (Req_EM_T 0 0); [reflexivity|lra]. Qed.
Lemma repeat_map : forall n, repeat 0 n = map (fun _ : nat => 0) (seq 0 n).
Proof. intros n. generalize 0%nat. induction n as [|n IH]; intros k; cbn; [reflexivity|]. rewrite (IH (S k)). reflexivity. Qed.

(* what a row of the constant part is *)
Lemma rhs_const_row : forall t (Q0 I0 Q1 I1 : nat -> R) n td, (0 < n)%nat -> is_integration t = true ->
  q0 td = map Q0 (seq 0 n) -> i0 td = map I0 (seq 0 n) ->
  (ta2 t = 0 \/ q1 td = map Q1 (seq 0 n)) -> tb2 t = 0 ->
  rhs_const rops t td n = Some (map (fun j => ta1 t * Q0 j + ta2 t * (if Req_EM_T (ta2 t) 0 then 0 else Q1 j) + tb1 t * I0 j) (seq 0 n)).
Proof.
  intros t Q0 I0 Q1 I1 n td Hn Hi E0 E1 E2 E3. unfold rhs_const.
  unfold is_integration in Hi. destruct (is_dc t); [discriminate|].
  cbn [zero rops]. rewrite repeat_map, E0, axpy_if_map, E3 by exact Hn. rewrite E1.
  destruct (Req_EM_T (ta2 t) 0) as [Z|NZ].
  - rewrite Z, axpy_if_zero, axpy_if_map by exact Hn. rewrite axpy_if_zero. f_equal. apply map_ext. intros. ring.
  - destruct E2 as [E2|E2]; [contradiction|]. rewrite E2, !axpy_if_map by exact Hn.
    rewrite axpy_if_zero. f_equal. apply map_ext. intros. ring.
Qed.

(* rows of a transient step: history functions Q0 I0 Q1 (one value per row), new
   charge and current Q I *)
Definition step_rows (t : @tparams R) (td : tdata R) (n : nat) (Q I : nat -> R) (row : nat -> R) : Prop :=
  exists rc, rhs_const rops t td n = Some rc /\ length rc = n /\
    forall j, (j < n)%nat -> row j = transient_row t (nth j rc 0) (Q j) (I j).

Lemma nth_map_seq : forall (f : nat -> R) n j, (j < n)%nat -> nth j (map f (seq 0 n)) 0 = f j.
Proof.
  intros f n j Hj. rewrite (nth_indep _ 0 (f 0%nat)) by (rewrite map_length, seq_length; exact Hj).
  rewrite (map_nth f (seq 0 n) 0%nat j), seq_nth by exact Hj. reflexivity.
Qed.

Lemma tr_row : forall h g Q0 I0 n td Q I, g * h <> 0 -> (0 < n)%nat ->
  q0 td = map Q0 (seq 0 n) -> i0 td = map I0 (seq 0 n) ->
  step_rows (tr h g) td n Q I (fun j => 2 / (g * h) * (Q j - Q0 j) + I j + I0 j).
Proof.
  intros h g Q0 I0 n td Q I Hh Hn E0 E1. eexists. split; [|split].
  - apply (rhs_const_row (tr h g) Q0 I0 (fun _ => 0) (fun _ => 0)); auto.
  - rewrite map_length, seq_length. reflexivity.
  - intros j Hj. rewrite nth_map_seq by exact Hj. unfold transient_row; cbn.
    destruct (Req_EM_T (2 / (g * h)) 0) as [Z|NZ]; cbn [rb]; [|destruct (Req_EM_T 0 0); ring].
    exfalso. apply (Rmult_eq_compat_r (g * h)) in Z. unfold Rdiv in Z. rewrite Rmult_assoc, Rinv_l in Z by exact Hh. lra.
Qed.
Lemma bdf1_row : forall h g Q0 I0 n td Q I, g * h <> 0 -> (0 < n)%nat ->
  q0 td = map Q0 (seq 0 n) -> i0 td = map I0 (seq 0 n) ->
  step_rows (bdf1 h g) td n Q I (fun j => (Q j - Q0 j) / (g * h) + I j).
Proof.
  intros h g Q0 I0 n td Q I Hh Hn E0 E1. eexists. split; [|split].
  - apply (rhs_const_row (bdf1 h g) Q0 I0 (fun _ => 0) (fun _ => 0)); auto.
  - rewrite map_length, seq_length. reflexivity.
  - intros j Hj. rewrite nth_map_seq by exact Hj. unfold transient_row; cbn.
    destruct (Req_EM_T (1 / (g * h)) 0) as [Z|NZ]; cbn [rb].
    + exfalso. apply (Rmult_eq_compat_r (g * h)) in Z. unfold Rdiv in Z. rewrite Rmult_assoc, Rinv_l in Z by exact Hh. lra.
    + destruct (Req_EM_T 0 0); field; split; intros E; apply Hh; rewrite E; ring.
Qed.
Lemma bdf2_row : forall h g Q0 I0 Q1 n td Q I, h <> 0 -> g <> 0 -> g <> 1 -> g <> 2 -> (0 < n)%nat ->
  q0 td = map Q0 (seq 0 n) -> i0 td = map I0 (seq 0 n) -> q1 td = map Q1 (seq 0 n) ->
  step_rows (bdf2 h g) td n Q I (fun j =>
    (2 - g) / ((1 - g) * h) * Q j - 1 / (g * (1 - g) * h) * Q0 j + (1 - g) / (g * h) * Q1 j + I j).
Proof.
  intros h g Q0 I0 Q1 n td Q I Hh Hg Hg1 Hg2 Hn E0 E1 E2. eexists. split; [|split].
  - apply (rhs_const_row (bdf2 h g) Q0 I0 Q1 (fun _ => 0)); auto.
  - rewrite map_length, seq_length. reflexivity.
  - intros j Hj. rewrite nth_map_seq by exact Hj. unfold transient_row; cbn.
    assert (Hd : (1 - g) * h <> 0) by (apply Rmult_integral_contrapositive_currified; lra).
    destruct (Req_EM_T ((2 - g) / ((1 - g) * h)) 0) as [Z|NZ]; cbn [rb].
    + exfalso. apply (Rmult_eq_compat_r ((1 - g) * h)) in Z. unfold Rdiv in Z. rewrite Rmult_assoc, Rinv_l in Z by exact Hd. lra.
    + destruct (Req_EM_T ((1 - g) / (g * h)) 0) as [Z2|NZ2].
      * exfalso. apply (Rmult_eq_compat_r (g * h)) in Z2. unfold Rdiv in Z2. rewrite Rmult_assoc, Rinv_l in Z2; [lra|].
        apply Rmult_integral_contrapositive_currified; assumption.
      * field. repeat split; lra.
Qed.
