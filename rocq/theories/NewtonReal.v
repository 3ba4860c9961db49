(* C10 in exact arithmetic, in terms of old and new values. *)
From Coq Require Import String List Arith Bool Reals Lra Lia.
From Verif Require Import Newton NewtonProofs NewtonConv TimeMethods NewtonUpdate.
Import ListNotations.
Open Scope R_scope.

Lemma rops_laws : num_laws rops (fun _ => True).
Proof.
  constructor; auto; cbn [zero rops absv add].
  - intros a b H. apply rlt in H. apply rlt_f. lra.
  - intros a. apply rlt_f. lra.
  - intros a b c _ _ _. rewrite !rlt_f. lra.
  - intros a b c _ _ _. rewrite rlt_f, !rlt. lra.
  - intros a _. apply rlt_f. apply Rabs_pos.
  - intros a b _ _. rewrite !rlt_f. lra.
Qed.

(* a variable of an equation moved by less than the tolerances at every node *)
Definition moved_little (p : @params R) (mine : R) (os ns : list R) : Prop :=
  length ns = length os /\
  forall i, (i < length os)%nat ->
    Rabs (nth i ns 0 - nth i os 0) < absLimit p /\
    Rabs (nth i ns 0 - nth i os 0) / (Rabs (nth i ns 0) + mine) < relLimit p.

Lemma node_update_diff : forall ut o r n u, node_update rops ut o r = Some (n, u) -> u = n - o.
Proof.
  intros [| |] o r n u H.
  - rewrite default_rule in H. injection H as <- <-. ring.
  - rewrite log_rule in H. injection H as <- <-. ring.
  - rewrite positive_rule in H. destruct (Rlt_dec 0 o); [|discriminate].
    destruct (Rle_dec (o + r) 0); injection H as <- <-; ring.
Qed.

Lemma solve_converged_real : forall linsolve asmQ asmI p t neq s s' n, wf_state s -> distinct_state s ->
  solve rops linsolve asmQ asmI p t neq s = (s', Converged, n) ->
  exists (s0 : state R) rc, iterate_of rops linsolve p t neq s rc (n - 1) s0 /\ (0 < n)%nat /\
    Forall2 (Forall2 (fun r r' => forall e, In e (r_eqs r) -> exists m m',
       r_models r (e_var e) = Some m /\ r_models r' (e_var e) = Some m' /\
       moved_little p (e_min e) (nm_vals m) (nm_vals m'))) (s_devs s0) (s_devs s') /\
    (c_have (s_cir s0) = true -> exists os ns, c_sol (s_cir s0) = Some os /\ c_sol (s_cir s') = Some ns /\
       length ns = length os /\ forall i, (i < length (c_types (s_cir s0)))%nat -> (i < length os)%nat ->
         Rabs (nth i ns 0 - nth i os 0) < absLimit p /\
         Rabs (nth i ns 0 - nth i os 0) / (Rabs (nth i ns 0) + / 10 ^ 10) < relLimit p).
Proof.
  intros linsolve asmQ asmI p t neq s s' n W ND H.
  destruct (solve_converged rops _ rops_laws linsolve asmQ asmI p t neq s s' n W ND H)
    as (s0 & result & rc & Hn0 & Hit & _ & (L1 & L2) & _).
  exists s0, rc. split; [exact Hit|]. split; [lia|]. split.
  - eapply F2_impl; [exact L1|]. cbn beta. intros d d' Hd. eapply F2_impl; [exact Hd|].
    intros r r' Hr e He. destruct (Hr e He) as (m & m' & Em & Em' & El & Hn).
    exists m, m'. split; [exact Em|]. split; [exact Em'|]. split; [exact El|].
    intros i Hi. destruct (Hn i Hi) as (u & Eu & Ha & Hrl). apply node_update_diff in Eu.
    specialize (Ha I). specialize (Hrl I). apply rlt in Ha. apply rlt in Hrl.
    cbn [zero rops] in *. rewrite <- Eu. split; [exact Ha|exact Hrl].
  - intros Hh. destruct (L2 Hh) as (os & ns & Eo & En & El & Hn). exists os, ns.
    split; [exact Eo|]. split; [exact En|]. split; [exact El|]. intros i Hi Hi'.
    destruct (nth_error (c_types (s_cir s0)) i) as [ut|] eqn:Et; [|apply nth_error_None in Et; lia].
    destruct (Hn i ut Et Hi') as (u & _ & Eu & _ & Ha & Hrl). specialize (Hrl I).
    apply rlt in Ha. apply rlt in Hrl. cbn [zero rops] in *.
    assert (Ed : nth i ns 0 - nth i os 0 = u) by (rewrite Eu; cbn; ring).
    rewrite Ed. split; [exact Ha|]. unfold relerr in Hrl. cbn [fst snd] in Hrl. exact Hrl.
Qed.

Lemma nth_map_combine : forall (f : R * R -> R) a b i, length a = length b -> (i < length a)%nat ->
  nth i (map f (combine a b)) 0 = f (nth i a 0, nth i b 0).
Proof.
  intros f. induction a as [|x a IH]; intros [|y b] i Hl Hi; cbn [length] in *; try lia.
  destruct i as [|i]; [reflexivity|]. cbn [combine map nth]. apply IH; lia.
Qed.

(* the charge test of an accepted transient step *)
Definition projected (t : @tparams R) (td : tdata R) (i : nat) : R :=
  nth i (q0 td) 0 - t_delta t * nth i (i0 td) 0.
Lemma charge_real : forall t td newQ lim, charge_check rops t td newQ lim = Some true ->
  length (q0 td) = length newQ /\ length (i0 td) = length newQ /\
  forall i, (i < length newQ)%nat -> nth i newQ 0 <> 0 ->
    Rabs (nth i newQ 0 - projected t td i) / (/ 10 ^ 20 + Rabs (nth i newQ 0) + Rabs (projected t td i)) <= lim.
Proof.
  assert (Q : forall ns ps acc, length ps = length ns -> acc <= qrel rops ns ps acc /\
    forall i, (i < length ns)%nat -> nth i ns 0 <> 0 ->
     Rabs (nth i ns 0 - nth i ps 0) / (/ 10 ^ 20 + Rabs (nth i ns 0) + Rabs (nth i ps 0)) <= qrel rops ns ps acc).
  { induction ns as [|n ns IH]; intros [|p ps] acc Hl; cbn [length] in Hl; try lia.
    - split; [cbn; lra|]. intros i Hi. cbn in Hi. lia.
    - cbn [qrel].
      match goal with |- context [qrel rops ns ps ?a] => set (acc' := a) end.
      destruct (IH ps acc' ltac:(lia)) as (I1 & I2).
      assert (A : acc <= acc' /\ (n <> 0 -> Rabs (n - p) / (/ 10 ^ 20 + Rabs n + Rabs p) <= acc')).
      { unfold acc'. cbn [eqb rops zero div absv sub add qeps]. destruct (Req_EM_T n 0) as [Z|Z]; cbn [rb negb].
        - split; [lra|contradiction].
        - match goal with |- context [ltb rops acc ?x] => destruct (ltb rops acc x) eqn:E end.
          + apply rlt in E. split; [lra|]. intros _. lra.
          + apply rlt_f in E. split; [lra|]. intros _. exact E. }
      destruct A as (A1 & A2). split; [lra|]. intros [|i] Hi Hz; cbn [nth] in *.
      + specialize (A2 Hz). lra.
      + apply I2; [cbn in Hi; lia|exact Hz]. }
  intros t td newQ lim H. unfold charge_check in H.
  destruct (axpy rops _ _ _) as [p1|] eqn:E1; [|discriminate].
  destruct (q0 td) as [|a q0'] eqn:Eq; [discriminate|]. rewrite <- Eq in *.
  destruct (Nat.eqb_spec (length (q0 td)) (length p1)) as [El|]; [|discriminate].
  injection H as H. unfold axpy in E1.
  destruct (i0 td) as [|b i0'] eqn:Ei; [discriminate|]. rewrite <- Ei in *.
  destruct (Nat.eqb_spec (length (i0 td)) (length (repeat (zero rops) (length newQ)))) as [El2|]; [|discriminate].
  injection E1 as <-. rewrite repeat_length in El2.
  rewrite map_length, combine_length, repeat_length, El2, Nat.min_id in El.
  split; [exact El|]. split; [exact El2|].
  apply negb_true_iff in H. apply rlt_f in H.
  match type of H with qrel rops newQ ?P _ <= _ => set (ps := P) in H end.
  assert (Lp : length ps = length newQ).
  { unfold ps. rewrite map_length, combine_length, map_length, combine_length, repeat_length, El2, El, !Nat.min_id. reflexivity. }
  destruct (Q newQ ps (zero rops) Lp) as (_ & Q2). intros i Hi Hz.
  assert (Ep : nth i ps 0 = projected t td i).
  { unfold ps, projected.
    rewrite nth_map_combine by (repeat rewrite ?map_length, ?combine_length, ?repeat_length; rewrite ?El, ?El2, ?Nat.min_id; auto).
    cbn [add rops fst snd]. rewrite nth_map_combine by (rewrite ?repeat_length; auto).
    cbn [add rops fst snd mul opp zero].
    rewrite nth_repeat. ring. }
  specialize (Q2 i Hi Hz). rewrite Ep in Q2. eapply Rle_trans; [exact Q2|exact H].
Qed.
