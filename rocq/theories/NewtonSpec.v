(* Specifications of C09 (history) and the order theorems on rows (C08). *)
From Coq Require Import String List ZArith Arith Bool Lia.
From Verif Require Import Newton NewtonProofs NewtonConv.
Import ListNotations.

Section Hist.
Context {D : Type} (F : ops D).

(* what a user does between transient steps *)
Inductive cmd :=
| CSolve (linsolve : nat -> state D -> list D -> option (nat -> D)) (p : @params D) (t : @tparams D) (neq : nat)
| CSetIC (static_rhs dynamic_rhs : list D)                 (* set_initial_condition *)
| CEdit (ds : list (device D)) (c : circuit D).            (* any change of solutions, models, circuit *)

Variables asmQ asmI : list (device D) * circuit D -> list D.

Definition exec (s : state D) (c : cmd) : state D * option outcome :=
  match c with
  | CSolve ls p t neq => let '(s', o, _) := solve F ls asmQ asmI p t neq s in (s', Some o)
  | CSetIC a b => (set_td s (set_initial_condition (s_td s) a b), None)
  | CEdit ds c => (mkSt ds c (s_td s), None)
  end.

(* the specification: charges and currents of the accepted steps, newest first,
   starting with the last transient_dc solve or initial condition *)
Definition spec_hist (h : list (list D * list D)) (c : cmd) (s' : state D) (o : option outcome) : list (list D * list D) :=
  match c, o with
  | CSolve _ _ t _, Some Converged =>
      match t_method t with
      | DCONLY => h
      | INTEGRATEDC => [(asmQ (sols s'), asmI (sols s'))]
      | _ => (asmQ (sols s'), asmI (sols s')) :: h
      end
  | CSetIC a b, _ => (b, a) :: h
  | _, _ => h
  end.

Fixpoint run (s : state D) (h : list (list D * list D)) (cs : list cmd) : state D * list (list D * list D) :=
  match cs with
  | nil => (s, h)
  | c :: t => let (s', o) := exec s c in run s' (spec_hist h c s' o) t
  end.

(* the stored time data are the newest three entries *)
Definition holds (td : tdata D) (h : list (list D * list D)) : Prop :=
  let e k := nth k h (nil, nil) in
  q0 td = fst (e 0) /\ q1 td = fst (e 1) /\ q2 td = fst (e 2) /\
  i0 td = snd (e 0) /\ i1 td = snd (e 1) /\ i2 td = snd (e 2).

Definition valid_cmd (c : cmd) : Prop :=
  match c with CSetIC a b => a <> nil /\ b <> nil | _ => True end.

Lemma push_holds : forall td h newQ newI, Forall (fun e => fst e <> nil /\ snd e <> nil) h -> holds td h ->
  holds (mkTD newQ
    (match q0 td with nil => q1 td | l => l end) (match q1 td with nil => q2 td | l => l end)
    newI
    (match i0 td with nil => i1 td | l => l end) (match i1 td with nil => i2 td | l => l end)) ((newQ, newI) :: h).
Proof.
  intros td h newQ newI Hne (A & B & C & A' & B' & C'). unfold holds; cbn.
  rewrite A, B, C, A', B', C'. destruct h as [|e0 [|e1 h]]; cbn in *.
  - repeat split.
  - inversion Hne as [|x y (N1 & N2) _]; subst. destruct (fst e0), (snd e0); try contradiction. repeat split.
  - inversion Hne as [|x y (N1 & N2) K]; subst. inversion K as [|x y (N3 & N4) _]; subst.
    destruct (fst e0), (snd e0), (fst e1), (snd e1); try contradiction. repeat split.
Qed.

Lemma run_holds : (forall x, asmQ x <> nil) -> (forall x, asmI x <> nil) ->
  forall cs s h, Forall (fun e => fst e <> nil /\ snd e <> nil) h -> holds (s_td s) h -> Forall valid_cmd cs ->
  holds (s_td (fst (run s h cs))) (snd (run s h cs)).
Proof.
  intros HQ HI. induction cs as [|c t IH]; intros s h Hne Hh Hv; cbn; [exact Hh|].
  inversion Hv as [|x y Hc Ht]; subst.
  destruct (exec s c) as [s' o] eqn:E. 
  assert (G : Forall (fun e => fst e <> nil /\ snd e <> nil) (spec_hist h c s' o) /\ holds (s_td s') (spec_hist h c s' o)).
  { destruct c as [ls p tp neq|a b|ds cc]; cbn in E.
    - destruct (solve F ls asmQ asmI p tp neq s) as [[s1 o1] n1] eqn:Es. injection E as <- <-.
      pose proof (solve_td F ls asmQ asmI p tp neq s s1 o1 n1 Es) as Etd. cbn [spec_hist].
      destruct o1; try (split; [exact Hne|]; rewrite Etd; exact Hh).
      assert (NE : fst (asmQ (sols s1), asmI (sols s1)) <> nil /\ snd (asmQ (sols s1), asmI (sols s1)) <> nil)
        by (split; [apply HQ|apply HI]).
      unfold is_transient, push_td, is_dc in Etd.
      destruct (t_method tp); rewrite Etd.
      + split; [exact Hne|exact Hh].
      + split; [constructor; [exact NE|constructor]|]. unfold holds; cbn. repeat split.
      + split; [constructor; assumption|]. apply push_holds; assumption.
      + split; [constructor; assumption|]. apply push_holds; assumption.
      + split; [constructor; assumption|]. apply push_holds; assumption.
    - injection E as <- <-. cbn [spec_hist]. destruct Hc as (Na & Nb).
      split; [constructor; [split; assumption|exact Hne]|]. destruct Hh as (A & B & C & A' & B' & C').
      unfold holds; cbn. rewrite A, B, A', B'. destruct h as [|e0 [|e1 h]]; cbn; repeat split.
    - injection E as <- <-. split; [exact Hne|exact Hh]. }
  destruct G as (G1 & G2). apply IH; assumption.
Qed.
End Hist.
Arguments cmd : clear implicits.
