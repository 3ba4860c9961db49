(* Evaluation terminates whatever the definitions are (also cyclic ones), and fuel is irrelevant. *)
From Coq Require Import String List Bool Arith Lia.
From Verif Require Import StrMap Stale StaleProofs.
Import ListNotations.

Section S.
Variable V : Type.
Variable zero : V.
Notation region := (region V).

Record domeq (r r' : region) : Prop := mkDom {
  dm_has : forall x, has x (r_models r') = has x (r_models r);
  dm_len : length (r_models r') = length (r_models r);
  dm_wf : wfm V r'
}.
Lemma domeq_refl : forall r, wfm V r -> domeq r r.
Proof. intros r W. split; auto. Qed.
Lemma domeq_trans : forall a b c, domeq a b -> domeq b c -> domeq a c.
Proof. intros a b c [A B C] [D E F]. split; [intros x; rewrite D; apply A|congruence|exact F]. Qed.
Lemma down_dom : forall r r', wfm V r -> down V r r' -> domeq r r'.
Proof.
  intros r r' W D. split; [|apply D|apply D; exact W]. intros x. unfold has. 
  destruct (find x (r_models r)) as [M|] eqn:F.
  - destruct (d_some _ _ _ D x M F) as (b & G & _). unfold fm in G. rewrite G. reflexivity.
  - assert (G := d_none _ _ _ D x F). unfold fm in G. rewrite G. reflexivity.
Qed.
Lemma set_up_dom : forall r n b, wfm V r -> domeq r (set_up V r n b).
Proof.
  intros r n b W. split; [|apply set_up_len; exact W|apply set_up_wf; exact W]. intros x. unfold has.
  assert (G := fm_set_up V r n b x W). unfold fm in G. rewrite G. clear G. destruct (String.eqb_spec x n) as [->|]; [|reflexivity].
  destruct (find n (r_models r)); reflexivity.
Qed.
Lemma set_val_dom : forall r n b, wfm V r -> domeq r (set_val V r n b).
Proof.
  intros r n b W. split; [|apply set_val_len; exact W|apply set_val_wf; exact W]. intros x. unfold has.
  assert (G := fm_set_val V r n b x W). unfold fm in G. rewrite G. clear G. destruct (String.eqb_spec x n) as [->|]; [|reflexivity].
  destruct (find n (r_models r)); reflexivity.
Qed.
Lemma signal_dom : forall r n, wfm V r -> domeq r (signal_ V r n).
Proof. intros r n W. apply down_dom; [exact W|]. exact (sp_down _ _ _ _ (signal__post V r n W)). Qed.
Lemma set_values_dom : forall r n v, wfm V r -> domeq r (set_values V r n v).
Proof.
  intros r n v W. unfold set_values, mark_old. assert (A := set_val_dom r n v W).
  assert (B := set_up_dom _ n false (dm_wf _ _ A)). assert (C := signal_dom _ n (dm_wf _ _ B)).
  exact (domeq_trans _ _ _ A (domeq_trans _ _ _ B (domeq_trans _ _ _ C (set_up_dom _ n true (dm_wf _ _ C))))).
Qed.
Lemma resolve_has : forall r n m, resolve V r n = Some m -> has m (r_models r) = true.
Proof.
  intros r n m. unfold resolve. destruct (has n (r_models r)) eqn:E; [intros X; injection X as <-; exact E|].
  destruct (Nat.ltb 4 (String.length n)); [|discriminate]. destruct (find (alias_of n) (r_models r)) as [M|] eqn:F; [|discriminate].
  destruct (m_edge M); [|discriminate]. intros X; injection X as <-. unfold has. rewrite F. reflexivity.
Qed.

Lemma eval_term : forall fuel env stk r n, wfm V r -> NoDup stk -> (forall s, In s stk -> has s (r_models r) = true) ->
  ~ In n stk -> has n (r_models r) = true -> length (r_models r) < fuel + length stk ->
  snd (eval V zero env fuel stk r n) <> NoFuel /\ domeq r (fst (eval V zero env fuel stk r n)).
Proof.
  induction fuel as [|fuel IH]; intros env stk r n W ND Hs Hn Hh Hl.
  - exfalso. assert (L : length stk <= length (keys (r_models r))).
    { apply NoDup_incl_length; [exact ND|]. intros s X. apply has_keys. exact (Hs _ X). }
    unfold keys in L. rewrite map_length in L. lia.
  - cbn [eval]. destruct (find n (r_models r)) as [M|] eqn:F; [|cbn; split; [discriminate|apply domeq_refl; exact W]].
    destruct (m_up M); [cbn; split; [discriminate|apply domeq_refl; exact W]|].
    destruct (m_def M) as [|ms vs c]; [cbn; split; [discriminate|apply set_up_dom; exact W]|].
    assert (G : forall c r1, domeq r r1 -> snd (run V zero env (eval V zero env fuel (n :: stk)) (n :: stk) c r1) <> NoFuel /\
                             domeq r (fst (run V zero env (eval V zero env fuel (n :: stk)) (n :: stk) c r1))).
    { clear c. induction c as [[v|]|m c IHc|m c IHc]; intros r1 D1; cbn [run].
      - cbn. split; [discriminate|exact D1].
      - cbn. split; [discriminate|exact D1].
      - destruct (resolve V r1 m) as [m'|] eqn:Er; [|apply IHc; exact D1].
        destruct (mem m' (n :: stk)) eqn:Em; [apply IHc; exact D1|].
        assert (Hr := resolve_has _ _ _ Er).
        destruct (IH env (n :: stk) r1 m' (dm_wf _ _ D1)) as [A B].
        + constructor; assumption.
        + intros s [<-|X]; rewrite (dm_has _ _ D1); [exact Hh|exact (Hs _ X)].
        + intros X. apply mem_In in X. congruence.
        + exact Hr.
        + rewrite (dm_len _ _ D1). cbn [length]. lia.
        + destruct (eval V zero env fuel (n :: stk) r1 m') as [r2 x]. cbn [fst snd] in A, B.
          destruct x as [v| |]; [apply IHc; exact (domeq_trans _ _ _ D1 B)|cbn; split; [discriminate|exact (domeq_trans _ _ _ D1 B)]|congruence].
      - apply IHc. exact D1. }
    destruct (G c r (domeq_refl _ W)) as [A B]. destruct (run V zero env (eval V zero env fuel (n :: stk)) (n :: stk) c r) as [r1 x].
    cbn [fst snd] in A, B. destruct x as [v| |]; cbn; [|split; [discriminate|exact B]|congruence].
    split; [discriminate|]. exact (domeq_trans _ _ _ B (set_values_dom _ _ _ (dm_wf _ _ B))).
Qed.
Lemma run_mono : forall env ev ev' stk, (forall r m, snd (ev r m) <> NoFuel -> ev' r m = ev r m) ->
  forall c r, snd (run V zero env ev stk c r) <> NoFuel -> run V zero env ev' stk c r = run V zero env ev stk c r.
Proof.
  intros env ev ev' stk H c. induction c as [[v|]|m c IHc|m c IHc]; intros r; cbn [run]; auto.
  destruct (resolve V r m) as [m'|]; [|apply IHc]. destruct (mem m' stk); [apply IHc|].
  specialize (H r m'). destruct (ev r m') as [r2 x]. cbn [snd] in H. destruct x as [v| |].
  - rewrite H by discriminate. apply IHc.
  - intros _. rewrite H by discriminate. reflexivity.
  - cbn. congruence.
Qed.
Lemma eval_mono : forall f f' env stk r n, f <= f' -> snd (eval V zero env f stk r n) <> NoFuel ->
  eval V zero env f' stk r n = eval V zero env f stk r n.
Proof.
  induction f as [|f IH]; intros f' env stk r n L; [cbn; congruence|]. destruct f' as [|f']; [lia|]. cbn [eval].
  destruct (find n (r_models r)) as [M|]; [|reflexivity]. destruct (m_up M); [reflexivity|]. destruct (m_def M) as [|ms vs c]; [reflexivity|].
  intros H. rewrite (run_mono env (eval V zero env f (n :: stk)) (eval V zero env f' (n :: stk))); [reflexivity| |].
  - intros r0 m X. apply IH; [lia|exact X].
  - intros X. apply H. destruct (run V zero env (eval V zero env f (n :: stk)) (n :: stk) c r) as [r1 x]. cbn in X. subst x. reflexivity.
Qed.
Lemma read_big : forall env r n f, wfm V r -> has n (r_models r) = true -> S (length (r_models r)) <= f ->
  read_model V zero env r n = eval V zero env f [] r n.
Proof.
  intros env r n f W Hh L. unfold read_model. symmetry. apply eval_mono; [exact L|].
  apply eval_term; [exact W|constructor|intros s []|intros []|exact Hh|cbn; lia].
Qed.
End S.
