(* Invariants of the element table over all command histories. *)
From Coq Require Import String List Bool Arith Lia.
From Verif Require Import StrMap EqTableProofs NodeKeeper NodeKeeperProofs Assembly Circuit.
Import ListNotations.
Open Scope string_scope.

(* a node stays in the table, with its type *)
Definition grows (k k' : keeper) : Prop :=
  forall s n, find s (k_nodes k) = Some n -> exists n', find s (k_nodes k') = Some n' /\ n_type n' = n_type n.
Lemma grows_refl : forall k, grows k k. Proof. intros k s n H. exists n. auto. Qed.
Lemma grows_trans : forall a b c, grows a b -> grows b c -> grows a c.
Proof. intros a b c H1 H2 s n H. destruct (H1 s n H) as (x & X1 & X2). destruct (H2 s x X1) as (y & Y1 & Y2). exists y. split; [exact Y1|congruence]. Qed.
(* only 0 and GND are ground nodes *)
Definition gnd_only (k : keeper) : Prop := forall s n, find s (k_nodes k) = Some n -> n_type n = NGround -> s = "0" \/ s = "GND".
Definition gnd_name (s : string) (t : ntype) : Prop := t = NGround -> s = "0" \/ s = "GND".

Lemma add_node_grows : forall k s t u k', sorted (k_nodes k) -> add_node k s t u = Some k' ->
  grows k k' /\ has s (k_nodes k') = true /\ (gnd_name s t -> gnd_only k -> gnd_only k').
Proof.
  intros k s t u k' A H. unfold add_node in H. destruct (k_locked k); [discriminate|].
  destruct (has s (k_nodes k)) eqn:E; injection H as <-.
  - split; [apply grows_refl|]. split; [exact E|auto].
  - unfold has in E. destruct (find s (k_nodes k)) eqn:Ef; [discriminate|]. cbn [k_nodes]. split; [|split].
    + intros x n Hx. cbn [k_nodes]. rewrite find_put by assumption. destruct (String.eqb_spec x s) as [->|]; [congruence|]. exists n. auto.
    + unfold has. rewrite find_put by assumption. rewrite String.eqb_refl. reflexivity.
    + intros G O x n. cbn [k_nodes]. rewrite find_put by assumption. destruct (String.eqb_spec x s) as [->|]; [|apply O].
      intros X. injection X as <-. exact G.
Qed.
Lemma add_ground_grows : forall k k', kinv k -> add_ground k = Some k' -> grows k k' /\ (gnd_only k -> gnd_only k').
Proof.
  intros k k' I H. unfold add_ground in H.
  destruct (is_circuit_node k "0").
  - destruct (is_circuit_node k "GND"); [injection H as <-; split; [apply grows_refl|auto]|].
    apply add_node_grows in H; [|exact (proj1 I)]. destruct H as (G & _ & O). split; [exact G|]. apply O. intros _. right; reflexivity.
  - destruct (add_node k "0" NGround UDefault) as [k1|] eqn:E; [|discriminate].
    assert (S1 : sorted (k_nodes k1)). { unfold add_node in E. destruct (k_locked k); [discriminate|]. destruct (has "0" (k_nodes k)); injection E as <-; [exact (proj1 I)|apply put_sorted; exact (proj1 I)]. }
    apply add_node_grows in E; [|exact (proj1 I)]. destruct E as (G & _ & O).
    destruct (is_circuit_node k1 "GND"); [injection H as <-; split; [exact G|apply O; intros _; left; reflexivity]|].
    apply add_node_grows in H; [|exact S1]. destruct H as (G' & _ & O').
    split; [eapply grows_trans; eassumption|]. intros X. apply O'; [intros _; right; reflexivity|]. apply O; [intros _; left; reflexivity|exact X].
Qed.
Lemma create_node_grows : forall k s u k', kinv k -> create_node k s u = Some k' -> grows k k' /\ (gnd_only k -> gnd_only k').
Proof.
  intros k s u k' I H. unfold create_node in H. destruct (add_ground k) as [k1|] eqn:E; [|discriminate].
  destruct (add_ground_grows _ _ I E) as (G & O). destruct (add_ground_full _ _ I E) as (Fu & _).
  destruct (is_circuit_node k1 s); [injection H as <-; auto|].
  apply add_node_grows in H; [|exact (proj1 Fu)]. destruct H as (G' & _ & O').
  split; [eapply grows_trans; eassumption|]. intros X. apply O'; [intros C; discriminate C|auto].
Qed.
Lemma add_nodes_grows : forall l k, full k -> (forall s t, In (s, t) l -> t <> NGround) ->
  grows k (fst (add_nodes k l)) /\ (gnd_only k -> gnd_only (fst (add_nodes k l))) /\
  (snd (add_nodes k l) = true -> forall s t, In (s, t) l -> has s (k_nodes (fst (add_nodes k l))) = true).
Proof.
  induction l as [|[s t] r IH]; intros k Fu Nt; cbn [add_nodes].
  - split; [apply grows_refl|]. split; [auto|]. intros _ s t [].
  - destruct (add_node k s t UDefault) as [k'|] eqn:E.
    2:{ cbn. split; [apply grows_refl|]. split; [auto|]. discriminate. }
    pose proof (add_node_full _ _ _ _ _ Fu E) as Fu'. apply add_node_grows in E; [|exact (proj1 Fu)]. destruct E as (G & Hs & O).
    destruct (IH k' Fu') as (G' & O' & H'). { intros a b Hab. apply (Nt a b). right; exact Hab. }
    split; [eapply grows_trans; eassumption|]. split.
    + intros X. apply O', O; [|exact X]. intros C. exfalso. apply (Nt s t); [left; reflexivity|exact C].
    + intros Ok a b [Hab|Hab]; [injection Hab as <- <-|apply (H' Ok a b Hab)].
      unfold has in *. destruct (find s (k_nodes k')) as [n|] eqn:Ef; [|discriminate]. destruct (G' _ _ Ef) as (n' & -> & _). reflexivity.
Qed.
Lemma element_nodes_plain : forall e nm n1 n2 s t, In (s, t) (element_nodes e nm n1 n2) -> t <> NGround.
Proof. intros e nm n1 n2 s t H. destruct e; cbn in H; intuition (try (match goal with H : (_, _) = (_, _) |- _ => injection H as <- <- end); try discriminate). Qed.

Lemma cexec_grows : forall k c, kinv k -> c <> DeleteCircuit -> grows k (fst (cexec k c)) /\ (gnd_only k -> gnd_only (fst (cexec k c))).
Proof.
  intros k c I ND. pose proof (conj (grows_refl k) (fun x : gnd_only k => x)) as Same.
  destruct c as [s u v|e nm n1 n2|nd al| |st|]; cbn [cexec].
  - assert (G : forall b : bool, let r := fst (match add_ground k with
        | None => (k, false)
        | Some k1 => if is_circuit_node k1 s then (k1, false)
             else match create_node k1 s UDefault with None => (k1, false) | Some k2 => (k2, true) end end) in grows k r /\ (gnd_only k -> gnd_only r)).
    { intros _. destruct (add_ground k) as [k1|] eqn:E; [|exact Same]. destruct (add_ground_full _ _ I E) as (Fu & _).
      destruct (add_ground_grows _ _ I E) as (G & O).
      destruct (is_circuit_node k1 s); [split; [exact G|exact O]|].
      destruct (create_node k1 s UDefault) as [k2|] eqn:E2; [|split; [exact G|exact O]].
      apply create_node_grows in E2; [|apply full_kinv; exact Fu]. destruct E2 as (G' & O').
      cbn. split; [eapply grows_trans; eassumption|auto]. }
    destruct u, v; try apply (G true). exact Same.
  - destruct (create_node k n1 UDefault) as [k1|] eqn:E1; [|exact Same].
    pose proof (create_node_full _ _ _ _ I E1) as F1. apply create_node_grows in E1; [|exact I]. destruct E1 as (G1 & O1).
    destruct (create_node k1 n2 UDefault) as [k2|] eqn:E2; [|split; [exact G1|exact O1]].
    pose proof (create_node_full _ _ _ _ (full_kinv _ F1) E2) as F2. apply create_node_grows in E2; [|apply full_kinv; exact F1]. destruct E2 as (G2 & O2).
    pose proof (add_nodes_grows (element_nodes e nm n1 n2) k2 F2 (element_nodes_plain e nm n1 n2)) as (G3 & O3 & _).
    assert (grows k k2) by (eapply grows_trans; eassumption).
    destruct e; (split; [eapply grows_trans; eassumption|auto]).
  - destruct (add_ground k) as [k1|] eqn:E; [|exact Same]. destruct (add_ground_grows _ _ I E) as (G & O).
    destruct (negb (is_circuit_node k1 nd)); [split; [exact G|exact O]|].
    destruct (is_circuit_node k1 al); [split; [exact G|exact O]|].
    destruct (add_alias k1 al nd) as [k2|] eqn:E2; [|split; [exact G|exact O]].
    unfold add_alias in E2. destruct (has nd (k_nodes k1)) eqn:Hn; cbn in E2; [|discriminate].
    destruct (has al (k_nodes k1)); [discriminate|]. injection E2 as <-. split; [exact G|exact O].
  - destruct (add_ground k) as [k1|] eqn:E; [|exact Same]. exact (add_ground_grows _ _ I E).
  - destruct I as (A & B & C & D). destruct C as [(C1 & C2 & C3)|C].
    + rewrite C1. exact Same.
    + destruct (k_nodes k) as [|p0 t0] eqn:En. { destruct C as ((n & C1 & _) & _). rewrite En in C1. discriminate. }
      assert (Fk : full k) by (split; [rewrite En; exact A|]; split; [exact B|]; split; [exact C|rewrite En; exact D]).
      destruct (set_numbers_ok k st Fk) as (k' & E & _ & _ & _ & _ & _ & Fs).
      rewrite E. cbn [negb fst]. split.
      * intros s n Hn. cbn [k_nodes]. rewrite Fs, Hn. eexists. split; [reflexivity|reflexivity].
      * intros O s n. cbn [k_nodes]. rewrite Fs. destruct (find s (k_nodes k)) as [x|] eqn:Ex; [|discriminate]. intros X. injection X as <-. cbn. apply (O s x Ex).
  - congruence.
Qed.
(* a successful circuit_element has its nodes *)
Lemma cexec_element : forall k e nm n1 n2, kinv k -> snd (cexec k (CircuitElement e nm n1 n2)) = true ->
  forall s t, In (s, t) (element_nodes e nm n1 n2) -> has s (k_nodes (fst (cexec k (CircuitElement e nm n1 n2)))) = true.
Proof.
  intros k e nm n1 n2 I. cbn [cexec]. destruct (create_node k n1 UDefault) as [k1|] eqn:E1; [|discriminate].
  pose proof (create_node_full _ _ _ _ I E1) as F1.
  destruct (create_node k1 n2 UDefault) as [k2|] eqn:E2; [|discriminate].
  pose proof (create_node_full _ _ _ _ (full_kinv _ F1) E2) as F2.
  pose proof (add_nodes_grows (element_nodes e nm n1 n2) k2 F2 (element_nodes_plain e nm n1 n2)) as (_ & _ & H3).
  destruct e; try exact H3. discriminate.
Qed.

Section Inv.
Context {S : Type} (nonzero : S -> bool).
Notation ckt := (ckt S). Notation kind := (kind S). Notation inst := (inst S). Notation command := (command S).
Notation step := (step nonzero). Notation exec := (exec nonzero).

Definition needs_internal (k : kind) : bool := match k with KL _ | KV _ _ _ => true | _ => false end.
Definition has_node (k : keeper) (s : string) : Prop := exists n, find s (k_nodes k) = Some n.
Definition inst_ok (k : keeper) (p : string * inst) : Prop :=
  has_node k (i_n1 (snd p)) /\ has_node k (i_n2 (snd p)) /\
  (needs_internal (i_kind (snd p)) = true -> has_node k (internal (fst p))).
Definition cinv (c : ckt) : Prop :=
  kinv (c_nodes c) /\ gnd_only (c_nodes c) /\ sorted (c_insts c) /\ forall p, In p (c_insts c) -> inst_ok (c_nodes c) p.

Lemma inst_ok_grows : forall k k' p, grows k k' -> inst_ok k p -> inst_ok k' p.
Proof.
  intros k k' p G (A & B & C). assert (H : forall s, has_node k s -> has_node k' s).
  { intros s (n & E). destruct (G s n E) as (n' & E' & _). exists n'. exact E'. }
  split; [auto|]. split; auto.
Qed.
Lemma node_command_inv : forall c x, cinv c -> x <> DeleteCircuit -> cinv (fst (node_command c x)).
Proof.
  intros c x (A & B & C & D) N. unfold node_command. pose proof (cexec_kinv _ x A) as A'. pose proof (cexec_grows _ _ A N) as (G & O).
  destruct (cexec (c_nodes c) x) as [n ok]. cbn [fst] in *. split; [exact A'|]. split; [cbn; auto|]. split; [exact C|].
  cbn. intros p Hp. apply (inst_ok_grows _ _ _ G), D, Hp.
Qed.
Lemma find_has : forall {V} s (m : smap V), has s m = true -> exists v, find s m = Some v.
Proof. intros V s m H. unfold has in H. destruct (find s m) as [v|]; [exists v; reflexivity|discriminate]. Qed.
Lemma put_In : forall {V} k (v : V) m p, sorted m -> In p (put k v m) -> p = (k, v) \/ In p m /\ fst p <> k.
Proof.
  intros V k v m [a b] Hs H. pose proof (In_find a b (put k v m) (put_sorted k v m Hs) H) as Hf. rewrite find_put in Hf by exact Hs.
  destruct (String.eqb_spec a k) as [->|N]; [left; congruence|right]. split; [apply find_In; exact Hf|exact N].
Qed.
Lemma add_param_needs : forall k p x k', add_param k p x = Some k' -> needs_internal k' = needs_internal k.
Proof. intros k p x k' H. destruct k; cbn in H; repeat (match type of H with context [if ?b then _ else _] => destruct b end; try discriminate); injection H as <-; reflexivity. Qed.
Lemma step_inv : forall c x, cinv c -> cinv (fst (step c x)).
Proof.
  intros c x I. destruct x as [s u p|nm n1 n2 v re im|nm p v|nd al| |st|]; cbn [Circuit.step]; try (apply node_command_inv; [exact I|discriminate]).
  - destruct (negb (is_v (letter nm)) && (nonzero re || nonzero im)); [exact I|].
    destruct I as (A & B & C & D). pose proof (cexec_kinv _ (CircuitElement (letter nm) nm n1 n2) A) as A'.
    destruct (cexec_grows _ (CircuitElement (letter nm) nm n1 n2) A) as (G & O); [discriminate|].
    pose proof (cexec_element _ (letter nm) nm n1 n2 A) as El.
    destruct (cexec (c_nodes c) (CircuitElement (letter nm) nm n1 n2)) as [n ok]. cbn [fst snd] in *.
    assert (Keep : cinv (mkCkt n (c_insts c))).
    { split; [exact A'|]. split; [apply O; exact B|]. split; [exact C|]. cbn. intros q Hq. apply (inst_ok_grows _ _ _ G), D, Hq. }
    destruct (make (letter nm) v re im) as [ki|] eqn:Em; [|exact Keep].
    destruct ok; cbn [negb]; [|exact Keep]. destruct (has nm (c_insts c)) eqn:Eh; [exact Keep|].
    cbn [fst]. split; [exact A'|]. split; [apply O; exact B|]. split; [apply put_sorted; exact C|]. cbn.
    intros q Hq. apply put_In in Hq; [|exact C]. destruct Hq as [->|(Hq & _)]; [|apply (inst_ok_grows _ _ _ G), D, Hq].
    unfold inst_ok. cbn. specialize (El eq_refl).
    assert (T1 : exists t, In (n1, t) (element_nodes (letter nm) nm n1 n2)) by (destruct (letter nm); cbn in *; try discriminate; eexists; left; reflexivity).
    assert (T2 : exists t, In (n2, t) (element_nodes (letter nm) nm n1 n2)) by (destruct (letter nm); cbn in *; try discriminate; eexists; right; left; reflexivity).
    destruct T1 as (t1 & T1). destruct T2 as (t2 & T2).
    split; [exact (find_has _ _ (El _ _ T1))|]. split; [exact (find_has _ _ (El _ _ T2))|]. intros Hn.
    assert (T3 : exists t, In (internal nm, t) (element_nodes (letter nm) nm n1 n2)).
    { destruct (letter nm); cbn in Em; try discriminate; injection Em as <-; cbn in Hn; try discriminate; cbn; eexists; right; right; left; reflexivity. }
    destruct T3 as (t3 & T3). exact (find_has _ _ (El _ _ T3)).
  - destruct (find nm (c_insts c)) as [i|] eqn:Ef; [|exact I]. destruct (add_param (i_kind i) (param_name nm p) v) as [ki|] eqn:Ea; [|exact I].
    destruct I as (A & B & C & D). cbn [fst]. split; [exact A|]. split; [exact B|]. split; [apply put_sorted; exact C|]. cbn.
    intros q Hq. apply put_In in Hq; [|exact C]. destruct Hq as [->|(Hq & _)]; [|apply D; exact Hq].
    apply find_In in Ef. destruct (D _ Ef) as (X & Y & Z). split; [exact X|]. split; [exact Y|]. cbn. rewrite (add_param_needs _ _ _ _ Ea). exact Z.
  - split; [exact kinv_new|]. split; [intros s n H; discriminate H|]. split; [constructor|]. intros q [].
Qed.
Lemma exec_inv : forall cs c, cinv c -> cinv (exec c cs).
Proof. induction cs as [|x r IH]; intros c I; cbn; [exact I|]. apply IH, step_inv, I. Qed.
Lemma cinv_new : cinv c_new.
Proof. split; [exact kinv_new|]. split; [intros s n H; discriminate H|]. split; [constructor|]. intros q []. Qed.
Lemma exec_app : forall a b c, exec c (a ++ b)%list = exec (exec c a) b.
Proof. induction a as [|x r IH]; intros b c; cbn; [reflexivity|apply IH]. Qed.

(* after the numbering of a solve *)
Record ready (c : ckt) : Prop := mkReady {
  rd_sorted : sorted (c_insts c);
  rd_inst : forall p, In p (c_insts c) -> inst_ok (c_nodes c) p;
  rd_gnd : gnd_only (c_nodes c);
  rd_ground : forall s n, find s (k_nodes (c_nodes c)) = Some n -> is_ground n = true -> n_num n = None;
  rd_num : forall s n, find s (k_nodes (c_nodes c)) = Some n -> is_ground n = false -> exists i, n_num n = Some i /\ i < k_count (c_nodes c);
  rd_inj : forall s s' n n' i, find s (k_nodes (c_nodes c)) = Some n -> find s' (k_nodes (c_nodes c)) = Some n' ->
     is_ground n = false -> is_ground n' = false -> n_num n = Some i -> n_num n' = Some i -> s = s' }.
Lemma solved_ready : forall cs start, ready (exec c_new (cs ++ [CSolve start])%list).
Proof.
  intros cs start. rewrite exec_app. pose proof (exec_inv cs _ cinv_new) as I. set (c := exec c_new cs) in *. cbn [Circuit.exec Circuit.step].
  pose proof (node_command_inv c (Solve start) I ltac:(discriminate)) as I'. unfold node_command in *.
  destruct I as (A & B & C & D). cbn [cexec] in *.
  destruct (k_nodes (c_nodes c)) as [|p0 t0] eqn:En.
  - cbn [fst] in *. destruct I' as (A' & B' & C' & D'). cbn [c_nodes c_insts] in *. constructor; cbn [c_nodes c_insts]; try assumption; rewrite En; try discriminate.
  - destruct A as (A & A2 & A3 & A4). destruct A3 as [(A3 & _)|A3]; [congruence|].
    assert (Fk : full (c_nodes c)) by (split; [exact A|]; split; [exact A2|]; split; [exact A3|exact A4]).
    destruct (set_numbers_ok (c_nodes c) start Fk) as (k' & E & _ & _ & _ & Ec & _ & Fs). rewrite E in *. cbn [negb fst] in *.
    destruct I' as (A' & B' & C' & D'). cbn [c_nodes c_insts] in *.
    assert (Fs' : forall s n, find s (k_nodes k') = Some n -> exists n0, find s (k_nodes (c_nodes c)) = Some n0 /\
       is_ground n = is_ground n0 /\ n_num n = if is_ground n0 then None else position s (solved_names (k_nodes (c_nodes c)))).
    { intros s n H. rewrite Fs in H. destruct (find s (k_nodes (c_nodes c))) as [n0|]; [|discriminate]. injection H as <-. exists n0. cbn. auto. }
    constructor; cbn [c_nodes c_insts k_nodes k_count]; try assumption.
    + intros s n H G. destruct (Fs' s n H) as (n0 & _ & E1 & E2). rewrite <- E1, G in E2. exact E2.
    + intros s n H G. destruct (Fs' s n H) as (n0 & E0 & E1 & E2). rewrite <- E1, G in E2. rewrite E2.
      destruct (position s (solved_names (k_nodes (c_nodes c)))) as [i|] eqn:Ep.
      * exists i. split; [reflexivity|]. rewrite Ec. apply nth_error_Some. apply position_bound in Ep. congruence.
      * exfalso. apply position_None in Ep. apply Ep. apply solved_In; [exact A|]. exists n0. split; [exact E0|congruence].
    + intros s s' n n' i H H' G G' E1 E2. destruct (Fs' s n H) as (n0 & _ & X1 & X2). destruct (Fs' s' n' H') as (n1 & _ & Y1 & Y2).
      rewrite <- X1, G in X2. rewrite <- Y1, G' in Y2. rewrite E1 in X2. rewrite E2 in Y2. symmetry in X2, Y2. apply position_bound in X2, Y2. congruence.
Qed.
Lemma append_nonempty_I : forall s, s ++ ".I" <> "0" /\ s ++ ".I" <> "GND".
Proof.
  intros s. split.
  - destruct s as [|a [|b s]]; cbn; discriminate.
  - destruct s as [|a [|b [|c s]]]; cbn; try discriminate; intros H; injection H; intros; try discriminate. destruct s; discriminate.
Qed.
Lemma ready_internal : forall c p, ready c -> In p (c_insts c) -> needs_internal (i_kind (snd p)) = true ->
  exists n, find (internal (fst p)) (k_nodes (c_nodes c)) = Some n /\ is_ground n = false.
Proof.
  intros c p Rd Hp Hn. destruct (rd_inst c Rd p Hp) as (_ & _ & H). destruct (H Hn) as (n & E). exists n. split; [exact E|].
  unfold is_ground. destruct (n_type n) eqn:T; try reflexivity. exfalso.
  destruct (rd_gnd c Rd _ _ E T) as [X|X]; apply append_nonempty_I in X; exact X.
Qed.
Lemma internal_inj : forall a b, internal a = internal b -> a = b.
Proof.
  unfold internal. induction a as [|c a IH]; intros b H; destruct b as [|d b]; cbn in H; try reflexivity.
  - exfalso. injection H as _ H. destruct b as [|x b]; cbn in H; [discriminate|]. injection H as _ H. destruct b; discriminate.
  - exfalso. injection H as _ H. destruct a as [|x a]; cbn in H; [discriminate|]. injection H as _ H. destruct a; discriminate.
  - injection H as -> H. rewrite (IH b H). reflexivity.
Qed.
End Inv.
