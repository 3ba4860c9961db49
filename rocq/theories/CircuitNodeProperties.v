(* C23, C24, C44: circuit nodes, their numbers and aliases. *)
From Coq Require Import String List Bool Arith.
From Verif Require Import StrMap EqTableProofs NodeKeeper NodeKeeperProofs.
Import ListNotations.
Open Scope string_scope.

(* [crun k_new cs] is the node table after any sequence of circuit commands. *)

(* C23: numbering any reachable table succeeds; ground nodes get no number and no
   row; the other nodes get their position in the list of their names (so distinct
   consecutive numbers 0..k-1) and the row start + number.  (A name that is also an
   alias is looked up as the alias: C24.) *)
Theorem C23_numbering : forall cs start, let k := crun k_new cs in k_nodes k <> [] ->
  exists k', set_node_numbers k start = (k', true) /\
    k_count k' = length (solved_names (k_nodes k)) /\ NoDup (solved_names (k_nodes k)) /\
    (forall s, In s (solved_names (k_nodes k)) <-> exists n, find s (k_nodes k) = Some n /\ is_ground n = false) /\
    (forall s n, find s (k_nodes k) = Some n -> find s (k_alias k) = None ->
       (is_ground n = true -> index_number k' s = None /\ equation_number k' s = None) /\
       (is_ground n = false -> exists i, nth_error (solved_names (k_nodes k)) i = Some s /\
           index_number k' s = Some i /\ equation_number k' s = Some (i + start))).
Proof. exact c23_lemma. Qed.
Print Assumptions C23_numbering.

(* ground: both "0" and "GND" are always ground nodes of a non-empty table *)
Theorem C23_ground : forall cs, let k := crun k_new cs in k_nodes k <> [] ->
  forall g, In g ["0"; "GND"] -> exists n, find g (k_nodes k) = Some n /\ is_ground n = true.
Proof.
  intros cs k Hne g Hg. destruct (crun_kinv cs k_new kinv_new) as (_ & _ & C & _). fold k in C.
  destruct C as [(C & _)|(C1 & C2)]; [contradiction|]. destruct Hg as [<-|[<-|[]]]; assumption.
Qed.
Print Assumptions C23_ground.

Definition rc : list ccmd :=
  [CircuitElement EV "V1" "in" "0"; CircuitElement ER "R1" "in" "out"; AddCircuitNode "spare" UDefault false;
   NodeAlias "out" "probe"; CircuitElement EC "C1" "out" "GND"; Solve 100].
Example rc_numbers : map (fun s => (index_number (crun k_new rc) s, equation_number (crun k_new rc) s))
    ["0"; "GND"; "V1.I"; "in"; "out"; "spare"; "probe"] =
  [(None, None); (None, None); (Some 0, Some 100); (Some 1, Some 101); (Some 2, Some 102); (Some 3, Some 103); (Some 2, Some 102)].
Proof. vm_compute. reflexivity. Qed.

(* C24: after a successful circuit_node_alias(node, alias), until delete_circuit, the
   alias stands for the node of the table created under the name [node] *)
Theorem C24_alias : forall cs node alias cs', ~ In DeleteCircuit cs' ->
  snd (cexec (crun k_new cs) (NodeAlias node alias)) = true ->
  let k' := crun k_new (cs ++ NodeAlias node alias :: cs') in
  exists n, find node (k_nodes k') = Some n /\ index_number k' alias = n_num n.
Proof. exact c24_alias_lemma. Qed.
Print Assumptions C24_alias.

(* C24 (part): no node is hidden by an alias when no element is connected to an alias
   (nor given an internal node named like one).  Missing: such connections, for which
   the claim is false. *)
Theorem C24_not_hidden_partial : forall cs, plain_run k_new cs -> let k := crun k_new cs in
  forall s n, find s (k_nodes k) = Some n -> index_number k s = n_num n.
Proof.
  intros cs Pl k s n H. pose proof (crun_disjoint cs k_new kinv_new) as Dj.
  assert (D0 : disjoint k_new) by (intros a Ha; cbn in Ha; congruence). specialize (Dj D0 Pl). fold k in Dj.
  unfold index_number, resolve. destruct (find s (k_alias k)) as [x|] eqn:E; [|rewrite H; reflexivity].
  assert (X : find s (k_nodes k) = None) by (apply Dj; congruence). congruence.
Qed.
Print Assumptions C24_not_hidden_partial.
Example rc_plain : plain_run k_new rc.
Proof.
  unfold rc. cbn [plain_run]. split; [intros s t _; vm_compute; reflexivity|].
  split; [intros s t _; vm_compute; reflexivity|]. split; [exact I|]. split; [exact I|].
  split; [|split; exact I]. intros s t H. cbn in H.
  repeat (destruct H as [H|H]; [injection H as <- <-; vm_compute; reflexivity|]). destruct H.
Qed.

(* C24 is false in general: an element connected to an alias silently gets a new node
   of its own, with its own row, which no name reaches any more *)
Theorem C24_element_on_alias_refuted :
  let k := crun k_new [CircuitElement EV "V1" "in" "0"; NodeAlias "in" "probe"; CircuitElement ER "R1" "probe" "0"; Solve 0] in
  snd (cexec (crun k_new [CircuitElement EV "V1" "in" "0"; NodeAlias "in" "probe"]) (CircuitElement ER "R1" "probe" "0")) = true /\
  index_number k "probe" = index_number k "in" /\
  exists n, find "probe" (k_nodes k) = Some n /\ n_num n = Some 2 /\ index_number k "probe" = Some 1.
Proof. vm_compute. split; [reflexivity|]. split; [reflexivity|]. eexists. repeat split. Qed.
Print Assumptions C24_element_on_alias_refuted.

(* C44: queries and failed commands leave the circuit alone.  False: listing the
   nodes of an empty circuit makes every later solve fail, *)
Theorem C44_node_list_refuted :
  snd (cexec k_new (Solve 0)) = true /\ snd (cexec (crun k_new [NodeList]) (Solve 0)) = false.
Proof. vm_compute. split; reflexivity. Qed.
Print Assumptions C44_node_list_refuted.
(* a failing circuit_element leaves its two nodes behind (they get rows), *)
Theorem C44_failed_element_refuted :
  snd (cexec k_new (CircuitElement EBad "X1" "a" "b")) = false /\
  index_number (crun k_new [CircuitElement EBad "X1" "a" "b"; Solve 0]) "b" = Some 1.
Proof. vm_compute. split; reflexivity. Qed.
Print Assumptions C44_failed_element_refuted.
(* and after a solve nothing can be added, not even an element on existing nodes,
   until delete_circuit *)
Lemma add_node_locked : forall k s t u, k_locked k = true -> add_node k s t u = None.
Proof. intros k s t u H. unfold add_node. rewrite H. reflexivity. Qed.
Lemma create_node_locked : forall k s u k', k_locked k = true -> create_node k s u = Some k' -> k_locked k' = true.
Proof.
  intros k s u k' H E. unfold create_node, add_ground in E.
  destruct (is_circuit_node k "0"); [|rewrite add_node_locked in E by assumption; discriminate].
  destruct (is_circuit_node k "GND"); [|rewrite add_node_locked in E by assumption; discriminate].
  destruct (is_circuit_node k s); [injection E as <-; assumption|]. rewrite add_node_locked in E by assumption. discriminate.
Qed.
Theorem C44_locked : forall k, k_locked k = true -> forall e name n1 n2, snd (cexec k (CircuitElement e name n1 n2)) = false.
Proof.
  intros k H e name n1 n2. cbn [cexec]. destruct (create_node k n1 UDefault) as [k1|] eqn:E1; [|reflexivity].
  destruct (create_node k1 n2 UDefault) as [k2|] eqn:E2; [|reflexivity].
  pose proof (create_node_locked _ _ _ _ (create_node_locked _ _ _ _ H E1) E2) as L.
  destruct e; cbn [element_nodes add_nodes]; try reflexivity; rewrite add_node_locked by assumption; reflexivity.
Qed.
Print Assumptions C44_locked.
Example locked_after_solve : k_locked (crun k_new rc) = true.
Proof. vm_compute. reflexivity. Qed.
(* add_circuit_node ignores its variable_update option *)
Theorem C44_variable_update_refuted : forall u v, (u = UPositive -> v = true) ->
  exists n, find "a" (k_nodes (crun k_new [AddCircuitNode "a" u v])) = Some n /\ n_upd n = UDefault.
Proof.
  intros u v H. destruct u, v; try (specialize (H eq_refl); discriminate);
    (eexists; split; [vm_compute; reflexivity|reflexivity]).
Qed.
Print Assumptions C44_variable_update_refuted.
