From Coq Require Import String List Bool Arith Lia.
From Verif Require Import StrMap EqTableProofs NodeKeeper.
Import ListNotations.
Open Scope string_scope.

(* names of the nodes that are solved for, in the order of the table *)
Definition solved_names (m : smap node) : list string :=
  map fst (filter (fun p => negb (is_ground (snd p))) m).

Lemma number_nodes_spec : forall m i s, NoDup (keys m) ->
  find s (fst (number_nodes i m)) =
    option_map (fun n => mkNode (n_type n) (n_upd n)
       (if is_ground n then None else option_map (Nat.add i) (position s (solved_names m)))) (find s m).
Proof.
  induction m as [|[k n] t IH]; intros i s ND; cbn [number_nodes find]; [reflexivity|].
  inversion ND as [|a b Hk Ht]; subst. unfold solved_names. cbn [filter snd].
  assert (Hp : ~ In k (solved_names t)).
  { intros H. apply Hk. unfold solved_names in H. apply in_map_iff in H. destruct H as (p & <- & Hp).
    apply filter_In in Hp. apply in_map, Hp. }
  destruct (is_ground n) eqn:G; cbn [negb].
  - specialize (IH i s Ht). destruct (number_nodes i t) as [t' j]. cbn [fst find] in *.
    destruct (String.eqb s k); [|exact IH]. cbn [option_map]. rewrite G. reflexivity.
  - specialize (IH (S i) s Ht). destruct (number_nodes (S i) t) as [t' j]. cbn [fst find map position] in *.
    destruct (String.eqb_spec s k) as [->|N].
    + cbn [option_map]. rewrite G. cbn. rewrite Nat.add_0_r. reflexivity.
    + rewrite IH. destruct (find s t) as [x|]; [|reflexivity]. cbn [option_map]. destruct (is_ground x); [reflexivity|].
      fold (solved_names t). destruct (position s (solved_names t)) as [p|]; cbn [option_map]; [|reflexivity].
      do 3 f_equal. lia.
Qed.
Lemma number_nodes_count : forall m i, snd (number_nodes i m) = i + length (solved_names m).
Proof.
  induction m as [|[k n] t IH]; intros i; cbn [number_nodes]; [cbn; lia|].
  unfold solved_names. cbn [filter snd]. destruct (is_ground n); cbn [negb].
  - specialize (IH i). destruct (number_nodes i t). cbn [snd] in *. exact IH.
  - specialize (IH (S i)). destruct (number_nodes (S i) t). cbn [snd map length] in *. rewrite IH. unfold solved_names. lia.
Qed.
Lemma number_nodes_keys : forall m i, keys (fst (number_nodes i m)) = keys m.
Proof.
  induction m as [|[k n] t IH]; intros i; cbn [number_nodes]; [reflexivity|].
  destruct (is_ground n).
  - specialize (IH i). destruct (number_nodes i t). cbn [fst keys map] in *. f_equal. exact IH.
  - specialize (IH (S i)). destruct (number_nodes (S i) t). cbn [fst keys map] in *. f_equal. exact IH.
Qed.
Lemma solved_In : forall m s, sorted m -> (In s (solved_names m) <-> exists n, find s m = Some n /\ is_ground n = false).
Proof.
  intros m s Hs. unfold solved_names. rewrite in_map_iff. split.
  - intros ((k & n) & <- & H). apply filter_In in H. destruct H as (H & G). exists n. cbn in *. split; [apply In_find; assumption|].
    destruct (is_ground n); [discriminate|reflexivity].
  - intros (n & H & G). exists (s, n). split; [reflexivity|]. apply filter_In. split; [apply find_In; exact H|]. cbn. rewrite G. reflexivity.
Qed.
Lemma solved_NoDup : forall m, sorted m -> NoDup (solved_names m).
Proof.
  intros m H. apply sorted_NoDup in H. unfold solved_names, keys in *. induction m as [|[k n] t IH]; cbn in *; [constructor|].
  inversion H as [|a b Hk Ht]; subst. destruct (is_ground n); cbn; [auto|]. constructor; [|auto].
  intros Hi. apply Hk. apply in_map_iff in Hi. destruct Hi as (p & E & Hp). apply filter_In in Hp. rewrite <- E. apply in_map, Hp.
Qed.

(* ---- invariant of all histories ---------------------------------------------- *)
Definition grounded (k : keeper) : Prop :=
  (exists n, find "0" (k_nodes k) = Some n /\ is_ground n = true) /\
  (exists n, find "GND" (k_nodes k) = Some n /\ is_ground n = true).
Definition kinv (k : keeper) : Prop :=
  sorted (k_nodes k) /\ sorted (k_alias k) /\
  ((k_nodes k = [] /\ k_alias k = [] /\ k_locked k = false) \/ grounded k) /\
  (forall a n, find a (k_alias k) = Some n -> find n (k_nodes k) <> None).

Definition full (k : keeper) : Prop := sorted (k_nodes k) /\ sorted (k_alias k) /\ grounded k /\
  (forall a n, find a (k_alias k) = Some n -> find n (k_nodes k) <> None).
Lemma full_kinv : forall k, full k -> kinv k.
Proof. intros k (A & B & C & D). split; [exact A|]. split; [exact B|]. split; [right; exact C|exact D]. Qed.

Lemma add_node_full : forall k s t u k', full k -> add_node k s t u = Some k' -> full k'.
Proof.
  intros k s t u k' (A & B & C & D) H. unfold add_node in H. destruct (k_locked k); [discriminate|].
  destruct (has s (k_nodes k)) eqn:E; injection H as <-; [split; [exact A|split; [exact B|split; [exact C|exact D]]]|].
  unfold has in E. destruct (find s (k_nodes k)) eqn:Ef; [discriminate|].
  split; [apply put_sorted; exact A|]. split; [exact B|]. cbn. split.
  - destruct C as ((n & C1 & C2) & m & C3 & C4). split.
    + exists n. cbn. rewrite find_put by assumption. destruct (String.eqb_spec "0" s); [subst; congruence|auto].
    + exists m. cbn. rewrite find_put by assumption. destruct (String.eqb_spec "GND" s); [subst; congruence|auto].
  - intros a n Ha. cbn in Ha. rewrite find_put by assumption. destruct (String.eqb n s); [discriminate|]. eapply D; exact Ha.
Qed.
Lemma add_ground_full : forall k k', kinv k -> add_ground k = Some k' -> full k' /\ k_alias k' = k_alias k.
Proof.
  intros k k' (A & B & C & D) H. destruct C as [(C1 & C2 & C3)|C].
  - unfold add_ground, is_circuit_node, resolve, add_node in H. rewrite C2 in H. cbn in H. rewrite C1, C3 in H. cbn in H.
    cbn in H. injection H as <-. split; [|cbn; congruence]. split; [repeat constructor; try (unfold slt; cbn; reflexivity)|].
    split; [constructor|]. split.
    + split; eexists; (split; [reflexivity|reflexivity]).
    + intros a n Ha. cbn in Ha. discriminate.
  - destruct C as ((n & C1 & C2) & m & C3 & C4).
    assert (is_circuit_node k "0" = true).
    { unfold is_circuit_node, resolve. destruct (find "0" (k_alias k)) as [x|] eqn:E.
      - specialize (D _ _ E). unfold has. destruct (find x (k_nodes k)); congruence.
      - unfold has. rewrite C1. reflexivity. }
    assert (is_circuit_node k "GND" = true).
    { unfold is_circuit_node, resolve. destruct (find "GND" (k_alias k)) as [x|] eqn:E.
      - specialize (D _ _ E). unfold has. destruct (find x (k_nodes k)); congruence.
      - unfold has. rewrite C3. reflexivity. }
    unfold add_ground in H. rewrite H0, H1 in H. injection H as <-. split; [|reflexivity].
    split; [exact A|]. split; [exact B|]. split; [split; [exists n|exists m]; auto|exact D].
Qed.
Lemma create_node_full : forall k s u k', kinv k -> create_node k s u = Some k' -> full k'.
Proof.
  intros k s u k' I H. unfold create_node in H. destruct (add_ground k) as [k1|] eqn:E; [|discriminate].
  destruct (add_ground_full _ _ I E) as (F & _). destruct (is_circuit_node k1 s); [injection H as <-; exact F|].
  eapply add_node_full; eassumption.
Qed.
Lemma add_nodes_full : forall l k, full k -> full (fst (add_nodes k l)).
Proof.
  induction l as [|[s t] r IH]; intros k F; cbn; [exact F|].
  destruct (add_node k s t UDefault) as [k'|] eqn:E; [|exact F]. apply IH. eapply add_node_full; eassumption.
Qed.

Lemma existsb_ground : forall m s n, find s m = Some n -> is_ground n = true -> existsb (fun p => is_ground (snd p)) m = true.
Proof. intros m s n H G. apply existsb_exists. exists (s, n). split; [apply find_In; exact H|exact G]. Qed.

Lemma set_numbers_ok : forall k start, full k -> exists k', set_node_numbers k start = (k', true) /\ full k' /\
  k_alias k' = k_alias k /\ k_min k' = start /\ k_count k' = length (solved_names (k_nodes k)) /\
  keys (k_nodes k') = keys (k_nodes k) /\
  forall s, find s (k_nodes k') = option_map (fun n => mkNode (n_type n) (n_upd n)
       (if is_ground n then None else position s (solved_names (k_nodes k)))) (find s (k_nodes k)).
Proof.
  intros k start (A & B & C & D). unfold set_node_numbers.
  pose proof (number_nodes_spec (k_nodes k) 0) as Sp. pose proof (number_nodes_count (k_nodes k) 0) as Ct.
  pose proof (number_nodes_keys (k_nodes k) 0) as Ky.
  destruct (number_nodes 0 (k_nodes k)) as [m c]. cbn [fst snd] in *.
  destruct C as ((n & C1 & C2) & n' & C3 & C4).
  rewrite (existsb_ground _ _ _ C1 C2). eexists. split; [reflexivity|]. cbn [k_nodes k_alias k_min k_count].
  assert (Fs : forall s, find s m = option_map (fun n => mkNode (n_type n) (n_upd n)
       (if is_ground n then None else position s (solved_names (k_nodes k)))) (find s (k_nodes k))).
  { intros s. rewrite Sp by (apply sorted_NoDup; exact A). destruct (find s (k_nodes k)); [|reflexivity]. cbn.
    destruct (is_ground n0); [reflexivity|]. destruct (position s _); reflexivity. }
  split; [|split; [reflexivity|split; [reflexivity|split; [exact Ct|split; [exact Ky|exact Fs]]]]].
  split; [unfold sorted in *; cbn [k_nodes]; rewrite Ky; exact A|]. split; [exact B|]. split.
  - split; [exists (mkNode (n_type n) (n_upd n) None)|exists (mkNode (n_type n') (n_upd n') None)]; cbn; rewrite Fs.
    + rewrite C1. cbn. rewrite C2. split; [reflexivity|exact C2].
    + rewrite C3. cbn. rewrite C4. split; [reflexivity|exact C4].
  - intros a x Ha. cbn in *. rewrite Fs. specialize (D a x Ha). destruct (find x (k_nodes k)); [discriminate|congruence].
Qed.

Lemma cexec_kinv : forall k c, kinv k -> kinv (fst (cexec k c)).
Proof.
  intros k c I. destruct c as [s u v|e nm n1 n2|nd al| |st|]; cbn [cexec].
  - assert (G : forall b : bool, kinv (fst (match add_ground k with
        | None => (k, false)
        | Some k1 => if is_circuit_node k1 s then (k1, false)
             else match create_node k1 s UDefault with None => (k1, false) | Some k2 => (k2, true) end end))).
    { intros _. destruct (add_ground k) as [k1|] eqn:E; [|exact I]. destruct (add_ground_full _ _ I E) as (F & _).
      destruct (is_circuit_node k1 s); [apply full_kinv; exact F|].
      destruct (create_node k1 s UDefault) as [k2|] eqn:E2; [|apply full_kinv; exact F].
      apply full_kinv. eapply create_node_full; [apply full_kinv; exact F|exact E2]. }
    destruct u, v; try apply (G true). exact I.
  - destruct (create_node k n1 UDefault) as [k1|] eqn:E1; [|exact I].
    pose proof (create_node_full _ _ _ _ I E1) as F1.
    destruct (create_node k1 n2 UDefault) as [k2|] eqn:E2; [|apply full_kinv; exact F1].
    pose proof (create_node_full _ _ _ _ (full_kinv _ F1) E2) as F2.
    destruct e; try (apply full_kinv, add_nodes_full; exact F2). apply full_kinv; exact F2.
  - destruct (add_ground k) as [k1|] eqn:E; [|exact I]. destruct (add_ground_full _ _ I E) as (F & _).
    destruct (negb (is_circuit_node k1 nd)); [apply full_kinv; exact F|].
    destruct (is_circuit_node k1 al); [apply full_kinv; exact F|].
    destruct (add_alias k1 al nd) as [k2|] eqn:E2; [|apply full_kinv; exact F].
    unfold add_alias in E2. destruct (has nd (k_nodes k1)) eqn:Hn; cbn in E2; [|discriminate].
    destruct (has al (k_nodes k1)); [discriminate|]. injection E2 as <-.
    destruct F as (F1 & F2 & F3 & F4). apply full_kinv. split; [exact F1|]. split; [apply put_sorted; exact F2|]. split; [exact F3|].
    cbn. intros a n. rewrite find_put by assumption. destruct (String.eqb a al); [|apply F4].
    intros H. injection H as <-. unfold has in Hn. destruct (find nd (k_nodes k1)); congruence.
  - destruct (add_ground k) as [k1|] eqn:E; [|exact I]. apply full_kinv. exact (proj1 (add_ground_full _ _ I E)).
  - destruct I as (A & B & C & D). destruct C as [(C1 & C2 & C3)|C].
    + rewrite C1. split; [exact A|]. split; [exact B|]. split; [left; auto|exact D].
    + destruct (k_nodes k) as [|p0 t0] eqn:En. { destruct C as ((n & C1 & _) & _). rewrite En in C1. discriminate. }
      assert (Fk : full k) by (split; [rewrite En; exact A|]; split; [exact B|]; split; [exact C|rewrite En; exact D]).
      destruct (set_numbers_ok k st Fk) as (k' & E & F & _).
      rewrite E. cbn [negb]. apply full_kinv. exact F.
  - split; [constructor|]. split; [constructor|]. split; [left; auto|]. discriminate.
Qed.
Lemma crun_kinv : forall cs k, kinv k -> kinv (crun k cs).
Proof. induction cs as [|c r IH]; intros k I; cbn; [exact I|]. apply IH, cexec_kinv, I. Qed.
Lemma kinv_new : kinv k_new.
Proof. split; [constructor|]. split; [constructor|]. split; [left; auto|]. discriminate. Qed.

(* C23 *)
Lemma c23_lemma : forall cs start, let k := crun k_new cs in k_nodes k <> [] ->
  exists k', set_node_numbers k start = (k', true) /\
    k_count k' = length (solved_names (k_nodes k)) /\ NoDup (solved_names (k_nodes k)) /\
    (forall s, In s (solved_names (k_nodes k)) <-> exists n, find s (k_nodes k) = Some n /\ is_ground n = false) /\
    (forall s n, find s (k_nodes k) = Some n -> find s (k_alias k) = None ->
       (is_ground n = true -> index_number k' s = None /\ equation_number k' s = None) /\
       (is_ground n = false -> exists i, nth_error (solved_names (k_nodes k)) i = Some s /\
           index_number k' s = Some i /\ equation_number k' s = Some (i + start))).
Proof.
  intros cs start k Hne. pose proof (crun_kinv cs k_new kinv_new) as I. fold k in I.
  destruct I as (A & B & C & D). destruct C as [(C1 & _)|C]; [contradiction|].
  destruct (set_numbers_ok k start) as (k' & E & F & Ea & Em & Ec & _ & Fs).
  { split; [exact A|]. split; [exact B|]. split; [exact C|exact D]. }
  exists k'. split; [exact E|]. split; [exact Ec|]. split; [apply solved_NoDup; exact A|].
  split; [intros s; apply solved_In; exact A|].
  intros s n Hf Ha. unfold equation_number, index_number, resolve. rewrite Ea, Ha, Fs, Hf. cbn [option_map n_num]. split; intros G; rewrite G.
  - split; reflexivity.
  - assert (Hi : In s (solved_names (k_nodes k))) by (apply solved_In; [exact A|]; exists n; auto).
    destruct (position s (solved_names (k_nodes k))) as [i|] eqn:Ep.
    + exists i. split; [apply position_bound; exact Ep|]. rewrite Em. split; reflexivity.
    + apply position_None in Ep. contradiction.
Qed.

(* ---- C24 ----------------------------------------------------------------------- *)
Definition disjoint (k : keeper) : Prop := forall a, find a (k_alias k) <> None -> find a (k_nodes k) = None.
(* a command does not use an alias as the terminal of an element, nor one as the
   name of its internal node *)
Definition plain (k : keeper) (c : ccmd) : Prop :=
  match c with
  | CircuitElement e nm n1 n2 => forall s t, In (s, t) ((n1, NDefault) :: (n2, NDefault) :: element_nodes e nm n1 n2) -> find s (k_alias k) = None
  | _ => True
  end.
Fixpoint plain_run (k : keeper) (cs : list ccmd) : Prop :=
  match cs with nil => True | c :: r => plain k c /\ plain_run (fst (cexec k c)) r end.

Lemma add_node_disjoint : forall k s t u k', sorted (k_nodes k) -> disjoint k -> find s (k_alias k) = None ->
  add_node k s t u = Some k' -> disjoint k' /\ k_alias k' = k_alias k /\ sorted (k_nodes k').
Proof.
  intros k s t u k' A Dj Hs H. unfold add_node in H. destruct (k_locked k); [discriminate|].
  destruct (has s (k_nodes k)) eqn:E; injection H as <-; [auto|]. split; [|split; [reflexivity|apply put_sorted; exact A]].
  intros a Ha. cbn in *. rewrite find_put by assumption. destruct (String.eqb_spec a s); [subst; congruence|auto].
Qed.
Lemma circuit_node_alias_free : forall k s, kinv k -> is_circuit_node k s = false -> find s (k_alias k) = None.
Proof.
  intros k s (A & B & C & D) H. destruct (find s (k_alias k)) as [x|] eqn:E; [|reflexivity].
  unfold is_circuit_node, resolve in H. rewrite E in H. specialize (D s x E). unfold has in H. destruct (find x (k_nodes k)); congruence.
Qed.
Lemma add_ground_disjoint : forall k k', kinv k -> disjoint k -> add_ground k = Some k' -> disjoint k'.
Proof.
  intros k k' I Dj H. pose proof I as (A & B & C & D). destruct C as [(C1 & C2 & C3)|C].
  - destruct (add_ground_full _ _ I H) as (_ & Ea). intros a Ha. rewrite Ea, C2 in Ha. cbn in Ha. congruence.
  - unfold add_ground in H. destruct C as ((n & C1 & C2) & m & C3 & C4).
    assert (is_circuit_node k "0" = true).
    { destruct (is_circuit_node k "0") eqn:E; [reflexivity|]. pose proof (circuit_node_alias_free _ _ I E).
      unfold is_circuit_node, resolve, has in E. rewrite H0, C1 in E. discriminate. }
    assert (is_circuit_node k "GND" = true).
    { destruct (is_circuit_node k "GND") eqn:E; [reflexivity|]. pose proof (circuit_node_alias_free _ _ I E).
      unfold is_circuit_node, resolve, has in E. rewrite H1, C3 in E. discriminate. }
    rewrite H0, H1 in H. injection H as <-. exact Dj.
Qed.
Lemma create_node_disjoint : forall k s u k', kinv k -> disjoint k -> create_node k s u = Some k' ->
  disjoint k' /\ k_alias k' = k_alias k.
Proof.
  intros k s u k' I Dj H. unfold create_node in H. destruct (add_ground k) as [k1|] eqn:E; [|discriminate].
  destruct (add_ground_full _ _ I E) as (F & Ea). pose proof (add_ground_disjoint _ _ I Dj E) as D1.
  destruct (is_circuit_node k1 s) eqn:Ei; [injection H as <-; auto|].
  destruct (add_node_disjoint _ _ _ _ _ (proj1 F) D1 (circuit_node_alias_free _ _ (full_kinv _ F) Ei) H) as (X & Y & _).
  split; [exact X|congruence].
Qed.
Lemma add_nodes_disjoint : forall l k, sorted (k_nodes k) -> disjoint k -> (forall s t, In (s, t) l -> find s (k_alias k) = None) ->
  disjoint (fst (add_nodes k l)) /\ k_alias (fst (add_nodes k l)) = k_alias k.
Proof.
  induction l as [|[s t] r IH]; intros k A Dj Hp; cbn; [auto|].
  destruct (add_node k s t UDefault) as [k'|] eqn:E; [|auto].
  destruct (add_node_disjoint _ _ _ _ _ A Dj (Hp s t (or_introl eq_refl)) E) as (X & Y & Z).
  destruct (IH k' Z X) as (P & Q); [intros s' t' H; rewrite Y; eapply Hp; right; exact H|]. split; [exact P|congruence].
Qed.

Lemma cexec_disjoint : forall k c, kinv k -> disjoint k -> plain k c ->
  disjoint (fst (cexec k c)).
Proof.
  intros k c I Dj Pl. destruct c as [s u v|e nm n1 n2|nd al| |st|]; cbn [cexec].
  - assert (G : forall b : bool, disjoint (fst (match add_ground k with
        | None => (k, false)
        | Some k1 => if is_circuit_node k1 s then (k1, false)
             else match create_node k1 s UDefault with None => (k1, false) | Some k2 => (k2, true) end end))).
    { intros _. destruct (add_ground k) as [k1|] eqn:E; [|exact Dj]. pose proof (add_ground_disjoint _ _ I Dj E) as D1.
      destruct (add_ground_full _ _ I E) as (F & _).
      destruct (is_circuit_node k1 s); [exact D1|].
      destruct (create_node k1 s UDefault) as [k2|] eqn:E2; [|exact D1].
      exact (proj1 (create_node_disjoint _ _ _ _ (full_kinv _ F) D1 E2)). }
    destruct u, v; try apply (G true); exact Dj.
  - destruct (create_node k n1 UDefault) as [k1|] eqn:E1; [|exact Dj].
    pose proof (create_node_full _ _ _ _ I E1) as F1. destruct (create_node_disjoint _ _ _ _ I Dj E1) as (D1 & A1).
    destruct (create_node k1 n2 UDefault) as [k2|] eqn:E2; [|exact D1].
    pose proof (create_node_full _ _ _ _ (full_kinv _ F1) E2) as F2.
    destruct (create_node_disjoint _ _ _ _ (full_kinv _ F1) D1 E2) as (D2 & A2).
    assert (Q : disjoint (fst (add_nodes k2 (element_nodes e nm n1 n2)))).
    { apply add_nodes_disjoint; [apply F2|exact D2|]. intros s t H. rewrite A2, A1. apply (Pl s t). right. right. exact H. }
    destruct e; try exact Q; exact D2.
  - destruct (add_ground k) as [k1|] eqn:E; [|exact Dj]. destruct (add_ground_full _ _ I E) as (F & _).
    pose proof (add_ground_disjoint _ _ I Dj E) as D1.
    destruct (negb (is_circuit_node k1 nd)); [exact D1|].
    destruct (is_circuit_node k1 al); [exact D1|].
    destruct (add_alias k1 al nd) as [k2|] eqn:E2; [|exact D1].
    unfold add_alias in E2. destruct (has nd (k_nodes k1)) eqn:Hn; cbn in E2; [|discriminate].
    destruct (has al (k_nodes k1)) eqn:Hal; [discriminate|]. injection E2 as <-. unfold has in Hal.
    destruct (find al (k_nodes k1)) eqn:Fal; [discriminate|].
    intros a. cbn. rewrite find_put by apply F. destruct (String.eqb_spec a al) as [->|]; [auto|apply D1].
  - destruct (add_ground k) as [k1|] eqn:E; [|exact Dj]. exact (add_ground_disjoint _ _ I Dj E).
  - destruct (k_nodes k) as [|p0 t0] eqn:En; [exact Dj|]. clear En p0 t0.
    unfold set_node_numbers. destruct (number_nodes 0 (k_nodes k)) as [m c] eqn:Em. cbn.
    assert (K : forall a, find a (k_alias k) <> None -> find a m = None).
    { intros a Ha. specialize (Dj a Ha). pose proof (number_nodes_spec (k_nodes k) 0 a) as Sp. rewrite Em in Sp. cbn in Sp.
      rewrite Sp by (apply sorted_NoDup, I). rewrite Dj. reflexivity. }
    destruct (existsb _ (k_nodes k)); cbn; exact K.
  - intros a Ha. cbn in Ha. congruence.
Qed.
Lemma crun_disjoint : forall cs k, kinv k -> disjoint k -> plain_run k cs -> disjoint (crun k cs).
Proof.
  induction cs as [|c r IH]; intros k I Dj Pl; cbn; [exact Dj|]. destruct Pl as (P1 & P2).
  apply IH; [apply cexec_kinv; exact I|apply cexec_disjoint; assumption|exact P2].
Qed.

(* aliases last until delete_circuit *)
Lemma add_node_alias : forall k s t u k', add_node k s t u = Some k' -> k_alias k' = k_alias k.
Proof.
  intros k s t u k' H. unfold add_node in H. destruct (k_locked k); [discriminate|].
  destruct (has s (k_nodes k)); injection H as <-; reflexivity.
Qed.
Lemma add_ground_alias : forall k k', add_ground k = Some k' -> k_alias k' = k_alias k.
Proof.
  intros k k' H. unfold add_ground in H.
  destruct (is_circuit_node k "0").
  - destruct (is_circuit_node k "GND"); [injection H as <-; reflexivity|]. eapply add_node_alias; exact H.
  - destruct (add_node k "0" NGround UDefault) as [k1|] eqn:E; [|discriminate]. apply add_node_alias in E.
    destruct (is_circuit_node k1 "GND"); [injection H as <-; exact E|]. apply add_node_alias in H. congruence.
Qed.
Lemma create_node_alias : forall k s u k', create_node k s u = Some k' -> k_alias k' = k_alias k.
Proof.
  intros k s u k' H. unfold create_node in H. destruct (add_ground k) as [k1|] eqn:E; [|discriminate].
  apply add_ground_alias in E. destruct (is_circuit_node k1 s); [injection H as <-; exact E|]. apply add_node_alias in H. congruence.
Qed.
Lemma add_nodes_alias : forall l k, k_alias (fst (add_nodes k l)) = k_alias k.
Proof.
  induction l as [|[s t] r IH]; intros k; cbn; [reflexivity|].
  destruct (add_node k s t UDefault) as [k'|] eqn:E; [|reflexivity]. rewrite IH. eapply add_node_alias; exact E.
Qed.
Lemma cexec_alias : forall k c a n, kinv k -> c <> DeleteCircuit -> find a (k_alias k) = Some n ->
  find a (k_alias (fst (cexec k c))) = Some n.
Proof.
  intros k c a n I Hc Ha. destruct c as [s u v|e nm n1 n2|nd al| |st|]; cbn [cexec].
  - assert (G : find a (k_alias (fst (match add_ground k with
        | None => (k, false)
        | Some k1 => if is_circuit_node k1 s then (k1, false)
             else match create_node k1 s UDefault with None => (k1, false) | Some k2 => (k2, true) end end))) = Some n).
    { destruct (add_ground k) as [k1|] eqn:E; [|exact Ha]. apply add_ground_alias in E.
      destruct (is_circuit_node k1 s); [cbn; congruence|].
      destruct (create_node k1 s UDefault) as [k2|] eqn:E2; [apply create_node_alias in E2|]; cbn; congruence. }
    destruct u, v; try exact G; exact Ha.
  - destruct (create_node k n1 UDefault) as [k1|] eqn:E1; [|exact Ha]. apply create_node_alias in E1.
    destruct (create_node k1 n2 UDefault) as [k2|] eqn:E2; [|cbn; congruence]. apply create_node_alias in E2.
    pose proof (add_nodes_alias (element_nodes e nm n1 n2) k2) as E3.
    destruct e; try (rewrite E3; congruence); cbn; congruence.
  - destruct (add_ground k) as [k1|] eqn:E; [|exact Ha]. destruct (add_ground_full _ _ I E) as (F & Ea).
    destruct (negb (is_circuit_node k1 nd)); [cbn; congruence|].
    destruct (is_circuit_node k1 al) eqn:Ei; [cbn; congruence|].
    pose proof (circuit_node_alias_free _ _ (full_kinv _ F) Ei) as Fr.
    destruct (add_alias k1 al nd) as [k2|] eqn:E2; [|cbn; congruence].
    unfold add_alias in E2. destruct (has nd (k_nodes k1)) eqn:Hn; cbn in E2; [|discriminate].
    destruct (has al (k_nodes k1)); [discriminate|]. injection E2 as <-. cbn. rewrite find_put by apply F.
    destruct (String.eqb_spec a al); congruence.
  - destruct (add_ground k) as [k1|] eqn:E; [|exact Ha]. apply add_ground_alias in E. cbn. congruence.
  - destruct (k_nodes k) as [|p0 t0]; [exact Ha|].
    unfold set_node_numbers. destruct (number_nodes 0 (k_nodes k)) as [m c]. cbn.
    destruct (existsb _ (k_nodes k)); exact Ha.
  - contradiction.
Qed.
Lemma crun_alias : forall cs k a n, kinv k -> ~ In DeleteCircuit cs -> find a (k_alias k) = Some n ->
  find a (k_alias (crun k cs)) = Some n.
Proof.
  induction cs as [|c r IH]; intros k a n I Hc Ha; cbn; [exact Ha|].
  apply IH; [apply cexec_kinv; exact I|intros H; apply Hc; right; exact H|].
  apply cexec_alias; [exact I|intros ->; apply Hc; left; reflexivity|exact Ha].
Qed.
Lemma crun_app : forall a b k, crun k (a ++ b) = crun (crun k a) b.
Proof. induction a as [|c r IH]; intros b k; cbn; [reflexivity|apply IH]. Qed.

Lemma c24_alias_lemma : forall cs node alias cs', ~ In DeleteCircuit cs' ->
  snd (cexec (crun k_new cs) (NodeAlias node alias)) = true ->
  let k' := crun k_new (cs ++ NodeAlias node alias :: cs') in
  exists n, find node (k_nodes k') = Some n /\ index_number k' alias = n_num n.
Proof.
  intros cs node alias cs' Hc Hok k'. unfold k'. rewrite crun_app. cbn [crun].
  set (k := crun k_new cs) in *. pose proof (crun_kinv cs k_new kinv_new) as I. fold k in I.
  pose proof (cexec_kinv k (NodeAlias node alias) I) as I1.
  assert (Ha : find alias (k_alias (fst (cexec k (NodeAlias node alias)))) = Some node).
  { cbn [cexec] in *. destruct (add_ground k) as [k1|] eqn:E; [|discriminate]. destruct (add_ground_full _ _ I E) as (F & _).
    destruct (negb (is_circuit_node k1 node)); [discriminate|]. destruct (is_circuit_node k1 alias); [discriminate|].
    destruct (add_alias k1 alias node) as [k2|] eqn:E2; [|discriminate].
    unfold add_alias in E2. destruct (negb (has node (k_nodes k1))); [discriminate|]. destruct (has alias (k_nodes k1)); [discriminate|].
    injection E2 as <-. cbn. rewrite find_put by apply F. rewrite String.eqb_refl. reflexivity. }
  pose proof (crun_alias cs' _ _ _ I1 Hc Ha) as Ha'. pose proof (crun_kinv cs' _ I1) as I2.
  set (k2 := crun (fst (cexec k (NodeAlias node alias))) cs') in *.
  destruct I2 as (_ & _ & _ & D). specialize (D _ _ Ha'). destruct (find node (k_nodes k2)) as [n|] eqn:En; [|congruence].
  exists n. split; [reflexivity|]. unfold index_number, resolve. rewrite Ha', En. reflexivity.
Qed.
