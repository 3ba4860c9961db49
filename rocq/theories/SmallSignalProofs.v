From Coq Require Import String List Bool Arith Lia Reals Lra ZArith.
From Verif Require Import StrMap EqTable EqTableProofs NodeKeeper NodeKeeperProofs Numbering NumberingProofs Assembly AssemblyProofs Load LoadProofs
  SmallSignal SmallSignalLoad SmallSignalUpdate SmallSignalNumbers.
Import ListNotations.
Open Scope string_scope.
Open Scope list_scope.
Open Scope nat_scope.
Local Arguments Nat.ltb : simpl never.
Local Arguments Nat.eqb : simpl never.

(* ---- what a user reads back ------------------------------------------------------------ *)
(* the value of a node model (get_node_model_values) at a node *)
Definition model_at (st : store R) (d r name : string) (i : nat) (v : R) : Prop :=
  exists l, find name (st_models st d r) = Some l /\ nth_error l i = Some v.
(* get_circuit_node_value *)
Definition circuit_at (k : keeper) (st : store R) (sol name : string) (v : R) : Prop :=
  exists l nd i, find sol (st_ckt st) = Some l /\ find name (k_nodes k) = Some nd /\ n_num nd = Some i /\ nth_error l i = Some v.
(* the stored values of devices and circuit are maps; the circuit has a node besides
   ground, and its solutions have a value for each *)
Record tidy (s : Numbering.system) (st : store R) : Prop := {
  td_models : forall d r, sorted (st_models st d r);
  td_ckt : sorted (st_ckt st);
  td_len : forall key l, find key (st_ckt st) = Some l -> length l = length (solved_names (k_nodes (s_ckt s)));
  td_nodes : k_nodes (s_ckt s) <> [] -> solved_names (k_nodes (s_ckt s)) <> [] }.
(* the equation named e of a region, and its variable *)
Definition equation_in (s : Numbering.system) (d r e var : string) : Prop :=
  exists dv rg q, find d (s_devs s) = Some dv /\ find r dv = Some rg /\ find e (t_eqs (r_table rg)) = Some q /\ q_var q = var.
Definition num_nodes (s : Numbering.system) (d r : string) (n : nat) : Prop :=
  exists dv rg, find d (s_devs s) = Some dv /\ find r dv = Some rg /\ r_nodes rg = n.

(* ---- initial solutions -------------------------------------------------------------------- *)
Lemma init_ok : forall k key (sols : smap (list R)), k_count k <> 0 -> sorted sols -> (forall kk l, find kk sols = Some l -> length l = k_count k) ->
  exists sols', init_solution rF k key sols = OK sols' /\ sorted sols' /\ (forall kk l, find kk sols' = Some l -> length l = k_count k) /\
    (exists l, find key sols' = Some l) /\ (forall kk l, find kk sols = Some l -> find kk sols' = Some l) /\ (forall kk, kk <> key -> find kk sols' = find kk sols).
Proof.
  intros k key sols Hc Ss Hl. unfold init_solution, has. destruct (find key sols) as [l|] eqn:E.
  - exists sols. split; [reflexivity|]. split; [exact Ss|]. split; [exact Hl|]. split; [exists l; exact E|]. split; auto.
  - destruct (k_count k) as [|c] eqn:Ec; [contradiction|]. eexists. split; [reflexivity|]. split; [apply put_sorted; exact Ss|]. split; [|split; [|split]].
    + intros kk l. rewrite find_put by exact Ss. destruct (String.eqb kk key); [intros [= <-]; cbn; rewrite repeat_length; reflexivity|apply Hl].
    + eexists. rewrite find_put by exact Ss. rewrite String.eqb_refl. reflexivity.
    + intros kk l H. rewrite find_put by exact Ss. destruct (String.eqb_spec kk key) as [->|]; [congruence|exact H].
    + intros kk H. rewrite find_put by exact Ss. destruct (String.eqb_spec kk key) as [->|]; [contradiction|reflexivity].
Qed.
Lemma init3_ok : forall k a b c (sols : smap (list R)), k_count k <> 0 -> sorted sols -> (forall kk l, find kk sols = Some l -> length l = k_count k) ->
  exists sols', Load.bind (init_solution rF k a sols) (fun x => Load.bind (init_solution rF k b x) (init_solution rF k c)) = OK sols' /\
    sorted sols' /\ (forall kk l, find kk sols' = Some l -> length l = k_count k) /\ (exists l, find a sols' = Some l) /\ (exists l, find b sols' = Some l) /\
    (forall kk l, find kk sols = Some l -> find kk sols' = Some l) /\ (forall kk, kk <> a -> kk <> b -> kk <> c -> find kk sols' = find kk sols).
Proof.
  intros k a b c sols Hc Ss Hl. destruct (init_ok k a sols Hc Ss Hl) as (s1 & E1 & S1 & L1 & (l1 & X1) & P1 & N1). rewrite E1. cbn [Load.bind].
  destruct (init_ok k b s1 Hc S1 L1) as (s2 & E2 & S2 & L2 & (l2 & X2) & P2 & N2). rewrite E2. cbn [Load.bind].
  destruct (init_ok k c s2 Hc S2 L2) as (s3 & E3 & S3 & L3 & X3 & P3 & N3). exists s3. split; [exact E3|]. split; [exact S3|]. split; [exact L3|].
  split; [exists l1; apply P3, P2; exact X1|]. split; [exists l2; apply P3; exact X2|]. split; [intros; apply P3, P2, P1; assumption|].
  intros kk Ha Hb Hcc. rewrite N3, N2, N1 by assumption. reflexivity.
Qed.

(* ---- storing the results of the circuit -------------------------------------------------------- *)
Lemma update_circuit_ok : forall s s' (x : list (R * R)) rkey ikey (sols : smap (list R)), reachable s -> (total s < 2 ^ 64)%Z -> number_system s = (s', Some (total s)) ->
  circuit_numbered (s_ckt s) (s_ckt s') (Z.to_nat (total s)) -> k_nodes (s_ckt s) <> [] -> length x = Z.to_nat (total s) -> sorted sols -> rkey <> ikey ->
  (forall kk l, find kk sols = Some l -> length l = k_count (s_ckt s')) -> (exists l, find rkey sols = Some l) -> (exists l, find ikey sols = Some l) ->
  exists c, update_circuit (s_ckt s') x rkey ikey sols = OK c /\ (forall kk, kk <> rkey -> kk <> ikey -> find kk c = find kk sols) /\
    (forall m n v, row_of s' (UCircuit n) = Some v -> circuit_at (s_ckt s') (mkStore m c) rkey n (fst (nth (Z.to_nat v) x (0%R, 0%R))) /\
                                                     circuit_at (s_ckt s') (mkStore m c) ikey n (snd (nth (Z.to_nat v) x (0%R, 0%R)))).
Proof.
  intros s s' x rkey ikey sols Rs Tot Es Cn Hne Lx Ss Hd Hl (re & Fr) (im & Fi). set (k := s_ckt s') in *.
  destruct (c13_lemma s Rs Tot) as (s2 & Es2 & Un & Rw & _ & _ & Gr). rewrite Es in Es2. injection Es2 as <-.
  destruct Cn as [(C & _)|(_ & Sk & Ea & Hm & Hc & Hk & Fs)]; [contradiction|].
  assert (NDk : NoDup (keys (k_nodes k))) by (apply sorted_NoDup; exact Sk).
  assert (So : sorted (k_nodes (s_ckt s))) by (unfold sorted in *; rewrite <- Hk; exact Sk).
  assert (Num : forall n nd, find n (k_nodes k) = Some nd -> is_ground nd = false -> exists i, n_num nd = Some i /\ position n (solved_names (k_nodes (s_ckt s))) = Some i /\ i < k_count k).
  { intros n nd H G. rewrite Fs in H. destruct (find n (k_nodes (s_ckt s))) as [nd0|] eqn:E0; [|discriminate]. cbn [option_map] in H. injection H as <-.
    assert (G0 : is_ground nd0 = false) by exact G. cbn [n_num]. rewrite G0. destruct (position n (solved_names (k_nodes (s_ckt s)))) as [i|] eqn:Ep.
    - exists i. split; [reflexivity|]. split; [reflexivity|]. apply position_bound in Ep. rewrite Hc. apply nth_error_Some. congruence.
    - apply position_None in Ep. exfalso. apply Ep. apply solved_In; [exact So|]. exists nd0. auto. }
  assert (Lr : length re = k_count k) by (eapply Hl; exact Fr). assert (Li : length im = k_count k) by (eapply Hl; exact Fi).
  destruct (circuit_values_ok k x (k_nodes k) re im) as (re' & im' & Ev & L1 & L2 & A & B).
  - intros n nd Hin G. apply In_find in Hin; [|exact Sk]. destruct (Num n nd Hin G) as (i & E & _ & Hi). exists i. split; [exact E|]. lia.
  - intros n nd n' nd' i Hn Hn' G G' E E'. apply In_find in Hn; [|exact Sk]. apply In_find in Hn'; [|exact Sk].
    destruct (Num n nd Hn G) as (j & Ej & Pj & _). destruct (Num n' nd' Hn' G') as (j' & Ej' & Pj' & _).
    assert (j = i) by congruence. assert (j' = i) by congruence. subst j j'. apply position_bound in Pj, Pj'. congruence.
  - exact NDk.
  - unfold update_circuit. rewrite Fr, Fi, Ev. cbn [Load.bind fst snd]. eexists. split; [reflexivity|]. split.
    + intros kk H1 H2. rewrite !find_put by (try apply put_sorted; exact Ss). destruct (String.eqb_spec kk ikey) as [->|]; [contradiction|].
      destruct (String.eqb_spec kk rkey) as [->|]; [contradiction|]. reflexivity.
    + intros m n v Hrow. cbn [row_of] in Hrow. fold k in Hrow. destruct (find n (k_nodes k)) as [nd|] eqn:En; [|discriminate].
      destruct (n_num nd) as [i|] eqn:Ei; [|discriminate]. injection Hrow as <-.
      assert (G : is_ground nd = false).
      { destruct (is_ground nd) eqn:G; [|reflexivity]. rewrite Fs in En. destruct (find n (k_nodes (s_ckt s))) as [nd0|]; [|discriminate]. cbn [option_map] in En. injection En as <-.
        change (is_ground nd0 = true) in G. cbn [n_num] in Ei. rewrite G in Ei. discriminate. }
      destruct (Num n nd En G) as (j & Ej & _ & Hj). assert (j = i) by congruence. subst j.
      destruct (A n nd i (find_In _ _ _ En) G Ei) as (u & Eu & Er & Em).
      assert (W : Z.to_nat (w64 (Z.of_nat i + Z.of_nat (k_min k))) = i + k_min k) by (rewrite w64_small by (unfold M; lia); lia).
      rewrite W. assert (X : nth (i + k_min k) x (0%R, 0%R) = u) by (apply nth_error_nth; exact Eu). rewrite X.
      assert (HH : String.eqb rkey ikey = false) by (apply String.eqb_neq; exact Hd).
      split; eexists _, nd, i; cbn [st_ckt]; (split; [rewrite !find_put by (try apply put_sorted; exact Ss); rewrite ?HH, !String.eqb_refl; reflexivity|]); auto.
Qed.

(* ---- sources ------------------------------------------------------------------------------------- *)
Lemma set_sources_ok : forall {S} off l (rhs : list (S * S)) d, NoDup (map fst l) -> (forall r v, In (r, v) l -> r + off < length rhs) ->
  exists rhs', set_sources off l rhs = OK rhs' /\ length rhs' = length rhs /\
    (forall r v, In (r, v) l -> nth (r + off) rhs' d = v) /\ (forall j, (forall r v, In (r, v) l -> r + off <> j) -> nth j rhs' d = nth j rhs d).
Proof.
  intros S off. induction l as [|[r v] t IH]; intros rhs d ND H; cbn [set_sources].
  - exists rhs. split; [reflexivity|]. split; [reflexivity|]. split; [intros r v []|reflexivity].
  - cbn [map fst] in ND. apply NoDup_cons_iff in ND. destruct ND as (N & ND).
    destruct (set_nth_some rhs (r + off) v (H r v (or_introl eq_refl))) as (l1 & E). rewrite E. destruct (set_nth_spec _ _ _ _ E) as (L & _ & Nt).
    destruct (IH l1 d ND) as (rhs' & E' & L' & A & B); [intros r' v' Hin; rewrite L; eapply H; right; exact Hin|].
    exists rhs'. split; [exact E'|]. split; [congruence|].
    assert (Hn : forall j, nth j l1 d = if j =? r + off then v else nth j rhs d).
    { intros j. specialize (Nt j). destruct (Nat.eqb j (r + off)); [apply nth_error_nth; exact Nt|].
      destruct (nth_error l1 j) as [y|] eqn:Ey; [rewrite (nth_error_nth _ _ _ Ey); symmetry in Nt; rewrite (nth_error_nth _ _ _ Nt); reflexivity|].
      symmetry in Nt. apply nth_error_None in Ey, Nt. rewrite !nth_overflow by assumption. reflexivity. }
    split.
    + intros r' v' [Hin|Hin]; [|apply A; exact Hin]. injection Hin as <- <-. rewrite B.
      * rewrite Hn, Nat.eqb_refl. reflexivity.
      * intros r' v' Hin Hr. assert (r' = r) by lia. subst r'. apply N. apply in_map_iff. exists (r, v'). auto.
    + intros j Hj. rewrite B by (intros r' v' Hin; eapply Hj; right; exact Hin). rewrite Hn.
      destruct (Nat.eqb_spec j (r + off)) as [->|]; [exfalso; exact (Hj r v (or_introl eq_refl) eq_refl)|reflexivity].
Qed.
