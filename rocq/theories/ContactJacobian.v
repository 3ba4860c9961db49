(* Rows and matrix of a contact equation, in exact arithmetic. *)
From Coq Require Import String List Bool Arith Lia Reals Lra Classical_Prop.
From Verif Require Import StrMap EqTable EqTableProofs Assembly AssemblyProofs AssemblyResidual AssemblyJacobian Load LoadProofs Contact ContactProofs.
Import ListNotations.
Open Scope R_scope.
Open Scope nat_scope.
Open Scope list_scope.

(* ---- specification ---------------------------------------------------------------- *)
(* the bulk part of a contact equation as an equation, its circuit row, and the residual *)
Definition cbulk (b : cbody) : body := mkBody (c_node b) (c_edge b) (c_edgevol b) (c_element b) (c_vol0 b) (c_vol1 b) ""%string.
Definition crow_of (cr : circuit_rows) (b : cbody) : option nat :=
  if given (c_circuit b) then match cr (c_circuit b) with Some (Some c) => Some c | _ => None end else None.
Definition at_circuit (o : option nat) (row : nat) (x : R) : R := match o with Some c => ind c row x | None => 0%R end.
Definition contact_residual (r : region R) (i0 : nat) (cr : circuit_rows) (act : list nat) (b : cbody) (t : mode) (row : nat) : R :=
  match t with
  | DC => rsum (fun n => ind (eqnum r i0 n) row (residual r (cbulk b) n)) act +
          at_circuit (crow_of cr b) row (rsum (outflow r (c_nodecur b) (c_edgecur b) (c_elcur b)) act)
  | TIME => at_circuit (crow_of cr b) row (rsum (outflow r (c_nodeq b) (c_edgeq b) (c_elq b)) act)
  end%R.

(* ---- rows -------------------------------------------------------------------------- *)
Lemma cboth_OK : forall (a b : cloads (S := R)) m v, cboth a b = OK (m, v) ->
  exists m1 v1 m2 v2, a = OK (m1, v1) /\ b = OK (m2, v2) /\ m = m1 ++ m2 /\ v = v1 ++ v2.
Proof.
  intros a b m v H. unfold cboth in H. destruct a as [[m1 v1]| |]; cbn in H; try discriminate. destruct b as [[m2 v2]| |]; cbn in H; try discriminate.
  injection H as <- <-. exists m1, v1, m2, v2. auto.
Qed.
Lemma cboth_row : forall (a b : cloads (S := R)) m v row, cboth a b = OK (m, v) ->
  exists m1 v1 m2 v2, a = OK (m1, v1) /\ b = OK (m2, v2) /\ row_sum v row = (row_sum v1 row + row_sum v2 row)%R.
Proof.
  intros a b m v row H. destruct (cboth_OK _ _ _ _ H) as (m1 & v1 & m2 & v2 & A & B & _ & ->). exists m1, v1, m2, v2.
  split; [exact A|]. split; [exact B|]. apply row_sum_app.
Qed.
Lemma cnothing_row : forall (m : mat_list R) v row, cnothing = OK (m, v) -> row_sum v row = 0%R.
Proof. intros m v row H. injection H as _ <-. reflexivity. Qed.
Lemma ind_rsum : forall {A} a b (f : A -> R) l, ind a b (rsum f l) = rsum (fun x => ind a b (f x)) l.
Proof. intros A a b f l. unfold ind. destruct (a =? b); [reflexivity|]. symmetry. apply rsum_zero. reflexivity. Qed.
Lemma ind_opt : forall a b c x, ind a b (opt c x) = opt c (ind a b x).
Proof. intros. unfold ind, opt. destruct c, (a =? b); reflexivity. Qed.
Lemma ind_plus : forall a b x y, ind a b (x + y)%R = (ind a b x + ind a b y)%R.
Proof. intros. unfold ind. destruct (a =? b); lra. Qed.

Section Rows.
Variables (r : region R) (eq : string) (i0 : nat) (cr : circuit_rows) (act : list nat) (b : cbody).
Hypothesis Hi : row_index r eq = Some i0.
Let cn := c_circuit b.
Lemma node_equation_row : forall model m v row, node_equation rF r eq cr cn act model = OK (m, v) ->
  row_sum v row = rsum (fun n => ind (eqnum r i0 n) row (val (rg_node r) (g_nodevol (rg_geom r)) n * val (rg_node r) model n)%R) act.
Proof.
  intros model m v row H. unfold node_equation in H. rewrite Hi in H. unfold val.
  destruct (rg_node r (g_nodevol (rg_geom r))) as [nv|]; [|discriminate]. destruct (circuit_col cr cn) as [cc| |]; try discriminate. cbn [bind] in H.
  destruct (rg_node r model) as [nm|]; [|discriminate]. destruct (over_vars _ _) as [mm| |]; try discriminate. cbn [bind] in H. injection H as _ <-.
  unfold row_sum. rewrite rsum_map. reflexivity.
Qed.
Lemma positions_equation_row : forall look els sfx model couple s0 s1 m v row, loopless els ->
  positions_equation rF look els sfx r eq cr cn act model couple s0 s1 = OK (m, v) ->
  row_sum v row = rsum (fun n => ind (eqnum r i0 n) row (at_node els (fun k => s0 * (val look model k * val look couple k))%R (fun k => s1 * (val look model k * val look couple k))%R n)) act.
Proof.
  intros look els sfx model couple s0 s1 m v row HL H. unfold positions_equation in H. rewrite Hi in H.
  destruct (look couple) as [ec|] eqn:E2; [|discriminate]. destruct (circuit_col cr cn) as [cc| |]; try discriminate. cbn [bind] in H.
  destruct (look model) as [em|] eqn:E1; [|discriminate]. destruct (over_vars _ _) as [mm| |]; try discriminate. cbn [bind] in H. injection H as _ <-.
  unfold row_sum. rewrite rsum_flat_map. apply rsum_ext. intros n _. rewrite rsum_map. cbn [fst snd].
  rewrite <- ind_rsum. f_equal. cbn [s_mul rF]. rewrite (incident_sum els s0 s1 n (fun e => (ec (pos_of e) * em (pos_of e))%R) HL).
  rewrite (at_node_nw els (fun k => (val look model k * val look couple k)%R)). apply rsum_ext. intros e _. unfold val. rewrite E1, E2. lra.
Qed.
Lemma contact_element_row : forall model couple s0 s1 m v row, loopless (elements (rg_mesh r)) ->
  contact_element rF r eq cr act b model couple s0 s1 = OK (m, v) ->
  row_sum v row = rsum (fun n => ind (eqnum r i0 n) row (at_node (elements (rg_mesh r)) (fun k => s0 * (val (rg_element r) model k * val (rg_element r) couple k))%R (fun k => s1 * (val (rg_element r) model k * val (rg_element r) couple k))%R n)) act.
Proof.
  intros model couple s0 s1 m v row HL H. unfold contact_element, elements in *. destruct (m_dim (rg_mesh r)) as [|[|[|[|d]]]];
    try (apply (cnothing_row _ _ row) in H; rewrite H; symmetry; apply rsum_zero; intros; unfold ind; destruct (_ =? row); reflexivity);
    eapply positions_equation_row; eassumption.
Qed.
End Rows.

Section Circuit.
Variables (r : region R) (cr : circuit_rows) (act : list nat) (b : cbody) (crow : nat).
Let cn := c_circuit b.
Hypothesis Hc : cr cn = Some (Some crow).
Hypothesis ND : NoDup act.
Lemma node_on_circuit_row : forall model m v row, node_on_circuit rF r cr cn act model = OK (m, v) ->
  row_sum v row = ind crow row (rsum (fun n => val (rg_node r) (g_nodevol (rg_geom r)) n * val (rg_node r) model n)%R act).
Proof.
  intros model m v row H. unfold node_on_circuit in H. rewrite Hc in H. unfold val.
  destruct (rg_node r (g_nodevol (rg_geom r))) as [nv|]; [|discriminate]. destruct (rg_node r model) as [nm|]; [|discriminate].
  destruct (over_vars _ _) as [mm| |]; try discriminate. cbn [bind] in H. injection H as _ <-.
  unfold row_sum. rewrite rsum_map, ind_rsum. reflexivity.
Qed.
Lemma positions_on_circuit_row : forall rep look els sfx model couple m v row, loopless els ->
  positions_on_circuit rF rep look els sfx r cr cn act model couple (one rF) (minus_one rF) = OK (m, v) ->
  row_sum v row = ind crow row (rsum (at_node els (fun k => val look model k * val look couple k)%R (fun k => - (val look model k * val look couple k))%R) act).
Proof.
  intros rep look els sfx model couple m v row HL H. unfold positions_on_circuit in H. rewrite Hc in H.
  destruct (look couple) as [ec|] eqn:E2; [|discriminate]. destruct (look model) as [em|] eqn:E1; [|discriminate].
  destruct (over_vars _ _) as [mm| |]; try discriminate. cbn [bind] in H. injection H as _ <-.
  unfold row_sum. rewrite rsum_map. cbn [fst snd].
  rewrite <- (ind_rsum crow row (fun n => sum_over rF _ _ _)). f_equal.
  transitivity (rsum (fun n => rsum (fun e => (nw 1 (-1) n e * (if both_on act e then 0 else ec (pos_of e) * em (pos_of e)))%R) els) act).
  { apply rsum_ext. intros n _. rewrite sum_over_rsum. cbn [s_zero rF]. rewrite Rplus_0_l. apply (free_sum els 1%R (-1)%R act n (fun e => (ec (pos_of e) * em (pos_of e))%R) HL). }
  rewrite both_cancel by exact ND. apply rsum_ext. intros n _.
  rewrite (at_node_ext els _ _ (fun k => (1 * (val look model k * val look couple k))%R) (fun k => (-1 * (val look model k * val look couple k))%R) n) by (intros; lra).
  rewrite (at_node_nw els (fun k => (val look model k * val look couple k)%R) 1 (-1) n). apply rsum_ext. intros e _. unfold val. rewrite E1, E2. lra.
Qed.
Lemma element_on_circuit_row : forall model m v row, loopless (elements (rg_mesh r)) ->
  element_on_circuit rF r cr act b model = OK (m, v) ->
  row_sum v row = ind crow row (rsum (at_node (elements (rg_mesh r)) (fun k => val (rg_element r) model k * val (rg_element r) (g_elcouple (rg_geom r)) k)%R (fun k => - (val (rg_element r) model k * val (rg_element r) (g_elcouple (rg_geom r)) k))%R) act).
Proof.
  intros model m v row HL H. unfold element_on_circuit, elements in *. destruct (m_dim (rg_mesh r)) as [|[|[|[|d]]]];
    try (apply (cnothing_row _ _ row) in H; rewrite H; symmetry; rewrite rsum_zero by reflexivity; unfold ind; destruct (_ =? row); reflexivity);
    eapply positions_on_circuit_row; eassumption.
Qed.
End Circuit.

Lemma on_circuit_row : forall r cr act b node edge element m v row, NoDup act -> all_loopless (rg_mesh r) ->
  on_circuit rF r cr act b node edge element = OK (m, v) ->
  row_sum v row = at_circuit (crow_of cr b) row (rsum (outflow r node edge element) act).
Proof.
  intros r cr act b node edge element m v row ND (L1 & L2) H. unfold on_circuit in H. unfold crow_of.
  destruct (given (c_circuit b)); [|exact (cnothing_row _ _ row H)].
  destruct (cboth_row _ _ _ _ row H) as (? & v1 & ? & v2' & H1 & H2' & ->). destruct (cboth_row _ _ _ _ row H2') as (? & v2 & ? & v3 & H2 & H3 & ->).
  destruct (cr (c_circuit b)) as [[crow|]|] eqn:Ec; cbn [at_circuit].
  - assert (T1 : row_sum v1 row = ind crow row (opt (given node) (rsum (fun n => val (rg_node r) (g_nodevol (rg_geom r)) n * val (rg_node r) node n)%R act))).
    { unfold opt. destruct (given node); [exact (node_on_circuit_row r cr act b crow Ec node _ _ row H1)|]. rewrite (cnothing_row _ _ row H1). unfold ind. destruct (_ =? _); reflexivity. }
    assert (T2 : row_sum v2 row = ind crow row (opt (given edge) (rsum (at_node (edge_elems (rg_mesh r)) (fun k => val (rg_edge r) edge k * val (rg_edge r) (g_edgecouple (rg_geom r)) k)%R (fun k => - (val (rg_edge r) edge k * val (rg_edge r) (g_edgecouple (rg_geom r)) k))%R) act))).
    { unfold opt. destruct (given edge); [|rewrite (cnothing_row _ _ row H2); unfold ind; destruct (_ =? _); reflexivity].
      unfold edge_on_circuit in H2. exact (positions_on_circuit_row r cr act b crow Ec ND _ _ _ _ _ _ _ _ row L1 H2). }
    assert (T3 : row_sum v3 row = ind crow row (opt (given element) (rsum (at_node (elements (rg_mesh r)) (fun k => val (rg_element r) element k * val (rg_element r) (g_elcouple (rg_geom r)) k)%R (fun k => - (val (rg_element r) element k * val (rg_element r) (g_elcouple (rg_geom r)) k))%R) act))).
    { unfold opt. destruct (given element); [|rewrite (cnothing_row _ _ row H3); unfold ind; destruct (_ =? _); reflexivity].
      exact (element_on_circuit_row r cr act b crow Ec ND _ _ _ row L2 H3). }
    rewrite T1, T2, T3, <- !ind_plus. f_equal. unfold outflow, residual. cbn [b_node b_edge b_edgevol b_element b_vol0 b_vol1].
    change (given ""%string) with false. cbn [orb opt].
    assert (Dist : forall b (f : nat -> R) l, opt b (rsum f l) = rsum (fun n => opt b (f n)) l).
    { intros b' f l. unfold opt. destruct b'; [reflexivity|]. symmetry. apply rsum_zero. reflexivity. }
    rewrite !Dist, <- !rsum_plus. apply rsum_ext. intros n _. lra.
  - assert (T1 : row_sum v1 row = 0%R) by (destruct (given node); [unfold node_on_circuit in H1; rewrite Ec in H1|]; exact (cnothing_row _ _ row H1)).
    assert (T2 : row_sum v2 row = 0%R) by (destruct (given edge); [unfold edge_on_circuit, positions_on_circuit in H2; rewrite Ec in H2|]; exact (cnothing_row _ _ row H2)).
    assert (T3 : row_sum v3 row = 0%R).
    { destruct (given element); [|exact (cnothing_row _ _ row H3)]. unfold element_on_circuit, positions_on_circuit in H3. rewrite Ec in H3.
      destruct (m_dim (rg_mesh r)) as [|[|[|[|d]]]]; exact (cnothing_row _ _ row H3). }
    rewrite T1, T2, T3. lra.
  - assert (T1 : row_sum v1 row = 0%R) by (destruct (given node); [unfold node_on_circuit in H1; rewrite Ec in H1; discriminate|exact (cnothing_row _ _ row H1)]).
    assert (T2 : row_sum v2 row = 0%R) by (destruct (given edge); [unfold edge_on_circuit, positions_on_circuit in H2; rewrite Ec in H2; discriminate|exact (cnothing_row _ _ row H2)]).
    assert (T3 : row_sum v3 row = 0%R).
    { destruct (given element); [|exact (cnothing_row _ _ row H3)]. unfold element_on_circuit, positions_on_circuit in H3. rewrite Ec in H3.
      destruct (m_dim (rg_mesh r)) as [|[|[|[|d]]]]; try discriminate; exact (cnothing_row _ _ row H3). }
    rewrite T1, T2, T3. lra.
Qed.

Lemma contact_row : forall r eq i0 cr act b t m v row, row_index r eq = Some i0 -> NoDup act -> all_loopless (rg_mesh r) ->
  contact_assemble rF r eq cr act b t = OK (m, v) -> row_sum v row = contact_residual r i0 cr act b t row.
Proof.
  intros r eq i0 cr act b t m v row Hi ND (L1 & L2) H. destruct t; cbn [contact_assemble] in H; unfold contact_residual.
  - destruct (cboth_row _ _ _ _ row H) as (? & v1 & ? & w1 & H1 & H' & ->). clear H.
    destruct (cboth_row _ _ _ _ row H') as (? & v2 & ? & w2 & H2 & H'' & ->). clear H'.
    destruct (cboth_row _ _ _ _ row H'') as (? & v3 & ? & w3 & H3 & H' & ->). clear H''.
    destruct (cboth_row _ _ _ _ row H') as (? & v4 & ? & w4 & H4 & H'' & ->). clear H'.
    destruct (cboth_row _ _ _ _ row H'') as (? & v5 & ? & v6 & H5 & H6 & ->). clear H''.
    rewrite (on_circuit_row r cr act b _ _ _ _ _ row ND (conj L1 L2) H6). unfold residual.
    rewrite (rsum_ext (fun n => ind (eqnum r i0 n) row _) (fun n =>
      let g := rg_geom r in let nv s := val (rg_node r) s in let ev s := val (rg_edge r) s in let lv s := val (rg_element r) s in
      opt (given (c_node b)) (ind (eqnum r i0 n) row (nv (g_nodevol g) n * nv (c_node b) n)) +
      opt (given (c_edge b)) (ind (eqnum r i0 n) row (at_node (edge_elems (rg_mesh r)) (fun k => ev (c_edge b) k * ev (g_edgecouple g) k) (fun k => - (ev (c_edge b) k * ev (g_edgecouple g) k)) n)) +
      opt (given (c_edgevol b)) (ind (eqnum r i0 n) row (at_node (edge_elems (rg_mesh r)) (fun k => ev (c_edgevol b) k * ev (g_edgevol0 g) k) (fun k => ev (c_edgevol b) k * ev (g_edgevol1 g) k) n)) +
      opt (given (c_element b)) (ind (eqnum r i0 n) row (at_node (elements (rg_mesh r)) (fun k => lv (c_element b) k * lv (g_elcouple g) k) (fun k => - (lv (c_element b) k * lv (g_elcouple g) k)) n)) +
      opt (given (c_vol0 b) || given (c_vol1 b)) (ind (eqnum r i0 n) row (at_node (elements (rg_mesh r)) (fun k => lv (c_vol0 b) k * lv (g_elvol0 g) k) (fun k => lv (c_vol1 b) k * lv (g_elvol1 g) k) n)))%R)
      by (intros n _; cbv zeta; rewrite !ind_plus, !ind_opt; reflexivity).
    cbv zeta. rewrite !rsum_plus.
    assert (Dist : forall b (f : nat -> R) l, rsum (fun n => opt b (f n)) l = opt b (rsum f l)).
    { intros b' f l. unfold opt. destruct b'; [reflexivity|]. apply rsum_zero. reflexivity. }
    rewrite !Dist.
    match goal with |- (_ + (_ + (_ + (_ + (_ + ?Z)))))%R = (?A + ?B + ?C + ?D + ?E + ?Z)%R =>
      assert (T1 : row_sum v1 row = A); [|assert (T2 : row_sum v2 row = B); [|assert (T3 : row_sum v3 row = C); [|assert (T4 : row_sum v4 row = D); [|
      assert (T5 : row_sum v5 row = E); [|rewrite T1, T2, T3, T4, T5; lra]]]]] end.
    + unfold opt. destruct (given (c_node b)); [|exact (cnothing_row _ _ row H1)]. exact (node_equation_row r eq i0 cr act b Hi _ _ _ row H1).
    + unfold opt. destruct (given (c_edge b)); [|exact (cnothing_row _ _ row H2)]. unfold contact_edge in H2.
      rewrite (positions_equation_row r eq i0 cr act b Hi _ _ _ _ _ _ _ _ _ row L1 H2). apply rsum_ext. intros n _. f_equal.
      apply at_node_ext; intros k; unfold one, minus_one; cbn; lra.
    + unfold opt. destruct (given (c_edgevol b)); [|exact (cnothing_row _ _ row H3)]. unfold contact_edge in H3. cbv zeta in H3.
      destruct (String.eqb_spec (g_edgevol0 (rg_geom r)) (g_edgevol1 (rg_geom r))) as [E|E].
      * rewrite (positions_equation_row r eq i0 cr act b Hi _ _ _ _ _ _ _ _ _ row L1 H3). apply rsum_ext. intros n _. f_equal.
        apply at_node_ext; intros k; rewrite <- ?E; unfold one; cbn; lra.
      * destruct (cboth_row _ _ _ _ row H3) as (? & ? & ? & ? & A & B & ->).
        rewrite (positions_equation_row r eq i0 cr act b Hi _ _ _ _ _ _ _ _ _ row L1 A), (positions_equation_row r eq i0 cr act b Hi _ _ _ _ _ _ _ _ _ row L1 B), <- rsum_plus.
        apply rsum_ext. intros n _. rewrite <- ind_plus, at_node_plus. f_equal. apply at_node_ext; intros k; unfold one, zero; cbn; lra.
    + unfold opt. destruct (given (c_element b)); [|exact (cnothing_row _ _ row H4)].
      rewrite (contact_element_row r eq i0 cr act b Hi _ _ _ _ _ _ row L2 H4). apply rsum_ext. intros n _. f_equal.
      apply at_node_ext; intros k; unfold one, minus_one; cbn; lra.
    + unfold opt. destruct (given (c_vol0 b) || given (c_vol1 b))%bool; [|exact (cnothing_row _ _ row H5)]. cbv zeta in H5.
      destruct (String.eqb_spec (g_elvol0 (rg_geom r)) (g_elvol1 (rg_geom r))) as [E1|E1]; cbn [andb] in H5;
      [destruct (String.eqb_spec (c_vol0 b) (c_vol1 b)) as [E2|E2]|].
      * rewrite (contact_element_row r eq i0 cr act b Hi _ _ _ _ _ _ row L2 H5). apply rsum_ext. intros n _. f_equal.
        apply at_node_ext; intros k; rewrite <- ?E1, <- ?E2; unfold one; cbn; lra.
      * destruct (cboth_row _ _ _ _ row H5) as (? & ? & ? & ? & A & B & ->).
        rewrite (contact_element_row r eq i0 cr act b Hi _ _ _ _ _ _ row L2 A), (contact_element_row r eq i0 cr act b Hi _ _ _ _ _ _ row L2 B), <- rsum_plus.
        apply rsum_ext. intros n _. rewrite <- ind_plus, at_node_plus. f_equal. apply at_node_ext; intros k; unfold one, zero; cbn; lra.
      * destruct (cboth_row _ _ _ _ row H5) as (? & ? & ? & ? & A & B & ->).
        rewrite (contact_element_row r eq i0 cr act b Hi _ _ _ _ _ _ row L2 A), (contact_element_row r eq i0 cr act b Hi _ _ _ _ _ _ row L2 B), <- rsum_plus.
        apply rsum_ext. intros n _. rewrite <- ind_plus, at_node_plus. f_equal. apply at_node_ext; intros k; unfold one, zero; cbn; lra.
  - exact (on_circuit_row r cr act b _ _ _ _ _ row ND (conj L1 L2) H).
Qed.

(* ---- the matrix ---------------------------------------------------------------------- *)
(* exact derivative models, including the one with respect to the circuit node (column cc) *)
Definition exact_with (f : family) (cn : string) (cc : option nat) (st : sstore) (els : list (nat * list nat)) (sfx : list string) (model : string) : Prop :=
  forall g, st model = Some g -> forall x k ns, In (k, ns) els -> forall c,
   (forall var j, is_col f c var j ->
      derivable_pt_lim (fun t => g (upd x c t) k) (x c)
        (rsum (fun p => if fst p =? j then dval st (String.append (der_name model var) (snd p)) x k else 0%R) (combine ns sfx))) /\
   (cc = Some c -> derivable_pt_lim (fun t => g (upd x c t) k) (x c) (dval st (der_name model cn) x k)) /\
   ((forall var j, ~ is_col f c var j) -> cc <> Some c -> derivable_pt_lim (fun t => g (upd x c t) k) (x c) 0%R).
Definition exact_node_with (f : family) (cn : string) (cc : option nat) (model : string) : Prop :=
  forall g, f_node f model = Some g -> forall x i, i < m_nodes (f_mesh f) -> forall c,
   (forall var j, is_col f c var j ->
      derivable_pt_lim (fun t => g (upd x c t) i) (x c) (if i =? j then dval (f_node f) (der_name model var) x i else 0%R)) /\
   (cc = Some c -> derivable_pt_lim (fun t => g (upd x c t) i) (x c) (dval (f_node f) (der_name model cn) x i)) /\
   ((forall var j, ~ is_col f c var j) -> cc <> Some c -> derivable_pt_lim (fun t => g (upd x c t) i) (x c) 0%R).
(* the derivative models of a variable are all given unless the first one is missing *)
Definition complete (vars : list string) (st : sstore) (sfx : list string) (model : string) : Prop :=
  forall var, In var vars -> match sfx with
  | nil => True
  | s0 :: _ => st (String.append (der_name model var) s0) = None -> forall s, In s sfx -> st (String.append (der_name model var) s) = None
  end.

Lemma over_vars_cons : forall {A} (f : string -> out (list A)) v t m, over_vars f (v :: t) = OK m ->
  exists a b, f v = OK a /\ over_vars f t = OK b /\ m = a ++ b.
Proof.
  intros A f v t m H. cbn [over_vars] in H. destruct (f v) as [a| |]; try discriminate. cbn [bind] in H.
  destruct (over_vars f t) as [b| |]; try discriminate. cbn [bind] in H. injection H as <-. exists a, b. auto.
Qed.
Lemma over_vars_ext : forall {A} (f g : string -> out (list A)) vs, (forall v, f v = g v) -> over_vars f vs = over_vars g vs.
Proof. intros A f g vs H. induction vs as [|v t IH]; cbn [over_vars]; [reflexivity|]. rewrite H, IH. reflexivity. Qed.
Lemma entry_map : forall {A} (rw cl : A -> nat) (vl : A -> R) l row c,
  entry (map (fun a => (rw a, cl a, vl a)) l) row c = rsum (fun a => ind (rw a) row (ind (cl a) c (vl a))) l.
Proof. intros. unfold entry. rewrite rsum_map. apply rsum_ext. intros a _. cbn [fst snd]. unfold ind. destruct (_ =? row), (_ =? c); reflexivity. Qed.
Lemma ind_mul2 : forall a b s t x, ind a b (s * (t * x))%R = (s * (t * ind a b x))%R.
Proof. intros. unfold ind. destruct (_ =? _); lra. Qed.
Lemma nodes_of_elem_eq : forall k n0 n1 o, nodes_of_elem (k, n0, n1, o) = n0 :: n1 :: o.
Proof. reflexivity. Qed.
Lemma in_nodes : forall els e, In e els -> In (pos_of e, nodes_of_elem e) (nodes_of els).
Proof. intros els [[[k a] b] o] H. exact (in_nodes_of els k a b o H). Qed.

Lemma hit_scaled : forall (nf : nat -> nat) c s t (k : nat) ns (ds : list (nat -> R)),
  rsum (fun nd : nat * (nat -> R) => ind (nf (fst nd)) c (s * (t * snd nd k))%R) (combine ns ds) =
  (s * (t * rsum (fun p => ind (nf (fst p)) c (snd p)) (combine ns (map (fun d => d k) ds))))%R.
Proof.
  intros nf c s t k. induction ns as [|n ns IH]; intros [|d ds]; cbn [combine map rsum]; try lra. cbn [fst snd]. rewrite ind_mul2, IH. lra.
Qed.

Section Vars.
Variables (f : family) (x : state).
Let r := reg f x.
Definition hvals (st : sstore) (sfx : list string) (model : string) (k : nat) (var : string) : list R :=
  map (fun s => dval st (String.append (der_name model var) s) x k) sfx.
Lemma pos_vars : forall st sfx model (ec : nat -> R) (rowf : nat -> nat) (lst : nat -> list elem) (sg : nat -> elem -> R) extra act row c vars m,
  complete vars st sfx model -> sfx <> [] ->
  over_vars (fun var => bind (ders (at_state st x) sfx model var) (fun o =>
     bind (match o with
           | None => OK []
           | Some ds => match col_index r var with
               | None => Throw
               | Some i1 => OK (flat_map (fun n => flat_map (fun e =>
                   map (fun nd => (rowf n, eqnum r i1 (fst nd), s_mul rF (sg n e) (s_mul rF (ec (pos_of e)) (snd nd (pos_of e)))))
                     (combine (nodes_of_elem e) ds)) (lst n)) act)
               end
           end) (fun m => OK (m ++ extra)))) vars = OK m ->
  entry m row c = (rsum (fun n => ind (rowf n) row (rsum (fun e => sg n e * (ec (pos_of e) * colsum f c (nodes_of_elem e) (hvals st sfx model (pos_of e)) vars)) (lst n))) act
     + INR (length vars) * entry extra row c)%R.
Proof.
  intros st sfx model ec rowf lst sg extra act row c vars m Hcm Hne. revert m Hcm. induction vars as [|var t IH]; intros m Hcm H.
  - injection H as <-. cbn [length INR]. unfold entry at 1. cbn [rsum]. rewrite (rsum_zero _ act); [lra|]. intros n _.
    rewrite (rsum_zero _ (lst n)); [unfold ind; destruct (_ =? _); reflexivity|]. intros e _. unfold colsum. cbn [rsum]. lra.
  - apply over_vars_cons in H. destruct H as (a & b & Ha & Hb & ->). rewrite entry_app, (IH b (fun w Hw => Hcm w (or_intror Hw)) Hb). clear IH.
    assert (E : entry a row c = (rsum (fun n => ind (rowf n) row (rsum (fun e => sg n e * (ec (pos_of e) * match fcol f var with Some idx => hit f c (nodes_of_elem e) idx (hvals st sfx model (pos_of e) var) | None => 0 end)) (lst n))) act + entry extra row c)%R).
    { destruct (ders (at_state st x) sfx model var) as [o| |] eqn:Ed; cbn [bind] in Ha; try discriminate. unfold ders in Ed.
      destruct o as [ds|].
      - change (col_index r var) with (fcol f var) in Ha. destruct (fcol f var) as [i1|]; cbn [bind] in Ha; try discriminate. injection Ha as <-.
        rewrite entry_app. f_equal.
        assert (Hds : all_or_none (map (fun s => at_state st x (String.append (der_name model var) s)) sfx) = Some ds).
        { destruct sfx as [|s0 st']; [contradiction|]. cbn [map] in Ed. cbn [map]. destruct (at_state st x (String.append (der_name model var) s0)); [|discriminate].
          match type of Ed with (match ?T with _ => _ end) = _ => destruct T eqn:ET; [|discriminate] end. injection Ed as ->. first [exact ET | reflexivity]. }
        assert (Hv : forall k, map (fun d => d k) ds = hvals st sfx model k var).
        { intros k. rewrite (all_or_none_map (at_state st x) (fun s => String.append (der_name model var) s) sfx ds Hds k). unfold hvals. apply map_ext. intros s.
          unfold at_state, dval. destruct (st _); reflexivity. }
        rewrite entry_flat_map. apply rsum_ext. intros n _. rewrite entry_flat_map, ind_rsum. apply rsum_ext. intros e _.
        rewrite (entry_map (fun _ => rowf n) (fun nd => eqnum r i1 (fst nd)) (fun nd => s_mul rF (sg n e) (s_mul rF (ec (pos_of e)) (snd nd (pos_of e))))).
        rewrite <- ind_rsum. f_equal. cbn [s_mul rF]. rewrite <- (Hv (pos_of e)). unfold hit.
        exact (hit_scaled (fnum f i1) c (sg n e) (ec (pos_of e)) (pos_of e) (nodes_of_elem e) ds).
      - cbn [bind] in Ha. injection Ha as <-. cbn [app].
        rewrite rsum_zero; [lra|]. intros n _. rewrite rsum_zero; [unfold ind; destruct (_ =? _); reflexivity|]. intros e _.
        match goal with |- (_ * (_ * ?X))%R = _ => replace X with 0%R; [lra|] end.
        destruct (fcol f var) as [idx|]; [|reflexivity]. symmetry. apply rsum_zero. intros [n' d] Hi. apply in_combine_r in Hi. unfold hvals in Hi. apply in_map_iff in Hi.
        destruct Hi as (s & <- & Hs). cbn [fst snd].
        assert (Z : st (String.append (der_name model var) s) = None).
        { specialize (Hcm var (or_introl eq_refl)). destruct sfx as [|s0 st']; [contradiction|]. apply Hcm; [|exact Hs]. cbn [map] in Ed. unfold at_state in Ed at 1.
          destruct (st (String.append (der_name model var) s0)); [|reflexivity]. cbn [option_map] in Ed.
          match type of Ed with (match ?T with _ => _ end) = _ => destruct T; discriminate end. }
        unfold dval. rewrite Z. unfold ind. destruct (_ =? _); reflexivity. }
    rewrite E. replace (INR (length (var :: t))) with (INR (length t) + 1)%R by (cbn [length]; rewrite S_INR; reflexivity).
    assert (Q : rsum (fun n => ind (rowf n) row (rsum (fun e => (sg n e * (ec (pos_of e) * colsum f c (nodes_of_elem e) (hvals st sfx model (pos_of e)) (var :: t)))%R) (lst n))) act =
      (rsum (fun n => ind (rowf n) row (rsum (fun e => (sg n e * (ec (pos_of e) * match fcol f var with Some idx => hit f c (nodes_of_elem e) idx (hvals st sfx model (pos_of e) var) | None => 0%R end))%R) (lst n))) act +
       rsum (fun n => ind (rowf n) row (rsum (fun e => (sg n e * (ec (pos_of e) * colsum f c (nodes_of_elem e) (hvals st sfx model (pos_of e)) t))%R) (lst n))) act)%R).
    { rewrite <- rsum_plus. apply rsum_ext. intros n _. rewrite <- ind_plus, <- rsum_plus. f_equal. apply rsum_ext. intros e _. unfold colsum. cbn [rsum]. lra. }
    rewrite Q. lra.
Qed.
(* node models *)
Lemma node_vars : forall model (nv : nat -> R) (rowf : nat -> nat) act row c vars m,
  over_vars (fun var => match rg_node r (der_name model var) with
                        | None => OK []
                        | Some d => match col_index r var with
                                    | None => Throw
                                    | Some i1 => OK (map (fun n => (rowf n, eqnum r i1 n, s_mul rF (nv n) (d n))) act)
                                    end
                        end) vars = OK m ->
  entry m row c = rsum (fun n => ind (rowf n) row (nv n * colsum f c [n] (fun var => [dval (f_node f) (der_name model var) x n]) vars)%R) act.
Proof.
  intros model nv rowf act row c vars. induction vars as [|var t IH]; intros m H.
  - injection H as <-. symmetry. apply rsum_zero. intros n _. unfold colsum. cbn [rsum]. rewrite Rmult_0_r. unfold ind. destruct (_ =? _); reflexivity.
  - apply over_vars_cons in H. destruct H as (a & b & Ha & Hb & ->). rewrite entry_app, (IH b Hb). clear IH.
    unfold colsum at 2. cbn [rsum].
    rewrite (rsum_ext (fun n => ind (rowf n) row (nv n * (_ + _))%R) (fun n => (ind (rowf n) row (nv n * match fcol f var with Some idx => hit f c [n] idx [dval (f_node f) (der_name model var) x n] | None => 0 end) +
       ind (rowf n) row (nv n * colsum f c [n] (fun var => [dval (f_node f) (der_name model var) x n]) t))%R))
      by (intros n _; rewrite <- ind_plus; f_equal; unfold colsum; lra).
    rewrite rsum_plus. f_equal. change (rg_node r (der_name model var)) with (at_state (f_node f) x (der_name model var)) in Ha. unfold at_state in Ha. unfold dval.
    destruct (f_node f (der_name model var)) as [d|]; cbn [option_map] in Ha.
    + change (col_index r var) with (fcol f var) in Ha. destruct (fcol f var) as [i1|]; [|discriminate]. injection Ha as <-.
      rewrite (entry_map rowf (eqnum r i1) (fun n => s_mul rF (nv n) (d x n))). apply rsum_ext. intros n _. f_equal. unfold hit. cbn [combine rsum fst snd s_mul rF].
      change (eqnum r i1 n) with (fnum f i1 n). unfold ind. destruct (_ =? _); lra.
    + injection Ha as <-. symmetry. apply rsum_zero. intros n _. destruct (fcol f var); [unfold hit; cbn [combine rsum fst snd]; unfold ind at 2; destruct (_ =? c)|];
        unfold ind; destruct (_ =? _); lra.
Qed.
End Vars.

Definition cj (l : state -> cloads (S := R)) (G : state -> nat -> R) : Prop :=
  forall x m v, l x = OK (m, v) -> forall row c, derivable_pt_lim (fun t => G (upd x c t) row) (x c) (entry m row c).
Lemma deriv_ext : forall (g h : R -> R) x d, (forall t, g t = h t) -> derivable_pt_lim g x d -> derivable_pt_lim h x d.
Proof. intros g h x d E H e He. destruct (H e He) as (del & Hd). exists del. intros k Hk Hk2. rewrite <- !E. apply Hd; assumption. Qed.
Lemma cj_ext : forall l G G', (forall y row, G y row = G' y row) -> cj l G -> cj l G'.
Proof. intros l G G' E H x m v Hl row c. apply (deriv_ext (fun t => G (upd x c t) row)); [intros; apply E|]. exact (H x m v Hl row c). Qed.
Lemma cj_both : forall a b G H, cj a G -> cj b H -> cj (fun x => cboth (a x) (b x)) (fun x row => G x row + H x row)%R.
Proof.
  intros a b G H Ha Hb x m v Hl row c. destruct (cboth_OK _ _ _ _ Hl) as (m1 & v1 & m2 & v2 & A & B & -> & _). rewrite entry_app.
  apply (derivable_pt_lim_plus (fun t => G (upd x c t) row) (fun t => H (upd x c t) row)); [exact (Ha x _ _ A row c)|exact (Hb x _ _ B row c)].
Qed.
Lemma cj_nothing : cj (fun _ => cnothing) (fun _ _ => 0%R).
Proof. intros x m v H row c. injection H as <- _. apply derivable_pt_lim_const. Qed.
Lemma cj_opt : forall (q : bool) a G, (q = true -> cj a G) -> cj (fun x => if q then a x else cnothing) (fun x row => opt q (G x row)).
Proof. intros q a G H. destruct q; [exact (H eq_refl)|exact cj_nothing]. Qed.
Lemma ind_deriv : forall a b (h : R -> R) x d, derivable_pt_lim h x d -> derivable_pt_lim (fun t => ind a b (h t)) x (ind a b d).
Proof. intros a b h x d H. unfold ind. destruct (a =? b); [exact H|apply derivable_pt_lim_const]. Qed.
Lemma col_out : forall (circuit : circuit_rows) cb co, circuit_col circuit (c_circuit cb) = OK co -> co = crow_of circuit cb.
Proof.
  intros circuit cb co H. unfold circuit_col in H. unfold crow_of. destruct (given (c_circuit cb)); [|injection H as <-; reflexivity].
  destruct (circuit (c_circuit cb)) as [[q|]|]; [injection H as <-; reflexivity|injection H as <-; reflexivity|discriminate].
Qed.

Section Comp.
Variables (f : family) (eq : string) (i0 : nat) (cr : circuit_rows) (act : list nat) (b : cbody).
Hypothesis Hi : equation_index (f_table f) eq = Some i0.
Hypothesis U : unique_columns f.
Let cn := c_circuit b.
Let cc := crow_of cr b.
(* the circuit row is not a row of the region *)
Hypothesis Hout : forall c, cc = Some c -> forall var j, ~ is_col f c var j.
Hypothesis Hact : forall n, In n act -> n < m_nodes (f_mesh f).
Hypothesis ND : NoDup act.

Lemma value_deriv : forall st els sfx model g x e c, exact_with f cn cc st (nodes_of els) sfx model -> st model = Some g -> In e els ->
  (forall k ns, In (k, ns) (nodes_of els) -> forall n, In n ns -> n < m_nodes (f_mesh f)) ->
  derivable_pt_lim (fun t => g (upd x c t) (pos_of e)) (x c)
    (colsum f c (nodes_of_elem e) (hvals x st sfx model (pos_of e)) (fvars f) + at_circuit cc c (dval st (der_name model cn) x (pos_of e)))%R.
Proof.
  intros st els sfx model g x e c Ex Em He Hn. apply in_nodes in He. specialize (Hn _ _ He).
  destruct (Ex g Em x _ _ He c) as (E1 & E2 & E3).
  destruct (classic (exists var j, is_col f c var j)) as [(var & j & Hc)|Hc].
  - rewrite (colsum_in f c U _ _ Hn var j Hc). unfold hvals. rewrite rsum_combine_map.
    replace (at_circuit cc c _) with 0%R; [rewrite Rplus_0_r; apply E1; exact Hc|]. unfold at_circuit. destruct cc as [q|]; [|reflexivity].
    unfold ind. destruct (Nat.eqb_spec q c) as [->|]; [|reflexivity]. exfalso. exact (Hout c eq_refl var j Hc).
  - assert (N : forall var j, ~ is_col f c var j) by (intros var j A; apply Hc; exists var, j; exact A).
    rewrite (colsum_out f c _ _ Hn N), Rplus_0_l. unfold at_circuit. destruct cc as [q|] eqn:Eq.
    + unfold ind. destruct (Nat.eqb_spec q c) as [->|Ne]; [apply E2; reflexivity|]. apply E3; [exact N|congruence].
    + apply E3; [exact N|discriminate].
Qed.
Lemma node_deriv : forall model g x n c, exact_node_with f cn cc model -> f_node f model = Some g -> n < m_nodes (f_mesh f) ->
  derivable_pt_lim (fun t => g (upd x c t) n) (x c)
    (colsum f c [n] (fun var => [dval (f_node f) (der_name model var) x n]) (fvars f) + at_circuit cc c (dval (f_node f) (der_name model cn) x n))%R.
Proof.
  intros model g x n c Ex Em Hn. destruct (Ex g Em x n Hn c) as (E1 & E2 & E3).
  assert (Hns : forall n', In n' [n] -> n' < m_nodes (f_mesh f)) by (intros n' [<-|[]]; exact Hn).
  destruct (classic (exists var j, is_col f c var j)) as [(var & j & Hc)|Hc].
  - rewrite (colsum_in f c U _ _ Hns var j Hc). cbn [combine rsum fst snd].
    replace (at_circuit cc c _) with 0%R.
    + specialize (E1 var j Hc).
      match goal with |- derivable_pt_lim _ _ ?l => replace l with (if n =? j then dval (f_node f) (der_name model var) x n else 0%R) by lra end. exact E1.
    + unfold at_circuit. destruct cc as [q|]; [|reflexivity]. unfold ind. destruct (Nat.eqb_spec q c) as [->|]; [|reflexivity]. exfalso. exact (Hout c eq_refl var j Hc).
  - assert (N : forall var j, ~ is_col f c var j) by (intros var j A; apply Hc; exists var, j; exact A).
    rewrite (colsum_out f c _ _ Hns N), Rplus_0_l. unfold at_circuit. destruct cc as [q|] eqn:Eq.
    + unfold ind. destruct (Nat.eqb_spec q c) as [->|Ne]; [apply E2; reflexivity|]. apply E3; [exact N|congruence].
    + apply E3; [exact N|discriminate].
Qed.

Definition posG (st : sstore) (els : list elem) (rowf : nat -> nat) (model couple : string) (s0 s1 : R) (x : state) (row : nat) : R :=
  rsum (fun n => ind (rowf n) row (at_node els (fun k => s0 * (val (at_state st x) model k * val (at_state st x) couple k))%R
     (fun k => s1 * (val (at_state st x) model k * val (at_state st x) couple k))%R n)) act.
Lemma posG_deriv : forall st els rowf model couple s0 s1 x row c (gm gc : state -> nat -> R) (D : elem -> R),
  st model = Some gm -> st couple = Some gc -> fixed st couple ->
  (forall e, In e els -> derivable_pt_lim (fun t => gm (upd x c t) (pos_of e)) (x c) (D e)) ->
  derivable_pt_lim (fun t => posG st els rowf model couple s0 s1 (upd x c t) row) (x c)
    (rsum (fun n => ind (rowf n) row (rsum (fun e => (nw s0 s1 n e * (gc x (pos_of e) * D e))%R) els)) act).
Proof.
  intros st els rowf model couple s0 s1 x row c gm gc D Em Ec Fx HD.
  apply (deriv_ext (fun t => rsum (fun n => ind (rowf n) row (rsum (fun e => (nw s0 s1 n e * (gc x (pos_of e) * gm (upd x c t) (pos_of e)))%R) els)) act)).
  { intros t. unfold posG. apply rsum_ext. intros n _. f_equal.
    rewrite (at_node_nw els (fun k => (val (at_state st (upd x c t)) model k * val (at_state st (upd x c t)) couple k)%R)). apply rsum_ext. intros e _.
    unfold val, at_state. rewrite Em, Ec. cbn [option_map]. rewrite (Fx gc Ec (upd x c t) x). lra. }
  apply (rsum_deriv (fun n t => ind (rowf n) row (rsum (fun e => (nw s0 s1 n e * (gc x (pos_of e) * gm (upd x c t) (pos_of e)))%R) els))).
  intros n _. apply (ind_deriv _ _ (fun t => rsum (fun e => (nw s0 s1 n e * (gc x (pos_of e) * gm (upd x c t) (pos_of e)))%R) els)).
  apply (rsum_deriv (fun e t => (nw s0 s1 n e * (gc x (pos_of e) * gm (upd x c t) (pos_of e)))%R)).
  intros e He. apply (derivable_pt_lim_scal (fun t => (gc x (pos_of e) * gm (upd x c t) (pos_of e))%R)).
  apply (derivable_pt_lim_scal (fun t => gm (upd x c t) (pos_of e))). apply HD. exact He.
Qed.

Section Positions.
Variables (st : sstore) (els : list elem) (sfx : list string) (model couple : string).
Hypothesis Ex : exact_with f cn cc st (nodes_of els) sfx model.
Hypothesis Fx : fixed st couple.
Hypothesis Cm : complete (fvars f) st sfx model.
Hypothesis Hne : sfx <> [].
Hypothesis HL : loopless els.
Hypothesis Hn : forall k ns, In (k, ns) (nodes_of els) -> forall n, In n ns -> n < m_nodes (f_mesh f).
Lemma positions_equation_cj : forall s0 s1,
  cj (fun x => positions_equation rF (at_state st x) els sfx (reg f x) eq cr cn act model couple s0 s1) (posG st els (fnum f i0) model couple s0 s1).
Proof.
  intros s0 s1 x m v H row c. unfold positions_equation in H. change (row_index (reg f x) eq) with (equation_index (f_table f) eq) in H. rewrite Hi in H.
  unfold at_state in H at 1 2. destruct (st couple) as [gc|] eqn:Ec; cbn [option_map] in H; [|discriminate].
  destruct (circuit_col cr cn) as [ccol| |] eqn:Ecol; try discriminate. cbn [bind] in H.
  destruct (st model) as [gm|] eqn:Em; cbn [option_map] in H; [|discriminate].
  destruct (over_vars _ _) as [mm| |] eqn:Eo; try discriminate. cbn [bind] in H. injection H as <- _.
  apply col_out in Ecol. rewrite Ecol in *. clear Ecol ccol. fold cc.
  rewrite (over_vars_ext _ (fun var => bind (ders (at_state st x) sfx model var) (fun o =>
     bind (match o with
           | None => OK []
           | Some ds => match col_index (reg f x) var with
               | None => Throw
               | Some i1 => OK (flat_map (fun n => flat_map (fun e =>
                   map (fun nd => (fnum f i0 n, eqnum (reg f x) i1 (fst nd), s_mul rF (sign_at s0 s1 n e) (s_mul rF (gc x (pos_of e)) (snd nd (pos_of e)))))
                     (combine (nodes_of_elem e) ds)) (incident els n)) act)
               end
           end) (fun m => OK (m ++ []))))) in Eo.
  2:{ intros var. destruct (ders _ _ _ _) as [[ds|]| |]; cbn [bind]; try reflexivity. destruct (col_index _ _) as [i1|]; cbn [bind]; [|reflexivity]. rewrite app_nil_r. reflexivity. }
  apply (pos_vars f x st sfx model (gc x) (fnum f i0) (incident els) (sign_at s0 s1) [] act row c _ mm Cm Hne) in Eo.
  rewrite entry_app, Eo. clear Eo mm. change (variables (reg f x)) with (fvars f).
  assert (Emc : entry (match cc with
       | Some q => match option_map (fun f0 : state -> nat -> R => f0 x) (st (der_name model cn)) with
           | Some d => flat_map (fun n => map (fun e => (eqnum (reg f x) i0 n, q, s_mul rF (sign_at s0 s1 n e) (s_mul rF (gc x (pos_of e)) (d (pos_of e))))) (incident els n)) act
           | None => [] end
       | None => [] end) row c = rsum (fun n => ind (fnum f i0 n) row (rsum (fun e => (sign_at s0 s1 n e * (gc x (pos_of e) * at_circuit cc c (dval st (der_name model cn) x (pos_of e))))%R) (incident els n))) act).
  { unfold at_circuit, dval. destruct cc as [q|].
    - destruct (st (der_name model cn)) as [d|]; cbn [option_map].
      + rewrite entry_flat_map. apply rsum_ext. intros n _.
        rewrite (entry_map (fun _ => eqnum (reg f x) i0 n) (fun _ => q) (fun e => s_mul rF (sign_at s0 s1 n e) (s_mul rF (gc x (pos_of e)) (d x (pos_of e))))).
        rewrite <- ind_rsum. change (eqnum (reg f x) i0 n) with (fnum f i0 n). f_equal. apply rsum_ext. intros e _. cbn [s_mul rF]. apply ind_mul2.
      + symmetry. apply rsum_zero. intros n _. rewrite rsum_zero; [unfold ind; destruct (_ =? _); reflexivity|]. intros e _. unfold ind. destruct (_ =? _); lra.
    - symmetry. apply rsum_zero. intros n _. rewrite rsum_zero; [unfold ind; destruct (_ =? _); reflexivity|]. intros e _. lra. }
  match goal with |- derivable_pt_lim _ _ (_ + ?X)%R => replace X with (rsum (fun n => ind (fnum f i0 n) row (rsum (fun e => (sign_at s0 s1 n e * (gc x (pos_of e) * at_circuit cc c (dval st (der_name model cn) x (pos_of e))))%R) (incident els n))) act) end.
  unfold entry at 1. cbn [rsum]. rewrite Rmult_0_r, Rplus_0_r, <- rsum_plus.
  match goal with |- derivable_pt_lim _ _ ?X => replace X with (rsum (fun n => ind (fnum f i0 n) row (rsum (fun e => (nw s0 s1 n e * (gc x (pos_of e) *
     (colsum f c (nodes_of_elem e) (hvals x st sfx model (pos_of e)) (fvars f) + at_circuit cc c (dval st (der_name model cn) x (pos_of e)))))%R) els)) act) end.
  - apply (posG_deriv st els (fnum f i0) model couple s0 s1 x row c gm gc); auto. intros e He. eapply value_deriv; eassumption.
  - apply rsum_ext. intros n _. rewrite <- ind_plus, <- rsum_plus. f_equal. rewrite <- (incident_sum els s0 s1 n _ HL). apply rsum_ext. intros e _. lra.
Qed.
Lemma positions_on_circuit_cj : forall rep crow, cr cn = Some (Some crow) -> cc = Some crow ->
  (rep = true -> length (fvars f) = 1 \/ st (der_name model cn) = None) ->
  cj (fun x => positions_on_circuit rF rep (at_state st x) els sfx (reg f x) cr cn act model couple (one rF) (minus_one rF))
     (posG st els (fun _ => crow) model couple 1 (-1)).
Proof.
  intros rep crow Hc Hcc Hrep x m v H row c. unfold positions_on_circuit in H. rewrite Hc in H.
  unfold at_state in H at 1 2. destruct (st couple) as [gc|] eqn:Ec; cbn [option_map] in H; [|discriminate].
  destruct (st model) as [gm|] eqn:Em; cbn [option_map] in H; [|discriminate]. cbv zeta in H.
  destruct (over_vars _ _) as [mm| |] eqn:Eo; try discriminate. cbn [bind] in H. injection H as <- _.
  apply (pos_vars f x st sfx model (gc x) (fun _ => crow) (fun n => filter (fun e => negb (both_on act e)) (incident els n)) (sign_at (one rF) (minus_one rF)) _ act row c _ mm Cm Hne) in Eo.
  rewrite entry_app, Eo. clear Eo mm. change (variables (reg f x)) with (fvars f).
  set (block := match at_state st x (der_name model cn) with Some d => _ | None => _ end).
  assert (Eb : entry block row c = rsum (fun n => ind crow row (rsum (fun e => (sign_at 1 (-1) n e * (gc x (pos_of e) * at_circuit cc c (dval st (der_name model cn) x (pos_of e))))%R) (filter (fun e => negb (both_on act e)) (incident els n)))) act).
  { unfold block, dval, at_state. rewrite Hcc. cbn [at_circuit]. destruct (st (der_name model cn)) as [d|]; cbn [option_map].
    - rewrite entry_flat_map. apply rsum_ext. intros n _.
      rewrite (entry_map (fun _ => crow) (fun _ => crow) (fun e => s_mul rF (sign_at (one rF) (minus_one rF) n e) (s_mul rF (gc x (pos_of e)) (d x (pos_of e))))).
      rewrite <- ind_rsum. f_equal. apply rsum_ext. intros e _. cbn [s_mul rF]. apply ind_mul2.
    - symmetry. apply rsum_zero. intros n _. rewrite rsum_zero; [unfold ind; destruct (_ =? _); reflexivity|]. intros e _. unfold ind. destruct (_ =? _); lra. }
  assert (Coef : (INR (length (fvars f)) * entry (if rep then block else []) row c + entry (if rep then [] else block) row c)%R = entry block row c).
  { destruct rep.
    - change (entry [] row c) with 0%R. destruct (Hrep eq_refl) as [E|E]; [rewrite E; cbn; lra|]. unfold block, at_state. rewrite E. cbn [option_map].
      change (entry [] row c) with 0%R. lra.
    - change (entry [] row c) with 0%R. lra. }
  rewrite Rplus_assoc. match goal with |- derivable_pt_lim _ _ (_ + ?X)%R => replace X with (entry block row c) by (symmetry; exact Coef) end. rewrite Eb, <- rsum_plus.
  match goal with |- derivable_pt_lim _ _ ?X => replace X with (rsum (fun n => ind crow row (rsum (fun e => (nw 1 (-1) n e * (gc x (pos_of e) *
     (colsum f c (nodes_of_elem e) (hvals x st sfx model (pos_of e)) (fvars f) + at_circuit cc c (dval st (der_name model cn) x (pos_of e)))))%R) els)) act) end.
  - apply (posG_deriv st els (fun _ => crow) model couple 1 (-1) x row c gm gc); auto. intros e He. eapply value_deriv; eassumption.
  - rewrite <- (ind_rsum crow row (fun n => rsum _ els)).
    rewrite <- both_cancel by exact ND. rewrite ind_rsum. apply rsum_ext. intros n _. rewrite <- ind_plus, <- rsum_plus. f_equal.
    rewrite <- (free_sum els 1 (-1) act n _ HL). apply rsum_ext. intros e _. change (one rF) with 1%R. change (minus_one rF) with (-1)%R. lra.
Qed.
End Positions.

Definition nodeG (rowf : nat -> nat) (model volume : string) (x : state) (row : nat) : R :=
  rsum (fun n => ind (rowf n) row (val (at_state (f_node f) x) volume n * val (at_state (f_node f) x) model n)%R) act.
Lemma nodeG_deriv : forall rowf model volume x row c gm gv, exact_node_with f cn cc model -> fixed (f_node f) volume ->
  f_node f model = Some gm -> f_node f volume = Some gv ->
  derivable_pt_lim (fun t => nodeG rowf model volume (upd x c t) row) (x c)
    (rsum (fun n => ind (rowf n) row (gv x n * (colsum f c [n] (fun var => [dval (f_node f) (der_name model var) x n]) (fvars f) + at_circuit cc c (dval (f_node f) (der_name model cn) x n)))%R) act).
Proof.
  intros rowf model volume x row c gm gv Ex Fx Em Ev.
  apply (deriv_ext (fun t => rsum (fun n => ind (rowf n) row (gv x n * gm (upd x c t) n)%R) act)).
  { intros t. apply rsum_ext. intros n _. f_equal. unfold val, at_state. rewrite Em, Ev. cbn [option_map]. rewrite (Fx gv Ev (upd x c t) x). reflexivity. }
  apply (rsum_deriv (fun n t => ind (rowf n) row (gv x n * gm (upd x c t) n)%R)). intros n Hin.
  apply (ind_deriv _ _ (fun t => (gv x n * gm (upd x c t) n)%R)). apply (derivable_pt_lim_scal (fun t => gm (upd x c t) n)).
  apply node_deriv; auto.
Qed.
Lemma node_equation_cj : forall model, exact_node_with f cn cc model -> fixed (f_node f) (g_nodevol (f_geom f)) ->
  cj (fun x => node_equation rF (reg f x) eq cr cn act model) (nodeG (fnum f i0) model (g_nodevol (f_geom f))).
Proof.
  intros model Ex Fx x m v H row c. unfold node_equation in H. change (row_index (reg f x) eq) with (equation_index (f_table f) eq) in H. rewrite Hi in H.
  assert (G : forall s, rg_node (reg f x) s = option_map (fun g => g x) (f_node f s)) by reflexivity.
  rewrite (G (g_nodevol (rg_geom (reg f x)))) in H. change (g_nodevol (rg_geom (reg f x))) with (g_nodevol (f_geom f)) in H.
  destruct (f_node f (g_nodevol (f_geom f))) as [gv|] eqn:Ev; cbn [option_map] in H; [|discriminate].
  destruct (circuit_col cr cn) as [ccol| |] eqn:Ecol; try discriminate. cbn [bind] in H.
  rewrite (G model) in H. destruct (f_node f model) as [gm|] eqn:Em; cbn [option_map] in H; [|discriminate].
  destruct (over_vars _ _) as [mm| |] eqn:Eo; try discriminate. cbn [bind] in H. injection H as <- _.
  apply col_out in Ecol. rewrite Ecol in *. clear Ecol ccol. fold cc.
  apply (node_vars f x model (gv x) (fnum f i0) act row c _ mm) in Eo. rewrite entry_app, Eo. clear Eo mm. change (variables (reg f x)) with (fvars f).
  match goal with |- derivable_pt_lim _ _ (_ + ?X)%R => replace X with (rsum (fun n => ind (fnum f i0 n) row (gv x n * at_circuit cc c (dval (f_node f) (der_name model cn) x n))%R) act) end.
  - rewrite <- rsum_plus.
    rewrite (rsum_ext _ (fun n => ind (fnum f i0 n) row (gv x n * (colsum f c [n] (fun var => [dval (f_node f) (der_name model var) x n]) (fvars f) + at_circuit cc c (dval (f_node f) (der_name model cn) x n)))%R))
      by (intros n _; rewrite <- ind_plus; f_equal; lra).
    eapply nodeG_deriv; eassumption.
  - unfold at_circuit, dval. destruct cc as [q|].
    + unfold at_state. destruct (f_node f (der_name model cn)) as [d|]; cbn [option_map].
      * symmetry. rewrite (entry_map (eqnum (reg f x) i0) (fun _ => q) (fun n => s_mul rF (gv x n) (d x n))). apply rsum_ext. intros n _.
        change (eqnum (reg f x) i0 n) with (fnum f i0 n). f_equal. cbn [s_mul rF]. unfold ind. destruct (_ =? _); lra.
      * apply rsum_zero. intros n _. unfold ind. repeat destruct (_ =? _); lra.
    + apply rsum_zero. intros n _. unfold ind. destruct (_ =? _); lra.
Qed.
Lemma node_on_circuit_cj : forall model crow, cr cn = Some (Some crow) -> cc = Some crow -> exact_node_with f cn cc model -> fixed (f_node f) (g_nodevol (f_geom f)) ->
  cj (fun x => node_on_circuit rF (reg f x) cr cn act model) (nodeG (fun _ => crow) model (g_nodevol (f_geom f))).
Proof.
  intros model crow Hc Hcc Ex Fx x m v H row c. unfold node_on_circuit in H. rewrite Hc in H.
  assert (G : forall s, rg_node (reg f x) s = option_map (fun g => g x) (f_node f s)) by reflexivity.
  rewrite (G (g_nodevol (rg_geom (reg f x)))) in H. change (g_nodevol (rg_geom (reg f x))) with (g_nodevol (f_geom f)) in H.
  destruct (f_node f (g_nodevol (f_geom f))) as [gv|] eqn:Ev; cbn [option_map] in H; [|discriminate].
  rewrite (G model) in H. destruct (f_node f model) as [gm|] eqn:Em; cbn [option_map] in H; [|discriminate].
  destruct (over_vars _ _) as [mm| |] eqn:Eo; try discriminate. cbn [bind] in H. injection H as <- _.
  assert (Emm : entry mm row c = rsum (fun n => ind crow row (gv x n * colsum f c [n] (fun var => [dval (f_node f) (der_name model var) x n]) (fvars f))%R) act).
  { destruct (list_eq_dec Nat.eq_dec act []) as [Ea|Ea].
    - rewrite Ea in Eo |- *. cbn [rsum]. clear - Eo. change (variables (reg f x)) with (fvars f) in Eo. revert mm Eo. induction (fvars f) as [|var t IH]; intros mm Eo; [injection Eo as <-; reflexivity|].
      apply over_vars_cons in Eo. destruct Eo as (a & b' & Ha & Hb & ->). rewrite entry_app, (IH _ Hb). destruct (rg_node _ _); injection Ha as <-; unfold entry; cbn; lra.
    - rewrite (over_vars_ext _ (fun var => match rg_node (reg f x) (der_name model var) with
                        | None => OK []
                        | Some d => match col_index (reg f x) var with
                                    | None => Throw
                                    | Some i1 => OK (map (fun n => ((fun _ => crow) n, eqnum (reg f x) i1 n, s_mul rF (gv x n) (d n))) act)
                                    end
                        end)) in Eo.
      + apply (node_vars f x model (gv x) (fun _ => crow) act row c _ mm Eo).
      + intros var. destruct (rg_node (reg f x) (der_name model var)); [|reflexivity]. destruct act; [contradiction|]. destruct (col_index (reg f x) var); reflexivity. }
  rewrite entry_app, Emm.
  match goal with |- derivable_pt_lim _ _ (_ + ?X)%R => replace X with (rsum (fun n => ind crow row (gv x n * at_circuit cc c (dval (f_node f) (der_name model cn) x n))%R) act) end.
  - rewrite <- rsum_plus.
    rewrite (rsum_ext _ (fun n => ind crow row (gv x n * (colsum f c [n] (fun var => [dval (f_node f) (der_name model var) x n]) (fvars f) + at_circuit cc c (dval (f_node f) (der_name model cn) x n)))%R))
      by (intros n _; rewrite <- ind_plus; f_equal; lra).
    apply (nodeG_deriv (fun _ => crow) model (g_nodevol (f_geom f)) x row c gm gv Ex Fx Em Ev).
  - rewrite Hcc. unfold at_circuit, dval. unfold at_state. destruct (f_node f (der_name model cn)) as [d|]; cbn [option_map].
    + symmetry. rewrite (entry_map (fun _ => crow) (fun _ => crow) (fun n => s_mul rF (gv x n) (d x n))). apply rsum_ext. intros n _. f_equal. cbn [s_mul rF]. unfold ind. destruct (_ =? _); lra.
    + apply rsum_zero. intros n _. unfold ind. repeat destruct (_ =? _); lra.
Qed.
End Comp.

(* the models of a contact equation have exact derivatives (c_circuit included), all or
   none of them given for each variable *)
Definition edge_exact (f : family) (cn : string) (cc : option nat) (model : string) : Prop :=
  exact_with f cn cc (f_edge f) (nodes_of (edge_elems (f_mesh f))) edge_sfxs model /\ complete (fvars f) (f_edge f) edge_sfxs model.
Definition element_exact (f : family) (cn : string) (cc : option nat) (model : string) : Prop :=
  (m_dim (f_mesh f) = 2 -> exact_with f cn cc (f_element f) (nodes_of (tri_elems (f_mesh f))) tri_sfxs model /\ complete (fvars f) (f_element f) tri_sfxs model) /\
  (m_dim (f_mesh f) = 3 -> exact_with f cn cc (f_element f) (nodes_of (tet_elems (f_mesh f))) tet_sfxs model /\ complete (fvars f) (f_element f) tet_sfxs model).
Definition contact_exact (f : family) (cr : circuit_rows) (b : cbody) : Prop :=
  let cn := c_circuit b in let cc := crow_of cr b in
  exact_node_with f cn cc (c_node b) /\ exact_node_with f cn cc (c_nodecur b) /\ exact_node_with f cn cc (c_nodeq b) /\
  edge_exact f cn cc (c_edge b) /\ edge_exact f cn cc (c_edgevol b) /\ edge_exact f cn cc (c_edgecur b) /\ edge_exact f cn cc (c_edgeq b) /\
  element_exact f cn cc (c_element b) /\ element_exact f cn cc (c_vol0 b) /\ element_exact f cn cc (c_vol1 b) /\
  element_exact f cn cc (c_elcur b) /\ element_exact f cn cc (c_elq b).
(* the current and charge models do not depend on the circuit node, or the region has one variable *)
Definition circuit_once (f : family) (b : cbody) : Prop :=
  length (fvars f) = 1 \/
  (f_edge f (der_name (c_edgecur b) (c_circuit b)) = None /\ f_edge f (der_name (c_edgeq b) (c_circuit b)) = None /\
   (m_dim (f_mesh f) = 2 -> f_element f (der_name (c_elcur b) (c_circuit b)) = None /\ f_element f (der_name (c_elq b) (c_circuit b)) = None)).

Section Whole.
Variables (f : family) (eq : string) (i0 : nat) (cr : circuit_rows) (act : list nat) (b : cbody).
Hypothesis Hi : equation_index (f_table f) eq = Some i0.
Hypothesis U : unique_columns f.
Hypothesis Hout : forall c, crow_of cr b = Some c -> forall var j, ~ is_col f c var j.
Hypothesis Hact : forall n, In n act -> n < m_nodes (f_mesh f).
Hypothesis ND : NoDup act.
Hypothesis Hm : mesh_ok (f_mesh f).
Hypothesis L : all_loopless (f_mesh f).
Let cn := c_circuit b.
Let cc := crow_of cr b.

Lemma edge_cj : forall model couple s0 s1, edge_exact f cn cc model -> fixed (f_edge f) couple ->
  cj (fun x => contact_edge rF (reg f x) eq cr act b model couple s0 s1) (posG act (f_edge f) (edge_elems (f_mesh f)) (fnum f i0) model couple s0 s1).
Proof.
  intros model couple s0 s1 (Ex & Cm) Fx. refine (positions_equation_cj f eq i0 cr act b Hi U Hout (f_edge f) (edge_elems (f_mesh f)) edge_sfxs model couple Ex Fx Cm _ (proj1 L) _ s0 s1); [discriminate|].
  intros k ns Hk. apply (Hm k ns). apply in_or_app. left. exact Hk.
Qed.
Lemma elem_cj : forall model couple s0 s1, element_exact f cn cc model -> fixed (f_element f) couple ->
  cj (fun x => contact_element rF (reg f x) eq cr act b model couple s0 s1) (posG act (f_element f) (elements (f_mesh f)) (fnum f i0) model couple s0 s1).
Proof.
  intros model couple s0 s1 (E2 & E3) Fx. destruct L as (_ & L2).
  assert (Z : forall x row, rsum (fun n => ind (fnum f i0 n) row (at_node [] (fun k => s0 * (val (at_state (f_element f) x) model k * val (at_state (f_element f) x) couple k))%R (fun k => s1 * (val (at_state (f_element f) x) model k * val (at_state (f_element f) x) couple k))%R n)) act = 0%R).
  { intros x row. apply rsum_zero. intros n _. unfold ind. destruct (_ =? _); reflexivity. }
  unfold contact_element. cbn [reg rg_mesh]. unfold elements in *.
  destruct (m_dim (f_mesh f)) as [|[|[|[|d]]]] eqn:Ed;
    try (apply (cj_ext _ (fun _ _ => 0%R)); [intros y row; symmetry; apply Z|exact cj_nothing]).
  - destruct (E2 eq_refl) as (Ex & Cm). refine (positions_equation_cj f eq i0 cr act b Hi U Hout (f_element f) (tri_elems (f_mesh f)) tri_sfxs model couple Ex Fx Cm _ L2 _ s0 s1); [discriminate|].
    intros k ns Hk. apply (Hm k ns). apply in_or_app. right. apply in_or_app. left. exact Hk.
  - destruct (E3 eq_refl) as (Ex & Cm). refine (positions_equation_cj f eq i0 cr act b Hi U Hout (f_element f) (tet_elems (f_mesh f)) tet_sfxs model couple Ex Fx Cm _ L2 _ s0 s1); [discriminate|].
    intros k ns Hk. apply (Hm k ns). apply in_or_app. right. apply in_or_app. right. exact Hk.
Qed.
Lemma on_circuit_cj : forall node edge element,
  exact_node_with f cn cc node -> edge_exact f cn cc edge -> element_exact f cn cc element -> fixed_geom f ->
  (length (fvars f) = 1 \/ (f_edge f (der_name edge cn) = None /\ (m_dim (f_mesh f) = 2 -> f_element f (der_name element cn) = None))) ->
  cj (fun x => on_circuit rF (reg f x) cr act b node edge element)
     (fun x row => at_circuit cc row (rsum (outflow (reg f x) node edge element) act)).
Proof.
  intros node edge element Xn (Xe & Ce) (X2 & X3) (F1 & F2 & F3 & F4 & F5 & F6 & F7) Once. unfold on_circuit, cc, crow_of. fold cn.
  destruct (given cn) eqn:Eg; [|exact cj_nothing].
  assert (Hcc : cc = match cr cn with Some (Some c) => Some c | _ => None end) by (unfold cc, crow_of; fold cn; rewrite Eg; reflexivity).
  destruct (cr cn) as [[crow|]|] eqn:Ec; cbn [at_circuit].
  - apply (cj_ext _ (fun x row => (opt (given node) (nodeG f act (fun _ => crow) node (g_nodevol (f_geom f)) x row) +
      (opt (given edge) (posG act (f_edge f) (edge_elems (f_mesh f)) (fun _ => crow) edge (g_edgecouple (f_geom f)) 1 (-1) x row) +
       opt (given element) (posG act (f_element f) (elements (f_mesh f)) (fun _ => crow) element (g_elcouple (f_geom f)) 1 (-1) x row)))%R)).
    { intros y row. rewrite ind_rsum. unfold nodeG, posG, outflow, residual. cbn [b_node b_edge b_edgevol b_element b_vol0 b_vol1].
      change (given ""%string) with false. cbn [orb opt].
      assert (Dist : forall b (f : nat -> R) l, opt b (rsum f l) = rsum (fun n => opt b (f n)) l).
      { intros b' f' l. unfold opt. destruct b'; [reflexivity|]. symmetry. apply rsum_zero. reflexivity. }
      rewrite !Dist, <- !rsum_plus. apply rsum_ext. intros n _. rewrite <- !ind_opt, <- !ind_plus. f_equal. cbn [reg rg_geom rg_node rg_edge rg_element rg_mesh].
      rewrite (at_node_ext (edge_elems (f_mesh f)) (fun k => (1 * _)%R) (fun k => (-1 * _)%R) (fun k => (val (at_state (f_edge f) y) edge k * val (at_state (f_edge f) y) (g_edgecouple (f_geom f)) k)%R) (fun k => (- (val (at_state (f_edge f) y) edge k * val (at_state (f_edge f) y) (g_edgecouple (f_geom f)) k))%R)) by (intros; lra).
      rewrite (at_node_ext (elements (f_mesh f)) (fun k => (1 * _)%R) (fun k => (-1 * _)%R) (fun k => (val (at_state (f_element f) y) element k * val (at_state (f_element f) y) (g_elcouple (f_geom f)) k)%R) (fun k => (- (val (at_state (f_element f) y) element k * val (at_state (f_element f) y) (g_elcouple (f_geom f)) k))%R)) by (intros; lra).
      lra. }
    apply (cj_both (fun x => if given node then _ else _)); [|apply (cj_both (fun x => if given edge then _ else _))].
    + apply (cj_opt (given node) (fun x => node_on_circuit rF (reg f x) cr cn act node)). intros _. apply node_on_circuit_cj; auto.
    + apply (cj_opt (given edge) (fun x => edge_on_circuit rF (reg f x) cr act b edge)). intros _. unfold edge_on_circuit.
      apply (positions_on_circuit_cj f cr act b U Hout ND (f_edge f) (edge_elems (f_mesh f)) edge_sfxs edge (g_edgecouple (f_geom f))); auto; [discriminate|apply L| |].
      * intros k ns Hk. apply (Hm k ns). apply in_or_app. left. exact Hk.
      * intros _. tauto.
    + apply (cj_opt (given element) (fun x => element_on_circuit rF (reg f x) cr act b element)). intros _. unfold element_on_circuit. cbn [reg rg_mesh].
      destruct L as (_ & L2).
      unfold elements in *.
      destruct (m_dim (f_mesh f)) as [|[|[|[|d]]]] eqn:Ed;
        try (apply (cj_ext _ (fun _ _ => 0%R)); [intros y row; symmetry; apply rsum_zero; intros n _; unfold ind; destruct (_ =? _); reflexivity|exact cj_nothing]).
      * destruct (X2 eq_refl) as (Ex & Cm).
        apply (positions_on_circuit_cj f cr act b U Hout ND (f_element f) (tri_elems (f_mesh f)) tri_sfxs element (g_elcouple (f_geom f))); auto; [discriminate| |].
        -- intros k ns Hk. apply (Hm k ns). apply in_or_app. right. apply in_or_app. left. exact Hk.
        -- intros _. destruct Once as [O1|(_ & O2)]; [left; exact O1|right; exact (O2 eq_refl)].
      * destruct (X3 eq_refl) as (Ex & Cm).
        apply (positions_on_circuit_cj f cr act b U Hout ND (f_element f) (tet_elems (f_mesh f)) tet_sfxs element (g_elcouple (f_geom f))); auto; [discriminate| |discriminate].
        intros k ns Hk. apply (Hm k ns). apply in_or_app. right. apply in_or_app. right. exact Hk.
  - intros x m v H row c. destruct (cboth_OK _ _ _ _ H) as (m1 & v1 & m' & v' & H1 & H' & -> & _). destruct (cboth_OK _ _ _ _ H') as (m2 & v2 & m3 & v3 & H2 & H3 & -> & _).
    assert (m1 = []) as -> by (destruct (given node); [unfold node_on_circuit in H1; fold cn in H1; rewrite Ec in H1|]; injection H1 as <- _; reflexivity).
    assert (m2 = []) as -> by (destruct (given edge); [unfold edge_on_circuit, positions_on_circuit in H2; fold cn in H2; rewrite Ec in H2|]; injection H2 as <- _; reflexivity).
    assert (m3 = []) as -> by (destruct (given element); [unfold element_on_circuit, positions_on_circuit in H3; fold cn in H3; rewrite Ec in H3; destruct (m_dim (rg_mesh (reg f x))) as [|[|[|[|d]]]]|]; injection H3 as <- _; reflexivity).
    apply derivable_pt_lim_const.
  - intros x m v H row c. destruct (cboth_OK _ _ _ _ H) as (m1 & v1 & m' & v' & H1 & H' & -> & _). destruct (cboth_OK _ _ _ _ H') as (m2 & v2 & m3 & v3 & H2 & H3 & -> & _).
    assert (m1 = []) as -> by (destruct (given node); [unfold node_on_circuit in H1; fold cn in H1; rewrite Ec in H1; discriminate|]; injection H1 as <- _; reflexivity).
    assert (m2 = []) as -> by (destruct (given edge); [unfold edge_on_circuit, positions_on_circuit in H2; fold cn in H2; rewrite Ec in H2; discriminate|]; injection H2 as <- _; reflexivity).
    assert (m3 = []) as -> by (destruct (given element); [unfold element_on_circuit, positions_on_circuit in H3; fold cn in H3; rewrite Ec in H3; destruct (m_dim (rg_mesh (reg f x))) as [|[|[|[|d]]]]; try discriminate|]; injection H3 as <- _; reflexivity).
    apply derivable_pt_lim_const.
Qed.
Lemma contact_cj : forall t, contact_exact f cr b -> fixed_geom f -> circuit_once f b ->
  cj (fun x => contact_assemble rF (reg f x) eq cr act b t) (fun x row => contact_residual (reg f x) i0 cr act b t row).
Proof.
  intros t (N1 & N2 & N3 & A1 & A2 & A3 & A4 & B1 & B2 & B3 & B4 & B5) Fg Once. pose proof Fg as (F1 & F2 & F3 & F4 & F5 & F6 & F7).
  assert (O1 : length (fvars f) = 1 \/ (f_edge f (der_name (c_edgecur b) cn) = None /\ (m_dim (f_mesh f) = 2 -> f_element f (der_name (c_elcur b) cn) = None))).
  { destruct Once as [O|(O1 & O2 & O3)]; [left; exact O|right; split; [exact O1|intros D; apply O3; exact D]]. }
  assert (O2 : length (fvars f) = 1 \/ (f_edge f (der_name (c_edgeq b) cn) = None /\ (m_dim (f_mesh f) = 2 -> f_element f (der_name (c_elq b) cn) = None))).
  { destruct Once as [O|(O2 & O3 & O4)]; [left; exact O|right; split; [exact O3|intros D; apply O4; exact D]]. }
  destruct t; cbn [contact_assemble]; unfold contact_residual.
  2:{ exact (on_circuit_cj (c_nodeq b) (c_edgeq b) (c_elq b) N3 A4 B5 Fg O2). }
  set (Pe := fun (m v : string) s0 s1 => posG act (f_edge f) (edge_elems (f_mesh f)) (fnum f i0) m v s0 s1).
  set (Pl := fun (m v : string) s0 s1 => posG act (f_element f) (elements (f_mesh f)) (fnum f i0) m v s0 s1).
  apply (cj_ext _ (fun x row => (opt (given (c_node b)) (nodeG f act (fnum f i0) (c_node b) (g_nodevol (f_geom f)) x row) +
     (opt (given (c_edge b)) (Pe (c_edge b) (g_edgecouple (f_geom f)) 1 (-1) x row) +
     (opt (given (c_edgevol b)) (Pe (c_edgevol b) (g_edgevol0 (f_geom f)) 1 0 x row + Pe (c_edgevol b) (g_edgevol1 (f_geom f)) 0 1 x row) +
     (opt (given (c_element b)) (Pl (c_element b) (g_elcouple (f_geom f)) 1 (-1) x row) +
     (opt (given (c_vol0 b) || given (c_vol1 b)) (Pl (c_vol0 b) (g_elvol0 (f_geom f)) 1 0 x row + Pl (c_vol1 b) (g_elvol1 (f_geom f)) 0 1 x row) +
      at_circuit cc row (rsum (outflow (reg f x) (c_nodecur b) (c_edgecur b) (c_elcur b)) act))))))%R)).
  { intros y row. unfold Pe, Pl, nodeG, posG. rewrite <- !rsum_plus.
    assert (Dist : forall b (f : nat -> R) l, opt b (rsum f l) = rsum (fun n => opt b (f n)) l).
    { intros b' f' l. unfold opt. destruct b'; [reflexivity|]. symmetry. apply rsum_zero. reflexivity. }
    rewrite !Dist. fold cc. rewrite <- !Rplus_assoc, <- !rsum_plus. f_equal. apply rsum_ext. intros n _. rewrite <- !ind_plus, <- !ind_opt, <- !ind_plus.
    change (eqnum (reg f y) i0 n) with (fnum f i0 n). f_equal. rewrite !at_node_plus. unfold residual, cbulk. cbn [b_node b_edge b_edgevol b_element b_vol0 b_vol1 reg rg_geom rg_node rg_edge rg_element rg_mesh].
    f_equal; [f_equal; [f_equal; [f_equal|]|]|]; f_equal; apply at_node_ext; intros k; lra. }
  apply (cj_both (fun x => if given (c_node b) then _ else _)).
  { apply (cj_opt (given (c_node b)) (fun x => node_equation rF (reg f x) eq cr cn act (c_node b))). intros _. apply node_equation_cj; auto. }
  apply (cj_both (fun x => if given (c_edge b) then _ else _)).
  { apply (cj_opt (given (c_edge b)) (fun x => contact_edge _ _ _ _ _ _ _ _ _ _)). intros _. exact (edge_cj (c_edge b) (g_edgecouple (f_geom f)) 1 (-1) A1 F2). }
  apply (cj_both (fun x => if given (c_edgevol b) then _ else _)).
  { apply (cj_opt (given (c_edgevol b)) (fun x => let v0 := _ in let v1 := _ in if String.eqb v0 v1 then _ else _)). intros _. cbv zeta. cbn [reg rg_geom].
    destruct (String.eqb_spec (g_edgevol0 (f_geom f)) (g_edgevol1 (f_geom f))) as [E|E].
    - apply (cj_ext _ (Pe (c_edgevol b) (g_edgevol0 (f_geom f)) 1 1)%R).
      + intros y row. unfold Pe, posG. rewrite <- rsum_plus. apply rsum_ext. intros n _. rewrite <- ind_plus, at_node_plus. f_equal. apply at_node_ext; intros k; rewrite <- ?E; lra.
      + exact (edge_cj (c_edgevol b) (g_edgevol0 (f_geom f)) 1 1 A2 F3).
    - apply (cj_both (fun x => contact_edge _ _ _ _ _ _ _ _ _ _));
      [exact (edge_cj (c_edgevol b) (g_edgevol0 (f_geom f)) 1 0 A2 F3)|exact (edge_cj (c_edgevol b) (g_edgevol1 (f_geom f)) 0 1 A2 F4)]. }
  apply (cj_both (fun x => if given (c_element b) then _ else _)).
  { apply (cj_opt (given (c_element b)) (fun x => contact_element _ _ _ _ _ _ _ _ _ _)). intros _. exact (elem_cj (c_element b) (g_elcouple (f_geom f)) 1 (-1) B1 F5). }
  apply (cj_both (fun x => if (given (c_vol0 b) || given (c_vol1 b))%bool then _ else _)); [|exact (on_circuit_cj (c_nodecur b) (c_edgecur b) (c_elcur b) N2 A3 B4 Fg O1)].
  apply (cj_opt (given (c_vol0 b) || given (c_vol1 b)) (fun x => let v0 := _ in let v1 := _ in if (String.eqb v0 v1 && _)%bool then _ else _)). intros _. cbv zeta. cbn [reg rg_geom].
  destruct (String.eqb_spec (g_elvol0 (f_geom f)) (g_elvol1 (f_geom f))) as [E|E]; cbn [andb];
  [destruct (String.eqb_spec (c_vol0 b) (c_vol1 b)) as [E'|E']|].
  - apply (cj_ext _ (Pl (c_vol0 b) (g_elvol0 (f_geom f)) 1 1)%R).
    + intros y row. unfold Pl, posG. rewrite <- rsum_plus. apply rsum_ext. intros n _. rewrite <- ind_plus, at_node_plus. f_equal. apply at_node_ext; intros k; rewrite <- ?E, <- ?E'; lra.
    + exact (elem_cj (c_vol0 b) (g_elvol0 (f_geom f)) 1 1 B2 F6).
  - apply (cj_both (fun x => contact_element _ _ _ _ _ _ _ _ _ _));
      [exact (elem_cj (c_vol0 b) (g_elvol0 (f_geom f)) 1 0 B2 F6)|exact (elem_cj (c_vol1 b) (g_elvol1 (f_geom f)) 0 1 B3 F7)].
  - apply (cj_both (fun x => contact_element _ _ _ _ _ _ _ _ _ _));
      [exact (elem_cj (c_vol0 b) (g_elvol0 (f_geom f)) 1 0 B2 F6)|exact (elem_cj (c_vol1 b) (g_elvol1 (f_geom f)) 0 1 B3 F7)].
Qed.
End Whole.
