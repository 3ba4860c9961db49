(* Residual of every row of an assembled equation, in exact arithmetic. *)
From Coq Require Import String List Bool Arith Lia Reals Lra.
From Verif Require Import StrMap EqTable EqTableProofs Assembly AssemblyProofs.
Import ListNotations.
Open Scope R_scope.
Open Scope nat_scope.
Open Scope list_scope.

(* ---- specification ------------------------------------------------------------- *)
(* sum over the edges (positions k, first node a, second node b) of w0 k at the first
   node and w1 k at the second, seen from node n *)
Definition at_node (els : list elem) (w0 w1 : nat -> R) (n : nat) : R :=
  rsum (fun e => let '(k, a, b, _) := e in ((if (a =? n)%nat then w0 k else 0) + (if (b =? n)%nat then w1 k else 0))%R) els.
Definition elements (g : mesh) : list elem := match m_dim g with 2 => tri_elems g | 3 => tet_elems g | _ => [] end.
Definition opt (b : bool) (x : R) : R := if b then x else 0%R.
(* DC residual at node n according to the manual: node model times node volume, flux
   models leaving node 0 and entering node 1 weighted by the couples, volume models
   weighted by the volumes on each side *)
Definition residual (r : region R) (b : body) (n : nat) : R :=
  let g := rg_geom r in
  let nv s := val (rg_node r) s in
  let ev s := val (rg_edge r) s in
  let lv s := val (rg_element r) s in
  (opt (given (b_node b)) (nv (g_nodevol g) n * nv (b_node b) n) +
   opt (given (b_edge b)) (at_node (edge_elems (rg_mesh r)) (fun k => ev (b_edge b) k * ev (g_edgecouple g) k) (fun k => - (ev (b_edge b) k * ev (g_edgecouple g) k)) n) +
   opt (given (b_edgevol b)) (at_node (edge_elems (rg_mesh r)) (fun k => ev (b_edgevol b) k * ev (g_edgevol0 g) k) (fun k => ev (b_edgevol b) k * ev (g_edgevol1 g) k) n) +
   opt (given (b_element b)) (at_node (elements (rg_mesh r)) (fun k => lv (b_element b) k * lv (g_elcouple g) k) (fun k => - (lv (b_element b) k * lv (g_elcouple g) k)) n) +
   opt (given (b_vol0 b) || given (b_vol1 b)) (at_node (elements (rg_mesh r)) (fun k => lv (b_vol0 b) k * lv (g_elvol0 g) k) (fun k => lv (b_vol1 b) k * lv (g_elvol1 g) k) n))%R.
Definition time_residual (r : region R) (b : body) (n : nat) : R :=
  opt (given (b_time b)) (val (rg_node r) (g_nodevol (rg_geom r)) n * val (rg_node r) (b_time b) n)%R.

(* ---- proof ----------------------------------------------------------------------- *)
Lemma eqnum_eqb : forall (r : region R) i a n, (eqnum r i a =? eqnum r i n) = (a =? n).
Proof. intros r i a n. unfold eqnum. destruct (Nat.eqb_spec a n) as [->|N]; [apply Nat.eqb_refl|]. apply Nat.eqb_neq. lia. Qed.
Lemma couple_row : forall r eq i0 els look sfx model couple s0 s1 m v n, row_index r eq = Some i0 ->
  couple_assemble rF r eq els look sfx model couple s0 s1 = Some (m, v) ->
  row_sum v (eqnum r i0 n) = at_node els (fun k => s0 * (val look model k * val look couple k))%R (fun k => s1 * (val look model k * val look couple k))%R n.
Proof.
  intros r eq i0 els look sfx model couple s0 s1 m v n Hi H.
  destruct (couple_assemble_rhs _ _ _ _ _ _ _ _ _ _ _ H) as (ef & ec & E1 & E2 & E3).
  unfold couple_rhs in E3. rewrite Hi in E3. injection E3 as <-. unfold row_sum, at_node. rewrite rsum_flat_map. apply rsum_ext.
  intros [[[k n0] n1] o] _. cbn [rsum fst snd]. unfold ind, val. rewrite !eqnum_eqb, E1, E2. cbn [s_mul rF].
  destruct (n0 =? n), (n1 =? n); lra.
Qed.
Lemma rsum_seq_ind : forall (g : nat -> R) n N a, a <= n < a + N -> rsum (fun i => if i =? n then g i else 0%R) (seq a N) = g n.
Proof.
  intros g n N. induction N as [|N IH]; intros a H; [lia|]. cbn [seq rsum]. destruct (Nat.eqb_spec a n) as [->|D].
  - rewrite (rsum_zero _ (seq (S n) N)); [lra|]. intros i Hi. apply in_seq in Hi. destruct (Nat.eqb_spec i n); [lia|reflexivity].
  - rewrite IH; [lra|lia].
Qed.
Lemma node_row : forall r eq i0 model volume m v n, row_index r eq = Some i0 -> n < m_nodes (rg_mesh r) ->
  node_volume_assemble rF r eq model volume = Some (m, v) ->
  row_sum v (eqnum r i0 n) = (val (rg_node r) volume n * val (rg_node r) model n)%R.
Proof.
  intros r eq i0 model volume m v n Hi Hn H. unfold node_volume_assemble in H.
  destruct (rg_node r model) as [nm|] eqn:E1; [|discriminate]. destruct (rg_node r volume) as [nv|] eqn:E2; [|discriminate].
  unfold node_assemble_rhs in H. rewrite Hi in H.
  destruct (node_jacobians rF r eq model nv (variables r)); [|discriminate]. injection H as _ <-.
  unfold row_sum. rewrite rsum_map. cbn [fst snd].
  rewrite (rsum_ext _ (fun i => if i =? n then (nv i * nm i)%R else 0%R)).
  - rewrite (rsum_seq_ind (fun i => (nv i * nm i)%R)) by lia. unfold val. rewrite E1, E2. reflexivity.
  - intros i _. unfold ind. rewrite eqnum_eqb. reflexivity.
Qed.
Lemma both_row : forall a b m v row, both a b = Some (m, v) -> exists m1 v1 m2 v2, a = Some (m1, v1) /\ b = Some (m2, v2) /\
  row_sum v row = (row_sum v1 row + row_sum v2 row)%R.
Proof.
  intros a b m v row H. destruct (both_some _ _ _ _ H) as (m1 & v1 & m2 & v2 & A & B & _ & ->). exists m1, v1, m2, v2.
  split; [exact A|]. split; [exact B|]. apply rsum_app.
Qed.
Lemma nothing_row : forall (m : mat_list R) v row, nothing = Some (m, v) -> row_sum v row = 0%R.
Proof. intros m v row H. injection H as _ <-. reflexivity. Qed.
Lemma element_row : forall r eq i0 model couple s0 s1 m v n, row_index r eq = Some i0 ->
  element_couple rF r eq model couple s0 s1 = Some (m, v) ->
  row_sum v (eqnum r i0 n) = at_node (elements (rg_mesh r)) (fun k => s0 * (val (rg_element r) model k * val (rg_element r) couple k))%R (fun k => s1 * (val (rg_element r) model k * val (rg_element r) couple k))%R n.
Proof.
  intros r eq i0 model couple s0 s1 m v n Hi H. unfold element_couple in H. unfold elements.
  destruct (m_dim (rg_mesh r)) as [|[|[|[|d]]]]; try (apply nothing_row with (row := eqnum r i0 n) in H; exact H); eapply couple_row; eassumption.
Qed.
Lemma at_node_ext : forall els w0 w1 w0' w1' n, (forall k, w0 k = w0' k) -> (forall k, w1 k = w1' k) -> at_node els w0 w1 n = at_node els w0' w1' n.
Proof. intros els w0 w1 w0' w1' n H0 H1. apply rsum_ext. intros [[[k a] b] o] _. rewrite H0, H1. reflexivity. Qed.
Lemma at_node_plus : forall els w0 w1 w0' w1' n, (at_node els w0 w1 n + at_node els w0' w1' n)%R = at_node els (fun k => w0 k + w0' k)%R (fun k => w1 k + w1' k)%R n.
Proof. intros els w0 w1 w0' w1' n. unfold at_node. rewrite <- rsum_plus. apply rsum_ext. intros [[[k a] b] o] _. destruct (a =? n), (b =? n); lra. Qed.

Lemma residual_lemma : forall r eq b i0 m v n, row_index r eq = Some i0 -> n < m_nodes (rg_mesh r) ->
  (given (b_edgevol b) = true -> given (b_edge b) = true) ->
  equation_assemble rF r eq b DC = Some (m, v) -> row_sum v (eqnum r i0 n) = residual r b n.
Proof.
  intros r eq b i0 m v n Hi Hn Hev H. cbn [equation_assemble] in H.
  destruct (both_row _ _ _ _ (eqnum r i0 n) H) as (m1 & v1 & m2 & v2 & H1 & H2 & ->).
  destruct (both_row _ _ _ _ (eqnum r i0 n) H2) as (m3 & v3 & m4 & v4 & H3 & H4 & ->).
  destruct (both_row _ _ _ _ (eqnum r i0 n) H4) as (m5 & v5 & m6 & v6 & H5 & H6 & ->).
  unfold residual.
  match goal with |- _ = (?A + ?B + ?C + ?D + ?E)%R =>
    assert (T3 : row_sum v3 (eqnum r i0 n) = A); [|assert (T1 : row_sum v1 (eqnum r i0 n) = (B + C)%R); [|assert (T5 : row_sum v5 (eqnum r i0 n) = D); [|
    assert (T6 : row_sum v6 (eqnum r i0 n) = E); [|rewrite T1, T3, T5, T6; lra]]]] end.
  - unfold opt. destruct (given (b_node b)); [exact (node_row _ _ _ _ _ _ _ _ Hi Hn H3)|exact (nothing_row _ _ _ H3)].
  - unfold opt. destruct (given (b_edge b)).
    + destruct (both_row _ _ _ _ (eqnum r i0 n) H1) as (? & ? & ? & ? & A & B & ->).
      unfold edge_couple_assemble, edge_couple in A. rewrite (couple_row _ _ _ _ _ _ _ _ _ _ _ _ n Hi A).
      f_equal; [apply at_node_ext; intros k; unfold one, minus_one; cbn; lra|].
      destruct (given (b_edgevol b)); [|exact (nothing_row _ _ _ B)]. unfold edge_volume_assemble, edge_couple in B.
      destruct (String.eqb_spec (g_edgevol0 (rg_geom r)) (g_edgevol1 (rg_geom r))) as [E1|E1].
      * rewrite (couple_row _ _ _ _ _ _ _ _ _ _ _ _ n Hi B). apply at_node_ext; intros k; rewrite <- ?E1; unfold one; cbn; lra.
      * destruct (both_row _ _ _ _ (eqnum r i0 n) B) as (? & ? & ? & ? & A' & B' & ->).
        rewrite (couple_row _ _ _ _ _ _ _ _ _ _ _ _ n Hi A'), (couple_row _ _ _ _ _ _ _ _ _ _ _ _ n Hi B'), at_node_plus.
        apply at_node_ext; intros k; unfold one, zero; cbn; lra.
    + destruct (given (b_edgevol b)); [discriminate (Hev eq_refl)|]. rewrite (nothing_row _ _ _ H1). lra.
  - unfold opt. destruct (given (b_element b)); [|exact (nothing_row _ _ _ H5)]. unfold element_couple_assemble in H5.
    rewrite (element_row _ _ _ _ _ _ _ _ _ n Hi H5). apply at_node_ext; intros k; unfold one, minus_one; cbn; lra.
  - unfold opt. destruct (given (b_vol0 b) || given (b_vol1 b))%bool; [|exact (nothing_row _ _ _ H6)].
    unfold element_volume_assemble in H6.
    destruct (String.eqb_spec (g_elvol0 (rg_geom r)) (g_elvol1 (rg_geom r))) as [E1|E1]; cbn [andb] in H6;
    [destruct (String.eqb_spec (b_vol0 b) (b_vol1 b)) as [E2|E2]|].
    + rewrite (element_row _ _ _ _ _ _ _ _ _ n Hi H6). apply at_node_ext; intros k; rewrite <- ?E1, <- ?E2; unfold one; cbn; lra.
    + destruct (both_row _ _ _ _ (eqnum r i0 n) H6) as (? & ? & ? & ? & A & B & ->).
      rewrite (element_row _ _ _ _ _ _ _ _ _ n Hi A), (element_row _ _ _ _ _ _ _ _ _ n Hi B), at_node_plus. apply at_node_ext; intros k; unfold one, zero; cbn; lra.
    + destruct (both_row _ _ _ _ (eqnum r i0 n) H6) as (? & ? & ? & ? & A & B & ->).
      rewrite (element_row _ _ _ _ _ _ _ _ _ n Hi A), (element_row _ _ _ _ _ _ _ _ _ n Hi B), at_node_plus. apply at_node_ext; intros k; unfold one, zero; cbn; lra.
Qed.
Lemma time_residual_lemma : forall r eq b i0 m v n, row_index r eq = Some i0 -> n < m_nodes (rg_mesh r) ->
  equation_assemble rF r eq b TIME = Some (m, v) -> row_sum v (eqnum r i0 n) = time_residual r b n.
Proof.
  intros r eq b i0 m v n Hi Hn H. cbn [equation_assemble] in H. unfold time_residual, opt.
  destruct (given (b_time b)); [exact (node_row _ _ _ _ _ _ _ _ Hi Hn H)|exact (nothing_row _ _ _ H)].
Qed.

(* rows of an equation: no entry elsewhere *)
Definition in_rows (r : region R) (i0 : nat) (v : rhs_list R) : Prop := forall p, In p v -> exists n, n < m_nodes (rg_mesh r) /\ fst p = eqnum r i0 n.
Definition nodes_ok (g : mesh) : Prop :=
  (forall k a b o, In (k, a, b, o) (edge_elems g ++ tri_elems g ++ tet_elems g) -> a < m_nodes g /\ b < m_nodes g).
Lemma in_rows_app : forall r i a b, in_rows r i a -> in_rows r i b -> in_rows r i (a ++ b).
Proof. intros r i a b Ha Hb p Hp. apply in_app_or in Hp. destruct Hp; auto. Qed.
Lemma couple_in_rows : forall r eq i0 els look sfx model couple s0 s1 m v, row_index r eq = Some i0 ->
  (forall k a b o, In (k, a, b, o) els -> a < m_nodes (rg_mesh r) /\ b < m_nodes (rg_mesh r)) ->
  couple_assemble rF r eq els look sfx model couple s0 s1 = Some (m, v) -> in_rows r i0 v.
Proof.
  intros r eq i0 els look sfx model couple s0 s1 m v Hi Hn H.
  destruct (couple_assemble_rhs _ _ _ _ _ _ _ _ _ _ _ H) as (ef & ec & E1 & E2 & E3).
  unfold couple_rhs in E3. rewrite Hi in E3. injection E3 as <-. intros p Hp. apply in_flat_map in Hp.
  destruct Hp as ([[[k n0] n1] o] & He & Hp). destruct (Hn _ _ _ _ He). cbn in Hp. destruct Hp as [<-|[<-|[]]]; [exists n0|exists n1]; auto.
Qed.
Lemma node_in_rows : forall r eq i0 model volume m v, row_index r eq = Some i0 ->
  node_volume_assemble rF r eq model volume = Some (m, v) -> in_rows r i0 v.
Proof.
  intros r eq i0 model volume m v Hi H. unfold node_volume_assemble in H.
  destruct (rg_node r model) as [nm|]; [|discriminate]. destruct (rg_node r volume) as [nv|]; [|discriminate].
  unfold node_assemble_rhs in H. rewrite Hi in H.
  destruct (node_jacobians rF r eq model nv (variables r)); [|discriminate]. injection H as _ <-.
  intros p Hp. apply in_map_iff in Hp. destruct Hp as (i & <- & Hi'). apply in_seq in Hi'. exists i. cbn. split; [lia|reflexivity].
Qed.
Lemma nothing_in_rows : forall r i (m : mat_list R) v, nothing = Some (m, v) -> in_rows r i v.
Proof. intros r i m v H. injection H as _ <-. intros p []. Qed.
Lemma both_in_rows : forall r i a b m v, both a b = Some (m, v) ->
  (forall m1 v1, a = Some (m1, v1) -> in_rows r i v1) -> (forall m2 v2, b = Some (m2, v2) -> in_rows r i v2) -> in_rows r i v.
Proof.
  intros r i a b m v H Ha Hb. destruct (both_some _ _ _ _ H) as (m1 & v1 & m2 & v2 & A & B & _ & ->). apply in_rows_app; eauto.
Qed.
Lemma equation_in_rows : forall r eq b t i0 m v, nodes_ok (rg_mesh r) -> row_index r eq = Some i0 ->
  equation_assemble rF r eq b t = Some (m, v) -> in_rows r i0 v.
Proof.
  intros r eq b t i0 m v Hok Hi H.
  assert (Ed : forall model couple s0 s1 m v, edge_couple rF r eq model couple s0 s1 = Some (m, v) -> in_rows r i0 v).
  { intros model couple s0 s1 m' v' H'. unfold edge_couple in H'. eapply couple_in_rows; [exact Hi| |exact H'].
    intros k a c o He. apply (Hok k a c o). apply in_or_app. left. exact He. }
  assert (El : forall model couple s0 s1 m v, element_couple rF r eq model couple s0 s1 = Some (m, v) -> in_rows r i0 v).
  { intros model couple s0 s1 m' v' H'. unfold element_couple in H'.
    destruct (m_dim (rg_mesh r)) as [|[|[|[|d]]]]; try (eapply nothing_in_rows; exact H'); (eapply couple_in_rows; [exact Hi| |exact H']);
      intros k a c o He; apply (Hok k a c o); apply in_or_app; right; apply in_or_app; auto. }
  destruct t; cbn [equation_assemble] in H.
  - eapply both_in_rows; [exact H| |].
    { intros m1 v1 H1. destruct (given (b_edge b)); [|eapply nothing_in_rows; exact H1].
      eapply both_in_rows; [exact H1| |].
      - intros ? ? A. eapply Ed. exact A.
      - intros ? ? A. destruct (given (b_edgevol b)); [|eapply nothing_in_rows; exact A]. unfold edge_volume_assemble in A.
        destruct (String.eqb _ _); [eapply Ed; exact A|]. eapply both_in_rows; [exact A| |]; intros ? ? A'; eapply Ed; exact A'. }
    intros m2 v2 H2. eapply both_in_rows; [exact H2| |].
    { intros ? ? A. destruct (given (b_node b)); [|eapply nothing_in_rows; exact A]. eapply node_in_rows; eassumption. }
    intros m3 v3 H3. eapply both_in_rows; [exact H3| |].
    { intros ? ? A. destruct (given (b_element b)); [|eapply nothing_in_rows; exact A]. eapply El; exact A. }
    intros ? ? A. destruct (given (b_vol0 b) || given (b_vol1 b))%bool; [|eapply nothing_in_rows; exact A]. unfold element_volume_assemble in A.
    destruct (String.eqb _ _ && String.eqb _ _)%bool; [eapply El; exact A|].
    eapply both_in_rows; [exact A| |]; intros ? ? A'; eapply El; exact A'.
  - destruct (given (b_time b)); [|eapply nothing_in_rows; exact H]. eapply node_in_rows; eassumption.
Qed.
