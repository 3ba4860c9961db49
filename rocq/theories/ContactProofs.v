(* Active nodes, terminal currents and contact assembly, in exact arithmetic. *)
From Coq Require Import String List Bool Arith Lia Reals Lra Classical_Prop Permutation.
From Verif Require Import StrMap EqTable EqTableProofs Assembly AssemblyProofs AssemblyResidual AssemblyJacobian Load LoadProofs Contact.
Import ListNotations.
Open Scope R_scope.
Open Scope nat_scope.
Open Scope list_scope.

(* ---- active nodes ---------------------------------------------------------------- *)
Definition on (ci : nat) (o : contact) : Prop := In ci (k_nodes o).
Lemma existsb_nat : forall ci l, existsb (Nat.eqb ci) l = true <-> In ci l.
Proof.
  intros ci l. rewrite existsb_exists. split.
  - intros (x & Hx & E). apply Nat.eqb_eq in E. subst. exact Hx.
  - intros H. exists ci. split; [exact H|apply Nat.eqb_refl].
Qed.
Lemma existsb_str : forall e l, existsb (String.eqb e) l = true <-> In e l.
Proof.
  intros ci l. rewrite existsb_exists. split.
  - intros (x & Hx & E). apply String.eqb_eq in E. subst. exact Hx.
  - intros H. exists ci. split; [exact H|apply String.eqb_refl].
Qed.
(* contacts of the same region as c with a node at ci before c *)
Definition first_at (all : list contact) (ci : nat) (c : contact) : Prop :=
  exists l1 l2, all = l1 ++ c :: l2 /\ forall o, In o l1 -> k_region o = k_region c -> ~ on ci o.
Definition distinct (all : list contact) : Prop := NoDup (map k_name all).

Lemma use_node_first : forall eq c ci all, distinct all -> In c all -> In eq (k_eqs c) -> on ci c ->
  (use_node c eq (contacts_at all ci) = true <-> first_at all ci c).
Proof.
  intros eq c ci all ND Hc He Ho. apply existsb_str in He. revert ND Hc. induction all as [|o t IH]; intros ND Hc; [destruct Hc|].
  inversion ND as [|? ? Hn Ht]; subst. unfold contacts_at. cbn [filter].
  destruct Hc as [->|Hc].
  - assert (Hb : existsb (Nat.eqb ci) (k_nodes c) = true) by (apply existsb_nat; exact Ho). rewrite Hb. cbn [use_node]. rewrite !String.eqb_refl.
    split; [intros _|reflexivity]. exists [], t. split; [reflexivity|]. intros o [].
  - assert (Nm : k_name o <> k_name c) by (intros E; apply Hn; rewrite E; apply in_map; exact Hc).
    specialize (IH Ht Hc). unfold contacts_at in IH.
    assert (Step : first_at (o :: t) ci c <-> (k_region o = k_region c -> ~ on ci o) /\ first_at t ci c).
    { split.
      - intros (l1 & l2 & E & A). destruct l1 as [|o' l1]; cbn in E; injection E as E1 E2.
        + subst. contradiction.
        + subst o'. split; [apply A; left; reflexivity|]. exists l1, l2. split; [exact E2|]. intros o' Ho'. apply A. right. exact Ho'.
      - intros (A & l1 & l2 & -> & B). exists (o :: l1), l2. split; [reflexivity|]. intros o' [<-|Ho']; auto. }
    destruct (existsb (Nat.eqb ci) (k_nodes o)) eqn:Eo.
    + cbn [use_node]. apply existsb_nat in Eo. destruct (String.eqb_spec (k_region o) (k_region c)) as [Er|Er].
      * destruct (String.eqb_spec (k_name o) (k_name c)) as [En|_]; [contradiction|]. rewrite He. split; [discriminate|].
        intros F. apply Step in F. destruct F as (A & _). exfalso. exact (A Er Eo).
      * rewrite IH, Step. tauto.
    + rewrite IH, Step. split; [|tauto]. intros F. split; [|exact F]. intros _ A. apply existsb_nat in A. congruence.
Qed.
Lemma first_unique : forall all ci c c', first_at all ci c -> first_at all ci c' -> k_region c = k_region c' -> on ci c -> on ci c' -> c = c'.
Proof.
  induction all as [|o t IH]; intros ci c c' (l1 & l2 & E & A) (l1' & l2' & E' & A') Er H H'; [destruct l1; discriminate|].
  destruct l1 as [|a l1], l1' as [|a' l1']; cbn in E, E'; injection E as E1 E2; injection E' as E1' E2'.
  - congruence.
  - exfalso. apply (A' a'); [left; reflexivity|congruence|congruence].
  - exfalso. apply (A a); [left; reflexivity|congruence|congruence].
  - apply (IH ci); auto; [exists l1, l2|exists l1', l2']; (split; [assumption|]); intros x Hx; [apply A|apply A']; right; exact Hx.
Qed.
Lemma first_exists : forall all ci c, In c all -> on ci c -> exists c', In c' all /\ k_region c' = k_region c /\ on ci c' /\ first_at all ci c'.
Proof.
  induction all as [|o t IH]; intros ci c Hc Ho; [destruct Hc|].
  assert (D : (k_region o = k_region c /\ on ci o) \/ (k_region o = k_region c -> ~ on ci o)).
  { destruct (string_dec (k_region o) (k_region c)) as [Er|Er]; [|right; intros X; contradiction].
    destruct (in_dec Nat.eq_dec ci (k_nodes o)) as [Hi|Hi]; [left; split; assumption|right; intros _; exact Hi]. }
  destruct D as [(Er & Hi)|D].
  - exists o. split; [left; reflexivity|]. split; [exact Er|]. split; [exact Hi|]. exists [], t. split; [reflexivity|]. intros o' [].
  - destruct Hc as [->|Hc]; [exfalso; exact (D eq_refl Ho)|]. destruct (IH ci c Hc Ho) as (c' & A & B & C & l1 & l2 & E & F).
    exists c'. split; [right; exact A|]. split; [exact B|]. split; [exact C|]. exists (o :: l1), l2. split; [cbn; rewrite E; reflexivity|].
    intros o' [<-|H] Hr; [apply D; congruence|]. apply F; assumption.
Qed.
Lemma first_in : forall all ci c, first_at all ci c -> In c all.
Proof. intros all ci c (l1 & l2 & -> & _). apply in_or_app. right. left. reflexivity. Qed.
Lemma active_iff : forall eq c ci all, distinct all -> In c all -> In eq (k_eqs c) ->
  (In ci (active_nodes all c eq) <-> on ci c /\ first_at all ci c).
Proof.
  intros eq c ci all ND Hc He. unfold active_nodes. rewrite filter_In. split.
  - intros (A & B). split; [exact A|]. apply (use_node_first eq c ci all ND Hc He A). exact B.
  - intros (A & B). split; [exact A|]. apply (use_node_first eq c ci all ND Hc He A). exact B.
Qed.

(* ---- sums ---------------------------------------------------------------------------- *)
Lemma sum_over_rsum : forall {A} (f : A -> R) l z, sum_over rF f l z = (z + rsum f l)%R.
Proof.
  intros A f l. unfold sum_over. induction l as [|a t IH]; intros z; cbn [fold_left rsum]; [lra|]. rewrite IH. cbn [s_add rF]. lra.
Qed.
Lemma fold_rsum : forall {A B} (f : A -> B -> R) (l : A -> list B) (ns : list A) z,
  fold_left (fun ch n => sum_over rF (f n) (l n) ch) ns z = (z + rsum (fun n => rsum (f n) (l n)) ns)%R.
Proof.
  intros A B f l. induction ns as [|n t IH]; intros z; cbn [fold_left rsum]; [lra|]. rewrite IH, sum_over_rsum. lra.
Qed.
Lemma rsum_filter : forall {A} (f : A -> R) p l, rsum f (filter p l) = rsum (fun a => if p a then f a else 0%R) l.
Proof. intros A f p. induction l as [|a t IH]; cbn [filter rsum]; [reflexivity|]. destruct (p a); cbn [rsum]; rewrite IH; lra. Qed.
Lemma rsum_swap : forall {A B} (f : A -> B -> R) la lb, rsum (fun a => rsum (f a) lb) la = rsum (fun b => rsum (fun a => f a b) la) lb.
Proof.
  intros A B f. induction la as [|a t IH]; intros lb; cbn [rsum].
  - symmetry. apply rsum_zero. reflexivity.
  - rewrite IH, <- rsum_plus. reflexivity.
Qed.
Lemma rsum_ind_nodup : forall (l : list nat) x v, NoDup l -> rsum (fun n => if x =? n then v else 0%R) l = if existsb (Nat.eqb x) l then v else 0%R.
Proof.
  induction l as [|a t IH]; intros x v ND; cbn [rsum existsb]; [reflexivity|]. inversion ND as [|? ? Ha Ht]; subst.
  rewrite (IH x v Ht). destruct (Nat.eqb_spec x a) as [->|]; cbn [orb]; [|lra].
  destruct (existsb (Nat.eqb a) t) eqn:E; [apply existsb_nat in E; contradiction|]. lra.
Qed.
Lemma rsum_perm : forall {A} (f : A -> R) l l', Permutation l l' -> rsum f l = rsum f l'.
Proof. intros A f l l' H. induction H; cbn [rsum]; lra. Qed.

(* weight of element e at node n *)
Definition nw (s0 s1 : R) (n : nat) (e : elem) : R := ((if head_of e =? n then s0 else 0) + (if tail_of e =? n then s1 else 0))%R.
Definition loopless (els : list elem) : Prop := forall e, In e els -> head_of e <> tail_of e.
Lemma at_node_nw : forall els q s0 s1 n, at_node els (fun k => s0 * q k)%R (fun k => s1 * q k)%R n = rsum (fun e => (nw s0 s1 n e * q (pos_of e))%R) els.
Proof.
  intros els q s0 s1 n. unfold at_node. apply rsum_ext. intros [[[k a] b] o] _. unfold nw, head_of, tail_of, pos_of. cbn.
  destruct (a =? n), (b =? n); lra.
Qed.
Lemma incident_sum : forall els s0 s1 n (g : elem -> R), loopless els ->
  rsum (fun e => (sign_at s0 s1 n e * g e)%R) (incident els n) = rsum (fun e => (nw s0 s1 n e * g e)%R) els.
Proof.
  intros els s0 s1 n g H. unfold incident. rewrite rsum_filter. apply rsum_ext. intros e He. unfold nw, sign_at. specialize (H e He).
  destruct (Nat.eqb_spec (head_of e) n), (Nat.eqb_spec (tail_of e) n); cbn [orb]; try lra. congruence.
Qed.
Lemma free_sum : forall els s0 s1 act n (g : elem -> R), loopless els ->
  rsum (fun e => (sign_at s0 s1 n e * g e)%R) (filter (fun e => negb (both_on act e)) (incident els n)) =
  rsum (fun e => (nw s0 s1 n e * (if both_on act e then 0 else g e))%R) els.
Proof.
  intros els s0 s1 act n g H. rewrite rsum_filter. rewrite <- (incident_sum els s0 s1 n (fun e => if both_on act e then 0%R else g e) H).
  apply rsum_ext. intros e _. destruct (both_on act e); cbn [negb]; lra.
Qed.
(* edges with both ends on the contact do not matter for a flux *)
Lemma both_cancel : forall els act (g : elem -> R), NoDup act ->
  rsum (fun n => rsum (fun e => (nw 1 (-1) n e * (if both_on act e then 0 else g e))%R) els) act =
  rsum (fun n => rsum (fun e => (nw 1 (-1) n e * g e)%R) els) act.
Proof.
  intros els act g ND. rewrite (rsum_swap (fun n e => (nw 1 (-1) n e * (if both_on act e then 0 else g e))%R)), (rsum_swap (fun n e => (nw 1 (-1) n e * g e)%R)).
  apply rsum_ext. intros e _. destruct (both_on act e) eqn:E; [|reflexivity].
  unfold both_on in E. apply andb_true_iff in E. destruct E as (E1 & E2).
  rewrite (rsum_zero (fun n => (nw 1 (-1) n e * 0)%R)) by (intros; lra).
  rewrite (rsum_ext _ (fun n => ((if head_of e =? n then g e else 0) + (if tail_of e =? n then - g e else 0))%R)).
  - rewrite rsum_plus, !rsum_ind_nodup, E1, E2 by exact ND. lra.
  - intros n _. unfold nw. destruct (head_of e =? n), (tail_of e =? n); lra.
Qed.

(* ---- terminal currents ------------------------------------------------------------------ *)
Lemma integrate_positions_value : forall look els act model couple z, NoDup act -> loopless els ->
  integrate_positions rF look els act model couple (one rF) (minus_one rF) = Some z ->
  z = opt (given model) (rsum (fun n => at_node els (fun k => val look model k * val look couple k)%R (fun k => - (val look model k * val look couple k))%R n) act).
Proof.
  intros look els act model couple z ND HL H. unfold integrate_positions in H. unfold opt. destruct (given model); [|injection H as <-; reflexivity].
  destruct (look model) as [em|] eqn:E1; [|discriminate]. destruct (look couple) as [ec|] eqn:E2; [|discriminate]. injection H as <-.
  rewrite (fold_rsum (fun n e => s_mul rF (sign_at (one rF) (minus_one rF) n e) (s_mul rF (ec (pos_of e)) (em (pos_of e))))).
  cbn [s_zero rF]. rewrite Rplus_0_l. cbn [s_mul rF]. unfold one, minus_one. cbn [s_one s_opp rF].
  rewrite (rsum_ext _ (fun n => rsum (fun e => (nw 1 (-1) n e * (if both_on act e then 0 else ec (pos_of e) * em (pos_of e)))%R) els))
    by (intros n _; apply free_sum; exact HL).
  rewrite both_cancel by exact ND. apply rsum_ext. intros n _.
  rewrite (at_node_ext els _ _ (fun k => (1 * (val look model k * val look couple k))%R) (fun k => (-1 * (val look model k * val look couple k))%R) n) by (intros; lra).
  rewrite (at_node_nw els (fun k => (val look model k * val look couple k)%R) 1 (-1) n). apply rsum_ext. intros e _. unfold val. rewrite E1, E2. lra.
Qed.
Definition all_loopless (g : mesh) : Prop := loopless (edge_elems g) /\ loopless (elements g).
(* what leaves node n through its edges and elements, plus the node model *)
Definition outflow (r : region R) (node edge element : string) (n : nat) : R :=
  residual r (mkBody node edge ""%string element ""%string ""%string ""%string) n.
Lemma integrate_value : forall r act node edge element z, NoDup act -> all_loopless (rg_mesh r) ->
  integrate rF r act node edge element = Some z -> z = rsum (outflow r node edge element) act.
Proof.
  intros r act node edge element z ND (L1 & L2) H. unfold integrate, add3 in H.
  destruct (integrate_node rF r act node) as [x|] eqn:Ex; [|discriminate].
  destruct (integrate_positions rF (rg_edge r) _ act edge _ _ _) as [y|] eqn:Ey; [|discriminate].
  destruct (integrate_element rF r act element _ _ _) as [w|] eqn:Ew; [|discriminate]. injection H as <-.
  apply integrate_positions_value in Ey; [|exact ND|exact L1].
  assert (Hw : w = opt (given element) (rsum (fun n => at_node (elements (rg_mesh r)) (fun k => val (rg_element r) element k * val (rg_element r) (g_elcouple (rg_geom r)) k)%R (fun k => - (val (rg_element r) element k * val (rg_element r) (g_elcouple (rg_geom r)) k))%R n) act)).
  { unfold integrate_element, elements in *. destruct (m_dim (rg_mesh r)) as [|[|[|[|d]]]];
      try (injection Ew as <-; unfold opt; destruct (given element); [|reflexivity]; symmetry; apply rsum_zero; intros; reflexivity);
      apply integrate_positions_value in Ew; assumption. }
  assert (Hx : x = opt (given node) (rsum (fun n => (val (rg_node r) (g_nodevol (rg_geom r)) n * val (rg_node r) node n)%R) act)).
  { unfold integrate_node in Ex. unfold opt. destruct (given node); [|injection Ex as <-; reflexivity].
    unfold val. destruct (rg_node r node); [|discriminate]. destruct (rg_node r (g_nodevol (rg_geom r))); [|discriminate]. injection Ex as <-.
    rewrite sum_over_rsum. cbn [s_zero rF]. rewrite Rplus_0_l. reflexivity. }
  rewrite Hx, Ey, Hw. unfold outflow, residual. cbn [b_node b_edge b_edgevol b_element b_vol0 b_vol1].
  change (given ""%string) with false. cbn [orb opt]. cbn [s_add rF].
  assert (Dist : forall b (f : nat -> R) l, opt b (rsum f l) = rsum (fun n => opt b (f n)) l).
  { intros b f l. unfold opt. destruct b; [reflexivity|]. symmetry. apply rsum_zero. reflexivity. }
  rewrite !Dist, <- !rsum_plus. apply rsum_ext. intros n _. lra.
Qed.

(* the flux of all nodes adds up to zero *)
Definition node_bound (els : list elem) (N : nat) : Prop := forall e, In e els -> head_of e < N /\ tail_of e < N.
Lemma flux_zero : forall els q N, node_bound els N -> rsum (at_node els q (fun k => - q k)%R) (seq 0 N) = 0%R.
Proof.
  intros els q N HB. unfold at_node. rewrite (rsum_swap (fun n e => let '(k, a, b, _) := e in ((if a =? n then q k else 0) + (if b =? n then - q k else 0))%R)).
  apply rsum_zero. intros [[[k a] b] o] He. specialize (HB _ He). unfold head_of, tail_of in HB. cbn in HB.
  rewrite rsum_plus, !rsum_ind_nodup by apply seq_NoDup.
  rewrite (proj2 (existsb_nat a (seq 0 N))), (proj2 (existsb_nat b (seq 0 N))) by (apply in_seq; lia). lra.
Qed.
Definition away (act : list nat) (N : nat) : list nat := filter (fun n => negb (existsb (Nat.eqb n) act)) (seq 0 N).
Lemma split_sum : forall (f : nat -> R) act N, NoDup act -> (forall n, In n act -> n < N) ->
  rsum f (seq 0 N) = (rsum f act + rsum f (away act N))%R.
Proof.
  intros f act N ND Hb.
  assert (P : Permutation act (filter (fun n => existsb (Nat.eqb n) act) (seq 0 N))).
  { apply NoDup_Permutation; [exact ND|apply NoDup_filter, seq_NoDup|]. intros n. rewrite filter_In, existsb_nat, in_seq. split.
    - intros H. specialize (Hb n H). split; [lia|exact H].
    - tauto. }
  rewrite (rsum_perm _ _ _ P). unfold away. rewrite !rsum_filter, <- rsum_plus. apply rsum_ext. intros n _.
  destruct (existsb (Nat.eqb n) act); cbn [negb]; lra.
Qed.
(* flux and source parts of a bulk equation *)
Definition fluxes (r : region R) (b : body) (n : nat) : R := outflow r ""%string (b_edge b) (b_element b) n.
Definition sources (r : region R) (b : body) (n : nat) : R :=
  residual r (mkBody (b_node b) ""%string (b_edgevol b) ""%string (b_vol0 b) (b_vol1 b) ""%string) n.
Lemma residual_split : forall r b n, residual r b n = (fluxes r b n + sources r b n)%R.
Proof.
  intros r b n. unfold fluxes, sources, outflow, residual. cbn [b_node b_edge b_edgevol b_element b_vol0 b_vol1].
  change (given ""%string) with false. cbn [orb opt]. lra.
Qed.
Definition bounded (g : mesh) : Prop := node_bound (edge_elems g) (m_nodes g) /\ node_bound (elements g) (m_nodes g).
Lemma fluxes_zero : forall r b, bounded (rg_mesh r) -> rsum (fluxes r b) (seq 0 (m_nodes (rg_mesh r))) = 0%R.
Proof.
  intros r b (B1 & B2). unfold fluxes, outflow, residual. cbn [b_node b_edge b_edgevol b_element b_vol0 b_vol1].
  change (given ""%string) with false. cbn [orb opt].
  rewrite (rsum_ext _ (fun n => (opt (given (b_edge b)) (at_node (edge_elems (rg_mesh r)) (fun k => val (rg_edge r) (b_edge b) k * val (rg_edge r) (g_edgecouple (rg_geom r)) k)%R (fun k => - (val (rg_edge r) (b_edge b) k * val (rg_edge r) (g_edgecouple (rg_geom r)) k))%R n)
     + opt (given (b_element b)) (at_node (elements (rg_mesh r)) (fun k => val (rg_element r) (b_element b) k * val (rg_element r) (g_elcouple (rg_geom r)) k)%R (fun k => - (val (rg_element r) (b_element b) k * val (rg_element r) (g_elcouple (rg_geom r)) k))%R n))%R)) by (intros; lra).
  rewrite rsum_plus. unfold opt. destruct (given (b_edge b)), (given (b_element b));
    rewrite ?(flux_zero (edge_elems (rg_mesh r))), ?(flux_zero (elements (rg_mesh r))) by assumption; rewrite ?(rsum_zero (fun _ => 0%R)) by reflexivity; lra.
Qed.
Lemma kirchhoff : forall r eq b i0 m v act, row_index r eq = Some i0 -> bounded (rg_mesh r) ->
  (given (b_edgevol b) = true -> given (b_edge b) = true) ->
  equation_assemble rF r eq b DC = Some (m, v) -> NoDup act -> (forall n, In n act -> n < m_nodes (rg_mesh r)) ->
  rsum (fluxes r b) act = (rsum (sources r b) (away act (m_nodes (rg_mesh r))) - rsum (fun n => row_sum v (eqnum r i0 n)) (away act (m_nodes (rg_mesh r))))%R.
Proof.
  intros r eq b i0 m v act Hi HB Hev H ND Hb. pose proof (fluxes_zero r b HB) as Z. rewrite (split_sum _ act) in Z by assumption.
  rewrite (rsum_ext (fun n => row_sum v (eqnum r i0 n)) (fun n => (fluxes r b n + sources r b n)%R)).
  - rewrite rsum_plus. lra.
  - intros n Hn. unfold away in Hn. apply filter_In in Hn. destruct Hn as (Hn & _). apply in_seq in Hn. rewrite <- residual_split. eapply residual_lemma; eauto. lia.
Qed.
(* the active nodes of several contacts are disjoint *)
Lemma nodup_concat : forall {A} (ls : list (list A)), (forall l, In l ls -> NoDup l) ->
  (forall l1 a l2 b l3 x, ls = l1 ++ a :: l2 ++ b :: l3 -> In x a -> In x b -> False) -> NoDup (concat ls).
Proof.
  induction ls as [|a t IH]; intros H D; cbn [concat]; [constructor|].
  assert (Ha : NoDup a) by (apply H; left; reflexivity).
  assert (Ht : NoDup (concat t)).
  { apply IH; [intros l Hl; apply H; right; exact Hl|]. intros l1 c l2 b l3 x E. apply (D (a :: l1) c l2 b l3 x). rewrite E. reflexivity. }
  assert (Dj : forall x, In x a -> ~ In x (concat t)).
  { intros x Hx Hc. apply in_concat in Hc. destruct Hc as (b & Hb & Hxb). apply in_split in Hb. destruct Hb as (l2 & l3 & ->).
    apply (D [] a l2 b l3 x); auto. }
  clear - Ha Ht Dj. induction a as [|x a IH]; cbn; [exact Ht|]. inversion Ha; subst. constructor.
  - intros Hc. apply in_app_or in Hc. destruct Hc as [Hc|Hc]; [contradiction|]. apply (Dj x); [left; reflexivity|exact Hc].
  - apply IH; [assumption|]. intros y Hy. apply Dj. right. exact Hy.
Qed.
Lemma rsum_concat : forall {A} (f : A -> R) ls, rsum f (concat ls) = rsum (rsum f) ls.
Proof. intros A f. induction ls as [|a t IH]; cbn [concat rsum]; [reflexivity|]. rewrite rsum_app, IH. reflexivity. Qed.
Lemma nodup_map_inj : forall {A B} (g : A -> B) l, (forall x y, In x l -> In y l -> g x = g y -> x = y) -> NoDup l -> NoDup (map g l).
Proof.
  intros A B g. induction l as [|a t IH]; intros Hg ND; cbn; [constructor|]. inversion ND; subst. constructor.
  - intros Hi. apply in_map_iff in Hi. destruct Hi as (x & E & Hx). assert (x = a) by (apply Hg; [right; exact Hx|left; reflexivity|exact E]). subst. contradiction.
  - apply IH; [|assumption]. intros x y Hx Hy. apply Hg; right; assumption.
Qed.
