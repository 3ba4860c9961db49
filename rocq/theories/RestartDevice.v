(* Proofs about the mesh of a device that is restored. *)
From Coq Require Import String List Bool Arith Lia Permutation Sorting.Sorted.
Import ListNotations.
Require Import Verif.StrMap Verif.Adjacency Verif.Loader Verif.LoaderSpec Verif.AdjacencySpec
  Verif.LoaderProofs Verif.AdjacencyProofs Verif.LoaderImport Verif.LoaderDevsimProperties Verif.LoaderDeviceProperties
  Verif.RestartDeviceSpec.
Local Arguments Nat.ltb : simpl never.
Local Arguments Nat.leb : simpl never.
Local Arguments Nat.eqb : simpl never.

(* ---- the order ---- *)
Lemma lex_before : forall a b, lex a b = true <-> before a b.
Proof.
  induction a as [|x a IH]; intros [|y b]; cbn [lex]; split; try discriminate.
  - intros (p & ? & ? & ? & ? & E & _). destruct p; discriminate.
  - intros (p & ? & ? & ? & ? & E & _). destruct p; discriminate.
  - intros (p & ? & ? & ? & ? & _ & E & _). destruct p; discriminate.
  - destruct (Nat.ltb_spec x y) as [L|L]; [intros _; exists [], x, y, a, b; auto|].
    destruct (Nat.eqb_spec x y) as [->|]; [|discriminate]. intros H. apply IH in H. destruct H as (p & u & v & c & d & -> & -> & Q).
    exists (y :: p), u, v, c, d. auto.
  - intros (p & u & v & c & d & E1 & E2 & Q). destruct p as [|z p]; cbn in E1, E2.
    + injection E1 as -> ->. injection E2 as -> ->. destruct (Nat.ltb_spec u v); [reflexivity|lia].
    + injection E1 as -> ->. injection E2 as -> ->. destruct (Nat.ltb_spec z z); [reflexivity|]. rewrite Nat.eqb_refl. apply IH.
      exists p, u, v, c, d. auto.
Qed.
Lemma strict_unique : forall X (R : X -> X -> Prop), (forall a, ~ R a a) -> (forall a b, R a b -> ~ R b a) ->
  forall l l', StronglySorted R l -> StronglySorted R l' -> (forall x, In x l <-> In x l') -> l = l'.
Proof.
  intros X R Irr Asym. induction l as [|x l IH]; intros [|y l'] H H' M; [reflexivity| | |].
  - destruct (proj2 (M y)). left. reflexivity.
  - destruct (proj1 (M x)). left. reflexivity.
  - inversion H as [|? ? S1 F1]; inversion H' as [|? ? S2 F2]; subst. rewrite Forall_forall in F1, F2.
    assert (x = y).
    { destruct (proj1 (M x) (or_introl eq_refl)) as [->|I]; [reflexivity|]. destruct (proj2 (M y) (or_introl eq_refl)) as [->|J]; [reflexivity|].
      exfalso. apply (Asym x y); auto. }
    subst y. f_equal. apply IH; [assumption|assumption|]. intros z. split; intros I.
    + destruct (proj1 (M z) (or_intror I)) as [->|J]; [|exact J]. exfalso. apply (Irr z), F1, I.
    + destruct (proj2 (M z) (or_intror I)) as [->|J]; [|exact J]. exfalso. apply (Irr z), F2, I.
Qed.
Lemma sort_unique_in_order : forall k l, Forall (fun s => length s = k) l -> in_order (sort_unique l).
Proof.
  intros k l F. pose proof (ssort_sorted k l F) as Q. apply unique_sorted in Q. change (unique (ssort l)) with (sort_unique l) in Q.
  pose proof (sort_unique_NoDup k l F) as N. assert (L : Forall (fun s => length s = k) (sort_unique l)).
  { apply Forall_forall. intros s I. apply (proj1 (sort_unique_In _ _)) in I. rewrite Forall_forall in F. auto. }
  unfold in_order. induction (sort_unique l) as [|x t IH]; [constructor|]. inversion Q; inversion N; inversion L; subst.
  constructor; [auto|]. apply Forall_forall. intros y I. apply lex_before. destruct (lex x y) eqn:E; [reflexivity|].
  assert (x = y); [|subst; contradiction]. apply lex_total.
  - match goal with K : Forall (fun s => length s = length x) t |- _ => rewrite Forall_forall in K; symmetry; apply K, I end.
  - exact E.
  - match goal with K : Forall (lexle x) t |- _ => rewrite Forall_forall in K; apply K, I end.
Qed.
Lemma in_order_unique : forall l l', in_order l -> in_order l' -> (forall x, In x l <-> In x l') -> l = l'.
Proof.
  apply strict_unique.
  - intros a H. apply lex_before in H. rewrite lex_irrefl in H. discriminate.
  - intros a b H H'. apply lex_before in H, H'. rewrite (lex_asym _ _ H) in H'. discriminate.
Qed.
Lemma canon : forall k l l', Forall (fun s => length s = k) l' -> in_order l -> (forall x, In x l' <-> In x l) -> sort_unique l' = l.
Proof.
  intros k l l' F H M. apply in_order_unique; [apply (sort_unique_in_order k), F|exact H|]. intros x. rewrite sort_unique_In. apply M.
Qed.
Lemma canon_self : forall k l, Forall (fun s => length s = k) l -> in_order l -> sort_unique l = l.
Proof. intros k l F H. apply (canon k); tauto. Qed.
Lemma increasing_unique : forall l l', increasing l -> increasing l' -> (forall x, In x l <-> In x l') -> l = l'.
Proof. apply strict_unique; intros; lia. Qed.

(* ---- a region ---- *)
Definition if_dim_ {X} (dim d : nat) (l : list X) : list X := if Nat.eqb dim d then l else [].
Lemma part_lengths : forall k els l, (forall e, In e l <-> part_of k els e) -> Forall (wf k) l.
Proof. intros k els l H. apply Forall_forall. intros e I. apply H in I. destruct I as (L & A & _). split; assumption. Qed.
Section Region.
Variables (nc dim : nat) (x : region).
Hypothesis D : 1 <= dim <= 3.
Hypothesis H : whole_region nc dim x.
Definition top_only : mregion :=
  {| mr_nodes := r_nodes x; mr_edges := if_dim_ dim 1 (r_edges x); mr_tris := if_dim_ dim 2 (r_tris x); mr_tets := if_dim_ dim 3 (r_tets x) |}.
Definition all_given : mregion := {| mr_nodes := r_nodes x; mr_edges := r_edges x; mr_tris := r_tris x; mr_tets := r_tets x |}.
Lemma edges_wf : Forall (wf 2) (r_edges x). Proof. destruct H as (_ & _ & _ & _ & _ & _ & _ & _ & E & _). apply (part_lengths 2 _ _ E). Qed.
Lemma tris_wf : Forall (wf 3) (r_tris x). Proof. destruct H as (_ & _ & _ & _ & _ & _ & _ & _ & _ & E & _). apply (part_lengths 3 _ _ E). Qed.
Lemma tets_wf : Forall (wf 4) (r_tets x). Proof. destruct H as (_ & _ & _ & _ & _ & _ & _ & _ & _ & _ & E & _). apply (part_lengths 4 _ _ E). Qed.
Lemma top_small : forall k, dim < k -> forall e, ~ part_of (S k) (top dim x) e.
Proof.
  intros k K e. apply too_small. destruct H as (_ & _ & _ & _ & F & _). eapply Forall_impl; [|exact F]. cbn. intros s (L & _). lia.
Qed.
Lemma empty_list : forall (l : list simplex) (P : simplex -> Prop), (forall e, In e l <-> P e) -> (forall e, ~ P e) -> l = [].
Proof. intros [|e l] P I N; [reflexivity|]. exfalso. apply (N e), I. left. reflexivity. Qed.
Lemma has_part : forall k, k <= dim -> exists e, part_of (S k) (top dim x) e.
Proof.
  intros k K. destruct H as (_ & _ & _ & N & F & _). destruct (top dim x) as [|s l]; [congruence|]. inversion F as [|? ? (L & As & _) _]; subst.
  exists (firstn (S k) s). split; [rewrite firstn_length; lia|]. split.
  - clear - As. unfold ascending in *. revert s As. induction (S k) as [|m IH]; intros s As; [constructor|]. destruct s as [|a s]; [constructor|]. cbn. inversion As; subst.
    constructor; [auto|]. apply Forall_forall. intros y I. rewrite Forall_forall in H2. apply H2. clear - I. revert s I. induction m as [|m IH]; intros s I; [destruct I|]. destruct s; [destruct I|]. destruct I as [->|I]; [left; reflexivity|right; auto].
  - exists s. split; [left; reflexivity|]. exists (skipn (S k) s). rewrite firstn_skipn. apply Permutation_refl.
Qed.
Lemma nonempty_In : forall X (l : list X) e, In e l -> nonempty l = true. Proof. intros X [|] e []; reflexivity. Qed.
Lemma nonempty_neq : forall X (l : list X), l <> [] -> nonempty l = true. Proof. intros X [|]; [congruence|reflexivity]. Qed.
Lemma decomposed : decompose_region top_only = all_given.
Proof.
  pose proof edges_wf as W2. pose proof tris_wf as W3. pose proof tets_wf as W4. pose proof has_part as HP. pose proof top_small as TS.
  destruct H as (N & _ & _ & NT & F & O2 & O3 & O4 & I2 & I3 & I4 & _).
  assert (NN : nonempty (r_nodes x) = true) by (destruct (r_nodes x); [congruence|reflexivity]).
  assert (E2 : nonempty (r_edges x) = true) by (destruct (HP 1 ltac:(lia)) as [e P]; apply (nonempty_In _ _ e), I2, P).
  assert (G : forall l, (forall e, In e l <-> part_of 3 (top dim x) e) -> 2 <= dim -> sort_unique (flat_map edges_of l) = r_edges x).
  { intros l Hl D2. pose proof (part_lengths 3 _ _ Hl) as Wl. apply (canon 2).
    - apply Forall_forall. intros e I. apply edges_In in I; [|exact Wl]. apply I.
    - exact O2.
    - intros e. rewrite (edges_In l e Wl), I2.
      assert (B : Forall (fun s => 3 <= length s) (top dim x)) by (eapply Forall_impl; [|exact F]; cbn; intros s (L & _); lia).
      rewrite (part_down 2 _ e B). unfold part_of at 1. split.
      + intros (L & As & s & I & J). split; [exact L|]. split; [exact As|]. exists s. split; [apply Hl, I|exact J].
      + intros (L & As & s & I & J). split; [exact L|]. split; [exact As|]. exists s. split; [apply Hl, I|exact J]. }
  unfold decompose_region, top_only, all_given, if_dim_. cbn [mr_nodes mr_edges mr_tris mr_tets].
  assert (D' : dim = 1 \/ dim = 2 \/ dim = 3) by lia. destruct D' as [E|[E|E]]; rewrite E in *; cbn [top] in *.
  - assert (T3 : r_tris x = []) by (apply (empty_list _ _ I3), (TS 2); lia). assert (T4 : r_tets x = []) by (apply (empty_list _ _ I4), (TS 3); lia).
    rewrite T3, T4. change (Nat.eqb 1 1) with true. change (Nat.eqb 1 2) with false. change (Nat.eqb 1 3) with false. cbn [nonempty andb negb].
    rewrite NN, andb_false_r. reflexivity.
  - assert (T4 : r_tets x = []) by (apply (empty_list _ _ I4), (TS 3); lia). rewrite T4.
    change (Nat.eqb 2 1) with false. change (Nat.eqb 2 2) with true. change (Nat.eqb 2 3) with false. cbn [nonempty andb negb].
    rewrite (nonempty_neq _ (r_tris x) NT). cbn [andb].
    rewrite (G (r_tris x) I3 ltac:(lia)), E2, NN. reflexivity.
  - change (Nat.eqb 3 1) with false. change (Nat.eqb 3 2) with false. change (Nat.eqb 3 3) with true. cbn [nonempty negb].
    rewrite (nonempty_neq _ (r_tets x) NT). cbn [andb].
    assert (T : sort_unique (flat_map faces_of (r_tets x)) = r_tris x).
    { apply (canon 3); [|exact O3|].
      - apply Forall_forall. intros e I. apply faces_In in I; [|exact W4]. apply I.
      - intros e. rewrite (faces_In _ e W4). symmetry. apply I3. }
    rewrite T. assert (E3 : nonempty (r_tris x) = true) by (destruct (HP 2 ltac:(lia)) as [e P]; apply (nonempty_In _ _ e), I3, P). rewrite E3. cbn [andb].
    rewrite (G (r_tris x) I3 ltac:(lia)), E2, NN. reflexivity.
Qed.
Lemma part_numbered : forall k l, (forall e, In e l <-> part_of k (top dim x) e) -> numbered (length (r_nodes x)) l.
Proof.
  intros k l Hl s i I J. apply Hl in I. destruct I as (_ & _ & t & T & Fc). destruct H as (_ & _ & _ & _ & F & _). rewrite Forall_forall in F.
  destruct (F t T) as (_ & _ & _ & B). rewrite Forall_forall in B. apply B, (face_In s t i Fc J).
Qed.
Lemma dimension_given : mregion_dimension all_given = dim.
Proof.
  pose proof has_part as HP. pose proof top_small as TS. destruct H as (N & _ & _ & NT & F & O2 & O3 & O4 & I2 & I3 & I4 & _). unfold mregion_dimension, all_given. cbn [mr_tets mr_tris].
  assert (D' : dim = 1 \/ dim = 2 \/ dim = 3) by lia. destruct D' as [E|[E|E]]; rewrite E in *; cbn [top] in *.
  - rewrite (empty_list _ _ I3), (empty_list _ _ I4); [reflexivity|apply (TS 3); lia|apply (TS 2); lia].
  - rewrite (empty_list _ _ I4); [|apply (TS 3); lia]. destruct (r_tris x); [congruence|reflexivity].
  - destruct (r_tets x); [congruence|reflexivity].
Qed.
Lemma dimension_top : first_dimension [(EmptyString, top_only)] = dim.
Proof.
  destruct H as (N & _ & _ & NT & _). unfold first_dimension, top_only, if_dim_. cbn [mr_tets mr_tris mr_edges].
  assert (D' : dim = 1 \/ dim = 2 \/ dim = 3) by lia. destruct D' as [E|[E|E]]; rewrite E in *; cbn [top] in *.
  - change (Nat.eqb 1 1) with true. change (Nat.eqb 1 2) with false. change (Nat.eqb 1 3) with false. cbn [nonempty]. destruct (r_edges x); [congruence|reflexivity].
  - change (Nat.eqb 2 2) with true. change (Nat.eqb 2 3) with false. cbn [nonempty]. destruct (r_tris x); [congruence|reflexivity].
  - change (Nat.eqb 3 3) with true. destruct (r_tets x); [congruence|reflexivity].
Qed.
Lemma accepted : region_ok nc dim all_given = true.
Proof.
  unfold region_ok. rewrite dimension_given, Nat.eqb_refl. pose proof part_numbered as PN. pose proof has_part as HP. destruct H as (N & LN & B & NT & F & O2 & O3 & O4 & I2 & I3 & I4 & _).
  cbn [all_given mr_nodes mr_edges mr_tris]. rewrite (proj2 (nodes_ok nc (r_nodes x)) B), (proj2 (below_ok _ (r_edges x)) (PN 2 _ I2)), (proj2 (below_ok _ (r_tris x)) (PN 3 _ I3)), (proj2 (Nat.leb_le _ _) LN).
  destruct (HP 1 ltac:(lia)) as [e P]. assert (E2 : nonempty (r_edges x) = true) by (apply (nonempty_In _ _ e), I2, P). rewrite E2. destruct (r_nodes x); [congruence|reflexivity].
Qed.
Lemma region_made : devsim_region nc all_given = Finished x.
Proof.
  unfold devsim_region. rewrite dimension_given. cbn [all_given mr_nodes mr_edges mr_tris mr_tets]. pose proof part_numbered as PN. pose proof top_small as TS.
  rewrite (canon_self 2 (r_edges x)); [|apply wf_len, edges_wf|apply H]. rewrite (canon_self 3 (r_tris x)); [|apply wf_len, tris_wf|apply H].
  assert (T : (if Nat.eqb dim 3 then sort_unique (r_tets x) else []) = r_tets x).
  { destruct (Nat.eqb_spec dim 3); [apply (canon_self 4); [apply wf_len, tets_wf|apply H]|]. symmetry.
    destruct H as (_ & _ & _ & _ & _ & _ & _ & _ & _ & _ & I4 & _). apply (empty_list _ _ I4), (TS 3). lia. }
  rewrite T. destruct H as (N & LN & B & NT & F & O2 & O3 & O4 & I2 & I3 & I4 & FR).
  rewrite (proj2 (nodes_ok nc (r_nodes x)) B), (proj2 (below_ok _ (r_edges x)) (PN 2 _ I2)), (proj2 (below_ok _ (r_tris x)) (PN 3 _ I3)), (proj2 (below_ok _ (r_tets x)) (PN 4 _ I4)). cbn [andb].
  rewrite FR. destruct x; reflexivity.
Qed.
(* a face of a listed element is found where it is *)
Lemma top_nodup : Forall (@NoDup nat) (top dim x).
Proof. destruct H as (_ & _ & _ & _ & F & _). eapply Forall_impl; [|exact F]. cbn. tauto. Qed.
Lemma in_order_NoDup : forall l, in_order l -> NoDup l.
Proof.
  unfold in_order. induction l as [|a l IH]; intros O; [constructor|]. inversion O; subst. constructor; [|auto]. intros I.
  match goal with K : Forall (before a) l |- _ => rewrite Forall_forall in K; specialize (K a I); apply lex_before in K; rewrite lex_irrefl in K; discriminate end.
Qed.
Lemma found_at : forall k l, 0 < k -> in_order l -> (forall e, In e l <-> part_of k (top dim x) e) ->
  forall s e, nth_error l e = Some s -> part_elements [s] x l = [e].
Proof.
  intros k l K O Hl s e E. unfold part_elements. cbn [flat_map]. rewrite app_nil_r. pose proof (nth_error_In _ _ E) as I. pose proof (part_numbered k l Hl) as PN.
  assert (B : forallb (fun i => Nat.ltb i (length (r_nodes x))) s = true) by (apply nodes_ok, Forall_forall; intros i J; apply (PN s i I J)).
  rewrite B. apply Hl in I. destruct I as (L & As & t & T & Fc).
  assert (ND : NoDup s). { destruct Fc as [r P]. pose proof top_nodup as TN. rewrite Forall_forall in TN. specialize (TN t T). apply (Permutation_NoDup (Permutation_sym P)) in TN. clear - TN. induction s as [|a s IH]; [constructor|]. cbn in TN. inversion TN; subst. constructor; [intros Q; apply H1, in_app_iff; left; exact Q|auto]. }
  assert (LL : lists l (part_of k (top dim x))) by (split; [apply in_order_NoDup, O|exact Hl]).
  rewrite (proj2 (hd_around k (top dim x) l top_nodup K LL s e L ND As) E). reflexivity.
Qed.
Lemma found_all : forall k l, 0 < k -> in_order l -> (forall e, In e l <-> part_of k (top dim x) e) ->
  forall ss es, map Some ss = map (nth_error l) es -> part_elements ss x l = es.
Proof.
  intros k l K O Hl. induction ss as [|s ss IH]; intros [|e es] E; cbn [map] in E; try discriminate; [reflexivity|]. injection E as E1 E2.
  change (s :: ss) with ([s] ++ ss). unfold part_elements. rewrite flat_map_app. change (part_elements [s] x l ++ part_elements ss x l = e :: es).
  rewrite (found_at k l K O Hl s e (eq_sym E1)), (IH es E2). reflexivity.
Qed.
End Region.
