(* Proofs about contacts and interfaces of a device that is restored. *)
From Coq Require Import String List Bool Arith Lia Permutation Sorting.Sorted.
Import ListNotations.
Require Import Verif.StrMap Verif.Adjacency Verif.Loader Verif.LoaderSpec Verif.AdjacencySpec
  Verif.LoaderProofs Verif.AdjacencyProofs Verif.LoaderImport Verif.LoaderDevsimProperties Verif.LoaderDeviceProperties
  Verif.RestartDeviceSpec Verif.RestartDevice.
Local Arguments Nat.ltb : simpl never.
Local Arguments Nat.leb : simpl never.
Local Arguments Nat.eqb : simpl never.

(* ---- the nodes of a part ---- *)
Lemma nodes_lengths : forall l, Forall (fun s => length s = 1) (flat_map nodes_of l).
Proof. intros l. apply Forall_forall. intros s I. apply in_flat_map in I. destruct I as (e & _ & [<-|[<-|[]]]); reflexivity. Qed.
Lemma edge_nodes : forall (l : list simplex), Forall (wf 2) l ->
  increasing (coords_of (sort_unique (flat_map nodes_of l))) /\
  forall i, In i (coords_of (sort_unique (flat_map nodes_of l))) <-> exists s, In s l /\ In i s.
Proof.
  intros l W. split; [apply sort_unique_ascending, nodes_lengths|]. intros i. unfold coords_of. rewrite in_map_iff. rewrite Forall_forall in W. split.
  - intros (f & <- & I). apply (proj1 (sort_unique_In _ _)) in I. apply in_flat_map in I. destruct I as (e & Ie & Q). exists e. split; [exact Ie|].
    destruct (W e Ie) as [L _]. apply (nodes_of_spec e f L) in Q. destruct Q as (Lf & _ & Fc). destruct f as [|a [|]]; cbn in Lf; try discriminate.
    apply (face_In [a] e a Fc). left. reflexivity.
  - intros (s & Is & Ii). exists [i]. split; [reflexivity|]. apply sort_unique_In. apply in_flat_map. exists s. split; [exact Is|].
    destruct (W s Is) as [L As]. destruct s as [|a [|b [|]]]; cbn in L; try discriminate. destruct Ii as [->|[->|[]]]; cbn; auto.
Qed.
Definition part_given (es ts : list simplex) : mregion := {| mr_nodes := []; mr_edges := es; mr_tris := ts; mr_tets := [] |}.
Lemma part_edges : forall es, decompose_region (part_given es []) =
  {| mr_nodes := coords_of (sort_unique (flat_map nodes_of es)); mr_edges := es; mr_tris := []; mr_tets := [] |}.
Proof. intros [|e es]; reflexivity. Qed.
Lemma part_tris : forall ts, decompose_region (part_given [] ts) =
  {| mr_nodes := coords_of (sort_unique (flat_map nodes_of (sort_unique (flat_map edges_of ts)))); mr_edges := sort_unique (flat_map edges_of ts); mr_tris := ts; mr_tets := [] |}.
Proof.
  intros [|t ts]; [reflexivity|]. unfold decompose_region, part_given. cbn [mr_nodes mr_edges mr_tris mr_tets nonempty andb negb].
  rewrite andb_true_r. f_equal. destruct (sort_unique _) as [|e es] eqn:E; reflexivity.
Qed.
Lemma tri_edges_In : forall ts f, Forall (wf 3) ts -> (In f (sort_unique (flat_map edges_of ts)) <-> part_of 2 ts f).
Proof. intros ts f W. rewrite sort_unique_In. apply edges_In, W. Qed.
Lemma tri_edges_wf : forall ts, Forall (wf 3) ts -> Forall (wf 2) (sort_unique (flat_map edges_of ts)).
Proof. intros ts W. apply (part_lengths 2 ts). intros e. apply tri_edges_In, W. Qed.
Lemma tri_nodes : forall ts, Forall (wf 3) ts -> forall i, (exists s, In s (sort_unique (flat_map edges_of ts)) /\ In i s) <-> exists s, In s ts /\ In i s.
Proof.
  intros ts W i. split.
  - intros (s & I & J). apply (tri_edges_In ts s W) in I. destruct I as (_ & _ & t & T & Fc). exists t. split; [exact T|]. apply (face_In s t i Fc J).
  - intros (t & T & J). rewrite Forall_forall in W. destruct (W t T) as [L As].
    assert (Q : exists f, length f = 2 /\ ascending f /\ face f t /\ In i f).
    { destruct t as [|a [|b [|c [|]]]]; cbn in L; try discriminate. apply asc3 in As. destruct As.
      assert (AB : ascending [a; b]) by (repeat constructor; assumption). assert (BC : ascending [b; c]) by (repeat constructor; assumption).
      destruct J as [->|[->|[->|[]]]].
      - exists [i; b]. split; [reflexivity|]. split; [exact AB|]. split; [|left; reflexivity]. exists [c]. apply Permutation_refl.
      - exists [i; c]. split; [reflexivity|]. split; [exact BC|]. split; [|left; reflexivity]. exists [a]. cbn. apply Permutation_sym, (Permutation_cons_append [i; c] a).
      - exists [b; i]. split; [reflexivity|]. split; [exact BC|]. split; [|right; left; reflexivity]. exists [a]. cbn. apply Permutation_sym, (Permutation_cons_append [b; i] a). }
    destruct Q as (f & Lf & Af & Fc & If). exists f. split; [|exact If]. apply tri_edges_In; [apply Forall_forall, W|]. split; [exact Lf|]. split; [exact Af|]. exists t. auto.
Qed.
(* ---- positions ---- *)
Lemma shown_In : forall X (l : list X) ss es, map Some ss = map (nth_error l) es -> forall s, In s ss <-> exists e, In e es /\ nth_error l e = Some s.
Proof.
  intros X l ss es E s. assert (Q : In (Some s) (map Some ss) <-> In (Some s) (map (nth_error l) es)) by (rewrite E; tauto).
  rewrite !in_map_iff in Q. split.
  - intros I. destruct (proj1 Q (ex_intro _ s (conj eq_refl I))) as (e & A & B). eauto.
  - intros (e & A & B). destruct (proj2 Q (ex_intro _ e (conj B A))) as (s' & [= ->] & I). exact I.
Qed.
Lemma position_order : forall l i j a b, in_order l -> i < j -> nth_error l i = Some a -> nth_error l j = Some b -> before a b.
Proof.
  unfold in_order. induction l as [|x l IH]; intros [|i] [|j] a b O L Ea Eb; try lia; try discriminate; cbn in Ea, Eb; inversion O; subst.
  - injection Ea as ->. match goal with K : Forall _ l |- _ => rewrite Forall_forall in K; apply K, (nth_error_In _ _ Eb) end.
  - apply (IH i j); auto. lia.
Qed.
Lemma positions_in_order : forall l es ss, in_order l -> increasing es -> map Some ss = map (nth_error l) es -> in_order ss.
Proof.
  intros l es. induction es as [|e es IH]; intros [|s ss] O In_ E; cbn in E; try discriminate; [constructor|]. injection E as E1 E2. inversion In_; subst.
  constructor; [apply (IH ss O); assumption|]. apply Forall_forall. intros b Ib. apply (proj1 (shown_In _ _ _ _ E2 b)) in Ib. destruct Ib as (k & Ik & Ek).
  apply (position_order l e k); [exact O| |symmetry; exact E1|exact Ek]. match goal with K : Forall (lt e) es |- _ => rewrite Forall_forall in K; apply K, Ik end.
Qed.
Lemma positions_exist : forall X (l : list X) es, Forall (fun e => e < length l) es -> exists ss, map Some ss = map (nth_error l) es.
Proof.
  intros X l es. induction 1 as [|e es L _ [ss E]]; [exists []; reflexivity|]. destruct (nth_error l e) as [s|] eqn:Q; [|apply nth_error_None in Q; lia].
  exists (s :: ss). cbn. rewrite Q, E. reflexivity.
Qed.

(* ---- contacts ---- *)
Section Contact.
Variables (nc dim : nat) (rs : smap region).
Hypothesis D : 1 <= dim <= 3.
Hypothesis WR : forall n r, find n rs = Some r -> whole_region nc dim r.
Lemma contact_made : forall (sn : list nat) (se st : list simplex) c r, find (c_region c) rs = Some r -> whole_contact dim rs c ->
  sn = c_nodes c -> map Some se = map (nth_error (r_edges r)) (c_edges c) -> map Some st = map (nth_error (r_tris r)) (c_tris c) ->
  devsim_contact rs {| mc_region := c_region c; mc_part := {| mr_nodes := if_dim_ dim 1 sn; mr_edges := if_dim_ dim 2 se; mr_tris := if_dim_ dim 3 st; mr_tets := [] |} |} = Some c.
Proof.
  intros sn se st c r Er (r' & Er' & W) En Ee Et. assert (r' = r) by congruence. subst r'. pose proof (WR _ _ Er) as H.
  pose proof (edges_wf nc dim r H) as W2. pose proof (tris_wf nc dim r H) as W3.
  pose proof (part_numbered nc dim r H) as PN. pose proof (found_all nc dim r D H) as FA.
  destruct H as (_ & _ & _ & _ & _ & O2 & O3 & _ & I2 & I3 & _).
  assert (S2 : Forall (wf 2) se). { apply Forall_forall. intros s I. apply (proj1 (shown_In _ _ _ _ Ee s)) in I. destruct I as (e & _ & E). rewrite Forall_forall in W2. apply W2, (nth_error_In _ _ E). }
  assert (S3 : Forall (wf 3) st). { apply Forall_forall. intros s I. apply (proj1 (shown_In _ _ _ _ Et s)) in I. destruct I as (e & _ & E). rewrite Forall_forall in W3. apply W3, (nth_error_In _ _ E). }
  unfold devsim_contact. cbn [mc_region mc_part]. rewrite Er. unfold if_dim_.
  assert (D' : dim = 1 \/ dim = 2 \/ dim = 3) by lia. destruct D' as [E|[E|E]]; rewrite E in *; clear E.
  - change (Nat.eqb 1 1) with true. change (Nat.eqb 1 2) with false. change (Nat.eqb 1 3) with false. cbv iota. cbn [decompose_region mr_nodes mr_edges mr_tris mr_tets nonempty andb].
    destruct W as (B & Q1 & Q2). rewrite En, (proj2 (nodes_ok _ _) B). destruct c; cbn in *. subst. reflexivity.
  - change (Nat.eqb 2 1) with false. change (Nat.eqb 2 2) with true. change (Nat.eqb 2 3) with false. cbv iota. change {| mr_nodes := []; mr_edges := se; mr_tris := []; mr_tets := [] |} with (part_given se []).
    rewrite part_edges. cbn [mr_nodes mr_edges mr_tris]. destruct (edge_nodes se S2) as [N1 N2]. destruct W as (B & Q1 & Q2 & Q3).
    assert (EN : coords_of (sort_unique (flat_map nodes_of se)) = c_nodes c).
    { apply increasing_unique; [exact N1|exact Q2|]. intros i. rewrite N2, Q3. split.
      - intros (s & Is & Ii). apply (proj1 (shown_In _ _ _ _ Ee s)) in Is. destruct Is as (e & Ie & Es). exists e, s. auto.
      - intros (e & s & Ie & Es & Ii). exists s. split; [|exact Ii]. apply (proj2 (shown_In _ _ _ _ Ee s)). eauto. }
    rewrite EN. rewrite (FA 2 (r_edges r) ltac:(lia) O2 I2 se (c_edges c) Ee).
    assert (B' : forallb (fun i => Nat.ltb i (length (r_nodes r))) (c_nodes c) = true).
    { apply nodes_ok, Forall_forall. intros i I. apply Q3 in I. destruct I as (e & s & _ & Es & Ii). apply (PN 2 _ I2 s i); [apply (nth_error_In _ _ Es)|exact Ii]. }
    rewrite B'. destruct c; cbn in *. subst. reflexivity.
  - change (Nat.eqb 3 1) with false. change (Nat.eqb 3 2) with false. change (Nat.eqb 3 3) with true. cbv iota. change {| mr_nodes := []; mr_edges := []; mr_tris := st; mr_tets := [] |} with (part_given [] st).
    rewrite part_tris. cbn [mr_nodes mr_edges mr_tris]. destruct (edge_nodes _ (tri_edges_wf st S3)) as [N1 N2]. destruct W as (B & Q1 & Q2 & Q3 & Q4).
    assert (EN : coords_of (sort_unique (flat_map nodes_of (sort_unique (flat_map edges_of st)))) = c_nodes c).
    { apply increasing_unique; [exact N1|exact Q2|]. intros i. rewrite N2, (tri_nodes st S3), Q3. split.
      - intros (s & Is & Ii). apply (proj1 (shown_In _ _ _ _ Et s)) in Is. destruct Is as (e & Ie & Es). exists e, s. auto.
      - intros (e & s & Ie & Es & Ii). exists s. split; [|exact Ii]. apply (proj2 (shown_In _ _ _ _ Et s)). eauto. }
    rewrite EN. rewrite (FA 3 (r_tris r) ltac:(lia) O3 I3 st (c_tris c) Et).
    assert (B' : forallb (fun i => Nat.ltb i (length (r_nodes r))) (c_nodes c) = true).
    { apply nodes_ok, Forall_forall. intros i I. apply Q3 in I. destruct I as (e & s & _ & Es & Ii). apply (PN 3 _ I3 s i); [apply (nth_error_In _ _ Es)|exact Ii]. }
    rewrite B'.
    assert (EE : part_elements (sort_unique (flat_map edges_of st)) r (r_edges r) = c_edges c).
    { destruct (positions_exist _ (r_edges r) (c_edges c)) as [ss Ess].
      - apply Forall_forall. intros k Ik. apply Q4 in Ik. destruct Ik as (_ & _ & u & _ & _ & Eu & _). apply nth_error_Some. congruence.
      - apply (FA 2 (r_edges r) ltac:(lia) O2 I2). etransitivity; [|exact Ess]. f_equal. apply in_order_unique.
        + apply (sort_unique_in_order 2). apply Forall_forall. intros e Ie. apply (proj1 (edges_In st e S3)) in Ie. apply Ie.
        + apply (positions_in_order (r_edges r) (c_edges c)); assumption.
        + intros f. rewrite (tri_edges_In st f S3). rewrite (shown_In _ _ _ _ Ess f). split.
          * intros (L & As & t & T & Fc). apply (proj1 (shown_In _ _ _ _ Et t)) in T. destruct T as (e & Ie & Et').
            assert (In f (r_edges r)) as If. { apply I2. pose proof (nth_error_In _ _ Et') as It. apply I3 in It. destruct It as (_ & _ & q & Iq & Fq). split; [exact L|]. split; [exact As|]. exists q. split; [exact Iq|]. apply (face_trans _ t); assumption. }
            destruct (In_nth_error _ _ If) as [k Ek]. exists k. split; [|exact Ek]. apply Q4. exists e, t, f. auto.
          * intros (k & Ik & Ek). apply Q4 in Ik. destruct Ik as (e & t & u & Ie & Et' & Eu & Fc). assert (u = f) by congruence. subst u.
            rewrite Forall_forall in W2. destruct (W2 f (nth_error_In _ _ Ek)) as [L As]. split; [exact L|]. split; [exact As|]. exists t. split; [|exact Fc].
            apply (proj2 (shown_In _ _ _ _ Et t)). eauto. }
    rewrite EE. destruct c; cbn in *. subst. reflexivity.
Qed.

(* ---- interfaces ---- *)
Lemma combine_fst : forall X Y (l : list X) (m : list Y), length l = length m -> map fst (combine l m) = l.
Proof. induction l as [|a l IH]; intros [|b m] L; cbn in *; try discriminate; [reflexivity|]. f_equal. apply IH. lia. Qed.
Lemma combine_snd : forall X Y (l : list X) (m : list Y), length l = length m -> map snd (combine l m) = m.
Proof. induction l as [|a l IH]; intros [|b m] L; cbn in *; try discriminate; [reflexivity|]. f_equal. apply IH. lia. Qed.
Lemma filter_true : forall X (f : X -> bool) l, forallb f l = true -> filter f l = l.
Proof. intros X f. induction l as [|a l IH]; cbn; [reflexivity|]. intros E. apply andb_prop in E. destruct E as [-> E]. rewrite (IH E). reflexivity. Qed.
Lemma pairs_made : forall n0 n1 g0 g1 r0 r1, find g0 rs = Some r0 -> find g1 rs = Some r1 -> length n0 = length n1 ->
  Forall (fun j => j < length (r_nodes r0)) n0 -> Forall (fun j => j < length (r_nodes r1)) n1 ->
  exists ps, devsim_pairs rs {| mi_region0 := g0; mi_region1 := g1; mi_part0 := part_given [] []; mi_part1 := part_given [] []; mi_pairs := combine n0 n1 |} = Paired true n0 n1 ps.
Proof.
  intros n0 n1 g0 g1 r0 r1 E0 E1 L B0 B1. unfold devsim_pairs. cbn [mi_region0 mi_region1 mi_part0 mi_part1 mi_pairs]. rewrite E0, E1.
  destruct (combine n0 n1) as [|p l] eqn:EC.
  - assert (n0 = [] /\ n1 = []) as [-> ->] by (destruct n0, n1; cbn in *; try discriminate; auto). cbn. eauto.
  - rewrite <- EC. set (good := fun p : nat * nat => _). assert (G : forallb good (combine n0 n1) = true).
    { apply forallb_forall. intros [a b] I. unfold good. cbn [fst snd]. pose proof (in_combine_l _ _ _ _ I) as Ia. pose proof (in_combine_r _ _ _ _ I) as Ib.
      rewrite Forall_forall in B0, B1. rewrite (proj2 (Nat.ltb_lt _ _) (B0 a Ia)), (proj2 (Nat.ltb_lt _ _) (B1 b Ib)). reflexivity. }
    rewrite (filter_true _ good _ G), G, (combine_fst _ _ _ _ L), (combine_snd _ _ _ _ L). eauto.
Qed.
Definition nodes_at (es ts : list simplex) : list nat := mr_nodes (decompose_region (part_given es ts)).
Lemma nodes_at_ok : forall es ts n r, (ts = [] /\ Forall (wf 2) es) \/ (es = [] /\ Forall (wf 3) ts) -> increasing n ->
  (forall j, In j n <-> exists s, In s (es ++ ts) /\ In j s) -> Forall (fun j => j < length (r_nodes r)) n ->
  part_nodes (decompose_region (part_given es ts)) r = n.
Proof.
  intros es ts n r W I M B. unfold part_nodes. assert (E : mr_nodes (decompose_region (part_given es ts)) = n).
  { destruct W as [[-> W]|[-> W]].
    - rewrite part_edges. cbn [mr_nodes]. destruct (edge_nodes es W) as [N1 N2]. apply increasing_unique; [exact N1|exact I|]. intros i. rewrite N2, M, app_nil_r. tauto.
    - rewrite part_tris. cbn [mr_nodes]. destruct (edge_nodes _ (tri_edges_wf ts W)) as [N1 N2]. apply increasing_unique; [exact N1|exact I|]. intros i. rewrite N2, (tri_nodes ts W), M. cbn [app]. tauto. }
  rewrite E. apply filter_true, nodes_ok, B.
Qed.
Lemma increasing_NoDup : forall l, increasing l -> NoDup l.
Proof. unfold increasing. induction l as [|a l IH]; intros O; [constructor|]. inversion O; subst. constructor; [|auto]. intros Q. match goal with K : Forall (lt a) l |- _ => rewrite Forall_forall in K; specialize (K a Q); lia end. Qed.
Lemma coords_NoDup : forall (r : list nat) n, NoDup r -> NoDup n -> Forall (fun j => j < length r) n -> NoDup (map (fun j => nth j r 0) n).
Proof.
  intros r n Nr. induction n as [|a n IH]; intros Nn B; [constructor|]. inversion Nn; inversion B; subst. cbn. constructor; [|auto]. intros I. apply in_map_iff in I. destruct I as (b & E & Ib).
  match goal with K : Forall _ n |- _ => rewrite Forall_forall in K; pose proof (K b Ib) as Lb end. rewrite (NoDup_nth r 0) in Nr. apply Nr in E; [subst; contradiction|assumption|assumption].
Qed.
Lemma elements_made : forall es0 ts0 es1 ts1 n0 n1 g0 g1 r0 r1, find g0 rs = Some r0 -> find g1 rs = Some r1 -> length n0 = length n1 ->
  Forall (fun j => j < length (r_nodes r0)) n0 -> Forall (fun j => j < length (r_nodes r1)) n1 ->
  (ts0 = [] /\ Forall (wf 2) es0) \/ (es0 = [] /\ Forall (wf 3) ts0) -> (ts1 = [] /\ Forall (wf 2) es1) \/ (es1 = [] /\ Forall (wf 3) ts1) ->
  increasing n0 -> increasing n1 -> (forall j, In j n0 <-> exists s, In s (es0 ++ ts0) /\ In j s) -> (forall j, In j n1 <-> exists s, In s (es1 ++ ts1) /\ In j s) ->
  map (fun j => nth_error (r_nodes r0) j) n0 = map (fun j => nth_error (r_nodes r1) j) n1 -> NoDup (r_nodes r0) -> NoDup (r_nodes r1) ->
  exists ps, devsim_pairs rs {| mi_region0 := g0; mi_region1 := g1; mi_part0 := part_given es0 ts0; mi_part1 := part_given es1 ts1; mi_pairs := [] |} = Paired true n0 n1 ps.
Proof.
  intros es0 ts0 es1 ts1 n0 n1 g0 g1 r0 r1 E0 E1 L B0 B1 W0 W1 I0 I1 M0 M1 EQ N0 N1. unfold devsim_pairs. cbn [mi_region0 mi_region1 mi_part0 mi_part1 mi_pairs]. rewrite E0, E1.
  rewrite (nodes_at_ok es0 ts0 n0 r0 W0 I0 M0 B0), (nodes_at_ok es1 ts1 n1 r1 W1 I1 M1 B1).
  assert (P0 := coords_NoDup _ _ N0 (increasing_NoDup _ I0) B0). assert (P1 := coords_NoDup _ _ N1 (increasing_NoDup _ I1) B1).
  destruct (C43_computed_pairs (fun n => nth n (r_nodes r0) 0) (fun n => nth n (r_nodes r1) 0) n0 n1 P0 P1) as [Q _].
  destruct (fix_node_pairs _ _ n0 n1) as [ps|] eqn:EF; [eauto|]. exfalso. apply (proj2 Q); [|reflexivity]. intros j Ij.
  assert (IS : In (nth_error (r_nodes r1) j) (map (fun j => nth_error (r_nodes r0) j) n0)) by (rewrite EQ; apply (in_map (fun j => nth_error (r_nodes r1) j)), Ij).
  apply in_map_iff in IS. destruct IS as (i & Ei & Ii). rewrite Forall_forall in B0, B1. specialize (B0 i Ii). specialize (B1 j Ij).
  apply in_map_iff. exists i. split; [|exact Ii]. rewrite (nth_error_nth' _ 0 B0), (nth_error_nth' _ 0 B1) in Ei. injection Ei as ->. reflexivity.
Qed.
End Contact.
