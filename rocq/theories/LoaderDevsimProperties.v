(* C41, C43: meshes in the devsim format; C49: failing commands. *)
From Coq Require Import String List Bool Arith Lia Permutation Sorting.Sorted.
Import ListNotations.
Require Import Verif.StrMap Verif.Adjacency Verif.Loader Verif.LoaderSpec Verif.AdjacencySpec Verif.ImportSpec
  Verif.LoaderProofs Verif.LoaderGmsh Verif.AdjacencyProofs Verif.AdjacencyFinal Verif.AdjacencyProperties Verif.LoaderImport Verif.LoaderProperties.
Local Arguments Nat.ltb : simpl never.
Local Arguments Nat.leb : simpl never.
Local Arguments Nat.eqb : simpl never.
Open Scope string_scope.
Open Scope list_scope.

(* ---------------------------------------------------------------- regions *)
(* the elements of a region are written with their nodes in ascending order (as the reader makes them) *)
Definition well_written (r : mregion) : Prop :=
  Forall (wf 2) (mr_edges r) /\ Forall (wf 3) (mr_tris r) /\ Forall (wf 4) (mr_tets r).
Definition given_elements (r : mregion) : list (list nat) := mr_tets r ++ mr_tris r ++ mr_edges r.
(* only the elements of the highest dimension are given *)
Definition only_top (r : mregion) : Prop :=
  (mr_tets r <> [] -> mr_tris r = [] /\ mr_edges r = []) /\ (mr_tris r <> [] -> mr_edges r = []).

Lemma faces_In : forall l f, Forall (wf 4) l -> (In f (flat_map faces_of l) <-> part_of 3 l f).
Proof.
  intros l f W. rewrite in_flat_map. rewrite Forall_forall in W. split.
  - intros (s & I & J). destruct (W s I) as [L A]. apply faces_of_spec in J; auto. destruct J as (J1 & J2 & J3).
    split; [exact J1|]. split; [exact J2|]. exists s. auto.
  - intros (J1 & J2 & s & I & J3). exists s. split; [exact I|]. destruct (W s I) as [L A]. apply faces_of_spec; auto.
Qed.
Lemma edges_In : forall l f, Forall (wf 3) l -> (In f (flat_map edges_of l) <-> part_of 2 l f).
Proof.
  intros l f W. rewrite in_flat_map. rewrite Forall_forall in W. split.
  - intros (s & I & J). destruct (W s I) as [L A]. apply edges_of_spec in J; auto. destruct J as (J1 & J2 & J3).
    split; [exact J1|]. split; [exact J2|]. exists s. auto.
  - intros (J1 & J2 & s & I & J3). exists s. split; [exact I|]. destruct (W s I) as [L A]. apply edges_of_spec; auto.
Qed.
Lemma sort_lists : forall k l (P : list nat -> Prop), Forall (wf k) l -> (forall f, In f l <-> P f) -> lists (sort_unique l) P.
Proof.
  intros k l P W H. split; [apply (sort_unique_NoDup k), wf_len, W|]. intros f. rewrite sort_unique_In. apply H.
Qed.
Lemma part_wf : forall k els l, (forall f, In f l <-> part_of k els f) -> Forall (wf k) l.
Proof. intros k els l H. apply Forall_forall. intros f I. apply H in I. destruct I as (A & B & _). split; assumption. Qed.

(* A region given by its elements of the highest dimension gets all the edges, triangles and
   tetrahedra they are made of; its nodes are the given ones. *)
Theorem C41_devsim_partial : forall nc r x, well_written r -> only_top r -> mr_nodes r <> [] ->
  devsim_region nc (decompose_region r) = Finished x ->
  r_nodes x = mr_nodes r /\
  lists (r_edges x) (part_of 2 (given_elements r)) /\ lists (r_tris x) (part_of 3 (given_elements r)) /\
  lists (r_tets x) (part_of 4 (given_elements r)) /\
  (Forall (@NoDup nat) (given_elements r) -> connected (r_edges x) (r_tris x) (r_tets x) (r_adj x)).
Proof.
  intros nc r x (W2 & W3 & W4) [T1 T2] NN H. destruct r as [nodes edges tris tets]. cbn [mr_nodes mr_edges mr_tris mr_tets given_elements] in *.
  set (tris' := if nonempty tets && negb (nonempty tris) then sort_unique (flat_map faces_of tets) else tris).
  set (edges' := if nonempty tris' && negb (nonempty edges) then sort_unique (flat_map edges_of tris') else edges).
  assert (DR : decompose_region {| mr_nodes := nodes; mr_edges := edges; mr_tris := tris; mr_tets := tets |} =
     {| mr_nodes := nodes; mr_edges := edges'; mr_tris := tris'; mr_tets := tets |}).
  { unfold decompose_region. cbn [mr_nodes mr_edges mr_tris mr_tets]. fold tris'. fold edges'.
    destruct nodes; [congruence|]. cbn [nonempty negb]. rewrite andb_false_r. reflexivity. }
  rewrite DR in H.
  assert (N : forall k l f, Forall (wf k) l -> forall m, k < m -> ~ part_of m l f).
  { intros k l f W m M. apply too_small. eapply Forall_impl; [|exact W]. intros a [L _]. lia. }
  assert (P4 : forall f, In f tets <-> part_of 4 (tets ++ tris ++ edges) f).
  { intros f. rewrite !part_of_app, (part_own 4 tets f W4). pose proof (N 3 tris f W3 4 ltac:(lia)). pose proof (N 2 edges f W2 4 ltac:(lia)). split; [auto|]. intros [?|[?|?]]; [auto|exfalso; auto|exfalso; auto]. }
  assert (P3 : forall f, In f tris' <-> part_of 3 (tets ++ tris ++ edges) f).
  { intros f. rewrite !part_of_app. unfold tris'. destruct tets as [|q tets]; cbn [nonempty andb].
    - rewrite (part_own 3 tris f W3). pose proof (N 2 edges f W2 3 ltac:(lia)). pose proof (part_of_nil 3 f). split; [auto|]. intros [?|[?|?]]; [contradiction|auto|exfalso; auto].
    - destruct (T1 ltac:(discriminate)) as [-> ->]. cbn [nonempty negb]. rewrite sort_unique_In, (faces_In _ f W4).
      pose proof (part_of_nil 3 f). split; [auto|]. intros [?|[?|?]]; [auto|contradiction|contradiction]. }
  assert (W3' : Forall (wf 3) tris') by (apply (part_wf 3 _ _ P3)).
  assert (P2 : forall f, In f edges' <-> part_of 2 (tets ++ tris ++ edges) f).
  { intros f. unfold edges'. destruct tris' as [|t ts] eqn:E3; cbn [nonempty andb].
    - assert (tets = [] /\ tris = []) as [-> ->].
      { split; [destruct tets as [|q tets]; [reflexivity|]|destruct tris as [|q tris]; [reflexivity|]]; exfalso.
        - inversion W4 as [|? ? [L A] _]; subst. destruct (face_step [nth 0 q 0; nth 1 q 0] q) as (g & Ag & Lg & F1 & F2).
          { exists [nth 2 q 0; nth 3 q 0]. destruct q as [|a [|b [|c [|d [|]]]]]; try discriminate. cbn. apply Permutation_refl. }
          { cbn. lia. }
          apply (P3 g). split; [cbn in Lg; lia|]. split; [exact Ag|]. exists q. split; [left; reflexivity|exact F2].
        - inversion W3 as [|? ? [L A] _]; subst. apply (P3 q). split; [exact L|]. split; [exact A|]. exists q.
          split; [apply in_app_iff; right; left; reflexivity|apply face_refl]. }
      cbn [app]. rewrite (part_own 2 edges f W2). tauto.
    - rewrite <- E3 in *. assert (edges = []) as ->.
      { destruct tets as [|q tets]; [|apply T1; discriminate]. apply T2. unfold tris' in E3. cbn in E3. rewrite E3. discriminate. }
      cbn [nonempty negb]. rewrite sort_unique_In, (edges_In _ f W3').
      assert (B : Forall (fun s => 3 <= length s) (tets ++ tris ++ [])).
      { rewrite app_nil_r. apply Forall_app. split; [eapply Forall_impl; [|exact W4]|eapply Forall_impl; [|exact W3]]; intros a [L _]; lia. }
      rewrite (part_down 2 _ f B). unfold part_of at 1. split.
      + intros (L & A & s & I & F). split; [exact L|]. split; [exact A|]. exists s. split; [apply P3, I|exact F].
      + intros (L & A & s & I & F). split; [exact L|]. split; [exact A|]. exists s. split; [apply P3, I|exact F]. }
  assert (W2' : Forall (wf 2) edges') by (apply (part_wf 2 _ _ P2)).
  pose proof (sort_lists 2 edges' _ W2' P2) as L2. pose proof (sort_lists 3 tris' _ W3' P3) as L3. pose proof (sort_lists 4 tets _ W4 P4) as L4.
  unfold devsim_region, mregion_dimension in H. cbn [mr_nodes mr_edges mr_tris mr_tets] in H.
  assert (ET : (if Nat.eqb (if nonempty tets then 3 else if nonempty tris' then 2 else 1) 3 then sort_unique tets else []) = sort_unique tets).
  { destruct tets; cbn [nonempty]; [destruct (nonempty tris'); reflexivity|reflexivity]. }
  rewrite ET in H. destruct (_ && below _ (sort_unique tets)); [|discriminate].
  destruct (finalize_region _ _ _ _) as [a| |] eqn:FR; try discriminate. injection H as <-.
  cbn [r_nodes r_edges r_tris r_tets r_adj]. split; [reflexivity|]. split; [exact L2|]. split; [exact L3|]. split; [exact L4|].
  intros ND. match type of FR with finalize_region ?d ?e ?t ?q = _ => pose proof (C50_connections d e t q (parts_complete _ _ _ _ ND L2 L3 L4)) as C end.
  rewrite FR in C. apply C.
Qed.
Print Assumptions C41_devsim_partial.
Definition one_tet : mregion := {| mr_nodes := [0; 1; 2; 3]; mr_edges := []; mr_tris := []; mr_tets := [[0; 1; 2; 3]] |}.
Example one_tet_region : well_written one_tet /\ only_top one_tet /\
  exists x, devsim_region 4 (decompose_region one_tet) = Finished x /\ length (r_edges x) = 6 /\ length (r_tris x) = 4.
Proof.
  split; [|split].
  - split; [constructor|]. split; [constructor|]. constructor; [|constructor]. split; [reflexivity|]. repeat constructor.
  - split; [auto|]. intros H. contradiction H. reflexivity.
  - eexists. split; [vm_compute; reflexivity|]. split; reflexivity.
Qed.

(* If some edges are given they are not completed: a mesh with a triangle and two of its edges is
   accepted, and the triangle has a slot without edge ... *)
Theorem C41_devsim_refuted :
  let m := {| m_ncoords := 3; m_regions := [("si", {| mr_nodes := [0; 1; 2]; mr_edges := [[0; 1]; [1; 2]]; mr_tris := [[0; 1; 2]]; mr_tets := [] |})];
              m_contacts := []; m_interfaces := []; m_final := false |} in
  exists m' devs m'' d x, devsim_finalize m = (true, m') /\ devsim_create m' "dev" [] = Done (devs, m'') /\ find "dev" devs = Some d /\
    find "si" (d_regions d) = Some x /\ ~ In [0; 2] (r_edges x) /\ nth 1 (nth 0 (adj_tri_edges (r_adj x)) []) None = None.
Proof.
  cbv zeta. eexists _, _, _, _, _. split; [vm_compute; reflexivity|]. split; [vm_compute; reflexivity|]. split; [vm_compute; reflexivity|].
  split; [vm_compute; reflexivity|]. split; [|reflexivity]. cbn. intros [E|[E|[]]]; discriminate.
Qed.
Print Assumptions C41_devsim_refuted.
(* ... and with a tetrahedron a null pointer is dereferenced while the device is created. *)
Theorem C41_devsim_undefined_refuted :
  let m := {| m_ncoords := 4; m_regions := [("si", {| mr_nodes := [0; 1; 2; 3]; mr_edges := [[0; 1]]; mr_tris := []; mr_tets := [[0; 1; 2; 3]] |})];
              m_contacts := []; m_interfaces := []; m_final := false |} in
  exists m', devsim_finalize m = (true, m') /\ devsim_create m' "dev" [] = Undefined.
Proof. cbv zeta. eexists. split; vm_compute; reflexivity. Qed.
Print Assumptions C41_devsim_undefined_refuted.

(* ---------------------------------------------------------------- interfaces *)
Definition nsorted (m : list (nat * (nat * option nat))) : Prop := StronglySorted lt (map fst m).
Lemma nput_keys : forall k v m x, In x (map fst (nput k v m)) <-> x = k \/ In x (map fst m).
Proof.
  intros k v. induction m as [|[k' v'] m IH]; intros x; cbn [nput].
  - cbn. intuition.
  - destruct (Nat.ltb k k'); [cbn; intuition|]. destruct (Nat.eqb_spec k k') as [->|].
    + cbn. intuition.
    + cbn. rewrite IH. intuition.
Qed.
Lemma nput_sorted : forall k v m, nsorted m -> nsorted (nput k v m).
Proof.
  intros k v. unfold nsorted. induction m as [|[k' v'] m IH]; intros H; cbn [nput]; [cbn; constructor; constructor|].
  cbn in H. inversion H as [|? ? H1 H2]; subst. destruct (Nat.ltb_spec k k').
  - cbn. constructor; [exact H|]. constructor; [assumption|]. eapply Forall_impl; [|exact H2]. cbn. lia.
  - destruct (Nat.eqb_spec k k') as [->|N]; cbn.
    + constructor; assumption.
    + constructor; [apply IH, H1|]. apply Forall_forall. intros x I. apply nput_keys in I. rewrite Forall_forall in H2. destruct I as [->|I]; [lia|auto].
Qed.
Lemma assoc_nput : forall k v m x, assoc x (nput k v m) = if Nat.eqb x k then Some v else assoc x m.
Proof.
  intros k v. induction m as [|[k' v'] m IH]; intros x; cbn [nput assoc]; [reflexivity|].
  destruct (Nat.ltb k k'); [reflexivity|]. destruct (Nat.eqb_spec k k') as [->|N]; cbn [assoc].
  - destruct (Nat.eqb x k'); reflexivity.
  - rewrite IH. destruct (Nat.eqb_spec x k'), (Nat.eqb_spec x k); subst; try reflexivity. congruence.
Qed.
Lemma nsorted_In : forall m k v, nsorted m -> (In (k, v) m <-> assoc k m = Some v).
Proof.
  unfold nsorted. induction m as [|[k' v'] m IH]; intros k v H; cbn [assoc]; [cbn; split; [intros []|discriminate]|].
  cbn in H. inversion H as [|? ? H1 H2]; subst. rewrite Forall_forall in H2. cbn [In]. destruct (Nat.eqb_spec k k') as [->|N].
  - split.
    + intros [E|I]; [congruence|]. exfalso. assert (k' < k') by (apply H2, in_map_iff; exists (k', v); auto). lia.
    + intros E. left. congruence.
  - rewrite <- IH by exact H1. split; [intros [E|I]; [congruence|exact I]|auto].
Qed.
Section Pairs.
Variables (c0 c1 : nat -> nat).
Definition firsts (cn0 : list nat) m := fold_left (fun m i => nput (c0 i) (i, None) m) cn0 m.
Lemma firsts_spec : forall cn0 m, nsorted m -> NoDup (map c0 cn0) ->
  nsorted (firsts cn0 m) /\ forall i, In i cn0 -> assoc (c0 i) (firsts cn0 m) = Some (i, None).
Proof.
  assert (K : forall cn0 m x, ~ In x (map c0 cn0) -> assoc x (firsts cn0 m) = assoc x m).
  { induction cn0 as [|i cn0 IH]; intros m x H; [reflexivity|]. cbn in H |- *. rewrite IH by tauto. rewrite assoc_nput. destruct (Nat.eqb_spec x (c0 i)); [subst; tauto|reflexivity]. }
  induction cn0 as [|i cn0 IH]; intros m S N; [split; [exact S|intros i []]|].
  cbn in N. inversion N as [|? ? N1 N2]; subst. destruct (IH (nput (c0 i) (i, None) m) (nput_sorted _ _ _ S) N2) as [A B]. split; [exact A|].
  intros j [<-|I]; [|apply B, I]. cbn. rewrite K by exact N1. rewrite assoc_nput, Nat.eqb_refl. reflexivity.
Qed.
Lemma firsts_inv : forall cn0 x v, assoc x (firsts cn0 []) = Some v -> exists i, In i cn0 /\ x = c0 i /\ v = (i, None).
Proof.
  assert (G : forall cn0 m x v, assoc x (firsts cn0 m) = Some v -> (exists i, In i cn0 /\ x = c0 i /\ v = (i, None)) \/ assoc x m = Some v).
  { induction cn0 as [|i cn0 IH]; intros m x v H; [right; exact H|]. cbn in H. destruct (IH _ _ _ H) as [(j & I & E)|E].
    - left. exists j. split; [right; exact I|exact E].
    - rewrite assoc_nput in E. destruct (Nat.eqb_spec x (c0 i)); [|right; exact E]. left. exists i. injection E as <-. split; [left; reflexivity|auto]. }
  intros cn0 x v H. destruct (G _ _ _ _ H) as [E|E]; [exact E|discriminate].
Qed.
Lemma second_spec : forall cn1 m m', nsorted m -> NoDup (map c1 cn1) -> fix_second c1 cn1 m = Some m' ->
  nsorted m' /\ forall x, assoc x m' =
    match assoc x m with
    | Some (i, o) => Some (i, match List.find (fun j => Nat.eqb (c1 j) x) cn1 with Some j => Some j | None => o end)
    | None => None end.
Proof.
  induction cn1 as [|j cn1 IH]; intros m m' S N H; cbn in H.
  - injection H as <-. split; [exact S|]. intros x. cbn. destruct (assoc x m) as [[i o]|]; reflexivity.
  - destruct (assoc (c1 j) m) as [[i o]|] eqn:A; [|discriminate]. cbn in N. inversion N as [|? ? N1 N2]; subst.
    destruct (IH _ _ (nput_sorted _ _ _ S) N2 H) as [S' F]. split; [exact S'|]. intros x. rewrite F, assoc_nput. cbn [List.find].
    rewrite (Nat.eqb_sym (c1 j) x). destruct (Nat.eqb_spec x (c1 j)) as [->|E]; [|reflexivity]. rewrite A.
    destruct (List.find (fun j0 => Nat.eqb (c1 j0) (c1 j)) cn1) as [k|] eqn:Fk; [|reflexivity].
    exfalso. apply find_some in Fk. destruct Fk as [I E]. apply Nat.eqb_eq in E. apply N1. rewrite <- E. apply in_map, I.
Qed.
Lemma second_defined : forall cn1 m, fix_second c1 cn1 m <> None <-> forall j, In j cn1 -> assoc (c1 j) m <> None.
Proof.
  induction cn1 as [|j cn1 IH]; intros m; cbn [fix_second].
  - split; [intros _ j []|discriminate].
  - destruct (assoc (c1 j) m) as [[i o]|] eqn:A.
    + rewrite IH. split.
      * intros H k [<-|I]; [congruence|]. specialize (H k I). rewrite assoc_nput in H. destruct (Nat.eqb_spec (c1 k) (c1 j)) as [->|]; [congruence|exact H].
      * intros H k I. rewrite assoc_nput. destruct (Nat.eqb (c1 k) (c1 j)); [discriminate|apply H; right; exact I].
    + split; [congruence|]. intros H. exfalso. apply (H j); [left; reflexivity|exact A].
Qed.
(* The computed pairs match the nodes of the two sides by their coordinates; the computation is
   defined if and only if every coordinate of the second side occurs on the first. *)
Theorem C43_computed_pairs : forall cn0 cn1, NoDup (map c0 cn0) -> NoDup (map c1 cn1) ->
  (fix_node_pairs c0 c1 cn0 cn1 <> None <-> forall j, In j cn1 -> In (c1 j) (map c0 cn0)) /\
  forall ps, fix_node_pairs c0 c1 cn0 cn1 = Some ps ->
    lists ps (fun p => In (fst p) cn0 /\ In (snd p) cn1 /\ c0 (fst p) = c1 (snd p)).
Proof.
  intros cn0 cn1 N0 N1. unfold fix_node_pairs. change (fold_left _ cn0 []) with (firsts cn0 []).
  destruct (firsts_spec cn0 [] (SSorted_nil _) N0) as [S F]. split.
  - assert (Q : forall j, assoc (c1 j) (firsts cn0 []) <> None <-> In (c1 j) (map c0 cn0)).
    { intros j. split.
      - intros H. destruct (assoc (c1 j) (firsts cn0 [])) as [v|] eqn:A; [|congruence]. apply firsts_inv in A. destruct A as (i & I & E & _). rewrite E. apply in_map, I.
      - intros I. apply in_map_iff in I. destruct I as (i & <- & I). rewrite (F i I). discriminate. }
    pose proof (second_defined cn1 (firsts cn0 [])) as D. split.
    + intros H j I. apply Q. apply (proj1 D); [|exact I]. intros E. rewrite E in H. congruence.
    + intros H. assert (E : fix_second c1 cn1 (firsts cn0 []) <> None) by (apply D; intros j I; apply Q, H, I).
      destruct (fix_second c1 cn1 (firsts cn0 [])); [discriminate|congruence].
  - intros ps H. destruct (fix_second c1 cn1 (firsts cn0 [])) as [m|] eqn:E; [|discriminate]. injection H as <-.
    destruct (second_spec _ _ _ S N1 E) as [S' A].
    assert (P : forall k i j, In (k, (i, Some j)) m <-> In i cn0 /\ In j cn1 /\ c0 i = k /\ c1 j = k).
    { intros k i j. rewrite (nsorted_In m k _ S'), A. split.
      - destruct (assoc k (firsts cn0 [])) as [[i' o]|] eqn:B; [|discriminate]. apply firsts_inv in B. destruct B as (i2 & I & -> & Q). injection Q as -> ->.
        destruct (List.find _ cn1) as [j'|] eqn:Fj; intros Q; [|discriminate]. injection Q as <- <-. apply find_some in Fj. destruct Fj as [J Ej]. apply Nat.eqb_eq in Ej. auto.
      - intros (I & J & <- & Ej). rewrite (F i I). destruct (List.find (fun j0 => Nat.eqb (c1 j0) (c0 i)) cn1) as [j'|] eqn:Fj.
        + apply find_some in Fj. destruct Fj as [J' Ej']. apply Nat.eqb_eq in Ej'. assert (j' = j); [|congruence].
          clear - N1 J J' Ej Ej'. induction cn1 as [|x l IH]; [destruct J|]. cbn in N1. inversion N1 as [|? ? M1 M2]; subst.
          destruct J as [->|J], J' as [->|J']; auto.
          * exfalso. apply M1. rewrite Ej, <- Ej'. apply in_map, J'.
          * exfalso. apply M1. rewrite Ej', <- Ej. apply in_map, J.
        + exfalso. pose proof (find_none _ _ Fj j J) as B. cbn in B. rewrite Ej, Nat.eqb_refl in B. discriminate. }
    split.
    + assert (K : NoDup (map (fun p : nat * nat => c0 (fst p)) (flat_map (fun p => match snd (snd p) with Some j => [(fst (snd p), j)] | None => [] end) m))).
      { assert (Q : forall m, nsorted m -> (forall k i j, In (k, (i, Some j)) m -> c0 i = k) ->
          NoDup (map (fun p : nat * nat => c0 (fst p)) (flat_map (fun p => match snd (snd p) with Some j => [(fst (snd p), j)] | None => [] end) m)) /\
          forall x, In x (map (fun p : nat * nat => c0 (fst p)) (flat_map (fun p => match snd (snd p) with Some j => [(fst (snd p), j)] | None => [] end) m)) -> In x (map fst m)).
        { clear. unfold nsorted. induction m as [|[k [i o]] m IH]; intros S H; cbn; [split; [constructor|auto]|]. cbn in S. inversion S as [|? ? S1 S2]; subst.
          destruct IH as [A B]; [exact S1|intros k' i' j' I; apply (H k' i' j'); right; exact I|].
          destruct o as [j|]; cbn.
          - assert (c0 i = k) by (apply (H k i j); left; reflexivity). split.
            + constructor; [|exact A]. intros I. apply B in I. rewrite Forall_forall in S2. specialize (S2 _ I). lia.
            + intros x [<-|I]; auto.
          - split; [exact A|auto]. }
        apply (Q m S'). intros k i j I. apply P in I. tauto. }
      clear - K. induction (flat_map _ m) as [|p l IH]; [constructor|]. cbn in K. inversion K as [|? ? K1 K2]; subst. constructor; [|auto].
      intros I. apply K1. apply in_map_iff. exists p. auto.
    + intros [i j]. rewrite in_flat_map. cbn [fst snd]. split.
      * intros ([k [i' o]] & I & J). cbn [fst snd] in J. destruct o as [j'|]; [|destruct J]. destruct J as [E2|[]]. injection E2 as -> ->.
        apply P in I. destruct I as (A1 & A2 & A3 & A4). repeat split; auto. congruence.
      * intros (A1 & A2 & A3). exists (c0 i, (i, Some j)). split; [apply P; auto|left; reflexivity].
Qed.
End Pairs.
Print Assumptions C43_computed_pairs.
Example pairs_example : fix_node_pairs (fun n => nth n [10; 20; 30] 0) (fun n => nth n [40; 30; 20] 0) [1; 2] [1; 2] = Some [(1, 2); (2, 1)].
Proof. vm_compute. reflexivity. Qed.

Definition seg (nodes : list nat) : mregion := {| mr_nodes := nodes; mr_edges := [[0; 1]; [1; 2]]; mr_tris := []; mr_tets := [] |}.
Definition at_nodes (l : list nat) : mregion := {| mr_nodes := l; mr_edges := []; mr_tris := []; mr_tets := [] |}.
Definition two_segs (n0 n1 : list nat) (ps : list (nat * nat)) : dmesh :=
  {| m_ncoords := 6; m_regions := [("a", seg [0; 1; 2]); ("b", seg [4; 2; 1])]; m_contacts := [];
     m_interfaces := [("i", {| mi_region0 := "a"; mi_region1 := "b"; mi_part0 := at_nodes n0; mi_part1 := at_nodes n1; mi_pairs := ps |})];
     m_final := true |}.
(* A node on the second side whose coordinate is not on the first: undefined behaviour. *)
Theorem C43_unmatched_refuted : devsim_create (two_segs [1; 2] [0; 1] []) "dev" [] = Undefined.
Proof. vm_compute. reflexivity. Qed.
Print Assumptions C43_unmatched_refuted.
(* The pairs that are computed for an interface given by its nodes are not used: the device pairs
   the nodes in the order of the lists, here coordinate 1 with 2 and 2 with 1.  The pairs are kept in
   the mesh, so that a second device made from the same mesh has a different interface. *)
Theorem C43_order_refuted : exists devs m i devs' m' i',
  devsim_create (two_segs [1; 2] [1; 2] []) "dev" [] = Done (devs, m) /\
  (exists d, find "dev" devs = Some d /\ find "i" (d_interfaces d) = Some i) /\
  map (fun n => nth n [0; 1; 2] 9) (i_nodes0 i) = [1; 2] /\ map (fun n => nth n [4; 2; 1] 9) (i_nodes1 i) = [2; 1] /\
  devsim_create m "dev2" devs = Done (devs', m') /\
  (exists d, find "dev2" devs' = Some d /\ find "i" (d_interfaces d) = Some i') /\
  map (fun n => nth n [0; 1; 2] 9) (i_nodes0 i') = [1; 2] /\ map (fun n => nth n [4; 2; 1] 9) (i_nodes1 i') = [1; 2].
Proof.
  eexists _, _, _, _, _, _. split; [vm_compute; reflexivity|]. split; [eexists; split; vm_compute; reflexivity|].
  split; [reflexivity|]. split; [reflexivity|]. split; [vm_compute; reflexivity|]. split; [eexists; split; vm_compute; reflexivity|]. split; reflexivity.
Qed.
Print Assumptions C43_order_refuted.
(* With explicit pairs the nodes of the interface are the pairs. *)
Theorem C43_explicit_pairs : forall rs i r0 r1 n0 n1 ps, mi_pairs i <> [] ->
  find (mi_region0 i) rs = Some r0 -> find (mi_region1 i) rs = Some r1 ->
  devsim_pairs rs i = Paired true n0 n1 ps ->
  combine n0 n1 = mi_pairs i /\ length n0 = length n1 /\ ps = mi_pairs i /\
  Forall (fun p => fst p < length (r_nodes r0) /\ snd p < length (r_nodes r1)) (mi_pairs i).
Proof.
  intros rs i r0 r1 n0 n1 ps N E0 E1 H. unfold devsim_pairs in H. rewrite E0, E1 in H.
  destruct (mi_pairs i) as [|p l] eqn:M; [congruence|]. rewrite <- M in *. clear p l M.
  cbv zeta in H. injection H as G <- <- <-. set (good := fun p : nat * nat => _) in *.
  assert (FI : filter good (mi_pairs i) = mi_pairs i) by (apply filter_all; rewrite forallb_forall in G; exact G).
  rewrite FI, !map_length. split; [|split; [reflexivity|split; [reflexivity|]]].
  - clear. induction (mi_pairs i) as [|[a b] l IH]; cbn; congruence.
  - apply Forall_forall. intros p I. rewrite forallb_forall in G. specialize (G p I). apply andb_prop in G. destruct G as [A B].
    apply Nat.ltb_lt in A, B. auto.
Qed.
Print Assumptions C43_explicit_pairs.
Example explicit_example : exists devs m, devsim_create (two_segs [] [] [(1, 2); (2, 1)]) "dev" [] = Done (devs, m).
Proof. eexists _, _. vm_compute. reflexivity. Qed.

(* ---------------------------------------------------------------- C49: failing commands *)
Definition result {A} (e : ended A) : option A := match e with Done a | Failed a | Thrown a => Some a | Undefined => None end.
(* Whatever happens, creating a device does not change another device; a name that exists and a mesh
   that is not finalized change nothing. *)
Theorem C49_create_device_partial :
  (forall g name devs devs', sorted devs -> result (gmsh_create g name devs) = Some devs' ->
     (forall n, n <> name -> find n devs' = find n devs) /\
     (find name devs <> None \/ g_final g = false -> gmsh_create g name devs = Failed devs)) /\
  (forall m name devs devs' m', sorted devs -> result (devsim_create m name devs) = Some (devs', m') ->
     (forall n, n <> name -> find n devs' = find n devs) /\ m_regions m' = m_regions m /\ m_contacts m' = m_contacts m /\
     (find name devs <> None \/ m_final m = false -> devsim_create m name devs = Failed (devs, m))).
Proof.
  assert (PF : forall V (devs : smap V) n m v, sorted devs -> n <> m -> find n (put m v devs) = find n devs).
  { intros V devs n m v S N. rewrite find_put by exact S. destruct (String.eqb_spec n m); [congruence|reflexivity]. }
  split.
  - intros g name devs devs' S H. split.
    + intros n N. unfold gmsh_create in H. destruct (negb (g_final g) || has name devs); [injection H as <-; reflexivity|].
      destruct (Nat.eqb (g_dim g) 0); [injection H as <-; reflexivity|].
      destruct (gmsh_regions _ _ _); try discriminate; [|injection H as <-; apply PF; auto].
      destruct (gmsh_contacts _ _ _ _ _) as [[ok cc]|]; [|discriminate]. destruct (gmsh_interfaces _ _ _ _ _) as [[ok2 ii]|]; [|discriminate].
      destruct ok2; injection H as <-; apply PF; auto.
    + intros Q. unfold gmsh_create. unfold has. destruct Q as [Q|Q].
      * destruct (find name devs); [|congruence]. rewrite orb_true_r. reflexivity.
      * rewrite Q. reflexivity.
  - intros m name devs devs' m' S H. assert (FR : (forall n, n <> name -> find n devs' = find n devs) /\ m_regions m' = m_regions m /\ m_contacts m' = m_contacts m).
    { unfold devsim_create in H. destruct (negb (m_final m) || has name devs); [injection H as <- <-; auto|].
      destruct (devsim_regions _ _ _ _); try discriminate; [|injection H as <- <-; split; [intros n N; apply PF; auto|auto]].
      destruct (devsim_contacts _ _ _) as [ok cc]. destruct ok; [|injection H as <- <-; split; [intros n N; apply PF; auto|auto]].
      destruct (devsim_interfaces _ _ _ _) as [[? ?]|[? ?]|[? ?]|]; try discriminate; injection H as <- <-; (split; [intros n N; apply PF; auto|auto]). }
    destruct FR as (F1 & F2 & F3). split; [exact F1|]. split; [exact F2|]. split; [exact F3|].
    intros Q. unfold devsim_create, has. destruct Q as [Q|Q].
    + destruct (find name devs); [|congruence]. rewrite orb_true_r. reflexivity.
    + rewrite Q. reflexivity.
Qed.
Print Assumptions C49_create_device_partial.
(* But a device whose creation fails stays: here a contact on a region that does not exist.  The
   device can be used without the contact, and its name cannot be used again. *)
Theorem C49_create_device_refuted : exists devs d,
  import 12 sq_names (encode sq) [AddRegion "bulk" "si"; AddContact "left" "anode" "sio2"] "dev" [] = Some (Failed devs) /\
  find "dev" devs = Some d /\ has "si" (d_regions d) = true /\ d_contacts d = [] /\
  import 12 sq_names (encode sq) sq_cmds "dev" devs = Some (Failed devs).
Proof.
  eexists _, _. split; [vm_compute; reflexivity|]. split; [vm_compute; reflexivity|]. split; [reflexivity|]. split; [reflexivity|]. vm_compute. reflexivity.
Qed.
Print Assumptions C49_create_device_refuted.
(* A mesh whose data are rejected stays in the list of meshes, and its name cannot be used again. *)
Theorem C49_create_mesh_refuted : exists meshes, create_gmsh_mesh [] "m" 9 ["bulk"] [7; 0; 0; 1] = Failed meshes /\ has "m" meshes = true /\
  create_gmsh_mesh meshes "m" 9 ["bulk"] [1; 0; 0; 1] = Failed meshes.
Proof. eexists. split; [vm_compute; reflexivity|]. split; [reflexivity|vm_compute; reflexivity]. Qed.
Print Assumptions C49_create_mesh_refuted.
