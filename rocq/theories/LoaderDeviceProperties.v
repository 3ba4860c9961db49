(* C41, C43, C49: the device made from a mesh in the devsim format. *)
From Coq Require Import String List Bool Arith Lia Permutation Sorting.Sorted.
Import ListNotations.
Require Import Verif.StrMap Verif.Adjacency Verif.Loader Verif.LoaderSpec Verif.AdjacencySpec
  Verif.LoaderProofs Verif.AdjacencyProofs Verif.LoaderImport Verif.LoaderDevsimProperties.
Local Arguments Nat.ltb : simpl never.
Local Arguments Nat.leb : simpl never.
Local Arguments Nat.eqb : simpl never.
Open Scope string_scope.
Open Scope list_scope.

(* all node numbers of the elements are below n *)
Definition numbered (n : nat) (l : list (list nat)) : Prop := forall s i, In s l -> In i s -> i < n.
Lemma below_ok : forall n l, below n l = true <-> numbered n l.
Proof.
  intros n l. unfold below, numbered. rewrite forallb_forall. split.
  - intros H s i I J. specialize (H s I). rewrite forallb_forall in H. apply Nat.ltb_lt, H, J.
  - intros H s I. apply forallb_forall. intros i J. apply Nat.ltb_lt, (H s i I J).
Qed.
Lemma nodes_ok : forall n l, forallb (fun i => Nat.ltb i n) l = true <-> Forall (fun i => i < n) l.
Proof. intros n l. rewrite forallb_forall, Forall_forall. split; intros H x I; apply Nat.ltb_lt, H, I. Qed.

(* What a mesh must satisfy for the reader to accept it. *)
Theorem C41_devsim_finalize : forall m m', devsim_finalize m = (true, m') ->
  m_final m = false /\ m_final m' = true /\ 0 < m_ncoords m /\ m_regions m <> [] /\ map fst (m_regions m') = map fst (m_regions m) /\
  exists dim, forall n r, In (n, r) (m_regions m') ->
    mr_nodes r <> [] /\ mr_edges r <> [] /\ length (mr_nodes r) <= m_ncoords m /\ Forall (fun i => i < m_ncoords m) (mr_nodes r) /\
    numbered (length (mr_nodes r)) (mr_edges r) /\ numbered (length (mr_nodes r)) (mr_tris r) /\
    (mr_tets r <> [] <-> dim = 3) /\ (mr_tets r = [] -> (mr_tris r <> [] <-> dim = 2)).
Proof.
  intros m m'. unfold devsim_finalize. destruct (m_final m); [discriminate|]. cbv zeta.
  destruct (negb _ && _ && _) eqn:E; [|discriminate]. intros [= <-]. cbn [m_final m_regions m_ncoords].
  apply andb_prop in E. destruct E as [E F]. apply andb_prop in E. destruct E as [E G].
  split; [reflexivity|]. split; [reflexivity|]. split; [destruct (Nat.eqb_spec (m_ncoords m) 0); [discriminate|lia]|].
  split; [destruct (m_regions m); [discriminate|discriminate]|]. split; [rewrite map_map; reflexivity|].
  exists (first_dimension (m_regions m)). intros n r I. rewrite forallb_forall in F. specialize (F _ I). cbn [snd] in F. unfold region_ok in F.
  repeat (apply andb_prop in F; destruct F as [F ?]).
  split; [destruct (mr_nodes r); discriminate|]. split; [destruct (mr_edges r); discriminate|]. split; [apply Nat.leb_le; assumption|].
  split; [apply nodes_ok; assumption|]. split; [apply below_ok; assumption|]. split; [apply below_ok; assumption|].
  apply Nat.eqb_eq in F. unfold mregion_dimension in F. destruct (mr_tets r); cbn [nonempty] in F.
  - split; [split; [congruence|]|].
    + intros D. destruct (mr_tris r); cbn [nonempty] in F; lia.
    + intros _. destruct (mr_tris r); cbn [nonempty] in F; split; intros; try congruence; lia.
  - split; [split; [lia|discriminate]|discriminate].
Qed.
Print Assumptions C41_devsim_finalize.

(* ---- regions ---- *)
Lemma sorted_cons : forall V k (v : V) m, sorted ((k, v) :: m) -> sorted m /\ find k m = None.
Proof.
  intros V k v m H. split.
  - unfold sorted, keys in *. cbn in H. inversion H; assumption.
  - destruct (find k m) eqn:E; [|reflexivity]. apply sorted_NoDup in H. unfold keys in H. cbn in H. inversion H as [|? ? N _]; subst.
    exfalso. apply N. apply find_In in E. change k with (fst (k, v0)). apply in_map. exact E.
Qed.
Lemma devsim_regions_find : forall nc dim l acc rs, sorted l -> sorted acc -> devsim_regions nc dim l acc = Done rs ->
  sorted rs /\ forall n, match find n l with
    | Some r => exists x, find n rs = Some x /\ devsim_region nc r = Finished x
    | None => find n rs = find n acc end.
Proof.
  intros nc dim. induction l as [|[k r] l IH]; intros acc rs S A H; cbn [devsim_regions] in H.
  - injection H as <-. split; [exact A|]. intros n. reflexivity.
  - destruct (Nat.eqb _ _); [|discriminate]. destruct (devsim_region nc r) as [x| |] eqn:E; try discriminate.
    destruct (sorted_cons _ _ _ _ S) as [S' N]. destruct (IH _ _ S' (put_sorted _ _ _ A) H) as [B F]. split; [exact B|].
    intros n. specialize (F n). cbn [find]. destruct (String.eqb_spec n k) as [->|D].
    + rewrite N in F. rewrite find_put, String.eqb_refl in F by exact A. eauto.
    + destruct (find n l); [exact F|]. rewrite find_put in F by exact A. destruct (String.eqb_spec n k); [congruence|exact F].
Qed.
Lemma devsim_region_ok : forall nc r x, devsim_region nc r = Finished x ->
  r_nodes x = mr_nodes r /\ Forall (fun i => i < nc) (mr_nodes r) /\
  (forall s, In s (r_edges x) <-> In s (mr_edges r)) /\ (forall s, In s (r_tris x) <-> In s (mr_tris r)) /\ (forall s, In s (r_tets x) <-> In s (mr_tets r)) /\
  numbered (length (mr_nodes r)) (mr_edges r) /\ numbered (length (mr_nodes r)) (mr_tris r) /\ numbered (length (mr_nodes r)) (mr_tets r) /\
  r_edges x = sort_unique (mr_edges r) /\ r_tris x = sort_unique (mr_tris r).
Proof.
  intros nc r x. unfold devsim_region. cbv zeta.
  assert (T : forall s, In s (if Nat.eqb (mregion_dimension r) 3 then sort_unique (mr_tets r) else []) <-> In s (mr_tets r)).
  { intros s. unfold mregion_dimension. destruct (mr_tets r) as [|t l]; cbn [nonempty].
    - destruct (nonempty (mr_tris r)); cbn; tauto.
    - change (Nat.eqb 3 3) with true. cbv iota. apply sort_unique_In. }
  destruct (_ && _) eqn:E; [|discriminate]. destruct (finalize_region _ _ _ _) as [a| |]; try discriminate. intros [= <-]. cbn [r_nodes r_edges r_tris r_tets].
  apply andb_prop in E. destruct E as [E E4]. apply andb_prop in E. destruct E as [E E3]. apply andb_prop in E. destruct E as [E1 E2].
  apply below_ok in E2, E3, E4. apply nodes_ok in E1.
  split; [reflexivity|]. split; [exact E1|]. split; [intros; apply sort_unique_In|]. split; [intros; apply sort_unique_In|]. split; [exact T|].
  split; [intros s i I J; apply (E2 s i); [apply (proj2 (sort_unique_In _ _)), I|exact J]|]. split; [intros s i I J; apply (E3 s i); [apply (proj2 (sort_unique_In _ _)), I|exact J]|].
  split; [intros s i I J; apply (E4 s i); [apply T, I|exact J]|]. split; reflexivity.
Qed.
(* ---- contacts ---- *)
Lemma devsim_contacts_find : forall rs l acc cs, sorted l -> sorted acc -> devsim_contacts rs l acc = (true, cs) ->
  sorted cs /\ forall n, match find n l with
    | Some c => exists x, find n cs = Some x /\ devsim_contact rs c = Some x
    | None => find n cs = find n acc end.
Proof.
  intros rs. induction l as [|[k r] l IH]; intros acc cs S A H; cbn [devsim_contacts] in H.
  - injection H as <-. split; [exact A|]. intros n. reflexivity.
  - destruct (devsim_contact rs r) as [x|] eqn:E; try discriminate.
    destruct (sorted_cons _ _ _ _ S) as [S' N]. destruct (IH _ _ S' (put_sorted _ _ _ A) H) as [B F]. split; [exact B|].
    intros n. specialize (F n). cbn [find]. destruct (String.eqb_spec n k) as [->|D].
    + rewrite N in F. rewrite find_put, String.eqb_refl in F by exact A. eauto.
    + destruct (find n l); [exact F|]. rewrite find_put in F by exact A. destruct (String.eqb_spec n k); [congruence|exact F].
Qed.
(* elements written with distinct nodes in ascending order *)
Definition proper_elements (k : nat) (l : list (list nat)) : Prop := Forall (fun s => length s = k /\ ascending s /\ NoDup s) l.
Lemma part_elements_ok : forall k l r els, 0 < k -> proper_elements k l -> proper_elements k els -> numbered (length (r_nodes r)) els ->
  forall e, In e (part_elements l r (sort_unique els)) <-> exists s, In s l /\ nth_error (sort_unique els) e = Some s.
Proof.
  intros k l r els K PL PE NB e. unfold part_elements. rewrite in_flat_map. unfold proper_elements in *. rewrite Forall_forall in PL, PE.
  assert (W : Forall (wf k) els) by (apply Forall_forall; intros s I; destruct (PE s I) as (A & B & _); split; assumption).
  assert (D : Forall (@NoDup nat) (sort_unique els)) by (apply Forall_forall; intros s I; apply (proj1 (sort_unique_In _ _)) in I; apply PE, I).
  assert (L : lists (sort_unique els) (part_of k (sort_unique els))).
  { apply sort_lists with (k := k); [exact W|]. intros f. rewrite <- sort_unique_In. symmetry. apply part_own. apply Forall_forall. intros s I. apply (proj1 (sort_unique_In _ _)) in I. rewrite Forall_forall in W. apply W, I. }
  assert (Q : forall s, In s l -> (hd_error (around (sort_unique els) s) = Some e <-> nth_error (sort_unique els) e = Some s)).
  { intros s I. destruct (PL s I) as (A & B & C). apply (hd_around k (sort_unique els)); assumption. }
  split.
  - intros (s & I & J). exists s. split; [exact I|]. apply Q; [exact I|]. destruct (forallb _ s); [|destruct J]. destruct (hd_error _) as [x|]; [|destruct J].
    destruct J as [->|[]]. reflexivity.
  - intros (s & I & J). exists s. split; [exact I|]. assert (F : forallb (fun i => Nat.ltb i (length (r_nodes r))) s = true).
    { apply nodes_ok, Forall_forall. intros i H. apply (NB s i); [|exact H]. apply (proj1 (sort_unique_In _ _)). apply (nth_error_In _ _ J). }
    rewrite F. apply Q in J; [|exact I]. rewrite J. left. reflexivity.
Qed.
(* ---- interfaces ---- *)
Lemma devsim_interfaces_find : forall rs l acc d is_ mi, sorted l -> sorted acc -> devsim_interfaces rs l acc d = Done (is_, mi) ->
  sorted is_ /\ forall n, match find n l with
    | Some i => exists x r0 r1 ps, find n is_ = Some x /\ find (mi_region0 i) rs = Some r0 /\ find (mi_region1 i) rs = Some r1 /\
        i_region0 x = mi_region0 i /\ i_region1 x = mi_region1 i /\
        devsim_pairs rs i = Paired true (i_nodes0 x) (i_nodes1 x) ps /\ length (i_nodes0 x) = length (i_nodes1 x)
    | None => find n is_ = find n acc end.
Proof.
  intros rs. induction l as [|[k i] l IH]; intros acc d is_ mi S A H; cbn [devsim_interfaces] in H.
  - injection H as <- <-. split; [exact A|]. intros n. reflexivity.
  - destruct (devsim_pairs rs i) as [ok n0 n1 ps| |] eqn:E; try discriminate. destruct ok; [|discriminate].
    destruct (find (mi_region0 i) rs) as [r0|] eqn:E0; [|discriminate]. destruct (find (mi_region1 i) rs) as [r1|] eqn:E1; [|discriminate].
    destruct (Nat.eqb_spec (length n0) (length n1)) as [EL|]; [|discriminate].
    destruct (sorted_cons _ _ _ _ S) as [S' N]. destruct (IH _ _ _ _ S' (put_sorted _ _ _ A) H) as [B F]. split; [exact B|].
    intros n. specialize (F n). cbn [find]. destruct (String.eqb_spec n k) as [->|D].
    + rewrite N in F. rewrite find_put, String.eqb_refl in F by exact A. eexists _, r0, r1, ps. split; [exact F|]. cbn. repeat split; assumption.
    + destruct (find n l); [exact F|]. rewrite find_put in F by exact A. destruct (String.eqb_spec n k); [congruence|exact F].
Qed.
Lemma devsim_pairs_range : forall rs i r0 r1 n0 n1 ps, find (mi_region0 i) rs = Some r0 -> find (mi_region1 i) rs = Some r1 ->
  devsim_pairs rs i = Paired true n0 n1 ps -> Forall (fun j => j < length (r_nodes r0)) n0 /\ Forall (fun j => j < length (r_nodes r1)) n1 /\
  (mi_pairs i <> [] -> combine n0 n1 = mi_pairs i).
Proof.
  intros rs i r0 r1 n0 n1 ps E0 E1 H. assert (Z0 : mi_pairs i = [] \/ mi_pairs i <> []) by (destruct (mi_pairs i); [left; reflexivity|right; discriminate]). destruct Z0 as [Z|Z].
  - unfold devsim_pairs in H. rewrite E0, E1, Z in H. destruct (fix_node_pairs _ _ _ _); [|discriminate]. injection H as <- <- _.
    split; [|split; [|congruence]]; unfold part_nodes; apply Forall_forall; intros j I; apply filter_In in I; apply Nat.ltb_lt, I.
  - destruct (C43_explicit_pairs rs i r0 r1 n0 n1 ps Z E0 E1 H) as (A & L & _ & F). split; [|split; [|intros _; exact A]].
    + rewrite <- A in F. apply Forall_forall. intros j I. rewrite Forall_forall in F. destruct (In_nth_error _ _ I) as [q Eq].
      destruct (nth_error n1 q) as [b|] eqn:Eb; [|apply nth_error_None in Eb; pose proof (proj1 (nth_error_Some n0 q)); rewrite Eq in *; specialize (H0 ltac:(discriminate)); lia].
      apply (F (j, b)). clear - Eq Eb. revert n1 q Eq Eb. induction n0 as [|x l IH]; intros [|y m] [|q]; cbn; try discriminate; [intros [= ->] [= ->]; left; reflexivity|]. intros. right. eapply IH; eassumption.
    + rewrite <- A in F. apply Forall_forall. intros j I. rewrite Forall_forall in F. destruct (In_nth_error _ _ I) as [q Eq].
      destruct (nth_error n0 q) as [b|] eqn:Eb; [|apply nth_error_None in Eb; pose proof (proj1 (nth_error_Some n1 q)); rewrite Eq in *; specialize (H0 ltac:(discriminate)); lia].
      apply (F (b, j)). clear - Eq Eb. revert n1 q Eq Eb. induction n0 as [|x l IH]; intros [|y m] [|q]; cbn; try discriminate; [intros [= ->] [= ->]; left; reflexivity|]. intros. right. eapply IH; eassumption.
Qed.

(* ---- the device ---- *)
(* same names *)
Definition same_names {A B} (m : smap A) (m' : smap B) : Prop := forall n, find n m = None <-> find n m' = None.
(* A device that is created without error has exactly the regions, contacts and interfaces of the mesh.
   Every region has the nodes and the elements of the mesh; every contact is on a region of the device,
   has the given nodes, and the edges and triangles of the region that are given; every interface is
   between two regions of the device and pairs equally many nodes of both. *)
Theorem C41_devsim_device : forall m name devs devs' m', sorted devs -> sorted (m_regions m) -> sorted (m_contacts m) -> sorted (m_interfaces m) ->
  (forall n r, find n (m_regions m) = Some r -> proper_elements 2 (mr_edges r) /\ proper_elements 3 (mr_tris r)) ->
  devsim_create m name devs = Done (devs', m') ->
  exists d, find name devs' = Some d /\ same_names (d_regions d) (m_regions m) /\ same_names (d_contacts d) (m_contacts m) /\ same_names (d_interfaces d) (m_interfaces m) /\
  (forall n r x, find n (m_regions m) = Some r -> find n (d_regions d) = Some x ->
     r_nodes x = mr_nodes r /\ Forall (fun i => i < m_ncoords m) (mr_nodes r) /\
     (forall s, In s (r_edges x) <-> In s (mr_edges r)) /\ (forall s, In s (r_tris x) <-> In s (mr_tris r)) /\ (forall s, In s (r_tets x) <-> In s (mr_tets r)) /\
     numbered (length (mr_nodes r)) (mr_edges r) /\ numbered (length (mr_nodes r)) (mr_tris r) /\ numbered (length (mr_nodes r)) (mr_tets r)) /\
  (forall n c x, find n (m_contacts m) = Some c -> find n (d_contacts d) = Some x ->
     exists r, c_region x = mc_region c /\ find (c_region x) (d_regions d) = Some r /\ Forall (fun i => i < length (r_nodes r)) (c_nodes x) /\
       (mr_nodes (mc_part c) <> [] -> c_nodes x = mr_nodes (mc_part c)) /\
       (mr_edges (mc_part c) <> [] -> proper_elements 2 (mr_edges (mc_part c)) ->
          forall e, In e (c_edges x) <-> exists s, In s (mr_edges (mc_part c)) /\ nth_error (r_edges r) e = Some s) /\
       (mr_tris (mc_part c) <> [] -> proper_elements 3 (mr_tris (mc_part c)) ->
          forall e, In e (c_tris x) <-> exists s, In s (mr_tris (mc_part c)) /\ nth_error (r_tris r) e = Some s)) /\
  (forall n i x, find n (m_interfaces m) = Some i -> find n (d_interfaces d) = Some x ->
     exists r0 r1, i_region0 x = mi_region0 i /\ i_region1 x = mi_region1 i /\ find (i_region0 x) (d_regions d) = Some r0 /\ find (i_region1 x) (d_regions d) = Some r1 /\
       length (i_nodes0 x) = length (i_nodes1 x) /\ Forall (fun j => j < length (r_nodes r0)) (i_nodes0 x) /\ Forall (fun j => j < length (r_nodes r1)) (i_nodes1 x) /\
       (mi_pairs i <> [] -> combine (i_nodes0 x) (i_nodes1 x) = mi_pairs i)).
Proof.
  intros m name devs devs' m' SD SR SC SI PR H. unfold devsim_create in H. destruct (_ || _); [discriminate|]. cbv zeta in H.
  destruct (devsim_regions _ _ _ _) as [rs|rs|rs|] eqn:ER; try discriminate. destruct (devsim_contacts rs (m_contacts m) []) as [ok cs] eqn:EC. destruct ok; [|discriminate].
  destruct (devsim_interfaces rs (m_interfaces m) [] []) as [[is_ mi]|[? ?]|[? ?]|] eqn:EI; try discriminate. injection H as <- <-.
  assert (S0 : forall V, sorted ([] : smap V)) by (intros V; unfold sorted; constructor).
  destruct (devsim_regions_find _ _ _ _ _ SR (S0 _) ER) as [_ FR]. destruct (devsim_contacts_find _ _ _ _ SC (S0 _) EC) as [_ FC]. destruct (devsim_interfaces_find _ _ _ _ _ _ SI (S0 _) EI) as [_ FI].
  eexists. split; [rewrite find_put, String.eqb_refl by exact SD; reflexivity|]. cbn [with_interfaces with_contacts with_regions d_regions d_contacts d_interfaces].
  split; [intros n; specialize (FR n); destruct (find n (m_regions m)); [destruct FR as (x & -> & _); split; discriminate|rewrite FR; tauto]|].
  split; [intros n; specialize (FC n); destruct (find n (m_contacts m)); [destruct FC as (x & -> & _); split; discriminate|rewrite FC; tauto]|].
  split; [intros n; specialize (FI n); destruct (find n (m_interfaces m)); [destruct FI as (x & ? & ? & ? & -> & _); split; discriminate|rewrite FI; tauto]|].
  split; [|split].
  - intros n r x E X. specialize (FR n). rewrite E in FR. destruct FR as (x' & X' & D). assert (x' = x) by congruence. subst x'.
    destruct (devsim_region_ok _ _ _ D) as (A1 & A2 & A3 & A4 & A5 & A6 & A7 & A8 & _). repeat (split; [assumption|]). exact A8.
  - intros n c x E X. specialize (FC n). rewrite E in FC. destruct FC as (x' & X' & D). assert (x' = x) by congruence. subst x'.
    unfold devsim_contact in D. destruct (find (mc_region c) rs) as [r|] eqn:Er; [|discriminate]. cbv zeta in D. set (p := decompose_region (mc_part c)) in D. assert (Hp : p = decompose_region (mc_part c)) by reflexivity. clearbody p. destruct (forallb _ _) eqn:EF; [|discriminate].
    injection D as <-. cbn [c_region c_nodes c_edges c_tris]. exists r. split; [reflexivity|]. split; [exact Er|]. split; [apply nodes_ok, EF|].
    specialize (FR (mc_region c)). destruct (find (mc_region c) (m_regions m)) as [rm|] eqn:Em; [|rewrite Er in FR; discriminate].
    destruct FR as (r' & Er' & Dr). assert (r' = r) by congruence. subst r'. destruct (PR _ _ Em) as [P2 P3].
    destruct (devsim_region_ok _ _ _ Dr) as (A1 & _ & _ & _ & _ & A6 & A7 & _ & A9 & A10).
    split; [|split].
    + intros N. rewrite Hp. unfold decompose_region. cbn [mr_nodes]. destruct (mr_nodes (mc_part c)); [congruence|]. cbn [nonempty negb]. rewrite andb_false_r. reflexivity.
    + intros N P e. assert (Q : mr_edges (decompose_region (mc_part c)) = mr_edges (mc_part c)).
      { unfold decompose_region. cbn [mr_edges]. destruct (mr_edges (mc_part c)); [congruence|]. cbn [nonempty negb]. rewrite andb_false_r. reflexivity. }
      rewrite Hp, Q, A9. apply (part_elements_ok 2); [lia|exact P|exact P2|]. rewrite A1. exact A6.
    + intros N P e. assert (Q : mr_tris (decompose_region (mc_part c)) = mr_tris (mc_part c)).
      { unfold decompose_region. cbn [mr_tris]. destruct (mr_tris (mc_part c)); [congruence|]. cbn [nonempty negb]. rewrite andb_false_r. reflexivity. }
      rewrite Hp, Q, A10. apply (part_elements_ok 3); [lia|exact P|exact P3|]. rewrite A1. exact A7.
  - intros n i x E X. specialize (FI n). rewrite E in FI. destruct FI as (x' & r0 & r1 & ps & X' & E0 & E1 & B0 & B1 & D & L). assert (x' = x) by congruence. subst x'.
    exists r0, r1. destruct (devsim_pairs_range rs i r0 r1 _ _ ps E0 E1 D) as (Q0 & Q1 & Q2). rewrite B0, B1. repeat (split; [assumption || reflexivity|]). exact Q2.
Qed.
Print Assumptions C41_devsim_device.
(* A device with two regions, a contact and an interface. *)
Definition ex_mesh : dmesh :=
  {| m_ncoords := 6; m_regions := [("a", seg [0; 1; 2]); ("b", seg [4; 2; 1])];
     m_contacts := [("left", {| mc_region := "a"; mc_part := {| mr_nodes := [0; 1]; mr_edges := [[0; 1]]; mr_tris := []; mr_tets := [] |} |})];
     m_interfaces := [("i", {| mi_region0 := "a"; mi_region1 := "b"; mi_part0 := at_nodes []; mi_part1 := at_nodes []; mi_pairs := [(1, 2); (2, 1)] |})];
     m_final := false |}.
Example C41_devsim_device_case : exists m devs m', devsim_finalize ex_mesh = (true, m) /\ devsim_create m "dev" [] = Done (devs, m') /\
  sorted (m_regions m) /\ sorted (m_contacts m) /\ sorted (m_interfaces m) /\
  (forall n r, find n (m_regions m) = Some r -> proper_elements 2 (mr_edges r) /\ proper_elements 3 (mr_tris r)).
Proof.
  eexists _, _, _. split; [vm_compute; reflexivity|]. split; [vm_compute; reflexivity|].
  split; [repeat constructor|]. split; [repeat constructor|]. split; [repeat constructor|].
  intros n r F. apply find_In in F. cbn in F.
  assert (P : proper_elements 2 [[0; 1]; [1; 2]]). { repeat constructor; cbn; lia. }
  destruct F as [[= <- <-]|[[= <- <-]|[]]]; (split; [exact P|constructor]).
Qed.
