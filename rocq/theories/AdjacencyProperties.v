(* C50: the connections between the edges, triangles and tetrahedra of a region. *)
From Coq Require Import List Bool Arith Lia Permutation Sorting.Sorted.
Import ListNotations.
Require Import Verif.Adjacency Verif.LoaderSpec Verif.AdjacencySpec Verif.AdjacencyProofs Verif.AdjacencyFinal Verif.LoaderProofs.
Local Arguments Nat.ltb : simpl never.
Local Arguments Nat.leb : simpl never.
Local Arguments Nat.eqb : simpl never.

Lemma cells_at_around : forall k cells f, simplices k cells -> f <> [] -> NoDup f -> cells_at cells f (around cells f).
Proof.
  intros k cells f [_ H] N D. destruct (around_spec cells f N) as (_ & U & _). split.
  - apply U. eapply Forall_impl; [|exact H]. cbn. tauto.
  - intros i. apply around_face; assumption.
Qed.
Lemma cells_at_length : forall cells f p q, cells_at cells f p -> cells_at cells f q -> length p = length q.
Proof.
  intros cells f p q [N1 H1] [N2 H2]. apply Permutation_length, NoDup_Permutation; auto. intros i. rewrite H1, H2. tauto.
Qed.
Lemma one_or_two_spec : forall l, one_or_two l = true <-> length l = 1 \/ length l = 2.
Proof. intros l. unfold one_or_two. rewrite orb_true_iff, !Nat.eqb_eq. tauto. Qed.
Lemma shared_forallb : forall w k sides cells, simplices (S w) sides -> simplices k cells ->
  (forallb one_or_two (map (around cells) sides) = true <-> shared_by_two sides cells).
Proof.
  intros w k sides cells SS SC. rewrite forallb_forall. destruct SS as [_ FS]. rewrite Forall_forall in FS. split.
  - intros H f I. destruct (FS f I) as (L & D & _). assert (N : f <> []) by (intros ->; discriminate L).
    exists (around cells f). split; [apply (cells_at_around k); assumption|]. apply one_or_two_spec, H, in_map, I.
  - intros H l I. apply in_map_iff in I. destruct I as (f & <- & I). destruct (FS f I) as (L & D & _).
    assert (N : f <> []) by (intros ->; discriminate L). destruct (H f I) as (p & Hp & Lp).
    apply one_or_two_spec. rewrite (cells_at_length _ _ _ _ (cells_at_around k cells f SC N D) Hp). exact Lp.
Qed.
Lemma pairs_In : forall (edges : list simplex) (ar : simplex -> list nat) b e t,
  In (e, t) (flat_map (fun p => map (pair (fst p)) (snd p)) (combine (seq b (length edges)) (map ar edges))) <->
  b <= e /\ exists f, nth_error edges (e - b) = Some f /\ In t (ar f).
Proof.
  induction edges as [|f edges IH]; intros ar b e t; cbn [length seq map combine flat_map fst snd].
  - split; [intros []|]. intros (_ & f & H & _). destruct (e - b); discriminate.
  - rewrite in_app_iff, IH. split.
    + intros [I|(L & g & E & I)].
      * apply in_map_iff in I. destruct I as (t' & E & I). injection E as <- <-. split; [lia|]. rewrite Nat.sub_diag. exists f. auto.
      * split; [lia|]. replace (e - b) with (S (e - S b)) by lia. exists g. auto.
    + intros (L & g & E & I). destruct (Nat.eq_dec e b) as [->|N].
      * left. rewrite Nat.sub_diag in E. cbn in E. injection E as <-. apply in_map, I.
      * right. split; [lia|]. replace (e - b) with (S (e - S b)) in E by lia. exists g. auto.
Qed.
Lemma pairs_NoDup : forall (edges : list simplex) (ar : simplex -> list nat) b, (forall f, In f edges -> NoDup (ar f)) ->
  NoDup (flat_map (fun p => map (pair (fst p)) (snd p)) (combine (seq b (length edges)) (map ar edges))).
Proof.
  induction edges as [|f edges IH]; intros ar b H; cbn [length seq map combine flat_map fst snd]; [constructor|].
  assert (G : forall l1 l2 : list (nat * nat), NoDup l1 -> NoDup l2 -> (forall x, In x l1 -> ~ In x l2) -> NoDup (l1 ++ l2)).
  { induction l1 as [|x l1 IH1]; intros l2 N1 N2 D; cbn; [exact N2|]. inversion N1; subst. constructor.
    - rewrite in_app_iff. intros [I|I]; [contradiction|]. apply (D x); [left; reflexivity|exact I].
    - apply IH1; auto. intros y I. apply D. right. exact I. }
  apply G.
  - apply FinFun.Injective_map_NoDup; [intros x y E; injection E; auto|]. apply H. left. reflexivity.
  - apply IH. intros g I. apply H. right. exact I.
  - intros [e t] I J. apply in_map_iff in I. destruct I as (t' & E & _). injection E as <- <-. apply pairs_In in J. lia.
Qed.


Definition et_of (edges tris : list simplex) := match tris with [] => [] | _ => map (around tris) edges end.
Definition te_of (edges tris : list simplex) : table := match tris with [] => [] | _ => opposite 3 edges tris (et_of edges tris) end.
Definition first_check (dim : nat) (edges tris : list simplex) := match tris with [] => true | _ => negb (dim =? 2) || forallb one_or_two (et_of edges tris) end.
Lemma finalize_none : forall dim edges tris, finalize_region dim edges tris [] =
  if first_check dim edges tris then Finished {| adj_edge_tris := et_of edges tris; adj_tri_edges := te_of edges tris;
     adj_edge_tets := []; adj_tri_tets := []; adj_tet_tris := []; adj_tet_data := [] |} else Asserted.
Proof. reflexivity. Qed.
Lemma finalize_some : forall dim edges tris tets, tets <> [] -> finalize_region dim edges tris tets =
  if first_check dim edges tris then
    if forallb one_or_two (map (around tets) tris) then
      match edge_data edges tris (te_of edges tris) (opposite 4 tris tets (map (around tets) tris))
              (flat_map (fun p => map (pair (fst p)) (snd p)) (combine (seq 0 (length edges)) (map (around tets) edges)))
              (repeat [] (length tets)) with
      | Finished d => Finished {| adj_edge_tris := et_of edges tris; adj_tri_edges := te_of edges tris;
                                  adj_edge_tets := map (around tets) edges; adj_tri_tets := map (around tets) tris;
                                  adj_tet_tris := opposite 4 tris tets (map (around tets) tris); adj_tet_data := d |}
      | Asserted => Asserted
      | Invalid => Invalid
      end
    else Asserted
  else Asserted.
Proof. intros dim edges tris [|q tets] N; [congruence|reflexivity]. Qed.

(* A region with all the edges of its triangles and all the triangles of its tetrahedra: it is
   accepted exactly if every edge of a two dimensional region with triangles belongs to one or two
   triangles, and every triangle of a region with tetrahedra to one or two tetrahedra.  There is no
   undefined behaviour, and an accepted region has the right connections. *)
Theorem C50_connections : forall dim edges tris tets, complete_region edges tris tets ->
  let ok := (tris <> [] -> dim = 2 -> shared_by_two edges tris) /\ (tets <> [] -> shared_by_two tris tets) in
  match finalize_region dim edges tris tets with
  | Finished a => ok /\ connected edges tris tets a
  | Asserted => ~ ok
  | Invalid => False
  end.
Proof.
  intros dim edges tris tets CR ok. pose proof CR as [SE ST SQ H2 H3].
  assert (W2 : 0 < 2) by lia. assert (W3 : 0 < 3) by lia.
  assert (B1 : first_check dim edges tris = true <-> (tris <> [] -> dim = 2 -> shared_by_two edges tris)).
  { destruct tris as [|s tr] eqn:ET; [split; [intros _ X; congruence|reflexivity]|].
    change (first_check dim edges (s :: tr)) with (negb (dim =? 2) || forallb one_or_two (map (around (s :: tr)) edges)).
    rewrite <- ET in *. rewrite orb_true_iff, negb_true_iff, Nat.eqb_neq, (shared_forallb 1 3 edges tris SE ST).
    split; [intros [X|X] _ Y; [contradiction|exact X]|]. intros X. destruct (Nat.eq_dec dim 2) as [->|]; [|auto]. right. apply X; congruence. }
  assert (TQ : tris <> [] -> te_of edges tris = opposite 3 edges tris (map (around tris) edges)) by (destruct tris; [congruence|reflexivity]).
  assert (TE : forall t c j, nth_error tris t = Some c -> j < 3 ->
    exists i f, nth j (nth t (te_of edges tris) []) None = Some i /\ nth_error edges i = Some f /\ opposite_to f c j).
  { intros t c j E J. destruct (side_of 2 edges tris SE ST H2 W2 t c j E J) as (i & f & A & B & C). exists i, f.
    split; [|auto]. rewrite TQ by (intros ->; destruct t; discriminate). exact C. }
  assert (EA : forall k cells sides e f, simplices (S k) sides -> (exists m, simplices m cells) -> nth_error sides e = Some f ->
     cells_at cells f (nth e (map (around cells) sides) [])).
  { intros k cells sides e f SS [m SC] E. assert (Q : nth e (map (around cells) sides) [] = around cells f) by (apply nth_error_nth, map_nth_error, E). rewrite Q.
    destruct SS as [_ FS]. rewrite Forall_forall in FS. destruct (FS f (nth_error_In _ _ E)) as (L & D & _).
    apply (cells_at_around m); auto. intros ->. discriminate L. }
  assert (ET : tris <> [] -> forall e f, nth_error edges e = Some f -> cells_at tris f (nth e (et_of edges tris) [])).
  { intros N e f E. replace (et_of edges tris) with (map (around tris) edges) by (destruct tris; [congruence|reflexivity]). apply (EA 1); eauto. }
  assert (TN : tets = [] \/ tets <> []) by (destruct tets; [left; reflexivity|right; discriminate]).
  destruct TN as [->|TN].
  - rewrite finalize_none. destruct (first_check dim edges tris) eqn:Eb; [|intros [X _]; apply B1 in X; discriminate].
    split; [split; [apply B1; reflexivity|congruence]|]. constructor; cbn [adj_edge_tris adj_tri_edges adj_edge_tets adj_tri_tets adj_tet_tris adj_tet_data]; try congruence.
    + exact ET. + exact TE.
    + intros [|t]; discriminate. + intros [|t]; discriminate. + intros [|t]; discriminate.
  - rewrite (finalize_some _ _ _ _ TN). destruct (first_check dim edges tris) eqn:Eb; [|intros [X _]; apply B1 in X; discriminate].
    pose proof (shared_forallb 2 4 tris tets ST SQ) as B2.
    destruct (forallb one_or_two (map (around tets) tris)) eqn:Eb2; [|intros [_ X]; specialize (X TN); apply B2 in X; discriminate].
    assert (RN : tris <> []).
    { destruct tets as [|c cs]; [congruence|]. destruct (side_of 3 tris (c :: cs) ST SQ H3 W3 0 c 0 eq_refl ltac:(lia)) as (i & f & E & _).
      intros ->. destruct i; discriminate. }
    rewrite (TQ RN).
    set (pairs := flat_map _ _).
    assert (PI : forall e t, In (e, t) pairs <-> exists f, nth_error edges e = Some f /\ In t (around tets f)).
    { intros e t. unfold pairs. rewrite pairs_In, Nat.sub_0_r. split; [tauto|]. split; [lia|assumption]. }
    assert (PN : NoDup pairs).
    { apply pairs_NoDup. intros f I. destruct SE as [_ FE]. rewrite Forall_forall in FE. destruct (FE f I) as (L & D & _).
      apply (cells_at_around 4 tets f SQ); [intros ->; discriminate L|exact D]. }
    assert (AR : forall e f t, nth_error edges e = Some f -> (In t (around tets f) <-> exists c, nth_error tets t = Some c /\ face f c)).
    { intros e f t E. destruct SE as [_ FE]. rewrite Forall_forall in FE. destruct (FE f (nth_error_In _ _ E)) as (L & D & _).
      apply around_face; [intros ->; discriminate L|exact D]. }
    destruct (edge_data_spec edges tris tets CR pairs (repeat [] (length tets))) as (d & Ed & Ld & Hd).
    { apply Forall_forall. intros [e t] I. apply PI in I. destruct I as (f & Ef & It). apply (AR e f t Ef) in It. destruct It as (c & Ec & Fc).
      exists f, c. auto. }
    { apply repeat_length. }
    match goal with |- context [match ?x with Finished _ => _ | Asserted => _ | Invalid => _ end] =>
      match x with edge_data _ _ _ _ _ _ => replace x with (Finished d) by (symmetry; exact Ed) end end.
    split; [split; [apply B1; reflexivity|intros _; apply B2; reflexivity]|].
    assert (HD : forall t c, nth_error tets t = Some c ->
      Forall2 (fun e x => exists edge, nth_error edges e = Some edge /\ good_data tris x e edge c) (map fst (filter (fun p => snd p =? t) pairs)) (nth t d [])).
    { intros t c E. destruct (Hd t c E) as (ds & A & B). rewrite nth_repeat in A. cbn in A. rewrite A. exact B. }
    constructor; cbn [adj_edge_tris adj_tri_edges adj_edge_tets adj_tri_tets adj_tet_tris adj_tet_data].
    + exact ET.
    + rewrite (TQ RN) in TE. exact TE.
    + intros _ e f E. apply (EA 1); eauto.
    + intros _ e f E. apply (EA 2); eauto.
    + intros t c j E J. destruct (side_of 3 tris tets ST SQ H3 W3 t c j E J) as (i & f & A & B & C). exists i, f. auto.
    + intros t c E. specialize (HD t c E).
      assert (M : map ed_edge (nth t d []) = map fst (filter (fun p => snd p =? t) pairs)).
      { clear - HD. induction HD as [|e x l l' (f & _ & G & _) F IH]; cbn; [reflexivity|]. rewrite IH, G. reflexivity. }
      rewrite M. split.
      * clear - PN. induction pairs as [|[e s] l IH]; cbn; [constructor|]. inversion PN; subst.
        destruct (Nat.eqb_spec s t) as [->|]; [|auto]. cbn. constructor; [|auto].
        intros I. apply in_map_iff in I. destruct I as ([e' s'] & Q & I). cbn in Q. subst e'. apply filter_In in I.
        destruct I as [I J]. cbn in J. apply Nat.eqb_eq in J. subst. contradiction.
      * intros e. rewrite in_map_iff. split.
        -- intros ([e' s] & <- & I). apply filter_In in I. destruct I as [I J]. cbn [fst snd] in *. apply Nat.eqb_eq in J. subst s.
           apply PI in I. destruct I as (f & Ef & It). exists f. split; [exact Ef|]. apply (AR e' f t Ef) in It. destruct It as (c' & Ec & Fc). congruence.
        -- intros (f & Ef & Fc). exists (e, t). split; [reflexivity|]. apply filter_In. cbn. rewrite Nat.eqb_refl. split; [|reflexivity].
           apply PI. exists f. split; [exact Ef|]. apply (AR e f t Ef). exists c. auto.
    + intros t c x E I. specialize (HD t c E).
      assert (G : exists e f, nth_error edges e = Some f /\ good_data tris x e f c).
      { clear - HD I. induction HD as [|e y l l' (f & A & G) F IH]; [destruct I|]. destruct I as [->|I]; [exists e, f; auto|auto]. }
      destruct G as (e & f & Ef & G1 & G2 & G3 & G4). exists f.
      destruct (ed_faces x) as [|[[j1 t1] o1] [|[[j2 t2] o2] [|? ?]]]; cbn in G2; try lia.
      destruct (G4 j1 t1 o1) as (s1 & n1 & A1 & A2 & A3 & A4 & A5); [left; reflexivity|].
      destruct (G4 j2 t2 o2) as (s2 & n2 & C1 & C2 & C3 & C4 & C5); [right; left; reflexivity|].
      exists j1, t1, s1, n1, j2, t2, s2, n2. rewrite G1. split; [exact Ef|]. split; [rewrite A4, C4; reflexivity|].
      split; [exact A2|]. split; [exact C2|]. split; [|split; [exact A1|split; [exact A3|split; [exact A5|split; [exact C1|split; [exact C3|exact C5]]]]]].
      cbn in G3. inversion G3; subst. cbn in *. intuition.
Qed.
Print Assumptions C50_connections.

(* two tetrahedra with a common triangle are complete and accepted *)
Example two_tets : complete_region
   [[0;1];[0;2];[0;3];[1;2];[1;3];[1;4];[2;3];[2;4];[3;4]]
   [[0;1;2];[0;1;3];[0;2;3];[1;2;3];[1;2;4];[1;3;4];[2;3;4]] [[0;1;2;3];[1;2;3;4]] /\
  exists a, finalize_region 3
   [[0;1];[0;2];[0;3];[1;2];[1;3];[1;4];[2;3];[2;4];[3;4]]
   [[0;1;2];[0;1;3];[0;2;3];[1;2;3];[1;2;4];[1;3;4];[2;3;4]] [[0;1;2;3];[1;2;3;4]] = Finished a /\
   nth 3 (adj_tri_tets a) [] = [0; 1] /\ nth 0 (adj_tet_tris a) [] = [Some 3; Some 2; Some 1; Some 0].
Proof.
  split; [|eexists; split; [vm_compute; reflexivity|split; reflexivity]].
  assert (S : forall k l, forallb (fun f => (length f =? k) && (fix asc l := match l with x :: ((y :: _) as t) => (x <? y) && asc t | _ => true end) f) l = true ->
     Forall (fun f => length f = k /\ NoDup f /\ ascending f) l).
  { intros k l H. rewrite forallb_forall in H. apply Forall_forall. intros f I. specialize (H f I). apply andb_prop in H. destruct H as [H1 H2].
    apply Nat.eqb_eq in H1. split; [exact H1|].
    assert (G : StronglySorted lt f).
    { apply Sorted_StronglySorted; [intros x y z; lia|]. clear - H2. induction f as [|x t IH]; [constructor|]. destruct t as [|y t]; [constructor; constructor|].
      apply andb_prop in H2. destruct H2 as [A B]. constructor; [apply IH, B|]. constructor. apply Nat.ltb_lt, A. }
    clear - G. split.
    - induction G as [|x l G IH F]; constructor; auto. intros I. rewrite Forall_forall in F. specialize (F x I). lia.
    - induction G as [|x l G IH F]; constructor; auto. eapply Forall_impl; [|exact F]. cbn. lia. }
  assert (N : forall l : list (list nat), (fix nd l := match l with [] => true | x :: t => negb (if in_dec (list_eq_dec Nat.eq_dec) x t then true else false) && nd t end) l = true -> NoDup l).
  { induction l as [|x l IH]; intros H; constructor; apply andb_prop in H; destruct H as [A B]; [|apply IH, B].
    destruct (in_dec (list_eq_dec Nat.eq_dec) x l); [discriminate|assumption]. }
  constructor.
  - split; [apply N; vm_compute; reflexivity|apply S; vm_compute; reflexivity].
  - split; [apply N; vm_compute; reflexivity|apply S; vm_compute; reflexivity].
  - split; [apply N; vm_compute; reflexivity|apply S; vm_compute; reflexivity].
  - intros f c I L A F. 
    assert (NC : NoDup c) by (cbn in I; intuition; subst; repeat constructor; cbn; intuition; discriminate).
    assert (LC : length c = 3) by (cbn in I; intuition; subst; reflexivity).
    assert (AC : ascending c) by (cbn in I; intuition; subst; repeat constructor).
    destruct (face_without f c NC) as (j & J & P); [lia|exact F|].
    assert (E : f = removed c j).
    { apply LoaderProofs.sorted_perm_eq; [exact A|apply removed_asc, AC|]. apply (Permutation_cons_inv (a := nth j c 0)).
      eapply Permutation_trans; [exact P|apply Permutation_sym, removed_perm, J]. }
    subst f. clear - I J LC. rewrite LC in J. cbn in I.
    destruct j as [|[|[|j]]]; [| | |lia]; intuition; subst; cbn; tauto.
  - intros f c I L A F.
    assert (NC : NoDup c) by (cbn in I; intuition; subst; repeat constructor; cbn; intuition; discriminate).
    assert (LC : length c = 4) by (cbn in I; intuition; subst; reflexivity).
    assert (AC : ascending c) by (cbn in I; intuition; subst; repeat constructor).
    destruct (face_without f c NC) as (j & J & P); [lia|exact F|].
    assert (E : f = removed c j).
    { apply LoaderProofs.sorted_perm_eq; [exact A|apply removed_asc, AC|]. apply (Permutation_cons_inv (a := nth j c 0)).
      eapply Permutation_trans; [exact P|apply Permutation_sym, removed_perm, J]. }
    subst f. clear - I J LC. rewrite LC in J. cbn in I.
    destruct j as [|[|[|[|j]]]]; [| | | |lia]; intuition; subst; cbn; tauto.
Qed.

(* Without all its edges a region is accepted with missing connections (null pointers that the
   geometry models dereference), or its creation has undefined behaviour.  Such lists are accepted
   by the devsim format (C41_devsim_refuted). *)
Theorem C50_missing_edge_refuted : exists a, finalize_region 2 [[0;1];[1;2]] [[0;1;2]] [] = Finished a /\
  nth 1 (nth 0 (adj_tri_edges a) []) None = None.
Proof. eexists. split; [vm_compute; reflexivity|reflexivity]. Qed.
Print Assumptions C50_missing_edge_refuted.
Theorem C50_missing_edge_tet_refuted :
  finalize_region 3 [[0;1];[0;2];[0;3];[1;2];[1;3]] [[0;1;2];[0;1;3];[0;2;3];[1;2;3]] [[0;1;2;3]] = Invalid.
Proof. vm_compute. reflexivity. Qed.
Print Assumptions C50_missing_edge_tet_refuted.
(* An element that names a node twice is accepted, with missing connections: the decomposition of a
   triangle 0 0 1 has the edges 0 0 and 0 1, and all slots but one are null. *)
Theorem C50_degenerate_refuted : exists a, finalize_region 2 [[0;0];[0;1]] [[0;0;1]] [] = Finished a /\
  nth 0 (adj_tri_edges a) [] = [None; None; Some 0].
Proof. eexists. split; [vm_compute; reflexivity|reflexivity]. Qed.
Print Assumptions C50_degenerate_refuted.
