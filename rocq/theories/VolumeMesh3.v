(* The node volumes of a region with tetrahedra. *)
From Coq Require Import List Arith Lia Reals Lra Permutation Sorted.
From Verif Require Import Adjacency LoaderSpec AdjacencySpec AdjacencyProofs AdjacencyFinal AdjacencyProperties Geometry GeometrySpec GeometryProofs Volume VolumeGeom VolumeSpec VolumeProofs VolumeMesh AssemblyProofs ContactProofs.
Import ListNotations.
Open Scope R_scope.
Open Scope nat_scope.
Local Arguments Nat.ltb : simpl never.
Local Arguments Nat.eqb : simpl never.

Lemma tet_shape : forall c, length c = 4 -> NoDup c -> ascending c -> exists x y z w, c = [x; y; z; w] /\ x < y /\ y < z /\ z < w.
Proof.
  intros [|x c] L N A; [discriminate|]. inversion N as [|? ? N1 N']; subst. inversion A as [|? ? A' F1]; subst.
  destruct (tri_shape c ltac:(cbn in L; lia) N' A') as (y & z & w & -> & YZ & ZW). exists x, y, z, w. split; [reflexivity|].
  inversion F1; subst. cbn in N1. lia.
Qed.
Lemma asc3 : forall x y z, x <= y -> y <= z -> ascending [x; y; z].
Proof. intros x y z H K. constructor; [apply asc2; exact K|]. repeat constructor; lia. Qed.
Section Rows3.
Variables (dim : nat) (edges tris tets : list simplex) (a : adjacency).
Hypothesis CR : complete_region edges tris tets.
Hypothesis FIN : finalize_region dim edges tris tets = Finished a.
Lemma tet_asc : forall e f, nth_error tets e = Some f -> length f = 4 /\ NoDup f /\ ascending f.
Proof. intros e f E. destruct (cr_tets _ _ _ CR) as [_ H]. rewrite Forall_forall in H. apply H. apply (nth_error_In _ _ E). Qed.
Lemma tet_idx : forall t, t < length tets -> exists c, nth_error tets t = Some c.
Proof. intros t H. destruct (nth_error tets t) as [c|] eqn:E; [eauto|]. apply nth_error_None in E. lia. Qed.
Lemma tet_row : forall t c, nth_error tets t = Some c -> exists x y z w i0 i1 i2 i3, c = [x; y; z; w] /\ x < y /\ y < z /\ z < w /\
  nth t (adj_tet_tris a) [] = [Some i0; Some i1; Some i2; Some i3] /\
  nth_error tris i0 = Some [y; z; w] /\ nth_error tris i1 = Some [x; z; w] /\ nth_error tris i2 = Some [x; y; w] /\ nth_error tris i3 = Some [x; y; z].
Proof.
  intros t c E. destruct (tet_asc t c E) as (L & N & A). destruct (tet_shape c L N A) as (x & y & z & w & -> & XY & YZ & ZW).
  destruct (finalize_lists _ _ _ _ _ FIN) as (_ & _ & TT). rewrite TT by (intros ->; destruct t; discriminate).
  destruct (row_spec 3 tris tets (cr_tris _ _ _ CR) (cr_tets _ _ _ CR) (cr_tet_sides _ _ _ CR) ltac:(lia) t _ E) as (l & R & Ll & F).
  rewrite R. destruct l as [|i0 [|i1 [|i2 [|i3 [|i4 l]]]]]; try discriminate Ll. cbn [seq] in F.
  inversion F as [|? ? ? ? F0 F1]; subst. inversion F1 as [|? ? ? ? F2 F3]; subst. inversion F3 as [|? ? ? ? F4 F5]; subst. inversion F5 as [|? ? ? ? F6 _]; subst.
  destruct F0 as (f0 & E0 & O0), F2 as (f1 & E1 & O1), F4 as (f2 & E2 & O2), F6 as (f3 & E3 & O3).
  assert (AT : forall i f, nth_error tris i = Some f -> ascending f) by (intros i f Ef; apply (tri_asc edges tris tets CR i f Ef)).
  assert (G : forall i f g j, nth_error tris i = Some f -> ascending g -> opposite_to f [x; y; z; w] j -> opposite_to g [x; y; z; w] j -> nth_error tris i = Some g).
  { intros i f g j Ef Ag Of Og. rewrite Ef. f_equal. apply (opp_eq f [x; y; z; w] j); [apply (AT _ _ Ef)|exact Ag|exact Of|exact Og]. }
  exists x, y, z, w, i0, i1, i2, i3. split; [reflexivity|]. split; [exact XY|]. split; [exact YZ|]. split; [exact ZW|]. split; [reflexivity|].
  split; [apply (G _ _ _ 0 E0); [apply asc3; lia|exact O0|]|]. { unfold opposite_to. cbn. apply Permutation_refl. }
  split; [apply (G _ _ _ 1 E1); [apply asc3; lia|exact O1|]|]. { unfold opposite_to. cbn. apply perm_swap. }
  split; [apply (G _ _ _ 2 E2); [apply asc3; lia|exact O2|]|]. { unfold opposite_to. cbn. eapply Permutation_trans; [apply perm_swap|]. apply perm_skip, perm_swap. }
  apply (G _ _ _ 3 E3); [apply asc3; lia|exact O3|]. unfold opposite_to. cbn. apply (Permutation_cons_append [x; y; z] w).
Qed.
(* the six edges *)
Lemma six : forall t c, nth_error tets t = Some c -> exists x y z w i1 i2 i3 i4 i5 i6, c = [x; y; z; w] /\ x < y /\ y < z /\ z < w /\
  nth_error edges i1 = Some [x; y] /\ nth_error edges i2 = Some [x; z] /\ nth_error edges i3 = Some [x; w] /\
  nth_error edges i4 = Some [y; z] /\ nth_error edges i5 = Some [y; w] /\ nth_error edges i6 = Some [z; w].
Proof.
  intros t c E. destruct (tet_row t c E) as (x & y & z & w & i0 & i1 & i2 & i3 & Hc & XY & YZ & ZW & _ & E0 & E1 & E2 & E3).
  destruct (tri_row dim edges tris tets a CR FIN _ _ E0) as (u0 & v0 & w0 & j0 & j1 & j2 & H0 & _ & _ & _ & K0 & K1 & K2). injection H0 as <- <- <-.
  destruct (tri_row dim edges tris tets a CR FIN _ _ E1) as (u1 & v1 & w1 & l0 & l1 & l2 & H1 & _ & _ & _ & L0 & L1 & L2). injection H1 as <- <- <-.
  destruct (tri_row dim edges tris tets a CR FIN _ _ E2) as (u2 & v2 & w2 & m0 & m1 & m2 & H2 & _ & _ & _ & M0 & M1 & M2). injection H2 as <- <- <-.
  exists x, y, z, w, m2, l2, l1, j2, j1, j0. repeat split; assumption.
Qed.
Definition tet_es (t : nat) : list nat := map ed_edge (nth t (adj_tet_data a) []).
Lemma tet_slots_es : forall t, tet_slots a t = map Some (tet_es t).
Proof. intros t. unfold tet_slots, tet_es. rewrite map_map. reflexivity. Qed.
Lemma edge_face2 : forall x y z w f, length f = 2 -> ascending f -> face f [x; y; z; w] -> x < y -> y < z -> z < w ->
  In f [[x; y]; [x; z]; [x; w]; [y; z]; [y; w]; [z; w]].
Proof.
  intros x y z w [|u [|v [|]]] L A [r Pm] XY YZ ZW; try discriminate.
  assert (N : NoDup ([u; v] ++ r)). { apply (Permutation_NoDup (Permutation_sym Pm)). repeat constructor; cbn; lia. }
  assert (Iu : In u [x; y; z; w]) by (apply (Permutation_in _ Pm); cbn; tauto). assert (Iv : In v [x; y; z; w]) by (apply (Permutation_in _ Pm); cbn; tauto).
  assert (UV : u < v). { inversion A as [|? ? _ F]; subst. inversion F; subst. cbn in N. inversion N as [|? ? N1 _]; subst. cbn in N1. lia. }
  clear - Iu Iv UV XY YZ ZW. cbn [In] in *.
  destruct Iu as [<-|[<-|[<-|[<-|[]]]]], Iv as [<-|[<-|[<-|[<-|[]]]]]; try lia; tauto.
Qed.
Lemma face_six : forall x y z w f, In f [[x; y]; [x; z]; [x; w]; [y; z]; [y; w]; [z; w]] -> face f [x; y; z; w].
Proof.
  intros x y z w f H. cbn [In] in H. destruct H as [<-|[<-|[<-|[<-|[<-|[<-|[]]]]]]].
  - exists [z; w]. apply Permutation_refl.
  - exists [y; w]. cbn. apply perm_skip, perm_swap.
  - exists [y; z]. cbn. apply perm_skip. apply (Permutation_cons_append [y; z] w).
  - exists [x; w]. cbn. eapply Permutation_trans; [apply perm_skip, perm_swap|]. apply perm_swap.
  - exists [x; z]. cbn. exact (Permutation_trans (Permutation_app_comm [y; w] [x; z]) (perm_skip x (perm_swap y z [w]))).
  - exists [x; y]. cbn. apply (Permutation_app_comm [z; w] [x; y]).
Qed.
Lemma tet_es_perm : forall t x y z w i1 i2 i3 i4 i5 i6, nth_error tets t = Some [x; y; z; w] -> x < y -> y < z -> z < w ->
  nth_error edges i1 = Some [x; y] -> nth_error edges i2 = Some [x; z] -> nth_error edges i3 = Some [x; w] ->
  nth_error edges i4 = Some [y; z] -> nth_error edges i5 = Some [y; w] -> nth_error edges i6 = Some [z; w] ->
  Permutation (tet_es t) [i1; i2; i3; i4; i5; i6].
Proof.
  intros t x y z w i1 i2 i3 i4 i5 i6 E XY YZ ZW E1 E2 E3 E4 E5 E6.
  destruct (cn_tet_edges _ _ _ _ (conn dim edges tris tets a CR FIN) t _ E) as [N H]. unfold tet_es. apply NoDup_Permutation; [exact N| |].
  - assert (D : forall i j f g, nth_error edges i = Some f -> nth_error edges j = Some g -> f <> g -> i <> j) by (intros i j f g A B C ->; congruence).
    repeat (constructor; [cbn [In]; intros Q; repeat (destruct Q as [Q|Q]; [revert Q|]); try contradiction; try (apply not_eq_sym; eapply D; [eassumption|eassumption|intros [=]; lia])|]). constructor.
  - intros e. rewrite H. split.
    + intros (f & Ef & F). destruct (edge_asc edges tris tets CR e f Ef) as (Lf & _ & Af).
      pose proof (edge_face2 x y z w f Lf Af F XY YZ ZW) as I.
      assert (U : forall i g, nth_error edges i = Some g -> g = f -> i = e) by (intros i g Q <-; apply (edge_index edges i e g); [apply (cr_edges _ _ _ CR)|exact Q|exact Ef]).
      cbn [In] in I |- *. destruct I as [I|[I|[I|[I|[I|[I|[]]]]]]].
      * left. exact (U _ _ E1 I).
      * right. left. exact (U _ _ E2 I).
      * right. right. left. exact (U _ _ E3 I).
      * right. right. right. left. exact (U _ _ E4 I).
      * right. right. right. right. left. exact (U _ _ E5 I).
      * right. right. right. right. right. left. exact (U _ _ E6 I).
    + cbn [In]. intros [<-|[<-|[<-|[<-|[<-|[<-|[]]]]]]]; eexists; (split; [eassumption|apply face_six; cbn; tauto]).
Qed.
Lemma tet_es_len : forall t, t < length tets -> length (tet_es t) = 6 /\ NoDup (tet_es t).
Proof.
  intros t H. destruct (tet_idx t H) as [c E]. destruct (six t c E) as (x & y & z & w & i1 & i2 & i3 & i4 & i5 & i6 & -> & XY & YZ & ZW & E1 & E2 & E3 & E4 & E5 & E6).
  split; [|apply (cn_tet_edges _ _ _ _ (conn dim edges tris tets a CR FIN) t _ E)].
  rewrite (Permutation_length (tet_es_perm t x y z w _ _ _ _ _ _ E XY YZ ZW E1 E2 E3 E4 E5 E6)). reflexivity.
Qed.
Lemma tet_es_bound : forall t e, t < length tets -> In e (tet_es t) -> e < length edges.
Proof.
  intros t e H I. destruct (tet_idx t H) as [c E]. apply (cn_tet_edges _ _ _ _ (conn dim edges tris tets a CR FIN) t _ E) in I.
  destruct I as (f & Ef & _). apply nth_error_Some. unfold simplex in *. congruence.
Qed.
Lemma tet_around : forall e, e < length edges -> NoDup (nth e (adj_edge_tets a) []) /\ forall t, In t (nth e (adj_edge_tets a) []) <-> t < length tets /\ In e (tet_es t).
Proof.
  intros e H. destruct (nth_error edges e) as [f|] eqn:Ef; [|apply nth_error_None in Ef; lia].
  destruct (Nat.eq_dec (length tets) 0) as [Z|Z].
  - assert (TE : tets = []) by (destruct tets; [reflexivity|discriminate]).
    assert (AE : adj_edge_tets a = []). { pose proof FIN as FIN'. rewrite TE, finalize_none in FIN'. destruct (first_check _ _ _); [|discriminate]. injection FIN' as <-. reflexivity. }
    rewrite AE. replace (nth e (@nil (list nat)) []) with (@nil nat) by (destruct e; reflexivity). split; [constructor|]. intros t. split; [intros []|lia].
  - assert (T : tets <> []) by (intros Q; apply Z; rewrite Q; reflexivity).
    destruct (cn_edge_tets _ _ _ _ (conn dim edges tris tets a CR FIN) T e f Ef) as [N I]. split; [exact N|]. intros t. rewrite I. split.
    + intros (c & Ec & F). assert (Ht : t < length tets) by (apply nth_error_Some; unfold simplex in *; congruence). split; [exact Ht|].
      apply (cn_tet_edges _ _ _ _ (conn dim edges tris tets a CR FIN) t _ Ec). eauto.
    + intros [Ht Ie]. destruct (tet_idx t Ht) as [c Ec]. exists c. split; [exact Ec|].
      apply (cn_tet_edges _ _ _ _ (conn dim edges tris tets a CR FIN) t _ Ec) in Ie. destruct Ie as (g & Eg & F). assert (g = f) by (unfold simplex in *; congruence). subst g. exact F.
Qed.
End Rows3.

Lemma perm_filter' : forall (q : nat -> bool) l l', Permutation l l' -> Permutation (filter q l) (filter q l').
Proof.
  intros q l l' H. induction H; cbn; [constructor|destruct (q x); [apply perm_skip|]; exact IHPermutation| |eapply Permutation_trans; eassumption].
  destruct (q y), (q x); try apply Permutation_refl. apply perm_swap.
Qed.
Definition notin (f c : list nat) : list nat := filter (fun k => negb (isin k f)) c.
Lemma notin_two : forall (G : nat -> R) f c n1 n2, NoDup c -> length c = 4 -> length f = 2 -> face f c -> In n1 c -> In n2 c -> n1 <> n2 -> ~ In n1 f -> ~ In n2 f ->
  rsum G (notin f c) = (G n1 + G n2)%R.
Proof.
  intros G f c n1 n2 N L Lf [r Pm] I1 I2 D O1 O2. pose proof (Permutation_length Pm) as Q. rewrite app_length in Q.
  assert (Nr : NoDup (f ++ r)) by (apply (Permutation_NoDup (Permutation_sym Pm)), N).
  destruct r as [|k1 [|k2 [|]]]; cbn in Q; try lia.
  assert (PF : Permutation (notin f c) [k1; k2]).
  { unfold notin. eapply Permutation_trans; [apply (perm_filter' _ _ _ (Permutation_sym Pm))|]. rewrite filter_app.
    assert (Z : filter (fun k => negb (isin k f)) f = []).
    { apply filter_none. intros x Hx. rewrite (proj2 (isin_In x f) Hx). reflexivity. }
    rewrite Z. cbn [app]. assert (U : forall k, In k [k1; k2] -> negb (isin k f) = true).
    { intros k Ik. destruct (isin k f) eqn:Ek; [|reflexivity]. exfalso. apply isin_In in Ek. revert Nr Ek Ik. clear. induction f as [|u f IH]; cbn [app]; intros N E I; [destruct E|].
      inversion N as [|? ? N1 N2]; subst. destruct E as [->|E]; [apply N1, in_app_iff; right; exact I|auto]. }
    rewrite filter_all by exact U. apply Permutation_refl. }
  rewrite (rsum_perm G _ _ PF).
  assert (R : forall n, In n c -> ~ In n f -> n = k1 \/ n = k2).
  { intros n In_ On. apply (Permutation_in _ (Permutation_sym Pm)) in In_. apply in_app_iff in In_. destruct In_ as [X|[X|[X|[]]]]; [contradiction|auto|auto]. }
  destruct (R n1 I1 O1) as [->| ->], (R n2 I2 O2) as [->| ->]; try congruence; cbn [rsum]; lra.
Qed.

Ltac nats := repeat match goal with
    | |- context [Nat.eqb ?u ?v] => destruct (Nat.eqb_spec u v); try lia
    | |- context [Nat.eq_dec ?u ?v] => destruct (Nat.eq_dec u v); try lia
    end.
Section Three.
Variables (eps : R) (solve : vec -> vec -> vec -> vec -> option vec) (pos : list vec) (edges tris tets : list simplex) (a : adjacency).
Hypothesis CR : complete_region edges tris tets.
Hypothesis FIN : finalize_region 3 edges tris tets = Finished a.
Variable ctr : simplex -> vec.
Hypothesis CT : tetrahedron_centers solve pos tets = Some (map ctr tets).
Notation tc := (tcenter eps pos).
Definition g3 (t e : nat) : R := let c := nth t tets [] in let f := nth e edges [] in let v0 := vsub (ctr c) (edge_center pos f) in
  (/ 2 * rsum (fun k => magnitude (cross v0 (vsub (tc (others k c)) (ctr c)))) (notin f c))%R.
Lemma nth_centers : forall j i0 i1 i2 i3 t0 t1 t2 t3 p, j < 4 -> nth_error tris i0 = Some t0 -> nth_error tris i1 = Some t1 -> nth_error tris i2 = Some t2 -> nth_error tris i3 = Some t3 ->
  opt_list (map (fun s => match s with Some f => option_map (fun v => vsub v p) (nth_error (triangle_centers eps pos tris) f) | None => None end) [Some i0; Some i1; Some i2; Some i3])
  = Some [vsub (tc t0) p; vsub (tc t1) p; vsub (tc t2) p; vsub (tc t3) p].
Proof.
  intros j i0 i1 i2 i3 t0 t1 t2 t3 p J E0 E1 E2 E3. unfold triangle_centers. cbn [map opt_list].
  rewrite (map_nth_error _ _ _ E0), (map_nth_error _ _ _ E1), (map_nth_error _ _ _ E2), (map_nth_error _ _ _ E3). reflexivity.
Qed.
Lemma tet_couples_ok : tet_couples eps pos edges tris tets a (map ctr tets) = Some (vals (length tets) (tet_es a) g3).
Proof.
  unfold tet_couples, vals. rewrite (opt_list_ext _ _ _ (fun t => map (g3 t) (tet_es a t))); [reflexivity|]. intros t I. apply in_seq in I.
  destruct (tet_idx tets t ltac:(lia)) as [c E]. rewrite (map_nth_error ctr _ _ E).
  destruct (tet_row 3 edges tris tets a CR FIN t c E) as (x & y & z & w & i0 & i1 & i2 & i3 & Hc & XY & YZ & ZW & Row & T0 & T1 & T2 & T3).
  rewrite Row. rewrite (nth_centers 0 _ _ _ _ _ _ _ _ (ctr c) ltac:(lia) T0 T1 T2 T3).
  destruct (tet_es_len 3 edges tris tets a CR FIN t ltac:(lia)) as [L6 _]. unfold tet_es in L6. rewrite map_length in L6. rewrite L6. cbn [negb Nat.eqb].
  change (Nat.eqb 6 6) with true. cbn [negb]. unfold tet_es. rewrite map_map. apply opt_list_ext. intros d Id.
  destruct (cn_tet_data _ _ _ _ (conn 3 edges tris tets a CR FIN) t c d E Id) as (f & j1 & t1 & s1 & n1 & j2 & t2 & s2 & n2 & Ef & Fd & J1 & J2 & JJ & S1 & O1 & P1 & S2 & O2 & P2).
  replace (@nth_error simplex edges (ed_edge d)) with (Some f) by (symmetry; exact Ef). rewrite Fd. cbv zeta. destruct (tet_asc edges tris tets CR t c E) as (Lc & Nc & Ac).
  assert (OT : forall j, j < 4 -> nth_error [vsub (tc [y; z; w]) (ctr c); vsub (tc [x; z; w]) (ctr c); vsub (tc [x; y; w]) (ctr c); vsub (tc [x; y; z]) (ctr c)] j
     = Some (vsub (tc (others (nth j c 0) c)) (ctr c))).
  { intros j J. assert (Hj : j = 0 \/ j = 1 \/ j = 2 \/ j = 3) by lia. unfold others. rewrite Hc. destruct Hj as [->|[->|[->| ->]]]; cbn [nth nth_error remove];
    repeat match goal with |- context [Nat.eq_dec ?u ?v] => destruct (Nat.eq_dec u v); try lia end; reflexivity. }
  rewrite (OT j1 J1), (OT j2 J2). f_equal. unfold g3. cbv zeta. rewrite (nthe _ _ _ E), (nthe _ _ _ Ef). f_equal. symmetry.
  apply (notin_two (fun k => magnitude (cross (vsub (ctr c) (edge_center pos f)) (vsub (tc (others k c)) (ctr c)))) f c (nth j1 c 0) (nth j2 c 0)); auto.
  - apply (edge_asc edges tris tets CR _ _ Ef).
  - exists [n1; nth j1 c 0]. unfold opposite_to in O1. eapply Permutation_trans; [|exact O1]. eapply Permutation_trans; [apply (Permutation_app_comm f [n1; nth j1 c 0])|]. cbn [app].
    eapply Permutation_trans; [apply perm_swap|]. apply perm_skip. exact P1.
  - apply nth_In. lia.
  - apply nth_In. lia.
  - intros Q. apply JJ. apply (NoDup_nth c 0); auto; lia.
  - intros Q. assert (N' : NoDup (nth j1 c 0 :: s1)) by (apply (Permutation_NoDup (Permutation_sym O1)), Nc). inversion N' as [|? ? M _]; subst. apply M. apply (Permutation_in _ P1). right. exact Q.
  - intros Q. assert (N' : NoDup (nth j2 c 0 :: s2)) by (apply (Permutation_NoDup (Permutation_sym O2)), Nc). inversion N' as [|? ? M _]; subst. apply M. apply (Permutation_in _ P2). right. exact Q.
Qed.
Definition f3 (t e : nat) : R := (edge_length pos (nth e edges []) * (g3 t e * (1 / 6)))%R.
Lemma edge_volumes3_ok : edge_volumes eps solve pos edges tris tets a 3 = Some (map (fun e => rsum (fun t => f3 t e) (nth e (adj_edge_tets a) [])) (seq 0 (length edges))).
Proof.
  unfold edge_volumes. rewrite CT, tet_couples_ok. unfold tet_volumes.
  rewrite (elem_volumes_ok (length edges) (length tets) 6 (tet_es a) (tet_slots a)); [|intros; apply tet_slots_es
    |intros; apply (tet_es_len 3 edges tris tets a CR FIN); assumption|intros t e; apply (tet_es_bound 3 edges tris tets a CR FIN)|reflexivity].
  apply (on_edges (length edges) (length tets) 6 (tet_es a) (tet_slots a) (adj_edge_tets a)); [intros; apply tet_slots_es
    |intros; apply (tet_es_len 3 edges tris tets a CR FIN); assumption|apply (tet_around 3 edges tris tets a CR FIN)|reflexivity].
Qed.
Lemma node_volumes3_ok : exists nv, node_volumes eps solve pos edges tris tets a 3 = Some nv /\ length nv = length pos /\
  forall n, n < length pos -> nth n nv 0%R = rsum (fun t => rsum (fun e => (INR (times n (nth e edges [])) * f3 t e)%R) (tet_es a t)) (seq 0 (length tets)).
Proof.
  unfold node_volumes. rewrite edge_volumes3_ok. rewrite node_values. eexists. split; [reflexivity|]. split; [rewrite map_length, seq_length; reflexivity|].
  intros n H. rewrite nth_map_seq by exact H. rewrite rsum_at_node.
  rewrite <- (double (length edges) (length tets) 6 (tet_es a) (adj_edge_tets a)).
  - apply rsum_ext. intros e _. rewrite rsum_scal. reflexivity.
  - intros; apply (tet_es_len 3 edges tris tets a CR FIN); assumption.
  - apply (tet_around 3 edges tris tets a CR FIN).
  - intros t e; apply (tet_es_bound 3 edges tris tets a CR FIN).
Qed.

Lemma edge_value3 : forall t c e u v k1 k2, nth_error tets t = Some c -> nth_error edges e = Some [u; v] -> notin [u; v] c = [k1; k2] ->
  dist (ctr c) (P pos u) = dist (ctr c) (P pos v) -> dist (tc (others k1 c)) (P pos u) = dist (tc (others k1 c)) (P pos v) -> dist (tc (others k2 c)) (P pos u) = dist (tc (others k2 c)) (P pos v) ->
  f3 t e = (tet_volume (P pos u) (midpoint (P pos u) (P pos v)) (tc (others k1 c)) (ctr c) + tet_volume (P pos u) (midpoint (P pos u) (P pos v)) (tc (others k2 c)) (ctr c))%R.
Proof.
  intros t c e u v k1 k2 Et Ee Nn D D1 D2. unfold f3, g3. cbv zeta. rewrite (nthe _ _ _ Et), (nthe _ _ _ Ee), Nn.
  unfold edge_length, edge_center, at_pos. cbn [nth rsum]. rewrite magnitude_dist. rewrite Rplus_0_r. apply edge_part; assumption.
Qed.
Definition face_ok (c : simplex) : Prop := circumcenter3 (tc c) (P pos (nth 0 c 0)) (P pos (nth 1 c 0)) (P pos (nth 2 c 0)).
Definition ctr_ok (c : simplex) : Prop := circumcenter4 (ctr c) (P pos (nth 0 c 0)) (P pos (nth 1 c 0)) (P pos (nth 2 c 0)) (P pos (nth 3 c 0)).
Lemma tet_part : forall t c n, nth_error tets t = Some c -> ctr_ok c -> (forall s, In s tris -> face_ok s) ->
  rsum (fun e => (INR (times n (nth e edges [])) * f3 t e)%R) (tet_es a t) = part3 pos tc (ctr c) c n.
Proof.
  intros t c n E CC FO. destruct (six 3 edges tris tets a CR FIN t c E) as (x & y & z & w & i1 & i2 & i3 & i4 & i5 & i6 & Hc & XY & YZ & ZW & E1 & E2 & E3 & E4 & E5 & E6).
  destruct (tet_row 3 edges tris tets a CR FIN t c E) as (x' & y' & z' & w' & j0 & j1 & j2 & j3 & Hc' & _ & _ & _ & _ & T0 & T1 & T2 & T3).
  rewrite Hc in Hc'. injection Hc' as <- <- <- <-.
  pose proof (FO _ (nth_error_In _ _ T0)) as (F01 & F02 & _). pose proof (FO _ (nth_error_In _ _ T1)) as (F11 & F12 & _).
  pose proof (FO _ (nth_error_In _ _ T2)) as (F21 & F22 & _). pose proof (FO _ (nth_error_In _ _ T3)) as (F31 & F32 & _). cbn [nth] in F01, F02, F11, F12, F21, F22, F31, F32.
  unfold ctr_ok in CC. destruct CC as (C1 & C2 & C3). rewrite Hc in C1, C2, C3. cbn [nth] in C1, C2, C3. rewrite <- Hc in C1, C2, C3.
  assert (Ox : others x c = [y; z; w]) by (rewrite Hc; unfold others; cbn [remove]; nats; reflexivity).
  assert (Oy : others y c = [x; z; w]) by (rewrite Hc; unfold others; cbn [remove]; nats; reflexivity).
  assert (Oz : others z c = [x; y; w]) by (rewrite Hc; unfold others; cbn [remove]; nats; reflexivity).
  assert (Ow : others w c = [x; y; z]) by (rewrite Hc; unfold others; cbn [remove]; nats; reflexivity).
  rewrite <- Hc in C1, C2, C3 || idtac.
  assert (EP : Permutation (tet_es a t) [i1; i2; i3; i4; i5; i6]) by (apply (tet_es_perm 3 edges tris tets a CR FIN t x y z w); try assumption; rewrite <- Hc; exact E).
  rewrite (rsum_perm _ _ _ EP). cbn [rsum].
  rewrite (nthe _ _ _ E1), (nthe _ _ _ E2), (nthe _ _ _ E3), (nthe _ _ _ E4), (nthe _ _ _ E5), (nthe _ _ _ E6).
  assert (NI : forall u v k1 k2, In [u; v; k1; k2] [[x; y; z; w]; [x; z; y; w]; [x; w; y; z]; [y; z; x; w]; [y; w; x; z]; [z; w; x; y]] -> notin [u; v] c = [k1; k2]).
  { intros u v k1 k2 I. rewrite Hc. unfold notin, isin. cbn [In] in I.
    destruct I as [Q|[Q|[Q|[Q|[Q|[Q|[]]]]]]]; injection Q as <- <- <- <-; cbn [filter existsb]; nats; reflexivity. }
  rewrite (edge_value3 t c i1 x y z w E E1) by (first [apply NI; cbn; tauto | rewrite ?Ox, ?Oy, ?Oz, ?Ow; congruence]).
  rewrite (edge_value3 t c i2 x z y w E E2) by (first [apply NI; cbn; tauto | rewrite ?Ox, ?Oy, ?Oz, ?Ow; congruence]).
  rewrite (edge_value3 t c i3 x w y z E E3) by (first [apply NI; cbn; tauto | rewrite ?Ox, ?Oy, ?Oz, ?Ow; congruence]).
  rewrite (edge_value3 t c i4 y z x w E E4) by (first [apply NI; cbn; tauto | rewrite ?Ox, ?Oy, ?Oz, ?Ow; congruence]).
  rewrite (edge_value3 t c i5 y w x z E E5) by (first [apply NI; cbn; tauto | rewrite ?Ox, ?Oy, ?Oz, ?Ow; congruence]).
  rewrite (edge_value3 t c i6 z w x y E E6) by (first [apply NI; cbn; tauto | rewrite ?Ox, ?Oy, ?Oz, ?Ow; congruence]).
  unfold part3. rewrite total_rsum.
  destruct (in_dec Nat.eq_dec n c) as [I|I].
  - assert (Tx : forall u v k, tet_volume (P pos u) (midpoint (P pos u) (P pos v)) (tc (others k c)) (ctr c) = tet_volume (P pos v) (midpoint (P pos v) (P pos u)) (tc (others k c)) (ctr c)) by (intros; apply tet_volume_ends).
    assert (KO : forall u o1 o2 o3 p1 p2 p3 q1 q2 q3, others u c = [o1; o2; o3] -> others o1 (others u c) = [p1; q1] -> others o2 (others u c) = [p2; q2] -> others o3 (others u c) = [p3; q3] ->
      rsum (fun m => total (fun k => tet_volume (P pos u) (midpoint (P pos u) (P pos m)) (tc (others k c)) (ctr c)) (others m (others u c))) (others u c) =
      (tet_volume (P pos u) (midpoint (P pos u) (P pos o1)) (tc (others p1 c)) (ctr c) + tet_volume (P pos u) (midpoint (P pos u) (P pos o1)) (tc (others q1 c)) (ctr c)
      + (tet_volume (P pos u) (midpoint (P pos u) (P pos o2)) (tc (others p2 c)) (ctr c) + tet_volume (P pos u) (midpoint (P pos u) (P pos o2)) (tc (others q2 c)) (ctr c))
      + (tet_volume (P pos u) (midpoint (P pos u) (P pos o3)) (tc (others p3 c)) (ctr c) + tet_volume (P pos u) (midpoint (P pos u) (P pos o3)) (tc (others q3 c)) (ctr c)))%R).
    { intros u o1 o2 o3 p1 p2 p3 q1 q2 q3 H0 H1 H2 H3. set (F := fun m => total _ _). rewrite H0. cbn [rsum]. unfold F. rewrite H1, H2, H3, !total_rsum. cbn [rsum]. lra. }
    assert (I' : n = x \/ n = y \/ n = z \/ n = w) by (rewrite Hc in I; cbn [In] in I; intuition).
    unfold times. cbn [filter length]. destruct I' as [->|[->|[->| ->]]].
    + rewrite (KO x y z w z y y w w z Ox); [|rewrite Ox; unfold others; cbn [remove]; nats; reflexivity..]. nats. cbn [length INR].
      lra.
    + rewrite (KO y x z w z x x w w z Oy); [|rewrite Oy; unfold others; cbn [remove]; nats; reflexivity..]. nats. cbn [length INR].
      rewrite !(Tx x y). lra.
    + rewrite (KO z x y w y x x w w y Oz); [|rewrite Oz; unfold others; cbn [remove]; nats; reflexivity..]. nats. cbn [length INR].
      rewrite !(Tx x z), !(Tx y z). lra.
    + rewrite (KO w x y z y x x z z y Ow); [|rewrite Ow; unfold others; cbn [remove]; nats; reflexivity..]. nats. cbn [length INR].
      rewrite !(Tx x w), !(Tx y w), !(Tx z w). lra.
  - assert (I' : n <> x /\ n <> y /\ n <> z /\ n <> w) by (rewrite Hc in I; cbn [In] in I; intuition). destruct I' as (? & ? & ? & ?).
    unfold times. cbn [filter length]. nats. cbn [length INR]. lra.
Qed.
End Three.
Lemma part3_out : forall pos tc p c n, ~ In n c -> part3 pos tc p c n = 0%R.
Proof. intros pos tc p c n H. unfold part3. destruct (in_dec Nat.eq_dec n c); [contradiction|reflexivity]. Qed.
Lemma part3_total : forall pos tc p x y z w N, x < y -> y < z -> z < w -> w < N ->
  rsum (part3 pos tc p [x; y; z; w]) (seq 0 N) =
  (face_parts p (tc [y; z; w]) (P pos y) (P pos z) (P pos w) + face_parts p (tc [x; z; w]) (P pos x) (P pos z) (P pos w)
   + face_parts p (tc [x; y; w]) (P pos x) (P pos y) (P pos w) + face_parts p (tc [x; y; z]) (P pos x) (P pos y) (P pos z))%R.
Proof.
  intros pos tc p x y z w N XY YZ ZW WN. rewrite (rsum_on _ [x; y; z; w] N).
  - cbn [rsum]. unfold part3, others.
    destruct (in_dec Nat.eq_dec x [x; y; z; w]) as [_|K]; [|exfalso; apply K; cbn; tauto]. destruct (in_dec Nat.eq_dec y [x; y; z; w]) as [_|K]; [|exfalso; apply K; cbn; tauto].
    destruct (in_dec Nat.eq_dec z [x; y; z; w]) as [_|K]; [|exfalso; apply K; cbn; tauto]. destruct (in_dec Nat.eq_dec w [x; y; z; w]) as [_|K]; [|exfalso; apply K; cbn; tauto].
    assert (Ox : remove Nat.eq_dec x [x; y; z; w] = [y; z; w]) by (cbn [remove]; nats; reflexivity).
    assert (Oy : remove Nat.eq_dec y [x; y; z; w] = [x; z; w]) by (cbn [remove]; nats; reflexivity).
    assert (Oz : remove Nat.eq_dec z [x; y; z; w] = [x; y; w]) by (cbn [remove]; nats; reflexivity).
    assert (Ow : remove Nat.eq_dec w [x; y; z; w] = [x; y; z]) by (cbn [remove]; nats; reflexivity).
    rewrite Ox, Oy, Oz, Ow, !total_rsum. cbn [rsum]. rewrite !total_rsum. cbn [remove].
    nats. cbn [rsum]. cbn [remove]. nats. unfold face_parts. lra.
  - repeat constructor; cbn; lia.
  - cbn [In]. intros n [<-|[<-|[<-|[<-|[]]]]]; lia.
  - apply part3_out.
Qed.
