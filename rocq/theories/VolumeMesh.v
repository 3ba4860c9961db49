(* The node volumes of a region with triangles. *)
From Coq Require Import List Arith Lia Reals Lra Permutation Sorted.
From Verif Require Import Adjacency LoaderSpec AdjacencySpec AdjacencyProofs AdjacencyFinal AdjacencyProperties Geometry GeometrySpec GeometryProofs Volume VolumeGeom VolumeSpec VolumeProofs AssemblyProofs ContactProofs.
Import ListNotations.
Open Scope R_scope.
Open Scope nat_scope.
Local Arguments Nat.ltb : simpl never.
Local Arguments Nat.eqb : simpl never.

Lemma asc2 : forall x y, x <= y -> ascending [x; y].
Proof. intros x y H. repeat constructor. exact H. Qed.
Lemma tri_shape : forall c, length c = 3 -> NoDup c -> ascending c -> exists x y z, c = [x; y; z] /\ x < y /\ y < z.
Proof.
  intros [|x [|y [|z [|u c]]]] L N A; try discriminate. exists x, y, z. split; [reflexivity|].
  inversion N as [|? ? N1 N']; subst. inversion N' as [|? ? N2 _]; subst. cbn in N1, N2.
  inversion A as [|? ? A' F1]; subst. inversion A' as [|? ? _ F2]; subst. inversion F1; subst. inversion F2; subst. lia.
Qed.
Lemma opp_eq : forall f c j g, ascending f -> ascending g -> opposite_to f c j -> opposite_to g c j -> f = g.
Proof.
  intros f c j g Af Ag A B. apply LoaderProofs.sorted_perm_eq; [exact Af|exact Ag|]. apply (Permutation_cons_inv (a := nth j c 0)).
  eapply Permutation_trans; [exact A|apply Permutation_sym; exact B].
Qed.
Lemma edge_index : forall (edges : list simplex) i j f, NoDup edges -> nth_error edges i = Some f -> nth_error edges j = Some f -> i = j.
Proof. intros edges i j f N A B. apply (proj1 (NoDup_nth_error edges) N); [apply nth_error_Some; congruence|congruence]. Qed.
Lemma finalize_lists : forall dim edges tris tets a, finalize_region dim edges tris tets = Finished a ->
  adj_tri_edges a = te_of edges tris /\ adj_edge_tris a = et_of edges tris /\
  (tets <> [] -> adj_tet_tris a = opposite 4 tris tets (map (around tets) tris)).
Proof.
  intros dim edges tris tets a H. destruct tets as [|q tets].
  - rewrite finalize_none in H. destruct (first_check _ _ _); [|discriminate]. injection H as <-. cbn. repeat split. congruence.
  - rewrite finalize_some in H by discriminate. destruct (first_check _ _ _); [|discriminate]. destruct (forallb _ _); [|discriminate].
    destruct (edge_data _ _ _ _ _ _); try discriminate. injection H as <-. cbn. repeat split.
Qed.

Lemma nthe : forall (l : list simplex) i s, nth_error l i = Some s -> nth i l [] = s.
Proof. intros l i s H. apply nth_error_nth. exact H. Qed.
Section Rows2.
Variables (dim : nat) (edges tris tets : list simplex) (a : adjacency).
Hypothesis CR : complete_region edges tris tets.
Hypothesis FIN : finalize_region dim edges tris tets = Finished a.
Lemma conn : connected edges tris tets a.
Proof. pose proof (C50_connections dim edges tris tets CR) as H. cbv zeta in H. rewrite FIN in H. apply H. Qed.
Lemma edge_asc : forall e f, nth_error edges e = Some f -> length f = 2 /\ NoDup f /\ ascending f.
Proof. intros e f E. destruct (cr_edges _ _ _ CR) as [_ H]. rewrite Forall_forall in H. apply H. apply (nth_error_In _ _ E). Qed.
Lemma tri_asc : forall e f, nth_error tris e = Some f -> length f = 3 /\ NoDup f /\ ascending f.
Proof. intros e f E. destruct (cr_tris _ _ _ CR) as [_ H]. rewrite Forall_forall in H. apply H. apply (nth_error_In _ _ E). Qed.
Lemma tri_row : forall t c, nth_error tris t = Some c -> exists x y z i0 i1 i2, c = [x; y; z] /\ x < y /\ y < z /\
  nth t (adj_tri_edges a) [] = [Some i0; Some i1; Some i2] /\
  nth_error edges i0 = Some [y; z] /\ nth_error edges i1 = Some [x; z] /\ nth_error edges i2 = Some [x; y].
Proof.
  intros t c E. destruct (tri_asc t c E) as (L & N & A). destruct (tri_shape c L N A) as (x & y & z & -> & XY & YZ).
  destruct (finalize_lists _ _ _ _ _ FIN) as (TE & _ & _). rewrite TE. assert (T : tris <> []) by (intros ->; destruct t; discriminate).
  assert (X : te_of edges tris = opposite 3 edges tris (map (around tris) edges)) by (destruct tris; [congruence|reflexivity]). rewrite X.
  destruct (row_spec 2 edges tris (cr_edges _ _ _ CR) (cr_tris _ _ _ CR) (cr_tri_sides _ _ _ CR) ltac:(lia) t _ E) as (l & R & Ll & F).
  rewrite R. destruct l as [|i0 [|i1 [|i2 [|i3 l]]]]; try discriminate Ll. cbn [seq] in F.
  inversion F as [|? ? ? ? F0 F1]; subst. inversion F1 as [|? ? ? ? F2 F3]; subst. inversion F3 as [|? ? ? ? F4 _]; subst.
  destruct F0 as (f0 & E0 & O0), F2 as (f1 & E1 & O1), F4 as (f2 & E2 & O2).
  destruct (edge_asc _ _ E0) as (_ & _ & A0), (edge_asc _ _ E1) as (_ & _ & A1), (edge_asc _ _ E2) as (_ & _ & A2).
  assert (G0 : f0 = [y; z]) by (apply (opp_eq f0 [x; y; z] 0); [exact A0|apply asc2; lia|exact O0|unfold opposite_to; cbn; apply Permutation_refl]).
  assert (G1 : f1 = [x; z]) by (apply (opp_eq f1 [x; y; z] 1); [exact A1|apply asc2; lia|exact O1|unfold opposite_to; cbn; apply perm_swap]).
  assert (G2 : f2 = [x; y]).
  { apply (opp_eq f2 [x; y; z] 2); [exact A2|apply asc2; lia|exact O2|]. unfold opposite_to. cbn. apply Permutation_sym.
    apply (Permutation_cons_append [x; y] z) || (apply Permutation_sym, (Permutation_cons_append [x; y] z)). }
  subst f0 f1 f2. exists x, y, z, i0, i1, i2. repeat split; auto.
Qed.
Definition tri_es (t : nat) : list nat := flat_map (fun s => match s with Some e => [e] | None => [] end) (nth t (adj_tri_edges a) []).
Lemma tri_idx : forall t, t < length tris -> exists c, nth_error tris t = Some c.
Proof. intros t H. destruct (nth_error tris t) as [c|] eqn:E; [eauto|]. apply nth_error_None in E. lia. Qed.
Lemma tri_slots_es : forall t, t < length tris -> tri_slots a t = map Some (tri_es t).
Proof.
  intros t H. destruct (tri_idx t H) as [c E]. destruct (tri_row t c E) as (x & y & z & i0 & i1 & i2 & _ & _ & _ & R & _).
  unfold tri_slots, tri_es. rewrite R. reflexivity.
Qed.
Lemma tri_es_len : forall t, t < length tris -> length (tri_es t) = 3 /\ NoDup (tri_es t).
Proof.
  intros t H. destruct (tri_idx t H) as [c E]. destruct (tri_row t c E) as (x & y & z & i0 & i1 & i2 & _ & XY & YZ & R & E0 & E1 & E2).
  unfold tri_es. rewrite R. cbn. split; [reflexivity|].
  constructor; [intros [Q|[Q|[]]]; subst; rewrite E0 in *; [injection E1; intros; lia|injection E2; intros; lia]|].
  constructor; [intros [Q|[]]; subst; rewrite E1 in *; injection E2; intros; lia|]. constructor; [intros []|constructor].
Qed.
Lemma tri_es_bound : forall t e, t < length tris -> In e (tri_es t) -> e < length edges.
Proof.
  intros t e H I. destruct (tri_idx t H) as [c E]. destruct (tri_row t c E) as (x & y & z & i0 & i1 & i2 & _ & XY & YZ & R & E0 & E1 & E2).
  unfold tri_es in I. rewrite R in I. cbn in I. apply nth_error_Some. destruct I as [<-|[<-|[<-|[]]]]; congruence.
Qed.
Lemma tri_around : forall e, e < length edges -> NoDup (nth e (adj_edge_tris a) []) /\ forall t, In t (nth e (adj_edge_tris a) []) <-> t < length tris /\ In e (tri_es t).
Proof.
  intros e H. destruct (Nat.eq_dec (length tris) 0) as [Z|Z].
  - destruct (finalize_lists _ _ _ _ _ FIN) as (_ & ET & _). rewrite ET. destruct tris; [|discriminate]. cbn.
    replace (match e with | 0 | _ => [] end) with (@nil nat) by (destruct e; reflexivity). split; [constructor|]. intros t. split; [intros []|lia].
  - assert (T : tris <> []) by (intros Q; apply Z; rewrite Q; reflexivity).
    destruct (nth_error edges e) as [f|] eqn:Ef; [|apply nth_error_None in Ef; lia].
    destruct (cn_edge_tris _ _ _ _ conn T e f Ef) as [N I]. split; [exact N|]. intros t. rewrite I. split.
    + intros (c & Ec & F). assert (Ht : t < length tris) by (apply nth_error_Some; unfold simplex in *; congruence). split; [exact Ht|].
      destruct (tri_row t c Ec) as (x & y & z & i0 & i1 & i2 & Hc & XY & YZ & R & E0 & E1 & E2).
      destruct (tri_asc t c Ec) as (L & Nc & A). destruct (edge_asc _ _ Ef) as (Lf & _ & Af).
      destruct (face_without f c Nc ltac:(lia) F) as (j & J & O). rewrite L in J.
      unfold tri_es. rewrite R. cbn. rewrite Hc in *.
      assert (Hj : j = 0 \/ j = 1 \/ j = 2) by lia. destruct Hj as [->|[->| ->]].
      * left. apply (edge_index edges _ _ f); [apply (cr_edges _ _ _ CR)| |exact Ef]. rewrite E0. f_equal.
        apply (opp_eq _ [x; y; z] 0); [apply asc2; lia|exact Af| |exact O]. unfold opposite_to; cbn; apply Permutation_refl.
      * right. left. apply (edge_index edges _ _ f); [apply (cr_edges _ _ _ CR)| |exact Ef]. rewrite E1. f_equal.
        apply (opp_eq _ [x; y; z] 1); [apply asc2; lia|exact Af| |exact O]. unfold opposite_to; cbn; apply perm_swap.
      * right. right. left. apply (edge_index edges _ _ f); [apply (cr_edges _ _ _ CR)| |exact Ef]. rewrite E2. f_equal.
        apply (opp_eq _ [x; y; z] 2); [apply asc2; lia|exact Af| |exact O]. unfold opposite_to; cbn. apply (Permutation_cons_append [x; y] z).
    + intros [Ht Ie]. destruct (tri_idx t Ht) as [c Ec]. destruct (tri_row t c Ec) as (x & y & z & i0 & i1 & i2 & Hc & XY & YZ & R & E0 & E1 & E2).
      exists c. split; [exact Ec|]. unfold tri_es in Ie. rewrite R in Ie. cbn in Ie. rewrite Hc. destruct Ie as [<-|[<-|[<-|[]]]].
      * exists [x]. rewrite E0 in Ef; injection Ef as <-. cbn. apply Permutation_sym, (Permutation_cons_append [y; z] x).
      * exists [y]. rewrite E1 in Ef; injection Ef as <-. cbn. apply perm_skip, perm_swap.
      * exists [z]. rewrite E2 in Ef; injection Ef as <-. cbn. apply Permutation_refl.
Qed.
End Rows2.

Section Two.
Variables (eps : R) (solve : vec -> vec -> vec -> vec -> option vec) (pos : list vec) (edges tris : list simplex) (a : adjacency).
Hypothesis CR : complete_region edges tris [].
Hypothesis FIN : finalize_region 2 edges tris [] = Finished a.
Definition tcenter (c : simplex) : vec := triangle_center eps (at_pos pos c 0) (at_pos pos c 1) (at_pos pos c 2).
Definition g2 (t e : nat) : R := magnitude (vsub (edge_center pos (nth e edges [])) (tcenter (nth t tris []))).
Lemma tri_couples_ok : tri_couples eps pos edges tris a = Some (vals (length tris) (tri_es a) g2).
Proof.
  unfold tri_couples, vals.
  rewrite (opt_list_ext _ _ _ (fun t => map (g2 t) (tri_es a t))); [reflexivity|]. intros t I. apply in_seq in I.
  destruct (tri_idx tris t ltac:(lia)) as [c E]. unfold triangle_centers. rewrite (map_nth_error _ _ _ E).
  destruct (tri_row 2 edges tris [] a CR FIN t c E) as (x & y & z & i0 & i1 & i2 & Hc & XY & YZ & R & E0 & E1 & E2).
  unfold tri_es. rewrite R. cbn [flat_map app map opt_list]. rewrite E0, E1, E2. unfold g2.
  rewrite (nthe _ _ _ E), (nthe _ _ _ E0), (nthe _ _ _ E1), (nthe _ _ _ E2). reflexivity.
Qed.
Definition f2 (t e : nat) : R := (edge_length pos (nth e edges []) * (g2 t e * (1 / 4)))%R.
Lemma edge_volumes_ok : edge_volumes eps solve pos edges tris [] a 2 = Some (map (fun e => rsum (fun t => f2 t e) (nth e (adj_edge_tris a) [])) (seq 0 (length edges))).
Proof.
  unfold edge_volumes. rewrite tri_couples_ok. unfold tri_volumes.
  rewrite (elem_volumes_ok (length edges) (length tris) 3 (tri_es a) (tri_slots a)); [|intros; apply (tri_slots_es 2 edges tris [] a CR FIN); assumption
    |intros; apply (tri_es_len 2 edges tris [] a CR FIN); assumption|intros t e; apply (tri_es_bound 2 edges tris [] a CR FIN)|reflexivity].
  apply (on_edges (length edges) (length tris) 3 (tri_es a) (tri_slots a) (adj_edge_tris a)); [intros; apply (tri_slots_es 2 edges tris [] a CR FIN); assumption
    |intros; apply (tri_es_len 2 edges tris [] a CR FIN); assumption|apply (tri_around 2 edges tris [] a CR FIN)|reflexivity].
Qed.
Lemma node_volumes_ok : exists nv, node_volumes eps solve pos edges tris [] a 2 = Some nv /\ length nv = length pos /\
  forall n, n < length pos -> nth n nv 0%R = rsum (fun t => rsum (fun e => (INR (times n (nth e edges [])) * f2 t e)%R) (tri_es a t)) (seq 0 (length tris)).
Proof.
  unfold node_volumes. rewrite edge_volumes_ok. rewrite node_values. eexists. split; [reflexivity|]. split; [rewrite map_length, seq_length; reflexivity|].
  intros n H. rewrite nth_map_seq by exact H. rewrite rsum_at_node.
  rewrite <- (double (length edges) (length tris) 3 (tri_es a) (adj_edge_tris a)).
  - apply rsum_ext. intros e _. rewrite rsum_scal. reflexivity.
  - intros; apply (tri_es_len 2 edges tris [] a CR FIN); assumption.
  - apply (tri_around 2 edges tris [] a CR FIN).
  - intros t e; apply (tri_es_bound 2 edges tris [] a CR FIN).
Qed.
(* one triangle *)
Lemma edge_value : forall t c e u v, nth_error tris t = Some c -> nth_error edges e = Some [u; v] ->
  dist (tcenter c) (P pos u) = dist (tcenter c) (P pos v) ->
  f2 t e = tri_area (P pos u) (midpoint (P pos u) (P pos v)) (tcenter c).
Proof.
  intros t c e u v Et Ee D. unfold f2, g2. rewrite (nthe _ _ _ Et), (nthe _ _ _ Ee).
  unfold edge_length, edge_center, at_pos. cbn [nth]. rewrite magnitude_dist. apply half_area. exact D.
Qed.
Lemma tri_part : forall t c n, nth_error tris t = Some c -> circumcenter3 (tcenter c) (at_pos pos c 0) (at_pos pos c 1) (at_pos pos c 2) ->
  rsum (fun e => (INR (times n (nth e edges [])) * f2 t e)%R) (tri_es a t) = part2 pos (tcenter c) c n.
Proof.
  intros t c n E C. destruct (tri_row 2 edges tris [] a CR FIN t c E) as (x & y & z & i0 & i1 & i2 & Hc & XY & YZ & R & E0 & E1 & E2).
  destruct C as (D1 & D2 & _). unfold at_pos in D1, D2. rewrite Hc in D1, D2. cbn [nth] in D1, D2. rewrite <- Hc in D1, D2. fold (P pos x) (P pos y) (P pos z) in D1, D2.
  unfold tri_es. rewrite R. cbn [flat_map app rsum].
  rewrite (nthe _ _ _ E0), (nthe _ _ _ E1), (nthe _ _ _ E2).
  rewrite (edge_value t c i0 y z E E0) by congruence. rewrite (edge_value t c i1 x z E E1) by congruence. rewrite (edge_value t c i2 x y E E2) by congruence.
  assert (S : forall u v, dist (tcenter c) (P pos u) = dist (tcenter c) (P pos v) ->
    tri_area (P pos u) (midpoint (P pos u) (P pos v)) (tcenter c) = tri_area (P pos v) (midpoint (P pos v) (P pos u)) (tcenter c)).
  { intros u v D. rewrite <- (half_area _ _ _ D). rewrite <- (half_area (tcenter c) (P pos v) (P pos u)) by congruence. rewrite (dist_sym (P pos v)), (vadd_comm (P pos v)). reflexivity. }
  unfold part2, times. cbn [filter length]. rewrite total_rsum. unfold others.
  destruct (in_dec Nat.eq_dec n c) as [I|I].
  - rewrite Hc in I |- *. cbn [In] in I. destruct I as [<-|[<-|[<-|[]]]]; cbn [remove];
    repeat match goal with
    | |- context [Nat.eqb ?u ?v] => destruct (Nat.eqb_spec u v); try lia
    | |- context [Nat.eq_dec ?u ?v] => destruct (Nat.eq_dec u v); try lia
    end; cbn [length INR rsum]; rewrite <- ?Hc; subst.
    + lra.
    + rewrite (S x y) by congruence. lra.
    + rewrite (S x z), (S y z) by congruence. lra.
  - rewrite Hc in I. cbn [In] in I.
    repeat match goal with
    | |- context [Nat.eqb ?u ?v] => destruct (Nat.eqb_spec u v); [exfalso; subst; tauto|]
    end. cbn [length INR]. lra.
Qed.
End Two.

Lemma rsum_nth : forall (F : simplex -> R) l, rsum (fun t => F (nth t l [])) (seq 0 (length l)) = rsum F l.
Proof.
  intros F l. assert (E : l = map (fun t => nth t l []) (seq 0 (length l))).
  { apply (nth_ext _ _ [] []); [rewrite map_length, seq_length; reflexivity|]. intros j J. rewrite nth_map_seq by exact J. reflexivity. }
  transitivity (rsum F (map (fun t => nth t l []) (seq 0 (length l)))); [rewrite rsum_map; reflexivity|rewrite <- E; reflexivity].
Qed.
Lemma rsum_nth_id : forall l : list R, rsum (fun n => nth n l 0%R) (seq 0 (length l)) = rsum (fun x => x) l.
Proof.
  intros l. assert (E : l = map (fun t => nth t l 0%R) (seq 0 (length l))).
  { apply (nth_ext _ _ 0%R 0%R); [rewrite map_length, seq_length; reflexivity|]. intros j J. rewrite nth_map_seq by exact J. reflexivity. }
  transitivity (rsum (fun x => x) (map (fun t => nth t l 0%R) (seq 0 (length l)))); [rewrite rsum_map; reflexivity|rewrite <- E; reflexivity].
Qed.
Lemma rsum_on : forall (F : nat -> R) c N, NoDup c -> (forall n, In n c -> n < N) -> (forall n, ~ In n c -> F n = 0%R) -> rsum F (seq 0 N) = rsum F c.
Proof.
  intros F c N D B Z. rewrite (rsum_isin F c N D B). apply rsum_ext. intros n _. destruct (isin n c) eqn:E; [reflexivity|].
  apply Z. intros I. apply isin_In in I. congruence.
Qed.
Lemma part2_out : forall pos p c n, ~ In n c -> part2 pos p c n = 0%R.
Proof. intros pos p c n H. unfold part2. destruct (in_dec Nat.eq_dec n c); [contradiction|reflexivity]. Qed.
Lemma part2_total : forall pos p x y z N, x < y -> y < z -> z < N ->
  rsum (part2 pos p [x; y; z]) (seq 0 N) =
  (tri_area (P pos y) (midpoint (P pos y) (P pos z)) p + tri_area (P pos z) (midpoint (P pos z) (P pos y)) p
   + (tri_area (P pos x) (midpoint (P pos x) (P pos z)) p + tri_area (P pos z) (midpoint (P pos z) (P pos x)) p)
   + (tri_area (P pos x) (midpoint (P pos x) (P pos y)) p + tri_area (P pos y) (midpoint (P pos y) (P pos x)) p))%R.
Proof.
  intros pos p x y z N XY YZ ZN. rewrite (rsum_on _ [x; y; z] N).
  - cbn [rsum]. unfold part2, others. rewrite !total_rsum.
    destruct (in_dec Nat.eq_dec x [x; y; z]) as [_|K]; [|exfalso; apply K; cbn; tauto]. destruct (in_dec Nat.eq_dec y [x; y; z]) as [_|K]; [|exfalso; apply K; cbn; tauto].
    destruct (in_dec Nat.eq_dec z [x; y; z]) as [_|K]; [|exfalso; apply K; cbn; tauto]. cbn [remove].
    repeat match goal with |- context [Nat.eq_dec ?u ?v] => destruct (Nat.eq_dec u v); try lia end. cbn [rsum]. lra.
  - repeat constructor; cbn; lia.
  - cbn [In]. intros n [<-|[<-|[<-|[]]]]; lia.
  - apply part2_out.
Qed.
