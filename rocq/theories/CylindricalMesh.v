From Coq Require Import List Arith Bool Lia Reals Lra Permutation.
From Verif Require Import AdjacencySpec Adjacency AdjacencyProofs Geometry GeometrySpec Volume VolumeSpec VolumeGeom AssemblyProofs ContactProofs VolumeProofs VolumeMesh VolumeProperties Surface SurfaceSpec SurfaceProofs SurfaceRings Cylindrical CylindricalSpec CylindricalProofs.
Import ListNotations.
Open Scope R_scope.
Local Arguments Nat.ltb : simpl never.
Local Arguments Nat.leb : simpl never.
Local Arguments Nat.eqb : simpl never.

Section Two.
Variables (eps : R) (pos : list vec) (edges tris : list (list nat)) (a : adjacency) (ax : axis * R).
Hypothesis CR : complete_region edges tris [].
Hypothesis FIN : finalize_region 2 edges tris [] = Finished a.
Lemma on_triangles_ok : forall f, on_triangles eps pos edges tris a f = Some (vals (length tris) (tri_es a) (fun t e => f (tcenter eps pos (nth t tris [])) (nth e edges []))).
Proof.
  intros f. unfold on_triangles, vals.
  rewrite (opt_list_ext _ _ _ (fun t => map (fun e => f (tcenter eps pos (nth t tris [])) (nth e edges [])) (tri_es a t))); [reflexivity|]. intros t I. apply in_seq in I.
  destruct (tri_idx tris t ltac:(lia)) as [c E]. unfold triangle_centers. rewrite (map_nth_error _ _ _ E).
  destruct (tri_row 2 edges tris [] a CR FIN t c E) as (x & y & z & i0 & i1 & i2 & Hc & XY & YZ & R & E0 & E1 & E2).
  unfold tri_es. rewrite R. cbn [flat_map app map opt_list]. unfold simplex in *. rewrite E0, E1, E2.
  pose proof (nthe _ _ _ E) as N. pose proof (nthe _ _ _ E0) as N0. pose proof (nthe _ _ _ E1) as N1. pose proof (nthe _ _ _ E2) as N2. unfold simplex in *. rewrite N, N0, N1, N2. reflexivity.
Qed.
Definition on_edge (g : nat -> nat -> R) (e : nat) : R := rsum (fun t => g t e) (nth e (adj_edge_tris a) []).
Lemma on_edges_ok : forall g, on_edges_sum edges a (Some (vals (length tris) (tri_es a) g)) = Some (map (on_edge g) (seq 0 (length edges))).
Proof.
  intros g. unfold on_edges_sum. apply (on_edges (length edges) (length tris) 3 (tri_es a) (tri_slots a) (adj_edge_tris a)); [intros; apply (tri_slots_es 2 edges tris [] a CR FIN); assumption
    |intros; apply (tri_es_len 2 edges tris [] a CR FIN); assumption|apply (tri_around 2 edges tris [] a CR FIN)|reflexivity].
Qed.
Definition at_end (k n e : nat) (x : R) : R := if Nat.eqb n (nth k (nth e edges []) 0%nat) then x else 0.
Lemma ends_sum : forall v0 v1 l f n, fold_left (add_ends edges v0 v1) l f n = f n + rsum (fun e => at_end 0 n e (nth e v0 0) + at_end 1 n e (nth e v1 0)) l.
Proof.
  intros v0 v1. induction l as [|e l IH]; intros f n; cbn [fold_left rsum]; [lra|]. rewrite IH. unfold add_ends, upd, at_end. cbv zeta. unfold simplex in *.
  set (n0 := nth 0 (nth e edges []) 0%nat). set (n1 := nth 1 (nth e edges []) 0%nat).
  destruct (Nat.eqb_spec n n1) as [A|A], (Nat.eqb_spec n n0) as [B|B]; subst; try lra.
  - rewrite B, Nat.eqb_refl. lra.
  - destruct (Nat.eqb_spec n1 n0); [congruence|]. lra.
Qed.
Definition g (k t e : nat) : R := swept [height_radius ax (at_pos pos (nth e edges []) k); height_radius ax (tcenter eps pos (nth t tris [])); height_radius ax (edge_center pos (nth e edges []))].
Lemma node_volume_ok : exists nv, cylindrical_node_volume eps pos edges tris a ax = Some nv /\
  forall n, nv n = rsum (fun t => rsum (fun e => at_end 0 n e (g 0 t e) + at_end 1 n e (g 1 t e)) (tri_es a t)) (seq 0 (length tris)).
Proof.
  unfold cylindrical_node_volume, element_volumes. rewrite !on_triangles_ok, !on_edges_ok. eexists. split; [reflexivity|]. intros n.
  rewrite ends_sum, Rplus_0_l.
  rewrite <- (double (length edges) (length tris) 3 (tri_es a) (adj_edge_tris a)).
  - apply rsum_ext. intros e I. apply in_seq in I. rewrite !nth_map_seq by lia. unfold on_edge, at_end, g. rewrite rsum_plus.
    destruct (Nat.eqb n (nth 0 (nth e edges []) 0%nat)), (Nat.eqb n (nth 1 (nth e edges []) 0%nat)); rewrite ?(rsum_zero (fun _ => 0)) by reflexivity; reflexivity.
  - intros; apply (tri_es_len 2 edges tris [] a CR FIN); assumption.
  - apply (tri_around 2 edges tris [] a CR FIN).
  - intros t e; apply (tri_es_bound 2 edges tris [] a CR FIN).
Qed.
Definition hr (p : vec) : R * R := height_radius ax p.
Definition code_part (p : vec) (c : list nat) (n : nat) : R :=
  if in_dec Nat.eq_dec n c then total (fun m => swept [hr (P pos n); hr p; hr (midpoint (P pos n) (P pos m))]) (others n c) else 0.
Lemma tri_part : forall t c n, nth_error tris t = Some c ->
  rsum (fun e => at_end 0 n e (g 0 t e) + at_end 1 n e (g 1 t e)) (tri_es a t) = code_part (tcenter eps pos c) c n.
Proof.
  intros t c n E. destruct (tri_row 2 edges tris [] a CR FIN t c E) as (x & y & z & i0 & i1 & i2 & Hc & XY & YZ & R & E0 & E1 & E2).
  pose proof (nthe _ _ _ E) as N. pose proof (nthe _ _ _ E0) as N0. pose proof (nthe _ _ _ E1) as N1. pose proof (nthe _ _ _ E2) as N2. unfold simplex in *.
  unfold tri_es. rewrite R. cbn [flat_map app rsum]. unfold at_end, g. rewrite N, N0, N1, N2. rewrite !center_mid. unfold at_pos. cbn [nth].
  fold (P pos x) (P pos y) (P pos z). set (p := tcenter eps pos c).
  unfold code_part. rewrite total_rsum. unfold others, hr.
  destruct (in_dec Nat.eq_dec n c) as [I|I].
  - rewrite Hc in I |- *. cbn [In] in I. destruct I as [<-|[<-|[<-|[]]]]; cbn [remove];
    repeat match goal with
    | |- context [Nat.eqb ?u ?v] => destruct (Nat.eqb_spec u v); try lia
    | |- context [Nat.eq_dec ?u ?v] => destruct (Nat.eq_dec u v); try lia
    end; cbn [rsum].
    + lra.
    + rewrite (midpoint_sym (P pos y) (P pos x)). lra.
    + rewrite (midpoint_sym (P pos z) (P pos x)), (midpoint_sym (P pos z) (P pos y)). lra.
  - rewrite Hc in I. cbn [In] in I.
    repeat match goal with
    | |- context [Nat.eqb ?u ?v] => destruct (Nat.eqb_spec u v); [exfalso; subst; tauto|]
    end. lra.
Qed.
Lemma node_volume_parts : exists nv, cylindrical_node_volume eps pos edges tris a ax = Some nv /\ forall n, nv n = rsum (fun c => code_part (tcenter eps pos c) c n) tris.
Proof.
  destruct node_volume_ok as (nv & E & V). exists nv. split; [exact E|]. intros n. rewrite V, <- rsum_nth. apply rsum_ext. intros t I. apply in_seq in I.
  destruct (tri_idx tris t (proj2 I)) as [c Ec]. replace (@nth (list nat) t tris []) with c by (symmetry; exact (nthe _ _ _ Ec)). apply tri_part. exact Ec.
Qed.
Lemma edge_volume_ok : exists v1, cylindrical_edge_volume eps pos edges tris a ax = Some (repeat 0 (length pos), v1) /\ length v1 = length edges /\
  forall e, (e < length edges)%nat -> nth e v1 0 = rsum (fun t => g 1 t e) (nth e (adj_edge_tris a) []).
Proof.
  unfold cylindrical_edge_volume, element_volumes. rewrite !on_triangles_ok, !on_edges_ok. eexists. split; [reflexivity|]. split; [rewrite map_length, seq_length; reflexivity|].
  intros e I. rewrite nth_map_seq by exact I. reflexivity.
Qed.
Lemma edge_couple_ok : exists v, cylindrical_edge_couple eps pos edges tris a ax = Some v /\ length v = length edges /\
  forall e, (e < length edges)%nat -> nth e v 0 = rsum (fun t => let c := tcenter eps pos (nth t tris []) in let m := edge_center pos (nth e edges []) in
    Rabs (PI * (radial ax c + radial ax m) * magnitude (vsub m c))) (nth e (adj_edge_tris a) []).
Proof.
  unfold cylindrical_edge_couple, element_couples. rewrite !on_triangles_ok, !on_edges_ok. eexists. split; [reflexivity|]. split; [rewrite map_length, seq_length; reflexivity|].
  intros e I. rewrite nth_map_seq by exact I. reflexivity.
Qed.
End Two.
