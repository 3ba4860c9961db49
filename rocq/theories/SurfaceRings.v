(* C54: surface areas of a body of revolution; C55: distance from an interface and direction towards it. *)
From Coq Require Import List Arith Bool Lia Reals Lra Permutation.
From Verif Require Import Adjacency Geometry GeometrySpec Volume VolumeSpec VolumeGeom VolumeProperties AssemblyProofs ContactProofs VolumeProofs VolumeMesh VectorGradient Surface SurfaceSpec SurfaceProofs SurfaceTriangles SurfaceProperties.
Import ListNotations.
Open Scope R_scope.
Local Arguments Nat.ltb : simpl never.
Local Arguments Nat.leb : simpl never.
Local Arguments Nat.eqb : simpl never.

(* a radial coordinate: x or y minus the position of the axis *)
Definition radius_along (radial : vec -> R) : Prop := exists z0, radial = (fun p => vx p - z0) \/ radial = (fun p => vy p - z0).
Definition boundary (r : nat) (cs : list contact) (is : list interface) (e : nat) : Prop := of_contact r k_edges cs e \/ of_interface r i_edges0 i_edges1 is e.

Lemma boundary_in : forall r cs is e, proper is -> In e (on_contacts r k_edges cs ++ on_interfaces r i_edges0 i_edges1 is) <-> boundary r cs is e.
Proof. intros r cs is e PR. rewrite in_app_iff, contacts_in, (interfaces_in _ _ _ _ _ PR). reflexivity. Qed.
Lemma radial_mid : forall radial a b, radius_along radial -> radial (midpoint a b) = / 2 * (radial a + radial b).
Proof. intros radial a b [z0 [-> | ->]]; unfold midpoint; cbn [vx vy vz]; lra. Qed.
Lemma half_dist : forall a b, magnitude (vscale (/ 2) (vsub b a)) = dist a b / 2.
Proof.
  intros a b. rewrite magnitude_scale, Rabs_right by lra. rewrite magnitude_dist, dist_sym. lra.
Qed.
Lemma mid_dist : forall a b, dist a (midpoint a b) = dist a b / 2.
Proof.
  intros a b. rewrite <- half_dist, <- magnitude_dist. unfold magnitude, vscale, vsub, midpoint. cbn [vx vy vz]. f_equal. field.
Qed.
Lemma abs_same : forall x y, 0 <= x * y -> Rabs (x + y) = Rabs x + Rabs y.
Proof. intros x y H. unfold Rabs. destruct (Rcase_abs x), (Rcase_abs y), (Rcase_abs (x + y)); nra. Qed.

(* what node n gets of edge e *)
Definition ring_at (radial : vec -> R) (pos : list vec) (e : list nat) (n : nat) : R :=
  let p0 := P pos (nth 0 e 0%nat) in let p1 := P pos (nth 1 e 0%nat) in
  (if Nat.eqb n (nth 0 e 0%nat) then frustum radial p0 (midpoint p0 p1) else 0) + (if Nat.eqb n (nth 1 e 0%nat) then frustum radial p1 (midpoint p1 p0) else 0).
Definition one_side (radial : vec -> R) (pos : list vec) (e : list nat) : Prop := 0 <= radial (P pos (nth 0 e 0%nat)) * radial (P pos (nth 1 e 0%nat)).
Lemma half_frustum : forall radial a b, radius_along radial -> 0 <= radial a * radial b ->
  PI * Rabs (/ 2 * (radial a + radial b) + radial a) * magnitude (vscale (/ 2) (vsub b a)) = frustum radial a (midpoint a b).
Proof.
  intros radial a b RA H. unfold frustum. rewrite radial_mid, mid_dist, half_dist by exact RA. rewrite abs_same by nra. lra.
Qed.
Lemma midpoint_sym : forall a b, midpoint a b = midpoint b a.
Proof. intros a b. unfold midpoint. f_equal; lra. Qed.
Lemma process_ring_at : forall radial pos e f n, radius_along radial -> one_side radial pos e -> process_ring pos radial e f n = f n + ring_at radial pos e n.
Proof.
  intros radial pos e f n RA OS. unfold process_ring, ring_at, at_pos, upd. cbv zeta. unfold one_side in OS. fold (P pos (nth 0 e 0%nat)) (P pos (nth 1 e 0%nat)).
  set (p0 := P pos (nth 0 e 0%nat)) in *. set (p1 := P pos (nth 1 e 0%nat)) in *.
  rewrite (half_frustum radial p0 p1 RA OS).
  replace (PI * Rabs (radial p1 + / 2 * (radial p0 + radial p1)) * magnitude (vscale (/ 2) (vsub p1 p0))) with (frustum radial p1 (midpoint p1 p0)).
  - destruct (Nat.eqb_spec n (nth 1 e 0%nat)) as [E1|E1], (Nat.eqb_spec n (nth 0 e 0%nat)) as [E0|E0]; subst; try lra.
    + rewrite E0, Nat.eqb_refl. lra.
    + destruct (Nat.eqb_spec (nth 1 e 0%nat) (nth 0 e 0%nat)); [congruence|]. lra.
  - rewrite <- (half_frustum radial p1 p0 RA) by (rewrite Rmult_comm; exact OS). rewrite !half_dist, (dist_sym p1 p0). replace (/ 2 * (radial p1 + radial p0) + radial p1) with (radial p1 + / 2 * (radial p0 + radial p1)) by lra. reflexivity.
Qed.
Lemma rings_at : forall radial pos edges l f n, radius_along radial -> (forall e, In e l -> one_side radial pos (nth e edges [])) ->
  fold_left (fun f e => process_ring pos radial (nth e edges []) f) l f n = f n + rsum (fun e => ring_at radial pos (nth e edges []) n) l.
Proof.
  intros radial pos edges. induction l as [|e l IH]; intros f n RA H; cbn [fold_left rsum]; [lra|].
  rewrite IH; [|exact RA|intros x I; apply H; right; exact I]. rewrite process_ring_at; [lra|exact RA|apply H; left; reflexivity].
Qed.
Lemma ring_at_frustum : forall radial pos edges n e a b, nth e edges [] = [a; b] -> a <> b -> ring_at radial pos (nth e edges []) n = frustum_at radial pos edges n e.
Proof.
  intros radial pos edges n e a b E N. unfold ring_at, frustum_at, others, total. rewrite E. cbn [nth remove].
  destruct (in_dec Nat.eq_dec n [a; b]) as [I|I]; cbn [In] in I.
  - destruct (Nat.eqb_spec n a), (Nat.eqb_spec n b); subst; try congruence; try tauto.
    + destruct (Nat.eq_dec a a); [|congruence]. destruct (Nat.eq_dec a b); [congruence|]. cbn. lra.
    + destruct (Nat.eq_dec b a); [congruence|]. destruct (Nat.eq_dec b b); [|congruence]. cbn. lra.
    + destruct I as [I|[I|[]]]; congruence.
  - destruct (Nat.eqb_spec n a), (Nat.eqb_spec n b); subst; try (exfalso; tauto). cbn. lra.
Qed.
Lemma two_halves : forall radial a b, radius_along radial -> 0 <= radial a * radial b -> frustum radial a (midpoint a b) + frustum radial b (midpoint b a) = frustum radial a b.
Proof.
  intros radial a b RA H. unfold frustum. rewrite !mid_dist, (dist_sym b a), (midpoint_sym b a), (radial_mid radial a b) by exact RA.
  replace (/ 2 * (radial b + radial a)) with (/ 2 * (radial a + radial b)) by lra. rewrite (Rabs_mult (/ 2)), (Rabs_right (/ 2)), abs_same by (exact H || lra). field.
Qed.

(* CylindricalSurfaceArea: the area swept by the boundary (contacts and interfaces), each edge of which is on one side of the axis *)
Theorem C54_cylindrical : forall pos edges radial r cs is, radius_along radial -> proper is -> segments edges (boundary r cs is) ->
  (forall e, boundary r cs is e -> 0 <= radial (ends pos edges e 0) * radial (ends pos edges e 1)) ->
  let area := cylindrical_surface pos edges radial r cs is in
  (* a node gets the area swept by the halves of its edges *)
  (forall L n, once L (boundary r cs is) -> area n = total (frustum_at radial pos edges n) L) /\
  (* together the nodes have the area of the surface of revolution *)
  (forall L N, once L (boundary r cs is) -> (forall e n, boundary r cs is e -> In n (nth e edges []) -> (n < N)%nat) ->
    total area (seq 0 N) = total (fun e => frustum radial (ends pos edges e 0) (ends pos edges e 1)) L) /\
  (forall n, (forall e, boundary r cs is e -> ~ In n (nth e edges [])) -> area n = 0).
Proof.
  intros pos edges radial r cs is RA PR SG OS area.
  assert (V : forall L n, once L (boundary r cs is) -> area n = total (frustum_at radial pos edges n) L).
  { intros L n ON. unfold area, cylindrical_surface. rewrite rings_fold.
    assert (B : forall e, In e (firsts [] (on_contacts r k_edges cs ++ on_interfaces r i_edges0 i_edges1 is)) -> boundary r cs is e).
    { intros e I. apply (proj2 (firsts_spec _ _)) in I. apply (boundary_in r cs is e PR). tauto. }
    rewrite rings_at; [|exact RA|intros e I; apply OS; apply B; exact I].
    rewrite Rplus_0_l, <- (total_perm _ _ _ (once_perm L _ _ ON (fun e => boundary_in r cs is e PR))), total_rsum. apply rsum_ext. intros e I.
    destruct (SG e (B e I)) as (a & b & E & D). exact (ring_at_frustum radial pos edges n e a b E D). }
  split; [exact V|]. split.
  - intros L N ON BD. rewrite !total_rsum. rewrite (rsum_ext _ (fun n => rsum (frustum_at radial pos edges n) L)) by (intros n _; rewrite (V L n ON); apply total_rsum).
    rewrite rsum_swap. apply rsum_ext. intros e I. apply (proj2 ON) in I. pose proof (OS e I) as O. destruct (SG e I) as (a & b & E & D).
    rewrite (rsum_on _ [a; b] N).
    + cbn [rsum]. rewrite <- !(ring_at_frustum radial pos edges _ e a b E D). unfold ring_at, ends in *. rewrite E in *. cbn [nth] in *. rewrite !Nat.eqb_refl.
      destruct (Nat.eqb_spec a b); [congruence|]. destruct (Nat.eqb_spec b a); [congruence|]. rewrite <- (two_halves radial (P pos a) (P pos b)) by assumption. lra.
    + repeat constructor; cbn; intuition congruence.
    + intros n J. apply (BD e n I). rewrite E. exact J.
    + intros n J. rewrite <- (ring_at_frustum radial pos edges _ e a b E D). unfold ring_at. rewrite E. cbn [nth]. cbn [In] in J.
      destruct (Nat.eqb_spec n a); [subst; tauto|]. destruct (Nat.eqb_spec n b); [subst; tauto|]. lra.
  - intros n H. set (L := firsts [] (on_contacts r k_edges cs ++ on_interfaces r i_edges0 i_edges1 is)).
    assert (ON : once L (boundary r cs is)). { split; [apply firsts_spec|]. intros e. unfold L. rewrite (proj2 (firsts_spec _ _)), (boundary_in r cs is e PR). cbn. tauto. }
    rewrite (V L n ON), total_rsum. apply rsum_zero. intros e I. apply (proj2 ON) in I. unfold frustum_at. destruct (in_dec Nat.eq_dec n (nth e edges [])) as [J|J]; [destruct (H e I J)|reflexivity].
Qed.

(* ---- C55: interface_normal_model *)
Lemma center_mid : forall pos e, edge_center pos e = midpoint (P pos (nth 0 e 0%nat)) (P pos (nth 1 e 0%nat)).
Proof. intros pos e. unfold edge_center, at_pos, midpoint, vscale, vadd, P. cbn [vx vy vz]. f_equal; lra. Qed.
Lemma dot_dist : forall a c, dot (vsub a c) (vsub a c) = dist c a ^ 2.
Proof.
  intros a c. unfold dist. rewrite pow2_sqrt by (repeat apply Rplus_le_le_0_compat; apply pow2_ge_0). unfold dot, vsub. cbn [vx vy vz]. ring.
Qed.
Lemma dist_nonneg : forall a b, 0 <= dist a b.
Proof. intros. apply sqrt_pos. Qed.
Definition towards (pos : list vec) (normal : nat -> vec) (c : vec) (n : nat) (v : vec) : Prop := (v = normal n \/ v = vneg (normal n)) /\ 0 <= cosine_with v c (P pos n).
Lemma nearer_inv : forall pos normal c nodes done st, 
  (forall n, In n done -> fst st <= dist c (P pos n) ^ 2) -> (exists n, In n done /\ fst st = dist c (P pos n) ^ 2 /\ towards pos normal c n (snd st)) ->
  let out := fold_left (nearer pos normal c) nodes st in
  (forall n, In n (done ++ nodes) -> fst out <= dist c (P pos n) ^ 2) /\ (exists n, In n (done ++ nodes) /\ fst out = dist c (P pos n) ^ 2 /\ towards pos normal c n (snd out)).
Proof.
  intros pos normal c. induction nodes as [|x nodes IH]; intros done st A B; cbn [fold_left]; [rewrite app_nil_r; split; assumption|].
  replace (done ++ x :: nodes) with ((done ++ [x]) ++ nodes) by (rewrite <- app_assoc; reflexivity). apply IH.
  - intros n I. apply in_app_iff in I. unfold nearer. cbv zeta. fold (P pos x). rewrite dot_dist. destruct (Rlt_dec _ _) as [L|L]; cbn [fst].
    + destruct I as [I|[<-|[]]]; [specialize (A n I)|]; lra.
    + destruct I as [I|[<-|[]]]; [exact (A n I)|lra].
  - unfold nearer. cbv zeta. fold (P pos x). rewrite dot_dist. destruct (Rlt_dec (dist c (P pos x) ^ 2) _) as [L|L]; cbn [fst snd].
    + exists x. split; [apply in_app_iff; right; left; reflexivity|]. split; [reflexivity|]. unfold towards, cosine_with.
      destruct (Rlt_dec _ 0) as [M|M]; (split; [tauto|]); unfold dot, vneg, vsub in *; cbn [vx vy vz] in *; lra.
    + destruct B as (n & I & E). exists n. split; [apply in_app_iff; left; exact I|exact E].
Qed.
(* distance: of the centre of the edge from a nearest node of the interface; normal: that node's, pointing to the node's side *)
Theorem C55_interface_normal : forall pos big normal nodes e, nodes <> [] ->
  let c := midpoint (P pos (nth 0 e 0%nat)) (P pos (nth 1 e 0%nat)) in
  (forall n, In n nodes -> dist c (P pos n) ^ 2 < big) ->
  let out := interface_normal pos big normal nodes e in
  exists n, nearest pos c nodes n /\ fst out = dist c (P pos n) /\ (snd out = normal n \/ snd out = vneg (normal n)) /\ 0 <= cosine_with (snd out) c (P pos n) /\
    dot (snd out) (snd out) = dot (normal n) (normal n).
Proof.
  intros pos big normal nodes e NE c BIG out. unfold out, interface_normal. rewrite center_mid. fold c. cbv zeta.
  destruct nodes as [|x nodes]; [congruence|]. cbn [fold_left].
  destruct (nearer_inv pos normal c nodes [x] (nearer pos normal c (big, mkvec 0 0 0) x)) as (A & n & I & E & T).
  - intros n [<-|[]]. unfold nearer. cbv zeta. fold (P pos x). rewrite dot_dist. cbn [fst snd]. destruct (Rlt_dec _ big) as [L|L]; cbn [fst]; [lra|]. destruct L. apply BIG. left. reflexivity.
  - exists x. split; [left; reflexivity|]. unfold nearer. cbv zeta. fold (P pos x). rewrite dot_dist. cbn [fst snd]. destruct (Rlt_dec _ big) as [L|L]; cbn [fst snd]; [|destruct L; apply BIG; left; reflexivity].
    split; [reflexivity|]. unfold towards, cosine_with. destruct (Rlt_dec _ 0) as [M|M]; (split; [tauto|]); unfold dot, vneg, vsub in *; cbn [vx vy vz] in *; lra.
  - set (st := fold_left (nearer pos normal c) nodes (nearer pos normal c (big, mkvec 0 0 0) x)) in *. clearbody st. cbn [fst snd]. exists n. split; [split; [exact I|]|].
    + intros m J. specialize (A m J). rewrite E in A. apply Rsqr_incr_0_var; [unfold Rsqr; lra|apply dist_nonneg].
    + split; [rewrite E; replace (dist c (P pos n) ^ 2) with (Rsqr (dist c (P pos n))) by (unfold Rsqr; ring); apply sqrt_Rsqr; apply dist_nonneg|].
      destruct T as [T1 T2]. split; [exact T1|]. split; [exact T2|]. destruct T1 as [-> | ->]; [reflexivity|]. unfold dot, vneg. cbn [vx vy vz]. ring.
Qed.

(* Refuted: the distance from the interface itself.  The interface is the segment from (0,0) to (4,0), with nodes at its ends;
   the centre of the edge is (2,1), whose distance from the segment is 1. *)
Definition wide_pos : list vec := [mkvec 0 0 0; mkvec 4 0 0; mkvec 2 1 0; mkvec 2 1 0].
Theorem C55_distance_refuted : forall normal, let c := midpoint (P wide_pos 2) (P wide_pos 3) in
  dist c (mkvec 2 0 0) = 1 /\ fst (interface_normal wide_pos 100 normal [0; 1]%nat [2; 3]%nat) = sqrt 5.
Proof.
  intros normal c. assert (D0 : dist c (P wide_pos 0) = sqrt 5) by (unfold dist, c, midpoint, P; cbn [nth wide_pos vx vy vz]; f_equal; lra).
  assert (D1 : dist c (P wide_pos 1) = sqrt 5) by (unfold dist, c, midpoint, P; cbn [nth wide_pos vx vy vz]; f_equal; lra).
  split; [apply dist1; unfold c, midpoint, P; cbn [nth wide_pos vx vy vz]; lra|].
  assert (S5 : sqrt 5 ^ 2 = 5) by (apply pow2_sqrt; lra).
  destruct (C55_interface_normal wide_pos 100 normal [0; 1]%nat [2; 3]%nat) as (n & [I _] & E & _).
  - discriminate.
  - cbn [nth]. fold c. intros n [<-|[<-|[]]]; [rewrite D0|rewrite D1]; lra.
  - cbn [nth] in E. fold c in E. rewrite E. destruct I as [<-|[<-|[]]]; assumption.
Qed.

(* cases that meet the hypotheses: a contact of two edges of the unit square, turned about the y axis; a face of a tetrahedron *)
Example C54_rings_case : radius_along (fun p => vx p - 0) /\ segments cedges (boundary 0 [ccontact] []) /\
  (forall e, boundary 0 [ccontact] [] e -> 0 <= vx (ends cpos cedges e 0) * vx (ends cpos cedges e 1)) /\
  total (cylindrical_surface cpos cedges (fun p => vx p - 0) 0 [ccontact] []) (seq 0 3) = PI.
Proof.
  assert (RA : radius_along (fun p => vx p - 0)) by (exists 0; left; reflexivity).
  assert (B : forall e, boundary 0 [ccontact] [] e -> e = 0%nat \/ e = 1%nat).
  { intros e [(c & [<-|[]] & _ & I)|(i & [] & _)]. cbn in I. intuition. }
  assert (SG : segments cedges (boundary 0 [ccontact] [])).
  { intros e H. destruct (B e H) as [-> | ->]; [exists 0%nat, 1%nat|exists 0%nat, 2%nat]; (split; [reflexivity|lia]). }
  assert (OS : forall e, boundary 0 [ccontact] [] e -> 0 <= vx (ends cpos cedges e 0) * vx (ends cpos cedges e 1)).
  { intros e H. destruct (B e H) as [-> | ->]; unfold ends, P, cpos; cbn; lra. }
  split; [exact RA|]. split; [exact SG|]. split; [exact OS|].
  destruct (C54_cylindrical cpos cedges (fun p => vx p - 0) 0 [ccontact] [] RA (Forall_nil _) SG) as (_ & T & _).
  - intros e H. specialize (OS e H). rewrite !Rminus_0_r. exact OS.
  - rewrite (T [0; 1]%nat 3%nat).
    + unfold total, frustum, ends, P. cbn [map fold_right nth cedges cpos vx vy vz]. rewrite !dist1 by (cbn [vx vy vz]; ring). rewrite !Rminus_0_r, Rabs_R0, Rabs_R1. ring.
    + split; [repeat constructor; cbn; intuition lia|]. intros e. split; [intros [<-|[<-|[]]]; left; exists ccontact; cbn; tauto|intros H; destruct (B e H) as [-> | ->]; cbn; tauto].
    + intros e n H I. destruct (B e H) as [-> | ->]; cbn in I; intuition lia.
Qed.
Definition fcontact : contact := {| k_region := 0; k_nodes := [0; 1; 2]%nat; k_edges := []; k_tris := [0]%nat |}.
Example C54_faces_case : faces (1 / 10 ^ 20) te_pos te_tris (of_contact 0 k_tris [fcontact]) /\
  total (s_area (contact_surface (1 / 10 ^ 20) te_pos te_edges te_tris 3 0 [fcontact])) (seq 0 4) = tri_area (mkvec 0 0 0) (mkvec 1 1 0) (mkvec 1 0 1).
Proof.
  assert (B : forall e, of_contact 0 k_tris [fcontact] e -> e = 0%nat) by (intros e (c & [<-|[]] & _ & I); cbn in I; intuition).
  assert (FA : faces (1 / 10 ^ 20) te_pos te_tris (of_contact 0 k_tris [fcontact])).
  { intros x H. rewrite (B x H). clear x H. split; [cbn; lia|]. split; [exists 0%nat, 1%nat, 2%nat; cbn; intuition lia|]. cbn [nth te_tris]. unfold te_pos. good. }
  split; [exact FA|]. destruct (C54_contact_3d (1 / 10 ^ 20) te_pos te_edges te_tris 0 [fcontact] (proj1 eps_small) FA) as (_ & T & _).
  destruct (T [0]%nat 4%nat) as [_ Q].
  - split; [repeat constructor; cbn; tauto|]. intros e. split; [intros [<-|[]]; exists fcontact; cbn; tauto|intros H; rewrite (B e H); cbn; tauto].
  - intros e n H I. rewrite (B e H) in I. cbn in I. intuition lia.
  - rewrite (proj2 Q).
    + unfold total, ends, P. cbn [map fold_right nth te_tris te_pos]. lra.
    + intros e H. rewrite (B e H). unfold ends, P, nonobtuse, cosine. cbn [nth te_tris te_pos vx vy vz]. lra.
Qed.
Example C55_case : let out := interface_normal sq_pos 100 (fun _ => mkvec 1 0 0) [0; 2]%nat [1; 3]%nat in fst out <= 2 /\ snd out = mkvec (- 1) 0 0.
Proof.
  cbv zeta. destruct (C55_interface_normal sq_pos 100 (fun _ => mkvec 1 0 0) [0; 2]%nat [1; 3]%nat) as (n & [I _] & E & S & T & _).
  - discriminate.
  - intros n I. assert (Q : forall a b, (vx a - vx b) ^ 2 + (vy a - vy b) ^ 2 + (vz a - vz b) ^ 2 < 100 -> dist a b ^ 2 < 100).
    { intros a b H. unfold dist. rewrite pow2_sqrt by (repeat apply Rplus_le_le_0_compat; apply pow2_ge_0). exact H. }
    apply Q. cbn [In] in I. destruct I as [<-|[<-|[]]]; unfold midpoint, P; cbn [nth sq_pos vx vy vz]; lra.
  - split.
    + rewrite E. assert (dist (midpoint (P sq_pos (nth 0 [1; 3]%nat 0%nat)) (P sq_pos (nth 1 [1; 3]%nat 0%nat))) (P sq_pos n) ^ 2 <= 2 ^ 2).
      { unfold dist. rewrite pow2_sqrt by (repeat apply Rplus_le_le_0_compat; apply pow2_ge_0). destruct I as [<-|[<-|[]]]; unfold midpoint, P; cbn [nth sq_pos vx vy vz]; lra. }
      apply Rsqr_incr_0_var; [unfold Rsqr; lra|lra].
    + destruct S as [S|S]; rewrite S in *; [|unfold vneg; cbn [vx vy vz]; f_equal; lra]. exfalso.
      destruct I as [<-|[<-|[]]]; unfold cosine_with, midpoint, P in T; cbn [nth sq_pos vx vy vz] in T; lra.
Qed.
Print Assumptions C54_cylindrical.
Print Assumptions C55_interface_normal.
Print Assumptions C55_distance_refuted.
