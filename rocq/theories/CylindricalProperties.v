(* C56: cylindrical_node_volume, cylindrical_edge_couple. *)
From Coq Require Import String List Arith Bool Lia Reals Lra Permutation.
From Verif Require Import LoaderSpec AdjacencySpec Adjacency AdjacencyProofs Geometry GeometrySpec GeometryProofs Volume VolumeSpec VolumeGeom AssemblyProofs ContactProofs VolumeProofs VolumeMesh VolumeProperties Surface SurfaceSpec SurfaceProofs SurfaceRings Cylindrical CylindricalSpec CylindricalProofs CylindricalMesh.
Import ListNotations.
Open Scope R_scope.
Local Arguments Nat.ltb : simpl never.
Local Arguments Nat.leb : simpl never.
Local Arguments Nat.eqb : simpl never.

(* the parameters raxis_variable and raxis_zero *)
Theorem C56_parameters : forall zero variable, axis_parameters zero variable = None <-> zero = None \/ (forall v, variable = Some v -> v <> "x"%string /\ v <> "y"%string).
Proof.
  intros [z|] [v|]; cbn; split; intros H; try discriminate; try (left; reflexivity); try reflexivity.
  - right. intros w E. injection E as <-. destruct (String.eqb_spec v "x"); [discriminate|]. destruct (String.eqb_spec v "y"); [discriminate|]. tauto.
  - destruct H as [H|H]; [discriminate|]. destruct (H v eq_refl) as [A B]. destruct (String.eqb_spec v "x"); [contradiction|]. destruct (String.eqb_spec v "y"); [contradiction|]. reflexivity.
  - right. intros w E. discriminate.
Qed.
Lemma turned_axis : forall v z radius height, turned v z radius height -> exists ax, axis_parameters (Some z) (Some v) = Some ax /\ radius = radial ax /\ (forall p, height_radius ax p = (height p, radius p)).
Proof.
  intros v z radius height [(-> & -> & ->)|(-> & -> & ->)]; eexists; (split; [reflexivity|]); split; try reflexivity; intros p; reflexivity.
Qed.
Definition centers_ok (pos : list vec) (tris : list (list nat)) (center : list nat -> vec) : Prop :=
  forall c, In c tris -> circumcenter3 (center c) (P pos (nth 0 c 0%nat)) (P pos (nth 1 c 0%nat)) (P pos (nth 2 c 0%nat)).
Lemma tcenter_ok : forall eps pos tris, 0 < eps -> Forall (good2 eps pos) tris -> centers_ok pos tris (tcenter eps pos).
Proof. intros eps pos tris He G c I. rewrite Forall_forall in G. destruct (G c I) as (T & S1 & S2 & S3). apply triangle_center_ok; assumption. Qed.
Lemma rsum_le : forall A (f h : A -> R) l, (forall x, In x l -> f x <= h x) -> rsum f l <= rsum h l.
Proof. intros A f h l H. induction l as [|x l IH]; cbn [rsum]; [lra|]. pose proof (H x (or_introl eq_refl)). specialize (IH (fun y I => H y (or_intror I))). lra. Qed.
Lemma part_bound : forall ax height radius pos p c n, radius = radial ax -> (forall q, height_radius ax q = (height q, radius q)) ->
  ring_part radius pos p c n <= code_part pos ax p c n /\
  ((forall m, In n c -> In m (others n c) -> tapers_at radius height pos p n m) -> code_part pos ax p c n = ring_part radius pos p c n).
Proof.
  intros ax height radius pos p c n ER EH. unfold ring_part, code_part. destruct (in_dec Nat.eq_dec n c) as [I|I]; [|split; [lra|reflexivity]]. rewrite !total_rsum.
  assert (K : forall m, pappus radius (P pos n) (midpoint (P pos n) (P pos m)) p = pap [hr ax (P pos n); hr ax p; hr ax (midpoint (P pos n) (P pos m))]).
  { intros m. rewrite ER, <- pap_pappus. apply pap_perm; [|reflexivity]. apply perm_skip, perm_swap. }
  split.
  - apply rsum_le. intros m _. rewrite K. apply swept_bound. reflexivity.
  - intros T. apply rsum_ext. intros m J. rewrite K. apply swept_bound; [reflexivity|]. specialize (T m I J). unfold tapers_at in T. cbn [map] in T. unfold hr. rewrite !EH. exact T.
Qed.

(* The volume of a node is at least what its triangles give it, and exactly that if no part is widest at the ends. *)
Theorem C56_node_volume_partial : forall eps pos edges tris a v z radius height, turned v z radius height -> 0 < eps -> complete_region edges tris [] -> Forall (good2 eps pos) tris ->
  finalize_region 2 edges tris [] = Finished a ->
  exists ax nv center, axis_parameters (Some z) (Some v) = Some ax /\ cylindrical_node_volume eps pos edges tris a ax = Some nv /\ centers_ok pos tris center /\
    forall n, total (fun c => ring_part radius pos (center c) c n) tris <= nv n /\
      ((forall c m, In c tris -> In n c -> In m (others n c) -> tapers_at radius height pos (center c) n m) -> nv n = total (fun c => ring_part radius pos (center c) c n) tris).
Proof.
  intros eps pos edges tris a v z radius height TU He CR G FIN. destruct (turned_axis v z radius height TU) as (ax & EA & ER & EH).
  destruct (node_volume_parts eps pos edges tris a ax CR FIN) as (nv & E & V). exists ax, nv, (tcenter eps pos). split; [exact EA|]. split; [exact E|]. split; [apply tcenter_ok; assumption|].
  intros n. rewrite V, total_rsum. split.
  - apply rsum_le. intros c _. apply (part_bound ax height radius pos (tcenter eps pos c) c n ER EH).
  - intros T. apply rsum_ext. intros c I. apply (part_bound ax height radius pos (tcenter eps pos c) c n ER EH). intros m Ic Im. apply T; assumption.
Qed.
(* the parts of a triangle that contains its centre are the triangle *)
Lemma ring_parts : forall radius p a b c, (exists k z0, (k = true -> radius = fun q => vx q - z0) /\ (k = false -> radius = fun q => vy q - z0)) -> triangle a b c -> circumcenter3 p a b c -> nonobtuse a b c ->
  pappus radius b (midpoint b c) p + pappus radius c (midpoint c b) p + (pappus radius a (midpoint a c) p + pappus radius c (midpoint c a) p) + (pappus radius a (midpoint a b) p + pappus radius b (midpoint b a) p)
  = pappus radius a b c.
Proof.
  intros radius p a b c (k & z0 & RX & RY) T C O.
  pose proof (circumcenter_weights p a b c T C) as E. pose proof (weights_one a b c (proj1 (triangle_n2 _ _ _) T)) as W. destruct (triangle_perm a b c T) as [T1 T2].
  unfold nonobtuse in O. rewrite <- (wA_sign a b c T), <- (wA_sign b a c T1), <- (wA_sign c a b T2) in O. destruct O as (O1 & O2 & O3).
  set (s := wA a b c) in *. set (t := wA b a c) in *. set (u := wA c a b) in *. clearbody s t u. assert (U : u = 1 - s - t) by lra.
  set (D := (vx b - vx a) * (vy c - vy a) - (vx c - vx a) * (vy b - vy a)).
  assert (AR : forall x, 0 <= x -> Rabs (x * D) = x * Rabs D) by (intros x H; rewrite Rabs_mult, (Rabs_right x) by lra; reflexivity).
  assert (A1 : area2 b (midpoint b c) p = s / 2 * Rabs D / 2).
  { unfold area2. replace (Rabs _) with (Rabs (s / 2 * D)); [rewrite AR by lra; reflexivity|]. f_equal. unfold D. rewrite E, U. unfold comb3, midpoint. cbn [vx vy vz]. field. }
  assert (A2 : area2 c (midpoint c b) p = s / 2 * Rabs D / 2).
  { unfold area2. rewrite <- (Rabs_Ropp (_ - _)). replace (Rabs _) with (Rabs (s / 2 * D)); [rewrite AR by lra; reflexivity|]. f_equal. unfold D. rewrite E, U. unfold comb3, midpoint. cbn [vx vy vz]. field. }
  assert (A3 : area2 a (midpoint a c) p = t / 2 * Rabs D / 2).
  { unfold area2. rewrite <- (Rabs_Ropp (_ - _)). replace (Rabs _) with (Rabs (t / 2 * D)); [rewrite AR by lra; reflexivity|]. f_equal. unfold D. rewrite E, U. unfold comb3, midpoint. cbn [vx vy vz]. field. }
  assert (A4 : area2 c (midpoint c a) p = t / 2 * Rabs D / 2).
  { unfold area2. replace (Rabs _) with (Rabs (t / 2 * D)); [rewrite AR by lra; reflexivity|]. f_equal. unfold D. rewrite E, U. unfold comb3, midpoint. cbn [vx vy vz]. field. }
  assert (A5 : area2 a (midpoint a b) p = u / 2 * Rabs D / 2).
  { unfold area2. replace (Rabs _) with (Rabs (u / 2 * D)); [rewrite AR by lra; reflexivity|]. f_equal. unfold D. rewrite E, U. unfold comb3, midpoint. cbn [vx vy vz]. field. }
  assert (A6 : area2 b (midpoint b a) p = u / 2 * Rabs D / 2).
  { unfold area2. rewrite <- (Rabs_Ropp (_ - _)). replace (Rabs _) with (Rabs (u / 2 * D)); [rewrite AR by lra; reflexivity|]. f_equal. unfold D. rewrite E, U. unfold comb3, midpoint. cbn [vx vy vz]. field. }
  assert (A0 : area2 a b c = Rabs D / 2) by reflexivity.
  unfold pappus. rewrite A0, A1, A2, A3, A4, A5, A6. clear A0 A1 A2 A3 A4 A5 A6 AR. set (d := Rabs D). clearbody d.
  destruct k; [rewrite RX by reflexivity|rewrite RY by reflexivity]; rewrite E, U; unfold comb3, midpoint; cbn [vx vy vz]; field.
Qed.
Lemma ring_part_total : forall radius pos p x y z N, (x < y)%nat -> (y < z)%nat -> (z < N)%nat ->
  rsum (ring_part radius pos p [x; y; z]) (seq 0 N) =
  pappus radius (P pos y) (midpoint (P pos y) (P pos z)) p + pappus radius (P pos z) (midpoint (P pos z) (P pos y)) p
   + (pappus radius (P pos x) (midpoint (P pos x) (P pos z)) p + pappus radius (P pos z) (midpoint (P pos z) (P pos x)) p)
   + (pappus radius (P pos x) (midpoint (P pos x) (P pos y)) p + pappus radius (P pos y) (midpoint (P pos y) (P pos x)) p).
Proof.
  intros radius pos p x y z N XY YZ ZN. rewrite (rsum_on _ [x; y; z] N).
  - cbn [rsum]. unfold ring_part. repeat match goal with |- context [in_dec Nat.eq_dec ?u [x; y; z]] => destruct (in_dec Nat.eq_dec u [x; y; z]) as [_|K]; [|exfalso; cbn in K; lia] end.
    rewrite !total_rsum. unfold others. cbn [remove]. repeat match goal with |- context [Nat.eq_dec ?u ?v] => destruct (Nat.eq_dec u v); try lia end. cbn [rsum]. lra.
  - repeat constructor; cbn; lia.
  - intros n I. cbn in I. lia.
  - intros n I. unfold ring_part. destruct (in_dec Nat.eq_dec n [x; y; z]); [contradiction|reflexivity].
Qed.
Definition swept_triangle (radius : vec -> R) (pos : list vec) (c : list nat) : R := pappus radius (P pos (nth 0 c 0%nat)) (P pos (nth 1 c 0%nat)) (P pos (nth 2 c 0%nat)).
(* All node volumes together are at least the volume of the body if no triangle is obtuse, and equal to it if no part is widest at the ends. *)
Theorem C56_body_partial : forall eps pos edges tris a v z radius height, turned v z radius height -> 0 < eps -> complete_region edges tris [] -> Forall (good2 eps pos) tris ->
  Forall (corner_nonobtuse pos) tris -> (forall c n, In c tris -> In n c -> (n < length pos)%nat) -> finalize_region 2 edges tris [] = Finished a ->
  exists ax nv center, axis_parameters (Some z) (Some v) = Some ax /\ cylindrical_node_volume eps pos edges tris a ax = Some nv /\ centers_ok pos tris center /\
    total (swept_triangle radius pos) tris <= total nv (seq 0 (length pos)) /\
    ((forall c n m, In c tris -> In n c -> In m (others n c) -> tapers_at radius height pos (center c) n m) -> total nv (seq 0 (length pos)) = total (swept_triangle radius pos) tris).
Proof.
  intros eps pos edges tris a v z radius height TU He CR G OB B FIN.
  destruct (C56_node_volume_partial eps pos edges tris a v z radius height TU He CR G FIN) as (ax & nv & center & EA & E & CC & V). exists ax, nv, center. split; [exact EA|]. split; [exact E|]. split; [exact CC|].
  assert (S : total (swept_triangle radius pos) tris = rsum (fun n => total (fun c => ring_part radius pos (center c) c n) tris) (seq 0 (length pos))).
  { rewrite total_rsum. rewrite (rsum_ext (fun n => total (fun c => ring_part radius pos (center c) c n) tris) (fun n => rsum (fun c => ring_part radius pos (center c) c n) tris)) by (intros; apply total_rsum).
    rewrite rsum_swap. apply rsum_ext. intros c I. destruct (cr_tris _ _ _ CR) as [_ Sh]. rewrite Forall_forall in Sh. destruct (Sh c I) as (Lc & Nc & Ac).
    destruct (tri_shape c Lc Nc Ac) as (x & y & w & Hc & XY & YZ). pose proof (CC c I) as C. rewrite Forall_forall in G, OB. destruct (G c I) as (Tr & _). specialize (OB c I).
    pose proof (B c w I ltac:(rewrite Hc; cbn; tauto)) as Lw. unfold swept_triangle. unfold corner_nonobtuse in OB. rewrite Hc in C, Tr, OB |- *. cbn [nth] in C, Tr, OB |- *.
    rewrite ring_part_total by lia. symmetry. apply ring_parts; try assumption.
    destruct TU as [(_ & -> & _)|(_ & -> & _)]; [exists true, z|exists false, z]; (split; [intros; try discriminate; reflexivity|intros; try discriminate; reflexivity]). }
  rewrite S, total_rsum. split.
  - apply rsum_le. intros n _. apply V.
  - intros T. apply rsum_ext. intros n _. apply V. intros c m I J K. apply T; assumption.
Qed.
(* CylindricalEdgeCouple: the area swept by the segments from the centre of the edge to those of the triangles at it *)
Theorem C56_couple : forall eps pos edges tris a v z radius height, turned v z radius height -> 0 < eps -> complete_region edges tris [] -> Forall (good2 eps pos) tris ->
  finalize_region 2 edges tris [] = Finished a ->
  exists ax ec center, axis_parameters (Some z) (Some v) = Some ax /\ cylindrical_edge_couple eps pos edges tris a ax = Some ec /\ length ec = length edges /\ centers_ok pos tris center /\
    forall e n m T, nth_error edges e = Some [n; m] -> once T (fun t => exists c, nth_error tris t = Some c /\ face [n; m] c) ->
      let mid := midpoint (P pos n) (P pos m) in
      (forall c, In c tris -> face [n; m] c -> 0 <= radius (center c) * radius mid) ->
      nth e ec 0 = total (fun t => frustum radius (center (nth t tris [])) mid) T.
Proof.
  intros eps pos edges tris a v z radius height TU He CR G FIN. destruct (turned_axis v z radius height TU) as (ax & EA & ER & EH).
  destruct (edge_couple_ok eps pos edges tris a ax CR FIN) as (ec & E & L & V). exists ax, ec, (tcenter eps pos). split; [exact EA|]. split; [exact E|]. split; [exact L|]. split; [apply tcenter_ok; assumption|].
  intros e n m T Ee ON mid OS. assert (He' : (e < length edges)%nat) by (apply nth_error_Some; congruence). rewrite (V e He'), total_rsum. cbv zeta.
  pose proof (nthe _ _ _ Ee) as N. unfold simplex in *. rewrite N, center_mid. cbn [nth]. fold mid.
  assert (PT : Permutation (nth e (adj_edge_tris a) []) T).
  { destruct (tri_around 2 edges tris [] a CR FIN e He') as [N1 K1]. apply NoDup_Permutation; [exact N1|apply ON|]. intros t. rewrite (proj2 ON).
    destruct (Nat.eq_dec (length tris) 0) as [Z|Z].
    - rewrite K1. split; [intros [Q _]; unfold simplex in *; lia|]. intros (c & Ec & _). destruct tris; [destruct t; discriminate|discriminate].
    - assert (NZ : tris <> []) by (intros Q; apply Z; rewrite Q; reflexivity). destruct (cn_edge_tris _ _ _ _ (conn 2 edges tris [] a CR FIN) NZ e _ Ee) as [_ K]. apply K. }
  rewrite (rsum_perm _ _ _ PT). apply rsum_ext. intros t I. apply (proj2 ON) in I. destruct I as (c & Ec & F). pose proof (nthe _ _ _ Ec) as Nc. unfold simplex in *. rewrite Nc.
  specialize (OS c (nth_error_In _ _ Ec) F). unfold frustum. rewrite <- ER, magnitude_dist, (dist_sym mid). rewrite !Rabs_mult. rewrite (Rabs_right PI) by (pose proof PI_RGT_0; lra).
  rewrite (Rabs_right (dist _ _)) by (apply Rle_ge, SurfaceRings.dist_nonneg). rewrite abs_same by exact OS. reflexivity.
Qed.

(* ---- the unit square, turned about the y axis (a cylinder with radius 1 and height 1) *)
Definition sq_center : vec := mkvec (1 / 2) (1 / 2) 0.
Lemma dist_eq_sq : forall a b c d, dist a b = dist c d -> (vx a - vx b) ^ 2 + (vy a - vy b) ^ 2 + (vz a - vz b) ^ 2 = (vx c - vx d) ^ 2 + (vy c - vy d) ^ 2 + (vz c - vz d) ^ 2.
Proof. intros a b c d H. apply sqrt_inj in H; [exact H| |]; repeat apply Rplus_le_le_0_compat; apply pow2_ge_0. Qed.
Lemma sq_centers : forall center c, centers_ok sq_pos sq_tris center -> In c sq_tris -> center c = sq_center.
Proof.
  intros center c CC I. specialize (CC c I). destruct CC as (D1 & D2 & s & t & u & W & E). apply dist_eq_sq in D1, D2. rewrite E in D1, D2 |- *.
  destruct I as [<-|[<-|[]]]; unfold P, sq_pos, comb3 in *; cbn [nth vx vy vz] in *; unfold sq_center; f_equal; try lra.
Qed.
Lemma sq_nonobtuse : Forall (corner_nonobtuse sq_pos) sq_tris.
Proof. unfold sq_tris, sq_pos, corner_nonobtuse, nonobtuse, cosine, P. repeat constructor; cbn [nth vx vy vz]; lra. Qed.
Lemma sq_bound : forall c n, In c sq_tris -> In n c -> (n < length sq_pos)%nat.
Proof. intros c n [<-|[<-|[]]] I; cbn in I |- *; lia. Qed.
Ltac eval_swept := unfold swept, sort, insert, pair_lt; cbn [fold_right fst snd];
  repeat (match goal with |- context [Rlt_dec ?x ?y] => destruct (Rlt_dec x y); try (exfalso; lra) end; cbn [fold_right fst snd]);
  repeat (match goal with |- context [Req_EM_T ?x ?y] => destruct (Req_EM_T x y); try (exfalso; lra) end);
  unfold flat; cbv zeta; repeat (match goal with |- context [Rabs ?x] => first [rewrite (Rabs_right x) by lra|rewrite (Rabs_left1 x) by lra] end); try field; try lra.
Lemma sq_swept1 : swept [(0, 0); (1 / 2, 1 / 2); (0, 1 / 2)] = PI / 6.
Proof. eval_swept. Qed.
Lemma sq_swept2 : swept [(0, 0); (1 / 2, 1 / 2); (1 / 2, 0)] = PI / 24.
Proof. eval_swept. Qed.
Lemma sq_total : total (swept_triangle (fun p => vx p - 0) sq_pos) sq_tris = PI.
Proof.
  unfold total, sq_tris, swept_triangle, pappus, area2, P, sq_pos. cbn [map fold_right nth vx vy vz].
  rewrite (Rabs_right ((1 - 0) * (1 - 0) - (0 - 0) * (0 - 0))) by lra. rewrite (Rabs_left ((0 - 1) * (1 - 0) - (1 - 1) * (1 - 0))) by lra. field.
Qed.
Lemma sq_part0 : total (fun c => ring_part (fun p => vx p - 0) sq_pos sq_center c 0%nat) sq_tris = PI / 8.
Proof.
  unfold total, sq_tris, ring_part, total. cbn [map fold_right]. destruct (in_dec Nat.eq_dec 0%nat [0; 1; 2]%nat) as [_|K]; [|cbn in K; tauto]. destruct (in_dec Nat.eq_dec 0%nat [1; 2; 3]%nat) as [K|_]; [cbn in K; lia|].
  unfold others. cbn [remove]. repeat match goal with |- context [Nat.eq_dec ?u ?v] => destruct (Nat.eq_dec u v); try lia end. cbn [map fold_right]. unfold pappus, area2, P, sq_pos, midpoint, sq_center. cbn [nth vx vy vz].
  repeat (match goal with |- context [Rabs ?x] => first [rewrite (Rabs_right x) by lra|rewrite (Rabs_left1 x) by lra] end). field.
Qed.
(* Refuted: the volume of node 0, whose cell is the square from 0 to 1/2 (volume PI/8), is 5 PI/24, and the volumes of the nodes add up to more than PI. *)
Theorem C56_square_refuted : exists a nv, finalize_region 2 sq_edges sq_tris [] = Finished a /\ cylindrical_node_volume (1 / 10 ^ 20) sq_pos sq_edges sq_tris a (AlongX, 0) = Some nv /\
  nv 0%nat = 5 * PI / 24 /\ total (fun c => ring_part (fun p => vx p - 0) sq_pos sq_center c 0%nat) sq_tris = PI / 8 /\
  total nv (seq 0 4) >= PI + PI / 12 /\ total (swept_triangle (fun p => vx p - 0) sq_pos) sq_tris = PI.
Proof.
  destruct (finalize_region 2 sq_edges sq_tris []) as [a| |] eqn:FI; [|vm_compute in FI; discriminate|vm_compute in FI; discriminate].
  assert (TU : turned "x" 0 (fun p => vx p - 0) vy) by (left; repeat split).
  destruct (node_volume_parts (1 / 10 ^ 20) sq_pos sq_edges sq_tris a (AlongX, 0) sq_complete FI) as (nv & E & V). exists a, nv. split; [reflexivity|]. split; [exact E|].
  pose proof (tcenter_ok (1 / 10 ^ 20) sq_pos sq_tris (proj1 eps_small) sq_good) as CC.
  assert (V0 : nv 0%nat = 5 * PI / 24).
  { rewrite V. unfold sq_tris. cbn [rsum]. rewrite (sq_centers _ _ CC) by (left; reflexivity). rewrite (sq_centers _ _ CC) by (right; left; reflexivity). unfold code_part.
    destruct (in_dec Nat.eq_dec 0%nat [0; 1; 2]%nat) as [_|K]; [|cbn in K; tauto]. destruct (in_dec Nat.eq_dec 0%nat [1; 2; 3]%nat) as [K|_]; [cbn in K; lia|].
    unfold others. cbn [remove]. repeat match goal with |- context [Nat.eq_dec ?u ?v] => destruct (Nat.eq_dec u v); try lia end. unfold total. cbn [map fold_right]. unfold hr, height_radius, axial, radial, P, sq_pos, midpoint, sq_center. cbn [nth vx vy vz fst snd].
    replace ((0 + 0) / 2) with 0 by lra. replace ((0 + 1) / 2) with (1 / 2) by lra. rewrite !Rminus_0_r. rewrite sq_swept1, sq_swept2. field. }
  split; [exact V0|]. split; [exact sq_part0|]. split; [|exact sq_total].
  destruct (C56_node_volume_partial (1 / 10 ^ 20) sq_pos sq_edges sq_tris a "x" 0 _ _ TU (proj1 eps_small) sq_complete sq_good FI) as (ax & nv' & center & EA & E' & CC' & B).
  injection EA as <-. rewrite E in E'. injection E' as <-.
  assert (S : total (swept_triangle (fun p => vx p - 0) sq_pos) sq_tris = total (fun n => total (fun c => ring_part (fun p => vx p - 0) sq_pos sq_center c n) sq_tris) (seq 0 4)).
  { rewrite !total_rsum. rewrite (rsum_ext (fun n => total (fun c => ring_part (fun p => vx p - 0) sq_pos sq_center c n) sq_tris) (fun n => rsum (fun c => ring_part (fun p => vx p - 0) sq_pos sq_center c n) sq_tris)) by (intros; apply total_rsum).
    rewrite rsum_swap. unfold sq_tris. cbn [rsum]. rewrite !ring_part_total by lia.
    pose proof (CC _ (or_introl eq_refl)) as C1. pose proof (CC _ (or_intror (or_introl eq_refl))) as C2. rewrite (sq_centers _ _ CC) in C1 by (left; reflexivity). rewrite (sq_centers _ _ CC) in C2 by (right; left; reflexivity).
    pose proof sq_good as G. inversion G as [|? ? G1 G']; subst. inversion G' as [|? ? G2 _]; subst. destruct G1 as (T1 & _). destruct G2 as (T2 & _). cbn [nth] in C1, C2, T1, T2.
    pose proof sq_nonobtuse as O. inversion O as [|? ? O1 O']; subst. inversion O' as [|? ? O2 _]; subst. unfold corner_nonobtuse in O1, O2. cbn [nth] in O1, O2.
    rewrite !ring_parts; try assumption; try (exists true, 0; split; [reflexivity|discriminate]). unfold swept_triangle. cbn [nth]. reflexivity. }
  rewrite sq_total in S.
  assert (Q : forall n, total (fun c => ring_part (fun p => vx p - 0) sq_pos sq_center c n) sq_tris <= nv n).
  { intros n. replace (total (fun c => ring_part (fun p => vx p - 0) sq_pos sq_center c n) sq_tris) with (total (fun c => ring_part (fun p => vx p - 0) sq_pos (center c) c n) sq_tris); [apply B|].
    rewrite !total_rsum. apply rsum_ext. intros c I. rewrite (sq_centers _ _ CC' I). reflexivity. }
  pose proof (Q 1%nat) as Q1. pose proof (Q 2%nat) as Q2. pose proof (Q 3%nat) as Q3. assert (S4 : forall f : nat -> R, total f (seq 0 4) = f 0%nat + (f 1%nat + (f 2%nat + (f 3%nat + 0)))) by reflexivity.
  rewrite S4 in S |- *. cbv beta in S. rewrite sq_part0 in S. rewrite V0. lra.
Qed.
(* Refuted: CylindricalEdgeNodeVolume@n0 is zero, and has as many values as there are nodes instead of edges. *)
Theorem C56_edge_volume_refuted : forall eps pos edges tris a ax, complete_region edges tris [] -> finalize_region 2 edges tris [] = Finished a ->
  exists v0 v1, cylindrical_edge_volume eps pos edges tris a ax = Some (v0, v1) /\ length v0 = length pos /\ (forall x, In x v0 -> x = 0) /\ length v1 = length edges.
Proof.
  intros eps pos edges tris a ax CR FI. destruct (edge_volume_ok eps pos edges tris a ax CR FI) as (v1 & E & L & _). exists (repeat 0 (length pos)), v1.
  split; [exact E|]. split; [apply repeat_length|]. split; [intros x I; apply repeat_spec in I; exact I|exact L].
Qed.
(* A mesh whose parts taper: a triangle with one side on the axis and the opposite corner at half of the height, a double cone. *)
Definition cone_pos : list vec := [mkvec 0 0 0; mkvec 0 2 0; mkvec 1 1 0].
Definition cone_edges : list (list nat) := [[0; 1]; [0; 2]; [1; 2]]%nat.
Definition cone_tris : list (list nat) := [[0; 1; 2]]%nat.
Lemma cone_complete : complete_region cone_edges cone_tris [].
Proof.
  assert (A2 : forall x y, (x <= y)%nat -> ascending [x; y]) by (intros; repeat constructor; assumption).
  constructor.
  - split; [repeat constructor; cbn; intuition discriminate|]. repeat (constructor; [split; [reflexivity|]; split; [repeat constructor; cbn; lia|apply A2; lia]|]). constructor.
  - split; [repeat constructor; cbn; tauto|]. constructor; [|constructor]. split; [reflexivity|]. split; [repeat constructor; cbn; lia|]. repeat constructor; lia.
  - split; constructor.
  - intros f c I L A F. destruct I as [<-|[]]. destruct f as [|x [|y [|]]]; try discriminate. destruct F as [r F].
    pose proof (Permutation_length F) as Lr. cbn in Lr. destruct r as [|w [|]]; cbn in Lr; try lia. cbn [app] in F.
    assert (N : NoDup [x; y; w]) by (apply (Permutation_NoDup (Permutation_sym F)); repeat constructor; cbn; lia).
    assert (Ix : In x [0; 1; 2]%nat) by (apply (Permutation_in _ F); cbn; tauto). assert (Iy : In y [0; 1; 2]%nat) by (apply (Permutation_in _ F); cbn; tauto).
    inversion N as [|? ? N1 _]; subst. cbn in N1, Ix, Iy. unfold ascending in A. inversion A as [|? ? _ A']; subst. inversion A'; subst.
    destruct Ix as [<-|[<-|[<-|[]]]], Iy as [<-|[<-|[<-|[]]]]; try lia; cbn; tauto.
  - intros f c [].
Qed.
Lemma cone_good : Forall (good2 (1 / 10 ^ 20) cone_pos) cone_tris.
Proof. constructor; [|constructor]. unfold cone_pos. good. Qed.
Lemma cone_center : forall center c, centers_ok cone_pos cone_tris center -> In c cone_tris -> center c = mkvec 0 1 0.
Proof.
  intros center c CC I. specialize (CC c I). destruct CC as (D1 & D2 & s & t & u & W & E). apply dist_eq_sq in D1, D2. rewrite E in D1, D2 |- *.
  destruct I as [<-|[]]; unfold P, cone_pos, comb3 in *; cbn [nth vx vy vz] in *; f_equal; nra.
Qed.
Lemma tapers_three : forall za ra zb rb zc rc, (za, ra) <> (zb, rb) -> (za, ra) <> (zc, rc) -> (zb, rb) <> (zc, rc) ->
  (forall z0 r0 z1 r1 z2 r2 r3, In (z0, r0) [(za, ra); (zb, rb); (zc, rc)] -> In (z1, r1) [(za, ra); (zb, rb); (zc, rc)] -> In (z2, r2) [(za, ra); (zb, rb); (zc, rc)] ->
    (z0, r0) <> (z1, r1) -> (z1, r1) <> (z2, r2) -> z0 <= z1 <= z2 -> z0 < z2 -> (z2 - z0) * (r3 - r0) = (z1 - z0) * (r2 - r0) -> (z0 < z1 -> 2 * r0 <= r1 + r3) /\ (z1 < z2 -> 2 * r2 <= r1 + r3)) ->
  tapers [(za, ra); (zb, rb); (zc, rc)].
Proof.
  intros za ra zb rb zc rc N1 N2 N3 H z0 r0 z1 r1 z2 r2 Q Z D r3.
  assert (N : NoDup [(z0, r0); (z1, r1); (z2, r2)]).
  { apply (Permutation_NoDup Q). repeat constructor; cbn; intuition congruence. }
  inversion N as [|? ? A N']; subst. inversion N' as [|? ? B _]; subst. cbn [In] in A, B.
  apply (H z0 r0 z1 r1 z2 r2); try assumption; try (apply (Permutation_in _ (Permutation_sym Q)); cbn; tauto).
  - intros X. apply A. left. congruence.
  - intros X. apply B. left. congruence.
  - unfold r3. field. lra.
Qed.
Ltac tap := apply tapers_three; [intros X; injection X; intros; lra|intros X; injection X; intros; lra|intros X; injection X; intros; lra|];
  intros z0 r0 z1 r1 z2 r2 r3 I0 I1 I2 NA NB Zt Dt Et; cbn [In] in I0, I1, I2;
  destruct I0 as [X0|[X0|[X0|[]]]], I1 as [X1|[X1|[X1|[]]]], I2 as [X2|[X2|[X2|[]]]]; injection X0 as <- <-; injection X1 as <- <-; injection X2 as <- <-;
  first [exfalso; lra|exfalso; apply NA; reflexivity|exfalso; apply NB; reflexivity|split; intros; lra].
Lemma tapers_line : forall l, (forall p, In p l -> snd p = 0) -> tapers l.
Proof.
  intros l H z0 r0 z1 r1 z2 r2 Q Z D r3.
  assert (K : forall p, In p [(z0, r0); (z1, r1); (z2, r2)] -> snd p = 0) by (intros p I; apply H; apply (Permutation_in _ (Permutation_sym Q)); exact I).
  pose proof (K (z0, r0) ltac:(cbn; tauto)) as A. pose proof (K (z1, r1) ltac:(cbn; tauto)) as B. pose proof (K (z2, r2) ltac:(cbn; tauto)) as C. cbn [snd] in *. subst.
  assert (r3 = 0) by (unfold r3; field; lra). split; intros; lra.
Qed.
Example C56_double_cone : exists a ax nv, finalize_region 2 cone_edges cone_tris [] = Finished a /\ axis_parameters (Some 0) (Some "x"%string) = Some ax /\
  cylindrical_node_volume (1 / 10 ^ 20) cone_pos cone_edges cone_tris a ax = Some nv /\ total nv (seq 0 3) = 2 * PI / 3.
Proof.
  destruct (finalize_region 2 cone_edges cone_tris []) as [a| |] eqn:FI; [|vm_compute in FI; discriminate|vm_compute in FI; discriminate].
  assert (TU : turned "x" 0 (fun p => vx p - 0) vy) by (left; repeat split).
  destruct (C56_body_partial (1 / 10 ^ 20) cone_pos cone_edges cone_tris a "x" 0 _ _ TU (proj1 eps_small) cone_complete cone_good) as (ax & nv & center & EA & E & CC & _ & Q).
  - unfold cone_tris, cone_pos, corner_nonobtuse, nonobtuse, cosine, P. repeat constructor; cbn [nth vx vy vz]; lra.
  - intros c n [<-|[]] I. cbn in I |- *. lia.
  - exact FI.
  - exists a, ax, nv. split; [reflexivity|]. split; [exact EA|]. split; [exact E|]. change 3%nat with (length cone_pos). rewrite Q.
    + unfold total, cone_tris, swept_triangle, pappus, area2, P, cone_pos. cbn [map fold_right nth vx vy vz]. rewrite Rabs_left by lra. field.
    + intros c n m I J K. rewrite (cone_center _ _ CC I). destruct I as [<-|[]]. unfold tapers_at. cbn [In] in J. unfold others in K.
      destruct J as [<-|[<-|[<-|[]]]]; cbn [remove] in K; repeat match goal with H : context [Nat.eq_dec ?u ?v] |- _ => destruct (Nat.eq_dec u v); try lia end; cbn [In] in K;
        destruct K as [<-|[<-|[]]]; unfold P, cone_pos, midpoint; cbn [map nth vx vy vz].
      all: first [apply tapers_line; cbn [In]; intros p [<-|[<-|[<-|[]]]]; cbn [snd]; lra|tap].
Qed.
Print Assumptions C56_node_volume_partial.
Print Assumptions C56_body_partial.
Print Assumptions C56_couple.
Print Assumptions C56_square_refuted.
Print Assumptions C56_edge_volume_refuted.
