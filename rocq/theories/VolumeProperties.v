(* C38, C39: centres of elements and node volumes. *)
From Coq Require Import List Arith Lia Reals Lra Permutation Sorted.
From Verif Require Import Adjacency LoaderSpec AdjacencySpec Geometry GeometrySpec GeometryProofs Volume VolumeGeom VolumeSpec VolumeProofs AdjacencyProofs AdjacencyFinal VolumeMesh VolumeMesh3 AssemblyProofs ContactProofs.
Import ListNotations.
Open Scope nat_scope.
Open Scope R_scope.

(* ---- C38 --------------------------------------------------------------------- *)
(* The centre of every triangle whose coordinates are equal or differ by at least the tolerance has the
   same distance from the three nodes, and is in their plane. *)
Theorem C38_triangle_partial : forall eps a b c, 0 < eps -> triangle a b c -> separated eps a b -> separated eps a c -> separated eps b c ->
  circumcenter3 (triangle_center eps a b c) a b c.
Proof. exact triangle_center_ok. Qed.
Lemma sep_by : forall eps (a b : vec), 0 < eps <= 1 ->
  (vx a = vx b \/ 1 <= Rabs (vx a - vx b)) -> (vy a = vy b \/ 1 <= Rabs (vy a - vy b)) -> (vz a = vz b \/ 1 <= Rabs (vz a - vz b)) -> separated eps a b.
Proof. intros eps a b H A B C. split; [destruct A; [left; assumption|right; lra]|]. split; [destruct B; [left; assumption|right; lra]|destruct C; [left; assumption|right; lra]]. Qed.
Ltac sep := apply sep_by; [lra| | |]; cbn [vx vy vz]; first [left; lra | right; first [rewrite Rabs_right; lra | rewrite Rabs_left; lra]].
Lemma triangle_by : forall a b c, 0 < n2 a b c -> triangle a b c.
Proof. intros. apply triangle_n2. assumption. Qed.
Example C38_triangle_case : let a := mkvec 0 0 0 in let b := mkvec 2 0 0 in let c := mkvec 0 2 0 in
  triangle a b c /\ separated (1 / 10 ^ 20) a b /\ separated (1 / 10 ^ 20) a c /\ separated (1 / 10 ^ 20) b c /\ triangle_center (1 / 10 ^ 20) a b c = mkvec 1 1 0.
Proof.
  cbv zeta. assert (E : 0 < 1 / 10 ^ 20 <= 1). { split; [apply Rdiv_lt_0_compat; [lra|apply pow_lt; lra]|]. apply Rmult_le_reg_r with (10 ^ 20); [apply pow_lt; lra|]. unfold Rdiv. rewrite Rmult_assoc, Rinv_l by (apply pow_nonzero; lra). cbn. lra. }
  split; [apply triangle_by; unfold n2, dot, cross, vsub; cbn [vx vy vz]; lra|]. set (e := 1 / 10 ^ 20) in *.
  split; [sep|split; [sep|split; [sep|]]].
  unfold triangle_center, vsub, center_in_plane. cbn [vx vy vz]. 
  replace (0 - 0) with 0 by ring. rewrite Rabs_R0. destruct (Rlt_dec 0 e) as [_|N]; [|lra]. cbn [fst snd]. cbv zeta. f_equal; field.
Qed.
(* A triangle smaller than the tolerance: its centre is one of its nodes. *)
Theorem C38_tiny_refuted : let s := / 10 ^ 21 in let a := mkvec 0 0 0 in let b := mkvec 0 s 0 in let c := mkvec s 0 0 in
  triangle a b c /\ triangle_center (/ 10 ^ 20) a b c = a /\ dist (triangle_center (/ 10 ^ 20) a b c) a <> dist (triangle_center (/ 10 ^ 20) a b c) b.
Proof.
  cbv zeta. set (s := / 10 ^ 21). set (e := / 10 ^ 20). assert (S : 0 < s) by (apply Rinv_0_lt_compat, pow_lt; lra).
  assert (E : s < e). { unfold s, e. apply Rinv_lt_contravar; [apply Rmult_lt_0_compat; apply pow_lt; lra|]. apply Rlt_pow; [lra|lia]. }
  assert (C : triangle_center e (mkvec 0 0 0) (mkvec 0 s 0) (mkvec s 0 0) = mkvec 0 0 0).
  { unfold triangle_center, vsub, center_in_plane. cbn [vx vy vz]. replace (0 - 0) with 0 by ring. rewrite Rabs_R0.
    destruct (Rlt_dec 0 e) as [_|N]; [|lra]. cbv zeta. replace (s - 0) with s by ring. rewrite (Rabs_right s) by lra. destruct (Rlt_dec s e) as [_|N]; [|lra].
    cbn [fst snd]. f_equal; field; lra. }
  split; [apply triangle_by; unfold n2, dot, cross, vsub; cbn [vx vy vz]; ring_simplify; apply pow_lt; exact S|]. split; [exact C|].
  rewrite C. intros H. assert (H2 : dist (mkvec 0 0 0) (mkvec 0 0 0) ^ 2 = dist (mkvec 0 0 0) (mkvec 0 s 0) ^ 2) by (rewrite H; reflexivity).
  rewrite !dist_sq in H2. cbn [vx vy vz] in H2. pose proof (pow_lt s 2 S). ring_simplify in H2. lra.
Qed.
(* The centre of a tetrahedron, for every linear solver that returns solutions. *)
Definition solves (solve : vec -> vec -> vec -> vec -> option vec) : Prop :=
  forall r1 r2 r3 y x, solve r1 r2 r3 y = Some x -> dot r1 x = vx y /\ dot r2 x = vy y /\ dot r3 x = vz y.
Theorem C38_tetrahedron : forall solve a b c d p, solves solve -> tetrahedron_center solve a b c d = Some p -> circumcenter4 p a b c d.
Proof. intros solve a b c d p H E. exact (tet_center_ok solve a b c d p H E). Qed.
(* an exact solver: Cramer's rule *)
Definition cramer (r1 r2 r3 y : vec) : option vec :=
  let d := dot r1 (cross r2 r3) in
  if Req_EM_T d 0 then None else
  Some (mkvec ((vx y * (vy r2 * vz r3 - vz r2 * vy r3) - vy r1 * (vy y * vz r3 - vz r2 * vz y) + vz r1 * (vy y * vy r3 - vy r2 * vz y)) / d)
              ((vx r1 * (vy y * vz r3 - vz r2 * vz y) - vx y * (vx r2 * vz r3 - vz r2 * vx r3) + vz r1 * (vx r2 * vz y - vy y * vx r3)) / d)
              ((vx r1 * (vy r2 * vz y - vy y * vy r3) - vy r1 * (vx r2 * vz y - vy y * vx r3) + vx y * (vx r2 * vy r3 - vy r2 * vx r3)) / d)).
Lemma cramer_solves : solves cramer.
Proof.
  intros r1 r2 r3 y x. unfold cramer. cbv zeta. destruct (Req_EM_T _ 0) as [_|N]; [discriminate|]. intros [= <-].
  unfold dot, cross in *. cbn [vx vy vz] in *. repeat split; field; exact N.
Qed.
Theorem C38_tetrahedron_complete : forall a b c d, tetrahedron a b c d ->
  exists p, tetrahedron_center cramer a b c d = Some p /\ circumcenter4 p a b c d.
Proof.
  intros a b c d T. unfold tetrahedron_center. cbv zeta. destruct (cramer _ _ _ _) as [x|] eqn:E.
  - eexists. split; [reflexivity|]. apply (C38_tetrahedron cramer a b c d); [exact cramer_solves|]. unfold tetrahedron_center. cbv zeta. rewrite E. reflexivity.
  - exfalso. unfold cramer in E. cbv zeta in E. destruct (Req_EM_T _ 0) as [Z|Z]; [|discriminate]. apply T. rewrite <- Z. unfold det3, dot, cross, vsub. cbn [vx vy vz]. ring.
Qed.
Example C38_tetrahedron_case : tetrahedron (mkvec 0 0 0) (mkvec 1 0 0) (mkvec 0 1 0) (mkvec 0 0 1).
Proof. unfold tetrahedron, det3. cbn [vx vy vz]. lra. Qed.
Print Assumptions C38_triangle_partial.
Print Assumptions C38_tiny_refuted.
Print Assumptions C38_tetrahedron.
Print Assumptions C38_tetrahedron_complete.

(* ---- C39 --------------------------------------------------------------------- *)
(* a triangle of the mesh whose centre is computed correctly *)
Definition good2 (eps : R) (pos : list vec) (c : list nat) : Prop :=
  let q k := P pos (nth k c 0%nat) in triangle (q 0%nat) (q 1%nat) (q 2%nat) /\ separated eps (q 0%nat) (q 1%nat) /\ separated eps (q 0%nat) (q 2%nat) /\ separated eps (q 1%nat) (q 2%nat).
Definition corner_area (pos : list vec) (c : list nat) : R := tri_area (P pos (nth 0 c 0%nat)) (P pos (nth 1 c 0%nat)) (P pos (nth 2 c 0%nat)).
Definition corner_nonobtuse (pos : list vec) (c : list nat) : Prop := nonobtuse (P pos (nth 0 c 0%nat)) (P pos (nth 1 c 0%nat)) (P pos (nth 2 c 0%nat)).

(* The volume of a node is what its triangles give it. *)
Theorem C39_node_2d_partial : forall eps solve pos edges tris a, 0 < eps -> complete_region edges tris [] -> Forall (good2 eps pos) tris ->
  finalize_region 2 edges tris [] = Finished a ->
  exists nv center, node_volumes eps solve pos edges tris [] a 2 = Some nv /\ length nv = length pos /\
    (forall c, In c tris -> circumcenter3 (center c) (P pos (nth 0 c 0%nat)) (P pos (nth 1 c 0%nat)) (P pos (nth 2 c 0%nat))) /\
    forall n, (n < length pos)%nat -> nth n nv 0 = total (fun c => part2 pos (center c) c n) tris.
Proof.
  intros eps solve pos edges tris a He CR G FIN. rewrite Forall_forall in G.
  destruct (node_volumes_ok eps solve pos edges tris a CR FIN) as (nv & E & L & V). exists nv, (tcenter eps pos).
  assert (CC : forall c, In c tris -> circumcenter3 (tcenter eps pos c) (P pos (nth 0 c 0%nat)) (P pos (nth 1 c 0%nat)) (P pos (nth 2 c 0%nat))).
  { intros c I. destruct (G c I) as (T & S1 & S2 & S3). apply triangle_center_ok; assumption. }
  split; [exact E|]. split; [exact L|]. split; [exact CC|]. intros n H. rewrite (V n H), total_rsum, <- rsum_nth.
  apply rsum_ext. intros t I. apply in_seq in I. destruct (tri_idx tris t (proj2 I)) as [c Ec]. replace (@nth (list nat) t tris []) with c by (symmetry; exact (nthe _ _ _ Ec)).
  apply (tri_part eps pos edges tris a CR FIN t c n Ec). apply CC. apply (nth_error_In _ _ Ec).
Qed.
(* All node volumes together are at least the area of the region, and equal to it exactly if no triangle is obtuse. *)
Theorem C39_area_2d_partial : forall eps solve pos edges tris a, 0 < eps -> complete_region edges tris [] -> Forall (good2 eps pos) tris ->
  (forall c n, In c tris -> In n c -> (n < length pos)%nat) -> finalize_region 2 edges tris [] = Finished a ->
  exists nv, node_volumes eps solve pos edges tris [] a 2 = Some nv /\
    total (corner_area pos) tris <= total (fun v => v) nv /\
    (total (fun v => v) nv = total (corner_area pos) tris <-> Forall (corner_nonobtuse pos) tris).
Proof.
  intros eps solve pos edges tris a He CR G B FIN.
  destruct (C39_node_2d_partial eps solve pos edges tris a He CR G FIN) as (nv & center & E & L & CC & V). exists nv. split; [exact E|].
  assert (T : total (fun v => v) nv = rsum (fun c => rsum (part2 pos (center c) c) (seq 0 (length pos))) tris).
  { rewrite total_rsum, <- rsum_nth_id, L, <- rsum_swap. apply rsum_ext. intros n I. apply in_seq in I. rewrite V by lia. rewrite total_rsum. reflexivity. }
  rewrite T, total_rsum. rewrite Forall_forall in G.
  assert (K : forall c, In c tris -> corner_area pos c <= rsum (part2 pos (center c) c) (seq 0 (length pos)) /\
    (rsum (part2 pos (center c) c) (seq 0 (length pos)) = corner_area pos c <-> corner_nonobtuse pos c)).
  { intros c I. destruct (cr_tris _ _ _ CR) as [_ S]. rewrite Forall_forall in S. destruct (S c I) as (Lc & Nc & Ac).
    destruct (tri_shape c Lc Nc Ac) as (x & y & z & Hc & XY & YZ). specialize (CC c I). destruct (G c I) as (Tr & _). specialize (B c z I ltac:(rewrite Hc; cbn; tauto)).
    rewrite Hc in CC, Tr |- *. rewrite part2_total by lia. unfold corner_area, corner_nonobtuse. cbn [nth] in *. apply triangle_total; assumption. }
  clear - K. induction tris as [|c l IH]; [cbn [rsum]; split; [lra|split; [constructor|reflexivity]]|].
  destruct (K c (or_introl eq_refl)) as [K1 K2]. destruct IH as [I1 I2]; [intros d I; apply K; right; exact I|]. cbn [rsum]. split; [lra|]. split.
  - intros H. constructor; [apply K2; lra|apply I2; lra].
  - intros H. inversion H; subst. rewrite (proj2 K2) by assumption. rewrite (proj2 I2) by assumption. reflexivity.
Qed.
Print Assumptions C39_node_2d_partial.
Print Assumptions C39_area_2d_partial.

(* ---- three dimensions *)
(* a solver that fails only for singular matrices *)
Definition total_solver (solve : vec -> vec -> vec -> vec -> option vec) : Prop :=
  forall r1 r2 r3 y, dot r1 (cross r2 r3) <> 0 -> solve r1 r2 r3 y <> None.
Lemma cramer_total : total_solver cramer.
Proof. intros r1 r2 r3 y H. unfold cramer. cbv zeta. destruct (Req_EM_T _ 0); [contradiction|discriminate]. Qed.
Definition corner (pos : list vec) (c : list nat) (k : nat) : vec := P pos (nth k c 0%nat).
Definition good3 (pos : list vec) (c : list nat) : Prop := tetrahedron (corner pos c 0) (corner pos c 1) (corner pos c 2) (corner pos c 3).
Definition corner_volume (pos : list vec) (c : list nat) : R := tet_volume (corner pos c 0) (corner pos c 1) (corner pos c 2) (corner pos c 3).
(* the centre p is in the tetrahedron, and each face is not obtuse or contains p *)
Definition well_centered (pos : list vec) (p : vec) (c : list nat) : Prop :=
  let a := corner pos c 0 in let b := corner pos c 1 in let d := corner pos c 2 in let e := corner pos c 3 in
  inside4 p a b d e /\ (det3 p b d e = 0 \/ nonobtuse b d e) /\ (det3 p a d e = 0 \/ nonobtuse a d e) /\ (det3 p a b e = 0 \/ nonobtuse a b e) /\ (det3 p a b d = 0 \/ nonobtuse a b d).
Theorem C39_node_3d_partial : forall eps solve pos edges tris tets a, 0 < eps -> solves solve -> total_solver solve ->
  complete_region edges tris tets -> Forall (good2 eps pos) tris -> Forall (good3 pos) tets -> finalize_region 3 edges tris tets = Finished a ->
  exists nv center p, node_volumes eps solve pos edges tris tets a 3 = Some nv /\ length nv = length pos /\
    (forall c, In c tris -> circumcenter3 (center c) (corner pos c 0) (corner pos c 1) (corner pos c 2)) /\
    (forall c, In c tets -> circumcenter4 (p c) (corner pos c 0) (corner pos c 1) (corner pos c 2) (corner pos c 3)) /\
    forall n, (n < length pos)%nat -> nth n nv 0 = total (fun c => part3 pos center (p c) c n) tets.
Proof.
  intros eps solve pos edges tris tets a He SV TS CR G2 G3 FIN. rewrite Forall_forall in G2, G3.
  set (ctr := fun c : simplex => match tetrahedron_center solve (at_pos pos c 0) (at_pos pos c 1) (at_pos pos c 2) (at_pos pos c 3) with Some p => p | None => mkvec 0 0 0 end).
  assert (TC : forall c, In c tets -> tetrahedron_center solve (at_pos pos c 0) (at_pos pos c 1) (at_pos pos c 2) (at_pos pos c 3) = Some (ctr c)).
  { intros c I. unfold ctr. destruct (tetrahedron_center solve (at_pos pos c 0) (at_pos pos c 1) (at_pos pos c 2) (at_pos pos c 3)) as [p|] eqn:E; [reflexivity|]. exfalso.
    unfold tetrahedron_center in E. cbv zeta in E. specialize (G3 c I). unfold good3, corner in G3. unfold at_pos in E. fold (P pos (nth 0 c 0%nat)) (P pos (nth 1 c 0%nat)) (P pos (nth 2 c 0%nat)) (P pos (nth 3 c 0%nat)) in E.
    destruct (solve _ _ _ _) as [x|] eqn:Es; [discriminate|]. revert Es. apply TS. intros Z. apply G3. rewrite <- Z. unfold det3, dot, cross, vsub. cbn [vx vy vz]. ring. }
  assert (CT : tetrahedron_centers solve pos tets = Some (map ctr tets)) by (unfold tetrahedron_centers; apply opt_list_ext; exact TC).
  destruct (node_volumes3_ok eps solve pos edges tris tets a CR FIN ctr CT) as (nv & E & L & V). exists nv, (tcenter eps pos), ctr.
  assert (C3 : forall c, In c tris -> circumcenter3 (tcenter eps pos c) (corner pos c 0) (corner pos c 1) (corner pos c 2)).
  { intros c I. destruct (G2 c I) as (T & S1 & S2 & S3). apply triangle_center_ok; assumption. }
  assert (C4 : forall c, In c tets -> circumcenter4 (ctr c) (corner pos c 0) (corner pos c 1) (corner pos c 2) (corner pos c 3)).
  { intros c I. apply (tet_center_ok solve _ _ _ _ _ SV). apply (TC c I). }
  split; [exact E|]. split; [exact L|]. split; [exact C3|]. split; [exact C4|]. intros n H. rewrite (V n H), total_rsum, <- rsum_nth.
  apply rsum_ext. intros t I. apply in_seq in I. destruct (tet_idx tets t (proj2 I)) as [c Ec]. replace (@nth (list nat) t tets []) with c by (symmetry; exact (nthe _ _ _ Ec)).
  apply (tet_part eps pos edges tris tets a CR FIN ctr t c n Ec); [apply C4, (nth_error_In _ _ Ec)|exact C3].
Qed.
Lemma sum_iff : forall A (f g : A -> R) (Q : A -> Prop) l, (forall x, In x l -> f x <= g x /\ (g x = f x <-> Q x)) -> rsum f l <= rsum g l /\ (rsum g l = rsum f l <-> Forall Q l).
Proof.
  intros A f g Q. induction l as [|c l IH]; intros K; [cbn [rsum]; split; [lra|split; [constructor|reflexivity]]|].
  destruct (K c (or_introl eq_refl)) as [K1 K2]. destruct IH as [I1 I2]; [intros d I; apply K; right; exact I|]. cbn [rsum]. split; [lra|]. split.
  - intros H. constructor; [apply K2; lra|apply I2; lra].
  - intros H. inversion H; subst. rewrite (proj2 K2) by assumption. rewrite (proj2 I2) by assumption. reflexivity.
Qed.
Theorem C39_volume_3d_partial : forall eps solve pos edges tris tets a, 0 < eps -> solves solve -> total_solver solve ->
  complete_region edges tris tets -> Forall (good2 eps pos) tris -> Forall (good3 pos) tets -> (forall c n, In c tets -> In n c -> (n < length pos)%nat) ->
  finalize_region 3 edges tris tets = Finished a ->
  exists nv p, node_volumes eps solve pos edges tris tets a 3 = Some nv /\
    (forall c, In c tets -> circumcenter4 (p c) (corner pos c 0) (corner pos c 1) (corner pos c 2) (corner pos c 3)) /\
    total (corner_volume pos) tets <= total (fun v => v) nv /\
    (total (fun v => v) nv = total (corner_volume pos) tets <-> Forall (fun c => well_centered pos (p c) c) tets).
Proof.
  intros eps solve pos edges tris tets a He SV TS CR G2 G3 B FIN.
  destruct (C39_node_3d_partial eps solve pos edges tris tets a He SV TS CR G2 G3 FIN) as (nv & center & p & E & L & C3 & C4 & V). exists nv, p. split; [exact E|]. split; [exact C4|].
  assert (T : total (fun v => v) nv = rsum (fun c => rsum (part3 pos center (p c) c) (seq 0 (length pos))) tets).
  { rewrite total_rsum, <- rsum_nth_id, L, <- rsum_swap. apply rsum_ext. intros n I. apply in_seq in I. rewrite V by lia. rewrite total_rsum. reflexivity. }
  rewrite T, total_rsum. apply sum_iff. intros c I. rewrite Forall_forall in G2, G3.
  destruct (cr_tets _ _ _ CR) as [_ S]. rewrite Forall_forall in S. destruct (S c I) as (Lc & Nc & Ac).
  destruct (tet_shape c Lc Nc Ac) as (x & y & z & w & Hc & XY & YZ & ZW). specialize (B c w I ltac:(rewrite Hc; cbn; tauto)).
  assert (FC : forall j, (j < 4)%nat -> In (removed c j) tris).
  { intros j J. apply (cr_tet_sides _ _ _ CR (removed c j) c I); [assert (J' : (j < @length nat c)%nat) by (rewrite Lc; exact J); pose proof (removed_length c j J') as RL; apply Nat.succ_inj; exact (eq_trans RL Lc)|apply removed_asc, Ac|].
    exists [nth j c 0%nat]. eapply Permutation_trans; [apply Permutation_sym, Permutation_cons_append|]. apply removed_perm. change (j < @length nat c)%nat. rewrite Lc. exact J. }
  pose proof (C3 _ (FC 0%nat ltac:(lia))) as K0. pose proof (C3 _ (FC 1%nat ltac:(lia))) as K1. pose proof (C3 _ (FC 2%nat ltac:(lia))) as K2. pose proof (C3 _ (FC 3%nat ltac:(lia))) as K3.
  specialize (G3 c I). unfold good3, corner_volume, well_centered, corner in *. rewrite Hc in *. cbn [removed nth] in *. rewrite part3_total by lia.
  apply tetrahedron_total; assumption.
Qed.
Print Assumptions C39_node_3d_partial.
Print Assumptions C39_volume_3d_partial.

(* ---- one dimension: half of the length of each edge at the node *)
Theorem C39_length_1d : forall eps solve pos edges tris tets a, simplices 2 edges -> (forall c n, In c edges -> In n c -> (n < length pos)%nat) ->
  exists nv, node_volumes eps solve pos edges tris tets a 1 = Some nv /\ length nv = length pos /\
    (forall n, (n < length pos)%nat -> nth n nv 0 = total (fun e => if in_dec Nat.eq_dec n e then dist (corner pos e 0) (corner pos e 1) / 2 else 0) edges) /\
    total (fun v => v) nv = total (fun e => dist (corner pos e 0) (corner pos e 1)) edges.
Proof.
  intros eps solve pos edges tris tets a [_ SE] B. rewrite Forall_forall in SE.
  assert (EV : edge_volumes eps solve pos edges tris tets a 1 = Some (map (fun e => edge_length pos (nth e edges []) / 2) (seq 0 (length edges)))).
  { unfold edge_volumes, edge_couples. cbn [option_map]. f_equal. unfold edge_lengths.
    transitivity (map (fun e => edge_length pos e / 2) edges).
    - clear. induction edges as [|e l IH]; [reflexivity|]. cbn [length repeat map combine fst snd]. rewrite IH. f_equal. unfold Rdiv. lra.
    - apply (nth_ext _ _ 0 0); [rewrite !map_length, seq_length; reflexivity|]. intros j J. rewrite map_length in J. rewrite nth_map_seq by exact J.
      rewrite (nth_indep _ 0 (edge_length pos [] / 2)) by (rewrite map_length; exact J). apply (map_nth (fun e => edge_length pos e / 2)). }
  unfold node_volumes. rewrite EV, node_values. eexists. split; [reflexivity|]. split; [rewrite map_length, seq_length; reflexivity|].
  assert (LE : forall e, edge_length pos e = dist (corner pos e 0) (corner pos e 1)) by (intros e; unfold edge_length; apply magnitude_dist).
  assert (V : forall n, (n < length pos)%nat -> rsum (fun e => edge_length pos (nth e edges []) / 2) (at_node edges n) = total (fun e => if in_dec Nat.eq_dec n e then dist (corner pos e 0) (corner pos e 1) / 2 else 0) edges).
  { intros n H. rewrite rsum_at_node, total_rsum. rewrite <- (rsum_nth (fun e => if in_dec Nat.eq_dec n e then _ else _)). apply rsum_ext. intros t I. apply in_seq in I.
    assert (It : In (nth t edges []) edges) by (apply nth_In; lia). destruct (SE _ It) as (Lc & Nc & _). rewrite LE. unfold simplex in *. destruct (@nth (list nat) t edges []) as [|u [|v [|]]]; try discriminate.
    inversion Nc as [|? ? N1 _]; subst. cbn [In] in N1. unfold times. cbn [filter].
    destruct (in_dec Nat.eq_dec n [u; v]) as [J|J]; cbn [In] in J; destruct (Nat.eqb_spec n u), (Nat.eqb_spec n v); subst; cbn [length INR]; first [exfalso; apply N1; left; reflexivity | exfalso; apply J; left; reflexivity | exfalso; apply J; right; left; reflexivity | exfalso; destruct J as [J|[J|[]]]; congruence | lra]. }
  split; [intros n H; rewrite nth_map_seq by exact H; apply V, H|].
  rewrite (total_rsum _ (fun v => v)), rsum_map.
  transitivity (rsum (fun n => rsum (fun e => INR (times n (nth e edges [])) * (edge_length pos (nth e edges []) / 2)) (seq 0 (length edges))) (seq 0 (length pos))).
  { apply rsum_ext. intros n _. apply rsum_at_node. }
  rewrite rsum_swap, total_rsum, <- (rsum_nth (fun e => dist _ _)). apply rsum_ext. intros t I. apply in_seq in I.
  assert (It : In (nth t edges []) edges) by (apply nth_In; lia). destruct (SE _ It) as (Lc & Nc & _). rewrite LE.
  transitivity (dist (corner pos (nth t edges []) 0) (corner pos (nth t edges []) 1) / 2 * rsum (fun n => INR (times n (nth t edges []))) (seq 0 (length pos))).
  { rewrite <- rsum_scal. apply rsum_ext. intros n _. lra. }
  rewrite rsum_times by (intros n H; apply (B _ n It H)). unfold simplex in *. rewrite Lc. cbn [INR]. lra.
Qed.
Print Assumptions C39_length_1d.

(* ---- examples *)
Lemma sides2 : forall edges tris, Forall (fun c => exists x y z, c = [x; y; z] /\ (x < y < z)%nat /\ In [x; y] edges /\ In [x; z] edges /\ In [y; z] edges) tris -> has_sides 2 edges tris.
Proof.
  intros edges tris H f c I L A F. rewrite Forall_forall in H. destruct (H c I) as (x & y & z & -> & O & I1 & I2 & I3).
  destruct (face_without f [x; y; z] ltac:(repeat constructor; cbn; lia) ltac:(cbn; lia) F) as (j & J & Q). cbn [length] in J.
  assert (Hj : j = 0%nat \/ j = 1%nat \/ j = 2%nat) by lia. destruct Hj as [->|[->| ->]].
  - rewrite (opp_eq f [x; y; z] 0 [y; z] A); [exact I3|apply asc2; lia|exact Q|apply Permutation_refl].
  - rewrite (opp_eq f [x; y; z] 1 [x; z] A); [exact I2|apply asc2; lia|exact Q|apply perm_swap].
  - rewrite (opp_eq f [x; y; z] 2 [x; y] A); [exact I1|apply asc2; lia|exact Q|apply (Permutation_cons_append [x; y] z)].
Qed.
Lemma sides3 : forall tris tets, Forall (fun c => exists x y z w, c = [x; y; z; w] /\ (x < y < z)%nat /\ (z < w)%nat /\ In [x; y; z] tris /\ In [x; y; w] tris /\ In [x; z; w] tris /\ In [y; z; w] tris) tets -> has_sides 3 tris tets.
Proof.
  intros edges tris H f c I L A F. rewrite Forall_forall in H. destruct (H c I) as (x & y & z & w & -> & O & O2 & I1 & I2 & I3 & I4).
  destruct (face_without f [x; y; z; w] ltac:(repeat constructor; cbn; lia) ltac:(cbn; lia) F) as (j & J & Q). cbn [length] in J.
  assert (Hj : j = 0%nat \/ j = 1%nat \/ j = 2%nat \/ j = 3%nat) by lia. destruct Hj as [->|[->|[->| ->]]].
  - rewrite (opp_eq f [x; y; z; w] 0 [y; z; w] A); [exact I4|apply asc3; lia|exact Q|apply Permutation_refl].
  - rewrite (opp_eq f [x; y; z; w] 1 [x; z; w] A); [exact I3|apply asc3; lia|exact Q|apply perm_swap].
  - rewrite (opp_eq f [x; y; z; w] 2 [x; y; w] A); [exact I2|apply asc3; lia|exact Q|]. unfold opposite_to. cbn. eapply Permutation_trans; [apply perm_swap|]. apply perm_skip, perm_swap.
  - rewrite (opp_eq f [x; y; z; w] 3 [x; y; z] A); [exact I1|apply asc3; lia|exact Q|apply (Permutation_cons_append [x; y; z] w)].
Qed.
Ltac asc := repeat (constructor; [|repeat constructor; lia]); try constructor.
Ltac simp := split; [repeat (constructor; [cbn; intuition discriminate|]); constructor | repeat (constructor; [split; [reflexivity|split; [repeat constructor; cbn; lia|unfold ascending; repeat constructor]]|]); constructor].
(* the unit square, cut into two right triangles *)
Definition sq_pos : list vec := [mkvec 0 0 0; mkvec 1 0 0; mkvec 0 1 0; mkvec 1 1 0].
Definition sq_edges : list simplex := [[0; 1]; [0; 2]; [1; 2]; [1; 3]; [2; 3]]%nat.
Definition sq_tris : list simplex := [[0; 1; 2]; [1; 2; 3]]%nat.
Lemma sq_complete : complete_region sq_edges sq_tris [].
Proof.
  split.
  - simp.
  - simp.
  - split; constructor.
  - apply sides2. constructor; [exists 0%nat, 1%nat, 2%nat|constructor; [exists 1%nat, 2%nat, 3%nat|constructor]]; (split; [reflexivity|split; [lia|cbn; tauto]]).
  - intros f c [].
Qed.
Lemma eps_small : 0 < 1 / 10 ^ 20 <= 1.
Proof.
  split; [apply Rdiv_lt_0_compat; [lra|apply pow_lt; lra]|]. apply Rmult_le_reg_r with (10 ^ 20); [apply pow_lt; lra|]. unfold Rdiv. rewrite Rmult_assoc, Rinv_l by (apply pow_nonzero; lra). cbn. lra.
Qed.
Ltac good := unfold good2; cbv zeta; cbn [nth P sq_pos]; unfold P; cbn [nth]; pose proof eps_small; set (e := 1 / 10 ^ 20) in *; clearbody e;
  split; [apply triangle_by; unfold n2, dot, cross, vsub; cbn [vx vy vz]; lra|split; [sep|split; sep]].
Lemma sq_good : Forall (good2 (1 / 10 ^ 20) sq_pos) sq_tris.
Proof. constructor; [unfold sq_pos; good|constructor; [unfold sq_pos; good|constructor]]. Qed.
Example C39_square : exists a nv, finalize_region 2 sq_edges sq_tris [] = Finished a /\ node_volumes (1 / 10 ^ 20) cramer sq_pos sq_edges sq_tris [] a 2 = Some nv /\
  total (fun v => v) nv = total (corner_area sq_pos) sq_tris.
Proof.
  destruct (finalize_region 2 sq_edges sq_tris []) as [a| |] eqn:F; [|vm_compute in F; discriminate|vm_compute in F; discriminate].
  destruct (C39_area_2d_partial (1 / 10 ^ 20) cramer sq_pos sq_edges sq_tris a (proj1 eps_small) sq_complete sq_good) as (nv & E & _ & Q); [|exact F|].
  - intros c n I J. cbn in I. destruct I as [<-|[<-|[]]]; cbn in J |- *; lia.
  - exists a, nv. split; [reflexivity|]. split; [exact E|]. apply Q. unfold sq_tris, sq_pos, corner_nonobtuse, nonobtuse, cosine, P.
    constructor; [|constructor; [|constructor]]; cbn [nth vx vy vz]; lra.
Qed.
(* An obtuse triangle: more than its area is given to its nodes. *)
Definition ob_pos : list vec := [mkvec 0 0 0; mkvec 4 0 0; mkvec 1 1 0].
Theorem C39_obtuse_refuted : exists a nv, finalize_region 2 [[0; 1]; [0; 2]; [1; 2]]%nat [[0; 1; 2]]%nat [] = Finished a /\
  node_volumes (1 / 10 ^ 20) cramer ob_pos [[0; 1]; [0; 2]; [1; 2]]%nat [[0; 1; 2]]%nat [] a 2 = Some nv /\
  total (corner_area ob_pos) [[0; 1; 2]]%nat < total (fun v => v) nv.
Proof.
  destruct (finalize_region 2 [[0; 1]; [0; 2]; [1; 2]]%nat [[0; 1; 2]]%nat []) as [a| |] eqn:F; [|vm_compute in F; discriminate|vm_compute in F; discriminate].
  destruct (C39_area_2d_partial (1 / 10 ^ 20) cramer ob_pos [[0; 1]; [0; 2]; [1; 2]]%nat [[0; 1; 2]]%nat a (proj1 eps_small)) as (nv & E & L & Q).
  - split; [simp|simp|split; constructor| |intros f c []]. apply sides2. constructor; [exists 0%nat, 1%nat, 2%nat; split; [reflexivity|split; [lia|cbn; tauto]]|constructor].
  - constructor; [unfold ob_pos; good|constructor].
  - intros c n I J. cbn in I. destruct I as [<-|[]]; cbn in J |- *; lia.
  - exact F.
  - exists a, nv. split; [reflexivity|]. split; [exact E|]. destruct L as [L|L]; [exact L|]. exfalso. symmetry in L. apply Q in L. inversion L as [|? ? K _]; subst.
    unfold corner_nonobtuse, nonobtuse, cosine, P, ob_pos in K. cbn [nth vx vy vz] in K. lra.
Qed.
(* a regular tetrahedron *)
Definition te_pos : list vec := [mkvec 0 0 0; mkvec 1 1 0; mkvec 1 0 1; mkvec 0 1 1].
Definition te_edges : list simplex := [[0; 1]; [0; 2]; [0; 3]; [1; 2]; [1; 3]; [2; 3]]%nat.
Definition te_tris : list simplex := [[0; 1; 2]; [0; 1; 3]; [0; 2; 3]; [1; 2; 3]]%nat.
Lemma te_complete : complete_region te_edges te_tris [[0; 1; 2; 3]]%nat.
Proof.
  split; [simp|simp|simp| |].
  - apply sides2. constructor; [exists 0%nat, 1%nat, 2%nat|constructor; [exists 0%nat, 1%nat, 3%nat|constructor; [exists 0%nat, 2%nat, 3%nat|constructor; [exists 1%nat, 2%nat, 3%nat|constructor]]]]; (split; [reflexivity|split; [lia|cbn; tauto]]).
  - apply sides3. constructor; [exists 0%nat, 1%nat, 2%nat, 3%nat; split; [reflexivity|split; [lia|split; [lia|cbn; tauto]]]|constructor].
Qed.
Lemma circum4_unique : forall p q a b c d, tetrahedron a b c d -> circumcenter4 p a b c d -> circumcenter4 q a b c d -> p = q.
Proof.
  assert (E : forall p a b, dist p a = dist p b -> 2 * (vx p * (vx b - vx a) + vy p * (vy b - vy a) + vz p * (vz b - vz a)) = vx b ^ 2 + vy b ^ 2 + vz b ^ 2 - vx a ^ 2 - vy a ^ 2 - vz a ^ 2).
  { intros p a b H. assert (H2 : dist p a ^ 2 = dist p b ^ 2) by (rewrite H; reflexivity). rewrite !dist_sq in H2. lra. }
  intros p q a b c d T (P1 & P2 & P3) (Q1 & Q2 & Q3). apply E in P1, P2, P3, Q1, Q2, Q3.
  set (u := vx p - vx q). set (v := vy p - vy q). set (w := vz p - vz q).
  assert (R1 : u * (vx b - vx a) + v * (vy b - vy a) + w * (vz b - vz a) = 0) by (unfold u, v, w; lra).
  assert (R2 : u * (vx c - vx a) + v * (vy c - vy a) + w * (vz c - vz a) = 0) by (unfold u, v, w; lra).
  assert (R3 : u * (vx d - vx a) + v * (vy d - vy a) + w * (vz d - vz a) = 0) by (unfold u, v, w; lra).
  unfold tetrahedron, det3 in T. clear P1 P2 P3 Q1 Q2 Q3.
  set (b1 := vx b - vx a) in *. set (b2 := vy b - vy a) in *. set (b3 := vz b - vz a) in *. set (c1 := vx c - vx a) in *. set (c2 := vy c - vy a) in *. set (c3 := vz c - vz a) in *.
  set (d1 := vx d - vx a) in *. set (d2 := vy d - vy a) in *. set (d3 := vz d - vz a) in *.
  assert (U : u * (b1 * (c2 * d3 - c3 * d2) - b2 * (c1 * d3 - c3 * d1) + b3 * (c1 * d2 - c2 * d1)) = 0).
  { transitivity ((u * b1 + v * b2 + w * b3) * (c2 * d3 - c3 * d2) - (u * c1 + v * c2 + w * c3) * (b2 * d3 - b3 * d2) + (u * d1 + v * d2 + w * d3) * (b2 * c3 - b3 * c2)); [ring|rewrite R1, R2, R3; ring]. }
  assert (V : v * (b1 * (c2 * d3 - c3 * d2) - b2 * (c1 * d3 - c3 * d1) + b3 * (c1 * d2 - c2 * d1)) = 0).
  { transitivity (- ((u * b1 + v * b2 + w * b3) * (c1 * d3 - c3 * d1) - (u * c1 + v * c2 + w * c3) * (b1 * d3 - b3 * d1) + (u * d1 + v * d2 + w * d3) * (b1 * c3 - b3 * c1))); [ring|rewrite R1, R2, R3; ring]. }
  assert (W : w * (b1 * (c2 * d3 - c3 * d2) - b2 * (c1 * d3 - c3 * d1) + b3 * (c1 * d2 - c2 * d1)) = 0).
  { transitivity ((u * b1 + v * b2 + w * b3) * (c1 * d2 - c2 * d1) - (u * c1 + v * c2 + w * c3) * (b1 * d2 - b2 * d1) + (u * d1 + v * d2 + w * d3) * (b1 * c2 - b2 * c1)); [ring|rewrite R1, R2, R3; ring]. }
  apply Rmult_integral in U. apply Rmult_integral in V. apply Rmult_integral in W.
  destruct U as [U|U]; [|contradiction]. destruct V as [V|V]; [|contradiction]. destruct W as [W|W]; [|contradiction].
  destruct p as [p1 p2 p3], q as [q1 q2 q3]. unfold u, v, w in *. cbn [vx vy vz] in *. f_equal; lra.
Qed.
Lemma equal_dist : forall p a b, (vx p - vx a) ^ 2 + (vy p - vy a) ^ 2 + (vz p - vz a) ^ 2 = (vx p - vx b) ^ 2 + (vy p - vy b) ^ 2 + (vz p - vz b) ^ 2 -> dist p a = dist p b.
Proof. intros p a b H. unfold dist. rewrite H. reflexivity. Qed.
Example C39_regular : exists a nv, finalize_region 3 te_edges te_tris [[0; 1; 2; 3]]%nat = Finished a /\ node_volumes (1 / 10 ^ 20) cramer te_pos te_edges te_tris [[0; 1; 2; 3]]%nat a 3 = Some nv /\
  total (fun v => v) nv = 1 / 3.
Proof.
  destruct (finalize_region 3 te_edges te_tris [[0; 1; 2; 3]]%nat) as [a| |] eqn:F; [|vm_compute in F; discriminate|vm_compute in F; discriminate].
  assert (TT : good3 te_pos [0; 1; 2; 3]%nat) by (unfold good3, corner, P, te_pos, tetrahedron, det3; cbn [nth vx vy vz]; lra).
  destruct (C39_volume_3d_partial (1 / 10 ^ 20) cramer te_pos te_edges te_tris [[0; 1; 2; 3]]%nat a (proj1 eps_small) cramer_solves cramer_total te_complete) as (nv & p & E & C & _ & Q).
  - repeat (constructor; [unfold te_pos; good|]). constructor.
  - constructor; [exact TT|constructor].
  - intros c n I J. cbn in I. destruct I as [<-|[]]; cbn in J |- *; lia.
  - exact F.
  - exists a, nv. split; [reflexivity|]. split; [exact E|]. specialize (C [0; 1; 2; 3]%nat (or_introl eq_refl)).
    assert (C' : circumcenter4 (mkvec (/ 2) (/ 2) (/ 2)) (corner te_pos [0; 1; 2; 3]%nat 0) (corner te_pos [0; 1; 2; 3]%nat 1) (corner te_pos [0; 1; 2; 3]%nat 2) (corner te_pos [0; 1; 2; 3]%nat 3)).
    { unfold corner, P, te_pos. cbn [nth]. split; [|split]; apply equal_dist; cbn [vx vy vz]; lra. }
    pose proof (circum4_unique _ _ _ _ _ _ TT C C') as EP.
    rewrite (proj2 Q).
    + unfold total, corner_volume, corner, P, te_pos, tet_volume, det3. cbn [map fold_right nth vx vy vz]. rewrite Rabs_left by lra. lra.
    + constructor; [|constructor]. unfold well_centered. cbv zeta. rewrite EP. unfold corner, P, te_pos. cbn [nth]. unfold nonobtuse, cosine. cbn [vx vy vz].
      split; [exists (/ 4), (/ 4), (/ 4), (/ 4); repeat (split; [lra|]); cbn [vx vy vz]; f_equal; lra|]. repeat split; right; lra.
Qed.
(* The corner of a cube: its centre is outside, and its nodes get more than its volume. *)
Definition co_pos : list vec := [mkvec 0 0 0; mkvec 1 0 0; mkvec 0 1 0; mkvec 0 0 1].
Theorem C39_corner_refuted : exists a nv, finalize_region 3 te_edges te_tris [[0; 1; 2; 3]]%nat = Finished a /\ node_volumes (1 / 10 ^ 20) cramer co_pos te_edges te_tris [[0; 1; 2; 3]]%nat a 3 = Some nv /\
  total (corner_volume co_pos) [[0; 1; 2; 3]]%nat < total (fun v => v) nv.
Proof.
  destruct (finalize_region 3 te_edges te_tris [[0; 1; 2; 3]]%nat) as [a| |] eqn:F; [|vm_compute in F; discriminate|vm_compute in F; discriminate].
  assert (TT : good3 co_pos [0; 1; 2; 3]%nat) by (unfold good3, corner, P, co_pos, tetrahedron, det3; cbn [nth vx vy vz]; lra).
  destruct (C39_volume_3d_partial (1 / 10 ^ 20) cramer co_pos te_edges te_tris [[0; 1; 2; 3]]%nat a (proj1 eps_small) cramer_solves cramer_total te_complete) as (nv & p & E & C & L & Q).
  - repeat (constructor; [unfold co_pos; good|]). constructor.
  - constructor; [exact TT|constructor].
  - intros c n I J. cbn in I. destruct I as [<-|[]]; cbn in J |- *; lia.
  - exact F.
  - exists a, nv. split; [reflexivity|]. split; [exact E|]. destruct L as [L|L]; [exact L|]. exfalso. symmetry in L. apply Q in L. inversion L as [|? ? K _]; subst.
    specialize (C [0; 1; 2; 3]%nat (or_introl eq_refl)).
    assert (C' : circumcenter4 (mkvec (/ 2) (/ 2) (/ 2)) (corner co_pos [0; 1; 2; 3]%nat 0) (corner co_pos [0; 1; 2; 3]%nat 1) (corner co_pos [0; 1; 2; 3]%nat 2) (corner co_pos [0; 1; 2; 3]%nat 3)).
    { unfold corner, P, co_pos. cbn [nth]. split; [|split]; apply equal_dist; cbn [vx vy vz]; lra. }
    pose proof (circum4_unique _ _ _ _ _ _ TT C C') as EP. unfold well_centered in K. cbv zeta in K. rewrite EP in K. destruct K as [(s & t & u & w & A1 & A2 & A3 & A4 & A5 & A6) _].
    unfold corner, P, co_pos in A6. cbn [nth vx vy vz] in A6. injection A6 as B1 B2 B3. lra.
Qed.
Print Assumptions C39_obtuse_refuted.
Print Assumptions C39_corner_refuted.
