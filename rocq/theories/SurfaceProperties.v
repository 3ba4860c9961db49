(* C54: areas and normals of contacts and interfaces. *)
From Coq Require Import List Arith Bool Lia Reals Lra Permutation.
From Verif Require Import Adjacency Geometry GeometrySpec Volume VolumeSpec VolumeGeom GeometryProofs VolumeProperties AssemblyProofs ContactProofs VolumeProofs VolumeMesh VectorGradient Surface SurfaceSpec SurfaceProofs SurfaceTriangles.
Import ListNotations.
Open Scope R_scope.
Local Arguments Nat.ltb : simpl never.
Local Arguments Nat.leb : simpl never.
Local Arguments Nat.eqb : simpl never.

Lemma total_perm : forall (f : nat -> R) l l', Permutation l l' -> total f l = total f l'.
Proof. intros f l l' H. rewrite !total_rsum. apply rsum_perm. exact H. Qed.
Lemma raw_norm : forall l pos edges n, s_norm (fold_left put1 (flat_map (fun e => edge_contribs pos (nth e edges [])) l) empty) n =
  fold_left accn (map c_vec (filter (fun c => Nat.eqb n (c_node c)) (flat_map (fun e => edge_contribs pos (nth e edges [])) l))) (mkvec 0 0 0).
Proof. intros. rewrite run_norm. reflexivity. Qed.

Section Two.
Variable pos : list vec.
Variable edges : list (list nat).
Variable Q : nat -> Prop.
Variable L l : list nat.
Hypothesis ON : once L Q.
Hypothesis SEL : forall e, In e l <-> Q e.
Hypothesis WF : forall e, Q e -> exists a b, nth e edges [] = [a; b] /\ a <> b.

Lemma contribs_area : forall n e, Q e -> rsum (fun c => if Nat.eqb n (c_node c) then c_area c else 0) (edge_contribs pos (nth e edges [])) = half_at pos edges n e.
Proof.
  intros n e H. destruct (WF e H) as (a & b & E & N). unfold half_at, len, ends, edge_contribs. rewrite E. cbn [rsum nth]. unfold c_node, c_area. cbn [fst snd].
  rewrite edge_length_dist. cbn [nth]. destruct (in_dec Nat.eq_dec n [a; b]) as [I|I]; cbn [In] in I.
  - destruct I as [<-|[<-|[]]]; repeat match goal with |- context [Nat.eqb ?u ?v] => destruct (Nat.eqb_spec u v); try congruence end; lra.
  - repeat match goal with |- context [Nat.eqb ?u ?v] => destruct (Nat.eqb_spec u v); [exfalso; subst; tauto|] end; lra.
Qed.
Lemma in_firsts : forall e, In e (firsts [] l) <-> Q e.
Proof. intros e. rewrite (proj2 (firsts_spec l [])), SEL. cbn. tauto. Qed.
Lemma edge_area : forall n, s_area (edge_surface pos edges l) n = total (half_at pos edges n) L.
Proof.
  intros n. rewrite edge_surface_eq. cbn [normalize s_area]. rewrite run_area. cbn [empty s_area]. rewrite rsum_flat_map.
  rewrite <- (total_perm _ _ _ (once_perm L Q l ON SEL)), total_rsum, Rplus_0_l. apply rsum_ext. intros e I. apply contribs_area. apply in_firsts. exact I.
Qed.
Lemma edge_total : forall N, (forall e n, Q e -> In n (nth e edges []) -> (n < N)%nat) -> total (s_area (edge_surface pos edges l)) (seq 0 N) = total (len pos edges) L.
Proof.
  intros N B. rewrite !total_rsum. rewrite (rsum_ext _ (fun n => rsum (half_at pos edges n) L)) by (intros n _; rewrite edge_area; apply total_rsum).
  rewrite rsum_swap. apply rsum_ext. intros e I. apply (proj2 ON) in I. destruct (WF e I) as (a & b & E & D).
  rewrite (rsum_on _ [a; b] N).
  - cbn [rsum]. unfold half_at. rewrite E. destruct (in_dec Nat.eq_dec a [a; b]) as [_|K]; [|cbn in K; tauto]. destruct (in_dec Nat.eq_dec b [a; b]) as [_|K]; [|cbn in K; tauto]. lra.
  - repeat constructor; cbn; intuition congruence.
  - intros n J. apply (B e n I). rewrite E. exact J.
  - intros n J. unfold half_at. rewrite E. destruct (in_dec _ _ _); [contradiction|reflexivity].
Qed.
Lemma norm_vectors : forall n v, In v (map c_vec (filter (fun c => Nat.eqb n (c_node c)) (flat_map (fun e => edge_contribs pos (nth e edges [])) (firsts [] l)))) <->
  exists e, Q e /\ In n (nth e edges []) /\ v = edge_vec pos (nth e edges []).
Proof.
  intros n v. rewrite in_map_iff. split.
  - intros (c & <- & I). apply filter_In in I. destruct I as [I H]. apply in_flat_map in I. destruct I as (e & J & I). apply in_firsts in J.
    destruct (WF e J) as (a & b & E & D). exists e. rewrite E in *. apply Nat.eqb_eq in H. unfold edge_contribs in I. cbn [In nth] in I.
    destruct I as [<-|[<-|[]]]; cbn in H |- *; subst; intuition.
  - intros (e & J & I & ->). destruct (WF e J) as (a & b & E & D). rewrite E in I |- *. cbn [In] in I.
    exists (n, / 2 * edge_length pos [a; b], edge_vec pos [a; b]). split; [reflexivity|]. apply filter_In. split; [|apply Nat.eqb_refl].
    apply in_flat_map. exists e. split; [apply in_firsts; exact J|]. rewrite E. unfold edge_contribs. cbn [In nth]. destruct I as [<-|[<-|[]]]; tauto.
Qed.
Lemma edge_unit : forall n e, Q e -> In n (nth e edges []) -> 0 < len pos edges e -> flat pos (nth e edges []) ->
  dot (s_norm (edge_surface pos edges l) n) (s_norm (edge_surface pos edges l) n) = 1.
Proof.
  intros n e J I D F. pose proof (edge_area n) as EA. rewrite edge_surface_eq in EA |- *. cbn [normalize s_area] in EA. apply normalize_unit.
  - rewrite EA, total_rsum. apply (proj2 ON) in J.
    assert (P0 : forall x, 0 <= half_at pos edges n x).
    { intros x. unfold half_at. destruct (in_dec _ _ _); [|lra]. unfold len, dist. pose proof (sqrt_pos ((vx (ends pos edges x 0) - vx (ends pos edges x 1)) ^ 2 + (vy (ends pos edges x 0) - vy (ends pos edges x 1)) ^ 2 + (vz (ends pos edges x 0) - vz (ends pos edges x 1)) ^ 2)). lra. }
    assert (P1 : 0 < half_at pos edges n e). { unfold half_at. destruct (in_dec _ _ _); [lra|contradiction]. }
    clear - J P0 P1. induction L as [|x m IH]; [destruct J|]. cbn [rsum].
    assert (0 <= rsum (half_at pos edges n) m). { clear - P0. induction m as [|y m IH]; cbn [rsum]; [lra|]. specialize (P0 y). lra. }
    destruct J as [->|J]; [lra|]. specialize (IH J). specialize (P0 x). lra.
  - rewrite raw_norm. destruct (fold_accn_sq (map c_vec (filter (fun c => Nat.eqb n (c_node c)) (flat_map (fun e => edge_contribs pos (nth e edges [])) (firsts [] l)))) (mkvec 0 0 0)) as [_ H].
    assert (K := H (edge_vec pos (nth e edges [])) (proj2 (norm_vectors n _) (ex_intro _ e (conj J (conj I eq_refl))))).
    rewrite edge_vec_sq in K by assumption. fold (ends pos edges e 0) (ends pos edges e 1) in K. fold (len pos edges e) in K.
    assert (0 < (len pos edges e / 2) ^ 2) by (apply pow_lt; lra). lra.
Qed.
Lemma edge_zero : forall n, (forall e, Q e -> ~ In n (nth e edges [])) -> s_area (edge_surface pos edges l) n = 0 /\ s_norm (edge_surface pos edges l) n = mkvec 0 0 0.
Proof.
  intros n H.
  assert (Z : s_area (edge_surface pos edges l) n = 0).
  { rewrite edge_area, total_rsum. rewrite (rsum_ext _ (fun _ => 0)); [apply rsum_zero; reflexivity|]. intros e I. unfold half_at. destruct (in_dec _ _ _) as [J|]; [|reflexivity]. exfalso. apply (H e); [apply (proj2 ON); exact I|exact J]. }
  split; [exact Z|]. assert (Z0 := Z). rewrite edge_surface_eq in Z |- *. cbn [normalize s_norm s_area] in Z |- *. rewrite Z. destruct (Rlt_dec 0 0); [lra|].
  rewrite raw_norm. apply accn_zero. intros v I. exfalso. apply norm_vectors in I. destruct I as (e & J & I & _). exact (H e J I).
Qed.
Lemma edge_perp : forall n d, (forall e, Q e -> In n (nth e edges []) -> exists k, vsub (ends pos edges e 1) (ends pos edges e 0) = vscale k d /\ k <> 0) ->
  dot d (s_norm (edge_surface pos edges l) n) = 0.
Proof.
  intros n d H. rewrite edge_surface_eq. apply normalize_perp. rewrite raw_norm. apply accn_perp; [unfold dot; cbn [vx vy vz]; ring|].
  intros v I. apply norm_vectors in I. destruct I as (e & J & I & ->). destruct (H e J I) as (k & E & K).
  pose proof (edge_vec_perp pos (nth e edges [])) as C. fold (ends pos edges e 0) (ends pos edges e 1) in C. unfold cosine_with in C.
  injection E as E1 E2 E3. rewrite E1, E2, E3 in C. set (v := edge_vec _ _) in *. clearbody v. unfold dot.
  assert (k * (vx d * vx v + vy d * vy v + vz d * vz v) = 0) by lra. apply Rmult_integral in H0. tauto.
Qed.
End Two.

(* the listed edges are segments between two nodes, in the plane *)
Definition segments (edges : list (list nat)) (Q : nat -> Prop) : Prop := forall e, Q e -> exists a b, nth e edges [] = [a; b] /\ a <> b.
Definition planar_edges (pos : list vec) (edges : list (list nat)) : Prop := forall e, vz (ends pos edges e 0) = vz (ends pos edges e 1).
(* the surface s is made of the edges for which Q holds *)
Definition edge_surface_ok (pos : list vec) (edges : list (list nat)) (Q : nat -> Prop) (s : surf) : Prop :=
  (* a node gets half of the length of each of its edges *)
  (forall L n, once L Q -> s_area s n = total (half_at pos edges n) L) /\
  (* together the nodes have the length of the boundary *)
  (forall L N, once L Q -> (forall e n, Q e -> In n (nth e edges []) -> (n < N)%nat) -> total (s_area s) (seq 0 N) = total (len pos edges) L) /\
  (* nodes off the boundary have neither area nor normal *)
  (forall n, (forall e, Q e -> ~ In n (nth e edges [])) -> s_area s n = 0 /\ s_norm s n = mkvec 0 0 0) /\
  (* the normals of the others have length one *)
  (forall n e, Q e -> In n (nth e edges []) -> 0 < len pos edges e -> dot (s_norm s n) (s_norm s n) = 1) /\
  (* on a straight part of the boundary the normal is perpendicular to it *)
  (forall n d, (forall e, Q e -> In n (nth e edges []) -> exists k, vsub (ends pos edges e 1) (ends pos edges e 0) = vscale k d /\ k <> 0) -> dot d (s_norm s n) = 0).
Lemma surface_edges_ok : forall pos edges Q l, (forall e, In e l <-> Q e) -> segments edges Q -> planar_edges pos edges -> edge_surface_ok pos edges Q (edge_surface pos edges l).
Proof.
  intros pos edges Q l S W F. assert (O : once (firsts [] l) Q).
  { split; [apply firsts_spec|]. intros e. rewrite (proj2 (firsts_spec l [])), S. cbn. tauto. }
  split; [|split; [|split; [|split]]].
  - intros L n ON. apply (edge_area pos edges Q L l ON S W).
  - intros L N ON B. apply (edge_total pos edges Q L l ON S W N B).
  - intros n H. exact (edge_zero pos edges Q _ l O S W n H).
  - intros n e J I D. exact (edge_unit pos edges Q _ l O S W n e J I D (F e)).
  - intros n d H. exact (edge_perp pos edges Q l S W n d H).
Qed.
(* ContactSurfaceArea, ContactNSurfaceNormal_x, _y; SurfaceArea, NSurfaceNormal_x, _y *)
Theorem C54_contact_2d : forall eps pos edges tris r cs, segments edges (of_contact r k_edges cs) -> planar_edges pos edges ->
  edge_surface_ok pos edges (of_contact r k_edges cs) (contact_surface eps pos edges tris 2 r cs).
Proof. intros. apply surface_edges_ok; [apply contacts_in| |]; assumption. Qed.
Theorem C54_interface_2d : forall eps pos edges tris r is, proper is -> segments edges (of_interface r i_edges0 i_edges1 is) -> planar_edges pos edges ->
  edge_surface_ok pos edges (of_interface r i_edges0 i_edges1 is) (interface_surface eps pos edges tris 2 r is).
Proof. intros. apply surface_edges_ok; [intros e; apply interfaces_in| |]; assumption. Qed.

(* ---- three dimensions *)
Section Three.
Variable eps : R.
Variable pos : list vec.
Variable tris : list (list nat).
Variable Q : nat -> Prop.
Variable L l : list nat.
Hypothesis ON : once L Q.
Hypothesis SEL : forall e, In e l <-> Q e.
Hypothesis EPS : 0 < eps.
Hypothesis WF : forall e, Q e -> (e < length tris)%nat /\ (exists a b c, nth e tris [] = [a; b; c] /\ a <> b /\ a <> c /\ b <> c) /\ good2 eps pos (nth e tris []).
Definition center_at (e : nat) : vec := nth e (triangle_centers eps pos tris) (mkvec 0 0 0).
Lemma center_ok : forall e, Q e -> circumcenter3 (center_at e) (P pos (nth 0 (nth e tris []) 0%nat)) (P pos (nth 1 (nth e tris []) 0%nat)) (P pos (nth 2 (nth e tris []) 0%nat)).
Proof.
  intros e H. destruct (WF e H) as (B & _ & G). unfold center_at, triangle_centers.
  rewrite (nth_indep _ _ ((fun t => triangle_center eps (at_pos pos t 0) (at_pos pos t 1) (at_pos pos t 2)) [])) by (rewrite map_length; exact B).
  rewrite (map_nth (fun t => triangle_center eps (at_pos pos t 0) (at_pos pos t 1) (at_pos pos t 2))).
  destruct G as (T & S1 & S2 & S3). apply triangle_center_ok; assumption.
Qed.
Definition tcs (e : nat) : list contrib := tri_contribs pos (center_at e) (nth e tris []).
Lemma triangle_surface_eq : triangle_surface eps pos tris l = normalize (fold_left put1 (flat_map tcs (firsts [] l)) empty).
Proof.
  unfold triangle_surface. rewrite visit_fold, <- fold_contribs. apply (f_equal normalize). generalize empty. induction (firsts [] l) as [|e m IH]; intros s; cbn [fold_left]; [reflexivity|].
  rewrite (process_triangle_eq pos). apply IH.
Qed.
Lemma in_firsts3 : forall e, In e (firsts [] l) <-> Q e.
Proof. intros e. rewrite (proj2 (firsts_spec l [])), SEL. cbn. tauto. Qed.
Lemma tri_area_at : forall n, s_area (triangle_surface eps pos tris l) n = total (fun e => part2 pos (center_at e) (nth e tris []) n) L.
Proof.
  intros n. rewrite triangle_surface_eq. cbn [normalize s_area]. rewrite run_area. cbn [empty s_area]. rewrite rsum_flat_map.
  rewrite <- (total_perm _ _ _ (once_perm L Q l ON SEL)), total_rsum, Rplus_0_l. apply rsum_ext. intros e I. apply in_firsts3 in I.
  destruct (WF e I) as (_ & (a & b & c & E & N1 & N2 & N3) & _). unfold tcs. rewrite E. apply tri_contribs_area; assumption.
Qed.
Lemma tri_vectors : forall n v, In v (map c_vec (filter (fun c => Nat.eqb n (c_node c)) (flat_map tcs (firsts [] l)))) ->
  exists e i j, Q e /\ In n (nth e tris []) /\ (i < 3)%nat /\ (j < 3)%nat /\ v = pair_vec pos (center_at e) (nth e tris []) i j.
Proof.
  intros n v H. apply in_map_iff in H. destruct H as (c & <- & I). apply filter_In in I. destruct I as [I H]. apply Nat.eqb_eq in H.
  apply in_flat_map in I. destruct I as (e & J & I). apply in_firsts3 in J. destruct (WF e J) as (_ & (x & y & z & E & _) & _).
  unfold tcs, tri_contribs in I. cbn [flat_map app fst snd In] in I. rewrite E in *. cbn [nth] in I. exists e.
  destruct I as [<-|[<-|[<-|[<-|[<-|[<-|[]]]]]]]; cbn [c_node c_vec fst snd] in H |- *; subst n.
  all: eexists; eexists; split; [exact J|]; split; [rewrite E; cbn; tauto|]; split; [|split; [|rewrite E; reflexivity]]; lia.
Qed.
Lemma part2_nonneg : forall p c n, 0 <= part2 pos p c n.
Proof.
  intros p c n. unfold part2. destruct (in_dec _ _ _); [|lra]. rewrite total_rsum. induction (others n c) as [|x m IH]; cbn [rsum]; [lra|].
  assert (0 <= tri_area (P pos n) (midpoint (P pos n) (P pos x)) p) by (rewrite tri_area_mag; pose proof (magnitude_nonneg (cross (vsub (midpoint (P pos n) (P pos x)) (P pos n)) (vsub p (P pos n)))); lra). lra.
Qed.
Lemma rsum_nonneg_at : forall (f : nat -> R) m e, (forall x, 0 <= f x) -> In e m -> f e <= rsum f m.
Proof.
  intros f m e P0. induction m as [|x m IH]; intros I; [destruct I|]. cbn [rsum].
  assert (0 <= rsum f m) by (clear - P0; induction m as [|y m IH]; cbn [rsum]; [lra|specialize (P0 y); lra]).
  destruct I as [->|I]; [lra|]. specialize (IH I). specialize (P0 x). lra.
Qed.
(* a corner is the end of an edge with a vector other than zero *)
Lemma tri_nonzero : forall n e, Q e -> In n (nth e tris []) -> exists v, In v (map c_vec (filter (fun c => Nat.eqb n (c_node c)) (flat_map tcs (firsts [] l)))) /\ 0 < dot v v /\ 0 < part2 pos (center_at e) (nth e tris []) n.
Proof.
  intros n e J I. pose proof (center_ok e J) as C. destruct (WF e J) as (_ & (x & y & z & E & N1 & N2 & N3) & G). destruct G as (T & _).
  assert (IN : forall c, In c (tcs e) -> c_node c = n -> In (c_vec c) (map c_vec (filter (fun c => Nat.eqb n (c_node c)) (flat_map tcs (firsts [] l))))).
  { intros c Ic H. apply in_map. apply filter_In. split; [|apply Nat.eqb_eq; congruence]. apply in_flat_map. exists e. split; [apply in_firsts3; exact J|exact Ic]. }
  assert (SQ : forall v, 0 < magnitude v -> 0 < dot v v) by (intros v H; rewrite <- magnitude_sq; apply pow_lt; exact H).
  rewrite E in *. cbn [nth] in C, T.
  assert (PT : forall c, In c (tcs e) -> c_node c = n -> 0 < c_area c -> 0 < part2 pos (center_at e) [x; y; z] n).
  { intros c Ic H A. rewrite <- (tri_contribs_area pos (center_at e) x y z n N1 N2 N3). unfold tcs in Ic. rewrite E in Ic.
    assert (A0 : forall k, In k (tri_contribs pos (center_at e) [x; y; z]) -> 0 <= (if Nat.eqb n (c_node k) then c_area k else 0)).
    { intros k Ik. destruct (Nat.eqb n (c_node k)); [|lra]. unfold tri_contribs in Ik. cbn [flat_map app fst snd In] in Ik.
      destruct Ik as [<-|[<-|[<-|[<-|[<-|[<-|[]]]]]]]; apply magnitude_nonneg. }
    induction (tri_contribs pos (center_at e) [x; y; z]) as [|k m IH]; [destruct Ic|]. cbn [rsum].
    assert (0 <= rsum (fun c => if Nat.eqb n (c_node c) then c_area c else 0) m).
    { clear - A0. assert (B : forall k, In k m -> 0 <= (if Nat.eqb n (c_node k) then c_area k else 0)) by (intros k' I; apply A0; right; exact I). clear A0.
      induction m as [|q m IH]; cbn [rsum]; [lra|]. assert (0 <= (if Nat.eqb n (c_node q) then c_area q else 0)) by (apply B; left; reflexivity). specialize (IH (fun k i => B k (or_intror i))). lra. }
    assert (0 <= (if Nat.eqb n (c_node k) then c_area k else 0)) by (apply A0; left; reflexivity).
    destruct Ic as [->|Ic]; [rewrite H, Nat.eqb_refl; lra|]. specialize (IH Ic (fun k i => A0 k (or_intror i))). lra. }
  assert (FIN : forall i j k, In (n, magnitude (pair_vec pos (center_at e) [x; y; z] i j), pair_vec pos (center_at e) [x; y; z] i j) (tcs e) ->
     0 < tri_area (P pos n) (midpoint (P pos n) (P pos k)) (center_at e) -> magnitude (pair_vec pos (center_at e) [x; y; z] i j) = tri_area (P pos n) (midpoint (P pos n) (P pos k)) (center_at e) ->
     exists v, In v (map c_vec (filter (fun c => Nat.eqb n (c_node c)) (flat_map tcs (firsts [] l)))) /\ 0 < dot v v /\ 0 < part2 pos (center_at e) [x; y; z] n).
  { intros i j k Ic A M. exists (pair_vec pos (center_at e) [x; y; z] i j). split; [exact (IN _ Ic eq_refl)|]. split; [apply SQ; lra|].
    apply (PT _ Ic eq_refl). unfold c_area. cbn [fst snd]. lra. }
  unfold pair_vec, at_pos in FIN.
  destruct (circumcenter_perm _ _ _ _ C) as (Cb & Cc & _). destruct (triangle_perm _ _ _ T) as [Tb Tc].
  cbn [In] in I. unfold tcs, tri_contribs in FIN. rewrite E in FIN. cbn [flat_map app fst snd nth In] in FIN.
  destruct I as [<-|[<-|[<-|[]]]].
  - destruct (corner_positive _ _ _ _ T C) as [A|A].
    + apply (FIN 0%nat 1%nat y); [tauto|exact A|]. apply (proj1 (pair_area_eq (P pos x) (P pos y) (center_at e))).
    + apply (FIN 0%nat 2%nat z); [tauto|exact A|]. apply (proj1 (pair_area_eq (P pos x) (P pos z) (center_at e))).
  - destruct (corner_positive _ _ _ _ Tb Cb) as [A|A].
    + apply (FIN 0%nat 1%nat x); [tauto|exact A|]. apply (proj2 (pair_area_eq (P pos x) (P pos y) (center_at e))).
    + apply (FIN 1%nat 2%nat z); [tauto|exact A|]. apply (proj1 (pair_area_eq (P pos y) (P pos z) (center_at e))).
  - destruct (corner_positive _ _ _ _ Tc Cc) as [A|A].
    + apply (FIN 0%nat 2%nat x); [tauto|exact A|]. apply (proj2 (pair_area_eq (P pos x) (P pos z) (center_at e))).
    + apply (FIN 1%nat 2%nat y); [tauto|exact A|]. apply (proj2 (pair_area_eq (P pos y) (P pos z) (center_at e))).
Qed.
Lemma tri_unit : forall n e, Q e -> In n (nth e tris []) -> dot (s_norm (triangle_surface eps pos tris l) n) (s_norm (triangle_surface eps pos tris l) n) = 1.
Proof.
  intros n e J I. destruct (tri_nonzero n e J I) as (v & Iv & V & A). pose proof (tri_area_at n) as TA. rewrite triangle_surface_eq in *. apply normalize_unit.
  - cbn [normalize s_area] in TA. rewrite TA, total_rsum. apply (proj2 ON) in J.
    pose proof (rsum_nonneg_at (fun e => part2 pos (center_at e) (nth e tris []) n) L e (fun x => part2_nonneg _ _ _) J). cbv beta in H. lra.
  - rewrite run_norm. cbn [empty s_norm].
    destruct (fold_accn_sq (map c_vec (filter (fun c => Nat.eqb n (c_node c)) (flat_map tcs (firsts [] l)))) (mkvec 0 0 0)) as [_ H]. specialize (H v Iv). lra.
Qed.
Lemma tri_zero : forall n, (forall e, Q e -> ~ In n (nth e tris [])) -> s_area (triangle_surface eps pos tris l) n = 0 /\ s_norm (triangle_surface eps pos tris l) n = mkvec 0 0 0.
Proof.
  intros n H.
  assert (Z : s_area (triangle_surface eps pos tris l) n = 0).
  { rewrite tri_area_at, total_rsum. rewrite (rsum_ext _ (fun _ => 0)); [apply rsum_zero; reflexivity|]. intros e I. apply part2_out. apply H. apply (proj2 ON). exact I. }
  split; [exact Z|]. rewrite triangle_surface_eq in Z |- *. cbn [normalize s_norm s_area] in Z |- *. rewrite Z. destruct (Rlt_dec 0 0); [lra|].
  rewrite run_norm. cbn [empty s_norm]. apply accn_zero. intros v I. exfalso. apply tri_vectors in I. destruct I as (e & i & j & J & I & _). exact (H e J I).
Qed.
Lemma tri_perp : forall n w d, w <> mkvec 0 0 0 -> dot d w = 0 ->
  (forall e, Q e -> In n (nth e tris []) -> cosine_with w (ends pos tris e 0) (ends pos tris e 1) = 0 /\ cosine_with w (ends pos tris e 0) (ends pos tris e 2) = 0) ->
  dot d (s_norm (triangle_surface eps pos tris l) n) = 0.
Proof.
  intros n w d W D H. rewrite triangle_surface_eq. apply normalize_perp. rewrite run_norm. cbn [empty s_norm]. apply accn_perp; [unfold dot; cbn [vx vy vz]; ring|].
  intros v I. apply tri_vectors in I. destruct I as (e & i & j & J & I & Li & Lj & ->). destruct (H e J I) as [H1 H2].
  destruct (center_ok e J) as (_ & _ & s & t & u & S & C).
  apply (pair_vec_perp pos (center_at e) (nth e tris []) i j d w s t u D W); assumption.
Qed.
Lemma tri_total : forall N, (forall e n, Q e -> In n (nth e tris []) -> (n < N)%nat) ->
  total (corner_area pos) (map (fun e => nth e tris []) L) <= total (s_area (triangle_surface eps pos tris l)) (seq 0 N) /\
  (total (s_area (triangle_surface eps pos tris l)) (seq 0 N) = total (corner_area pos) (map (fun e => nth e tris []) L) <-> Forall (corner_nonobtuse pos) (map (fun e => nth e tris []) L)).
Proof.
  intros N B. rewrite !total_rsum, rsum_map.
  rewrite (rsum_ext _ (fun n => rsum (fun e => part2 pos (center_at e) (nth e tris []) n) L) (seq 0 N)) by (intros n _; rewrite tri_area_at; apply total_rsum).
  rewrite rsum_swap.
  assert (K : forall e, In e L -> corner_area pos (nth e tris []) <= rsum (part2 pos (center_at e) (nth e tris [])) (seq 0 N) /\
    (rsum (part2 pos (center_at e) (nth e tris [])) (seq 0 N) = corner_area pos (nth e tris []) <-> corner_nonobtuse pos (nth e tris []))).
  { intros e I. apply (proj2 ON) in I. pose proof (center_ok e I) as C. destruct (WF e I) as (_ & (x & y & z & E & N1 & N2 & N3) & (T & _)). pose proof (B e) as Be. rewrite E in *. cbn [nth] in C, T.
    rewrite part2_total3 by (try assumption; apply Be; cbn; tauto). unfold corner_area, corner_nonobtuse. cbn [nth]. apply triangle_total; assumption. }
  rewrite Forall_map. rewrite Forall_forall.
  destruct (sum_iff _ (fun e => corner_area pos (nth e tris [])) (fun e => rsum (part2 pos (center_at e) (nth e tris [])) (seq 0 N)) (fun e => corner_nonobtuse pos (nth e tris [])) L K) as [A1 A2].
  split; [exact A1|]. rewrite <- Forall_forall. exact A2.
Qed.
End Three.

(* the surface s is made of the triangles for which Q holds; center: their circumcentres *)
Definition triangle_surface_ok (pos : list vec) (tris : list (list nat)) (Q : nat -> Prop) (s : surf) : Prop :=
  (exists center, (forall e, Q e -> circumcenter3 (center e) (ends pos tris e 0) (ends pos tris e 1) (ends pos tris e 2)) /\
    forall L n, once L Q -> s_area s n = total (fun e => part2 pos (center e) (nth e tris []) n) L) /\
  (* together the nodes have at least the area of the boundary, and just that if no triangle is obtuse *)
  (forall L N, once L Q -> (forall e n, Q e -> In n (nth e tris []) -> (n < N)%nat) ->
    let area := total (fun e => tri_area (ends pos tris e 0) (ends pos tris e 1) (ends pos tris e 2)) L in
    area <= total (s_area s) (seq 0 N) /\
    (total (s_area s) (seq 0 N) = area <-> forall e, Q e -> nonobtuse (ends pos tris e 0) (ends pos tris e 1) (ends pos tris e 2))) /\
  (forall n, (forall e, Q e -> ~ In n (nth e tris [])) -> s_area s n = 0 /\ s_norm s n = mkvec 0 0 0) /\
  (forall n e, Q e -> In n (nth e tris []) -> dot (s_norm s n) (s_norm s n) = 1) /\
  (* if the triangles at the node are perpendicular to w, the normal is parallel to w *)
  (forall n w d, w <> mkvec 0 0 0 ->
    (forall e, Q e -> In n (nth e tris []) -> cosine_with w (ends pos tris e 0) (ends pos tris e 1) = 0 /\ cosine_with w (ends pos tris e 0) (ends pos tris e 2) = 0) ->
    dot d w = 0 -> dot d (s_norm s n) = 0).
(* the listed triangles have three different nodes and are not degenerate *)
Definition faces (eps : R) (pos : list vec) (tris : list (list nat)) (Q : nat -> Prop) : Prop :=
  forall e, Q e -> (e < length tris)%nat /\ (exists a b c, nth e tris [] = [a; b; c] /\ a <> b /\ a <> c /\ b <> c) /\ good2 eps pos (nth e tris []).
Lemma surface_triangles_ok : forall eps pos tris Q l, 0 < eps -> (forall e, In e l <-> Q e) -> faces eps pos tris Q -> triangle_surface_ok pos tris Q (triangle_surface eps pos tris l).
Proof.
  intros eps pos tris Q l EP S W. assert (O : once (firsts [] l) Q).
  { split; [apply firsts_spec|]. intros e. rewrite (proj2 (firsts_spec l [])), S. cbn. tauto. }
  split; [|split; [|split; [|split]]].
  - exists (center_at eps pos tris). split; [intros e H; exact (center_ok eps pos tris Q EP W e H)|]. intros L n ON. exact (tri_area_at eps pos tris Q L l ON S W n).
  - intros L N ON B. destruct (tri_total eps pos tris Q L l ON S EP W N B) as [A1 A2]. rewrite !total_rsum, rsum_map in A1, A2. rewrite <- !total_rsum in A1, A2. cbv zeta.
    split; [exact A1|]. etransitivity; [exact A2|]. rewrite Forall_map, Forall_forall. split; intros H e I; apply H; apply (proj2 ON); exact I.
  - intros n H. exact (tri_zero eps pos tris Q _ l O S W n H).
  - intros n e J I. exact (tri_unit eps pos tris Q _ l O S EP W n e J I).
  - intros n w d Hw H D. exact (tri_perp eps pos tris Q l S EP W n w d Hw D H).
Qed.
Theorem C54_contact_3d : forall eps pos edges tris r cs, 0 < eps -> faces eps pos tris (of_contact r k_tris cs) ->
  triangle_surface_ok pos tris (of_contact r k_tris cs) (contact_surface eps pos edges tris 3 r cs).
Proof. intros. apply surface_triangles_ok; [assumption|apply contacts_in|assumption]. Qed.
Theorem C54_interface_3d : forall eps pos edges tris r is, 0 < eps -> proper is -> faces eps pos tris (of_interface r i_tris0 i_tris1 is) ->
  triangle_surface_ok pos tris (of_interface r i_tris0 i_tris1 is) (interface_surface eps pos edges tris 3 r is).
Proof. intros. apply surface_triangles_ok; [assumption|intros e; apply interfaces_in; assumption|assumption]. Qed.

(* AtContactNode counts the contacts of the region that contain the node *)
Theorem C54_at_contact : forall r cs n, Forall (fun c => NoDup (k_nodes c)) cs ->
  at_contact r cs n = INR (length (filter (fun c => Nat.eqb (k_region c) r && if in_dec Nat.eq_dec n (k_nodes c) then true else false) cs)).
Proof.
  intros r cs n H. unfold at_contact.
  assert (K : forall l f, fold_left (fun f n => upd f n (f n + 1)) l f n = f n + INR (count_occ Nat.eq_dec l n)).
  { induction l as [|x l IH]; intros f; cbn [fold_left count_occ]; [cbn; lra|]. rewrite IH. unfold upd. destruct (Nat.eqb_spec n x) as [<-|N]; destruct (Nat.eq_dec _ _); try congruence; rewrite ?S_INR; lra. }
  rewrite K, Rplus_0_l. f_equal. clear K. unfold on_contacts. induction H as [|c cs N F IH]; [reflexivity|]. cbn [map concat filter]. rewrite count_occ_app, IH.
  destruct (Nat.eqb (k_region c) r); cbn [andb]; [|reflexivity]. destruct (in_dec Nat.eq_dec n (k_nodes c)) as [I|I].
  - rewrite (proj1 (NoDup_count_occ' Nat.eq_dec _) N n I). reflexivity.
  - apply (count_occ_not_In Nat.eq_dec) in I. rewrite I. reflexivity.
Qed.

(* In one dimension the areas are one at the coordinates of the interfaces (contacts) of the device. *)
Theorem C54_area_1d : forall coord has n, (has (coord n) = true -> area_1d coord has n = 1) /\ (has (coord n) = false -> area_1d coord has n = 0).
Proof. intros coord has n. unfold area_1d. split; intros ->; lra. Qed.
(* Refuted: so a contact in another region gives the node of this region a contact area.  Coordinates 0, 1, 2; region 0 has
   the coordinates 0, 1 and the contact at its node 1; region 1 the coordinates 1, 2. *)
Theorem C54_other_region_refuted : exists (coord0 coord1 : nat -> nat) (c : contact),
  let has x := existsb (fun n => Nat.eqb (coord0 n) x) (k_nodes c) in
  k_region c = 0%nat /\ area_1d coord1 has 0 = 1 /\ (forall n, ~ of_contact 1 k_nodes [c] n).
Proof.
  exists (fun n => n), (fun n => S n), {| k_region := 0; k_nodes := [1%nat]; k_edges := []; k_tris := [] |}. split; [reflexivity|]. split; [unfold area_1d; cbn; change (Nat.eqb 1 1) with true; cbn; lra|].
  intros n (c & [<-|[]] & E & _). discriminate.
Qed.

(* Refuted: at a corner of the boundary the normal can be tangential.  The region is the first quadrant, the contact consists of
   two edges on the axes; the normals of the edges that point out of the region are (0,-1) and (-1,0), so the normal at the
   corner should be opposite to (1,1), but it is perpendicular to it. *)
Definition cpos : list vec := [mkvec 0 0 0; mkvec 1 0 0; mkvec 0 1 0].
Definition cedges : list (list nat) := [[0; 1]; [0; 2]]%nat.
Definition ccontact : contact := {| k_region := 0; k_nodes := [0; 1; 2]%nat; k_edges := [0; 1]%nat; k_tris := [] |}.
Lemma dist1 : forall a b, (vx a - vx b) ^ 2 + (vy a - vy b) ^ 2 + (vz a - vz b) ^ 2 = 1 -> dist a b = 1.
Proof. intros a b H. unfold dist. rewrite H. apply sqrt_1. Qed.
Lemma corner_vec0 : edge_vec cpos [0; 1]%nat = mkvec 0 (- / 2) 0.
Proof.
  unfold edge_vec. cbv zeta. rewrite edge_length_dist. unfold unit_vec. rewrite magnitude_dist. unfold at_pos, P. cbn [nth cpos].
  rewrite !dist1 by (cbn [vx vy vz]; ring). unfold vscale, vsub. cbn [vx vy vz]. f_equal; field.
Qed.
Lemma corner_vec1 : edge_vec cpos [0; 2]%nat = mkvec (/ 2) 0 0.
Proof.
  unfold edge_vec. cbv zeta. rewrite edge_length_dist. unfold unit_vec. rewrite magnitude_dist. unfold at_pos, P. cbn [nth cpos].
  rewrite !dist1 by (cbn [vx vy vz]; ring). unfold vscale, vsub. cbn [vx vy vz]. f_equal; field.
Qed.
Lemma acc0 : accn (mkvec 0 0 0) (mkvec 0 (- / 2) 0) = mkvec 0 (- / 2) 0.
Proof. unfold accn, dot, vsub, vadd. cbn [vx vy vz]. destruct (Rlt_dec _ 0); [lra|]. f_equal; lra. Qed.
Lemma acc1 : accn (mkvec 0 (- / 2) 0) (mkvec (/ 2) 0 0) = mkvec (/ 2) (- / 2) 0.
Proof. unfold accn, dot, vsub, vadd. cbn [vx vy vz]. destruct (Rlt_dec _ 0); [lra|]. f_equal; lra. Qed.
Lemma ccontact_edges : segments cedges (of_contact 0 k_edges [ccontact]) /\ planar_edges cpos cedges.
Proof.
  split.
  - intros e (c & [<-|[]] & _ & I). cbn in I. destruct I as [<-|[<-|[]]]; [exists 0%nat, 1%nat|exists 0%nat, 2%nat]; split; (reflexivity || lia).
  - intros e. unfold ends, P, cedges, cpos. destruct e as [|[|[|e]]]; cbn; reflexivity.
Qed.
Theorem C54_corner_refuted : forall eps, let s := contact_surface eps cpos cedges [] 2 0 [ccontact] in
  dot (s_norm s 0%nat) (s_norm s 0%nat) = 1 /\ dot (mkvec 1 1 0) (s_norm s 0%nat) = 0.
Proof.
  intros eps s. destruct ccontact_edges as [SG PL]. destruct (C54_contact_2d eps cpos cedges [] 0 [ccontact] SG PL) as (_ & _ & _ & U & _). split.
  - apply (U 0%nat 0%nat); [exists ccontact; cbn; tauto|cbn; tauto|]. unfold len, ends, P. cbn [nth cedges cpos]. rewrite dist1 by (cbn [vx vy vz]; ring). lra.
  - unfold s, contact_surface. rewrite edge_surface_eq. apply normalize_perp. rewrite raw_norm.
    replace (map c_vec (filter (fun c => Nat.eqb 0 (c_node c)) (flat_map (fun e => edge_contribs cpos (nth e cedges [])) (firsts [] (on_contacts 0 k_edges [ccontact])))))
      with [edge_vec cpos [0; 1]%nat; edge_vec cpos [0; 2]%nat] by reflexivity.
    cbn [fold_left]. rewrite corner_vec0, corner_vec1, acc0, acc1. unfold dot. cbn [vx vy vz]. lra.
Qed.
Print Assumptions C54_contact_2d.
Print Assumptions C54_interface_2d.
Print Assumptions C54_contact_3d.
Print Assumptions C54_interface_3d.
Print Assumptions C54_at_contact.
Print Assumptions C54_area_1d.
Print Assumptions C54_other_region_refuted.
Print Assumptions C54_corner_refuted.
