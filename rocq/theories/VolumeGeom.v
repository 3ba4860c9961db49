(* The couples and volumes of one element. *)
From Coq Require Import Reals Lra Psatz.
From Verif Require Import Geometry GeometrySpec GeometryProofs.
Open Scope R_scope.

Lemma magnitude_sq : forall v, magnitude v ^ 2 = dot v v.
Proof. intros v. unfold magnitude. rewrite <- Rsqr_pow2, Rsqr_sqrt; [unfold dot; ring|]. repeat apply Rplus_le_le_0_compat; apply Rle_0_sqr. Qed.
Lemma magnitude_nonneg : forall v, 0 <= magnitude v.
Proof. intros. apply sqrt_pos. Qed.
Lemma magnitude_dist : forall a b, magnitude (vsub a b) = dist a b.
Proof. intros. unfold magnitude, dist, vsub. cbn [vx vy vz]. f_equal. ring. Qed.
Lemma sq_eq : forall x y, 0 <= x -> 0 <= y -> x ^ 2 = y ^ 2 -> x = y.
Proof. intros x y A B H. apply Rsqr_inj; [exact A|exact B|]. rewrite !Rsqr_pow2. exact H. Qed.
Lemma abs_sq : forall x, Rabs x ^ 2 = x ^ 2.
Proof. intros. rewrite <- !Rsqr_pow2. symmetry. apply Rsqr_abs. Qed.

(* u, v of the same length: the bisector *)
Lemma couple_len : forall p b c, dist p b = dist p c ->
  magnitude (vsub (vscale (/ 2) (vadd b c)) p) * dist b c = magnitude (cross (vsub b p) (vsub c p)).
Proof.
  intros p b c H. apply sq_eq; [apply Rmult_le_pos; [apply magnitude_nonneg|apply dist_nonneg]|apply magnitude_nonneg|].
  rewrite Rpow_mult_distr, !magnitude_sq. assert (E : dist p b ^ 2 = dist p c ^ 2) by (rewrite H; reflexivity). rewrite !dist_sq in *.
  unfold dot, cross, vsub, vscale, vadd. cbn [vx vy vz].
  set (bx := vx b - vx p) in *. set (by_ := vy b - vy p) in *. set (bz := vz b - vz p) in *. set (cx := vx c - vx p) in *. set (cy := vy c - vy p) in *. set (cz := vz c - vz p) in *.
  replace ((vx b + vx c) * / 2 - vx p) with ((bx + cx) / 2) by (unfold bx, cx; field). replace ((vy b + vy c) * / 2 - vy p) with ((by_ + cy) / 2) by (unfold by_, cy; field).
  replace ((vz b + vz c) * / 2 - vz p) with ((bz + cz) / 2) by (unfold bz, cz; field). replace (vx b - vx c) with (bx - cx) by (unfold bx, cx; ring).
  replace (vy b - vy c) with (by_ - cy) by (unfold by_, cy; ring). replace (vz b - vz c) with (bz - cz) by (unfold bz, cz; ring).
  assert (E' : bx ^ 2 + by_ ^ 2 + bz ^ 2 = cx ^ 2 + cy ^ 2 + cz ^ 2).
  { replace (bx ^ 2) with ((vx p - vx b) ^ 2) by (unfold bx; ring). replace (by_ ^ 2) with ((vy p - vy b) ^ 2) by (unfold by_; ring). replace (bz ^ 2) with ((vz p - vz b) ^ 2) by (unfold bz; ring).
    replace (cx ^ 2) with ((vx p - vx c) ^ 2) by (unfold cx; ring). replace (cy ^ 2) with ((vy p - vy c) ^ 2) by (unfold cy; ring). replace (cz ^ 2) with ((vz p - vz c) ^ 2) by (unfold cz; ring). exact E. }
  assert (X : forall A B D, A = B -> (A + B + 2 * D) / 4 * (A + B - 2 * D) = A * B - D * D) by (intros A B D ->; field).
  transitivity ((bx ^ 2 + by_ ^ 2 + bz ^ 2) * (cx ^ 2 + cy ^ 2 + cz ^ 2) - (bx * cx + by_ * cy + bz * cz) * (bx * cx + by_ * cy + bz * cz)); [|ring].
  rewrite <- (X _ _ _ E'). field.
Qed.
(* the weight of the opposite corner *)
Lemma cross_weight : forall s t u a b c p, s + t + u = 1 -> p = comb3 s t u a b c ->
  cross (vsub b p) (vsub c p) = vscale s (cross (vsub b a) (vsub c a)).
Proof.
  intros s t u a b c p W ->. assert (u = 1 - s - t) by lra. subst u. unfold cross, vsub, vscale, comb3. cbn [vx vy vz]. f_equal; ring.
Qed.
Lemma magnitude_scale : forall s v, magnitude (vscale s v) = Rabs s * magnitude v.
Proof.
  intros. apply sq_eq; [apply magnitude_nonneg|apply Rmult_le_pos; [apply Rabs_pos|apply magnitude_nonneg]|].
  rewrite Rpow_mult_distr, abs_sq, !magnitude_sq. unfold dot, vscale. cbn [vx vy vz]. ring.
Qed.
Lemma tri_area_mag : forall a b c, tri_area a b c = magnitude (cross (vsub b a) (vsub c a)) / 2.
Proof. intros. rewrite tri_area_n2. f_equal. Qed.
Lemma couple_weight : forall p a b c s t u, s + t + u = 1 -> p = comb3 s t u a b c -> dist p b = dist p c ->
  magnitude (vsub (vscale (/ 2) (vadd b c)) p) * dist b c = Rabs s * (2 * tri_area a b c).
Proof. intros p a b c s t u W E D. rewrite couple_len by exact D. rewrite (cross_weight s t u a b c p W E), magnitude_scale, tri_area_mag. field. Qed.
Lemma midpoint_eq : forall a b, midpoint a b = vscale (/ 2) (vadd a b).
Proof. intros. unfold midpoint, vscale, vadd. cbn [vx vy vz]. reflexivity. Qed.
(* the volume given to an end of an edge is the area of (end, middle of the edge, centre) *)
Lemma half_area : forall p b c, dist p b = dist p c ->
  dist b c * (magnitude (vsub (vscale (/ 2) (vadd b c)) p) * (1 / 4)) = tri_area b (midpoint b c) p.
Proof.
  intros p b c H. rewrite tri_area_mag. pose proof (couple_len p b c H) as C.
  assert (E : cross (vsub (midpoint b c) b) (vsub p b) = vscale (1 / 2) (cross (vsub b p) (vsub c p))).
  { unfold midpoint, cross, vsub, vscale. cbn [vx vy vz]. f_equal; field. }
  rewrite E, magnitude_scale, <- C, Rabs_right by lra. field.
Qed.
Lemma mid_sym : forall a b, midpoint a b = midpoint b a.
Proof. intros. unfold midpoint. f_equal; field. Qed.
Lemma dist_sym : forall a b, dist a b = dist b a.
Proof. intros. unfold dist. f_equal. ring. Qed.
Lemma vadd_comm : forall a b, vadd a b = vadd b a.
Proof. intros. unfold vadd. f_equal; ring. Qed.

(* absolute values of weights that add up to one *)
Lemma abs3 : forall s t u, s + t + u = 1 -> 1 <= Rabs s + Rabs t + Rabs u /\ (Rabs s + Rabs t + Rabs u = 1 <-> 0 <= s /\ 0 <= t /\ 0 <= u).
Proof.
  intros s t u W. unfold Rabs. destruct (Rcase_abs s), (Rcase_abs t), (Rcase_abs u); split; try lra; split; intros; try lra; repeat split; lra.
Qed.
Lemma dist_pos : forall a b c, triangle a b c -> 0 < dist b c /\ 0 < dist a c /\ 0 < dist a b.
Proof.
  intros a b c T. apply triangle_n2 in T.
  assert (X : forall x y, dist x y = 0 -> vx x = vx y /\ vy x = vy y /\ vz x = vz y).
  { intros x y E. assert (E2 : dist x y ^ 2 = 0) by (rewrite E; ring). rewrite dist_sq in E2.
    pose proof (pow2_ge_0 (vx x - vx y)). pose proof (pow2_ge_0 (vy x - vy y)). pose proof (pow2_ge_0 (vz x - vz y)).
    repeat split; apply Rminus_diag_uniq; apply Rsqr_0_uniq; rewrite Rsqr_pow2; lra. }
  pose proof (dist_nonneg b c). pose proof (dist_nonneg a c). pose proof (dist_nonneg a b).
  repeat split; match goal with |- 0 < dist ?x ?y => destruct (Req_dec (dist x y) 0) as [Z|Z]; [|lra]; exfalso; apply X in Z; destruct Z as (Z1 & Z2 & Z3);
    unfold n2, dot, cross, vsub in T; cbn [vx vy vz] in T; rewrite ?Z1, ?Z2, ?Z3 in T; ring_simplify in T; lra end.
Qed.
Lemma wA_sign : forall a b c, triangle a b c -> (0 <= wA a b c <-> 0 <= cosine a b c).
Proof.
  intros a b c T. pose proof (dist_pos a b c T) as [P _]. apply triangle_n2 in T. unfold wA.
  assert (K : 0 < dist b c ^ 2 / (2 * n2 a b c)) by (apply Rdiv_lt_0_compat; [apply pow_lt; exact P|lra]).
  replace (dist b c ^ 2 * cosine a b c / (2 * n2 a b c)) with (dist b c ^ 2 / (2 * n2 a b c) * cosine a b c) by (field; lra).
  split; intros H; [|nra]. destruct (Rle_dec 0 (cosine a b c)) as [Y|Y]; [exact Y|nra].
Qed.
Lemma triangle_perm : forall a b c, triangle a b c -> triangle b a c /\ triangle c a b.
Proof.
  intros a b c T. rewrite !triangle_n2 in *. split.
  - replace (n2 b a c) with (n2 a b c) by (unfold n2, dot, cross, vsub; cbn [vx vy vz]; ring). exact T.
  - replace (n2 c a b) with (n2 a b c) by (unfold n2, dot, cross, vsub; cbn [vx vy vz]; ring). exact T.
Qed.
Lemma comb3_perm : forall s t u a b c, comb3 t s u b a c = comb3 s t u a b c /\ comb3 u s t c a b = comb3 s t u a b c /\ comb3 s u t a c b = comb3 s t u a b c.
Proof. intros. unfold comb3. repeat split; f_equal; ring. Qed.
Lemma area_perm : forall a b c, tri_area b a c = tri_area a b c /\ tri_area c a b = tri_area a b c /\ tri_area a c b = tri_area a b c.
Proof. intros. rewrite !tri_area_n2. repeat split; f_equal; f_equal; unfold n2, dot, cross, vsub; cbn [vx vy vz]; ring. Qed.
Lemma wA_sym : forall a b c, 0 < n2 a b c -> wA a c b = wA a b c.
Proof. intros a b c H. unfold wA. rewrite (dist_sym c b). replace (n2 a c b) with (n2 a b c) by (unfold n2, dot, cross, vsub; cbn [vx vy vz]; ring).
  replace (cosine a c b) with (cosine a b c) by (unfold cosine; ring). reflexivity. Qed.
(* a circumcentre in terms of weights *)
Lemma circumcenter_weights : forall p a b c, triangle a b c -> circumcenter3 p a b c -> p = comb3 (wA a b c) (wA b a c) (wA c a b) a b c.
Proof.
  intros p a b c T C. apply triangle_n2 in T. rewrite <- center3d_comb by exact T.
  apply (circumcenter3_unique _ _ a b c T C). apply center3d_equi. exact T.
Qed.
Lemma circumcenter_perm : forall p a b c, circumcenter3 p a b c -> circumcenter3 p b a c /\ circumcenter3 p c a b /\ circumcenter3 p a c b.
Proof.
  intros p a b c (A & B & s & t & u & W & E). destruct (comb3_perm s t u a b c) as (X & Y & Z).
  split; [|split]; (split; [congruence|]; split; [congruence|]).
  - exists t, s, u. split; [lra|]. rewrite X. exact E.
  - exists u, s, t. split; [lra|]. rewrite Y. exact E.
  - exists s, u, t. split; [lra|]. rewrite Z. exact E.
Qed.
(* one triangle: the six parts *)
Lemma triangle_parts : forall p a b c, triangle a b c -> circumcenter3 p a b c ->
  tri_area b (midpoint b c) p + tri_area c (midpoint c b) p + (tri_area a (midpoint a c) p + tri_area c (midpoint c a) p) + (tri_area a (midpoint a b) p + tri_area b (midpoint b a) p)
  = tri_area a b c * (Rabs (wA a b c) + Rabs (wA b a c) + Rabs (wA c a b)).
Proof.
  intros p a b c T C. pose proof C as (D1 & D2 & _). pose proof (circumcenter_weights p a b c T C) as E. pose proof (weights_one a b c (proj1 (triangle_n2 _ _ _) T)) as W.
  rewrite <- (half_area p b c), <- (half_area p c b), <- (half_area p a c), <- (half_area p c a), <- (half_area p a b), <- (half_area p b a) by congruence.
  rewrite (dist_sym c b), (dist_sym c a), (dist_sym b a), (vadd_comm c b), (vadd_comm c a), (vadd_comm b a).
  destruct (comb3_perm (wA a b c) (wA b a c) (wA c a b) a b c) as (X & Y & _). destruct (area_perm a b c) as (AX & AY & _).
  pose proof (couple_weight p a b c _ _ _ W E ltac:(congruence)) as K1.
  pose proof (couple_weight p b a c (wA b a c) (wA a b c) (wA c a b) ltac:(lra) ltac:(rewrite X; exact E) D2) as K2.
  pose proof (couple_weight p c a b (wA c a b) (wA a b c) (wA b a c) ltac:(lra) ltac:(rewrite Y; exact E) D1) as K3.
  rewrite AX in K2. rewrite AY in K3. lra.
Qed.
Lemma triangle_total : forall p a b c, triangle a b c -> circumcenter3 p a b c ->
  let total := tri_area b (midpoint b c) p + tri_area c (midpoint c b) p + (tri_area a (midpoint a c) p + tri_area c (midpoint c a) p) + (tri_area a (midpoint a b) p + tri_area b (midpoint b a) p) in
  tri_area a b c <= total /\ (total = tri_area a b c <-> nonobtuse a b c).
Proof.
  intros p a b c T C total. unfold total. rewrite (triangle_parts p a b c T C). pose proof (weights_one a b c (proj1 (triangle_n2 _ _ _) T)) as W.
  destruct (abs3 _ _ _ W) as [L E]. set (w := Rabs (wA a b c) + Rabs (wA b a c) + Rabs (wA c a b)) in *. unfold triangle in T. split; [nra|].
  destruct (triangle_perm a b c T) as [T1 T2].
  unfold nonobtuse. rewrite <- (wA_sign a b c T), <- (wA_sign b a c T1), <- (wA_sign c a b T2), <- E.
  split; intros H; [nra|rewrite H; ring].
Qed.

(* --- tetrahedra --- *)
Lemma orthoscheme : forall p f b c, dist p b = dist p c -> dist f b = dist f c ->
  dist b c * magnitude (cross (vsub p (vscale (/ 2) (vadd b c))) (vsub f p)) = Rabs (det3 b c f p).
Proof.
  intros p f b c H1 H2. apply sq_eq; [apply Rmult_le_pos; [apply dist_nonneg|apply magnitude_nonneg]|apply Rabs_pos|].
  rewrite Rpow_mult_distr, magnitude_sq, abs_sq, dist_sq.
  assert (E1 : dist p b ^ 2 = dist p c ^ 2) by (rewrite H1; reflexivity). assert (E2 : dist f b ^ 2 = dist f c ^ 2) by (rewrite H2; reflexivity). rewrite !dist_sq in E1, E2.
  set (e1 := vx b - vx c) in *. set (e2 := vy b - vy c) in *. set (e3 := vz b - vz c) in *.
  set (v := vsub p (vscale (/ 2) (vadd b c))). set (w := vsub f p).
  assert (O1 : e1 * vx v + e2 * vy v + e3 * vz v = 0) by (unfold v, vsub, vscale, vadd, e1, e2, e3; cbn [vx vy vz]; lra).
  assert (O2 : e1 * vx w + e2 * vy w + e3 * vz w = 0) by (unfold w, vsub, e1, e2, e3; cbn [vx vy vz]; lra).
  assert (D : det3 b c f p = - (e1 * (vy w * vz v - vz w * vy v) + e2 * (vz w * vx v - vx w * vz v) + e3 * (vx w * vy v - vy w * vx v))).
  { unfold det3, v, w, e1, e2, e3, vsub, vscale, vadd. cbn [vx vy vz]. field. }
  rewrite D. unfold dot, cross. cbn [vx vy vz].
  transitivity ((e1 * (vy w * vz v - vz w * vy v) + e2 * (vz w * vx v - vx w * vz v) + e3 * (vx w * vy v - vy w * vx v)) ^ 2 +
    ((vx v * (e1 * vx w + e2 * vy w + e3 * vz w) - vx w * (e1 * vx v + e2 * vy v + e3 * vz v)) ^ 2 +
     (vy v * (e1 * vx w + e2 * vy w + e3 * vz w) - vy w * (e1 * vx v + e2 * vy v + e3 * vz v)) ^ 2 +
     (vz v * (e1 * vx w + e2 * vy w + e3 * vz w) - vz w * (e1 * vx v + e2 * vy v + e3 * vz v)) ^ 2)); [ring|].
  rewrite O1, O2. ring.
Qed.
Lemma orthoscheme_volume : forall p f b c, Rabs (det3 b c f p) = 12 * tet_volume b (midpoint b c) f p.
Proof.
  intros. unfold tet_volume. replace (det3 b (midpoint b c) f p) with (/ 2 * det3 b c f p) by (unfold det3, midpoint; cbn [vx vy vz]; field).
  rewrite Rabs_mult, (Rabs_right (/ 2)) by lra. field.
Qed.
(* the volume of an end of an edge *)
Lemma edge_part : forall p f g b c, dist p b = dist p c -> dist f b = dist f c -> dist g b = dist g c ->
  let v0 := vsub p (vscale (/ 2) (vadd b c)) in
  dist b c * (/ 2 * (magnitude (cross v0 (vsub f p)) + magnitude (cross v0 (vsub g p))) * (1 / 6)) =
  tet_volume b (midpoint b c) f p + tet_volume b (midpoint b c) g p.
Proof.
  intros p f g b c H F G v0. unfold v0. pose proof (orthoscheme p f b c H F) as A. pose proof (orthoscheme p g b c H G) as B.
  rewrite orthoscheme_volume in A, B. lra.
Qed.
Lemma tet_volume_ends : forall p f b c, tet_volume c (midpoint c b) f p = tet_volume b (midpoint b c) f p.
Proof.
  intros. apply Rmult_eq_reg_l with 12; [|lra]. rewrite <- !orthoscheme_volume.
  replace (det3 c b f p) with (- det3 b c f p) by (unfold det3; ring). apply Rabs_Ropp.
Qed.
(* weights of p *)
Definition beta (p a b c d : vec) : R := det3 p b c d / det3 a b c d.
Lemma beta_one : forall p a b c d, tetrahedron a b c d -> beta p a b c d + beta p b a c d + beta p c a b d + beta p d a b c = 1.
Proof.
  intros p a b c d T. unfold beta. unfold tetrahedron in T.
  replace (det3 b a c d) with (- det3 a b c d) by (unfold det3; ring). replace (det3 c a b d) with (det3 a b c d) by (unfold det3; ring).
  replace (det3 d a b c) with (- det3 a b c d) by (unfold det3; ring).
  assert (X : det3 p b c d - det3 p a c d + det3 p a b d - det3 p a b c = det3 a b c d) by (unfold det3; ring).
  rewrite <- X in T |- *. field. exact T.
Qed.
Lemma beta_comb : forall p a b c d, tetrahedron a b c d ->
  p = mkvec (beta p a b c d * vx a + beta p b a c d * vx b + beta p c a b d * vx c + beta p d a b c * vx d)
            (beta p a b c d * vy a + beta p b a c d * vy b + beta p c a b d * vy c + beta p d a b c * vy d)
            (beta p a b c d * vz a + beta p b a c d * vz b + beta p c a b d * vz c + beta p d a b c * vz d).
Proof.
  intros p a b c d T. unfold beta. unfold tetrahedron in T.
  replace (det3 b a c d) with (- det3 a b c d) by (unfold det3; ring). replace (det3 c a b d) with (det3 a b c d) by (unfold det3; ring).
  replace (det3 d a b c) with (- det3 a b c d) by (unfold det3; ring).
  assert (X : forall g x, g * det3 a b c d = x -> g = x * / det3 a b c d) by (intros g x <-; field; exact T).
  destruct p as [x y z] eqn:Ep. f_equal.
  - transitivity ((det3 p b c d * vx a - det3 p a c d * vx b + det3 p a b d * vx c - det3 p a b c * vx d) * / det3 a b c d); [|rewrite Ep; field; exact T].
    apply X. rewrite Ep. unfold det3. cbn [vx vy vz]. ring.
  - transitivity ((det3 p b c d * vy a - det3 p a c d * vy b + det3 p a b d * vy c - det3 p a b c * vy d) * / det3 a b c d); [|rewrite Ep; field; exact T].
    apply X. rewrite Ep. unfold det3. cbn [vx vy vz]. ring.
  - transitivity ((det3 p b c d * vz a - det3 p a c d * vz b + det3 p a b d * vz c - det3 p a b c * vz d) * / det3 a b c d); [|rewrite Ep; field; exact T].
    apply X. rewrite Ep. unfold det3. cbn [vx vy vz]. ring.
Qed.
Lemma inside_beta : forall p a b c d, tetrahedron a b c d ->
  (inside4 p a b c d <-> 0 <= beta p a b c d /\ 0 <= beta p b a c d /\ 0 <= beta p c a b d /\ 0 <= beta p d a b c).
Proof.
  intros p a b c d T. split.
  - intros (s & t & u & w & A & B & C & D & W & ->). assert (Hs : s = 1 - t - u - w) by lra.
    unfold tetrahedron in T. unfold beta.
    replace (det3 b a c d) with (- det3 a b c d) by (unfold det3; ring). replace (det3 c a b d) with (det3 a b c d) by (unfold det3; ring).
    replace (det3 d a b c) with (- det3 a b c d) by (unfold det3; ring).
    set (q := mkvec _ _ _).
    assert (E1 : det3 q b c d = s * det3 a b c d) by (unfold q, det3; cbn [vx vy vz]; rewrite Hs; ring).
    assert (E2 : det3 q a c d = - (t * det3 a b c d)) by (unfold q, det3; cbn [vx vy vz]; rewrite Hs; ring).
    assert (E3 : det3 q a b d = u * det3 a b c d) by (unfold q, det3; cbn [vx vy vz]; rewrite Hs; ring).
    assert (E4 : det3 q a b c = - (w * det3 a b c d)) by (unfold q, det3; cbn [vx vy vz]; rewrite Hs; ring).
    rewrite E1, E2, E3, E4. repeat split.
    + replace (s * det3 a b c d / det3 a b c d) with s by (field; exact T). exact A.
    + replace (- (t * det3 a b c d) / - det3 a b c d) with t by (field; exact T). exact B.
    + replace (u * det3 a b c d / det3 a b c d) with u by (field; exact T). exact C.
    + replace (- (w * det3 a b c d) / - det3 a b c d) with w by (field; exact T). exact D.
  - intros (A & B & C & D). exists (beta p a b c d), (beta p b a c d), (beta p c a b d), (beta p d a b c).
    repeat split; try assumption; [apply beta_one; exact T|apply beta_comb; exact T].
Qed.
(* the parts at a face a b c with the centre f, p the centre of the tetrahedron: all six *)
Definition face_parts (p f a b c : vec) : R :=
  tet_volume b (midpoint b c) f p + tet_volume c (midpoint c b) f p + (tet_volume a (midpoint a c) f p + tet_volume c (midpoint c a) f p)
  + (tet_volume a (midpoint a b) f p + tet_volume b (midpoint b a) f p).
Lemma face_total : forall p f a b c, triangle a b c -> circumcenter3 f a b c ->
  face_parts p f a b c = Rabs (det3 p a b c) / 6 * (Rabs (wA a b c) + Rabs (wA b a c) + Rabs (wA c a b)).
Proof.
  intros p f a b c T C. pose proof (circumcenter_weights f a b c T C) as E. pose proof (weights_one a b c (proj1 (triangle_n2 _ _ _) T)) as W.
  unfold face_parts. rewrite (tet_volume_ends p f b c), (tet_volume_ends p f a c), (tet_volume_ends p f a b).
  pose proof (orthoscheme_volume p f b c) as K1. pose proof (orthoscheme_volume p f a c) as K2. pose proof (orthoscheme_volume p f a b) as K3.
  assert (D1 : det3 b c f p = - (wA a b c * det3 p a b c)).
  { rewrite E. set (s := wA a b c) in *. set (t := wA b a c) in *. set (u := wA c a b) in *. assert (Hs : u = 1 - s - t) by lra. rewrite Hs. unfold det3, comb3. cbn [vx vy vz]. ring. }
  assert (D2 : det3 a c f p = wA b a c * det3 p a b c).
  { rewrite E. set (s := wA a b c) in *. set (t := wA b a c) in *. set (u := wA c a b) in *. assert (Hs : u = 1 - s - t) by lra. rewrite Hs. unfold det3, comb3. cbn [vx vy vz]. ring. }
  assert (D3 : det3 a b f p = - (wA c a b * det3 p a b c)).
  { rewrite E. set (s := wA a b c) in *. set (t := wA b a c) in *. set (u := wA c a b) in *. assert (Hs : u = 1 - s - t) by lra. rewrite Hs. unfold det3, comb3. cbn [vx vy vz]. ring. }
  rewrite D1, Rabs_Ropp, Rabs_mult in K1. rewrite D2, Rabs_mult in K2. rewrite D3, Rabs_Ropp, Rabs_mult in K3. lra.
Qed.
Lemma face_weights : forall a b c, triangle a b c -> let s := Rabs (wA a b c) + Rabs (wA b a c) + Rabs (wA c a b) in 1 <= s /\ (s = 1 <-> nonobtuse a b c).
Proof.
  intros a b c T s. destruct (abs3 _ _ _ (weights_one a b c (proj1 (triangle_n2 _ _ _) T))) as [L E]. destruct (triangle_perm a b c T) as [T1 T2].
  split; [exact L|]. unfold nonobtuse, s. rewrite <- (wA_sign a b c T), <- (wA_sign b a c T1), <- (wA_sign c a b T2). exact E.
Qed.
Lemma abs4 : forall x1 x2 x3 x4 s1 s2 s3 s4, x1 + x2 + x3 + x4 = 1 -> 1 <= s1 -> 1 <= s2 -> 1 <= s3 -> 1 <= s4 ->
  let w := Rabs x1 * s1 + Rabs x2 * s2 + Rabs x3 * s3 + Rabs x4 * s4 in
  1 <= w /\ (w = 1 <-> (0 <= x1 /\ 0 <= x2 /\ 0 <= x3 /\ 0 <= x4) /\ (x1 = 0 \/ s1 = 1) /\ (x2 = 0 \/ s2 = 1) /\ (x3 = 0 \/ s3 = 1) /\ (x4 = 0 \/ s4 = 1)).
Proof.
  intros x1 x2 x3 x4 s1 s2 s3 s4 W H1 H2 H3 H4 w.
  assert (G : forall x s, 1 <= s -> x <= Rabs x /\ 0 <= Rabs x * (s - 1)) by (intros x s H; split; [apply Rle_abs|apply Rmult_le_pos; [apply Rabs_pos|lra]]).
  destruct (G x1 s1 H1) as [A1 B1], (G x2 s2 H2) as [A2 B2], (G x3 s3 H3) as [A3 B3], (G x4 s4 H4) as [A4 B4].
  unfold w. split; [lra|]. split.
  - intros E.
    assert (N : forall x, x = Rabs x -> 0 <= x) by (intros x ->; apply Rabs_pos).
    assert (Z : forall x s, Rabs x * (s - 1) = 0 -> x = 0 \/ s = 1).
    { intros x s Z. apply Rmult_integral in Z. destruct Z as [Z|Z]; [left|right; lra]. destruct (Req_dec x 0) as [Y|Y]; [exact Y|]. exfalso. exact (Rabs_no_R0 x Y Z). }
    split; [repeat split; apply N; lra|]. repeat split; apply Z; lra.
  - intros ((N1 & N2 & N3 & N4) & Z1 & Z2 & Z3 & Z4). rewrite !Rabs_right by lra.
    assert (K : forall x s, (x = 0 \/ s = 1) -> x * s = x) by (intros x s [->| ->]; ring). rewrite !K by assumption. exact W.
Qed.
Lemma tetrahedron_faces : forall a b c d, tetrahedron a b c d -> triangle b c d /\ triangle a c d /\ triangle a b d /\ triangle a b c.
Proof.
  intros a b c d T. unfold tetrahedron in T.
  assert (G : forall x y z w, (n2 x y z = 0 -> det3 x y z w = 0)).
  { intros x y z w E. unfold n2 in E. set (n := cross (vsub y x) (vsub z x)) in *. unfold dot in E.
    pose proof (Rle_0_sqr (vx n)). pose proof (Rle_0_sqr (vy n)). pose proof (Rle_0_sqr (vz n)). unfold Rsqr in *.
    assert (X : vx n = 0) by (apply Rsqr_0_uniq; unfold Rsqr; lra). assert (Y : vy n = 0) by (apply Rsqr_0_uniq; unfold Rsqr; lra). assert (Z : vz n = 0) by (apply Rsqr_0_uniq; unfold Rsqr; lra).
    replace (det3 x y z w) with (vx n * (vx w - vx x) + vy n * (vy w - vy x) + vz n * (vz w - vz x)) by (unfold n, cross, vsub, det3; cbn [vx vy vz]; ring). rewrite X, Y, Z. ring. }
  assert (H : forall x y z w, det3 x y z w <> 0 -> triangle x y z).
  { intros x y z w D. apply triangle_n2. destruct (n2_nonneg x y z) as [L|L]; [exact L|]. exfalso. apply D, G. auto. }
  split; [apply (H b c d a)|split; [apply (H a c d b)|split; [apply (H a b d c)|apply (H a b c d T)]]]; intros Z; apply T; unfold det3 in *; lra.
Qed.
Lemma tetrahedron_total : forall p fa fb fc fd a b c d, tetrahedron a b c d ->
  circumcenter3 fa b c d -> circumcenter3 fb a c d -> circumcenter3 fc a b d -> circumcenter3 fd a b c ->
  let total := face_parts p fa b c d + face_parts p fb a c d + face_parts p fc a b d + face_parts p fd a b c in
  tet_volume a b c d <= total /\
  (total = tet_volume a b c d <-> inside4 p a b c d /\
     (det3 p b c d = 0 \/ nonobtuse b c d) /\ (det3 p a c d = 0 \/ nonobtuse a c d) /\ (det3 p a b d = 0 \/ nonobtuse a b d) /\ (det3 p a b c = 0 \/ nonobtuse a b c)).
Proof.
  intros p fa fb fc fd a b c d T Ca Cb Cc Cd total. destruct (tetrahedron_faces a b c d T) as (Ta & Tb & Tc & Td).
  unfold total. rewrite (face_total p fa b c d Ta Ca), (face_total p fb a c d Tb Cb), (face_total p fc a b d Tc Cc), (face_total p fd a b c Td Cd).
  destruct (face_weights _ _ _ Ta) as [La Ea], (face_weights _ _ _ Tb) as [Lb Eb], (face_weights _ _ _ Tc) as [Lc Ec], (face_weights _ _ _ Td) as [Ld Ed]. cbv zeta in *.
  set (sa := Rabs (wA b c d) + Rabs (wA c b d) + Rabs (wA d b c)) in *. set (sb := Rabs (wA a c d) + Rabs (wA c a d) + Rabs (wA d a c)) in *.
  set (sc := Rabs (wA a b d) + Rabs (wA b a d) + Rabs (wA d a b)) in *. set (sd := Rabs (wA a b c) + Rabs (wA b a c) + Rabs (wA c a b)) in *.
  destruct (abs4 _ _ _ _ sa sb sc sd (beta_one p a b c d T) La Lb Lc Ld) as [L E]. cbv zeta in L, E.
  rewrite (inside_beta p a b c d T). pose proof T as T'. unfold tetrahedron in T'.
  assert (PD : 0 < Rabs (det3 a b c d)) by (apply Rabs_pos_lt; exact T').
  assert (B1 : Rabs (det3 p b c d) = Rabs (beta p a b c d) * Rabs (det3 a b c d)) by (rewrite <- Rabs_mult; f_equal; unfold beta; field; exact T').
  assert (B2 : Rabs (det3 p a c d) = Rabs (beta p b a c d) * Rabs (det3 a b c d)).
  { replace (Rabs (det3 a b c d)) with (Rabs (det3 b a c d)) by (rewrite <- Rabs_Ropp; f_equal; unfold det3; ring). rewrite <- Rabs_mult. f_equal. unfold beta. field. intros Z. apply T'. unfold det3 in *. lra. }
  assert (B3 : Rabs (det3 p a b d) = Rabs (beta p c a b d) * Rabs (det3 a b c d)).
  { replace (det3 a b c d) with (det3 c a b d) by (unfold det3; ring). rewrite <- Rabs_mult. f_equal. unfold beta. field. intros Z. apply T'. unfold det3 in *. lra. }
  assert (B4 : Rabs (det3 p a b c) = Rabs (beta p d a b c) * Rabs (det3 a b c d)).
  { replace (Rabs (det3 a b c d)) with (Rabs (det3 d a b c)) by (rewrite <- Rabs_Ropp; f_equal; unfold det3; ring). rewrite <- Rabs_mult. f_equal. unfold beta. field. intros Z. apply T'. unfold det3 in *. lra. }
  assert (Z0 : forall x y, Rabs x = Rabs y * Rabs (det3 a b c d) -> (x = 0 <-> y = 0)).
  { intros x y H. split; intros ->; [|rewrite Rabs_R0, Rmult_0_l in H; destruct (Req_dec x 0) as [Y|Y]; [exact Y|exfalso; exact (Rabs_no_R0 _ Y H)]].
    rewrite Rabs_R0 in H. symmetry in H. apply Rmult_integral in H. destruct H as [H|H]; [|lra]. destruct (Req_dec y 0) as [Y|Y]; [exact Y|exfalso; exact (Rabs_no_R0 _ Y H)]. }
  rewrite (Z0 _ _ B1), (Z0 _ _ B2), (Z0 _ _ B3), (Z0 _ _ B4), <- Ea, <- Eb, <- Ec, <- Ed. rewrite <- E. rewrite B1, B2, B3, B4. unfold tet_volume.
  set (w := Rabs (beta p a b c d) * sa + Rabs (beta p b a c d) * sb + Rabs (beta p c a b d) * sc + Rabs (beta p d a b c) * sd) in *.
  set (D := Rabs (det3 a b c d)) in *.
  replace (Rabs (beta p a b c d) * D / 6 * sa + Rabs (beta p b a c d) * D / 6 * sb + Rabs (beta p c a b d) * D / 6 * sc + Rabs (beta p d a b c) * D / 6 * sd) with (D / 6 * w) by (unfold w; field).
  split; [nra|]. split; intros H; [nra|rewrite H; field].
Qed.
