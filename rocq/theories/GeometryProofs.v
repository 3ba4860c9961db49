From Coq Require Import Reals Lra Psatz.
From Verif Require Import Geometry GeometrySpec.
Open Scope R_scope.

Definition n2 (a b c : vec) : R := let n := cross (vsub b a) (vsub c a) in dot n n.
Lemma dist_sq : forall a b, dist a b ^ 2 = (vx a - vx b) ^ 2 + (vy a - vy b) ^ 2 + (vz a - vz b) ^ 2.
Proof. intros a b. unfold dist. rewrite <- Rsqr_pow2, Rsqr_sqrt; [reflexivity|]. repeat apply Rplus_le_le_0_compat; apply pow2_ge_0. Qed.
Lemma dist_nonneg : forall a b, 0 <= dist a b.
Proof. intros. apply sqrt_pos. Qed.
Lemma dist_eq : forall a b c d, dist a b ^ 2 = dist c d ^ 2 -> dist a b = dist c d.
Proof. intros a b c d H. apply Rsqr_inj; try apply dist_nonneg. rewrite !Rsqr_pow2. exact H. Qed.
Lemma n2_nonneg : forall a b c, 0 <= n2 a b c.
Proof. intros. unfold n2, dot. cbv zeta. repeat apply Rplus_le_le_0_compat; apply Rle_0_sqr. Qed.
Lemma tri_area_n2 : forall a b c, tri_area a b c = sqrt (n2 a b c) / 2.
Proof.
  intros. unfold tri_area. f_equal. f_equal. rewrite !dist_sq. unfold cosine, n2, dot, cross, vsub. cbn [vx vy vz]. ring.
Qed.
Lemma triangle_n2 : forall a b c, triangle a b c <-> 0 < n2 a b c.
Proof.
  intros. unfold triangle. rewrite tri_area_n2. pose proof (n2_nonneg a b c) as N. pose proof (sqrt_pos (n2 a b c)) as S. split; intros H.
  - destruct N as [N|N]; [exact N|]. rewrite <- N, sqrt_0 in H. lra.
  - pose proof (sqrt_lt_R0 _ H). lra.
Qed.
(* the centre as a combination of the corners *)
Definition wA (a b c : vec) : R := dist b c ^ 2 * cosine a b c / (2 * n2 a b c).
Lemma center3d_comb : forall a b c, 0 < n2 a b c -> center3d a b c = comb3 (wA a b c) (wA b a c) (wA c a b) a b c.
Proof.
  intros a b c H. unfold wA. replace (n2 b a c) with (n2 a b c) by (unfold n2, dot, cross, vsub; cbn [vx vy vz]; ring).
  replace (n2 c a b) with (n2 a b c) by (unfold n2, dot, cross, vsub; cbn [vx vy vz]; ring). rewrite !dist_sq. unfold center3d. cbv zeta.
  replace (dot (cross (vsub a b) (vsub b c)) (cross (vsub a b) (vsub b c))) with (n2 a b c) by (unfold n2, dot, cross, vsub; cbn [vx vy vz]; ring).
  set (N := n2 a b c) in *. unfold comb3, vadd, vscale, dot, cosine, vneg, vsub. cbn [vx vy vz]. f_equal; field; lra.
Qed.
Lemma weights_one : forall a b c, 0 < n2 a b c -> wA a b c + wA b a c + wA c a b = 1.
Proof.
  intros a b c H. unfold wA. replace (n2 b a c) with (n2 a b c) by (unfold n2, dot, cross, vsub; cbn [vx vy vz]; ring).
  replace (n2 c a b) with (n2 a b c) by (unfold n2, dot, cross, vsub; cbn [vx vy vz]; ring).
  apply Rmult_eq_reg_r with (2 * n2 a b c); [|lra]. field_simplify; [|lra]. rewrite !dist_sq. unfold n2, cosine, dot, cross, vsub. cbn [vx vy vz]. ring.
Qed.
Lemma comb3_translate : forall s t u a b c, s + t + u = 1 ->
  comb3 s t u a b c = mkvec (vx a + t * (vx b - vx a) + u * (vx c - vx a)) (vy a + t * (vy b - vy a) + u * (vy c - vy a)) (vz a + t * (vz b - vz a) + u * (vz c - vz a)).
Proof. intros s t u a b c H. assert (s = 1 - t - u) by lra. subst s. unfold comb3. f_equal; ring. Qed.
(* equal distances *)
Lemma equi_iff : forall p a b, dist p a ^ 2 = dist p b ^ 2 <-> 2 * cosine a p b = dist a b ^ 2.
Proof. intros. rewrite !dist_sq. unfold cosine. split; intros; lra. Qed.
Lemma center3d_equi : forall a b c, 0 < n2 a b c -> circumcenter3 (center3d a b c) a b c.
Proof.
  intros a b c H. rewrite (center3d_comb a b c H). pose proof (weights_one a b c H) as W.
  assert (E : forall b' c', (b' = b /\ c' = c) -> True) by auto.
  assert (Nb : n2 b a c = n2 a b c) by (unfold n2, dot, cross, vsub; cbn [vx vy vz]; ring).
  assert (Nc : n2 c a b = n2 a b c) by (unfold n2, dot, cross, vsub; cbn [vx vy vz]; ring).
  split; [|split; [|exists (wA a b c), (wA b a c), (wA c a b); split; [exact W|reflexivity]]].
  - apply dist_eq, equi_iff. rewrite (comb3_translate _ _ _ _ _ _ W). unfold wA. rewrite Nb, Nc.
    assert (X : forall q, 2 * cosine a q b * n2 a b c = dist a b ^ 2 * n2 a b c -> 2 * cosine a q b = dist a b ^ 2).
    { intros q Hq. apply Rmult_eq_reg_r with (n2 a b c); lra. }
    apply X. clear X. rewrite !dist_sq. set (N := n2 a b c) in *. unfold cosine. cbn [vx vy vz]. field_simplify; [|lra]. unfold N, n2, dot, cross, vsub. cbn [vx vy vz]. field.
  - apply dist_eq, equi_iff. rewrite (comb3_translate _ _ _ _ _ _ W). unfold wA. rewrite Nb, Nc.
    assert (X : forall q, 2 * cosine a q c * n2 a b c = dist a c ^ 2 * n2 a b c -> 2 * cosine a q c = dist a c ^ 2).
    { intros q Hq. apply Rmult_eq_reg_r with (n2 a b c); lra. }
    apply X. clear X. rewrite !dist_sq. set (N := n2 a b c) in *. unfold cosine. cbn [vx vy vz]. field_simplify; [|lra]. unfold N, n2, dot, cross, vsub. cbn [vx vy vz]. field.
Qed.
(* there is only one *)
Lemma circumcenter3_unique : forall p q a b c, 0 < n2 a b c -> circumcenter3 p a b c -> circumcenter3 q a b c -> p = q.
Proof.
  intros p q a b c H (P1 & P2 & s & t & u & W & EP) (Q1 & Q2 & s' & t' & u' & W' & EQ).
  assert (A1 := proj1 (equi_iff p a b) ltac:(rewrite P1; reflexivity)). assert (A2 := proj1 (equi_iff p a c) ltac:(rewrite P2; reflexivity)).
  assert (B1 := proj1 (equi_iff q a b) ltac:(rewrite Q1; reflexivity)). assert (B2 := proj1 (equi_iff q a c) ltac:(rewrite Q2; reflexivity)).
  rewrite (comb3_translate _ _ _ _ _ _ W) in EP. rewrite (comb3_translate _ _ _ _ _ _ W') in EQ.
  assert (T : t = t' /\ u = u').
  { set (bx := vx b - vx a) in *. set (by_ := vy b - vy a) in *. set (bz := vz b - vz a) in *. set (cx := vx c - vx a) in *. set (cy := vy c - vy a) in *. set (cz := vz c - vz a) in *.
    assert (C1 : cosine a p b = cosine a q b) by lra. assert (C2 : cosine a p c = cosine a q c) by lra.
    rewrite EP, EQ in C1, C2. unfold cosine in C1, C2. cbn [vx vy vz] in C1, C2. fold bx by_ bz cx cy cz in C1, C2.
    set (BB := bx * bx + by_ * by_ + bz * bz). set (BC := bx * cx + by_ * cy + bz * cz). set (CC := cx * cx + cy * cy + cz * cz).
    assert (E1 : (t - t') * BB + (u - u') * BC = 0) by (unfold BB, BC; lra).
    assert (E2 : (t - t') * BC + (u - u') * CC = 0) by (unfold CC, BC; lra).
    assert (D : n2 a b c = BB * CC - BC * BC) by (unfold n2, dot, cross, vsub, BB, CC, BC, bx, by_, bz, cx, cy, cz; cbn [vx vy vz]; ring).
    rewrite D in H. split.
    - assert ((t - t') * (BB * CC - BC * BC) = 0) by (replace ((t - t') * (BB * CC - BC * BC)) with (((t - t') * BB + (u - u') * BC) * CC - ((t - t') * BC + (u - u') * CC) * BC) by ring; rewrite E1, E2; ring).
      apply Rmult_integral in H0. destruct H0; lra.
    - assert ((u - u') * (BB * CC - BC * BC) = 0) by (replace ((u - u') * (BB * CC - BC * BC)) with (((t - t') * BC + (u - u') * CC) * BB - ((t - t') * BB + (u - u') * BC) * BC) by ring; rewrite E1, E2; ring).
      apply Rmult_integral in H0. destruct H0; lra. }
  destruct T as [-> ->]. rewrite EP, EQ. reflexivity.
Qed.
Definition far (eps x y : R) : Prop := x = y \/ eps <= Rabs (x - y).
Lemma far_small : forall eps x y, far eps x y -> Rabs (x - y) < eps -> x = y.
Proof. intros eps x y [E|E] H; [exact E|lra]. Qed.
Lemma in_plane_ok : forall eps x0 x1 x2 y0 y1 y2, 0 < eps ->
  (x1 - x0) * (y2 - y0) - (x2 - x0) * (y1 - y0) <> 0 -> far eps y1 y0 -> far eps y2 y1 ->
  let p := center_in_plane eps x0 x1 x2 y0 y1 y2 in
  (fst p - x0) ^ 2 + (snd p - y0) ^ 2 = (fst p - x1) ^ 2 + (snd p - y1) ^ 2 /\
  (fst p - x0) ^ 2 + (snd p - y0) ^ 2 = (fst p - x2) ^ 2 + (snd p - y2) ^ 2.
Proof.
  intros eps x0 x1 x2 y0 y1 y2 He D F1 F2. unfold center_in_plane.
  destruct (Rlt_dec (Rabs (y1 - y0)) eps) as [L|L].
  - apply (far_small _ _ _ F1) in L. subst y1. cbn [fst snd]. assert (N : y2 - y0 <> 0) by (intros Z; apply D; rewrite Z; ring).
    cbv zeta. split; field; exact N.
  - assert (N0 : y1 - y0 <> 0) by (intros Z; apply L; rewrite Z, Rabs_R0; exact He).
    destruct (Rlt_dec (Rabs (y2 - y1)) eps) as [M|M].
    + apply (far_small _ _ _ F2) in M. subst y2. cbn [fst snd]. cbv zeta. split; field; exact N0.
    + assert (N1 : y2 - y1 <> 0) by (intros Z; apply M; rewrite Z, Rabs_R0; exact He). cbv zeta. cbn [fst snd].
      assert (N2 : - (x1 - x0) * (y2 - y1) - (- (x2 - x1)) * (y1 - y0) <> 0) by (intros Z; apply D; lra).
      split; field; repeat split; auto; intros Z; apply N2; lra.
Qed.
(* any point of the plane is a combination *)
Lemma plane_comb : forall x0 x1 x2 y0 y1 y2 x y, (x1 - x0) * (y2 - y0) - (x2 - x0) * (y1 - y0) <> 0 ->
  exists s t u, s + t + u = 1 /\ x = s * x0 + t * x1 + u * x2 /\ y = s * y0 + t * y1 + u * y2.
Proof.
  intros x0 x1 x2 y0 y1 y2 x y D. set (d := (x1 - x0) * (y2 - y0) - (x2 - x0) * (y1 - y0)) in *.
  set (t := ((x - x0) * (y2 - y0) - (x2 - x0) * (y - y0)) / d). set (u := ((x1 - x0) * (y - y0) - (x - x0) * (y1 - y0)) / d).
  exists (1 - t - u), t, u. split; [ring|]. unfold t, u, d. split; field; exact D.
Qed.
Lemma triangle_center_ok : forall eps a b c, 0 < eps -> triangle a b c -> separated eps a b -> separated eps a c -> separated eps b c ->
  circumcenter3 (triangle_center eps a b c) a b c.
Proof.
  intros eps a b c He T S1 S2 S3. apply triangle_n2 in T.
  assert (sym : forall x y, far eps x y -> far eps y x) by (intros x y [E|E]; [left; auto|right; rewrite Rabs_minus_sym; exact E]).
  destruct S1 as (X1 & Y1 & Z1), S2 as (X2 & Y2 & Z2), S3 as (X3 & Y3 & Z3).
  apply sym in X1, Y1, Z1, X2, Y2, Z2, X3, Y3, Z3. unfold triangle_center. cbv zeta. unfold vsub. cbn [vx vy vz].
  assert (N : n2 a b c = ((vy b - vy a) * (vz c - vz a) - (vz b - vz a) * (vy c - vy a)) ^ 2 + ((vz b - vz a) * (vx c - vx a) - (vx b - vx a) * (vz c - vz a)) ^ 2 + ((vx b - vx a) * (vy c - vy a) - (vy b - vy a) * (vx c - vx a)) ^ 2)
    by (unfold n2, dot, cross, vsub; cbn [vx vy vz]; ring).
  assert (G : forall x y z, (x - vx a) ^ 2 + (y - vy a) ^ 2 + (z - vz a) ^ 2 = (x - vx b) ^ 2 + (y - vy b) ^ 2 + (z - vz b) ^ 2 ->
    (x - vx a) ^ 2 + (y - vy a) ^ 2 + (z - vz a) ^ 2 = (x - vx c) ^ 2 + (y - vy c) ^ 2 + (z - vz c) ^ 2 ->
    (exists s t u, s + t + u = 1 /\ mkvec x y z = comb3 s t u a b c) -> circumcenter3 (mkvec x y z) a b c).
  { intros x y z A B C. split; [apply dist_eq; rewrite !dist_sq; exact A|]. split; [apply dist_eq; rewrite !dist_sq; exact B|exact C]. }
  assert (FL : forall d10 d20, (if Rlt_dec (Rabs d10) eps then if Rlt_dec (Rabs d20) eps then true else false else false) = true -> Rabs d10 < eps /\ Rabs d20 < eps).
  { intros d10 d20. destruct (Rlt_dec (Rabs d10) eps); [|discriminate]. destruct (Rlt_dec (Rabs d20) eps); [auto|discriminate]. }
  destruct (if Rlt_dec (Rabs (vz b - vz a)) eps then if Rlt_dec (Rabs (vz c - vz a)) eps then true else false else false) eqn:E1.
  { apply FL in E1. destruct E1 as [A B]. apply (far_small _ _ _ Z1) in A. apply (far_small _ _ _ Z2) in B.
    assert (D : (vx b - vx a) * (vy c - vy a) - (vx c - vx a) * (vy b - vy a) <> 0) by (intros Z; rewrite N, A, B in T; replace ((vx b - vx a) * (vy c - vy a) - (vy b - vy a) * (vx c - vx a)) with 0 in T by lra; replace (vz a - vz a) with 0 in T by ring; ring_simplify in T; lra).
    destruct (in_plane_ok eps (vx a) (vx b) (vx c) (vy a) (vy b) (vy c) He D Y1 Y3) as [I1 I2].
    set (p := center_in_plane eps (vx a) (vx b) (vx c) (vy a) (vy b) (vy c)) in *. apply G; [rewrite A; lra|rewrite B; lra|].
    destruct (plane_comb _ _ _ _ _ _ (fst p) (snd p) D) as (s & t & u & W & EX & EY). exists s, t, u. split; [exact W|]. unfold comb3. f_equal; [exact EX|exact EY|rewrite A, B].
    replace (s * vz a + t * vz a + u * vz a) with ((s + t + u) * vz a) by ring. rewrite W. ring. }
  destruct (if Rlt_dec (Rabs (vy b - vy a)) eps then if Rlt_dec (Rabs (vy c - vy a)) eps then true else false else false) eqn:E2.
  { apply FL in E2. destruct E2 as [A B]. apply (far_small _ _ _ Y1) in A. apply (far_small _ _ _ Y2) in B.
    assert (D : (vx b - vx a) * (vz c - vz a) - (vx c - vx a) * (vz b - vz a) <> 0) by (intros Z; rewrite N, A, B in T; replace ((vz b - vz a) * (vx c - vx a) - (vx b - vx a) * (vz c - vz a)) with 0 in T by lra; replace (vy a - vy a) with 0 in T by ring; ring_simplify in T; lra).
    destruct (in_plane_ok eps (vx a) (vx b) (vx c) (vz a) (vz b) (vz c) He D Z1 Z3) as [I1 I2].
    set (p := center_in_plane eps (vx a) (vx b) (vx c) (vz a) (vz b) (vz c)) in *. apply G; [rewrite A; lra|rewrite B; lra|].
    destruct (plane_comb _ _ _ _ _ _ (fst p) (snd p) D) as (s & t & u & W & EX & EY). exists s, t, u. split; [exact W|]. unfold comb3. f_equal; [exact EX|rewrite A, B|exact EY].
    replace (s * vy a + t * vy a + u * vy a) with ((s + t + u) * vy a) by ring. rewrite W. ring. }
  destruct (if Rlt_dec (Rabs (vx b - vx a)) eps then if Rlt_dec (Rabs (vx c - vx a)) eps then true else false else false) eqn:E3.
  { apply FL in E3. destruct E3 as [A B]. apply (far_small _ _ _ X1) in A. apply (far_small _ _ _ X2) in B.
    assert (D : (vz b - vz a) * (vy c - vy a) - (vz c - vz a) * (vy b - vy a) <> 0) by (intros Z; rewrite N, A, B in T; replace ((vy b - vy a) * (vz c - vz a) - (vz b - vz a) * (vy c - vy a)) with 0 in T by lra; replace (vx a - vx a) with 0 in T by ring; ring_simplify in T; lra).
    destruct (in_plane_ok eps (vz a) (vz b) (vz c) (vy a) (vy b) (vy c) He D Y1 Y3) as [I1 I2].
    set (p := center_in_plane eps (vz a) (vz b) (vz c) (vy a) (vy b) (vy c)) in *. apply G; [rewrite A; lra|rewrite B; lra|].
    destruct (plane_comb _ _ _ _ _ _ (fst p) (snd p) D) as (s & t & u & W & EX & EY). exists s, t, u. split; [exact W|]. unfold comb3. f_equal; [rewrite A, B|exact EY|exact EX].
    replace (s * vx a + t * vx a + u * vx a) with ((s + t + u) * vx a) by ring. rewrite W. ring. }
  apply center3d_equi. exact T.
Qed.
Lemma triangle_center_comb : forall eps a b c, 0 < eps -> triangle a b c -> separated eps a b -> separated eps a c -> separated eps b c ->
  triangle_center eps a b c = comb3 (wA a b c) (wA b a c) (wA c a b) a b c.
Proof.
  intros eps a b c He T S1 S2 S3. pose proof (proj1 (triangle_n2 a b c) T) as N. rewrite <- center3d_comb by exact N.
  apply (circumcenter3_unique _ _ a b c N); [apply triangle_center_ok; assumption|apply center3d_equi; exact N].
Qed.
(* tetrahedra *)
Lemma tet_center_ok : forall (solve : vec -> vec -> vec -> vec -> option vec) a b c d p,
  (forall r1 r2 r3 y x, solve r1 r2 r3 y = Some x -> dot r1 x = vx y /\ dot r2 x = vy y /\ dot r3 x = vz y) ->
  tetrahedron_center solve a b c d = Some p -> circumcenter4 p a b c d.
Proof.
  intros solve a b c d p H E. unfold tetrahedron_center in E. cbv zeta in E.
  destruct (solve _ _ _ _) as [x|] eqn:S; [|discriminate]. injection E as E. apply H in S. cbn [vx vy vz] in S. destruct S as (A & B & C).
  assert (K : forall q, dot (vsub q a) x = / 2 * dot (vsub q a) (vsub q a) -> dist p a = dist p q).
  { intros q K. apply dist_eq, equi_iff. rewrite dist_sq, <- E. unfold dot, vsub, vadd, cosine in *. cbn [vx vy vz] in *. nra. }
  repeat split; apply K; assumption.
Qed.
