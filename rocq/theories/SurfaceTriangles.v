From Coq Require Import List Arith Bool Lia Reals Lra Permutation.
From Verif Require Import Adjacency Geometry GeometrySpec Volume VolumeSpec VolumeGeom AssemblyProofs ContactProofs VolumeProofs VolumeMesh VectorGradient Surface SurfaceSpec SurfaceProofs.
Import ListNotations.
Open Scope R_scope.
Local Arguments Nat.ltb : simpl never.
Local Arguments Nat.leb : simpl never.
Local Arguments Nat.eqb : simpl never.

Section T.
Variable pos : list vec.
Definition pair_vec (c : vec) (t : list nat) (i j : nat) : vec :=
  vscale (1 / 4) (cross (vsub (at_pos pos t i) (at_pos pos t j)) (vsub (at_pos pos t i) c)).
Definition tri_contribs (c : vec) (t : list nat) : list contrib :=
  flat_map (fun p => [(nth (fst p) t 0%nat, magnitude (pair_vec c t (fst p) (snd p)), pair_vec c t (fst p) (snd p));
                      (nth (snd p) t 0%nat, magnitude (pair_vec c t (fst p) (snd p)), pair_vec c t (fst p) (snd p))]) [(0, 1); (0, 2); (1, 2)]%nat.
Lemma process_triangle_eq : forall c t s, process_triangle pos c t s = fold_left put1 (tri_contribs c t) s.
Proof. reflexivity. Qed.
Lemma pair_area_eq : forall a b c, magnitude (vscale (1 / 4) (cross (vsub a b) (vsub a c))) = tri_area a (midpoint a b) c /\
  magnitude (vscale (1 / 4) (cross (vsub a b) (vsub a c))) = tri_area b (midpoint b a) c.
Proof.
  intros a b c.
  assert (K : forall u v, magnitude u = magnitude v -> magnitude (vscale (1 / 4) u) = magnitude (vscale (/ 2) v) / 2).
  { intros u v H. rewrite !magnitude_scale, H. rewrite !Rabs_right by lra. field. }
  assert (N : forall u v, (u = v \/ u = vneg v) -> magnitude u = magnitude v).
  { intros u v [->| ->]; [reflexivity|]. unfold magnitude, vneg. cbn [vx vy vz]. f_equal. ring. }
  split; rewrite tri_area_mag.
  - replace (cross (vsub (midpoint a b) a) (vsub c a)) with (vscale (/ 2) (cross (vsub a b) (vsub a c))).
    + apply K. reflexivity.
    + unfold cross, vscale, vsub, midpoint. cbn [vx vy vz]. f_equal; field.
  - replace (cross (vsub (midpoint b a) b) (vsub c b)) with (vscale (/ 2) (vneg (cross (vsub a b) (vsub a c)))).
    + apply K. apply N. right. unfold vneg. cbn [vx vy vz]. unfold cross. cbn [vx vy vz]. f_equal; ring.
    + unfold cross, vscale, vsub, midpoint, vneg. cbn [vx vy vz]. f_equal; field.
Qed.
Lemma tri_contribs_area : forall c x y z n, x <> y -> x <> z -> y <> z ->
  rsum (fun k => if Nat.eqb n (c_node k) then c_area k else 0) (tri_contribs c [x; y; z]) = part2 pos c [x; y; z] n.
Proof.
  intros c x y z n XY XZ YZ. unfold tri_contribs. cbn [flat_map app fst snd rsum]. unfold c_node, c_area. cbn [fst snd nth]. unfold pair_vec, at_pos. cbn [nth].
  fold (P pos x) (P pos y) (P pos z).
  destruct (pair_area_eq (P pos x) (P pos y) c) as [A1 A2]. destruct (pair_area_eq (P pos x) (P pos z) c) as [B1 B2]. destruct (pair_area_eq (P pos y) (P pos z) c) as [C1 C2].
  unfold part2. destruct (in_dec Nat.eq_dec n [x; y; z]) as [I|I].
  - rewrite total_rsum. unfold others. cbn [In] in I. cbn [remove].
    destruct I as [<-|[<-|[<-|[]]]];
    repeat match goal with
    | |- context [Nat.eqb ?u ?v] => destruct (Nat.eqb_spec u v); try congruence
    | |- context [Nat.eq_dec ?u ?v] => destruct (Nat.eq_dec u v); try congruence
    end; cbn [rsum].
    + rewrite A1, B1. lra.
    + rewrite A2, C1. lra.
    + rewrite B2, C2. lra.
  - cbn [In] in I. repeat match goal with |- context [Nat.eqb ?u ?v] => destruct (Nat.eqb_spec u v); [exfalso; subst; tauto|] end. lra.
Qed.
(* the vectors are normal to the plane of the triangle *)
Lemma coplanar : forall d u v w, dot d w = 0 -> dot u w = 0 -> dot v w = 0 -> w <> mkvec 0 0 0 -> dot d (cross u v) = 0.
Proof.
  intros d u v [w1 w2 w3] D U V W. assert (Q : dot d (cross u v) * (w1 * w1 + w2 * w2 + w3 * w3) = 0).
  { transitivity (w1 * (dot d (mkvec w1 w2 w3) * vx (cross u v) + dot u (mkvec w1 w2 w3) * vx (cross v d) + dot v (mkvec w1 w2 w3) * vx (cross d u))
      + w2 * (dot d (mkvec w1 w2 w3) * vy (cross u v) + dot u (mkvec w1 w2 w3) * vy (cross v d) + dot v (mkvec w1 w2 w3) * vy (cross d u))
      + w3 * (dot d (mkvec w1 w2 w3) * vz (cross u v) + dot u (mkvec w1 w2 w3) * vz (cross v d) + dot v (mkvec w1 w2 w3) * vz (cross d u))).
    - unfold dot, cross. cbn [vx vy vz]. ring.
    - rewrite D, U, V. ring. }
  apply Rmult_integral in Q. destruct Q as [Q|Q]; [exact Q|]. exfalso. apply W. f_equal; nra.
Qed.
Lemma pair_vec_perp : forall c t i j d w a b g, dot d w = 0 -> w <> mkvec 0 0 0 ->
  c = comb3 a b g (at_pos pos t 0) (at_pos pos t 1) (at_pos pos t 2) -> a + b + g = 1 -> (i < 3)%nat -> (j < 3)%nat ->
  cosine_with w (at_pos pos t 0) (at_pos pos t 1) = 0 -> cosine_with w (at_pos pos t 0) (at_pos pos t 2) = 0 ->
  dot d (pair_vec c t i j) = 0.
Proof.
  intros c t i j d w a b g D W C S I J E1 E2. unfold pair_vec.
  transitivity (dot d (cross (vsub (at_pos pos t i) (at_pos pos t j)) (vsub (at_pos pos t i) c)) * (1 / 4)); [unfold dot, vscale; cbn [vx vy vz]; ring|].
  rewrite (coplanar d _ _ w); [ring|exact D| | |exact W].
  - unfold cosine_with in *. destruct i as [|[|[|]]]; [| | |lia]; destruct j as [|[|[|]]]; try lia; unfold dot, vsub; cbn [vx vy vz]; lra.
  - assert (I3 : at_pos pos t i = at_pos pos t 0 \/ at_pos pos t i = at_pos pos t 1 \/ at_pos pos t i = at_pos pos t 2) by (destruct i as [|[|[|]]]; [tauto|tauto|tauto|lia]).
    clear I. rename I3 into I. subst c. unfold cosine_with in *. replace g with (1 - a - b) by lra. unfold dot, vsub, comb3. cbn [vx vy vz].
    set (p := at_pos pos t 0) in *. set (q := at_pos pos t 1) in *. set (r := at_pos pos t 2) in *. clearbody p q r.
    assert (F1 : vx w * vx q + vy w * vy q + vz w * vz q = vx w * vx p + vy w * vy p + vz w * vz p) by lra.
    assert (F2 : vx w * vx r + vy w * vy r + vz w * vz r = vx w * vx p + vy w * vy p + vz w * vz p) by lra.
    assert (K : forall s, (vx s * vx w + vy s * vy w + vz s * vz w = vx w * vx p + vy w * vy p + vz w * vz p) ->
      (vx s - (a * vx p + b * vx q + (1 - a - b) * vx r)) * vx w + (vy s - (a * vy p + b * vy q + (1 - a - b) * vy r)) * vy w + (vz s - (a * vz p + b * vz q + (1 - a - b) * vz r)) * vz w = 0).
    { intros s H. transitivity ((vx s * vx w + vy s * vy w + vz s * vz w) - a * (vx w * vx p + vy w * vy p + vz w * vz p)
        - b * (vx w * vx q + vy w * vy q + vz w * vz q) - (1 - a - b) * (vx w * vx r + vy w * vy r + vz w * vz r)); [ring|]. rewrite H, F1, F2. ring. }
    destruct I as [->|[->| ->]]; apply K; lra.
Qed.
(* a corner of a triangle gets a positive area *)
Lemma corner_positive : forall a b c p, triangle a b c -> circumcenter3 p a b c -> 0 < tri_area a (midpoint a b) p \/ 0 < tri_area a (midpoint a c) p.
Proof.
  intros a b c p T C. pose proof (circumcenter_weights p a b c T C) as W. destruct C as (D1 & D2 & s & t & u & S & E).
  assert (ZA : forall q, tri_area a (midpoint a q) p = magnitude (cross (vsub a q) (vsub a p)) / 4).
  { intros q. destruct (pair_area_eq a q p) as [H _]. rewrite <- H, magnitude_scale, Rabs_right by lra. field. }
  rewrite !ZA.
  assert (X1 : cross (vsub a b) (vsub a p) = vscale u (cross (vsub a b) (vsub a c))).
  { subst p. replace s with (1 - t - u) by lra. unfold cross, vsub, comb3, vscale. cbn [vx vy vz]. f_equal; ring. }
  assert (X2 : cross (vsub a c) (vsub a p) = vscale (- t) (cross (vsub a b) (vsub a c))).
  { subst p. replace s with (1 - t - u) by lra. unfold cross, vsub, comb3, vscale. cbn [vx vy vz]. f_equal; ring. }
  rewrite X1, X2, !magnitude_scale. assert (A : 0 < magnitude (cross (vsub a b) (vsub a c))).
  { unfold triangle in T. rewrite tri_area_mag in T. replace (cross (vsub a b) (vsub a c)) with (cross (vsub b a) (vsub c a)); [lra|].
    unfold cross, vsub. cbn [vx vy vz]. f_equal; ring. }
  destruct (Req_dec u 0) as [U|U].
  - right. destruct (Req_dec t 0) as [V|V].
    + exfalso. assert (PA : p = a). { rewrite E, U, V. replace s with 1 by lra. unfold comb3. destruct a as [a1 a2 a3]. cbn [vx vy vz]. f_equal; ring. }
      rewrite PA in D1. destruct (dist_pos a b c T) as (_ & _ & H). assert (Z : dist a a = 0).
      { unfold dist. replace ((vx a - vx a) ^ 2 + (vy a - vy a) ^ 2 + (vz a - vz a) ^ 2) with 0 by ring. apply sqrt_0. }
      lra.
    + assert (0 < Rabs (- t)) by (apply Rabs_pos_lt; lra). nra.
  - left. assert (0 < Rabs u) by (apply Rabs_pos_lt; lra). nra.
Qed.
Lemma part2_total3 : forall p x y z N, x <> y -> x <> z -> y <> z -> (x < N)%nat -> (y < N)%nat -> (z < N)%nat ->
  rsum (part2 pos p [x; y; z]) (seq 0 N) =
  tri_area (P pos y) (midpoint (P pos y) (P pos z)) p + tri_area (P pos z) (midpoint (P pos z) (P pos y)) p
   + (tri_area (P pos x) (midpoint (P pos x) (P pos z)) p + tri_area (P pos z) (midpoint (P pos z) (P pos x)) p)
   + (tri_area (P pos x) (midpoint (P pos x) (P pos y)) p + tri_area (P pos y) (midpoint (P pos y) (P pos x)) p).
Proof.
  intros p x y z N XY XZ YZ XN YN ZN. rewrite (rsum_on _ [x; y; z] N).
  - cbn [rsum]. unfold part2, others. rewrite !total_rsum.
    destruct (in_dec Nat.eq_dec x [x; y; z]) as [_|K]; [|exfalso; apply K; cbn; tauto]. destruct (in_dec Nat.eq_dec y [x; y; z]) as [_|K]; [|exfalso; apply K; cbn; tauto].
    destruct (in_dec Nat.eq_dec z [x; y; z]) as [_|K]; [|exfalso; apply K; cbn; tauto]. cbn [remove].
    repeat match goal with |- context [Nat.eq_dec ?u ?v] => destruct (Nat.eq_dec u v); try congruence end. cbn [rsum]. lra.
  - repeat constructor; cbn; intuition congruence.
  - cbn [In]. intros n [<-|[<-|[<-|[]]]]; assumption.
  - apply part2_out.
Qed.
End T.
