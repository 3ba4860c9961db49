(* The fields of ElementField.v as linear functions of the edge data of one triangle. *)
From Coq Require Import List Bool Arith Lia Reals Lra Permutation.
From Verif Require Import Adjacency Geometry GeometrySpec Volume VolumeSpec VectorGradient VectorGradientSpec ElementField ElementFieldSpec ElementFieldProofs.
Import ListNotations.
Open Scope R_scope.
Local Arguments Nat.ltb : simpl never.
Local Arguments Nat.leb : simpl never.

Definition xd (r s : vec) : R := vx r * vy s - vy r * vx s.
Definition cr2 (r s : vec) (b c : R) : vec := mkvec ((b * vy s - c * vy r) / xd r s) ((vx r * c - vx s * b) / xd r s) 0.
Lemma solver2_cr : forall solve2 r s b c, solver2 solve2 -> xd r s <> 0 ->
  exists x, solve2 (vx r, vy r) (vx s, vy s) (b, c) = Some x /\ mkvec (fst x) (snd x) 0 = cr2 r s b c.
Proof.
  intros solve2 r s b c [S T] D. destruct (solve2 (vx r, vy r) (vx s, vy s) (b, c)) as [x|] eqn:E.
  - exists x. split; [reflexivity|]. apply S in E. cbn [fst snd] in E. destruct E as [A B]. unfold cr2. rewrite <- A, <- B. unfold xd in *. f_equal; field; exact D.
  - exfalso. exact (T (vx r, vy r) (vx s, vy s) (b, c) D E).
Qed.
Lemma mag_dist : forall a b, magnitude (vsub a b) = dist a b.
Proof. intros. unfold magnitude, dist, dot, vsub. cbn [vx vy vz]. f_equal. ring. Qed.
Lemma dist_sym : forall a b, dist a b = dist b a.
Proof. intros. unfold dist. f_equal. ring. Qed.
Lemma dist_pos : forall a b, vx a <> vx b \/ vy a <> vy b -> 0 < dist a b.
Proof.
  intros a b H. unfold dist. apply sqrt_lt_R0. pose proof (pow2_ge_0 (vz a - vz b)). destruct H as [H|H].
  - pose proof (Rsqr_pos_lt (vx a - vx b) ltac:(lra)) as Q. unfold Rsqr in Q. pose proof (pow2_ge_0 (vy a - vy b)). nra.
  - pose proof (Rsqr_pos_lt (vy a - vy b) ltac:(lra)) as Q. unfold Rsqr in Q. pose proof (pow2_ge_0 (vx a - vx b)). nra.
Qed.
Lemma unit_eq : forall pos u v, unit_vec pos [u; v] = mkvec ((vx (P pos v) - vx (P pos u)) / dist (P pos u) (P pos v)) ((vy (P pos v) - vy (P pos u)) / dist (P pos u) (P pos v)) ((vz (P pos v) - vz (P pos u)) / dist (P pos u) (P pos v)).
Proof.
  intros. unfold unit_vec. cbv zeta. change (at_pos pos [u; v] 1) with (P pos v). change (at_pos pos [u; v] 0) with (P pos u). rewrite mag_dist, dist_sym.
  unfold vscale, vsub. cbn [vx vy vz]. unfold Rdiv. f_equal; ring.
Qed.
(* the determinant of two sides of a triangle *)
Definition tdet (p q r : vec) : R := (vx q - vx p) * (vy r - vy p) - (vx r - vx p) * (vy q - vy p).
Lemma tdet_apart : forall p q r, tdet p q r <> 0 -> (vx p <> vx q \/ vy p <> vy q) /\ (vx p <> vx r \/ vy p <> vy r) /\ (vx q <> vx r \/ vy q <> vy r).
Proof.
  intros p q r H. unfold tdet in H. repeat split.
  - destruct (Req_EM_T (vx p) (vx q)) as [E|E]; [|left; exact E]. right. intros F. apply H. rewrite E, F. ring.
  - destruct (Req_EM_T (vx p) (vx r)) as [E|E]; [|left; exact E]. right. intros F. apply H. rewrite E, F. ring.
  - destruct (Req_EM_T (vx q) (vx r)) as [E|E]; [|left; exact E]. right. intros F. apply H. rewrite E, F. ring.
Qed.

Section T.
Variable solve2 : v2 -> v2 -> v2 -> option v2.
Hypothesis SV : solver2 solve2.
Variable pos : list vec.
(* as in a region: the edges of the triangle [x; y; z] *)
Variables x y z : nat.
Hypothesis D : tdet (P pos x) (P pos y) (P pos z) <> 0.
Notation el := [[y; z]; [x; z]; [x; y]].
Definition ue (i : nat) : vec := unit_vec pos (nth i el []).
Definition cv (b0 b1 b2 : R) (mi : nat) : vec :=
  match mi with 0%nat => cr2 (ue 0) (ue 1) b0 b1 | 1%nat => cr2 (ue 0) (ue 2) b0 b2 | _ => cr2 (ue 1) (ue 2) b1 b2 end.
Lemma dp : 0 < dist (P pos y) (P pos z) /\ 0 < dist (P pos x) (P pos z) /\ 0 < dist (P pos x) (P pos y).
Proof. destruct (tdet_apart _ _ _ D) as (A & B & C). repeat split; apply dist_pos; assumption. Qed.
Lemma xds : xd (ue 0) (ue 1) <> 0 /\ xd (ue 0) (ue 2) <> 0 /\ xd (ue 1) (ue 2) <> 0.
Proof.
  destruct dp as (A & B & C). unfold ue. cbn [nth]. rewrite !unit_eq. unfold xd. cbn [vx vy].
  set (dyz := dist (P pos y) (P pos z)) in *. set (dxz := dist (P pos x) (P pos z)) in *. set (dxy := dist (P pos x) (P pos y)) in *.
  unfold tdet in D. repeat split; intros Q; apply D.
  - assert (Q' : ((vx (P pos z) - vx (P pos y)) * (vy (P pos z) - vy (P pos x)) - (vy (P pos z) - vy (P pos y)) * (vx (P pos z) - vx (P pos x))) / (dyz * dxz) = 0) by (rewrite <- Q; field; lra).
    apply (Rmult_eq_compat_r (dyz * dxz)) in Q'. unfold Rdiv in Q'. rewrite Rmult_assoc, Rinv_l, Rmult_1_r, Rmult_0_l in Q' by (apply Rmult_integral_contrapositive; lra). lra.
  - assert (Q' : ((vx (P pos z) - vx (P pos y)) * (vy (P pos y) - vy (P pos x)) - (vy (P pos z) - vy (P pos y)) * (vx (P pos y) - vx (P pos x))) / (dyz * dxy) = 0) by (rewrite <- Q; field; lra).
    apply (Rmult_eq_compat_r (dyz * dxy)) in Q'. unfold Rdiv in Q'. rewrite Rmult_assoc, Rinv_l, Rmult_1_r, Rmult_0_l in Q' by (apply Rmult_integral_contrapositive; lra). lra.
  - assert (Q' : ((vx (P pos z) - vx (P pos x)) * (vy (P pos y) - vy (P pos x)) - (vy (P pos z) - vy (P pos x)) * (vx (P pos y) - vx (P pos x))) / (dxz * dxy) = 0) by (rewrite <- Q; field; lra).
    apply (Rmult_eq_compat_r (dxz * dxy)) in Q'. unfold Rdiv in Q'. rewrite Rmult_assoc, Rinv_l, Rmult_1_r, Rmult_0_l in Q' by (apply Rmult_integral_contrapositive; lra). lra.
Qed.
Lemma pair_ok : forall b0 b1 b2 mi, (mi < 3)%nat -> pair_vector solve2 pos el [b0; b1; b2] mi = Some (cv b0 b1 b2 mi).
Proof.
  intros b0 b1 b2 mi H. destruct xds as (A & B & C). destruct mi as [|[|[|mi]]]; [| | |lia]; unfold pair_vector, el_; cbn [nth row0 row1 nth_error]; cbv zeta.
  - destruct (solver2_cr solve2 (ue 0) (ue 1) b0 b1 SV A) as (s & E & G). unfold ue in E. cbn [nth] in E. rewrite E, G. reflexivity.
  - destruct (solver2_cr solve2 (ue 0) (ue 2) b0 b2 SV B) as (s & E & G). unfold ue in E. cbn [nth] in E. rewrite E, G. reflexivity.
  - destruct (solver2_cr solve2 (ue 1) (ue 2) b1 b2 SV C) as (s & E & G). unfold ue in E. cbn [nth] in E. rewrite E, G. reflexivity.
Qed.
Notation t := [x; y; z].
Definition nd3 (d0 d1 : list R) (n k : nat) : R := if Nat.eqb (hd_ (nth k el [])) n then nth k d0 0 else if Nat.eqb (tl_ (nth k el [])) n then nth k d1 0 else 0.
Lemma dpair_ok : forall d0 d1 ni mi, length d0 = 3%nat -> length d1 = 3%nat -> (ni < 3)%nat -> (mi < 3)%nat ->
  dpair_vector solve2 pos t el d0 d1 ni mi = Some (let n := nth ni t 0%nat in cv (nd3 d0 d1 n 0) (nd3 d0 d1 n 1) (nd3 d0 d1 n 2) mi).
Proof.
  intros d0 d1 ni mi L0 L1 Hn Hm. cbv zeta. unfold dpair_vector. rewrite (nth_error_nth' t 0%nat) by exact Hn. cbn [bind]. set (n := nth ni t 0%nat). clearbody n.
  assert (ND : forall k, (k < 3)%nat -> node_derivative el d0 d1 n k = Some (nd3 d0 d1 n k)).
  { intros k Hk. unfold node_derivative, nd3, el_. rewrite (nth_error_nth' (A := simplex) el []) by exact Hk. fold simplex.
    destruct (Nat.eqb (hd_ _) n); [apply nth_error_nth'; lia|]. destruct (Nat.eqb (tl_ _) n); [apply nth_error_nth'; lia|reflexivity]. }
  rewrite !ND by (destruct mi as [|[|[|mi]]]; cbn; lia).
  destruct xds as (A & B & C). destruct mi as [|[|[|mi]]]; [| | |lia]; unfold el_; cbn [nth row0 row1 nth_error]; cbv zeta.
  - destruct (solver2_cr solve2 (ue 0) (ue 1) (nd3 d0 d1 n 0) (nd3 d0 d1 n 1) SV A) as (s & E & G). unfold ue in E. cbn [nth] in E. rewrite E, G. reflexivity.
  - destruct (solver2_cr solve2 (ue 0) (ue 2) (nd3 d0 d1 n 0) (nd3 d0 d1 n 2) SV B) as (s & E & G). unfold ue in E. cbn [nth] in E. rewrite E, G. reflexivity.
  - destruct (solver2_cr solve2 (ue 1) (ue 2) (nd3 d0 d1 n 1) (nd3 d0 d1 n 2) SV C) as (s & E & G). unfold ue in E. cbn [nth] in E. rewrite E, G. reflexivity.
Qed.
(* the vectors have the given components *)
Lemma cr2_rows : forall r s b c, xd r s <> 0 -> vx r * vx (cr2 r s b c) + vy r * vy (cr2 r s b c) = b /\ vx s * vx (cr2 r s b c) + vy s * vy (cr2 r s b c) = c.
Proof. intros r s b c H. unfold cr2. cbn [vx vy]. unfold xd in *. split; field; exact H. Qed.
Lemma cr2_unique : forall r s b c F, xd r s <> 0 -> vx r * vx F + vy r * vy F = b -> vx s * vx F + vy s * vy F = c -> cr2 r s b c = mkvec (vx F) (vy F) 0.
Proof. intros r s b c F H <- <-. unfold cr2, xd in *. f_equal; field; exact H. Qed.
Variables w0 w1 w2 : R.
Lemma field_linear : forall i, exists A0 A1 A2 B0 B1 B2, forall b0 b1 b2,
  vx (nth i (fields w0 w1 w2 (cv b0 b1 b2)) zero_vec) = A0 * b0 + A1 * b1 + A2 * b2 /\
  vy (nth i (fields w0 w1 w2 (cv b0 b1 b2)) zero_vec) = B0 * b0 + B1 * b1 + B2 * b2 /\
  vz (nth i (fields w0 w1 w2 (cv b0 b1 b2)) zero_vec) = 0.
Proof.
  intros i. assert (M : forall wa wb (V W : R -> R -> R -> vec), (exists A0 A1 A2, forall b0 b1 b2, vx (V b0 b1 b2) = A0 * b0 + A1 * b1 + A2 * b2) -> (exists A0 A1 A2, forall b0 b1 b2, vy (V b0 b1 b2) = A0 * b0 + A1 * b1 + A2 * b2) ->
    (exists A0 A1 A2, forall b0 b1 b2, vx (W b0 b1 b2) = A0 * b0 + A1 * b1 + A2 * b2) -> (exists A0 A1 A2, forall b0 b1 b2, vy (W b0 b1 b2) = A0 * b0 + A1 * b1 + A2 * b2) ->
    (forall b0 b1 b2, vz (V b0 b1 b2) = 0) -> (forall b0 b1 b2, vz (W b0 b1 b2) = 0) ->
    exists A0 A1 A2 B0 B1 B2, forall b0 b1 b2, vx (wm wa (V b0 b1 b2) wb (W b0 b1 b2)) = A0 * b0 + A1 * b1 + A2 * b2 /\ vy (wm wa (V b0 b1 b2) wb (W b0 b1 b2)) = B0 * b0 + B1 * b1 + B2 * b2 /\ vz (wm wa (V b0 b1 b2) wb (W b0 b1 b2)) = 0).
  { intros wa wb V W (a0 & a1 & a2 & Ha) (c0 & c1 & c2 & Hc) (e0 & e1 & e2 & He) (g0 & g1 & g2 & Hg) ZV ZW.
    exists ((wa * a0 + wb * e0) / (wa + wb)), ((wa * a1 + wb * e1) / (wa + wb)), ((wa * a2 + wb * e2) / (wa + wb)), ((wa * c0 + wb * g0) / (wa + wb)), ((wa * c1 + wb * g1) / (wa + wb)), ((wa * c2 + wb * g2) / (wa + wb)).
    intros b0 b1 b2. unfold wm. cbn [vx vy vz]. rewrite Ha, Hc, He, Hg, ZV, ZW. unfold Rdiv. repeat split; ring. }
  assert (CX : forall mi, exists A0 A1 A2, forall b0 b1 b2, vx (cv b0 b1 b2 mi) = A0 * b0 + A1 * b1 + A2 * b2).
  { intros [|[|mi]]; unfold cv, cr2; cbn [vx].
    - exists (vy (ue 1) / xd (ue 0) (ue 1)), (- vy (ue 0) / xd (ue 0) (ue 1)), 0. intros. unfold Rdiv. ring.
    - exists (vy (ue 2) / xd (ue 0) (ue 2)), 0, (- vy (ue 0) / xd (ue 0) (ue 2)). intros. unfold Rdiv. ring.
    - exists 0, (vy (ue 2) / xd (ue 1) (ue 2)), (- vy (ue 1) / xd (ue 1) (ue 2)). intros. unfold Rdiv. ring. }
  assert (CY : forall mi, exists A0 A1 A2, forall b0 b1 b2, vy (cv b0 b1 b2 mi) = A0 * b0 + A1 * b1 + A2 * b2).
  { intros [|[|mi]]; unfold cv, cr2; cbn [vy].
    - exists (- vx (ue 1) / xd (ue 0) (ue 1)), (vx (ue 0) / xd (ue 0) (ue 1)), 0. intros. unfold Rdiv. ring.
    - exists (- vx (ue 2) / xd (ue 0) (ue 2)), 0, (vx (ue 0) / xd (ue 0) (ue 2)). intros. unfold Rdiv. ring.
    - exists 0, (- vx (ue 2) / xd (ue 1) (ue 2)), (vx (ue 1) / xd (ue 1) (ue 2)). intros. unfold Rdiv. ring. }
  assert (CZ : forall mi b0 b1 b2, vz (cv b0 b1 b2 mi) = 0) by (intros [|[|mi]] b0 b1 b2; reflexivity).
  unfold fields. destruct i as [|[|[|i]]]; cbn [nth].
  - apply (M w2 w1 (fun b0 b1 b2 => cv b0 b1 b2 1%nat) (fun b0 b1 b2 => cv b0 b1 b2 0%nat)); auto.
  - apply (M w2 w0 (fun b0 b1 b2 => cv b0 b1 b2 2%nat) (fun b0 b1 b2 => cv b0 b1 b2 0%nat)); auto.
  - apply (M w1 w0 (fun b0 b1 b2 => cv b0 b1 b2 2%nat) (fun b0 b1 b2 => cv b0 b1 b2 1%nat)); auto.
  - exists 0, 0, 0, 0, 0, 0. intros. destruct i; cbn; repeat split; ring.
Qed.
End T.
