(* C52: element_from_edge_model and element_from_node_model in two dimensions. *)
From Coq Require Import List Bool Arith Lia Reals Lra Permutation Sorted.
From Verif Require Import LoaderSpec Adjacency AdjacencySpec AdjacencyProperties Geometry GeometrySpec GeometryProofs Volume VolumeSpec VolumeProofs VolumeMesh VolumeProperties VectorGradient VectorGradientSpec ElementField ElementFieldSpec ElementFieldProofs ElementFieldLinear ElementFieldMesh.
Import ListNotations.
Open Scope R_scope.
Local Arguments Nat.ltb : simpl never.
Local Arguments Nat.leb : simpl never.

Lemma asc_le : forall u v, ascending [u; v] -> (u <= v)%nat.
Proof. intros u v A. inversion A as [|? ? H T]; subst. match goal with H : Forall _ _ |- _ => inversion H; subst; assumption end. Qed.
Lemma side_cases : forall edges tris k x y z e u v, complete_region edges tris [] -> nth_error tris k = Some [x; y; z] -> (x < y)%nat -> (y < z)%nat -> side edges [x; y; z] e u v ->
  (u = y /\ v = z) \/ (u = x /\ v = z) \/ (u = x /\ v = y).
Proof.
  intros edges tris k x y z e u v CR E XY YZ (Ee & Iu & Iv). destruct (edge_asc edges tris [] CR e _ Ee) as (_ & N & A).
  assert (U : (u < v)%nat). { inversion N as [|? ? Nu _]; subst. assert (u <> v) by (intros ->; apply Nu; left; reflexivity). pose proof (asc_le u v A). lia. }
  cbn in Iu, Iv. destruct Iu as [->|[->|[->|[]]]], Iv as [->|[->|[->|[]]]]; try lia; auto.
Qed.
Lemma opp_slot : forall c i u v x y z, c = [x; y; z] -> (x < y)%nat -> (y < z)%nat -> (i < 3)%nat -> ((u = y /\ v = z) \/ (u = x /\ v = z) \/ (u = x /\ v = y)) -> u <> nth i c 0%nat -> v <> nth i c 0%nat ->
  (i = 0%nat /\ u = y /\ v = z) \/ (i = 1%nat /\ u = x /\ v = z) \/ (i = 2%nat /\ u = x /\ v = y).
Proof. intros c i u v x y z -> XY YZ Hi H A B. destruct i as [|[|[|i]]]; [| | |lia]; cbn [nth] in *; destruct H as [[-> ->]|[[-> ->]|[-> ->]]]; auto; try congruence. Qed.
Lemma along_unit : forall pos F u v b, vz F = 0 -> vx (unit_vec pos [u; v]) * vx F + vy (unit_vec pos [u; v]) * vy F = b <-> b = along pos F u v.
Proof.
  intros pos F u v b Z. rewrite unit_eq. cbn [vx vy]. unfold along. rewrite Z.
  replace ((vx F * (vx (P pos v) - vx (P pos u)) + vy F * (vy (P pos v) - vy (P pos u)) + 0 * (vz (P pos v) - vz (P pos u))) / dist (P pos u) (P pos v))
    with ((vx (P pos v) - vx (P pos u)) / dist (P pos u) (P pos v) * vx F + (vy (P pos v) - vy (P pos u)) / dist (P pos u) (P pos v) * vy F) by (unfold Rdiv; ring).
  split; congruence.
Qed.
Lemma wm_mean : forall wa a wb b, wa + wb <> 0 -> mean wa a wb b (wm wa a wb b).
Proof. intros wa a wb b H. split; [exact H|]. unfold wm, vscale, vadd. cbn [vx vy vz]. f_equal; field; exact H. Qed.

(* ---- the field ------------------------------------------------------------------ *)
(* C52: the command never fails on a region of triangles.  At each corner of a triangle there is the vector whose components
   along the two edges of the triangle that meet there are the values of the edge model, and the field on an edge of the
   triangle is the mean of the vectors at its ends, each weighted by the distance from the centre of the triangle to the
   other edge at that end *)
Theorem C52_field_2d : forall eps solve2 pos edges tris a couples ev, solver2 solve2 -> complete_region edges tris [] -> finalize_region 2 edges tris [] = Finished a ->
  Forall (flat_triangle pos) tris -> tri_couples eps pos edges tris a = Some couples -> length ev = length edges ->
  exists r, element_from_edge solve2 pos edges tris a couples ev = Some r /\ length r = (3 * length tris)%nat /\
    forall k c, nth_error tris k = Some c -> exists p V,
      (0 < eps -> good2 eps pos c -> circumcenter3 p (corner pos c 0) (corner pos c 1) (corner pos c 2)) /\
      (forall n, In n c -> vz (V n) = 0 /\ agrees pos edges ev c n (V n)) /\
      forall i e u v, (i < 3)%nat -> let w := nth i c 0%nat in side edges c e u v -> u <> w -> v <> w ->
        mean (dist (midpoint (P pos u) (P pos w)) p) (V u) (dist (midpoint (P pos v) (P pos w)) p) (V v) (nth (3 * k + i) r zero_vec).
Proof.
  intros eps solve2 pos edges tris a couples ev SV CR FIN FL CP L.
  destruct (from_edge_ok eps solve2 pos edges tris a couples SV CR FIN FL CP ev L) as (r & E & Lr & Q). exists r. split; [exact E|]. split; [exact Lr|].
  intros k c Ec. destruct (at_tri eps pos edges tris a couples CR FIN FL CP k c Ec) as (x & y & z & i0 & i1 & i2 & Hc & XY & YZ & E0 & E1 & E2 & D & _ & _).
  exists (cen eps pos c). set (T := tri_data a ev k). set (VV := cv pos x y z (fst (fst T)) (snd (fst T)) (snd T)).
  exists (fun n => if Nat.eqb n x then VV 2%nat else if Nat.eqb n y then VV 1%nat else VV 0%nat).
  assert (ST := slots_at edges tris a CR FIN k x y z i0 i1 i2 ltac:(rewrite <- Hc; exact Ec) E0 E1 E2).
  assert (T0 : fst (fst T) = nth i0 ev 0) by (unfold T, tri_data; rewrite ST; reflexivity).
  assert (T1 : snd (fst T) = nth i1 ev 0) by (unfold T, tri_data; rewrite ST; reflexivity).
  assert (T2 : snd T = nth i2 ev 0) by (unfold T, tri_data; rewrite ST; reflexivity).
  destruct (xds pos x y z D) as (X01 & X02 & X12).
  assert (NX : Nat.eqb y x = false /\ Nat.eqb z x = false /\ Nat.eqb z y = false) by (repeat split; apply Nat.eqb_neq; lia). destruct NX as (N1 & N2 & N3).
  split; [|split].
  - intros He G. apply triangle_center_ok; [exact He|apply G..].
  - intros n In_. split.
    { destruct (Nat.eqb n x); [reflexivity|]. destruct (Nat.eqb n y); reflexivity. }
    intros e u v Sd Hn. pose proof (side_cases edges tris k x y z e u v CR ltac:(rewrite <- Hc; exact Ec) XY YZ ltac:(rewrite <- Hc; exact Sd)) as SC. destruct Sd as (Ee & _ & _).
    pose proof (proj1 (cr_edges _ _ _ CR)) as ND.
    destruct SC as [[-> ->]|[[-> ->]|[-> ->]]].
    + rewrite (edge_index edges e i0 _ ND Ee E0). destruct Hn as [-> | ->]; rewrite ?N1, ?N2, ?N3, ?Nat.eqb_refl; apply along_unit; try reflexivity; rewrite <- T0; unfold VV; cbn [cv].
      * apply (proj1 (cr2_rows (ue pos x y z 0) (ue pos x y z 2) _ _ X02)).
      * apply (proj1 (cr2_rows (ue pos x y z 0) (ue pos x y z 1) _ _ X01)).
    + rewrite (edge_index edges e i1 _ ND Ee E1). destruct Hn as [-> | ->]; rewrite ?N1, ?N2, ?N3, ?Nat.eqb_refl; apply along_unit; try reflexivity; rewrite <- T1; unfold VV; cbn [cv].
      * apply (proj1 (cr2_rows (ue pos x y z 1) (ue pos x y z 2) _ _ X12)).
      * apply (proj2 (cr2_rows (ue pos x y z 0) (ue pos x y z 1) _ _ X01)).
    + rewrite (edge_index edges e i2 _ ND Ee E2). destruct Hn as [-> | ->]; rewrite ?N1, ?N2, ?N3, ?Nat.eqb_refl; apply along_unit; try reflexivity; rewrite <- T2; unfold VV; cbn [cv].
      * apply (proj2 (cr2_rows (ue pos x y z 1) (ue pos x y z 2) _ _ X12)).
      * apply (proj2 (cr2_rows (ue pos x y z 0) (ue pos x y z 2) _ _ X02)).
  - intros i e u v Hi w Sd Nu Nv. pose proof (side_cases edges tris k x y z e u v CR ltac:(rewrite <- Hc; exact Ec) XY YZ ltac:(rewrite <- Hc; exact Sd)) as SC.
    destruct (weights_ok pos x y z (cen eps pos c) D) as (W0 & W1 & W2). rewrite (Q k c i Ec Hi). fold T.
    unfold tri3. rewrite Hc. cbn [nth]. fold VV. rewrite <- Hc. unfold w in *. clear w.
    destruct (opp_slot c i u v x y z Hc XY YZ Hi SC Nu Nv) as [(-> & -> & ->)|[(-> & -> & ->)|(-> & -> & ->)]]; rewrite Hc; cbn [nth fields]; rewrite <- Hc; rewrite ?N1, ?N2, ?N3, ?Nat.eqb_refl.
    + rewrite (mid_sym (P pos y) (P pos x)), (mid_sym (P pos z) (P pos x)). apply wm_mean. lra.
    + rewrite (mid_sym (P pos z) (P pos y)). apply wm_mean. lra.
    + apply wm_mean. lra.
Qed.
(* a vector is determined by its components along two edges of the triangle *)
Lemma agrees_unique : forall pos edges tris k c ev n V F, complete_region edges tris [] -> forall a, finalize_region 2 edges tris [] = Finished a -> flat_triangle pos c -> nth_error tris k = Some c -> In n c ->
  vz V = 0 -> agrees pos edges ev c n V -> vz F = 0 -> agrees pos edges ev c n F -> V = F.
Proof.
  intros pos edges tris k c ev n V F CR a FIN FL Ec In_ ZV AV ZF AF.
  destruct (tri_row 2 edges tris [] a CR FIN k c Ec) as (x & y & z & i0 & i1 & i2 & Hc & XY & YZ & _ & E0 & E1 & E2).
  assert (D : tdet (P pos x) (P pos y) (P pos z) <> 0). { destruct FL as (a' & b' & d' & Hc' & _ & Q). rewrite Hc in Hc'. injection Hc' as <- <- <-. exact Q. }
  destruct (xds pos x y z D) as (X01 & X02 & X12).
  assert (S0 : side edges c i0 y z) by (rewrite Hc; repeat split; [exact E0|cbn; auto..]). assert (S1 : side edges c i1 x z) by (rewrite Hc; repeat split; [exact E1|cbn; auto..]). assert (S2 : side edges c i2 x y) by (rewrite Hc; repeat split; [exact E2|cbn; auto..]).
  assert (K : forall r s b d, xd r s <> 0 -> vx r * vx V + vy r * vy V = b -> vx s * vx V + vy s * vy V = d -> vx r * vx F + vy r * vy F = b -> vx s * vx F + vy s * vy F = d -> V = F).
  { intros r s b d X A1 A2 A3 A4. pose proof (cr2_unique r s b d V X A1 A2) as U1. pose proof (cr2_unique r s b d F X A3 A4) as U2. rewrite U1 in U2. injection U2 as P1 P2. destruct V, F. cbn in *. congruence. }
  rewrite Hc in In_. cbn in In_. destruct In_ as [<-|[<-|[<-|[]]]].
  - apply (K (ue pos x y z 1) (ue pos x y z 2) (nth i1 ev 0) (nth i2 ev 0) X12); apply along_unit; auto; try (apply (AV i1 x z S1); auto); try (apply (AV i2 x y S2); auto); try (apply (AF i1 x z S1); auto); apply (AF i2 x y S2); auto.
  - apply (K (ue pos x y z 0) (ue pos x y z 2) (nth i0 ev 0) (nth i2 ev 0) X02); apply along_unit; auto; try (apply (AV i0 y z S0); auto); try (apply (AV i2 x y S2); auto); try (apply (AF i0 y z S0); auto); apply (AF i2 x y S2); auto.
  - apply (K (ue pos x y z 0) (ue pos x y z 1) (nth i0 ev 0) (nth i1 ev 0) X01); apply along_unit; auto; try (apply (AV i0 y z S0); auto); try (apply (AV i1 x z S1); auto); try (apply (AF i0 y z S0); auto); apply (AF i1 x z S1); auto.
Qed.
(* C52: if on the edges of a triangle the edge model is the component of one vector, the field on its three edges is this vector *)
Theorem C52_constant_2d : forall eps solve2 pos edges tris a couples ev, solver2 solve2 -> complete_region edges tris [] -> finalize_region 2 edges tris [] = Finished a ->
  Forall (flat_triangle pos) tris -> tri_couples eps pos edges tris a = Some couples -> length ev = length edges ->
  exists r, element_from_edge solve2 pos edges tris a couples ev = Some r /\ length r = (3 * length tris)%nat /\
    forall k c F, nth_error tris k = Some c -> vz F = 0 -> (forall e u v, side edges c e u v -> nth e ev 0 = along pos F u v) ->
      forall i, (i < 3)%nat -> nth (3 * k + i) r zero_vec = F.
Proof.
  intros eps solve2 pos edges tris a couples ev SV CR FIN FL CP L.
  destruct (C52_field_2d eps solve2 pos edges tris a couples ev SV CR FIN FL CP L) as (r & E & Lr & Q). exists r. split; [exact E|]. split; [exact Lr|].
  intros k c F Ec ZF AF i Hi. destruct (Q k c Ec) as (p & V & _ & AV & M).
  destruct (tri_row 2 edges tris [] a CR FIN k c Ec) as (x & y & z & i0 & i1 & i2 & Hc & XY & YZ & _ & E0 & E1 & E2).
  assert (VF : forall n, In n c -> V n = F).
  { intros n In_. destruct (AV n In_) as [Z A]. apply (agrees_unique pos edges tris k c ev n (V n) F CR a FIN); auto.
    - rewrite Forall_forall in FL. apply FL. apply (nth_error_In _ _ Ec).
    - intros e u v S _. apply AF. exact S. }
  assert (G : forall e u v, side edges c e u v -> u <> nth i c 0%nat -> v <> nth i c 0%nat -> nth (3 * k + i) r zero_vec = F).
  { intros e u v S Nu Nv. destruct (M i e u v Hi S Nu Nv) as [W X]. destruct S as (_ & Iu & Iv). rewrite (VF u Iu), (VF v Iv) in X.
    destruct (nth (3 * k + i) r zero_vec) as [m1 m2 m3], F as [f1 f2 f3]. unfold vscale, vadd in X. cbn [vx vy vz] in X. injection X as X1 X2 X3.
    match type of W with ?w <> 0 => f_equal; apply (Rmult_eq_reg_l w); try exact W; lra end. }
  rewrite Hc in G. destruct i as [|[|[|i]]]; [| | |lia]; cbn [nth] in G.
  - apply (G i0 y z); [repeat split; [exact E0|cbn; auto..]|lia|lia].
  - apply (G i1 x z); [repeat split; [exact E1|cbn; auto..]|lia|lia].
  - apply (G i2 x y); [repeat split; [exact E2|cbn; auto..]|lia|lia].
Qed.

(* ---- the derivatives ------------------------------------------------------------------ *)
Lemma deriv_ext : forall f g x d, (forall y, f y = g y) -> derivable_pt_lim f x d -> derivable_pt_lim g x d.
Proof. intros f g x d E H e He. destruct (H e He) as [dl Q]. exists dl. intros h H1 H2. rewrite <- !E. apply Q; assumption. Qed.
Lemma set_same : forall w n m, set_at w n (w n) m = w m.
Proof. intros. unfold set_at. destruct (Nat.eq_dec m n); congruence. Qed.
Lemma end_deriv : forall f f0 f1 e w n h t, partials f f0 f1 -> h <> t ->
  derivable_pt_lim (fun x => f e (set_at w n x h) (set_at w n x t)) (w n) (if Nat.eqb h n then f0 e (w h) (w t) else if Nat.eqb t n then f1 e (w h) (w t) else 0).
Proof.
  intros f f0 f1 e w n h t [P0 P1] N. destruct (Nat.eqb h n) eqn:Eh; [apply Nat.eqb_eq in Eh; subst h|apply Nat.eqb_neq in Eh; destruct (Nat.eqb t n) eqn:Et; [apply Nat.eqb_eq in Et; subst t|apply Nat.eqb_neq in Et]].
  - apply (deriv_ext (fun x => f e x (w t))); [|apply P0]. intros y. unfold set_at. destruct (Nat.eq_dec n n); [|congruence]. destruct (Nat.eq_dec t n); congruence.
  - apply (deriv_ext (fun x => f e (w h) x)); [|apply P1]. intros y. unfold set_at. destruct (Nat.eq_dec n n); [|congruence]. destruct (Nat.eq_dec h n); congruence.
  - apply (deriv_ext (fun x => f e (w h) (w t))); [|apply (derivable_pt_lim_const (f e (w h) (w t)))]. intros y. unfold set_at. destruct (Nat.eq_dec h n); [congruence|]. destruct (Nat.eq_dec t n); congruence.
Qed.
Lemma lin_deriv : forall A0 A1 A2 (b0 b1 b2 : R -> R) x d0 d1 d2, derivable_pt_lim b0 x d0 -> derivable_pt_lim b1 x d1 -> derivable_pt_lim b2 x d2 ->
  derivable_pt_lim (fun x => A0 * b0 x + A1 * b1 x + A2 * b2 x) x (A0 * d0 + A1 * d1 + A2 * d2).
Proof.
  intros A0 A1 A2 b0 b1 b2 x d0 d1 d2 H0 H1 H2.
  apply (derivable_pt_lim_plus (fun x => A0 * b0 x + A1 * b1 x) (fun x => A2 * b2 x)); [apply (derivable_pt_lim_plus (fun x => A0 * b0 x) (fun x => A1 * b1 x))|];
    apply derivable_pt_lim_scal; assumption.
Qed.
Lemma values_at : forall f w edges e u v, nth_error edges e = Some [u; v] -> nth e (edge_values f w edges) 0 = f [u; v] (w u) (w v).
Proof. intros f w edges e u v E. apply nth_error_nth. unfold edge_values. rewrite (map_nth_error _ _ _ E). reflexivity. Qed.
(* C52: the models e_x:v@en0, @en1, @en2 and e_y:v@en0, @en1, @en2 are the derivatives of e_x and e_y with respect to the
   variable at the first node of the edge, at its second node and at the third corner of the triangle *)
Theorem C52_derivative_2d : forall eps solve2 pos edges tris a couples f f0 f1 w nd, solver2 solve2 -> complete_region edges tris [] -> finalize_region 2 edges tris [] = Finished a ->
  Forall (flat_triangle pos) tris -> tri_couples eps pos edges tris a = Some couples -> partials f f0 f1 -> (nd < 3)%nat ->
  exists dr, element_from_edge_d solve2 pos edges tris a couples (edge_values f0 w edges) (edge_values f1 w edges) nd = Some dr /\ length dr = (3 * length tris)%nat /\
    forall k c i e u v, nth_error tris k = Some c -> (i < 3)%nat -> side edges c e u v -> u <> nth i c 0%nat -> v <> nth i c 0%nat ->
      let n := nth nd [u; v; nth i c 0%nat] 0%nat in
      exists r : R -> list vec, (forall x, element_from_edge solve2 pos edges tris a couples (edge_values f (set_at w n x) edges) = Some (r x)) /\
        derivable_pt_lim (fun x => vx (nth (3 * k + i) (r x) zero_vec)) (w n) (vx (nth (3 * k + i) dr zero_vec)) /\
        derivable_pt_lim (fun x => vy (nth (3 * k + i) (r x) zero_vec)) (w n) (vy (nth (3 * k + i) dr zero_vec)).
Proof.
  intros eps solve2 pos edges tris a couples f f0 f1 w nd SV CR FIN FL CP PD Hnd.
  assert (LV : forall g w', length (edge_values g w' edges) = length edges) by (intros; apply map_length).
  destruct (from_edge_d_ok eps solve2 pos edges tris a couples SV CR FIN FL CP _ _ nd (LV f0 w) (LV f1 w) Hnd) as (dr & E & Ld & Q). exists dr. split; [exact E|]. split; [exact Ld|].
  intros k c i e u v Ec Hi Sd Nu Nv n.
  exists (fun x => match element_from_edge solve2 pos edges tris a couples (edge_values f (set_at w n x) edges) with Some r => r | None => [] end).
  assert (FE := fun x => from_edge_ok eps solve2 pos edges tris a couples SV CR FIN FL CP _ (LV f (set_at w n x))).
  split. { intros x. destruct (FE x) as (r & -> & _). reflexivity. }
  destruct (at_tri eps pos edges tris a couples CR FIN FL CP k c Ec) as (x & y & z & i0 & i1 & i2 & Hc & XY & YZ & E0 & E1 & E2 & D & _ & _).
  pose proof (side_cases edges tris k x y z e u v CR ltac:(rewrite <- Hc; exact Ec) XY YZ ltac:(rewrite <- Hc; exact Sd)) as SC.
  assert (HN : nth nd (hd3 c i) 0%nat = n).
  { unfold n, hd3. destruct (opp_slot c i u v x y z Hc XY YZ Hi SC Nu Nv) as [(-> & -> & ->)|[(-> & -> & ->)|(-> & -> & ->)]]; rewrite Hc; reflexivity. }
  assert (ST := slots_at edges tris a CR FIN k x y z i0 i1 i2 ltac:(rewrite <- Hc; exact Ec) E0 E1 E2).
  assert (TD : forall g w', tri_data a (edge_values g w' edges) k = (g [y; z] (w' y) (w' z), g [x; z] (w' x) (w' z), g [x; y] (w' x) (w' y))).
  { intros g w'. unfold tri_data. rewrite ST. cbn [fst snd]. rewrite (values_at g w' edges i0 y z E0), (values_at g w' edges i1 x z E1), (values_at g w' edges i2 x y E2). reflexivity. }
  set (w0 := dist (midpoint (P pos y) (P pos z)) (cen eps pos c)). set (w1 := dist (midpoint (P pos x) (P pos z)) (cen eps pos c)). set (w2 := dist (midpoint (P pos x) (P pos y)) (cen eps pos c)).
  destruct (field_linear pos x y z w0 w1 w2 i) as (A0 & A1 & A2 & B0 & B1 & B2 & LIN).
  assert (T3 : forall b, tri3 eps pos c b = fields w0 w1 w2 (cv pos x y z (fst (fst b)) (snd (fst b)) (snd b))) by (intros b; unfold tri3, w0, w1, w2; rewrite Hc; reflexivity).
  assert (VAL : forall s, exists r, element_from_edge solve2 pos edges tris a couples (edge_values f (set_at w n s) edges) = Some r /\
    let b0 := f [y; z] (set_at w n s y) (set_at w n s z) in let b1 := f [x; z] (set_at w n s x) (set_at w n s z) in let b2 := f [x; y] (set_at w n s x) (set_at w n s y) in
    vx (nth (3 * k + i) r zero_vec) = A0 * b0 + A1 * b1 + A2 * b2 /\ vy (nth (3 * k + i) r zero_vec) = B0 * b0 + B1 * b1 + B2 * b2).
  { intros s. destruct (FE s) as (r & Er & _ & Qr). exists r. split; [exact Er|]. rewrite (Qr k c i Ec Hi), T3, TD. cbn [fst snd]. cbv zeta.
    destruct (LIN (f [y; z] (set_at w n s y) (set_at w n s z)) (f [x; z] (set_at w n s x) (set_at w n s z)) (f [x; y] (set_at w n s x) (set_at w n s y))) as (LX & LY & _). split; assumption. }
  rewrite (Q k c i Ec Hi), HN, T3. unfold nd_data. rewrite (nthe _ _ _ Ec), Hc. cbn [nth]. rewrite !TD. cbn [fst snd].
  match goal with |- context [cv pos x y z ?a0 ?a1 ?a2] => destruct (LIN a0 a1 a2) as (LX & LY & _) end. rewrite LX, LY.
  pose proof (end_deriv f f0 f1 [y; z] w n y z PD ltac:(lia)) as D0. pose proof (end_deriv f f0 f1 [x; z] w n x z PD ltac:(lia)) as D1. pose proof (end_deriv f f0 f1 [x; y] w n x y PD ltac:(lia)) as D2.
  split.
  - refine (deriv_ext _ _ _ _ _ (lin_deriv A0 A1 A2 _ _ _ _ _ _ _ D0 D1 D2)). intros s. destruct (VAL s) as (r & -> & VX & VY). symmetry. exact VX.
  - refine (deriv_ext _ _ _ _ _ (lin_deriv B0 B1 B2 _ _ _ _ _ _ _ D0 D1 D2)). intros s. destruct (VAL s) as (r & -> & VX & VY). symmetry. exact VY.
Qed.

(* ---- element_from_node_model ------------------------------------------------------------------ *)
(* C52: v@en0, v@en1, v@en2 are the values at the first node of the edge, its second node, and the third corner *)
Theorem C52_node_2d : forall (edges tris : list simplex) a nv nd, complete_region edges tris [] -> finalize_region 2 edges tris [] = Finished a -> (nd < 3)%nat ->
  (forall c n, In c tris -> In n c -> (n < length nv)%nat) ->
  exists r, element_from_node edges tris a nv nd = Some r /\ length r = (3 * length tris)%nat /\
    forall k c i e u v, nth_error tris k = Some c -> (i < 3)%nat -> side edges c e u v -> u <> nth i c 0%nat -> v <> nth i c 0%nat ->
      nth (3 * k + i) r 0 = nth (nth nd [u; v; nth i c 0%nat] 0%nat) nv 0.
Proof.
  intros edges tris a nv nd CR FIN Hnd B.
  assert (H : forall k, (k < length tris)%nat -> exists row, bind (nth_error tris k) (fun c => bind (slot_edges edges a k) (fun sl =>
      opt_list (map (fun p => match nd with
        | 0%nat => nth_error nv (hd_ (snd (snd p))) | 1%nat => nth_error nv (tl_ (snd (snd p)))
        | _ => bind (nth_error c (fst p)) (nth_error nv) end) (combine (seq 0 (length sl)) sl)))) = Some row /\ length row = 3%nat /\
      forall i, (i < 3)%nat -> nth i row 0 = nth (nth nd (hd3 (nth k tris []) i) 0%nat) nv 0).
  { intros k K. destruct (tri_idx tris k K) as [c E]. rewrite E, (nthe _ _ _ E). cbn [bind].
    destruct (tri_row 2 edges tris [] a CR FIN k c E) as (x & y & z & i0 & i1 & i2 & -> & XY & YZ & Rw & E0 & E1 & E2).
    unfold slot_edges. rewrite Rw. cbn [map opt_list]. rewrite E0, E1, E2. cbn [option_map bind length seq combine map fst snd nth_error].
    unfold hd_, tl_. cbn [nth].
    assert (X : forall n, In n [x; y; z] -> nth_error nv n = Some (nth n nv 0)) by (intros n I; apply nth_error_nth'; apply (B [x; y; z] n (nth_error_In _ _ E) I)).
    destruct nd as [|[|[|nd]]]; [| | |lia]; cbn [map opt_list bind]; rewrite !X by (cbn; auto); (eexists; split; [reflexivity|]; split; [reflexivity|]);
      intros i Hi; (destruct i as [|[|[|i]]]; [| | |lia]); reflexivity. }
  set (F := fun k => bind (nth_error tris k) (fun c => bind (slot_edges edges a k) (fun sl =>
      opt_list (map (fun p => match nd with
        | 0%nat => nth_error nv (hd_ (snd (snd p))) | 1%nat => nth_error nv (tl_ (snd (snd p)))
        | _ => bind (nth_error c (fst p)) (nth_error nv) end) (combine (seq 0 (length sl)) sl))))).
  destruct (rows3 R F (fun k => match F k with Some l => l | None => [] end) (length tris)) as (r & E & L & Q & _).
  { intros k K. destruct (H k K) as (row & E & Lr & _). fold (F k) in E. rewrite E. auto. }
  exists r. split; [exact E|]. split; [exact L|]. intros k c i e u v Ec Hi Sd Nu Nv.
  assert (K : (k < length tris)%nat) by (apply nth_error_Some; unfold simplex in *; congruence). rewrite Q by assumption.
  destruct (H k K) as (row & Er & _ & X). fold (F k) in Er. rewrite Er, (X i Hi), (nthe _ _ _ Ec). f_equal.
  destruct (tri_row 2 edges tris [] a CR FIN k c Ec) as (x & y & z & i0 & i1 & i2 & Hc & XY & YZ & _ & E0 & E1 & E2).
  pose proof (side_cases edges tris k x y z e u v CR ltac:(rewrite <- Hc; exact Ec) XY YZ ltac:(rewrite <- Hc; exact Sd)) as SC. unfold hd3.
  destruct (opp_slot c i u v x y z Hc XY YZ Hi SC Nu Nv) as [(-> & -> & ->)|[(-> & -> & ->)|(-> & -> & ->)]]; rewrite Hc; reflexivity.
Qed.

(* ---- a case ------------------------------------------------------------------ *)
Definition cramer2 (r s y : R * R) : option (R * R) :=
  let d := fst r * snd s - snd r * fst s in
  if Req_EM_T d 0 then None else Some ((fst y * snd s - snd r * snd y) / d, (fst r * snd y - fst y * fst s) / d).
Lemma cramer2_ok : solver2 cramer2.
Proof.
  split.
  - intros r s y x. unfold cramer2. cbv zeta. destruct (Req_EM_T _ 0) as [_|N]; [discriminate|]. intros [= <-]. cbn [fst snd]. split; field; exact N.
  - intros r s y H. unfold cramer2. cbv zeta. destruct (Req_EM_T _ 0); [contradiction|discriminate].
Qed.
Lemma sq_flat : Forall (flat_triangle sq_pos) sq_tris.
Proof.
  constructor; [|constructor; [|constructor]].
  - exists 0%nat, 1%nat, 2%nat. split; [reflexivity|]. split; [repeat (constructor; [cbn; intuition discriminate|]); constructor|]. unfold P, sq_pos. cbn [nth vx vy]. lra.
  - exists 1%nat, 2%nat, 3%nat. split; [reflexivity|]. split; [repeat (constructor; [cbn; intuition discriminate|]); constructor|]. unfold P, sq_pos. cbn [nth vx vy]. lra.
Qed.
(* on the unit square the components of (2, 3) along the five edges give (2, 3) on all six edges of the triangles *)
Example C52_case : exists a couples r, finalize_region 2 sq_edges sq_tris [] = Finished a /\ tri_couples (1 / 10 ^ 20) sq_pos sq_edges sq_tris a = Some couples /\
  element_from_edge cramer2 sq_pos sq_edges sq_tris a couples (map (fun e => along sq_pos (mkvec 2 3 0) (nth 0 e 0%nat) (nth 1 e 0%nat)) sq_edges) = Some r /\
  r = repeat (mkvec 2 3 0) 6.
Proof.
  destruct (finalize_region 2 sq_edges sq_tris []) as [a| |] eqn:F; [|vm_compute in F; discriminate|vm_compute in F; discriminate].
  assert (CP := tri_couples_ok (1 / 10 ^ 20) sq_pos sq_edges sq_tris a sq_complete F).
  set (ev := map (fun e => along sq_pos (mkvec 2 3 0) (nth 0 e 0%nat) (nth 1 e 0%nat)) sq_edges).
  destruct (C52_constant_2d (1 / 10 ^ 20) cramer2 sq_pos sq_edges sq_tris a _ ev cramer2_ok sq_complete F sq_flat CP eq_refl) as (r & E & L & Q).
  eexists a, _, r. split; [reflexivity|]. split; [exact CP|]. split; [exact E|].
  assert (A : forall c e u v, side sq_edges c e u v -> nth e ev 0 = along sq_pos (mkvec 2 3 0) u v).
  { intros c e u v (Ee & _). unfold ev. apply nth_error_nth. rewrite (map_nth_error _ _ _ Ee). reflexivity. }
  pose proof (fun i H => Q 0%nat _ (mkvec 2 3 0) eq_refl eq_refl (A _) i H) as Q0. pose proof (fun i H => Q 1%nat _ (mkvec 2 3 0) eq_refl eq_refl (A _) i H) as Q1.
  cbn [length sq_tris Nat.mul Nat.add] in L.
  destruct r as [|r0 [|r1 [|r2 [|r3 [|r4 [|r5 [|r6 r]]]]]]]; try discriminate L.
  pose proof (Q0 0%nat ltac:(lia)) as K0. pose proof (Q0 1%nat ltac:(lia)) as K1. pose proof (Q0 2%nat ltac:(lia)) as K2.
  pose proof (Q1 0%nat ltac:(lia)) as K3. pose proof (Q1 1%nat ltac:(lia)) as K4. pose proof (Q1 2%nat ltac:(lia)) as K5. cbn in K0, K1, K2, K3, K4, K5. subst. reflexivity.
Qed.
(* an edge model and its derivatives *)
Example C52_partials_case : partials (fun _ x y => (y - x) * (y - x)) (fun _ x y => - 2 * (y - x)) (fun _ x y => 2 * (y - x)).
Proof.
  split; intros e x y.
  - replace (-2 * (y - x)) with ((0 - 1) * (y - x) + (y - x) * (0 - 1)) by ring.
    apply (derivable_pt_lim_mult (fun x => y - x) (fun x => y - x)); apply (derivable_pt_lim_minus (fun _ => y) (fun x => x)); try apply (derivable_pt_lim_const y); apply derivable_pt_lim_id.
  - replace (2 * (y - x)) with ((1 - 0) * (y - x) + (y - x) * (1 - 0)) by ring.
    apply (derivable_pt_lim_mult (fun y => y - x) (fun y => y - x)); apply (derivable_pt_lim_minus (fun y => y) (fun _ => x)); try apply (derivable_pt_lim_const x); apply derivable_pt_lim_id.
Qed.
Print Assumptions C52_field_2d.
Print Assumptions C52_constant_2d.
Print Assumptions C52_derivative_2d.
Print Assumptions C52_node_2d.
