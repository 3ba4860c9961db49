(* C53: vector_gradient. *)
From Coq Require Import List Bool Arith Lia Reals Lra.
From Verif Require Import Adjacency AdjacencyProofs Geometry GeometrySpec Volume VolumeSpec VolumeProperties VectorGradient VectorGradientSpec.
Import ListNotations.
Open Scope R_scope.
Local Arguments Nat.ltb : simpl never.
Local Arguments Nat.eqb : simpl never.

Lemma times_nodup : forall n (s : simplex), NoDup s -> times n s = if in_dec Nat.eq_dec n s then 1%nat else 0%nat.
Proof.
  intros n s H. unfold times. induction H as [|a l Hn H IH]; [reflexivity|]. cbn [filter]. destruct (Nat.eqb_spec n a) as [->|N]; cbn [length].
  - destruct (in_dec Nat.eq_dec a (a :: l)) as [_|X]; [|exfalso; apply X; left; reflexivity]. rewrite IH. destruct (in_dec Nat.eq_dec a l); [contradiction|reflexivity].
  - rewrite IH. destruct (in_dec Nat.eq_dec n l) as [I|I], (in_dec Nat.eq_dec n (a :: l)) as [J|J]; try reflexivity; exfalso.
    + apply J. right. exact I.
    + destruct J as [<-|J]; [apply N; reflexivity|contradiction].
Qed.
Lemma cells_map_gen : forall n l (pre : list simplex), Forall (@NoDup nat) l ->
  map (fun c => nth c (pre ++ l) []) (flat_map (fun p => repeat (fst p) (times n (snd p))) (combine (seq (length pre) (length l)) l)) = cells_of n l.
Proof.
  intros n. induction l as [|s l IH]; intros pre F; [reflexivity|]. inversion F; subst. cbn [length seq combine flat_map fst snd]. rewrite map_app.
  assert (Q : nth (length pre) (pre ++ s :: l) [] = s) by (rewrite app_nth2 by lia; rewrite Nat.sub_diag; reflexivity).
  specialize (IH (pre ++ [s])). rewrite <- app_assoc in IH. rewrite app_length, Nat.add_1_r in IH. cbn [app] in IH. match goal with |- ?a ++ ?b = _ => replace b with (cells_of n l) by (symmetry; apply IH; assumption) end.
  rewrite times_nodup by assumption. unfold cells_of. cbn [filter]. destruct (in_dec Nat.eq_dec n s); cbn [repeat map app]; [rewrite Q|]; reflexivity.
Qed.
Lemma cells_map : forall n cells, Forall (@NoDup nat) cells -> map (fun c => nth c cells []) (at_node cells n) = cells_of n cells.
Proof. intros n cells F. unfold at_node, numbered. apply (cells_map_gen n cells []). exact F. Qed.
Lemma filter_map_swap : forall A B (f : A -> B) (p : A -> bool) (q : B -> bool) l, (forall x, In x l -> p x = q (f x)) -> map f (filter p l) = filter q (map f l).
Proof. intros A B f p q. induction l as [|x l IH]; intros H; [reflexivity|]. cbn [filter map]. rewrite <- (H x (or_introl eq_refl)). destruct (p x); cbn [map]; rewrite IH; auto; intros; apply H; right; assumption. Qed.

Lemma is_zero_true : forall x, is_zero x = true <-> x = 0.
Proof. intros x. unfold is_zero. destruct (Req_EM_T x 0); split; congruence. Qed.
Definition in_range (vals : list R) (cells : list simplex) : Prop := forall c n, In c cells -> In n c -> (n < length vals)%nat.
Lemma cell_used_ok : forall vals az cells c s, in_range vals cells -> nth_error cells c = Some s ->
  cell_used vals az cells c = if az then nonzero_cell vals s else true.
Proof.
  intros vals az cells c s R E. unfold cell_used. destruct az; [|reflexivity]. cbn [andb]. unfold nonzero_cell.
  destruct (forallb _ s) eqn:F.
  - rewrite forallb_forall in F. destruct (existsb _ _) eqn:X; [|reflexivity]. exfalso. apply existsb_exists in X. destruct X as (n & _ & X). apply andb_true_iff in X. destruct X as [Z M].
    apply is_zero_true in Z. apply existsb_exists in M. destruct M as (c' & M & Q). apply Nat.eqb_eq in Q. subst c'. apply at_node_In in M. destruct M as (s' & E' & In'). assert (s' = s) by congruence. subst s'.
    specialize (F n In'). unfold val in Z. unfold value in F. destruct (Req_EM_T _ 0); congruence.
  - destruct (existsb _ _) eqn:X; [reflexivity|]. exfalso. rewrite <- not_true_iff_false in F. apply F. apply forallb_forall. intros n I.
    destruct (Req_EM_T (value vals n) 0) as [Z|]; [|reflexivity]. exfalso. rewrite <- not_true_iff_false in X. apply X. apply existsb_exists. exists n.
    split; [apply in_seq; specialize (R s n (nth_error_In _ _ E) I); lia|]. apply andb_true_iff. split; [apply is_zero_true; exact Z|].
    apply existsb_exists. exists c. split; [apply at_node_In; exists s; auto|apply Nat.eqb_refl].
Qed.
Lemma used_map : forall vals az n cells, Forall (@NoDup nat) cells -> in_range vals cells ->
  map (fun c => nth c cells []) (filter (cell_used vals az cells) (at_node cells n)) = used_cells az vals n cells.
Proof.
  intros vals az n cells F R. unfold used_cells. rewrite <- cells_map by exact F. apply filter_map_swap.
  intros c I. apply at_node_In in I. destruct I as (s & E & _). rewrite (cell_used_ok vals az cells c s R E).
  replace (@nth (list nat) c cells []) with s; [reflexivity|]. symmetry. apply nth_error_nth with (d := []) in E. exact E.
Qed.
Lemma vfold : forall (f : simplex -> vec) l a, fold_left (fun v c => vadd v (f c)) l a =
  mkvec (vx a + total (fun c => vx (f c)) l) (vy a + total (fun c => vy (f c)) l) (vz a + total (fun c => vz (f c)) l).
Proof.
  intros f. induction l as [|c l IH]; intros [x y z]; [cbn; f_equal; ring|]. cbn [fold_left]. rewrite IH. unfold total, vadd. cbn [map fold_right vx vy vz]. f_equal; ring.
Qed.
Lemma fold_map : forall (cells : list simplex) (f : simplex -> vec) l a, fold_left (fun v c => vadd v (f (nth c cells []))) l a = fold_left (fun v c => vadd v (f c)) (map (fun c => nth c cells []) l) a.
Proof. intros cells f. induction l as [|c l IH]; intros a; [reflexivity|]. cbn. apply IH. Qed.
Lemma node_mean_ok : forall vals az n cells f, Forall (@NoDup nat) cells -> in_range vals cells ->
  let l := used_cells az vals n cells in
  node_mean vals az cells f n = mkvec (average (fun c => vx (f c)) l) (average (fun c => vy (f c)) l) (average (fun c => vz (f c)) l).
Proof.
  intros vals az n cells f F R l. unfold node_mean. cbv zeta. rewrite fold_map. rewrite <- (map_length (fun c => nth c cells [])). pose proof (used_map vals az n cells F R) as U. fold l in U. match goal with |- context [fold_left _ ?m _] => replace m with l by (symmetry; exact U) end. rewrite U. clearbody l. clear U.
  unfold average. destruct l as [|c t]; [reflexivity|]. cbn [length]. change (Nat.eqb (S (length t)) 0) with false. cbv match. rewrite vfold. unfold vscale, zero_vec. cbn [vx vy vz].
  f_equal; unfold Rdiv; rewrite Rplus_0_l; reflexivity.
Qed.
Lemma total_ext : forall A (f g : A -> R) l, (forall x, In x l -> f x = g x) -> total f l = total g l.
Proof. intros A f g l H. unfold total. f_equal. apply map_ext_in. exact H. Qed.
Lemma average_ext : forall A (f g : A -> R) l, (forall x, In x l -> f x = g x) -> average f l = average g l.
Proof. intros A f g [|x l] H; [reflexivity|]. unfold average. f_equal. apply total_ext. exact H. Qed.
Lemma average_const : forall A (k : R) (l : list A), l <> [] -> average (fun _ => k) l = k.
Proof.
  intros A k l N. destruct l as [|x t]; [congruence|]. unfold average. set (l := x :: t) in *. assert (Q : total (fun _ : A => k) l = INR (length l) * k).
  { clear. induction l as [|y l IH]; [cbn; ring|]. cbn [length]. rewrite S_INR. unfold total in *. cbn [map fold_right]. rewrite IH. ring. }
  rewrite Q. field. apply not_0_INR. discriminate.
Qed.

(* ---- two dimensions ------------------------------------------------------------- *)
Lemma tri_gradient_ok : forall solve pos vals c g, solves solve -> total_solver solve -> flat_triangle pos c -> linear_on pos vals c g -> vz g = 0 ->
  vx (tri_gradient solve pos vals c) = vx g /\ vy (tri_gradient solve pos vals c) = vy g.
Proof.
  intros solve pos vals c g SV TS (a & b & d & -> & ND & NZ) [k L] Z. unfold tri_gradient. cbv zeta. unfold at_pos. cbn [nth]. fold (P pos a) (P pos b) (P pos d).
  destruct (solve _ _ _ _) as [x|] eqn:E.
  - destruct (SV _ _ _ _ _ E) as (E1 & E2 & E3). unfold dot in E1, E2, E3. cbn [vx vy vz] in E1, E2, E3. unfold val in E1, E2, E3. fold (value vals a) (value vals b) (value vals d) in E1, E2, E3.
    rewrite (L a) in E1 by (cbn; auto). rewrite (L b) in E2 by (cbn; auto). rewrite (L d) in E3 by (cbn; auto). rewrite Z in E1, E2, E3.
    set (x0 := vx (P pos a)) in *. set (y0 := vy (P pos a)) in *. set (x1 := vx (P pos b)) in *. set (y1 := vy (P pos b)) in *. set (x2 := vx (P pos d)) in *. set (y2 := vy (P pos d)) in *.
    assert (Q1 : (x1 - x0) * (vx x - vx g) + (y1 - y0) * (vy x - vy g) = 0) by lra. assert (Q2 : (x2 - x0) * (vx x - vx g) + (y2 - y0) * (vy x - vy g) = 0) by lra.
    set (D := (x1 - x0) * (y2 - y0) - (x2 - x0) * (y1 - y0)) in *.
    assert (A : D * (vx x - vx g) = 0). { unfold D. replace (_ * _) with ((y2 - y0) * ((x1 - x0) * (vx x - vx g) + (y1 - y0) * (vy x - vy g)) - (y1 - y0) * ((x2 - x0) * (vx x - vx g) + (y2 - y0) * (vy x - vy g))) by ring. rewrite Q1, Q2. ring. }
    assert (B : D * (vy x - vy g) = 0). { unfold D. replace (_ * _) with ((x1 - x0) * ((x2 - x0) * (vx x - vx g) + (y2 - y0) * (vy x - vy g)) - (x2 - x0) * ((x1 - x0) * (vx x - vx g) + (y1 - y0) * (vy x - vy g))) by ring. rewrite Q1, Q2. ring. }
    apply Rmult_integral in A, B. split; lra.
  - exfalso. revert E. apply TS. intros X. apply NZ. unfold dot, cross in X. cbn [vx vy vz] in X. ring_simplify in X. ring_simplify. lra.
Qed.
(* At every node the gradient is the mean of the gradients of the cells at the node: the gradient of a cell is that of the
   linear function through the values at its corners.  With calc_type avoidzero, cells with a zero value do not count. *)
Theorem C53_2d : forall solve pos vals az tris G n, solves solve -> total_solver solve ->
  Forall (flat_triangle pos) tris -> in_range vals tris -> (forall c, In c tris -> linear_on pos vals c (G c) /\ vz (G c) = 0) -> (n < length vals)%nat ->
  let l := used_cells az vals n tris in
  nth_error (gradient_2d solve pos vals az tris) n = Some (mkvec (average (fun c => vx (G c)) l) (average (fun c => vy (G c)) l) 0).
Proof.
  intros solve pos vals az tris G n SV TS F R LG Hn l. unfold gradient_2d.
  rewrite nth_error_map. rewrite (nth_error_nth' _ 0%nat) by (rewrite seq_length; exact Hn). rewrite seq_nth by exact Hn. cbn [option_map Nat.add]. f_equal. cbv zeta.
  rewrite Forall_forall in F.
  rewrite node_mean_ok; [|apply Forall_forall; intros c I; destruct (F c I) as (? & ? & ? & _ & N & _); exact N|exact R]. cbn [vx vy]. fold l.
  assert (K : forall c, In c l -> In c tris). { intros c I. unfold l, used_cells, cells_of in I. apply filter_In in I. destruct I as [I _]. apply filter_In in I. apply I. }
  f_equal; apply average_ext; intros c I; destruct (LG c (K c I)) as [L Z]; apply (tri_gradient_ok solve pos vals c (G c) SV TS (F c (K c I)) L Z).
Qed.
(* The gradient of a linear function is exact at every node of some cell that counts. *)
Theorem C53_2d_linear : forall solve pos vals az tris g n, solves solve -> total_solver solve ->
  Forall (flat_triangle pos) tris -> in_range vals tris -> vz g = 0 -> (exists k, forall m, (m < length vals)%nat -> value vals m = vx g * vx (P pos m) + vy g * vy (P pos m) + k) ->
  (n < length vals)%nat -> (exists c, In c tris /\ In n c /\ (az = true -> forall m, In m c -> value vals m <> 0)) ->
  nth_error (gradient_2d solve pos vals az tris) n = Some g.
Proof.
  intros solve pos vals az tris g n SV TS F R Z [k L] Hn (c & Ic & In' & NZ).
  rewrite (C53_2d solve pos vals az tris (fun _ => g) n SV TS F R); [|intros d Id; split; [|exact Z]; exists k; intros m Im; rewrite (L m (R d m Id Im)), Z; ring|exact Hn].
  assert (N : used_cells az vals n tris <> []).
  { intros E. assert (I : In c (used_cells az vals n tris)); [|rewrite E in I; exact I]. unfold used_cells. apply filter_In. split.
    - unfold cells_of. apply filter_In. split; [exact Ic|]. destruct (in_dec Nat.eq_dec n c); [reflexivity|contradiction].
    - destruct az; [|reflexivity]. unfold nonzero_cell. apply forallb_forall. intros m Im. destruct (Req_EM_T (value vals m) 0) as [X|]; [|reflexivity]. exfalso. exact (NZ eq_refl m Im X). }
  rewrite !average_const by exact N. destruct g as [x y z]. cbn in *. subst z. reflexivity.
Qed.

(* ---- one dimension --------------------------------------------------------------- *)
Definition line_edge (pos : list vec) (e : list nat) : Prop :=
  exists a b, e = [a; b] /\ a <> b /\ vx (P pos a) <> vx (P pos b) /\ vy (P pos a) = vy (P pos b) /\ vz (P pos a) = vz (P pos b).
Lemma edge_grad_ok : forall pos vals e, line_edge pos e -> edge_grad pos vals e = slope pos vals e.
Proof.
  intros pos vals e (a & b & -> & _ & NX & EY & EZ). unfold edge_grad, slope, unit_vec, edge_length, at_pos. cbn [nth]. fold (P pos a) (P pos b). cbv zeta.
  unfold val. fold (value vals a) (value vals b). unfold magnitude, vsub, vscale. cbn [vx vy vz]. rewrite EY, EZ.
  set (x := vx (P pos a)) in *. set (y := vx (P pos b)) in *. set (d := y - x). assert (D : d <> 0) by (unfold d; lra).
  replace ((x - y) * (x - y) + (vy (P pos b) - vy (P pos b)) * (vy (P pos b) - vy (P pos b)) + (vz (P pos b) - vz (P pos b)) * (vz (P pos b) - vz (P pos b))) with (d * d) by (unfold d; ring).
  replace (d * d + (vy (P pos b) - vy (P pos b)) * (vy (P pos b) - vy (P pos b)) + (vz (P pos b) - vz (P pos b)) * (vz (P pos b) - vz (P pos b))) with (d * d) by ring.
  rewrite sqrt_Rsqr_abs with (x := d) || change (sqrt (d * d)) with (sqrt (Rsqr d)); rewrite ?sqrt_Rsqr_abs.
  assert (A : Rabs d <> 0) by (apply Rabs_no_R0; exact D). replace (d * / Rabs d * (1 / Rabs d)) with (d / (Rabs d * Rabs d)) by (field; exact A).
  replace (Rabs d * Rabs d) with (d * d); [field; exact D|]. rewrite <- Rabs_mult. rewrite Rabs_right; [reflexivity|]. apply Rle_ge, Rle_0_sqr.
Qed.
Lemma edge_used_ok : forall vals az e, (exists a b, e = [a; b]) -> edge_used vals az e = if az then nonzero_cell vals e else true.
Proof.
  intros vals az e (a & b & ->). unfold edge_used. destruct az; [|reflexivity]. cbn [nth andb nonzero_cell forallb]. unfold nonzero_cell. cbn [forallb]. unfold is_zero, val, value.
  destruct (Req_EM_T (nth a vals 0) 0), (Req_EM_T (nth b vals 0) 0); reflexivity.
Qed.
(* A node with one or two edges: the mean of the difference quotients on its edges.
   (A region without branches: a node has at most two edges.) *)
Theorem C53_1d_partial : forall pos vals az edges n, Forall (line_edge pos) edges -> (n < length vals)%nat -> (length (cells_of n edges) <= 2)%nat ->
  nth_error (gradient_1d pos vals az edges) n = Some (average (slope pos vals) (used_cells az vals n edges)).
Proof.
  intros pos vals az edges n F Hn L2. unfold gradient_1d. rewrite nth_error_map. rewrite (nth_error_nth' _ 0%nat) by (rewrite seq_length; exact Hn). rewrite seq_nth by exact Hn. cbn [option_map Nat.add]. f_equal.
  rewrite cells_map by (eapply Forall_impl; [|exact F]; intros e (a & b & -> & N & _); constructor; [intros [X|[]]; congruence|constructor; [intros []|constructor]]).
  assert (G : Forall (line_edge pos) (cells_of n edges)). { apply Forall_forall. intros e I. rewrite Forall_forall in F. apply F. unfold cells_of in I. apply filter_In in I. apply I. }
  unfold used_cells. destruct (cells_of n edges) as [|e1 [|e2 [|e3 l]]]; [reflexivity| | |cbn in L2; lia].
  - inversion G; subst. cbn [node_loop filter]. rewrite edge_used_ok by (destruct H1 as (a & b & -> & _); eauto). destruct (if az then nonzero_cell vals e1 else true); cbn [fst snd].
    + change (Nat.eqb 1 0) with false. cbv match. cbn [average length]. unfold total. cbn [map fold_right]. rewrite edge_grad_ok by assumption. cbn [INR]. field.
    + change (Nat.eqb 0 0) with true. reflexivity.
  - inversion G; subst. inversion H2; subst. cbn [node_loop filter].
    rewrite (edge_used_ok vals az e1) by (destruct H1 as (a & b & -> & _); eauto). rewrite (edge_used_ok vals az e2) by (destruct H3 as (a & b & -> & _); eauto).
    rewrite !edge_grad_ok by assumption.
    destruct (if az then nonzero_cell vals e1 else true); destruct (if az then nonzero_cell vals e2 else true); cbn [fst snd]; change (Nat.eqb 1 0) with false; change (Nat.eqb 2 0) with false; change (Nat.eqb 0 0) with true; cbv match; cbn [fst snd];
      change (Nat.eqb 1 0) with false; change (Nat.eqb 2 0) with false; change (Nat.eqb 0 0) with true; cbv match; unfold average, total; cbn [map fold_right length]; rewrite ?S_INR; cbn [INR]; try field; reflexivity.
Qed.

(* ---- three dimensions: false ------------------------------------------------------- *)
Definition solid (pos : list vec) (c : list nat) : Prop :=
  exists a b d e, c = [a; b; d; e] /\ NoDup c /\ tetrahedron (P pos a) (P pos b) (P pos d) (P pos e).
Lemma all_zero : forall vals az tets f n, Forall (@NoDup nat) tets -> in_range vals tets -> (forall c, In c tets -> f c = zero_vec) -> node_mean vals az tets f n = zero_vec.
Proof.
  intros vals az tets f n F RG H. rewrite node_mean_ok by assumption. 
  assert (K : forall c, In c (used_cells az vals n tets) -> In c tets). { intros c I. unfold used_cells, cells_of in I. apply filter_In in I. destruct I as [I _]. apply filter_In in I. apply I. }
  assert (Q : forall p : vec -> R, p zero_vec = 0 -> average (fun c => p (f c)) (used_cells az vals n tets) = 0).
  { intros p Hp. rewrite (average_ext _ _ (fun _ => 0)) by (intros c I; rewrite (H c (K c I)); exact Hp). destruct (used_cells az vals n tets) eqn:E; [reflexivity|]. apply average_const. discriminate. }
  unfold zero_vec. f_equal; [apply (Q vx eq_refl)|apply (Q vy eq_refl)|apply (Q vz eq_refl)].
Qed.
(* Whatever the solver, as long as it returns only solutions: a linear function with a z component of the gradient has the
   gradient zero at every node of every mesh. *)
Theorem C53_3d_refuted : forall solve pos vals az tets g k n, solves solve ->
  Forall (solid pos) tets -> in_range vals tets -> vz g <> 0 ->
  (forall m, (m < length vals)%nat -> value vals m = vx g * vx (P pos m) + vy g * vy (P pos m) + vz g * vz (P pos m) + k) ->
  (n < length vals)%nat ->
  nth_error (gradient_3d solve pos vals az tets) n = Some (mkvec 0 0 0).
Proof.
  intros solve pos vals az tets g k n SV F R NZ L Hn. unfold gradient_3d. rewrite nth_error_map. rewrite (nth_error_nth' _ 0%nat) by (rewrite seq_length; exact Hn). rewrite seq_nth by exact Hn. cbn [option_map Nat.add]. f_equal.
  rewrite Forall_forall in F. apply all_zero; [apply Forall_forall; intros c I; destruct (F c I) as (? & ? & ? & ? & _ & N & _); exact N|exact R|].
  intros c I. destruct (F c I) as (p0 & p1 & p2 & p3 & -> & _ & T). unfold tet_gradient. cbv zeta. unfold at_pos. cbn [nth]. fold (P pos p0) (P pos p1) (P pos p2) (P pos p3).
  destruct (solve _ _ _ _) as [x|] eqn:E; [|reflexivity]. exfalso. destruct (SV _ _ _ _ _ E) as (E1 & E2 & E3). unfold dot in E1, E2, E3. cbn [vx vy vz] in E1, E2, E3.
  unfold val in E1, E2, E3. fold (value vals p0) (value vals p1) (value vals p2) (value vals p3) in E1, E2, E3.
  rewrite !(L p0), (L p1) in E1 by (apply (R _ _ I); cbn; auto). rewrite !(L p0), (L p2) in E2 by (apply (R _ _ I); cbn; auto). rewrite !(L p0), (L p3) in E3 by (apply (R _ _ I); cbn; auto 6).
  unfold tetrahedron, det3 in T.
  set (x0 := vx (P pos p0)) in *. set (y0 := vy (P pos p0)) in *. set (z0 := vz (P pos p0)) in *.
  set (X1 := vx (P pos p1) - x0) in *. set (Y1 := vy (P pos p1) - y0) in *. set (Z1 := vz (P pos p1) - z0) in *.
  set (X2 := vx (P pos p2) - x0) in *. set (Y2 := vy (P pos p2) - y0) in *. set (Z2 := vz (P pos p2) - z0) in *.
  set (X3 := vx (P pos p3) - x0) in *. set (Y3 := vy (P pos p3) - y0) in *. set (Z3 := vz (P pos p3) - z0) in *.
  set (u := vx x - vx g). set (v := vy x + vz x - vy g). 
  assert (Q1 : X1 * u + Y1 * v = vz g * Z1) by (unfold u, v, X1, Y1, Z1 in *; lra). assert (Q2 : X2 * u + Y2 * v = vz g * Z2) by (unfold u, v, X2, Y2, Z2 in *; lra). assert (Q3 : X3 * u + Y3 * v = vz g * Z3) by (unfold u, v, X3, Y3, Z3 in *; lra).
  apply T. apply Rmult_eq_reg_l with (vz g); [|exact NZ]. rewrite Rmult_0_r.
  replace (vz g * _) with (X1 * (Y2 * (vz g * Z3) - (vz g * Z2) * Y3) - Y1 * (X2 * (vz g * Z3) - (vz g * Z2) * X3) + (vz g * Z1) * (X2 * Y3 - Y2 * X3)) by ring.
  rewrite <- Q1, <- Q2, <- Q3. ring.
Qed.
(* With a solver that reports singular matrices, every node model has the gradient zero. *)
Theorem C53_3d_always_zero_refuted : forall solve pos vals az tets n, (forall r1 r2 r3 y, dot r1 (cross r2 r3) = 0 -> solve r1 r2 r3 y = None) ->
  Forall (@NoDup nat) tets -> in_range vals tets -> (n < length vals)%nat ->
  nth_error (gradient_3d solve pos vals az tets) n = Some (mkvec 0 0 0).
Proof.
  intros solve pos vals az tets n SG F R Hn. unfold gradient_3d. rewrite nth_error_map. rewrite (nth_error_nth' _ 0%nat) by (rewrite seq_length; exact Hn). rewrite seq_nth by exact Hn. cbn [option_map Nat.add]. f_equal.
  apply all_zero; [exact F|exact R|]. intros c I. unfold tet_gradient. cbv zeta. rewrite SG; [reflexivity|]. unfold dot, cross. cbn [vx vy vz]. ring.
Qed.
Definition te : list vec := [mkvec 0 0 0; mkvec 1 0 0; mkvec 0 1 0; mkvec 0 0 1].
(* The function x on a tetrahedron. *)
Example C53_3d_case : solves cramer /\ (forall r1 r2 r3 y, dot r1 (cross r2 r3) = 0 -> cramer r1 r2 r3 y = None) /\ Forall (solid te) [[0; 1; 2; 3]%nat] /\
  in_range [0; 1; 0; 0] [[0; 1; 2; 3]%nat] /\ in_range [0; 0; 0; 1] [[0; 1; 2; 3]%nat] /\
  (forall m, (m < 4)%nat -> value [0; 0; 0; 1] m = 0 * vx (P te m) + 0 * vy (P te m) + 1 * vz (P te m) + 0) /\
  gradient_3d cramer te [0; 1; 0; 0] false [[0; 1; 2; 3]%nat] = repeat (mkvec 0 0 0) 4.
Proof.
  assert (SG : forall r1 r2 r3 y, dot r1 (cross r2 r3) = 0 -> cramer r1 r2 r3 y = None). { intros r1 r2 r3 y H. unfold cramer. cbv zeta. destruct (Req_EM_T _ 0); [reflexivity|contradiction]. }
  assert (RG : forall v : list R, length v = 4%nat -> in_range v [[0; 1; 2; 3]%nat]). { intros v Lv c m [<-|[]] I. rewrite Lv. cbn in I. lia. }
  assert (ND : NoDup [0; 1; 2; 3]%nat) by (repeat constructor; cbn; lia).
  split; [exact cramer_solves|]. split; [exact SG|]. split; [constructor; [|constructor]; exists 0%nat, 1%nat, 2%nat, 3%nat; split; [reflexivity|]; split; [exact ND|]; unfold tetrahedron, det3, P, te; cbn [nth vx vy vz]; lra|].
  split; [apply RG; reflexivity|]. split; [apply RG; reflexivity|]. split.
  - intros [|[|[|[|m]]]] H; [unfold value, P, te; cbn [nth vx vy vz]; lra..|lia].
  -
    assert (Q : forall n, (n < 4)%nat -> nth_error (gradient_3d cramer te [0; 1; 0; 0] false [[0; 1; 2; 3]%nat]) n = Some (mkvec 0 0 0)).
    { intros n Hn. apply C53_3d_always_zero_refuted; [exact SG|constructor; [exact ND|constructor]|apply RG; reflexivity|exact Hn]. }
    assert (Ln : length (gradient_3d cramer te [0; 1; 0; 0] false [[0; 1; 2; 3]%nat]) = 4%nat) by (unfold gradient_3d; rewrite map_length, seq_length; reflexivity).
    revert Q Ln. generalize (gradient_3d cramer te [0; 1; 0; 0] false [[0; 1; 2; 3]%nat]). intros l Q Ln.
    destruct l as [|a [|b [|c [|d [|e l]]]]]; try discriminate Ln.
    pose proof (Q 0%nat ltac:(lia)) as Q0. pose proof (Q 1%nat ltac:(lia)) as Q1. pose proof (Q 2%nat ltac:(lia)) as Q2. pose proof (Q 3%nat ltac:(lia)) as Q3. cbn in Q0, Q1, Q2, Q3. injection Q0 as ->. injection Q1 as ->. injection Q2 as ->. injection Q3 as ->. reflexivity.
Qed.
(* One dimension, a node with three edges: the gradient of x is 2/3 there. *)
Theorem C53_1d_branch_refuted : let pos := [mkvec (-1) 0 0; mkvec 0 0 0; mkvec 1 0 0; mkvec 2 0 0] in let vals := [-1; 0; 1; 2] in
  let edges := [[0; 1]; [1; 2]; [1; 3]]%nat in
  Forall (line_edge pos) edges /\ (exists a, finalize_region 1 edges [] [] = Finished a) /\ average (slope pos vals) (used_cells false vals 1 edges) = 1 /\
  nth_error (gradient_1d pos vals false edges) 1 = Some (2 / 3).
Proof.
  cbv zeta. set (pos := [mkvec (-1) 0 0; mkvec 0 0 0; mkvec 1 0 0; mkvec 2 0 0]). set (vals := [-1; 0; 1; 2]). set (edges := [[0; 1]; [1; 2]; [1; 3]]%nat).
  assert (F : Forall (line_edge pos) edges).
  { unfold edges. repeat (constructor; [do 2 eexists; split; [reflexivity|]; split; [discriminate|]; unfold P, pos; cbn [nth vx vy vz]; repeat split; lra|]). constructor. }
  split; [exact F|]. split; [eexists; reflexivity|].
  assert (S1 : slope pos vals [0; 1]%nat = 1) by (unfold slope, value, P, pos, vals; cbn [nth vx]; field).
  assert (S2 : slope pos vals [1; 2]%nat = 1) by (unfold slope, value, P, pos, vals; cbn [nth vx]; field).
  assert (S3 : slope pos vals [1; 3]%nat = 1) by (unfold slope, value, P, pos, vals; cbn [nth vx]; field).
  assert (CE : cells_of 1 edges = edges) by reflexivity.
  split.
  - unfold used_cells. rewrite CE. unfold edges. cbn [filter]. unfold average, total. cbn [map fold_right length]. rewrite S1, S2, S3. cbn [INR]. field.
  - unfold gradient_1d. rewrite nth_error_map. change (nth_error (seq 0 (length vals)) 1) with (Some 1%nat). cbn [option_map]. f_equal.
    rewrite cells_map by (unfold edges; repeat constructor; cbn; lia). rewrite CE. rewrite Forall_forall in F. unfold edges in *. cbn [node_loop].
    rewrite !(edge_used_ok vals false) by eauto. rewrite !(edge_grad_ok pos vals) by (apply F; cbn; auto). rewrite S1, S2, S3. cbn [fst snd]. change (Nat.eqb 1 0) with false. change (Nat.eqb 2 0) with false. change (Nat.eqb 3 0) with false. cbv match. cbn [INR]. field.
Qed.
(* Two dimensions: the function x + 2y on two triangles, and the same with calc_type avoidzero. *)
Definition sq : list vec := [mkvec 0 0 0; mkvec 1 0 0; mkvec 1 1 0; mkvec 0 1 0].
Example C53_2d_case : Forall (flat_triangle sq) [[0; 1; 2]; [0; 2; 3]]%nat /\
  nth_error (gradient_2d cramer sq [1; 2; 4; 3] true [[0; 1; 2]; [0; 2; 3]]%nat) 0 = Some (mkvec 1 2 0) /\
  nth_error (gradient_2d cramer sq [0; 1; 3; 2] true [[0; 1; 2]; [0; 2; 3]]%nat) 2 = Some (mkvec 0 0 0).
Proof.
  assert (F : Forall (flat_triangle sq) [[0; 1; 2]; [0; 2; 3]]%nat).
  { repeat (constructor; [do 3 eexists; split; [reflexivity|]; split; [repeat constructor; cbn; lia|]; unfold P, sq; cbn [nth vx vy]; lra|]). constructor. }
  assert (RG : forall v : list R, length v = 4%nat -> in_range v [[0; 1; 2]; [0; 2; 3]]%nat). { intros v Lv c m I J. rewrite Lv. cbn in I. repeat (destruct I as [<-|I]; [cbn in J; lia|]). destruct I. }
  split; [exact F|]. split.
  - apply C53_2d_linear; [exact cramer_solves|exact cramer_total|exact F|apply RG; reflexivity|reflexivity| |cbn; lia|].
    + exists 1. intros [|[|[|[|m]]]] H; [unfold value, P, sq; cbn [nth vx vy vz]; lra..|cbn in H; lia].
    + exists [0; 1; 2]%nat. split; [cbn; auto|]. split; [cbn; auto|]. intros _ m H. cbn in H. unfold value. repeat (destruct H as [<-|H]; [cbn [nth]; lra|]). destruct H.
  - rewrite (C53_2d cramer sq [0; 1; 3; 2] true [[0; 1; 2]; [0; 2; 3]]%nat (fun _ => mkvec 1 2 0) 2 cramer_solves cramer_total F); [|apply RG; reflexivity| |cbn; lia].
    + assert (E : used_cells true [0; 1; 3; 2] 2 [[0; 1; 2]; [0; 2; 3]]%nat = []).
      { unfold used_cells. change (cells_of 2 [[0; 1; 2]; [0; 2; 3]]%nat) with [[0; 1; 2]; [0; 2; 3]]%nat. cbn [filter]. unfold nonzero_cell. cbn [forallb]. unfold value. cbn [nth]. destruct (Req_EM_T 0 0) as [_|N]; [reflexivity|exfalso; apply N; reflexivity]. }
      rewrite E. reflexivity.
    + intros c I. split; [|reflexivity]. exists 0. intros m J. cbn in I. repeat (destruct I as [<-|I]; [cbn in J; repeat (destruct J as [<-|J]; [unfold value, P, sq; cbn [nth vx vy vz]; lra|]); destruct J|]). destruct I.
Qed.
Example C53_1d_case : let pos := [mkvec 0 0 0; mkvec 1 0 0; mkvec 3 0 0] in Forall (line_edge pos) [[0; 1]; [1; 2]]%nat /\ nth_error (gradient_1d pos [0; 1; 5] false [[0; 1]; [1; 2]]%nat) 1 = Some (3 / 2).
Proof.
  cbv zeta. set (pos := [mkvec 0 0 0; mkvec 1 0 0; mkvec 3 0 0]).
  assert (F : Forall (line_edge pos) [[0; 1]; [1; 2]]%nat). { repeat (constructor; [do 2 eexists; split; [reflexivity|]; split; [discriminate|]; unfold P, pos; cbn [nth vx vy vz]; repeat split; lra|]). constructor. }
  split; [exact F|]. rewrite C53_1d_partial; [|exact F|cbn; lia|cbn; lia]. f_equal. unfold used_cells. change (cells_of 1 [[0; 1]; [1; 2]]%nat) with [[0; 1]; [1; 2]]%nat. cbn [filter]. unfold average, total. cbn [map fold_right length].
  unfold slope, value, P, pos. cbn [nth vx]. cbn [INR]. field.
Qed.
Print Assumptions C53_2d.
Print Assumptions C53_2d_linear.
Print Assumptions C53_1d_partial.
Print Assumptions C53_3d_refuted.
Print Assumptions C53_3d_always_zero_refuted.
Print Assumptions C53_1d_branch_refuted.
