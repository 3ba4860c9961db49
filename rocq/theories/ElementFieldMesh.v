(* element_from_edge_model and element_from_node_model on a region of triangles: proofs. *)
From Coq Require Import List Bool Arith Lia Reals Lra Permutation.
From Verif Require Import Adjacency AdjacencySpec AdjacencyProperties Geometry GeometrySpec GeometryProofs Volume VolumeSpec VolumeProofs VolumeMesh VolumeProperties VectorGradient VectorGradientSpec ElementField ElementFieldSpec ElementFieldProofs ElementFieldLinear.
Import ListNotations.
Open Scope R_scope.
Local Arguments Nat.ltb : simpl never.
Local Arguments Nat.leb : simpl never.

Lemma rows3 : forall A (f : nat -> option (list A)) row n, (forall k, (k < n)%nat -> f k = Some (row k) /\ length (row k) = 3%nat) ->
  exists r, option_map (@concat A) (opt_list (map f (seq 0 n))) = Some r /\ length r = (3 * n)%nat /\
    (forall k i d, (k < n)%nat -> (i < 3)%nat -> nth (3 * k + i) r d = nth i (row k) d) /\
    forall k, (k < n)%nat -> firstn 3 (skipn (3 * k) r) = row k.
Proof.
  intros A f row n H. rewrite (opt_list_ext _ _ f row) by (intros k I; apply in_seq in I; apply H; lia). cbn [option_map]. eexists. split; [reflexivity|].
  assert (G : forall s, (s + n <= s + n)%nat -> forall m, (m <= n)%nat -> length (concat (map row (seq 0 m))) = (3 * m)%nat).
  { intros s _ m. induction m as [|m IH]; intros Hm; [reflexivity|]. rewrite seq_S, map_app, concat_app, app_length, IH by lia. cbn [map concat plus]. rewrite app_nil_r. rewrite (proj2 (H m ltac:(lia))). lia. }
  split; [apply (G 0%nat); lia|].
  assert (SP : forall k, (k < n)%nat -> exists r2, concat (map row (seq 0 n)) = concat (map row (seq 0 k)) ++ row k ++ r2).
  { intros k Hk. assert (EN : seq 0 n = seq 0 k ++ seq (0 + k) (S (n - k - 1))) by (rewrite <- seq_app; f_equal; lia). rewrite EN, map_app, concat_app. cbn [plus seq map concat]. eexists. reflexivity. }
  split.
  - intros k i d Hk Hi. destruct (SP k Hk) as [r2 ->]. pose proof (G 0%nat (le_n _) k ltac:(lia)) as L. destruct (H k Hk) as [_ Lk].
    rewrite app_nth2 by lia. rewrite L. replace (3 * k + i - 3 * k)%nat with i by lia. apply app_nth1. lia.
  - intros k Hk. destruct (SP k Hk) as [r2 ->]. pose proof (G 0%nat (le_n _) k ltac:(lia)) as L. destruct (H k Hk) as [_ Lk].
    rewrite skipn_app, L, Nat.sub_diag. cbn [skipn]. rewrite skipn_all2 by lia. cbn [app].
    rewrite firstn_app, Lk, Nat.sub_diag, firstn_O, app_nil_r. apply firstn_all2. lia.
Qed.
(* two edges have different midpoints: the centre is not on both *)
Lemma mids_apart : forall p a b c, vx b <> vx c \/ vy b <> vy c -> 0 < dist (midpoint a b) p + dist (midpoint a c) p.
Proof.
  intros p a b c H. assert (0 <= dist (midpoint a b) p) by apply sqrt_pos. assert (0 <= dist (midpoint a c) p) by apply sqrt_pos.
  destruct (Req_EM_T (vx (midpoint a b)) (vx p)) as [E|E]; [|pose proof (dist_pos (midpoint a b) p (or_introl E)); lra].
  destruct (Req_EM_T (vy (midpoint a b)) (vy p)) as [F|F]; [|pose proof (dist_pos (midpoint a b) p (or_intror F)); lra].
  enough (0 < dist (midpoint a c) p) by lra. apply dist_pos. unfold midpoint in *. cbn [vx vy] in *. lra.
Qed.
Lemma mid_sym : forall a b, midpoint a b = midpoint b a.
Proof. intros. unfold midpoint. f_equal; f_equal; ring. Qed.

Section Reg.
Variables (eps : R) (solve2 : v2 -> v2 -> v2 -> option v2) (pos : list vec) (edges tris : list simplex) (a : adjacency) (couples : list R).
Hypothesis SV : solver2 solve2.
Hypothesis CR : complete_region edges tris [].
Hypothesis FIN : finalize_region 2 edges tris [] = Finished a.
Hypothesis FL : Forall (flat_triangle pos) tris.
Hypothesis CP : tri_couples eps pos edges tris a = Some couples.

Definition cen (c : simplex) : vec := triangle_center eps (at_pos pos c 0) (at_pos pos c 1) (at_pos pos c 2).
Lemma edge_len_mid : forall u v p, magnitude (vsub (edge_center pos [u; v]) p) = dist (midpoint (P pos u) (P pos v)) p.
Proof.
  intros. rewrite mag_dist. apply (f_equal (fun q => dist q p)). unfold edge_center, midpoint, vscale, vadd, at_pos. cbn [nth]. unfold P. cbn [vx vy vz].
  f_equal; unfold Rdiv; ring.
Qed.
Lemma at_tri : forall k c, nth_error tris k = Some c -> exists x y z i0 i1 i2, c = [x; y; z] /\ (x < y)%nat /\ (y < z)%nat /\
  nth_error edges i0 = Some [y; z] /\ nth_error edges i1 = Some [x; z] /\ nth_error edges i2 = Some [x; y] /\
  tdet (P pos x) (P pos y) (P pos z) <> 0 /\
  slot_edges edges a k = Some [(i0, [y; z]); (i1, [x; z]); (i2, [x; y])] /\
  first3 couples k = [dist (midpoint (P pos y) (P pos z)) (cen c); dist (midpoint (P pos x) (P pos z)) (cen c); dist (midpoint (P pos x) (P pos y)) (cen c)].
Proof.
  intros k c E. destruct (tri_row 2 edges tris [] a CR FIN k c E) as (x & y & z & i0 & i1 & i2 & Hc & XY & YZ & Rw & E0 & E1 & E2).
  exists x, y, z, i0, i1, i2. split; [exact Hc|]. split; [exact XY|]. split; [exact YZ|]. split; [exact E0|]. split; [exact E1|]. split; [exact E2|]. split; [|split].
  - rewrite Forall_forall in FL. destruct (FL c (nth_error_In _ _ E)) as (a' & b' & d' & Hc' & _ & Q). rewrite Hc in Hc'. injection Hc' as <- <- <-. exact Q.
  - unfold slot_edges. rewrite Rw. cbn [map opt_list]. rewrite E0, E1, E2. reflexivity.
  - unfold first3. assert (K : (k < length tris)%nat) by (apply nth_error_Some; unfold simplex in *; congruence).
    unfold tri_couples in CP.
    destruct (rows3 R (fun t => match nth_error (triangle_centers eps pos tris) t with None => None | Some c => opt_list (map (fun s => match s with Some e => match nth_error edges e with Some f => Some (magnitude (vsub (edge_center pos f) c)) | None => None end | None => None end) (nth t (adj_tri_edges a) [])) end)
      (fun t => map (g2 eps pos edges tris t) (tri_es a t)) (length tris)) as (r & Er & _ & _ & S).
    { intros t T. destruct (tri_idx tris t T) as [c' Ec']. unfold triangle_centers. rewrite (map_nth_error _ _ _ Ec').
      destruct (tri_row 2 edges tris [] a CR FIN t c' Ec') as (x' & y' & z' & j0 & j1 & j2 & Hc' & XY' & YZ' & R' & F0 & F1 & F2).
      unfold tri_es. rewrite R'. cbn [flat_map app map opt_list length]. rewrite F0, F1, F2. unfold g2.
      rewrite (nthe _ _ _ Ec'), (nthe _ _ _ F0), (nthe _ _ _ F1), (nthe _ _ _ F2). split; reflexivity. }
    rewrite Er in CP. injection CP as <-. rewrite S by exact K. unfold tri_es. rewrite Rw. cbn [flat_map app map]. unfold g2.
    rewrite (nthe _ _ _ E), (nthe _ _ _ E0), (nthe _ _ _ E1), (nthe _ _ _ E2), !edge_len_mid. reflexivity.
Qed.
Lemma weights_ok : forall x y z p, tdet (P pos x) (P pos y) (P pos z) <> 0 ->
  let w0 := dist (midpoint (P pos y) (P pos z)) p in let w1 := dist (midpoint (P pos x) (P pos z)) p in let w2 := dist (midpoint (P pos x) (P pos y)) p in
  w1 + w2 <> 0 /\ w0 + w2 <> 0 /\ w0 + w1 <> 0.
Proof.
  intros x y z p D. cbv zeta. destruct (tdet_apart _ _ _ D) as (A & B & C).
  pose proof (mids_apart p (P pos x) (P pos z) (P pos y) ltac:(destruct C; [left|right]; lra)).
  pose proof (mids_apart p (P pos y) (P pos z) (P pos x) ltac:(destruct B; [left|right]; lra)).
  pose proof (mids_apart p (P pos z) (P pos y) (P pos x) ltac:(destruct A; [left|right]; lra)).
  rewrite (mid_sym (P pos y) (P pos x)) in *. rewrite (mid_sym (P pos z) (P pos y)), (mid_sym (P pos z) (P pos x)) in *. repeat split; lra.
Qed.
(* the rows of the result *)
Definition tri3 (c : simplex) (b : R * R * R) : list vec :=
  let x := nth 0 c 0%nat in let y := nth 1 c 0%nat in let z := nth 2 c 0%nat in
  fields (dist (midpoint (P pos y) (P pos z)) (cen c)) (dist (midpoint (P pos x) (P pos z)) (cen c)) (dist (midpoint (P pos x) (P pos y)) (cen c)) (cv pos x y z (fst (fst b)) (snd (fst b)) (snd b)).
Definition slots_of (k : nat) : nat * nat * nat := match tri_es a k with [i0; i1; i2] => (i0, i1, i2) | _ => (0, 0, 0)%nat end.
Definition tri_data (ev : list R) (k : nat) : R * R * R := let s := slots_of k in (nth (fst (fst s)) ev 0, nth (snd (fst s)) ev 0, nth (snd s) ev 0).
Lemma slots_at : forall k x y z i0 i1 i2, nth_error tris k = Some [x; y; z] -> nth_error edges i0 = Some [y; z] -> nth_error edges i1 = Some [x; z] -> nth_error edges i2 = Some [x; y] -> slots_of k = (i0, i1, i2).
Proof.
  intros k x y z i0 i1 i2 E E0 E1 E2. destruct (tri_row 2 edges tris [] a CR FIN k _ E) as (x' & y' & z' & j0 & j1 & j2 & Hc & XY & YZ & Rw & F0 & F1 & F2).
  injection Hc as <- <- <-. unfold slots_of, tri_es. rewrite Rw. cbn [flat_map app].
  pose proof (proj1 (cr_edges _ _ _ CR)) as ND.
  rewrite (edge_index edges j0 i0 _ ND F0 E0), (edge_index edges j1 i1 _ ND F1 E1), (edge_index edges j2 i2 _ ND F2 E2). reflexivity.
Qed.
Lemma pick_ok : forall ev k x y z i0 i1 i2, length ev = length edges -> nth_error tris k = Some [x; y; z] -> nth_error edges i0 = Some [y; z] -> nth_error edges i1 = Some [x; z] -> nth_error edges i2 = Some [x; y] ->
  pick ev [(i0, [y; z]); (i1, [x; z]); (i2, [x; y])] = Some [fst (fst (tri_data ev k)); snd (fst (tri_data ev k)); snd (tri_data ev k)].
Proof.
  intros ev k x y z i0 i1 i2 L E E0 E1 E2. unfold pick, tri_data. rewrite (slots_at k x y z i0 i1 i2 E E0 E1 E2). cbn [map opt_list fst snd].
  assert (B : forall i s, nth_error edges i = Some s -> nth_error ev i = Some (nth i ev 0)) by (intros i s Q; apply nth_error_nth'; rewrite L; apply nth_error_Some; congruence).
  rewrite (B _ _ E0), (B _ _ E1), (B _ _ E2). reflexivity.
Qed.
Lemma from_edge_rows : forall ev, length ev = length edges -> forall k, (k < length tris)%nat ->
  bind (nth_error tris k) (fun c => bind (slot_edges edges a k) (fun sl => bind (pick ev sl) (fun data => tri_field solve2 pos c (map snd sl) (first3 couples k) data)))
    = Some (tri3 (nth k tris []) (tri_data ev k)) /\ length (tri3 (nth k tris []) (tri_data ev k)) = 3%nat.
Proof.
  intros ev L k K. split; [|reflexivity]. destruct (tri_idx tris k K) as [c E]. rewrite E. rewrite (nthe _ _ _ E). cbn [bind].
  destruct (at_tri k c E) as (x & y & z & i0 & i1 & i2 & -> & XY & YZ & E0 & E1 & E2 & D & S & C). rewrite S. cbn [bind].
  rewrite (pick_ok ev k x y z i0 i1 i2 L E E0 E1 E2). cbn [bind map snd]. rewrite C. unfold tri3. cbn [nth].
  destruct (weights_ok x y z (cen [x; y; z]) D) as (W0 & W1 & W2).
  apply (tri_field_ok solve2 pos x y z); try lia; try assumption; try (left; reflexivity).
  intros mi Hm. apply (pair_ok solve2 SV pos x y z D). exact Hm.
Qed.
Lemma from_edge_ok : forall ev, length ev = length edges -> exists r, element_from_edge solve2 pos edges tris a couples ev = Some r /\ length r = (3 * length tris)%nat /\
  forall k c i, nth_error tris k = Some c -> (i < 3)%nat -> nth (3 * k + i) r zero_vec = nth i (tri3 c (tri_data ev k)) zero_vec.
Proof.
  intros ev L. destruct (rows3 _ _ _ _ (from_edge_rows ev L)) as (r & E & Ln & N & _). exists r. split; [exact E|]. split; [exact Ln|].
  intros k c i Ec Hi. assert (K : (k < length tris)%nat) by (apply nth_error_Some; unfold simplex in *; congruence). rewrite N by assumption. rewrite (nthe _ _ _ Ec). reflexivity.
Qed.
(* the derivative *)
Definition hd3 (c : simplex) (i : nat) : list nat := let x := nth 0 c 0%nat in let y := nth 1 c 0%nat in let z := nth 2 c 0%nat in
  match i with 0%nat => [y; z; x] | 1%nat => [x; z; y] | _ => [x; y; z] end.
Definition nd_data (ev0 ev1 : list R) (k n : nat) : R * R * R :=
  let c := nth k tris [] in let x := nth 0 c 0%nat in let y := nth 1 c 0%nat in let z := nth 2 c 0%nat in
  let d0 := tri_data ev0 k in let d1 := tri_data ev1 k in
  let g h t p q := if Nat.eqb h n then p else if Nat.eqb t n then q else 0 in
  (g y z (fst (fst d0)) (fst (fst d1)), g x z (snd (fst d0)) (snd (fst d1)), g x y (snd d0) (snd d1)).
Lemma from_edge_d_rows : forall ev0 ev1 nd, length ev0 = length edges -> length ev1 = length edges -> (nd < 3)%nat -> exists row, forall k, (k < length tris)%nat ->
  (bind (nth_error tris k) (fun c => bind (slot_edges edges a k) (fun sl => bind (pick ev0 sl) (fun d0 => bind (pick ev1 sl) (fun d1 =>
      bind (tri_dfield solve2 pos c (map snd sl) (first3 couples k) d0 d1) (fun r => nth_error r nd))))) = Some (row k) /\ length (row k) = 3%nat) /\
  forall i, (i < 3)%nat -> nth i (row k) zero_vec = nth i (tri3 (nth k tris []) (nd_data ev0 ev1 k (nth nd (hd3 (nth k tris []) i) 0%nat))) zero_vec.
Proof.
  intros ev0 ev1 nd L0 L1 Hnd.
  set (F := fun k => bind (nth_error tris k) (fun c => bind (slot_edges edges a k) (fun sl => bind (pick ev0 sl) (fun d0 => bind (pick ev1 sl) (fun d1 =>
      bind (tri_dfield solve2 pos c (map snd sl) (first3 couples k) d0 d1) (fun r => nth_error r nd)))))).
  exists (fun k => match F k with Some l => l | None => [] end). intros k K. change (bind (nth_error tris k) _) with (F k).
  enough (G : exists l, F k = Some l /\ length l = 3%nat /\ forall i, (i < 3)%nat -> nth i l zero_vec = nth i (tri3 (nth k tris []) (nd_data ev0 ev1 k (nth nd (hd3 (nth k tris []) i) 0%nat))) zero_vec).
  { destruct G as (l & -> & A & B). auto. }
  destruct (tri_idx tris k K) as [c E]. rewrite (nthe _ _ _ E). unfold F. rewrite E. cbn [bind].
  destruct (at_tri k c E) as (x & y & z & i0 & i1 & i2 & -> & XY & YZ & E0 & E1 & E2 & D & S & C). rewrite S. cbn [bind].
  rewrite (pick_ok ev0 k x y z i0 i1 i2 L0 E E0 E1 E2), (pick_ok ev1 k x y z i0 i1 i2 L1 E E0 E1 E2). cbn [bind map snd]. rewrite C.
  destruct (weights_ok x y z (cen [x; y; z]) D) as (W0 & W1 & W2).
  set (d0 := [fst (fst (tri_data ev0 k)); snd (fst (tri_data ev0 k)); snd (tri_data ev0 k)]). set (d1 := [fst (fst (tri_data ev1 k)); snd (fst (tri_data ev1 k)); snd (tri_data ev1 k)]).
  assert (DP := fun ni mi Hn Hm => dpair_ok solve2 SV pos x y z D d0 d1 ni mi eq_refl eq_refl Hn Hm). cbv zeta in DP.
  set (w0 := dist (midpoint (P pos y) (P pos z)) (cen [x; y; z])) in *. set (w1 := dist (midpoint (P pos x) (P pos z)) (cen [x; y; z])) in *. set (w2 := dist (midpoint (P pos x) (P pos y)) (cen [x; y; z])) in *.
  destruct (tri_dfield_ok solve2 pos x y z ltac:(lia) ltac:(lia) ltac:(lia) [y; z] [x; z] [x; y] (or_introl eq_refl) (or_introl eq_refl) (or_introl eq_refl) w0 w1 w2 W0 W1 W2 d0 d1
    (fun ni mi => cv pos x y z (nd3 x y z d0 d1 (nth ni [x; y; z] 0%nat) 0) (nd3 x y z d0 d1 (nth ni [x; y; z] 0%nat) 1) (nd3 x y z d0 d1 (nth ni [x; y; z] 0%nat) 2) mi) DP) as (r & Er & Q).
  rewrite Er. cbn [bind].
  assert (N : forall i, (i < 3)%nat -> exists ni, (ni < 3)%nat /\ nth nd (order x y z [y; z] [x; z] [x; y] i) 0%nat = nth ni [x; y; z] 0%nat /\ nth ni [x; y; z] 0%nat = nth nd (hd3 [x; y; z] i) 0%nat).
  { intros i Hi. unfold order, hd3, hd_, tl_. destruct i as [|[|[|i]]]; [| | |lia]; (destruct nd as [|[|[|nd]]]; [| | |lia]); cbn [nth];
      first [exists 0%nat; split; [lia|split; reflexivity] | exists 1%nat; split; [lia|split; reflexivity] | exists 2%nat; split; [lia|split; reflexivity]]. }
  destruct (N 0%nat ltac:(lia)) as (n0 & Hn0 & On0 & _). destruct (Q nd 0%nat n0 Hnd ltac:(lia) Hn0 On0) as (l & El & Ll & _).
  exists l. split; [exact El|]. split; [exact Ll|]. intros i Hi. destruct (N i Hi) as (ni & Hni & Oni & Pn). destruct (Q nd i ni Hnd Hi Hni Oni) as (l' & El' & _ & X).
  rewrite El in El'. injection El' as <-. rewrite X. cbv beta. rewrite Pn. set (n := nth nd (hd3 [x; y; z] i) 0%nat). clearbody n.
  unfold tri3, nd_data. rewrite (nthe _ _ _ E). cbn [nth]. fold w0 w1 w2. cbn [fst snd]. reflexivity.
Qed.
Lemma from_edge_d_ok : forall ev0 ev1 nd, length ev0 = length edges -> length ev1 = length edges -> (nd < 3)%nat ->
  exists r, element_from_edge_d solve2 pos edges tris a couples ev0 ev1 nd = Some r /\ length r = (3 * length tris)%nat /\
  forall k c i, nth_error tris k = Some c -> (i < 3)%nat -> nth (3 * k + i) r zero_vec = nth i (tri3 c (nd_data ev0 ev1 k (nth nd (hd3 c i) 0%nat))) zero_vec.
Proof.
  intros ev0 ev1 nd L0 L1 Hnd. destruct (from_edge_d_rows ev0 ev1 nd L0 L1 Hnd) as [row H].
  destruct (rows3 _ _ row _ (fun k K => proj1 (H k K))) as (r & E & Ln & N & _). exists r. split; [exact E|]. split; [exact Ln|].
  intros k c i Ec Hi. assert (K : (k < length tris)%nat) by (apply nth_error_Some; unfold simplex in *; congruence). rewrite N by assumption.
  rewrite (proj2 (H k K) i Hi). rewrite (nthe _ _ _ Ec). reflexivity.
Qed.
End Reg.
