(* C35, C36: two dimensional meshes *)
From Coq Require Import String List Bool Arith ZArith Lia Reals Lra Sorting.Sorted Sorting.Permutation FinFun.
From Flocq Require Import IEEE754.BinarySingleNaN.
From Verif Require Import StrMap MeshLine MeshLineProofs MeshLineProperties Mesh2 Mesh2Spec Mesh2Grid Mesh2Proofs FloatLaws CMatrixFloat.
Import ListNotations.
Open Scope string_scope.
Open Scope list_scope.
Open Scope R_scope.

(* The triangles of a grid with any increasing positions are a conforming triangulation of the rectangle. *)
Theorem C35_grid : forall xs ys, StronglySorted Rlt xs -> StronglySorted Rlt ys -> (2 <= length xs)%nat -> (2 <= length ys)%nat ->
  triangulates (nth 0 xs 0) (last xs 0) (nth 0 ys 0) (last ys 0) (grid_points xs ys) (grid_triangles (length xs) (length ys)).
Proof. exact grid_triangulates. Qed.
Print Assumptions C35_grid.
Example C35_grid_case : StronglySorted Rlt [0; 1; 3] /\ StronglySorted Rlt [-1; 2] /\ grid_triangles 3 2 = [(0, 1, 2); (1, 2, 3); (2, 3, 4); (3, 4, 5)]%nat.
Proof. split; [|split; [|reflexivity]]; repeat constructor; lra. Qed.

Section Fin.
Variable so : list (@line R) -> list (@line R).
Hypothesis Hso : sorts_lines so.
Lemma ss_sorted : forall A (P : A -> A -> Prop) l, StronglySorted P l -> Sorted P l.
Proof. intros. now apply StronglySorted_Sorted. Qed.
(* one direction *)
Lemma axis : forall ls fuel xs, Forall spaced ls -> (2 <= length (collapse reqb (so ls)))%nat -> get_locations rN fuel (collapse reqb (so ls)) = Ok xs ->
  StronglySorted Rlt xs /\ (2 <= length xs)%nat /\ In (nth 0 xs 0) (map (@pos R) ls) /\ In (last xs 0) (map (@pos R) ls) /\ incl (map (@pos R) ls) xs /\
  forall x, In x (map (@pos R) ls) -> nth 0 xs 0 <= x <= last xs 0.
Proof.
  intros ls fuel xs F L2 H. destruct (Hso ls) as [P S]. destruct (collapse_facts _ (ss_sorted _ _ _ S)) as (A & B & C).
  set (c := collapse reqb (so ls)) in *. assert (Fc : Forall spaced c).
  { rewrite Forall_forall in *. intros x I. apply F. apply (Permutation_in _ P). now apply C. }
  assert (B' : forall x, In x (map (@pos R) c) <-> In x (map (@pos R) ls)).
  { intros x. rewrite B. split; apply Permutation_in; [|apply Permutation_sym]; now apply Permutation_map. }
  pose proof (locations_facts _ _ _ H Fc) as D. destruct (distributed_increasing _ _ D) as [I1 I2]. destruct (distributed_ends _ _ D) as [E1 E2]. pose proof (distributed_lines _ _ D) as Inc.
  assert (Inc' : incl (map (@pos R) ls) xs) by (intros x I; apply Inc, B', I).
  assert (Pc : (2 <= length (map (@pos R) c))%nat) by (now rewrite map_length).
  assert (N2 : (2 <= length xs)%nat).
  { etransitivity; [exact Pc|]. apply NoDup_incl_length; [|exact Inc]. apply ss_NoDup. now apply (distributed_pos c xs). }
  assert (HQ : forall x, In x xs -> nth 0 xs 0 <= x <= last xs 0).
  { intros x I. apply (In_nth xs x 0) in I. destruct I as (n & Hn & <-). rewrite last_nth. split.
    - destruct n; [lra|]. left. apply ss_nth; [exact I1|lia|exact Hn].
    - destruct (Nat.eq_dec n (length xs - 1)) as [->|N]; [lra|]. left. apply ss_nth; [exact I1|lia|lia]. }
  split; [exact I1|]. split; [exact N2|]. split; [|split; [|split; [exact Inc'|intros x I; apply HQ, Inc', I]]].
  - apply B'. destruct xs as [|x xs]; [cbn in N2; lia|]. cbn [nth]. cbn in E1. rewrite E1. destruct (map (@pos R) c); [cbn in Pc; lia|]. now left.
  - apply B'. rewrite E2. destruct (map (@pos R) c) as [|y l] eqn:E; [cbn in Pc; lia|]. rewrite (app_removelast_last 0 (l := y :: l)) at 2 by discriminate. apply in_or_app. right. now left.
Qed.
Lemma wins_find : forall ds x y n, NoDup (map dname ds) -> find_region rN (map shape_of ds) x y None = Some n <-> exists d, wins ds x y d /\ dname d = n.
Proof.
  intros ds x y n N. rewrite find_region_spec. split.
  - intros [(pre & s & post & E & Hn & I & F)|[H _]]; [|discriminate]. apply map_eq_app in E. destruct E as (p1 & p2 & -> & <- & E).
    destruct p2 as [|d p2]; [discriminate|]. cbn [map] in E. injection E as <- <-. exists d. split; [|exact Hn]. split; [now apply inside_of|]. exists p1, p2. split; [reflexivity|].
    rewrite Forall_map in F. revert F. apply Forall_impl. intros e. apply inside_not.
  - intros (d & [Hd (pre & post & -> & F)] & <-). left. exists (map shape_of pre), (shape_of d), (map shape_of post). rewrite map_app. split; [reflexivity|]. split; [reflexivity|].
    split; [now apply inside_of|]. rewrite Forall_map. revert F. apply Forall_impl. intros e. apply inside_not.
Qed.
Lemma wins_none : forall ds x y, find_region rN (map shape_of ds) x y None = None <-> forall d, In d ds -> ~ holds d x y.
Proof.
  intros ds x y. rewrite find_region_none, Forall_map, Forall_forall. split.
  - intros [_ H] d I. apply inside_not. now apply H.
  - intros H. split; [reflexivity|]. intros d I. apply inside_not. now apply H.
Qed.
Lemma centre_point : forall cs t, centre rN 3 cs t = centroid cs t.
Proof.
  intros cs [[i j] k]. unfold centre, centroid, point, at_. cbn [zero add div rN]. f_equal; field.
Qed.

Lemma forallb_false : forall A (f : A -> bool) l, forallb f l = false -> exists p, In p l /\ f p = false.
Proof.
  intros A f. induction l as [|p l IH]; intros H; [discriminate|]. cbn [forallb] in H. apply andb_false_elim in H. destruct H as [E|E].
  - exists p. split; [now left|exact E].
  - destruct (IH E) as (q & I & Q). exists q. split; [now right|exact Q].
Qed.
(* the result of finalize2 *)
Definition full (p : string * rmesh) : bool := match rm_triangles (snd p) with [] => false | _ => true end.
Lemma finalize2_facts : forall cs fuel l, let m := run2 rN cs new_mesh2 in finalize2 rN reqb 3 so fuel m = Ok l ->
  exists xs ys, get_locations rN fuel (collapse reqb (so (flat_map xl_of cs))) = Ok xs /\ get_locations rN fuel (collapse reqb (so (flat_map yl_of cs))) = Ok ys /\
   (2 <= length (collapse reqb (so (flat_map xl_of cs))))%nat /\ (2 <= length (collapse reqb (so (flat_map yl_of cs))))%nat /\
   let c := grid_points xs ys in let ts := grid_triangles (length xs) (length ys) in
   let rds := map shape_of (news [] (region_decls cs)) in let rl := regions_of rN 3 c rds ts in
   let cds := map shape_of (news [] (contact_decls cs)) in let ids := map shape_of (news [] (interface_decls cs)) in
   l = mkloaded c (filter full rl) (map (fun s => (h_name s, select (h_name s) (contact_of rN c rl cds) (length c))) cds)
         (map (fun s => (h_name s, select (h_name s) (interface_of rN c rl cds ids) (length c))) ids) /\ exists p, In p rl /\ full p = true.
Proof.
  intros cs fuel l m H. destruct (built2 cs) as (A & B & C & D & E). fold m in A, B, C, D, E. unfold finalize2 in H. rewrite A, B, C, D, E in H.
  destruct (Nat.ltb (length (collapse reqb (so (flat_map xl_of cs)))) 2 || Nat.ltb (length (collapse reqb (so (flat_map yl_of cs)))) 2) eqn:E2; [discriminate|].
  apply orb_false_elim in E2. destruct E2 as [E3 E4]. apply Nat.ltb_ge in E3, E4.
  apply rbind_Ok in H. destruct H as (xs & Hx & H). apply rbind_Ok in H. destruct H as (ys & Hy & H).
  exists xs, ys. split; [exact Hx|]. split; [exact Hy|]. split; [exact E3|]. split; [exact E4|]. cbv zeta.
  match type of H with (if ?b then _ else _) = _ => destruct b eqn:Eb; [discriminate|] end. injection H as <-. split.
  - f_equal.
  - pose proof (forallb_false _ _ _ Eb) as X.
    destruct X as (p & I & Q). exists p. split; [exact I|]. unfold full. destruct (rm_triangles (snd p)); [discriminate|reflexivity].
Qed.
Lemma regions_In : forall c ds ts n r, NoDup (map dname ds) -> In (n, r) (regions_of rN 3 c (map shape_of ds) ts) <->
  r = region_mesh rN 3 c (map shape_of ds) n ts /\ In n (map dname ds).
Proof.
  intros c ds ts n r N. unfold regions_of. rewrite map_map. cbn [shape_of h_name]. rewrite in_map_iff. split.
  - intros (d & [= <- <-] & I). split; [reflexivity|]. now apply in_map.
  - intros [-> I]. apply in_map_iff in I. destruct I as (d & <- & I). exists d. now split.
Qed.
Lemma full_filter : forall r ts, covers r ts -> match rm_triangles r with [] => false | _ => true end = match ts with [] => false | _ => true end.
Proof. intros r ts [_ F _ _]. destruct F; reflexivity. Qed.
End Fin.

(* The mesh of any commands, if it can be finalised: its coordinates and triangles are a conforming triangulation of the rectangle between the outermost
   lines; the region of each triangle is the last one declared that has its centroid; the mesh of each region consists of its triangles, their
   vertices (one node at each) and their edges; a triangle outside of all regions is left out. *)
Theorem C35_mesh_partial : forall so, sorts_lines so -> forall cs fuel l, finalize2 rN reqb 3 so fuel (run2 rN cs new_mesh2) = Ok l ->
  exists x0 x1 y0 y1 ts, let ds := news [] (region_decls cs) in
    In x0 (x_lines cs) /\ In x1 (x_lines cs) /\ (forall x, In x (x_lines cs) -> x0 <= x <= x1) /\
    In y0 (y_lines cs) /\ In y1 (y_lines cs) /\ (forall y, In y (y_lines cs) -> y0 <= y <= y1) /\
    x0 < x1 /\ y0 < y1 /\
    (forall x y, In x (x_lines cs) -> In y (y_lines cs) -> In (x, y) (l_coords l)) /\
    triangulates x0 x1 y0 y1 (l_coords l) ts /\
    NoDup (map fst (l_regions l)) /\ l_regions l <> [] /\
    (forall n r, In (n, r) (l_regions l) -> exists sel, sel <> [] /\ NoDup sel /\ covers r sel /\
       forall t, In t sel <-> In t ts /\ exists d, wins ds (fst (centroid (l_coords l) t)) (snd (centroid (l_coords l) t)) d /\ dname d = n) /\
    (forall t d, In t ts -> wins ds (fst (centroid (l_coords l) t)) (snd (centroid (l_coords l) t)) d -> In (dname d) (map fst (l_regions l))).
Proof.
  intros so Hso cs fuel l H. destruct (finalize2_facts so cs fuel l H) as (xs & ys & Hx & Hy & Lx & Ly & El & Full). cbv zeta in El, Full.
  destruct (lines_of cs) as (Px & Py & Fx & Fy).
  destruct (axis so Hso _ _ _ Fx Lx Hx) as (Sx & Nx & X0 & X1 & Ix & Qx). destruct (axis so Hso _ _ _ Fy Ly Hy) as (Sy & Ny & Y0 & Y1 & Iy & Qy).
  rewrite Px in *. rewrite Py in *.
  set (c := grid_points xs ys) in *. set (ts := grid_triangles (length xs) (length ys)) in *.
  set (ds := news [] (region_decls cs)) in *. assert (Nd : NoDup (map dname ds)) by apply (news_NoDup (region_decls cs) []).
  assert (G : triangulates (nth 0 xs 0) (last xs 0) (nth 0 ys 0) (last ys 0) c ts) by (now apply grid_triangulates).
  assert (Dt : Forall (fun t => NoDup (corners t)) ts). { eapply Forall_impl; [|exact (t_vertices _ _ _ _ _ _ G)]. intros t [_ K]. exact K. }
  assert (Cv : forall n, covers (region_mesh rN 3 c (map shape_of ds) n ts) (filter (of_region rN 3 c (map shape_of ds) n) ts)) by (intros n; now apply region_covers).
  assert (Of : forall n t, of_region rN 3 c (map shape_of ds) n t = true <-> exists d, wins ds (fst (centroid c t)) (snd (centroid c t)) d /\ dname d = n).
  { intros n t. unfold of_region, region_of. rewrite centre_point. rewrite <- (wins_find ds _ _ n Nd). destruct (find_region rN (map shape_of ds) _ _ None) as [n'|].
    - rewrite String.eqb_eq. split; [now intros ->|now intros [= ->]].
    - split; discriminate. }
  assert (Ec : l_coords l = c) by (rewrite El; reflexivity).
  assert (Er : l_regions l = filter full (regions_of rN 3 c (map shape_of ds) ts)) by (rewrite El; reflexivity).
  exists (nth 0 xs 0), (last xs 0), (nth 0 ys 0), (last ys 0), ts. cbv zeta. rewrite Ec, Er.
  split; [exact X0|]. split; [exact X1|]. split; [exact Qx|]. split; [exact Y0|]. split; [exact Y1|]. split; [exact Qy|].
  split. { rewrite last_nth. apply ss_nth; [exact Sx|lia|lia]. } split. { rewrite last_nth. apply ss_nth; [exact Sy|lia|lia]. }
  split. { intros x y I J. unfold c, grid_points. apply in_flat_map. exists x. split; [now apply Ix|]. apply in_map_iff. exists y. split; [reflexivity|now apply Iy]. }
  split; [exact G|].
  split. { assert (X : NoDup (map fst (regions_of rN 3 c (map shape_of ds) ts))). { unfold regions_of. rewrite !map_map. exact Nd. }
    revert X. generalize (regions_of rN 3 c (map shape_of ds) ts) as rl. clear. induction rl as [|p rl IH]; intros X; [exact X|]. cbn [filter]. inversion X as [|? ? X1 X2]; subst.
    destruct (full p); [|now apply IH]. cbn [map]. constructor; [|now apply IH]. intros I. apply X1. apply in_map_iff in I. destruct I as (q & <- & I). apply in_map. apply filter_In in I. apply I. }
  split. { destruct Full as (p & I & Q). intros E. assert (J : In p (filter full (regions_of rN 3 c (map shape_of ds) ts))) by (apply filter_In; now split). rewrite E in J. destruct J. }
  split.
  - intros n r I. apply filter_In in I. destruct I as [I F]. apply regions_In in I; [|exact Nd]. destruct I as [-> I].
    exists (filter (of_region rN 3 c (map shape_of ds) n) ts). split; [|split; [|split]].
    + unfold full in F. cbn [snd] in F. rewrite (full_filter _ _ (Cv n)) in F. destruct (filter _ ts); congruence.
    + apply NoDup_filter. exact (t_once _ _ _ _ _ _ G).
    + apply Cv.
    + intros t. rewrite filter_In, Of. tauto.
  - intros t d It W. apply in_map_iff. exists (dname d, region_mesh rN 3 c (map shape_of ds) (dname d) ts). split; [reflexivity|]. apply filter_In. split.
    + apply regions_In; [exact Nd|]. split; [reflexivity|]. apply in_map. destruct W as (_ & pre & post & E & _). rewrite E. apply in_or_app. right. now left.
    + unfold full. cbn [snd]. rewrite (full_filter _ _ (Cv (dname d))). assert (J : In t (filter (of_region rN 3 c (map shape_of ds) (dname d)) ts)).
      { apply filter_In. split; [exact It|]. apply Of. exists d. now split. } destruct (filter _ ts); [destruct J|reflexivity].
Qed.
Print Assumptions C35_mesh_partial.

(* Finalising always ends: with a mesh, or refused *)
Section Prog.
Variable so : list (@line R) -> list (@line R).
Hypothesis Hso : sorts_lines so.
Lemma axis_progress : forall ls, Forall spaced ls -> collapse reqb (so ls) <> [] -> exists n xs, forall fuel, (n <= fuel)%nat -> get_locations rN fuel (collapse reqb (so ls)) = Ok xs.
Proof.
  intros ls F Ne. destruct (Hso ls) as [P S]. destruct (collapse_facts _ (ss_sorted _ _ _ S)) as (A & B & C).
  set (c := collapse reqb (so ls)) in *. assert (Fc : Forall spaced c).
  { rewrite Forall_forall in *. intros x I. apply F. apply (Permutation_in _ P). now apply C. }
  clearbody c. destruct c as [|a t]; [congruence|]. cbn [get_locations]. destruct (more_progress t a [pos a] Fc A) as (n & l & E). exists n, l. intros fuel Hf.
  replace fuel with (n + (fuel - n))%nat by lia. now apply more_mono.
Qed.
Lemma lines2 : forall ls, (exists a b, In a (map (@pos R) ls) /\ In b (map (@pos R) ls) /\ a <> b) <-> (2 <= length (collapse reqb (so ls)))%nat.
Proof.
  intros ls. destruct (Hso ls) as [P S]. destruct (collapse_facts _ (ss_sorted _ _ _ S)) as (A & B & C).
  assert (B' : forall x, In x (map (@pos R) (collapse reqb (so ls))) <-> In x (map (@pos R) ls)).
  { intros x. rewrite B. split; apply Permutation_in; [|apply Permutation_sym]; now apply Permutation_map. }
  set (c := collapse reqb (so ls)) in *. clearbody c. split.
  - intros (a & b & Ia & Ib & N). apply B' in Ia, Ib. destruct c as [|p [|q c]]; cbn in *; try lia; try tauto. exfalso. destruct Ia as [<-|[]], Ib as [<-|[]]. congruence.
  - intros L. destruct c as [|p [|q c]]; cbn in L; try lia. exists (pos p), (pos q). split; [apply B'; now left|]. split; [apply B'; right; now left|].
    inversion A as [|? ? _ Hd]; subst. inversion Hd; subst. lra.
Qed.
End Prog.
Theorem C35_terminates_partial : forall so, sorts_lines so -> forall cs, exists n r, (forall fuel, (n <= fuel)%nat -> finalize2 rN reqb 3 so fuel (run2 rN cs new_mesh2) = r) /\
  (r = Fail \/ exists l, r = Ok l).
Proof.
  intros so Hso cs. destruct (built2 cs) as (A & B & _). destruct (lines_of cs) as (_ & _ & Fx & Fy). unfold finalize2. rewrite A, B.
  destruct (Nat.ltb (length (collapse reqb (so (flat_map xl_of cs)))) 2) eqn:E1; [exists 0%nat, Fail; split; [reflexivity|now left]|].
  destruct (Nat.ltb (length (collapse reqb (so (flat_map yl_of cs)))) 2) eqn:E2; [exists 0%nat, Fail; split; [reflexivity|now left]|]. cbn [orb].
  apply Nat.ltb_ge in E1, E2.
  destruct (axis_progress so Hso _ Fx) as (n & xs & Hx). { intros E. rewrite E in E1. cbn in E1. lia. }
  destruct (axis_progress so Hso _ Fy) as (n' & ys & Hy). { intros E. rewrite E in E2. cbn in E2. lia. }
  exists (n + n')%nat. eexists. split.
  - intros fuel Hf. rewrite Hx by lia. cbn [rbind]. rewrite Hy by lia. cbn [rbind]. reflexivity.
  - cbv zeta. match goal with |- (if ?b then _ else _) = _ \/ _ => destruct b end; [now left|right; eauto].
Qed.
Print Assumptions C35_terminates_partial.
(* and it is not refused when there are two different lines in each direction, and a region around all of them *)
Theorem C35_accepted_partial : forall so, sorts_lines so -> forall cs,
  (exists a b, In a (x_lines cs) /\ In b (x_lines cs) /\ a <> b) -> (exists a b, In a (y_lines cs) /\ In b (y_lines cs) /\ a <> b) ->
  (exists d, In d (news [] (region_decls cs)) /\ forall x y a b a' b', In a (x_lines cs) -> In b (x_lines cs) -> In a' (y_lines cs) -> In b' (y_lines cs) ->
     a <= x <= b -> a' <= y <= b' -> holds d x y) ->
  exists n l, forall fuel, (n <= fuel)%nat -> finalize2 rN reqb 3 so fuel (run2 rN cs new_mesh2) = Ok l.
Proof.
  intros so Hso cs Hx Hy (d & Id & Hd). destruct (lines_of cs) as (Px & Py & Fx & Fy).
  rewrite <- Px in Hx. rewrite <- Py in Hy. rewrite (lines2 so Hso) in Hx, Hy.
  destruct (axis_progress so Hso _ Fx) as (n & xs & Lx). { intros E. rewrite E in Hx. cbn in Hx. lia. }
  destruct (axis_progress so Hso _ Fy) as (n' & ys & Ly). { intros E. rewrite E in Hy. cbn in Hy. lia. }
  destruct (axis so Hso _ _ _ Fx Hx (Lx n (le_n n))) as (Sx & Nx & X0 & X1 & Ix & Qx). destruct (axis so Hso _ _ _ Fy Hy (Ly n' (le_n n'))) as (Sy & Ny & Y0 & Y1 & Iy & Qy).
  rewrite Px in *. rewrite Py in *.
  destruct (built2 cs) as (A & B & C & D & E). exists (n + n')%nat. eexists. intros fuel Hf. unfold finalize2. rewrite A, B.
  replace (Nat.ltb (length (collapse reqb (so (flat_map xl_of cs)))) 2) with false by (symmetry; now apply Nat.ltb_ge).
  replace (Nat.ltb (length (collapse reqb (so (flat_map yl_of cs)))) 2) with false by (symmetry; now apply Nat.ltb_ge). cbn [orb].
  rewrite Lx by lia. cbn [rbind]. rewrite Ly by lia. cbn [rbind]. cbv zeta. rewrite C.
  set (c := grid_points xs ys). set (ts := grid_triangles (length xs) (length ys)). set (ds := news [] (region_decls cs)) in *.
  assert (Nd : NoDup (map dname ds)) by apply (news_NoDup (region_decls cs) []).
  assert (G : triangulates (nth 0 xs 0) (last xs 0) (nth 0 ys 0) (last ys 0) c ts) by (now apply grid_triangulates).
  match goal with |- (if ?b then _ else _) = _ => assert (Eb : b = false) end; [|rewrite Eb; reflexivity].
  destruct (forallb _ _) eqn:Eb; [exfalso|reflexivity]. rewrite forallb_forall in Eb.
  assert (T0 : exists t, In t ts).
  { assert (K1 : nth 0 xs 0 <= nth 0 xs 0 <= last xs 0) by (apply Qx; exact X0). assert (K2 : nth 0 ys 0 <= nth 0 ys 0 <= last ys 0) by (apply Qy; exact Y0).
    destruct (t_cover _ _ _ _ _ _ G _ _ K1 K2) as (t & w & I & _). eauto. }
  destruct T0 as [t It]. assert (Hc : holds d (fst (centroid c t)) (snd (centroid c t))).
  { pose proof (t_vertices _ _ _ _ _ _ G) as V. rewrite Forall_forall in V. destruct (V t It) as [V1 _]. pose proof (t_inside _ _ _ _ _ _ G) as Is. rewrite Forall_forall in Is.
    destruct t as [[i j] k]. cbn [corners] in V1. assert (Q : forall m, In m [i; j; k] -> nth 0 xs 0 <= fst (at_ c m) <= last xs 0 /\ nth 0 ys 0 <= snd (at_ c m) <= last ys 0).
    { intros m Hm. rewrite Forall_forall in V1. apply Is. apply nth_In. now apply V1. }
    pose proof (Q i ltac:(cbn; auto)). pose proof (Q j ltac:(cbn; auto)). pose proof (Q k ltac:(cbn; auto)).
    apply (Hd _ _ (nth 0 xs 0) (last xs 0) (nth 0 ys 0) (last ys 0)); try assumption; unfold centroid, point; cbn [fst snd]; lra. }
  assert (W : exists n0, find_region rN (map shape_of ds) (fst (centroid c t)) (snd (centroid c t)) None = Some n0).
  { destruct (find_region rN (map shape_of ds) (fst (centroid c t)) (snd (centroid c t)) None) as [n0|] eqn:W; [eauto|]. exfalso. apply wins_none with (d := d) in W; [|exact Id]. contradiction. }
  destruct W as [n0 W]. destruct (proj1 (wins_find ds _ _ n0 Nd) W) as (d0 & [_ (pre & post & E0 & _)] & <-).
  specialize (Eb (dname d0, region_mesh rN 3 c (map shape_of ds) (dname d0) ts)).
  assert (I0 : In (dname d0, region_mesh rN 3 c (map shape_of ds) (dname d0) ts) (regions_of rN 3 c (map shape_of ds) ts)).
  { apply regions_In; [exact Nd|]. split; [reflexivity|]. apply in_map. rewrite E0. apply in_or_app. right. now left. }
  apply Eb in I0. cbn [snd] in I0.
  assert (Dt : Forall (fun t => NoDup (corners t)) ts). { eapply Forall_impl; [|exact (t_vertices _ _ _ _ _ _ G)]. intros u [_ K]. exact K. }
  pose proof (full_filter _ _ (region_covers rN 3 c (map shape_of ds) (dname d0) ts Dt)) as Fu.
  assert (J : In t (filter (of_region rN 3 c (map shape_of ds) (dname d0)) ts)).
  { apply filter_In. split; [exact It|]. unfold of_region, region_of. rewrite centre_point, W. apply String.eqb_refl. }
  destruct (filter (of_region rN 3 c (map shape_of ds) (dname d0)) ts); [destruct J|]. destruct (rm_triangles _); discriminate.
Qed.
Print Assumptions C35_accepted_partial.
Definition two_regions : list (@command2 R) :=
  [AddXLine 0 1 (-1); AddXLine 2 1 1; AddXLine 1 1 1; AddXLine 2 1 1; AddYLine 0 1 1; AddYLine 1 (/ 2) 1;
   Add2Region "a" (-1) 3 (-1) 2 0; Add2Region "b" 2 1 0 1 0; Add2Contact "c" "b" 1 1 0 0 (/ 10); Add2Interface "i" "a" "b" 1 1 0 1 (/ 10)].
Example C35_mesh_case : (exists a b, In a (x_lines two_regions) /\ In b (x_lines two_regions) /\ a <> b) /\ (exists a b, In a (y_lines two_regions) /\ In b (y_lines two_regions) /\ a <> b) /\
  (exists d, In d (news [] (region_decls two_regions)) /\ forall x y a b a' b', In a (x_lines two_regions) -> In b (x_lines two_regions) -> In a' (y_lines two_regions) -> In b' (y_lines two_regions) ->
     a <= x <= b -> a' <= y <= b' -> holds d x y) /\ exists n l, finalize2 rN reqb 3 isort n (run2 rN two_regions new_mesh2) = Ok l.
Proof.
  assert (Ex : x_lines two_regions = [0; 2; 1; 2]). { unfold x_lines, two_regions. cbn [flat_map]. repeat (destruct (Rle_dec _ 0) as [L|_]; [exfalso; lra|]). reflexivity. }
  assert (Ey : y_lines two_regions = [0; 1]). { unfold y_lines, two_regions. cbn [flat_map]. repeat (destruct (Rle_dec _ 0) as [L|_]; [exfalso; lra|]). reflexivity. }
  assert (H1 : exists a b, In a (x_lines two_regions) /\ In b (x_lines two_regions) /\ a <> b). { rewrite Ex. exists 0, 1. cbn. split; [auto|]. split; [auto|lra]. }
  assert (H2 : exists a b, In a (y_lines two_regions) /\ In b (y_lines two_regions) /\ a <> b). { rewrite Ey. exists 0, 1. cbn. split; [auto|]. split; [auto|lra]. }
  assert (H3 : exists d, In d (news [] (region_decls two_regions)) /\ forall x y a b a' b', In a (x_lines two_regions) -> In b (x_lines two_regions) -> In a' (y_lines two_regions) -> In b' (y_lines two_regions) ->
     a <= x <= b -> a' <= y <= b' -> holds d x y).
  { exists (mkdecl "a" [] (-1) 3 (-1) 2 0). split; [now left|]. rewrite Ex, Ey. intros x y a b a' b' Ia Ib Ja Jb Hx Hy. unfold holds. cbn [dx0 dx1 dy0 dy1 dbloat].
    rewrite !Rmin_left, !Rmax_right by lra. cbn [In] in *. intuition lra. }
  split; [exact H1|]. split; [exact H2|]. split; [exact H3|]. destruct (C35_accepted_partial isort isort_sorts two_regions H1 H2 H3) as (n & l & K). exists n, l. now apply K.
Qed.

(* ---- C36 ---- *)
(* A point is in the region declared last among those around it, and in none if there is none around it; this is so for any arithmetic. *)
Theorem C36_last : forall T (N : num T) rs x y n, find_region N rs x y None = Some n <->
  exists pre s post, rs = (pre ++ s :: post)%list /\ h_name s = n /\ inside N s x y = true /\ Forall (fun s => inside N s x y = false) post.
Proof.
  intros T N rs x y n. rewrite find_region_spec. split; [intros [H|[H _]]; [exact H|discriminate]|]. intros H. now left.
Qed.
Print Assumptions C36_last.
(* In terms of the commands *)
Theorem C36_region_partial : forall cs x y, let ds := news [] (region_decls cs) in
  let found := find_region rN (m_reg (run2 rN cs new_mesh2)) x y None in
  (forall n, found = Some n <-> exists d, wins ds x y d /\ dname d = n) /\ (found = None <-> forall d, In d ds -> ~ holds d x y).
Proof.
  intros cs x y ds found. unfold found. destruct (built2 cs) as (_ & _ & C & _). rewrite C. split.
  - intros n. apply wins_find. apply (news_NoDup (region_decls cs) []).
  - apply wins_none.
Qed.
Print Assumptions C36_region_partial.
Example C36_region_case : let ds := news [] (region_decls two_regions) in
  wins ds (3 / 2) (/ 2) (mkdecl "b" [] 2 1 0 1 0) /\ wins ds (/ 2) (/ 2) (mkdecl "a" [] (-1) 3 (-1) 2 0) /\ forall d, In d ds -> ~ holds d 7 7.
Proof.
  cbn [two_regions region_decls flat_map app news]. destruct (string_dec "a" ""), (string_dec "b" ""); try discriminate. cbn [app news dname].
  destruct (in_dec string_dec "a" []) as [[]|_]. destruct (in_dec string_dec "b" ["a"]) as [[I|[]]|_]; [discriminate|].
  unfold wins, holds. cbn [dx0 dx1 dy0 dy1 dbloat].
  split; [|split].
  - split; [rewrite (Rmin_right 2 1), (Rmax_left 2 1), (Rmin_left 0 1), (Rmax_right 0 1) by lra; lra|]. exists [mkdecl "a" [] (-1) 3 (-1) 2 0], []. split; [reflexivity|constructor].
  - split; [rewrite !Rmin_left, !Rmax_right by lra; lra|]. exists [], [mkdecl "b" [] 2 1 0 1 0]. split; [reflexivity|]. constructor; [|constructor].
    cbn [dx0 dx1 dy0 dy1 dbloat]. rewrite (Rmin_right 2 1), (Rmax_left 2 1), (Rmin_left 0 1), (Rmax_right 0 1) by lra. lra.
  - intros d [<-|[<-|[]]]; cbn [dx0 dx1 dy0 dy1 dbloat]; [rewrite !Rmin_left, !Rmax_right by lra; lra|rewrite (Rmin_right 2 1), (Rmax_left 2 1), (Rmin_left 0 1), (Rmax_right 0 1) by lra; lra].
Qed.
(* But: a second box for a region, contact or interface of the same name is lost. The command succeeds, and changes nothing. *)
Theorem C36_second_box_refuted : forall cs n x0 x1 y0 y1 b, n <> "" -> In n (map dname (news [] (region_decls cs))) ->
  exec2 rN (Add2Region n x0 x1 y0 y1 b) (run2 rN cs new_mesh2) = Some (run2 rN cs new_mesh2).
Proof.
  intros cs n x0 x1 y0 y1 b Ne I. destruct (built2 cs) as (_ & _ & C & _). cbn [exec2]. destruct (empty n) eqn:E; [destruct n; [congruence|discriminate]|].
  destruct (run2 rN cs new_mesh2) as [mx my mr mc mi]. cbn [m_x m_y m_reg m_con m_int] in *. do 2 f_equal. unfold add_shape.
  replace (existsb (fun s => String.eqb (h_name s) n) mr) with true; [reflexivity|]. symmetry. apply existsb_exists. apply in_map_iff in I. destruct I as (d & <- & I).
  exists (shape_of d). split; [rewrite C; now apply in_map|]. cbn [shape_of h_name]. apply String.eqb_refl.
Qed.
Print Assumptions C36_second_box_refuted.
Example C36_second_box_case : exists cs x y d, In d (region_decls cs) /\ holds d x y /\ find_region rN (m_reg (run2 rN cs new_mesh2)) x y None = None.
Proof.
  exists [Add2Region "a" 0 1 0 1 0; Add2Region "a" 2 3 0 1 0], (5 / 2), (/ 2), (mkdecl "a" [] 2 3 0 1 0).
  split; [right; now left|]. split; [unfold holds; cbn; rewrite !Rmin_left, !Rmax_right by lra; lra|].
  apply (proj2 (C36_region_partial _ _ _)). cbn. destruct (in_dec string_dec "a" []) as [[]|_]. destruct (in_dec string_dec "a" ["a"]) as [_|K]; [|exfalso; apply K; now left].
  intros d [<-|[]]. unfold holds. cbn. rewrite !Rmin_left, !Rmax_right by lra. lra.
Qed.

(* ---- contacts and interfaces ---- *)
Section Contacts.
Variable so : list (@line R) -> list (@line R).
Lemma mesh_of_In : forall l n r, NoDup (map fst l) -> mesh_of n l = Some r <-> In (n, r) l.
Proof.
  induction l as [|[a r0] l IH]; intros n r N; [split; [discriminate|intros []]|]. cbn [mesh_of]. cbn [map fst] in N. inversion N as [|? ? N1 N2]; subst.
  destruct (String.eqb_spec a n) as [->|Q].
  - split; [intros [= ->]; now left|]. intros [E|I]; [congruence|]. exfalso. apply N1. apply in_map_iff. exists (n, r). now split.
  - rewrite IH by exact N2. cbn. split; [auto|]. intros [E|I]; [congruence|exact I].
Qed.
Variables (c : list (R * R)) (rl : list (string * rmesh)).
Hypothesis Nd : NoDup (map fst rl).
Hypothesis Nn : forall n r, In (n, r) rl -> NoDup (rm_nodes r) /\ (rm_triangles r = [] -> rm_nodes r = []).
Variables (lc : list (string * list nat)) (li : list (string * list (nat * nat))).
Let l := mkloaded c (filter full rl) lc li.
Lemma node_in_spec : forall r i k, node_in rl r i = Some k <-> has_node l r i k.
Proof.
  intros r i k. unfold node_in, has_node, l. cbn [l_regions]. split.
  - destruct (mesh_of r rl) as [m|] eqn:E; [|discriminate]. intros P. apply (mesh_of_In rl r m Nd) in E. exists m. split; [|now apply place_Some]. apply filter_In. split; [exact E|].
    unfold full. cbn [snd]. destruct (rm_triangles m) eqn:Et; [|reflexivity]. destruct (Nn r m E) as [_ K]. rewrite (K Et) in P. discriminate.
  - intros (m & I & P). apply filter_In in I. destruct I as [I _]. destruct (Nn r m I) as [K _]. apply (mesh_of_In rl r m Nd) in I. rewrite I. now apply place_nth.
Qed.
Lemma shared_count : forall i, (1 < node_count rl i)%nat <-> shared l i.
Proof.
  intros i. unfold node_count. set (f := fun p : string * rmesh => match place i (rm_nodes (snd p)) with Some _ => true | None => false end).
  assert (Q : forall r m, In (r, m) (filter f rl) <-> In (r, m) rl /\ exists k, place i (rm_nodes m) = Some k).
  { intros r m. rewrite filter_In. unfold f. cbn [snd]. destruct (place i (rm_nodes m)) as [k|]; split; intros [A B]; (split; [exact A|]); eauto; [discriminate|destruct B; discriminate]. }
  assert (Nf : NoDup (map fst (filter f rl))).
  { clear - Nd. clearbody f. induction rl as [|p l0 IH]; [constructor|]. cbn [filter]. cbn [map] in Nd. inversion Nd as [|? ? N1 N2]; subst. destruct (f p); [|now apply IH].
    cbn [map]. constructor; [|now apply IH]. intros I. apply N1. apply in_map_iff in I. destruct I as (q & <- & I). apply in_map. apply filter_In in I. apply I. }
  set (fl := filter f rl) in *. clearbody fl. split.
  - intros L. destruct fl as [|[r m] [|[r' m'] t]] ; cbn in L; try lia. destruct (proj1 (Q r m) (or_introl eq_refl)) as [I1 [k K]].
    destruct (proj1 (Q r' m') (or_intror (or_introl eq_refl))) as [I2 [k' K']]. exists r, r', k, k'. split.
    + intros ->. cbn in Nf. inversion Nf as [|? ? X _]; subst. apply X. now left.
    + split; apply node_in_spec; unfold node_in; [rewrite (proj2 (mesh_of_In rl r m Nd) I1)|rewrite (proj2 (mesh_of_In rl r' m' Nd) I2)]; assumption.
  - intros (r & r' & k & k' & N & H & H'). apply node_in_spec in H, H'. unfold node_in in H, H'. destruct (mesh_of r rl) as [m|] eqn:E; [|discriminate]. destruct (mesh_of r' rl) as [m'|] eqn:E'; [|discriminate].
    apply (mesh_of_In rl _ _ Nd) in E, E'. assert (A : In (r, m) fl) by (apply Q; eauto).
    assert (B : In (r', m') fl) by (apply Q; eauto).
    destruct fl as [|p [|q t]]; cbn; [destruct A| |lia]. exfalso. destruct A as [->|[]], B as [B|[]]. congruence.
Qed.
Lemma has_node_fun : forall r i k k', has_node l r i k -> has_node l r i k' -> k = k'.
Proof. intros r i k k' H H'. apply node_in_spec in H, H'. congruence. Qed.
Lemma has_node_inj : forall r i i' k, has_node l r i k -> has_node l r i' k -> i = i'.
Proof.
  intros r i i' k H H'. apply node_in_spec in H, H'. unfold node_in in *. destruct (mesh_of r rl); [|discriminate]. apply place_Some in H, H'. congruence.
Qed.
Definition takes_dec (i : nat) (d : decl) : Prop := takes l i d.
(* the first contact in the list *)
Lemma contact_at_spec : forall ds i n k, Forall (fun d => length (dregions d) = 1%nat) ds ->
  contact_at rN rl i (fst (at_ c i)) (snd (at_ c i)) (map shape_of ds) = Some (n, k) <-> exists d, gets ds l i d /\ dname d = n /\ has_node l (hd "" (dregions d)) i k.
Proof.
  induction ds as [|d ds IH]; intros i n k F; cbn [map contact_at].
  - split; [discriminate|]. intros (d & (_ & pre & post & E & _) & _). destruct pre; discriminate.
  - inversion F as [|? ? Fd Fs]; subst. destruct (dregions d) as [|r [|]] eqn:Er; try discriminate. clear Fd.
    assert (Tk : takes l i d <-> holds d (fst (at_ c i)) (snd (at_ c i)) /\ exists k, has_node l r i k).
    { unfold takes. rewrite Er. cbn [l_coords l]. split; intros [A B]; (split; [exact A|]); [now inversion B|constructor; [exact B|constructor]]. }
    assert (No : ~ takes l i d -> (exists d0, gets (d :: ds) l i d0 /\ dname d0 = n /\ has_node l (hd "" (dregions d0)) i k) <-> exists d0, gets ds l i d0 /\ dname d0 = n /\ has_node l (hd "" (dregions d0)) i k).
    { intros Nt. split.
      - intros (d0 & (T0 & pre & post & E & Fp) & A & B). destruct pre as [|p pre]; cbn [app] in E; injection E as <- E; [contradiction|]. exists d0. split; [|now split]. split; [exact T0|]. exists pre, post. split; [exact E|]. now inversion Fp.
      - intros (d0 & (T0 & pre & post & -> & Fp) & A & B). exists d0. split; [|now split]. split; [exact T0|]. exists (d :: pre), post. split; [reflexivity|]. now constructor. }
    destruct (inside rN (shape_of d) (fst (at_ c i)) (snd (at_ c i))) eqn:Ei.
    + apply inside_of in Ei. cbn [shape_of h_name h_regions hd]. rewrite Er. cbn [hd]. destruct (node_in rl r i) as [k0|] eqn:En.
      * apply node_in_spec in En. split.
        -- intros [= <- <-]. exists d. split; [|split; [reflexivity|rewrite Er; exact En]]. split; [apply Tk; split; [exact Ei|eauto]|]. exists [], ds. split; [reflexivity|constructor].
        -- intros (d0 & (T0 & pre & post & E & Fp) & A & B). destruct pre as [|p pre]; cbn [app] in E; injection E as <- E.
           ++ rewrite A. f_equal. f_equal. rewrite Er in B. exact (has_node_fun _ _ _ _ En B).
           ++ exfalso. inversion Fp as [|? ? K _]; subst. apply K, Tk. split; [exact Ei|eauto].
      * rewrite IH by exact Fs. symmetry. apply No. rewrite Tk. intros [_ [k0 K]]. apply node_in_spec in K. congruence.
    + apply inside_not in Ei. rewrite IH by exact Fs. symmetry. apply No. rewrite Tk. tauto.
Qed.
Lemma contact_at_none : forall ds i, Forall (fun d => length (dregions d) = 1%nat) ds ->
  contact_at rN rl i (fst (at_ c i)) (snd (at_ c i)) (map shape_of ds) = None <-> Forall (fun d => ~ takes l i d) ds.
Proof.
  induction ds as [|d ds IH]; intros i F; cbn [map contact_at]; [split; [constructor|reflexivity]|]. inversion F as [|? ? Fd Fs]; subst. destruct (dregions d) as [|r [|]] eqn:Er; try discriminate. clear Fd.
  assert (Tk : takes l i d <-> holds d (fst (at_ c i)) (snd (at_ c i)) /\ exists k, has_node l r i k).
  { unfold takes. rewrite Er. cbn [l_coords l]. split; intros [A B]; (split; [exact A|]); [now inversion B|constructor; [exact B|constructor]]. }
  rewrite Forall_cons_iff, <- IH, Tk by exact Fs. destruct (inside rN (shape_of d) (fst (at_ c i)) (snd (at_ c i))) eqn:Ei.
  - apply inside_of in Ei. cbn [shape_of h_name h_regions hd]. rewrite Er. cbn [hd]. destruct (node_in rl r i) as [k0|] eqn:En.
    + apply node_in_spec in En. split; [discriminate|]. intros [K _]. exfalso. apply K. split; [exact Ei|eauto].
    + split; [intros K; split; [|exact K]|tauto]. intros [_ [k Hk]]. apply node_in_spec in Hk. congruence.
  - apply inside_not in Ei. tauto.
Qed.
Lemma interface_at_spec : forall ds i n a b, Forall (fun d => length (dregions d) = 2%nat) ds ->
  interface_at rN rl i (fst (at_ c i)) (snd (at_ c i)) (map shape_of ds) = Some (n, (a, b)) <->
  exists d, gets ds l i d /\ dname d = n /\ has_node l (hd "" (dregions d)) i a /\ has_node l (nth 1 (dregions d) "") i b.
Proof.
  induction ds as [|d ds IH]; intros i n a b F; cbn [map interface_at].
  - split; [discriminate|]. intros (d & (_ & pre & post & E & _) & _). destruct pre; discriminate.
  - inversion F as [|? ? Fd Fs]; subst. destruct (dregions d) as [|r [|r' [|]]] eqn:Er; try discriminate. clear Fd.
    assert (Tk : takes l i d <-> holds d (fst (at_ c i)) (snd (at_ c i)) /\ (exists k, has_node l r i k) /\ exists k, has_node l r' i k).
    { unfold takes. rewrite Er. cbn [l_coords l]. split; intros [A B]; (split; [exact A|]).
      - inversion B as [|? ? B1 B2]; subst. inversion B2; subst. now split.
      - destruct B as [B1 B2]. repeat apply Forall_cons; try apply Forall_nil; assumption. }
    assert (No : ~ takes l i d -> (exists d0, gets (d :: ds) l i d0 /\ dname d0 = n /\ has_node l (hd "" (dregions d0)) i a /\ has_node l (nth 1 (dregions d0) "") i b) <->
        exists d0, gets ds l i d0 /\ dname d0 = n /\ has_node l (hd "" (dregions d0)) i a /\ has_node l (nth 1 (dregions d0) "") i b).
    { intros Nt. split.
      - intros (d0 & (T0 & pre & post & E & Fp) & A & B). destruct pre as [|p pre]; cbn [app] in E; injection E as <- E; [contradiction|]. exists d0. split; [|now split]. split; [exact T0|]. exists pre, post. split; [exact E|]. now inversion Fp.
      - intros (d0 & (T0 & pre & post & -> & Fp) & A & B). exists d0. split; [|now split]. split; [exact T0|]. exists (d :: pre), post. split; [reflexivity|]. now constructor. }
    destruct (inside rN (shape_of d) (fst (at_ c i)) (snd (at_ c i))) eqn:Ei.
    + apply inside_of in Ei. cbn [shape_of h_name h_regions hd]. rewrite Er. cbn [hd nth]. destruct (node_in rl r i) as [k0|] eqn:En.
      * destruct (node_in rl r' i) as [k1|] eqn:En'.
        -- apply node_in_spec in En, En'. split.
           ++ intros [= <- <- <-]. exists d. split; [|rewrite Er; cbn [hd nth]; now split]. split; [apply Tk; split; [exact Ei|split; eauto]|]. exists [], ds. split; [reflexivity|constructor].
           ++ intros (d0 & (T0 & pre & post & E & Fp) & A & B & B'). destruct pre as [|p pre]; cbn [app] in E; injection E as <- E.
              ** rewrite A. rewrite Er in B, B'. cbn [hd nth] in B, B'. rewrite (has_node_fun _ _ _ _ En B), (has_node_fun _ _ _ _ En' B'). reflexivity.
              ** exfalso. inversion Fp as [|? ? K _]; subst. apply K, Tk. split; [exact Ei|split; eauto].
        -- rewrite IH by exact Fs. symmetry. apply No. rewrite Tk. intros (_ & _ & k1 & K). apply node_in_spec in K. congruence.
      * rewrite IH by exact Fs. symmetry. apply No. rewrite Tk. intros (_ & [k0 K] & _). apply node_in_spec in K. congruence.
    + apply inside_not in Ei. rewrite IH by exact Fs. symmetry. apply No. rewrite Tk. tauto.
Qed.
Lemma select_In : forall B name (f : nat -> option (string * B)) n b, In b (select name f n) <-> exists i, (i < n)%nat /\ f i = Some (name, b).
Proof.
  intros B name f n b. unfold select. rewrite in_flat_map. split.
  - intros (i & I & J). apply in_seq in I. exists i. split; [lia|]. destruct (f i) as [[s b']|]; [|destruct J]. destruct (String.eqb_spec s name) as [->|]; [|destruct J]. destruct J as [->|[]]. reflexivity.
  - intros (i & I & E). exists i. split; [apply in_seq; lia|]. rewrite E, String.eqb_refl. now left.
Qed.
Lemma select_NoDup : forall B name (f : nat -> option (string * B)) n, (forall i i' b, f i = Some (name, b) -> f i' = Some (name, b) -> i = i') -> NoDup (select name f n).
Proof.
  intros B name f n H. unfold select. apply nodup_flat_map; [apply seq_NoDup| |].
  - intros i _. destruct (f i) as [[s b]|]; [|constructor]. destruct (String.eqb s name); constructor; [intros []|constructor].
  - intros i i' b _ _ Hb Hb'. destruct (f i) as [[s b1]|] eqn:E; [|destruct Hb]. destruct (f i') as [[s' b2]|] eqn:E'; [|destruct Hb'].
    destruct (String.eqb_spec s name) as [->|]; [|destruct Hb]. destruct (String.eqb_spec s' name) as [->|]; [|destruct Hb']. destruct Hb as [->|[]], Hb' as [->|[]]. now apply (H i i' b).
Qed.
End Contacts.
Lemma decl_sizes : forall cs, Forall (fun d => length (dregions d) = 1%nat) (news [] (contact_decls cs)) /\ Forall (fun d => length (dregions d) = 2%nat) (news [] (interface_decls cs)).
Proof.
  assert (Q : forall P seen l, Forall P l -> Forall P (news seen l)).
  { intros P seen l. revert seen. induction l as [|d l IH]; intros seen F; [constructor|]. inversion F; subst. cbn [news]. destruct (in_dec string_dec (dname d) seen); [now apply IH|]. constructor; [assumption|now apply IH]. }
  intros cs. split; apply Q; apply Forall_flat_map, Forall_forall; intros c _.
  - destruct c; try constructor. destruct (string_dec name ""), (string_dec region ""); try constructor; try reflexivity; constructor.
  - destruct c; try constructor. destruct (string_dec name ""), (string_dec r0 ""), (string_dec r1 ""), (string_dec r0 r1); try constructor; try reflexivity; constructor.
Qed.
Lemma loaded_regions : forall so, sorts_lines so -> forall cs fuel l, finalize2 rN reqb 3 so fuel (run2 rN cs new_mesh2) = Ok l ->
  exists rl, l_regions l = filter full rl /\ NoDup (map fst rl) /\ (forall n r, In (n, r) rl -> NoDup (rm_nodes r) /\ (rm_triangles r = [] -> rm_nodes r = [])) /\
    (forall r i k, has_node l r i k -> (i < length (l_coords l))%nat) /\
    l_contacts l = map (fun d => (dname d, select (dname d) (contact_of rN (l_coords l) rl (map shape_of (news [] (contact_decls cs)))) (length (l_coords l)))) (news [] (contact_decls cs)) /\
    l_interfaces l = map (fun d => (dname d, select (dname d) (interface_of rN (l_coords l) rl (map shape_of (news [] (contact_decls cs))) (map shape_of (news [] (interface_decls cs)))) (length (l_coords l)))) (news [] (interface_decls cs)).
Proof.
  intros so Hso cs fuel l H. destruct (finalize2_facts so cs fuel l H) as (xs & ys & Hx & Hy & Lx & Ly & El & _). cbv zeta in El.
  destruct (lines_of cs) as (_ & _ & Fx & Fy). destruct (axis so Hso _ _ _ Fx Lx Hx) as (Sx & Nx & _). destruct (axis so Hso _ _ _ Fy Ly Hy) as (Sy & Ny & _).
  set (c := grid_points xs ys) in *. set (ts := grid_triangles (length xs) (length ys)) in *. set (ds := news [] (region_decls cs)) in *.
  assert (Nd : NoDup (map dname ds)) by apply (news_NoDup (region_decls cs) []).
  assert (G : triangulates (nth 0 xs 0) (last xs 0) (nth 0 ys 0) (last ys 0) c ts) by (now apply grid_triangulates).
  assert (Dt : Forall (fun t => NoDup (corners t)) ts). { eapply Forall_impl; [|exact (t_vertices _ _ _ _ _ _ G)]. intros t [_ K]. exact K. }
  exists (regions_of rN 3 c (map shape_of ds) ts). rewrite El. cbn [l_regions l_coords l_contacts l_interfaces].
  assert (Q : forall n r, In (n, r) (regions_of rN 3 c (map shape_of ds) ts) -> covers r (filter (of_region rN 3 c (map shape_of ds) n) ts)).
  { intros n r I. apply regions_In in I; [|exact Nd]. destruct I as [-> _]. now apply region_covers. }
  split; [reflexivity|]. split. { unfold regions_of. rewrite !map_map. exact Nd. } split.
  { intros n r I. specialize (Q n r I). split; [apply Q|]. intros E. destruct Q as [_ F U _]. rewrite E in F. generalize dependent (filter (of_region rN 3 c (map shape_of ds) n) ts). intros sel F U. destruct sel as [|g0 sel]; [|inversion F].
    destruct (rm_nodes r) as [|x t]; [reflexivity|]. destruct (proj1 (U x) (or_introl eq_refl)) as (g & [] & _). }
  split.
  { intros r i k (m & I & P). cbn [l_regions] in I. apply filter_In in I. destruct I as [I _]. destruct (Q r m I) as [_ _ U _]. destruct (proj1 (U i) (nth_error_In _ _ P)) as (g & I2 & I3).
    apply filter_In in I2. destruct I2 as [I2 _]. pose proof (t_vertices _ _ _ _ _ _ G) as V. rewrite Forall_forall in V. destruct (V g I2) as [V1 _]. rewrite Forall_forall in V1. now apply V1. }
  split; rewrite map_map; reflexivity.
Qed.
(* A contact has a node exactly at those coordinates that two regions share, that lie in its box, at which its region has a node,
   and which no contact declared before it can take: the node of its region there. *)
Theorem C36_contacts_partial : forall so, sorts_lines so -> forall cs fuel l, finalize2 rN reqb 3 so fuel (run2 rN cs new_mesh2) = Ok l ->
  let ds := news [] (contact_decls cs) in map fst (l_contacts l) = map dname ds /\
  forall d nodes, In d ds -> In (dname d, nodes) (l_contacts l) -> NoDup nodes /\
    forall k, In k nodes <-> exists i, shared l i /\ gets ds l i d /\ has_node l (hd "" (dregions d)) i k.
Proof.
  intros so Hso cs fuel l H ds. destruct (loaded_regions so Hso cs fuel l H) as (rl & Er & Nd & Nn & Bd & Ec & _). fold ds in Ec.
  destruct (decl_sizes cs) as [Sz _]. fold ds in Sz. assert (Nm : NoDup (map dname ds)) by apply (news_NoDup (contact_decls cs) []).
  destruct l as [c lr lc li]. cbn [l_regions l_coords l_contacts] in *. subst lr lc. rewrite map_map. split; [reflexivity|].
  intros d nodes Id In0. apply in_map_iff in In0. destruct In0 as (d' & [= E <-] & Id').
  assert (d' = d). { clear - Nm Id Id' E. induction ds as [|e ds IH]; [destruct Id|]. cbn [map] in Nm. inversion Nm as [|? ? N1 N2]; subst. destruct Id as [<-|Id], Id' as [<-|Id']; try reflexivity.
    - exfalso. apply N1. rewrite <- E. now apply in_map. - exfalso. apply N1. rewrite E. now apply in_map. - now apply IH. } subst d'.
  set (lc := map _ ds) in *. clearbody lc. set (l := mkloaded c (filter full rl) lc li) in *.
  assert (Q : forall i k, contact_of rN c rl (map shape_of ds) i = Some (dname d, k) <-> shared l i /\ gets ds l i d /\ has_node l (hd "" (dregions d)) i k).
  { intros i k. unfold contact_of. change (nth i c (zero rN, zero rN)) with (at_ c i). destruct (Nat.ltb_spec 1 (node_count rl i)) as [L|L].
    - apply (shared_count c rl Nd Nn lc li) in L. fold l in L. rewrite (contact_at_spec c rl Nd Nn lc li ds i (dname d) k Sz). fold l. split.
      + intros (d0 & G0 & E0 & B). assert (d0 = d) as ->; [|tauto]. destruct G0 as (_ & pre & post & Eds & _). assert (Id0 : In d0 ds) by (rewrite Eds; apply in_or_app; right; now left).
        clear - Nm Id Id0 E0. induction ds as [|e ds IH]; [destruct Id|]. cbn [map] in Nm. inversion Nm as [|? ? N1 N2]; subst. destruct Id as [<-|Id], Id0 as [<-|Id0]; try reflexivity.
        * exfalso. apply N1. rewrite <- E0. now apply in_map. * exfalso. apply N1. rewrite E0. now apply in_map. * now apply IH.
      + intros (_ & G0 & B). exists d. auto.
    - split; [discriminate|]. intros (Sh & _). apply (shared_count c rl Nd Nn lc li) in Sh. lia. }
  split.
  - apply select_NoDup. intros i i' k A B. apply Q in A, B. destruct A as (_ & _ & A), B as (_ & _ & B). exact (has_node_inj c rl Nd Nn lc li _ _ _ _ A B).
  - intros k. rewrite select_In. split.
    + intros (i & _ & A). exists i. now apply Q.
    + intros (i & A). exists i. split; [|now apply Q]. destruct A as (_ & _ & A). exact (Bd _ _ _ A).
Qed.
Print Assumptions C36_contacts_partial.
(* An interface has a pair of nodes, one of each of its regions, exactly at those coordinates that two regions share, that no contact can take, that lie in its box, at which
   both its regions have a node, and which no interface declared before it can take. *)
Theorem C36_interfaces_partial : forall so, sorts_lines so -> forall cs fuel l, finalize2 rN reqb 3 so fuel (run2 rN cs new_mesh2) = Ok l ->
  let ds := news [] (interface_decls cs) in map fst (l_interfaces l) = map dname ds /\
  forall d pairs, In d ds -> In (dname d, pairs) (l_interfaces l) -> NoDup pairs /\
    forall a b, In (a, b) pairs <-> exists i, shared l i /\ Forall (fun e => ~ takes l i e) (news [] (contact_decls cs)) /\ gets ds l i d /\
      has_node l (hd "" (dregions d)) i a /\ has_node l (nth 1 (dregions d) "") i b.
Proof.
  intros so Hso cs fuel l H ds. destruct (loaded_regions so Hso cs fuel l H) as (rl & Er & Nd & Nn & Bd & _ & Ei). fold ds in Ei. set (cds := news [] (contact_decls cs)) in *.
  destruct (decl_sizes cs) as [Sc Sz]. fold ds in Sz. fold cds in Sc. assert (Nm : NoDup (map dname ds)) by apply (news_NoDup (interface_decls cs) []).
  destruct l as [c lr lc li]. cbn [l_regions l_coords l_interfaces] in *. subst lr li. rewrite map_map. split; [reflexivity|].
  assert (Uq : forall d d', In d ds -> In d' ds -> dname d' = dname d -> d' = d).
  { clear - Nm. induction ds as [|e ds IH]; intros d d' Id Id' E; [destruct Id|]. cbn [map] in Nm. inversion Nm as [|? ? N1 N2]; subst. destruct Id as [<-|Id], Id' as [<-|Id']; try reflexivity.
    - exfalso. apply N1. rewrite <- E. now apply in_map. - exfalso. apply N1. rewrite E. now apply in_map. - now apply IH. }
  intros d nodes Id In0. apply in_map_iff in In0. destruct In0 as (d' & [= E <-] & Id'). rewrite (Uq d d' Id Id' E) in *. clear E Id' d'.
  set (li := map _ ds) in *. clearbody li. set (l := mkloaded c (filter full rl) lc li) in *.
  assert (Q : forall i a b, interface_of rN c rl (map shape_of cds) (map shape_of ds) i = Some (dname d, (a, b)) <->
     shared l i /\ Forall (fun e => ~ takes l i e) cds /\ gets ds l i d /\ has_node l (hd "" (dregions d)) i a /\ has_node l (nth 1 (dregions d) "") i b).
  { intros i a b. unfold interface_of. change (nth i c (zero rN, zero rN)) with (at_ c i). destruct (Nat.ltb_spec 1 (node_count rl i)) as [L|L].
    - apply (shared_count c rl Nd Nn lc li) in L. fold l in L. destruct (contact_at rN rl i (fst (at_ c i)) (snd (at_ c i)) (map shape_of cds)) as [[cn ck]|] eqn:Eca.
      + split; [discriminate|]. intros (_ & Fc & _). exfalso. apply (contact_at_none c rl Nd Nn lc li cds i Sc) in Fc. congruence.
      + apply (contact_at_none c rl Nd Nn lc li cds i Sc) in Eca. fold l in Eca. rewrite (interface_at_spec c rl Nd Nn lc li ds i (dname d) a b Sz). fold l. split.
        * intros (d0 & G0 & E0 & B & B'). assert (d0 = d) as ->; [|tauto]. destruct G0 as (_ & pre & post & Eds & _). apply Uq; [exact Id| |exact E0]. rewrite Eds. apply in_or_app. right. now left.
        * intros (_ & _ & G0 & B & B'). exists d. auto.
    - split; [discriminate|]. intros (Sh & _). apply (shared_count c rl Nd Nn lc li) in Sh. lia. }
  split.
  - apply select_NoDup. intros i i' [a b] A B. apply Q in A, B. destruct A as (_ & _ & _ & A & _), B as (_ & _ & _ & B & _). exact (has_node_inj c rl Nd Nn lc li _ _ _ _ A B).
  - intros a b. rewrite select_In. split.
    + intros (i & _ & A). exists i. now apply Q.
    + intros (i & A). exists i. split; [|now apply Q]. destruct A as (_ & _ & _ & A & _). exact (Bd _ _ _ A).
Qed.
Print Assumptions C36_interfaces_partial.
(* Hence: a contact on the outer boundary of the device, where only one region is, has no nodes. *)
Theorem C36_outer_contact : forall so, sorts_lines so -> forall cs fuel l, finalize2 rN reqb 3 so fuel (run2 rN cs new_mesh2) = Ok l ->
  length (news [] (region_decls cs)) = 1%nat -> forall n nodes, In (n, nodes) (l_contacts l) -> nodes = [].
Proof.
  intros so Hso cs fuel l H One n nodes I. destruct (C36_contacts_partial so Hso cs fuel l H) as [E K].
  assert (In_n : In n (map dname (news [] (contact_decls cs)))). { rewrite <- E. apply in_map_iff. exists (n, nodes). now split. }
  apply in_map_iff in In_n. destruct In_n as (d & <- & Id). destruct (K d nodes Id I) as [_ Q]. destruct nodes as [|k t]; [reflexivity|]. exfalso.
  destruct (proj1 (Q k) (or_introl eq_refl)) as (i & (r & r' & k1 & k2 & N & (m & Im & _) & (m' & Im' & _)) & _).
  destruct (C35_mesh_partial so Hso cs fuel l H) as (x0 & x1 & y0 & y1 & ts & _ & _ & _ & _ & _ & _ & _ & _ & _ & _ & _ & _ & Rg & _).
  assert (D : forall n0 m0, In (n0, m0) (l_regions l) -> exists d0, In d0 (news [] (region_decls cs)) /\ dname d0 = n0).
  { intros n0 m0 I0. destruct (Rg n0 m0 I0) as (sel & Ne & _ & _ & Qs). destruct sel as [|t0 sel]; [congruence|]. destruct (proj1 (Qs t0) (or_introl eq_refl)) as (_ & d0 & (_ & pre & post & E0 & _) & En).
    exists d0. split; [|exact En]. rewrite E0. apply in_or_app. right. now left. }
  destruct (D _ _ Im) as (d1 & J1 & <-). destruct (D _ _ Im') as (d2 & J2 & <-). destruct (news [] (region_decls cs)) as [|e [|]]; try discriminate. destruct J1 as [<-|[]], J2 as [<-|[]]. congruence.
Qed.
Print Assumptions C36_outer_contact.

(* the same mesh with doubles: the parts that have no doubles in them *)
Definition deqb (a b : double) : bool := match Bcompare a b with Some Eq => true | _ => false end.
Definition two_regions_d : list (@command2 double) :=
  let n := dint in
  [AddXLine (n 0%Z) (n 1%Z) (n (-1)%Z); AddXLine (n 1%Z) (n 1%Z) (n 1%Z); AddXLine (n 2%Z) (n 1%Z) (n 1%Z); AddXLine (n 2%Z) (n 1%Z) (n 1%Z); AddYLine (n 0%Z) (n 1%Z) (n 1%Z); AddYLine (n 1%Z) (n 1%Z) (n 1%Z);
   Add2Region "a" (n (-1)%Z) (n 3%Z) (n (-1)%Z) (n 2%Z) (n 0%Z); Add2Region "b" (n 2%Z) (n 1%Z) (n 0%Z) (n 1%Z) (n 0%Z);
   Add2Contact "c" "b" (n 1%Z) (n 1%Z) (n 0%Z) (n 0%Z) (dpow2 (-3)); Add2Interface "i" "a" "b" (n 1%Z) (n 1%Z) (n 0%Z) (n 1%Z) (dpow2 (-3))].
Example C36_contacts_case : match finalize2 dN deqb (dint 3) (fun l => l) 10 (run2 dN two_regions_d new_mesh2) with
  | Ok l => (l_regions l, l_contacts l, l_interfaces l) =
     ([("a", mkrmesh [0; 1; 2; 3]%nat [(0, 1); (1, 2); (0, 2); (1, 2); (2, 3); (1, 3)]%nat [(0, 1, 2); (1, 2, 3)]%nat);
       ("b", mkrmesh [2; 3; 4; 5]%nat [(0, 1); (1, 2); (0, 2); (1, 2); (2, 3); (1, 3)]%nat [(0, 1, 2); (1, 2, 3)]%nat)], [("c", [0%nat])], [("i", [(3, 1)%nat])])
  | _ => False end.
Proof. vm_compute. reflexivity. Qed.
