From Coq Require Import List Arith Bool Lia Reals Lra Permutation.
From Verif Require Import Adjacency Geometry GeometrySpec Volume VolumeSpec VolumeGeom AssemblyProofs ContactProofs VolumeProofs VectorGradient Surface SurfaceSpec.
Import ListNotations.
Open Scope R_scope.
Local Arguments Nat.ltb : simpl never.
Local Arguments Nat.leb : simpl never.
Local Arguments Nat.eqb : simpl never.

(* first occurrences *)
Fixpoint firsts (seen l : list nat) : list nat :=
  match l with [] => [] | e :: t => if existsb (Nat.eqb e) seen then firsts seen t else e :: firsts (e :: seen) t end.
Lemma existsb_in : forall e l, existsb (Nat.eqb e) l = true <-> In e l.
Proof.
  intros e l. rewrite existsb_exists. split; [intros (x & I & H)|intros I].
  - apply Nat.eqb_eq in H. subst. exact I.
  - exists e. split; [exact I|apply Nat.eqb_refl].
Qed.
Lemma firsts_spec : forall l seen, NoDup (firsts seen l) /\ forall e, In e (firsts seen l) <-> In e l /\ ~ In e seen.
Proof.
  induction l as [|x l IH]; intros seen; [split; [constructor|cbn; tauto]|]. cbn [firsts].
  destruct (existsb (Nat.eqb x) seen) eqn:E.
  - apply existsb_in in E. destruct (IH seen) as [N H]. split; [exact N|]. intros e. rewrite H. cbn [In]. split; [tauto|]. intros [[->|I] K]; tauto.
  - assert (F : ~ In x seen) by (rewrite <- existsb_in; congruence). destruct (IH (x :: seen)) as [N H]. split.
    + constructor; [|exact N]. rewrite H. cbn [In]. tauto.
    + intros e. cbn [In]. rewrite H. cbn [In]. split.
      * intros [<-|[I K]]; tauto.
      * intros [[->|I] K]; [tauto|]. destruct (Nat.eq_dec x e); [tauto|]. right. tauto.
Qed.
Lemma visit_fold : forall pr l seen s, visit pr seen l s = fold_left (fun s e => pr e s) (firsts seen l) s.
Proof. intros pr. induction l as [|x l IH]; intros seen s; [reflexivity|]. cbn [visit firsts]. destruct (existsb _ _); cbn [fold_left]; apply IH. Qed.
Lemma rings_fold : forall pos edges rad l seen f, visit_rings pos edges rad seen l f = fold_left (fun f e => process_ring pos rad (nth e edges []) f) (firsts seen l) f.
Proof. intros pos edges rad. induction l as [|x l IH]; intros seen s; [reflexivity|]. cbn [visit_rings firsts]. destruct (existsb _ _); cbn [fold_left]; apply IH. Qed.
Lemma once_perm : forall L Q l, once L Q -> (forall e, In e l <-> Q e) -> Permutation (firsts [] l) L.
Proof.
  intros L Q l [N H] K. destruct (firsts_spec l []) as [N1 H1]. apply NoDup_Permutation; [exact N1|exact N|].
  intros e. rewrite H1, H, K. cbn. tauto.
Qed.
Lemma contacts_in : forall r pick cs e, In e (on_contacts r pick cs) <-> of_contact r pick cs e.
Proof.
  intros r pick cs e. unfold on_contacts, of_contact. rewrite in_concat. split.
  - intros (l & I & J). apply in_map_iff in I. destruct I as (c & <- & I). destruct (Nat.eqb_spec (k_region c) r); [|destruct J]. exists c. tauto.
  - intros (c & I & E & J). exists (pick c). split; [|exact J]. apply in_map_iff. exists c. split; [|exact I]. rewrite E, Nat.eqb_refl. reflexivity.
Qed.
Lemma interfaces_in : forall r p0 p1 is e, proper is -> In e (on_interfaces r p0 p1 is) <-> of_interface r p0 p1 is e.
Proof.
  intros r p0 p1 is e PR. unfold proper in PR. rewrite Forall_forall in PR. unfold on_interfaces, of_interface. rewrite in_concat. split.
  - intros (l & I & J). apply in_map_iff in I. destruct I as (c & <- & I). exists c. split; [exact I|].
    destruct (Nat.eqb_spec (i_region0 c) r); [tauto|]. destruct (Nat.eqb_spec (i_region1 c) r); [tauto|]. destruct J.
  - intros (c & I & [[E J]|[E J]]).
    + exists (p0 c). split; [|exact J]. apply in_map_iff. exists c. split; [|exact I]. rewrite E, Nat.eqb_refl. reflexivity.
    + exists (p1 c). split; [|exact J]. apply in_map_iff. exists c. split; [|exact I]. specialize (PR c I).
      destruct (Nat.eqb_spec (i_region0 c) r); [congruence|]. rewrite E, Nat.eqb_refl. reflexivity.
Qed.

(* contributions of a surface *)
Definition contrib : Type := nat * R * vec.
Definition c_node (c : contrib) : nat := fst (fst c).
Definition c_area (c : contrib) : R := snd (fst c).
Definition c_vec (c : contrib) : vec := snd c.
Definition put1 (s : surf) (c : contrib) : surf := add_norm (c_node c) (c_vec c) (add_area (c_node c) (c_area c) s).
Definition accn (u v : vec) : vec := if Rlt_dec (dot v u) 0 then vsub u v else vadd u v.
Lemma run_area : forall cl s n, s_area (fold_left put1 cl s) n = s_area s n + rsum (fun c => if Nat.eqb n (c_node c) then c_area c else 0) cl.
Proof.
  induction cl as [|c cl IH]; intros s n; cbn [fold_left rsum]; [lra|]. rewrite IH. unfold put1. cbn [add_norm add_area s_area]. unfold upd.
  destruct (Nat.eqb_spec n (c_node c)) as [->|N]; lra.
Qed.
Lemma run_norm : forall cl s n, s_norm (fold_left put1 cl s) n = fold_left accn (map c_vec (filter (fun c => Nat.eqb n (c_node c)) cl)) (s_norm s n).
Proof.
  induction cl as [|c cl IH]; intros s n; [reflexivity|]. cbn [fold_left filter]. rewrite IH. unfold put1. cbn [add_norm add_area s_norm]. unfold upd.
  destruct (Nat.eqb_spec n (c_node c)) as [->|N]; [|reflexivity]. cbn [map fold_left]. reflexivity.
Qed.
Lemma accn_sq : forall u v, dot u u + dot v v <= dot (accn u v) (accn u v).
Proof.
  intros u v. unfold accn. destruct (Rlt_dec (dot v u) 0) as [H|H]; unfold dot, vsub, vadd in *; cbn [vx vy vz] in *; nra.
Qed.
Lemma dot_nonneg : forall v, 0 <= dot v v.
Proof. intros v. unfold dot. nra. Qed.
Lemma fold_accn_sq : forall l u, dot u u <= dot (fold_left accn l u) (fold_left accn l u) /\ forall v, In v l -> dot v v <= dot (fold_left accn l u) (fold_left accn l u).
Proof.
  induction l as [|w l IH]; intros u; cbn [fold_left]; [split; [lra|intros v []]|].
  destruct (IH (accn u w)) as [A B]. pose proof (accn_sq u w). pose proof (dot_nonneg u). pose proof (dot_nonneg w). split; [lra|].
  intros v [<-|I]; [lra|apply B; exact I].
Qed.
Lemma accn_perp : forall d l u, dot d u = 0 -> (forall v, In v l -> dot d v = 0) -> dot d (fold_left accn l u) = 0.
Proof.
  intros d. induction l as [|w l IH]; intros u H K; [exact H|]. cbn [fold_left]. apply IH; [|intros v I; apply K; right; exact I].
  specialize (K w (or_introl eq_refl)). unfold accn. destruct (Rlt_dec _ _); unfold dot, vsub, vadd in *; cbn [vx vy vz] in *; lra.
Qed.
Lemma accn_zero : forall l, (forall v, In v l -> v = mkvec 0 0 0) -> fold_left accn l (mkvec 0 0 0) = mkvec 0 0 0.
Proof.
  induction l as [|w l IH]; intros H; [reflexivity|]. cbn [fold_left]. rewrite (H w (or_introl eq_refl)).
  replace (accn (mkvec 0 0 0) (mkvec 0 0 0)) with (mkvec 0 0 0); [apply IH; intros v I; apply H; right; exact I|].
  unfold accn, dot, vsub, vadd. cbn [vx vy vz]. destruct (Rlt_dec _ _); f_equal; lra.
Qed.

Lemma normalize_unit : forall s n, 0 < s_area s n -> 0 < dot (s_norm s n) (s_norm s n) -> dot (s_norm (normalize s) n) (s_norm (normalize s) n) = 1.
Proof.
  intros s n A N. unfold normalize. cbn [s_norm]. assert (W : 0 < magnitude (s_norm s n)) by (apply sqrt_lt_R0; exact N).
  destruct (Rlt_dec 0 (s_area s n)); [|contradiction]. destruct (Rlt_dec 0 (magnitude (s_norm s n))); [|contradiction].
  pose proof (magnitude_sq (s_norm s n)) as Q. set (w := magnitude (s_norm s n)) in *. set (v := s_norm s n) in *. clearbody w v.
  transitivity (dot v v * (/ w) ^ 2); [unfold dot, vscale; cbn [vx vy vz]; ring|]. rewrite <- Q. field. lra.
Qed.
Lemma normalize_perp : forall s n d, dot d (s_norm s n) = 0 -> dot d (s_norm (normalize s) n) = 0.
Proof.
  intros s n d H. unfold normalize. cbn [s_norm]. destruct (Rlt_dec _ _); [|exact H]. destruct (Rlt_dec _ _); [|exact H].
  replace (dot d (vscale (/ magnitude (s_norm s n)) (s_norm s n))) with (dot d (s_norm s n) * / magnitude (s_norm s n)) by (unfold dot, vscale; cbn [vx vy vz]; ring).
  rewrite H. ring.
Qed.

(* ---- edges *)
Section E.
Variable pos : list vec.
Variable edges : list (list nat).
Definition edge_vec (e : list nat) : vec :=
  let half := / 2 * edge_length pos e in mkvec (vy (unit_vec pos e) * half) (- vx (unit_vec pos e) * half) 0.
Definition edge_contribs (e : list nat) : list contrib :=
  let half := / 2 * edge_length pos e in [(nth 0 e 0%nat, half, edge_vec e); (nth 1 e 0%nat, half, edge_vec e)].
Lemma process_edge_eq : forall e s, process_edge pos e s = fold_left put1 (edge_contribs e) s.
Proof. reflexivity. Qed.
Lemma fold_contribs : forall (cf : nat -> list contrib) l s, fold_left (fun s e => fold_left put1 (cf e) s) l s = fold_left put1 (flat_map cf l) s.
Proof. intros cf. induction l as [|x l IH]; intros s; [reflexivity|]. cbn [fold_left flat_map]. rewrite fold_left_app. apply IH. Qed.
Lemma edge_surface_eq : forall l, edge_surface pos edges l = normalize (fold_left put1 (flat_map (fun e => edge_contribs (nth e edges [])) (firsts [] l)) empty).
Proof. intros l. unfold edge_surface. rewrite visit_fold, <- fold_contribs. reflexivity. Qed.
Lemma edge_length_dist : forall e, edge_length pos e = dist (P pos (nth 0 e 0%nat)) (P pos (nth 1 e 0%nat)).
Proof. intros e. unfold edge_length, at_pos. apply magnitude_dist. Qed.
Lemma edge_vec_perp : forall e, cosine_with (edge_vec e) (P pos (nth 0 e 0%nat)) (P pos (nth 1 e 0%nat)) = 0.
Proof.
  intros e. unfold cosine_with, edge_vec. cbv zeta. unfold unit_vec, at_pos. fold (P pos (nth 0 e 0%nat)) (P pos (nth 1 e 0%nat)). cbn [vx vy vz]. unfold vscale, vsub. cbn [vx vy vz]. ring.
Qed.
Definition flat (e : list nat) : Prop := vz (P pos (nth 0 e 0%nat)) = vz (P pos (nth 1 e 0%nat)).
Lemma dist_sq : forall a b, dist a b ^ 2 = (vx a - vx b) ^ 2 + (vy a - vy b) ^ 2 + (vz a - vz b) ^ 2.
Proof. intros a b. unfold dist. rewrite pow2_sqrt; [reflexivity|]. repeat apply Rplus_le_le_0_compat; apply pow2_ge_0. Qed.
Lemma edge_vec_sq : forall e, flat e -> 0 < dist (P pos (nth 0 e 0%nat)) (P pos (nth 1 e 0%nat)) ->
  dot (edge_vec e) (edge_vec e) = (dist (P pos (nth 0 e 0%nat)) (P pos (nth 1 e 0%nat)) / 2) ^ 2.
Proof.
  intros e F D. unfold edge_vec. cbv zeta. rewrite edge_length_dist. unfold unit_vec, at_pos. fold (P pos (nth 0 e 0%nat)) (P pos (nth 1 e 0%nat)).
  rewrite magnitude_dist. rewrite (dist_sym (P pos (nth 1 e 0%nat))). unfold flat in F.
  pose proof (dist_sq (P pos (nth 0 e 0%nat)) (P pos (nth 1 e 0%nat))) as Q. set (a := P pos (nth 0 e 0%nat)) in *. set (b := P pos (nth 1 e 0%nat)) in *.
  set (d := dist a b) in *. clearbody d. unfold dot, vscale, vsub. cbn [vx vy vz].
  transitivity (((vx b - vx a) ^ 2 + (vy b - vy a) ^ 2) * (/ d * d) ^ 2 * (/ 2) ^ 2); [ring|].
  rewrite Rinv_l by lra. replace ((vx b - vx a) ^ 2 + (vy b - vy a) ^ 2) with (d ^ 2) by (rewrite Q, F; ring). field.
Qed.
End E.
