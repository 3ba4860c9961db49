(* C52: element_from_edge_model and element_from_node_model in three dimensions. *)
From Coq Require Import List Bool Arith Lia Reals Lra Permutation.
From Verif Require Import LoaderSpec Adjacency AdjacencySpec AdjacencyProperties Geometry GeometrySpec GeometryProofs Volume VolumeSpec VolumeProofs VolumeMesh VolumeMesh3 VolumeProperties VectorGradient ElementField ElementFieldSpec ElementFieldProofs ElementFieldLinear ElementFieldMesh ElementFieldProperties ElementField3 ElementField3Proofs.
Import ListNotations.
Open Scope R_scope.
Local Arguments Nat.ltb : simpl never.
Local Arguments Nat.leb : simpl never.
Local Arguments Nat.eqb : simpl never.
Local Arguments Nat.mul : simpl never.

Lemma rowsw : forall w A (f : nat -> option (list A)) row n, (forall k, (k < n)%nat -> f k = Some (row k) /\ length (row k) = w) ->
  exists r, option_map (@concat A) (opt_list (map f (seq 0 n))) = Some r /\ length r = (w * n)%nat /\
    (forall k i d, (k < n)%nat -> (i < w)%nat -> nth (w * k + i) r d = nth i (row k) d).
Proof.
  intros w A f row n H. rewrite (opt_list_ext _ _ f row) by (intros k I; apply in_seq in I; apply H; lia). cbn [option_map]. eexists. split; [reflexivity|].
  assert (G : forall m, (m <= n)%nat -> length (concat (map row (seq 0 m))) = (w * m)%nat).
  { intros m. induction m as [|m IH]; intros Hm; [cbn; lia|]. rewrite seq_S, map_app, concat_app, app_length, IH by lia. cbn [map concat plus]. rewrite app_nil_r. rewrite (proj2 (H m ltac:(lia))). lia. }
  split; [apply G; lia|]. intros k i d Hk Hi.
  assert (EN : seq 0 n = seq 0 k ++ seq (0 + k) (S (n - k - 1))) by (rewrite <- seq_app; f_equal; lia). rewrite EN, map_app, concat_app. cbn [plus seq map concat].
  pose proof (G k ltac:(lia)) as L. destruct (H k Hk) as [_ Lk].
  rewrite app_nth2 by lia. rewrite L. replace (w * k + i - w * k)%nat with i by lia. apply app_nth1. lia.
Qed.
Section Reg.
Variables (solve : vec -> vec -> vec -> vec -> option vec) (pos : list vec) (edges tris tets : list simplex) (a : adjacency).
Hypothesis SV : solves solve.
Hypothesis TS : total_solver solve.
Hypothesis CR : complete_region edges tris tets.
Hypothesis FIN : finalize_region 3 edges tris tets = Finished a.
Hypothesis GD : Forall (good3 pos) tets.
Definition opp0 (d : edgedata) : nat := match ed_faces d with (_, _, Some n) :: _ => n | _ => 0%nat end.
Definition opp1 (d : edgedata) : nat := match ed_faces d with _ :: (_, _, Some n) :: _ => n | _ => 0%nat end.
Definition mk (d : edgedata) : tslot := {| ts_num := ed_edge d; ts_edge := nth (ed_edge d) edges []; ts_o0 := opp0 d; ts_o1 := opp1 d |}.
Lemma slot_data : forall k c d, nth_error tets k = Some c -> In d (nth k (adj_tet_data a) []) ->
  tslot_of edges d = Some (mk d) /\ Permutation (nth (ed_edge d) edges [] ++ [opp0 d; opp1 d]) c /\ (ed_edge d < length edges)%nat.
Proof.
  intros k c d E I. destruct (tet_asc edges tris tets CR k c E) as (Lc & Nc & Ac).
  destruct (cn_tet_data _ _ _ _ (conn 3 edges tris tets a CR FIN) k c d E I) as (f & j1 & t1 & s1 & n1 & j2 & t2 & s2 & n2 & Ef & EF & B1 & B2 & J & T1 & O1 & P1 & T2 & O2 & P2).
  destruct (edge_asc edges tris tets CR _ _ Ef) as (Lf & Nf & Af).
  pose proof (nthe _ _ _ Ef) as NE. unfold simplex in *.
  split; [unfold tslot_of, mk, opp0, opp1; unfold simplex in *; rewrite Ef, EF, NE; reflexivity|]. split; [|apply nth_error_Some; unfold simplex in *; congruence].
  rewrite NE. clear NE. unfold opp0, opp1. rewrite EF. unfold opposite_to in *.
  assert (N1 : NoDup (nth j1 c 0%nat :: s1)) by (apply (Permutation_NoDup (Permutation_sym O1) Nc)). assert (N2 : NoDup (nth j2 c 0%nat :: s2)) by (apply (Permutation_NoDup (Permutation_sym O2) Nc)).
  inversion N1 as [|? ? M1 N1']; subst. inversion N2 as [|? ? M2 N2']; subst.
  pose proof (Permutation_NoDup (Permutation_sym P1) N1') as K1. pose proof (Permutation_NoDup (Permutation_sym P2) N2') as K2.
  inversion K1 as [|? ? Q1 _]; subst. inversion K2 as [|? ? Q2 _]; subst.
  assert (D12 : n1 <> n2).
  { intros <-. assert (SS : Permutation s1 s2) by (eapply Permutation_trans; [apply Permutation_sym, P1|exact P2]). apply M1.
    apply (Permutation_in _ (Permutation_sym SS)). assert (X : In (nth j1 c 0%nat) (nth j2 c 0%nat :: s2)) by (apply (Permutation_in _ (Permutation_sym O2)), nth_In; lia).
    destruct X as [X|X]; [|exact X]. exfalso. apply J. rewrite (NoDup_nth _ 0%nat) in Nc. apply Nc; [lia|lia|congruence]. }
  apply NoDup_Permutation_bis.
  - apply (Permutation_NoDup (Permutation_app_comm [n1; n2] f)). cbn [app]. constructor; [cbn [In]; intros [X|X]; [congruence|contradiction]|]. constructor; assumption.
  - rewrite app_length, Lf, Lc. cbn. lia.
  - assert (IC : forall s j, Permutation (nth j c 0%nat :: s) c -> incl s c) by (intros s j Pm v Hv; apply (Permutation_in _ Pm); right; exact Hv).
    intros v Hv. apply in_app_iff in Hv. destruct Hv as [Hv|[Hv|[Hv|[]]]].
    + apply (IC s1 j1 O1), (Permutation_in _ P1). right. exact Hv.
    + subst v. apply (IC s1 j1 O1), (Permutation_in _ P1). left. reflexivity.
    + subst v. apply (IC s2 j2 O2), (Permutation_in _ P2). left. reflexivity.
Qed.
Definition slots (k : nat) : list tslot := map mk (nth k (adj_tet_data a) []).
Lemma at_tet : forall k c, nth_error tets k = Some c -> exists x y z w, c = [x; y; z; w] /\ (x < y)%nat /\ (y < z)%nat /\ (z < w)%nat /\
  det3 (P pos x) (P pos y) (P pos z) (P pos w) <> 0 /\ tslots edges a k = Some (slots k) /\
  Permutation (map ts_edge (slots k)) [[x; y]; [x; z]; [x; w]; [y; z]; [y; w]; [z; w]] /\
  (forall s, In s (slots k) -> Permutation (ts_edge s ++ [ts_o0 s; ts_o1 s]) c) /\ forall s, In s (slots k) -> (ts_num s < length edges)%nat /\ nth_error edges (ts_num s) = Some (ts_edge s).
Proof.
  intros k c E. destruct (six 3 edges tris tets a CR FIN k c E) as (x & y & z & w & i1 & i2 & i3 & i4 & i5 & i6 & Hc & XY & YZ & ZW & E1 & E2 & E3 & E4 & E5 & E6).
  exists x, y, z, w. split; [exact Hc|]. split; [exact XY|]. split; [exact YZ|]. split; [exact ZW|]. split; [|split; [|split; [|split]]].
  - rewrite Forall_forall in GD. pose proof (GD c (nth_error_In _ _ E)) as G. unfold good3, tetrahedron, corner in G. rewrite Hc in G. exact G.
  - unfold tslots, slots. apply opt_list_ext. intros d I. apply (slot_data k c d E I).
  - pose proof (tet_es_perm 3 edges tris tets a CR FIN k x y z w i1 i2 i3 i4 i5 i6 ltac:(rewrite <- Hc; exact E) XY YZ ZW E1 E2 E3 E4 E5 E6) as Pm.
    apply (Permutation_map (fun e => nth e edges [])) in Pm. cbn [map] in Pm. rewrite (nthe _ _ _ E1), (nthe _ _ _ E2), (nthe _ _ _ E3), (nthe _ _ _ E4), (nthe _ _ _ E5), (nthe _ _ _ E6) in Pm.
    unfold slots, tet_es in *. rewrite map_map in Pm |- *. exact Pm.
  - intros s I. apply in_map_iff in I. destruct I as (d & <- & I). apply (slot_data k c d E I).
  - intros s I. apply in_map_iff in I. destruct I as (d & <- & I). destruct (slot_data k c d E I) as (_ & _ & B). split; [exact B|]. apply nth_error_nth'. exact B.
Qed.
Definition b3 (ev : list R) (k j : nat) : R := nth (ts_num (sl (slots k) j)) ev 0.
Lemma over_ok : forall A (f : nat -> simplex -> list tslot -> option (list A)) (row : nat -> list A), (forall k c, nth_error tets k = Some c -> f k c (slots k) = Some (row k) /\ length (row k) = 6%nat) ->
  exists r, over_tets edges tets a f = Some r /\ length r = (6 * length tets)%nat /\ forall k i d, (k < length tets)%nat -> (i < 6)%nat -> nth (6 * k + i) r d = nth i (row k) d.
Proof.
  intros A f row H. apply (rowsw 6 A (fun k => bind (nth_error tets k) (fun c => bind (tslots edges a k) (f k c))) row). intros k K.
  destruct (tet_idx tets k K) as [c E]. rewrite E. cbn [bind]. destruct (at_tet k c E) as (x & y & z & w & _ & _ & _ & _ & _ & T & _). rewrite T. cbn [bind]. apply H. exact E.
Qed.
Lemma map6 : forall (f : nat -> vec) i, (i < 6)%nat -> nth i (map f [0; 1; 2; 3; 4; 5]%nat) zero_vec = f i.
Proof. intros f i H. destruct i as [|[|[|[|[|[|i]]]]]]; [reflexivity..|lia]. Qed.
Lemma from_edge3_ok : forall ev, length ev = length edges -> exists r, element_from_edge3 solve pos edges tets a ev = Some r /\ length r = (6 * length tets)%nat /\
  forall k c i, nth_error tets k = Some c -> (i < 6)%nat -> nth (6 * k + i) r zero_vec = F3 pos (slots k) (b3 ev k) i.
Proof.
  intros ev L. destruct (over_ok vec (fun _ c dl => tet_field solve pos c dl (slot_value ev dl)) (fun k => map (F3 pos (slots k) (b3 ev k)) [0; 1; 2; 3; 4; 5]%nat)) as (r & E & Lr & Q).
  { intros k c E. split; [|reflexivity]. destruct (at_tet k c E) as (x & y & z & w & -> & XY & YZ & ZW & D & _ & H6 & HO & NM).
    apply (tet_field_ok solve SV TS pos x y z w XY YZ ZW D (slots k) H6). intros j Hj. unfold slot_value. destruct (sl_at x y z w (slots k) H6 j Hj) as [S I]. rewrite S. cbn [bind].
    unfold b3. apply nth_error_nth'. rewrite L. apply NM. exact I. }
  exists r. split; [exact E|]. split; [exact Lr|]. intros k c i Ec Hi. rewrite Q by (try exact Hi; apply nth_error_Some; unfold simplex in *; congruence). apply map6. exact Hi.
Qed.
Lemma from_edge_d3_ok : forall ev0 ev1 nd, length ev0 = length edges -> length ev1 = length edges -> (nd < 4)%nat -> exists r, element_from_edge_d3 solve pos edges tets a ev0 ev1 nd = Some r /\ length r = (6 * length tets)%nat /\
  forall k c i, nth_error tets k = Some c -> (i < 6)%nat -> nth (6 * k + i) r zero_vec = F3 pos (slots k) (db (slots k) ev0 ev1 (nth nd (order3 (slots k) i) 0%nat)) i.
Proof.
  intros ev0 ev1 nd L0 L1 Hnd. destruct (over_ok vec (fun _ c dl => tet_dfield solve pos c dl ev0 ev1 nd) (fun k => map (fun j => F3 pos (slots k) (db (slots k) ev0 ev1 (nth nd (order3 (slots k) j) 0%nat)) j) [0; 1; 2; 3; 4; 5]%nat)) as (r & E & Lr & Q).
  { intros k c E. split; [|reflexivity]. destruct (at_tet k c E) as (x & y & z & w & -> & XY & YZ & ZW & D & _ & H6 & HO & NM).
    apply (tet_dfield_ok solve SV TS pos x y z w XY YZ ZW D (slots k) H6 HO); [|exact Hnd]. intros j Hj. destruct (sl_at x y z w (slots k) H6 j Hj) as [S I]. rewrite L0, L1. split; apply NM; exact I. }
  exists r. split; [exact E|]. split; [exact Lr|]. intros k c i Ec Hi. rewrite Q by (try exact Hi; apply nth_error_Some; unfold simplex in *; congruence). apply (map6 (fun j => F3 pos (slots k) (db (slots k) ev0 ev1 (nth nd (order3 (slots k) j) 0%nat)) j)). exact Hi.
Qed.
End Reg.
(* edge data j of a tetrahedron: the edge and the two corners that are not on it *)
Definition tet_edge (edges : list (list nat)) (a : adjacency) (k j e u v o0 o1 : nat) : Prop :=
  exists d j1 t1 j2 t2, nth_error (nth k (adj_tet_data a) []) j = Some d /\ ed_edge d = e /\ nth_error edges e = Some [u; v] /\ ed_faces d = [(j1, t1, Some o0); (j2, t2, Some o1)].
Lemma tet_edge_slot : forall edges a k j e u v o0 o1, tet_edge edges a k j e u v o0 o1 -> sl (slots edges a k) j = {| ts_num := e; ts_edge := [u; v]; ts_o0 := o0; ts_o1 := o1 |}.
Proof.
  intros edges a k j e u v o0 o1 (d & j1 & t1 & j2 & t2 & E & <- & Ee & F). unfold sl. apply nth_error_nth. unfold slots. rewrite (map_nth_error _ _ _ E). unfold mk, opp0, opp1. rewrite F, (nthe _ _ _ Ee). reflexivity.
Qed.
(* every tetrahedron has its six edges there *)
Lemma tet_edge_all : forall edges tris tets a, complete_region edges tris tets -> finalize_region 3 edges tris tets = Finished a -> forall k c, nth_error tets k = Some c ->
  (forall j, (j < 6)%nat -> exists e u v o0 o1, tet_edge edges a k j e u v o0 o1 /\ Permutation [u; v; o0; o1] c) /\ forall e u v, side edges c e u v -> exists j o0 o1, (j < 6)%nat /\ tet_edge edges a k j e u v o0 o1.
Proof.
  intros edges tris tets a CR FIN k c E. pose proof (tet_es_len 3 edges tris tets a CR FIN k ltac:(apply nth_error_Some; unfold simplex in *; congruence)) as [L _]. unfold tet_es in L. rewrite map_length in L.
  assert (A : forall j d, nth_error (nth k (adj_tet_data a) []) j = Some d -> exists u v o0 o1, tet_edge edges a k j (ed_edge d) u v o0 o1 /\ Permutation [u; v; o0; o1] c).
  { intros j d Ed. destruct (cn_tet_data _ _ _ _ (conn 3 edges tris tets a CR FIN) k c d E (nth_error_In _ _ Ed)) as (f & j1 & t1 & s1 & n1 & j2 & t2 & s2 & n2 & Ef & EF & _).
    destruct (edge_asc edges tris tets CR _ _ Ef) as (Lf & _ & _). destruct f as [|u [|v [|]]]; try discriminate Lf.
    exists u, v, n1, n2. split; [exists d, j1, t1, j2, t2; auto|]. destruct (slot_data edges tris tets a CR FIN k c d E (nth_error_In _ _ Ed)) as (_ & Pm & _). rewrite (nthe _ _ _ Ef) in Pm. unfold opp0, opp1 in Pm. rewrite EF in Pm. exact Pm. }
  split.
  - intros j Hj. destruct (nth_error (nth k (adj_tet_data a) []) j) as [d|] eqn:Ed; [|apply nth_error_None in Ed; lia]. destruct (A j d Ed) as (u & v & o0 & o1 & T). exists (ed_edge d), u, v, o0, o1. exact T.
  - intros e u v (Ee & Iu & Iv). destruct (edge_asc edges tris tets CR _ _ Ee) as (_ & Ne & _). destruct (tet_asc edges tris tets CR k c E) as (Lc & Nc & Ac).
    assert (F : face [u; v] c).
    { destruct (in_split _ _ Iu) as (l1 & l2 & ->). inversion Ne as [|? ? Nu _]; subst. assert (Iv' : In v (l1 ++ l2)) by (apply in_app_iff in Iv; apply in_app_iff; destruct Iv as [Iv|[Iv|Iv]]; auto; exfalso; apply Nu; left; congruence).
      destruct (in_split _ _ Iv') as (m1 & m2 & Em). exists (m1 ++ m2). cbn [app]. eapply Permutation_trans; [|apply Permutation_middle]. apply perm_skip. rewrite Em. apply Permutation_middle. }
    destruct (cn_tet_edges _ _ _ _ (conn 3 edges tris tets a CR FIN) k c E) as [_ H]. assert (I : In e (map ed_edge (nth k (adj_tet_data a) []))) by (apply H; exists [u; v]; auto).
    apply in_map_iff in I. destruct I as (d & Hd & Id). destruct (In_nth_error _ _ Id) as [j Ed]. destruct (A j d Ed) as (u' & v' & o0 & o1 & T & _). exists j, o0, o1. split; [rewrite <- L; apply nth_error_Some; congruence|].
    rewrite Hd in T. destruct T as (d' & j1 & t1 & j2 & t2 & X1 & X2 & X3 & X4). rewrite Ee in X3. injection X3 as <- <-. exists d', j1, t1, j2, t2. auto.
Qed.
Lemma along_unit3 : forall pos F u v, dot (unit_vec pos [u; v]) F = along pos F u v.
Proof. intros pos F u v. rewrite unit_eq. unfold dot, along. cbn [vx vy vz]. unfold Rdiv. ring. Qed.
Lemma touch_edge : forall edges a k j e u v o0 o1 n, tet_edge edges a k j e u v o0 o1 -> n = u \/ n = v -> touches n (sl (slots edges a k) j) = true.
Proof.
  intros edges a k j e u v o0 o1 n T H. rewrite (tet_edge_slot _ _ _ _ _ _ _ _ _ T). unfold touches, hd_, tl_. cbn [ts_edge nth]. destruct H as [-> | ->]; rewrite Nat.eqb_refl; [reflexivity|apply orb_true_r].
Qed.

(* C52: the command never fails on a region of tetrahedra.  At each corner of a tetrahedron there is the vector whose
   components along the three edges of the tetrahedron that meet there are the values of the edge model, and the field on an
   edge of the tetrahedron is the mean of the vectors at its ends *)
Theorem C52_field_3d : forall solve pos edges tris tets a ev, solves solve -> total_solver solve -> complete_region edges tris tets -> finalize_region 3 edges tris tets = Finished a ->
  Forall (good3 pos) tets -> length ev = length edges ->
  exists r, element_from_edge3 solve pos edges tets a ev = Some r /\ length r = (6 * length tets)%nat /\
    forall k c, nth_error tets k = Some c -> exists V, (forall n, In n c -> agrees pos edges ev c n (V n)) /\
      forall j e u v o0 o1, (j < 6)%nat -> tet_edge edges a k j e u v o0 o1 -> mean (1 / 2) (V u) (1 / 2) (V v) (nth (6 * k + j) r zero_vec).
Proof.
  intros solve pos edges tris tets a ev SV TS CR FIN GD L. destruct (from_edge3_ok solve pos edges tris tets a SV TS CR FIN GD ev L) as (r & E & Lr & Q). exists r. split; [exact E|]. split; [exact Lr|].
  intros k c Ec. exists (NV pos (slots edges a k) (b3 edges a ev k)). destruct (at_tet pos edges tris tets a CR FIN GD k c Ec) as (x & y & z & w & Hc & XY & YZ & ZW & D & _ & H6 & HO & NM). split.
  - intros n In_ e u v Sd Hn. destruct (proj2 (tet_edge_all edges tris tets a CR FIN k c Ec) e u v Sd) as (j & o0 & o1 & Hj & T).
    pose proof (NV_rows pos x y z w XY YZ ZW D (slots edges a k) H6 (b3 edges a ev k) n j ltac:(rewrite <- Hc; exact In_) Hj (touch_edge _ _ _ _ _ _ _ _ _ n T Hn)) as X.
    unfold U, b3 in X. rewrite (tet_edge_slot _ _ _ _ _ _ _ _ _ T) in X. cbn [ts_edge ts_num] in X. rewrite along_unit3 in X. symmetry. exact X.
  - intros j e u v o0 o1 Hj T. rewrite (Q k c j Ec Hj). unfold F3. rewrite (tet_edge_slot _ _ _ _ _ _ _ _ _ T). unfold hd_, tl_. cbn [ts_edge nth]. split; [lra|]. unfold half, vscale, vadd. cbn [vx vy vz]. f_equal; field.
Qed.
(* C52: if on the edges of a tetrahedron the edge model is the component of one vector, the field on its six edges is this vector *)
Theorem C52_constant_3d : forall solve pos edges tris tets a ev, solves solve -> total_solver solve -> complete_region edges tris tets -> finalize_region 3 edges tris tets = Finished a ->
  Forall (good3 pos) tets -> length ev = length edges ->
  exists r, element_from_edge3 solve pos edges tets a ev = Some r /\ length r = (6 * length tets)%nat /\
    forall k c F, nth_error tets k = Some c -> (forall e u v, side edges c e u v -> nth e ev 0 = along pos F u v) -> forall j, (j < 6)%nat -> nth (6 * k + j) r zero_vec = F.
Proof.
  intros solve pos edges tris tets a ev SV TS CR FIN GD L. destruct (from_edge3_ok solve pos edges tris tets a SV TS CR FIN GD ev L) as (r & E & Lr & Q). exists r. split; [exact E|]. split; [exact Lr|].
  intros k c F Ec AF j Hj. destruct (at_tet pos edges tris tets a CR FIN GD k c Ec) as (x & y & z & w & Hc & XY & YZ & ZW & D & _ & H6 & HO & NM).
  assert (VF : forall n, In n c -> NV pos (slots edges a k) (b3 edges a ev k) n = F).
  { intros n In_. apply (NV_unique pos x y z w XY YZ ZW D (slots edges a k) H6); [rewrite <- Hc; exact In_|]. intros i Hi Ti. unfold U, b3.
    destruct (proj1 (tet_edge_all edges tris tets a CR FIN k c Ec) i Hi) as (e & u & v & o0 & o1 & T & Pm). rewrite (tet_edge_slot _ _ _ _ _ _ _ _ _ T). cbn [ts_edge ts_num]. rewrite along_unit3. symmetry. apply AF.
    destruct T as (d & j1 & t1 & j2 & t2 & _ & _ & Ee & _). split; [exact Ee|]. split; apply (Permutation_in _ Pm); cbn; auto. }
  rewrite (Q k c j Ec Hj). destruct (proj1 (tet_edge_all edges tris tets a CR FIN k c Ec) j Hj) as (e & u & v & o0 & o1 & T & Pm). unfold F3. rewrite (tet_edge_slot _ _ _ _ _ _ _ _ _ T). unfold hd_, tl_. cbn [ts_edge nth].
  rewrite !VF by (apply (Permutation_in _ Pm); cbn; auto). destruct F as [f1 f2 f3]. unfold half, vscale, vadd. cbn [vx vy vz]. f_equal; field.
Qed.
(* C52: e_x:v@en0 ... @en3 (and e_y, e_z) are the derivatives with respect to the variable at the first and second node of the
   edge and at the two other corners *)
Theorem C52_derivative_3d : forall solve pos edges tris tets a f f0 f1 q nd, solves solve -> total_solver solve -> complete_region edges tris tets -> finalize_region 3 edges tris tets = Finished a ->
  Forall (good3 pos) tets -> partials f f0 f1 -> (nd < 4)%nat ->
  exists dr, element_from_edge_d3 solve pos edges tets a (edge_values f0 q edges) (edge_values f1 q edges) nd = Some dr /\ length dr = (6 * length tets)%nat /\
    forall k c j e u v o0 o1, nth_error tets k = Some c -> (j < 6)%nat -> tet_edge edges a k j e u v o0 o1 ->
      let n := nth nd [u; v; o0; o1] 0%nat in
      exists r : R -> list vec, (forall s, element_from_edge3 solve pos edges tets a (edge_values f (set_at q n s) edges) = Some (r s)) /\
        derivable_pt_lim (fun s => vx (nth (6 * k + j) (r s) zero_vec)) (q n) (vx (nth (6 * k + j) dr zero_vec)) /\
        derivable_pt_lim (fun s => vy (nth (6 * k + j) (r s) zero_vec)) (q n) (vy (nth (6 * k + j) dr zero_vec)) /\
        derivable_pt_lim (fun s => vz (nth (6 * k + j) (r s) zero_vec)) (q n) (vz (nth (6 * k + j) dr zero_vec)).
Proof.
  intros solve pos edges tris tets a f f0 f1 q nd SV TS CR FIN GD PD Hnd.
  assert (LV : forall g w', length (edge_values g w' edges) = length edges) by (intros; apply map_length).
  destruct (from_edge_d3_ok solve pos edges tris tets a SV TS CR FIN GD _ _ nd (LV f0 q) (LV f1 q) Hnd) as (dr & E & Ld & Q). exists dr. split; [exact E|]. split; [exact Ld|].
  intros k c j e u v o0 o1 Ec Hj T n.
  exists (fun s => match element_from_edge3 solve pos edges tets a (edge_values f (set_at q n s) edges) with Some r => r | None => [] end).
  assert (FE := fun s => from_edge3_ok solve pos edges tris tets a SV TS CR FIN GD _ (LV f (set_at q n s))).
  split. { intros s. destruct (FE s) as (r & -> & _). reflexivity. }
  destruct (at_tet pos edges tris tets a CR FIN GD k c Ec) as (x & y & z & w & Hc & XY & YZ & ZW & D & _ & H6 & HO & NM).
  rewrite (Q k c j Ec Hj). assert (ON : nth nd (order3 (slots edges a k) j) 0%nat = n) by (unfold order3; rewrite (tet_edge_slot _ _ _ _ _ _ _ _ _ T); reflexivity). rewrite ON.
  assert (BD : forall i, (i < 6)%nat -> derivable_pt_lim (fun s => b3 edges a (edge_values f (set_at q n s) edges) k i) (q n) (db (slots edges a k) (edge_values f0 q edges) (edge_values f1 q edges) n i)).
  { intros i Hi. destruct (proj1 (tet_edge_all edges tris tets a CR FIN k c Ec) i Hi) as (e' & u' & v' & o0' & o1' & T' & Pm). unfold b3, db. rewrite (tet_edge_slot _ _ _ _ _ _ _ _ _ T'). unfold hd_, tl_. cbn [ts_num ts_edge nth].
    destruct T' as (d & j1 & t1 & j2 & t2 & _ & _ & Ee & _). rewrite (values_at f0 q edges e' u' v' Ee), (values_at f1 q edges e' u' v' Ee).
    assert (UV : u' <> v'). { destruct (edge_asc edges tris tets CR _ _ Ee) as (_ & Ne & _). inversion Ne as [|? ? Nu _]; subst. intros ->. apply Nu. left. reflexivity. }
    refine (deriv_ext _ _ _ _ _ (end_deriv f f0 f1 [u'; v'] q n u' v' PD UV)). intros s. rewrite (values_at f (set_at q n s) edges e' u' v' Ee). reflexivity. }
  destruct (F3_deriv pos x y z w XY YZ ZW D (slots edges a k) H6 (fun s => b3 edges a (edge_values f (set_at q n s) edges) k) _ (q n) j Hj BD) as (X1 & X2 & X3).
  assert (VAL : forall s, nth (6 * k + j) (match element_from_edge3 solve pos edges tets a (edge_values f (set_at q n s) edges) with Some r => r | None => [] end) zero_vec = F3 pos (slots edges a k) (b3 edges a (edge_values f (set_at q n s) edges) k) j).
  { intros s. destruct (FE s) as (r & -> & _ & Qr). apply (Qr k c j Ec Hj). }
  repeat split; [refine (deriv_ext _ _ _ _ _ X1)|refine (deriv_ext _ _ _ _ _ X2)|refine (deriv_ext _ _ _ _ _ X3)]; intros s; rewrite VAL; reflexivity.
Qed.
(* C52: v@en0 ... v@en3 *)
Theorem C52_node_3d : forall (edges tris tets : list simplex) a nv nd, complete_region edges tris tets -> finalize_region 3 edges tris tets = Finished a -> (nd < 4)%nat ->
  (forall c n, In c tets -> In n c -> (n < length nv)%nat) ->
  exists r, element_from_node3 edges tets a nv nd = Some r /\ length r = (6 * length tets)%nat /\
    forall k c j e u v o0 o1, nth_error tets k = Some c -> (j < 6)%nat -> tet_edge edges a k j e u v o0 o1 -> nth (6 * k + j) r 0 = nth (nth nd [u; v; o0; o1] 0%nat) nv 0.
Proof.
  intros edges tris tets a nv nd CR FIN Hnd B.
  set (pk := fun s => match nd with 0%nat => hd_ (ts_edge s) | 1%nat => tl_ (ts_edge s) | 2%nat => ts_o0 s | _ => ts_o1 s end).
  assert (PK : forall e u v o0 o1, pk {| ts_num := e; ts_edge := [u; v]; ts_o0 := o0; ts_o1 := o1 |} = nth nd [u; v; o0; o1] 0%nat) by (intros; unfold pk, hd_, tl_; destruct nd as [|[|[|[|nd]]]]; [reflexivity..|lia]).
  destruct (rowsw 6 R (fun k => bind (nth_error tets k) (fun c => bind (tslots edges a k) (fun dl => opt_list (map (fun s => nth_error nv (pk s)) dl))))
    (fun k => map (fun s => nth (pk s) nv 0) (slots edges a k)) (length tets)) as (r & E & L & Q).
  { intros k K. destruct (tet_idx tets k K) as [c E]. rewrite E. cbn [bind]. pose proof (tet_es_len 3 edges tris tets a CR FIN k K) as [L6 _]. unfold tet_es in L6. rewrite map_length in L6.
    assert (TT : tslots edges a k = Some (slots edges a k)) by (unfold tslots, slots; apply opt_list_ext; intros d I; apply (slot_data edges tris tets a CR FIN k c d E I)). rewrite TT. cbn [bind].
    split; [|unfold slots; rewrite !map_length; exact L6]. apply opt_list_ext. intros s I. apply nth_error_nth'. destruct (In_nth_error _ _ I) as [j Ej].
    assert (Hj : (j < 6)%nat) by (rewrite <- L6; unfold slots in Ej; rewrite <- (map_length (mk edges)); apply nth_error_Some; congruence).
    destruct (proj1 (tet_edge_all edges tris tets a CR FIN k c E) j Hj) as (e & u & v & o0 & o1 & T & Pm). pose proof (tet_edge_slot _ _ _ _ _ _ _ _ _ T) as S. unfold sl in S. rewrite (nth_error_nth _ _ dflt Ej) in S. rewrite S, PK.
    apply (B c); [apply (nth_error_In _ _ E)|]. apply (Permutation_in _ Pm), nth_In. cbn. exact Hnd. }
  exists r. split; [exact E|]. split; [exact L|]. intros k c j e u v o0 o1 Ec Hj T. assert (K : (k < length tets)%nat) by (apply nth_error_Some; unfold simplex in *; congruence). rewrite (Q k j 0 K Hj).
  pose proof (tet_es_len 3 edges tris tets a CR FIN k K) as [L6 _]. unfold tet_es in L6. rewrite map_length in L6.
  rewrite (nth_indep _ 0 (nth (pk dflt) nv 0)) by (unfold slots; rewrite !map_length, L6; exact Hj). rewrite (map_nth (fun s => nth (pk s) nv 0)). fold (sl (slots edges a k) j). rewrite (tet_edge_slot _ _ _ _ _ _ _ _ _ T), PK. reflexivity.
Qed.

(* a tetrahedron: the components of (2, 3, 5) along its edges give (2, 3, 5) on all six edges *)
Example C52_case_3d : exists a r, finalize_region 3 te_edges te_tris [[0; 1; 2; 3]]%nat = Finished a /\
  element_from_edge3 cramer te_pos te_edges [[0; 1; 2; 3]]%nat a (map (fun e => along te_pos (mkvec 2 3 5) (nth 0 e 0%nat) (nth 1 e 0%nat)) te_edges) = Some r /\ r = repeat (mkvec 2 3 5) 6.
Proof.
  destruct (finalize_region 3 te_edges te_tris [[0; 1; 2; 3]]%nat) as [a| |] eqn:F; [|vm_compute in F; discriminate|vm_compute in F; discriminate].
  assert (TT : Forall (good3 te_pos) [[0; 1; 2; 3]]%nat) by (constructor; [unfold good3, corner, P, te_pos, tetrahedron, det3; cbn [nth vx vy vz]; lra|constructor]).
  set (ev := map (fun e => along te_pos (mkvec 2 3 5) (nth 0 e 0%nat) (nth 1 e 0%nat)) te_edges).
  destruct (C52_constant_3d cramer te_pos te_edges te_tris [[0; 1; 2; 3]]%nat a ev cramer_solves cramer_total te_complete F TT eq_refl) as (r & E & L & Q).
  exists a, r. split; [reflexivity|]. split; [exact E|].
  assert (A : forall c e u v, side te_edges c e u v -> nth e ev 0 = along te_pos (mkvec 2 3 5) u v).
  { intros c e u v (Ee & _). unfold ev. apply nth_error_nth. rewrite (map_nth_error _ _ _ Ee). reflexivity. }
  pose proof (fun i H => Q 0%nat _ (mkvec 2 3 5) eq_refl (A _) i H) as Q0. change (6 * length [[0%nat; 1%nat; 2%nat; 3%nat]])%nat with 6%nat in L.
  destruct r as [|r0 [|r1 [|r2 [|r3 [|r4 [|r5 [|r6 r]]]]]]]; try discriminate L.
  pose proof (Q0 0%nat ltac:(lia)) as K0. pose proof (Q0 1%nat ltac:(lia)) as K1. pose proof (Q0 2%nat ltac:(lia)) as K2.
  pose proof (Q0 3%nat ltac:(lia)) as K3. pose proof (Q0 4%nat ltac:(lia)) as K4. pose proof (Q0 5%nat ltac:(lia)) as K5. cbn [Nat.mul Nat.add nth] in K0, K1, K2, K3, K4, K5. change (6 * 0)%nat with 0%nat in *. cbn [Nat.add nth] in K0, K1, K2, K3, K4, K5. subst. reflexivity.
Qed.
Print Assumptions C52_field_3d.
Print Assumptions C52_constant_3d.
Print Assumptions C52_derivative_3d.
Print Assumptions C52_node_3d.
