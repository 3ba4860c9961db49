(* Proofs about ElementField.v: one triangle. *)
From Coq Require Import List Bool Arith Lia Reals Lra Permutation.
From Verif Require Import Adjacency Geometry GeometrySpec Volume VectorGradient ElementField.
Import ListNotations.
Open Scope R_scope.
Local Arguments Nat.ltb : simpl never.
Local Arguments Nat.leb : simpl never.

Definition wm (wa : R) (a : vec) (wb : R) (b : vec) : vec :=
  mkvec ((wa * vx a + wb * vx b) / (wa + wb)) ((wa * vy a + wb * vy b) / (wa + wb)) ((wa * vz a + wb * vz b) / (wa + wb)).
Lemma weighted_ok : forall (s : pairs) i a b wa wb, fst s (2 * i)%nat = Some a -> fst s (2 * i + 1)%nat = Some b -> snd s (2 * i)%nat = Some wa -> snd s (2 * i + 1)%nat = Some wb ->
  wa + wb <> 0 -> weighted s i = Some (wm wa a wb b).
Proof.
  intros s i a b wa wb E1 E2 E3 E4 N. unfold weighted. rewrite E1, E2, E3, E4. cbv zeta. destruct (Req_EM_T (0 + wa + wb) 0) as [Z|_]; [exfalso; apply N; lra|].
  f_equal. unfold wm, vscale, vadd, zero_vec. cbn [vx vy vz]. f_equal; field; try split; intros Z; apply N; lra.
Qed.
Lemma wm_sym : forall wa a wb b, wm wa a wb b = wm wb b wa a.
Proof. intros. unfold wm. f_equal; unfold Rdiv; rewrite (Rplus_comm wa wb); f_equal; ring. Qed.

(* an edge between two nodes, in any direction *)
Definition joins (e : simplex) (x y : nat) : Prop := e = [x; y] \/ e = [y; x].

Section T.
Variable solve2 : v2 -> v2 -> v2 -> option v2.
Variable pos : list vec.
Variables a b d : nat.
Hypothesis AB : a <> b.
Hypothesis AD : a <> d.
Hypothesis BD : b <> d.
Variables e0 e1 e2 : simplex.
Hypothesis J0 : joins e0 b d.
Hypothesis J1 : joins e1 a d.
Hypothesis J2 : joins e2 a b.
Variables w0 w1 w2 : R.
Hypothesis W0 : w1 + w2 <> 0.
Hypothesis W1 : w0 + w2 <> 0.
Hypothesis W2 : w0 + w1 <> 0.
Notation t := [a; b; d].
Notation el := [e0; e1; e2].
Notation cp := [w0; w1; w2].

Lemma eqbs : (Nat.eqb a b = false) /\ (Nat.eqb b a = false) /\ (Nat.eqb a d = false) /\ (Nat.eqb d a = false) /\ (Nat.eqb b d = false) /\ (Nat.eqb d b = false).
Proof. repeat split; apply Nat.eqb_neq; congruence. Qed.
Definition fields (V : nat -> vec) : list vec := [wm w2 (V 1%nat) w1 (V 0%nat); wm w2 (V 2%nat) w0 (V 0%nat); wm w1 (V 2%nat) w0 (V 1%nat)].
Ltac eqb := repeat (rewrite ?(proj1 eqbs), ?(proj1 (proj2 eqbs)), ?(proj1 (proj2 (proj2 eqbs))), ?(proj1 (proj2 (proj2 (proj2 eqbs)))), ?(proj1 (proj2 (proj2 (proj2 (proj2 eqbs))))), ?(proj2 (proj2 (proj2 (proj2 (proj2 eqbs))))), ?Nat.eqb_refl).
Ltac wmk := first [apply weighted_ok; [reflexivity..|lra] | rewrite wm_sym; apply weighted_ok; [reflexivity..|lra]].
Lemma tri_field_ok : forall data V, (forall mi, (mi < 3)%nat -> pair_vector solve2 pos el data mi = Some (V mi)) ->
  tri_field solve2 pos t el cp data = Some (fields V).
Proof.
  intros data V H. unfold tri_field. cbn [field_pairs]. rewrite !H by lia. cbn [bind].
  unfold field_step, el_, end_of, hd_, tl_. cbn [nth row0 row1 node_shared nth_error fst snd].
  destruct J0 as [-> | ->], J1 as [-> | ->], J2 as [-> | ->]; cbn [nth]; eqb; cbn [bind]; unfold field_step; cbn [nth row0 row1 node_shared nth_error fst snd el_]; unfold end_of, hd_, tl_; cbn [nth]; eqb; cbn [fst snd bind];
    unfold field_step; cbn [nth row0 row1 node_shared nth_error fst snd el_]; unfold end_of, hd_, tl_; cbn [nth]; eqb; cbn [fst snd bind map opt_list]; unfold fields;
    (match goal with |- context [weighted ?s 0] => assert (A0 : weighted s 0 = Some (wm w2 (V 1%nat) w1 (V 0%nat))) by wmk; assert (A1 : weighted s 1 = Some (wm w2 (V 2%nat) w0 (V 0%nat))) by wmk; assert (A2 : weighted s 2 = Some (wm w1 (V 2%nat) w0 (V 1%nat))) by wmk end);
    rewrite A0, A1, A2; reflexivity.
Qed.
(* the derivative models: entry [nd][i] is the field of the derivatives with respect to the node that is number nd for edge i *)
Definition order (i : nat) : list nat := let e := nth i el [] in [hd_ e; tl_ e; nth i t 0%nat].
Definition edge_dir (o : bool) (x y : nat) : simplex := if o then [x; y] else [y; x].
Lemma dir_of : forall e x y, joins e x y -> exists o, e = edge_dir o x y.
Proof. intros e x y [-> | ->]; [exists true|exists false]; reflexivity. Qed.
Definition idx (o0 o1 o2 : bool) (nd i : nat) : nat :=
  match i with
  | 0%nat => nth nd (if o0 then [1; 2; 0] else [2; 1; 0])%nat 0%nat
  | 1%nat => nth nd (if o1 then [0; 2; 1] else [2; 0; 1])%nat 0%nat
  | _ => nth nd (if o2 then [0; 1; 2] else [1; 0; 2])%nat 0%nat
  end.
Ltac stp := unfold dfield_step at 1; cbn [nth row0 row1 node_shared nth_error fst snd el_ bind]; unfold end_of, der_index, hd_, tl_; cbn [nth]; eqb; cbn [fst snd bind].
Lemma dpairs_ok : forall o0 o1 o2 d0 d1 V, e0 = edge_dir o0 b d -> e1 = edge_dir o1 a d -> e2 = edge_dir o2 a b ->
  (forall ni mi, (ni < 3)%nat -> (mi < 3)%nat -> dpair_vector solve2 pos t el d0 d1 ni mi = Some (V ni mi)) ->
  exists s, dfield_pairs solve2 pos t el cp d0 d1 (list_prod [0; 1; 2]%nat [0; 1; 2]%nat) (empty, empty) = Some s /\
    forall nd i, (nd < 3)%nat -> (i < 3)%nat -> dweighted s nd i = Some (nth i (fields (V (idx o0 o1 o2 nd i))) zero_vec).
Proof.
  intros o0 o1 o2 d0 d1 V E0 E1 E2 H. cbn [list_prod map app dfield_pairs]. rewrite !H by lia. cbn [bind].
  destruct o0, o1, o2; cbn [edge_dir] in *; rewrite E0, E1, E2; do 9 stp; (eexists; split; [reflexivity|]);
    (intros nd i Hn Hi; destruct nd as [|[|[|nd]]]; [| | |lia]; (destruct i as [|[|[|i]]]; [| | |lia]); unfold dweighted, fields; cbn [idx nth]; wmk).
Qed.
Lemma tri_dfield_ok : forall d0 d1 V, (forall ni mi, (ni < 3)%nat -> (mi < 3)%nat -> dpair_vector solve2 pos t el d0 d1 ni mi = Some (V ni mi)) ->
  exists r, tri_dfield solve2 pos t el cp d0 d1 = Some r /\
    forall nd i ni, (nd < 3)%nat -> (i < 3)%nat -> (ni < 3)%nat -> nth nd (order i) 0%nat = nth ni t 0%nat ->
      exists l, nth_error r nd = Some l /\ length l = 3%nat /\ nth i l zero_vec = nth i (fields (V ni)) zero_vec.
Proof.
  intros d0 d1 V H. destruct (dir_of _ _ _ J0) as [o0 E0]. destruct (dir_of _ _ _ J1) as [o1 E1]. destruct (dir_of _ _ _ J2) as [o2 E2].
  destruct (dpairs_ok o0 o1 o2 d0 d1 V E0 E1 E2 H) as (s & Es & Q). unfold tri_dfield. rewrite Es. cbn [bind map]. rewrite !Q by lia. cbn [opt_list].
  eexists. split; [reflexivity|]. intros nd i ni Hnd Hi Hni E.
  assert (X : idx o0 o1 o2 nd i = ni).
  { unfold order in E. destruct i as [|[|[|i]]]; [| | |lia]; cbn [nth] in E.
    - rewrite E0 in E. destruct o0; cbn [edge_dir] in E; unfold hd_, tl_ in E; cbn [nth] in E; (destruct nd as [|[|[|nd]]]; [| | |lia]); (destruct ni as [|[|[|ni]]]; [| | |lia]); cbn [nth] in E; cbn [idx nth]; congruence.
    - rewrite E1 in E. destruct o1; cbn [edge_dir] in E; unfold hd_, tl_ in E; cbn [nth] in E; (destruct nd as [|[|[|nd]]]; [| | |lia]); (destruct ni as [|[|[|ni]]]; [| | |lia]); cbn [nth] in E; cbn [idx nth]; congruence.
    - rewrite E2 in E. destruct o2; cbn [edge_dir] in E; unfold hd_, tl_ in E; cbn [nth] in E; (destruct nd as [|[|[|nd]]]; [| | |lia]); (destruct ni as [|[|[|ni]]]; [| | |lia]); cbn [nth] in E; cbn [idx nth]; congruence. }
  destruct nd as [|[|[|nd]]]; [| | |lia]; cbn [nth_error]; (eexists; split; [reflexivity|]; split; [reflexivity|]);
    (destruct i as [|[|[|i]]]; [| | |lia]); cbn [nth]; rewrite X; reflexivity.
Qed.
End T.
