(* Proofs about ElementField3.v: one tetrahedron. *)
From Coq Require Import List Bool Arith Lia Reals Lra Permutation.
From Verif Require Import Adjacency Geometry GeometrySpec Volume VolumeSpec VolumeProofs VolumeProperties VectorGradient ElementField ElementFieldSpec ElementFieldProofs ElementFieldLinear ElementField3.
Import ListNotations.
Open Scope R_scope.
Local Arguments Nat.ltb : simpl never.
Local Arguments Nat.leb : simpl never.
Local Arguments Nat.eqb : simpl never.
Local Arguments Nat.mul : simpl never.

Definition cr3 (r1 r2 r3 y : vec) : vec :=
  let d := dot r1 (cross r2 r3) in
  mkvec ((vx y * (vy r2 * vz r3 - vz r2 * vy r3) - vy r1 * (vy y * vz r3 - vz r2 * vz y) + vz r1 * (vy y * vy r3 - vy r2 * vz y)) / d)
        ((vx r1 * (vy y * vz r3 - vz r2 * vz y) - vx y * (vx r2 * vz r3 - vz r2 * vx r3) + vz r1 * (vx r2 * vz y - vy y * vx r3)) / d)
        ((vx r1 * (vy r2 * vz y - vy y * vy r3) - vy r1 * (vx r2 * vz y - vy y * vx r3) + vx y * (vx r2 * vy r3 - vy r2 * vx r3)) / d).
Lemma cr3_unique : forall r1 r2 r3 y v, dot r1 (cross r2 r3) <> 0 -> dot r1 v = vx y -> dot r2 v = vy y -> dot r3 v = vz y -> v = cr3 r1 r2 r3 y.
Proof.
  intros r1 r2 r3 y v D A B C. unfold cr3. cbv zeta. rewrite <- A, <- B, <- C. destruct v as [v1 v2 v3]. unfold dot, cross in *. cbn [vx vy vz] in *. f_equal; field; exact D.
Qed.
Lemma cr3_rows : forall r1 r2 r3 y, dot r1 (cross r2 r3) <> 0 -> dot r1 (cr3 r1 r2 r3 y) = vx y /\ dot r2 (cr3 r1 r2 r3 y) = vy y /\ dot r3 (cr3 r1 r2 r3 y) = vz y.
Proof. intros r1 r2 r3 y D. unfold cr3. cbv zeta. unfold dot, cross in *. cbn [vx vy vz] in *. repeat split; field; exact D. Qed.
Lemma cr3_linear : forall r1 r2 r3, exists A B C, forall y, cr3 r1 r2 r3 y = mkvec (vx A * vx y + vy A * vy y + vz A * vz y) (vx B * vx y + vy B * vy y + vz B * vz y) (vx C * vx y + vy C * vy y + vz C * vz y).
Proof.
  intros r1 r2 r3. set (d := dot r1 (cross r2 r3)).
  exists (mkvec ((vy r2 * vz r3 - vz r2 * vy r3) / d) ((vz r1 * vy r3 - vy r1 * vz r3) / d) ((vy r1 * vz r2 - vz r1 * vy r2) / d)),
    (mkvec (- (vx r2 * vz r3 - vz r2 * vx r3) / d) ((vx r1 * vz r3 - vz r1 * vx r3) / d) ((vz r1 * vx r2 - vx r1 * vz r2) / d)),
    (mkvec ((vx r2 * vy r3 - vy r2 * vx r3) / d) ((vy r1 * vx r3 - vx r1 * vy r3) / d) ((vx r1 * vy r2 - vy r1 * vx r2) / d)).
  intros y. unfold cr3. fold d. cbv zeta. cbn [vx vy vz]. unfold Rdiv. f_equal; ring.
Qed.
Lemma solver_cr3 : forall solve r1 r2 r3 y, solves solve -> total_solver solve -> dot r1 (cross r2 r3) <> 0 -> solve r1 r2 r3 y = Some (cr3 r1 r2 r3 y).
Proof.
  intros solve r1 r2 r3 y SV TS D. destruct (solve r1 r2 r3 y) as [v|] eqn:E.
  - f_equal. destruct (SV _ _ _ _ _ E) as (A & B & C). apply cr3_unique; assumption.
  - exfalso. exact (TS _ _ _ y D E).
Qed.
Lemma dist_pos3 : forall a b, ~ (vx a = vx b /\ vy a = vy b /\ vz a = vz b) -> 0 < dist a b.
Proof.
  intros a b H. unfold dist. apply sqrt_lt_R0. pose proof (pow2_ge_0 (vx a - vx b)). pose proof (pow2_ge_0 (vy a - vy b)). pose proof (pow2_ge_0 (vz a - vz b)).
  assert (N : forall x y, x <> y -> 0 < (x - y) ^ 2) by (intros x y Q; pose proof (Rsqr_pos_lt (x - y) ltac:(lra)) as K; unfold Rsqr in K; lra).
  destruct (Req_EM_T (vx a) (vx b)) as [E|E]; [|pose proof (N _ _ E); lra]. destruct (Req_EM_T (vy a) (vy b)) as [F|F]; [|pose proof (N _ _ F); lra].
  destruct (Req_EM_T (vz a) (vz b)) as [G|G]; [|pose proof (N _ _ G); lra]. tauto.
Qed.
Lemma unit_sgn : forall pos u v n m, (n = u /\ m = v) \/ (n = v /\ m = u) -> 0 < dist (P pos n) (P pos m) -> exists s, s <> 0 /\ unit_vec pos [u; v] = vscale s (vsub (P pos m) (P pos n)).
Proof.
  intros pos u v n m H L. rewrite unit_eq. pose proof (Rinv_0_lt_compat _ L) as I. destruct H as [[-> ->]|[-> ->]].
  - exists (/ dist (P pos u) (P pos v)). split; [lra|]. unfold vscale, vsub. cbn [vx vy vz]. unfold Rdiv. f_equal; ring.
  - exists (- / dist (P pos u) (P pos v)). rewrite dist_sym in I. split; [lra|]. unfold vscale, vsub. cbn [vx vy vz]. unfold Rdiv. f_equal; ring.
Qed.
Lemma det_zero : forall p q r, det3 p p q r = 0 /\ det3 p q p r = 0 /\ det3 p q r p = 0.
Proof. intros. unfold det3. repeat split; ring. Qed.
Lemma det_apart : forall p a b c, det3 p a b c <> 0 -> 0 < dist p a /\ 0 < dist p b /\ 0 < dist p c.
Proof.
  intros p a b c D. destruct p as [p1 p2 p3], a as [a1 a2 a3], b as [b1 b2 b3], c as [c1 c2 c3]. repeat split; apply dist_pos3; intros (A & B & C); apply D; cbn in A, B, C; subst; unfold det3; cbn [vx vy vz]; ring.
Qed.
Lemma det_scaled : forall p a b c s t u, dot (vscale s (vsub a p)) (cross (vscale t (vsub b p)) (vscale u (vsub c p))) = s * t * u * det3 p a b c.
Proof. intros. unfold det3, dot, cross, vscale, vsub. cbn [vx vy vz]. ring. Qed.
Lemma det_perm : forall (Q : nat -> vec) x y z w n m0 m1 m2, det3 (Q x) (Q y) (Q z) (Q w) <> 0 -> In n [x; y; z; w] -> In m0 [x; y; z; w] -> In m1 [x; y; z; w] -> In m2 [x; y; z; w] ->
  NoDup [n; m0; m1; m2] -> det3 (Q n) (Q m0) (Q m1) (Q m2) <> 0.
Proof.
  intros Q x y z w n m0 m1 m2 D I0 I1 I2 I3 N.
  assert (n <> m0 /\ n <> m1 /\ n <> m2 /\ m0 <> m1 /\ m0 <> m2 /\ m1 <> m2) as (N1 & N2 & N3 & N4 & N5 & N6).
  { inversion N as [|? ? A1 N']; subst. inversion N' as [|? ? A2 N'']; subst. inversion N'' as [|? ? A3 _]; subst. cbn in *. repeat split; intros ->; tauto. }
  cbn [In] in I0, I1, I2, I3. unfold det3 in *.
  destruct I0 as [<-|[<-|[<-|[<-|[]]]]], I1 as [<-|[<-|[<-|[<-|[]]]]]; try congruence; destruct I2 as [<-|[<-|[<-|[<-|[]]]]]; try congruence; destruct I3 as [<-|[<-|[<-|[<-|[]]]]]; try congruence; intros Z; apply D; lra.
Qed.
Lemma filter_seq_len : forall A (p : A -> bool) l s, length (filter (fun j => match nth_error l (j - s) with Some x => p x | None => false end) (seq s (length l))) = length (filter p l).
Proof.
  intros A p. induction l as [|x l IH]; intros s; [reflexivity|]. cbn [length seq filter]. rewrite Nat.sub_diag. cbn [nth_error].
  assert (E : filter (fun j => match nth_error (x :: l) (j - s) with Some x => p x | None => false end) (seq (S s) (length l)) = filter (fun j => match nth_error l (j - S s) with Some x => p x | None => false end) (seq (S s) (length l))).
  { apply filter_ext_in. intros j J. apply in_seq in J. replace (j - s)%nat with (S (j - S s)) by lia. reflexivity. }
  rewrite E. destruct (p x); cbn [length]; rewrite IH; reflexivity.
Qed.
Lemma fill_app : forall (l : list (nat * vec)) k (m : arr vec), fold_left (fun (m : arr vec) w => upd m (fst w) (snd w)) l m k = match fold_left (fun (m : arr vec) w => upd m (fst w) (snd w)) l empty k with Some v => Some v | None => m k end.
Proof.
  induction l as [|w l IH]; intros k m; cbn [fold_left]; [reflexivity|]. rewrite (IH k (upd m _ _)), (IH k (upd empty _ _)).
  destruct (fold_left _ l empty k); [reflexivity|]. unfold upd, empty. destruct (Nat.eqb k (fst w)); reflexivity.
Qed.
Lemma fill_ok : forall l (G : nat -> vec) k, (forall p, In p l -> snd p = G (fst p)) -> In k (map fst l) -> fill l k = Some (G k).
Proof.
  intros l G k H I. unfold fill. induction l as [|w l IH]; [destruct I|]. cbn [fold_left]. rewrite fill_app.
  destruct (in_dec Nat.eq_dec k (map fst l)) as [J|J].
  - rewrite (IH (fun p Hp => H p (or_intror Hp)) J). reflexivity.
  - assert (N : fold_left (fun (m : arr vec) (w : nat * vec) => upd m (fst w) (snd w)) l empty k = None).
    { clear IH H I. revert J. induction l as [|w' l IH]; intros J; [reflexivity|]. cbn [fold_left]. rewrite fill_app. cbn [map In] in J. rewrite IH by tauto. unfold upd, empty.
      destruct (Nat.eqb k (fst w')) eqn:E; [apply Nat.eqb_eq in E; exfalso; apply J; left; congruence|reflexivity]. }
    rewrite N. destruct I as [I|I]; [|contradiction]. unfold upd. rewrite <- I, Nat.eqb_refl. f_equal. apply H. left. reflexivity.
Qed.

Section T.
Variable solve : vec -> vec -> vec -> vec -> option vec.
Hypothesis SV : solves solve.
Hypothesis TS : total_solver solve.
Variable pos : list vec.
Variables x y z w : nat.
Hypothesis XY : (x < y)%nat.
Hypothesis YZ : (y < z)%nat.
Hypothesis ZW : (z < w)%nat.
Hypothesis D : det3 (P pos x) (P pos y) (P pos z) (P pos w) <> 0.
Notation c := [x; y; z; w].
Variable dl : list tslot.
Hypothesis H6 : Permutation (map ts_edge dl) [[x; y]; [x; z]; [x; w]; [y; z]; [y; w]; [z; w]].
Hypothesis HO : forall s, In s dl -> Permutation (ts_edge s ++ [ts_o0 s; ts_o1 s]) c.
Definition dflt : tslot := {| ts_num := 0; ts_edge := []; ts_o0 := 0; ts_o1 := 0 |}.
Definition sl (j : nat) : tslot := nth j dl dflt.
Lemma dl_len : length dl = 6%nat.
Proof. pose proof (Permutation_length H6) as Q. rewrite map_length in Q. exact Q. Qed.
Lemma sl_at : forall j, (j < 6)%nat -> nth_error dl j = Some (sl j) /\ In (sl j) dl.
Proof. intros j H. split; [apply nth_error_nth'|apply nth_In]; rewrite dl_len; exact H. Qed.
Lemma sl_edge : forall j, (j < 6)%nat -> exists u v, ts_edge (sl j) = [u; v] /\ (u < v)%nat /\ In u c /\ In v c.
Proof.
  intros j H. destruct (sl_at j H) as [_ I]. apply (in_map ts_edge) in I. apply (Permutation_in _ H6) in I. cbn [In] in I.
  destruct I as [I|[I|[I|[I|[I|[I|[]]]]]]]; rewrite <- I; eexists; eexists; (split; [reflexivity|]; split; [lia|]; cbn; auto 8).
Qed.
Lemma sl_inj : forall i j, (i < 6)%nat -> (j < 6)%nat -> ts_edge (sl i) = ts_edge (sl j) -> i = j.
Proof.
  intros i j Hi Hj E. assert (N : NoDup (map ts_edge dl)).
  { apply (Permutation_NoDup (Permutation_sym H6)). repeat (constructor; [cbn [In]; intros Q; repeat (destruct Q as [Q|Q]; [injection Q; intros; lia|]); exact Q|]). constructor. }
  rewrite NoDup_nth in N. apply (N i j); try (rewrite map_length, dl_len; assumption).
  change ([] : list nat) with (ts_edge dflt). rewrite !map_nth. exact E.
Qed.
Lemma at_slot_In : forall n j, In j (at_slot dl n) <-> (j < 6)%nat /\ touches n (sl j) = true.
Proof.
  intros n j. unfold at_slot. rewrite filter_In, in_seq, dl_len. split.
  - intros [I E]. assert (H : (j < 6)%nat) by lia. split; [exact H|]. rewrite (proj1 (sl_at j H)) in E. exact E.
  - intros [H E]. split; [lia|]. rewrite (proj1 (sl_at j H)). exact E.
Qed.
Lemma at_slot_three : forall n, In n c -> length (at_slot dl n) = 3%nat.
Proof.
  intros n In_. unfold at_slot. rewrite (filter_ext _ (fun j => match nth_error dl (j - 0) with Some s => touches n s | None => false end)) by (intros j; rewrite Nat.sub_0_r; reflexivity).
  rewrite filter_seq_len.
  assert (E : forall l, length (filter (touches n) l) = length (filter (fun e => Nat.eqb (hd_ e) n || Nat.eqb (tl_ e) n) (map ts_edge l))).
  { induction l as [|s l IH]; [reflexivity|]. cbn [filter map]. unfold touches at 1. destruct (Nat.eqb _ n || Nat.eqb _ n); cbn [length]; rewrite IH; reflexivity. }
  rewrite E. assert (PF : forall (q : simplex -> bool) l l', Permutation l l' -> length (filter q l) = length (filter q l')).
  { intros q l l' Pm. induction Pm; cbn; [reflexivity|destruct (q x0); cbn; lia|destruct (q y0), (q x0); cbn; lia|lia]. }
  rewrite (PF _ _ _ H6). cbn [filter]. unfold hd_, tl_. cbn [nth].
  cbn [In] in In_. destruct In_ as [<-|[<-|[<-|[<-|[]]]]]; repeat match goal with |- context [Nat.eqb ?u ?v] => destruct (Nat.eqb_spec u v); try lia end; reflexivity.
Qed.
Definition U (j : nat) : vec := unit_vec pos (ts_edge (sl j)).
Definition oth (n j : nat) : nat := if Nat.eqb (hd_ (ts_edge (sl j))) n then tl_ (ts_edge (sl j)) else hd_ (ts_edge (sl j)).
Lemma oth_ok : forall n j, (j < 6)%nat -> touches n (sl j) = true -> exists u v, ts_edge (sl j) = [u; v] /\ (u < v)%nat /\ In (oth n j) c /\ ((n = u /\ oth n j = v) \/ (n = v /\ oth n j = u)).
Proof.
  intros n j H T. destruct (sl_edge j H) as (u & v & E & L & Iu & Iv). exists u, v. split; [exact E|]. split; [exact L|]. unfold oth, touches in *. rewrite E in *. unfold hd_, tl_ in *. cbn [nth] in *.
  destruct (Nat.eqb u n) eqn:Eu; [apply Nat.eqb_eq in Eu; auto|]. cbn [orb] in T. apply Nat.eqb_eq in T. auto.
Qed.
Lemma oth_inj : forall n i j, (i < 6)%nat -> (j < 6)%nat -> touches n (sl i) = true -> touches n (sl j) = true -> oth n i = oth n j -> i = j.
Proof.
  intros n i j Hi Hj Ti Tj E. apply sl_inj; [exact Hi|exact Hj|]. destruct (oth_ok n i Hi Ti) as (u & v & -> & L & _ & A). destruct (oth_ok n j Hj Tj) as (u' & v' & -> & L' & _ & B).
  rewrite E in A. destruct A as [[? ?]|[? ?]], B as [[? ?]|[? ?]]; subst; try reflexivity; try lia; congruence.
Qed.
Lemma node_at : forall n, In n c -> exists j0 j1 j2, at_slot dl n = [j0; j1; j2] /\ (j0 < 6)%nat /\ (j1 < 6)%nat /\ (j2 < 6)%nat /\ dot (U j0) (cross (U j1) (U j2)) <> 0.
Proof.
  intros n In_. pose proof (at_slot_three n In_) as L. destruct (at_slot dl n) as [|j0 [|j1 [|j2 [|]]]] eqn:E; try discriminate L. exists j0, j1, j2. split; [reflexivity|].
  assert (N : NoDup (at_slot dl n)) by (apply NoDup_filter, seq_NoDup). rewrite E in N.
  assert (B : forall j, In j [j0; j1; j2] -> (j < 6)%nat /\ touches n (sl j) = true) by (intros j J; rewrite <- E in J; apply at_slot_In; exact J).
  destruct (B j0 ltac:(cbn; auto)) as [B0 T0]. destruct (B j1 ltac:(cbn; auto)) as [B1 T1]. destruct (B j2 ltac:(cbn; auto)) as [B2 T2].
  split; [exact B0|]. split; [exact B1|]. split; [exact B2|].
  destruct (oth_ok n j0 B0 T0) as (u0 & v0 & E0 & L0 & I0 & O0). destruct (oth_ok n j1 B1 T1) as (u1 & v1 & E1 & L1 & I1 & O1). destruct (oth_ok n j2 B2 T2) as (u2 & v2 & E2 & L2 & I2 & O2).
  assert (NN : NoDup [n; oth n j0; oth n j1; oth n j2]).
  { inversion N as [|? ? N0 N']; subst. inversion N' as [|? ? N1 _]; subst. cbn [In] in N0, N1.
    constructor; [cbn [In]; intros [Q|[Q|[Q|[]]]]; lia|]. constructor; [cbn [In]; intros [Q|[Q|[]]]; [apply (oth_inj n j1 j0 B1 B0 T1 T0) in Q|apply (oth_inj n j2 j0 B2 B0 T2 T0) in Q]; subst; tauto|].
    constructor; [cbn [In]; intros [Q|[]]; apply (oth_inj n j2 j1 B2 B1 T2 T1) in Q; subst; tauto|]. constructor; [intros []|constructor]. }
  pose proof (det_perm (P pos) x y z w n _ _ _ D In_ I0 I1 I2 NN) as DD. destruct (det_apart _ _ _ _ DD) as (A0 & A1 & A2).
  destruct (unit_sgn pos u0 v0 n _ O0 A0) as (s0 & S0 & F0). destruct (unit_sgn pos u1 v1 n _ O1 A1) as (s1 & S1 & F1). destruct (unit_sgn pos u2 v2 n _ O2 A2) as (s2 & S2 & F2).
  unfold U. rewrite E0, E1, E2, F0, F1, F2, det_scaled. repeat apply Rmult_integral_contrapositive_currified; assumption.
Qed.
Definition NV (b : nat -> R) (n : nat) : vec := match at_slot dl n with [j0; j1; j2] => cr3 (U j0) (U j1) (U j2) (mkvec (b j0) (b j1) (b j2)) | _ => zero_vec end.
Lemma node_vector_ok : forall rhs b n, (forall j, (j < 6)%nat -> rhs j = Some (b j)) -> In n c -> node_vector solve pos dl rhs n = Some (NV b n).
Proof.
  intros rhs b n H In_. destruct (node_at n In_) as (j0 & j1 & j2 & E & B0 & B1 & B2 & DD). unfold node_vector, NV. rewrite E.
  rewrite (proj1 (sl_at j0 B0)), (proj1 (sl_at j1 B1)), (proj1 (sl_at j2 B2)), !H by assumption. apply solver_cr3; assumption.
Qed.
(* the vector at a corner has the given components along the three edges *)
Lemma NV_rows : forall b n j, In n c -> (j < 6)%nat -> touches n (sl j) = true -> dot (U j) (NV b n) = b j.
Proof.
  intros b n j In_ H T. destruct (node_at n In_) as (j0 & j1 & j2 & E & B0 & B1 & B2 & DD). unfold NV. rewrite E.
  destruct (cr3_rows (U j0) (U j1) (U j2) (mkvec (b j0) (b j1) (b j2)) DD) as (R0 & R1 & R2). cbn [vx vy vz] in *.
  assert (I : In j (at_slot dl n)) by (apply at_slot_In; auto). rewrite E in I. destruct I as [<-|[<-|[<-|[]]]]; assumption.
Qed.
Lemma NV_unique : forall b n v, In n c -> (forall j, (j < 6)%nat -> touches n (sl j) = true -> dot (U j) v = b j) -> NV b n = v.
Proof.
  intros b n v In_ H. destruct (node_at n In_) as (j0 & j1 & j2 & E & B0 & B1 & B2 & DD). unfold NV. rewrite E. symmetry.
  assert (T : forall j, In j [j0; j1; j2] -> dot (U j) v = b j) by (intros j J; rewrite <- E in J; apply at_slot_In in J; apply H; apply J).
  apply cr3_unique; [exact DD|apply T; cbn; auto..].
Qed.
Definition endk (n j : nat) : nat := if Nat.eqb (hd_ (ts_edge (sl j))) n then 0%nat else 1%nat.
Lemma end_ok : forall n j, In j (at_slot dl n) -> nth_error dl j = Some (sl j) /\ end_of (ts_edge (sl j)) n = Some (endk n j).
Proof.
  intros n j I. apply at_slot_In in I. destruct I as [H T]. split; [apply (sl_at j H)|]. unfold end_of, endk, touches in *. destruct (Nat.eqb _ n); [reflexivity|]. cbn [orb] in T. rewrite T. reflexivity.
Qed.
Lemma node_writes_ok : forall n v, node_writes dl n v = Some (map (fun j => (2 * j + endk n j, v)%nat) (at_slot dl n)).
Proof.
  intros n v. unfold node_writes. apply opt_list_ext. intros j I. destruct (end_ok n j I) as [E F]. rewrite E. cbn [bind]. rewrite F. reflexivity.
Qed.
Lemma writes_ok : forall rhs b, (forall j, (j < 6)%nat -> rhs j = Some (b j)) -> writes solve pos c dl rhs = Some (concat (map (fun n => map (fun j => (2 * j + endk n j, NV b n)%nat) (at_slot dl n)) c)).
Proof.
  intros rhs b H. unfold writes. cbn [map nth_error bind]. rewrite !(node_vector_ok rhs b _ H) by (cbn; auto). cbn [bind]. rewrite !node_writes_ok. reflexivity.
Qed.
Lemma key2 : forall j k, (k < 2)%nat -> ((2 * j + k) / 2 = j /\ (2 * j + k) mod 2 = k)%nat.
Proof. intros j k H. split; [symmetry; apply (Nat.div_unique _ 2 j k); lia|symmetry; apply (Nat.mod_unique _ 2 j k); lia]. Qed.
Lemma endk_lt : forall n j, (endk n j < 2)%nat.
Proof. intros. unfold endk. destruct (Nat.eqb _ n); lia. Qed.
Lemma endk_nth : forall n j, (j < 6)%nat -> touches n (sl j) = true -> nth (endk n j) (ts_edge (sl j)) 0%nat = n.
Proof.
  intros n j H T. destruct (sl_edge j H) as (u & v & E & L & _). unfold endk, touches in *. rewrite E in *. unfold hd_, tl_ in *. cbn [nth] in *.
  destruct (Nat.eqb u n) eqn:Eu; [apply Nat.eqb_eq in Eu; exact Eu|]. cbn [orb] in T. apply Nat.eqb_eq in T. exact T.
Qed.
Lemma ends_ok : forall j k, (j < 6)%nat -> (k < 2)%nat -> let n := nth k (ts_edge (sl j)) 0%nat in In n c /\ In j (at_slot dl n) /\ endk n j = k.
Proof.
  intros j k H K n. destruct (sl_edge j H) as (u & v & E & L & Iu & Iv). unfold n. rewrite E. destruct k as [|[|k]]; [| |lia]; cbn [nth].
  - split; [exact Iu|]. split; [apply at_slot_In; split; [exact H|]; unfold touches, hd_; rewrite E; cbn [nth]; rewrite Nat.eqb_refl; reflexivity|]. unfold endk, hd_. rewrite E. cbn [nth]. rewrite Nat.eqb_refl. reflexivity.
  - split; [exact Iv|]. split; [apply at_slot_In; split; [exact H|]; unfold touches, hd_, tl_; rewrite E; cbn [nth]; rewrite Nat.eqb_refl; apply orb_true_r|]. unfold endk, hd_. rewrite E. cbn [nth]. destruct (Nat.eqb_spec u v); [lia|reflexivity].
Qed.
Definition half (a b : vec) : vec := vscale (1 / 2) (vadd a b).
Definition F3 (b : nat -> R) (j : nat) : vec := half (NV b (hd_ (ts_edge (sl j)))) (NV b (tl_ (ts_edge (sl j)))).
Lemma tet_field_ok : forall rhs b, (forall j, (j < 6)%nat -> rhs j = Some (b j)) -> tet_field solve pos c dl rhs = Some (map (F3 b) [0; 1; 2; 3; 4; 5]%nat).
Proof.
  intros rhs b H. unfold tet_field. rewrite (writes_ok rhs b H). cbn [bind]. apply opt_list_ext. intros j J. assert (Hj : (j < 6)%nat) by (cbn [In] in J; lia). clear J.
  set (G := fun key => NV b (nth (key mod 2) (ts_edge (sl (key / 2))) 0%nat)).
  set (l := concat _). assert (A : forall k, (k < 2)%nat -> fill l (2 * j + k)%nat = Some (NV b (nth k (ts_edge (sl j)) 0%nat))).
  { intros k K. rewrite (fill_ok l G).
    - unfold G. destruct (key2 j k K) as [-> ->]. reflexivity.
    - intros p I. unfold l in I. apply in_concat in I. destruct I as (r & Ir & Ip). apply in_map_iff in Ir. destruct Ir as (n & <- & In_). apply in_map_iff in Ip. destruct Ip as (i & <- & Ii).
      cbn [fst snd]. unfold G. destruct (key2 i (endk n i) (endk_lt n i)) as [-> ->]. apply at_slot_In in Ii. rewrite endk_nth; [reflexivity|apply Ii..].
    - unfold l. apply in_map_iff. destruct (ends_ok j k Hj K) as (I1 & I2 & I3). set (n := nth k (ts_edge (sl j)) 0%nat) in *.
      exists ((2 * j + endk n j)%nat, NV b n). split; [cbn [fst]; rewrite I3; reflexivity|]. apply in_concat. eexists. split; [apply in_map, I1|]. apply in_map_iff. exists j. split; [reflexivity|exact I2]. }
  unfold half_sum. pose proof (A 0%nat ltac:(lia)) as A0. rewrite Nat.add_0_r in A0. rewrite A0, (A 1%nat ltac:(lia)). reflexivity.
Qed.
(* the derivative *)
Definition order3 (j : nat) : list nat := ts_edge (sl j) ++ [ts_o0 (sl j); ts_o1 (sl j)].
Lemma order3_perm : forall j, (j < 6)%nat -> Permutation (order3 j) c.
Proof. intros j H. apply HO. apply (sl_at j H). Qed.
Lemma c_nodup : NoDup c.
Proof. repeat (constructor; [cbn [In]; lia|]). constructor. Qed.
Lemma der_ok : forall j dn, (j < 6)%nat -> In dn c -> exists nd, (nd < 4)%nat /\ der_index3 (sl j) dn = Some nd /\ nth nd (order3 j) 0%nat = dn.
Proof.
  intros j dn H I. pose proof (order3_perm j H) as Pm. apply (Permutation_in _ (Permutation_sym Pm)) in I. destruct (sl_edge j H) as (u & v & E & _). unfold order3, der_index3 in *. rewrite E in *. unfold hd_, tl_ in *. cbn [app nth In] in *.
  destruct (Nat.eqb_spec u dn); [exists 0%nat; repeat split; [lia|exact e]|]. destruct (Nat.eqb_spec v dn); [exists 1%nat; repeat split; [lia|exact e]|].
  destruct (Nat.eqb_spec (ts_o0 (sl j)) dn); [exists 2%nat; repeat split; [lia|exact e]|]. destruct (Nat.eqb_spec (ts_o1 (sl j)) dn); [exists 3%nat; repeat split; [lia|exact e]|]. tauto.
Qed.
Definition didx (j dn : nat) : nat := match der_index3 (sl j) dn with Some nd => nd | None => 0%nat end.
Lemma didx_ok : forall j dn, (j < 6)%nat -> In dn c -> (didx j dn < 4)%nat /\ nth (didx j dn) (order3 j) 0%nat = dn.
Proof. intros j dn H I. destruct (der_ok j dn H I) as (nd & A & B & C). unfold didx. rewrite B. auto. Qed.
Lemma didx_nth : forall j nd, (j < 6)%nat -> (nd < 4)%nat -> In (nth nd (order3 j) 0%nat) c /\ didx j (nth nd (order3 j) 0%nat) = nd.
Proof.
  intros j nd H N. pose proof (order3_perm j H) as Pm. assert (L : length (order3 j) = 4%nat) by (rewrite (Permutation_length Pm); reflexivity).
  assert (I : In (nth nd (order3 j) 0%nat) c) by (apply (Permutation_in _ Pm), nth_In; lia). split; [exact I|].
  destruct (didx_ok j _ H I) as [A B]. pose proof (Permutation_NoDup (Permutation_sym Pm) c_nodup) as ND. rewrite (NoDup_nth _ 0%nat) in ND. apply ND; [lia|lia|exact B].
Qed.
Variables ev0 ev1 : list R.
Hypothesis NUM : forall j, (j < 6)%nat -> (ts_num (sl j) < length ev0)%nat /\ (ts_num (sl j) < length ev1)%nat.
Definition db (dn j : nat) : R := if Nat.eqb (hd_ (ts_edge (sl j))) dn then nth (ts_num (sl j)) ev0 0 else if Nat.eqb (tl_ (ts_edge (sl j))) dn then nth (ts_num (sl j)) ev1 0 else 0.
Lemma drhs_ok : forall dn j, (j < 6)%nat -> drhs dl ev0 ev1 dn j = Some (db dn j).
Proof.
  intros dn j H. unfold drhs, db. rewrite (proj1 (sl_at j H)). cbn [bind]. destruct (NUM j H). destruct (Nat.eqb _ dn); [apply nth_error_nth'; assumption|]. destruct (Nat.eqb _ dn); [apply nth_error_nth'; assumption|reflexivity].
Qed.
Lemma dnode_writes_ok : forall n dn v, In dn c -> dnode_writes dl n dn v = Some (map (fun j => (12 * didx j dn + 2 * j + endk n j, v)%nat) (at_slot dl n)).
Proof.
  intros n dn v I. unfold dnode_writes. apply opt_list_ext. intros j J. destruct (end_ok n j J) as [E F]. rewrite E. cbn [bind]. apply at_slot_In in J. destruct (der_ok j dn (proj1 J) I) as (nd & _ & X & _). unfold didx. rewrite X. cbn [bind]. rewrite F. reflexivity.
Qed.
Lemma dwrites_ok : dwrites solve pos c dl ev0 ev1 = Some (concat (map (fun p => map (fun j => (12 * didx j (snd p) + 2 * j + endk (fst p) j, NV (db (snd p)) (fst p))%nat) (at_slot dl (fst p))) (list_prod c c))).
Proof.
  unfold dwrites. cbn [list_prod map app nth_error bind fst snd]. rewrite !(fun dn n => node_vector_ok (drhs dl ev0 ev1 dn) (db dn) n (drhs_ok dn)) by (cbn; auto). cbn [bind]. rewrite !dnode_writes_ok by (cbn; auto). reflexivity.
Qed.
Lemma key12 : forall nd j k, (j < 6)%nat -> (k < 2)%nat -> ((12 * nd + 2 * j + k) / 12 = nd /\ ((12 * nd + 2 * j + k) mod 12) / 2 = j /\ ((12 * nd + 2 * j + k) mod 12) mod 2 = k)%nat.
Proof.
  intros nd j k Hj Hk. assert (A : ((12 * nd + 2 * j + k) mod 12 = 2 * j + k)%nat) by (symmetry; apply (Nat.mod_unique _ 12 nd); lia). rewrite A. split; [symmetry; apply (Nat.div_unique _ 12 nd (2 * j + k)); lia|apply key2; exact Hk].
Qed.
Lemma tet_dfield_ok : forall nd, (nd < 4)%nat -> tet_dfield solve pos c dl ev0 ev1 nd = Some (map (fun j => F3 (db (nth nd (order3 j) 0%nat)) j) [0; 1; 2; 3; 4; 5]%nat).
Proof.
  intros nd Hnd. unfold tet_dfield. rewrite dwrites_ok. cbn [bind]. apply opt_list_ext. intros j J. assert (Hj : (j < 6)%nat) by (cbn [In] in J; lia). clear J.
  set (G := fun key => let j := ((key mod 12) / 2)%nat in NV (db (nth (key / 12) (order3 j) 0%nat)) (nth ((key mod 12) mod 2) (ts_edge (sl j)) 0%nat)).
  set (l := concat _). assert (A : forall k, (k < 2)%nat -> fill l (12 * nd + 2 * j + k)%nat = Some (NV (db (nth nd (order3 j) 0%nat)) (nth k (ts_edge (sl j)) 0%nat))).
  { intros k K. rewrite (fill_ok l G).
    - unfold G. destruct (key12 nd j k Hj K) as (-> & -> & ->). reflexivity.
    - intros p I. unfold l in I. apply in_concat in I. destruct I as (r & Ir & Ip). apply in_map_iff in Ir. destruct Ir as ([n dn] & <- & In_). apply in_prod_iff in In_. apply in_map_iff in Ip. destruct Ip as (i & <- & Ii).
      cbn [fst snd]. unfold G. apply at_slot_In in Ii. cbn [fst] in Ii. destruct (key12 (didx i dn) i (endk n i) (proj1 Ii) (endk_lt n i)) as (-> & -> & ->). cbv zeta.
      rewrite endk_nth by apply Ii. rewrite (proj2 (didx_ok i dn (proj1 Ii) (proj2 In_))). reflexivity.
    - unfold l. apply in_map_iff. destruct (ends_ok j k Hj K) as (I1 & I2 & I3). set (n := nth k (ts_edge (sl j)) 0%nat) in *. destruct (didx_nth j nd Hj Hnd) as [I4 I5]. set (dn := nth nd (order3 j) 0%nat) in *.
      exists ((12 * didx j dn + 2 * j + endk n j)%nat, NV (db dn) n). split; [cbn [fst]; rewrite I3, I5; reflexivity|]. apply in_concat. eexists. split; [apply in_map, (in_prod c c n dn I1 I4)|]. apply in_map_iff. exists j. split; [reflexivity|exact I2]. }
  unfold half_sum. pose proof (A 0%nat ltac:(lia)) as A0. rewrite Nat.add_0_r in A0. rewrite A0. rewrite Nat.add_assoc. rewrite (A 1%nat ltac:(lia)). reflexivity.
Qed.
(* linear in the data *)
Lemma NV_deriv : forall (b : R -> nat -> R) (d : nat -> R) s n, In n c -> (forall j, (j < 6)%nat -> derivable_pt_lim (fun q => b q j) s (d j)) ->
  derivable_pt_lim (fun q => vx (NV (b q) n)) s (vx (NV d n)) /\ derivable_pt_lim (fun q => vy (NV (b q) n)) s (vy (NV d n)) /\ derivable_pt_lim (fun q => vz (NV (b q) n)) s (vz (NV d n)).
Proof.
  intros b d s n In_ H. destruct (node_at n In_) as (j0 & j1 & j2 & E & B0 & B1 & B2 & _). unfold NV. rewrite E.
  destruct (cr3_linear (U j0) (U j1) (U j2)) as (A & B & C & L). rewrite L. cbn [vx vy vz].
  assert (X : forall A f, (forall q, f q = vx A * b q j0 + vy A * b q j1 + vz A * b q j2) -> derivable_pt_lim f s (vx A * d j0 + vy A * d j1 + vz A * d j2)).
  { intros A' f Ef e He. assert (Q : derivable_pt_lim (fun q => vx A' * b q j0 + vy A' * b q j1 + vz A' * b q j2) s (vx A' * d j0 + vy A' * d j1 + vz A' * d j2)).
    { apply (derivable_pt_lim_plus (fun q => vx A' * b q j0 + vy A' * b q j1) (fun q => vz A' * b q j2)); [apply (derivable_pt_lim_plus (fun q => vx A' * b q j0) (fun q => vy A' * b q j1))|]; apply (derivable_pt_lim_scal (fun q => b q _)); apply H; assumption. }
    destruct (Q e He) as [dd Hd]. exists dd. intros h H1 H2. rewrite !Ef. apply Hd; assumption. }
  repeat split; [apply (X A)|apply (X B)|apply (X C)]; intros q; rewrite L; reflexivity.
Qed.
Lemma F3_deriv : forall (b : R -> nat -> R) (d : nat -> R) s j, (j < 6)%nat -> (forall j, (j < 6)%nat -> derivable_pt_lim (fun q => b q j) s (d j)) ->
  derivable_pt_lim (fun q => vx (F3 (b q) j)) s (vx (F3 d j)) /\ derivable_pt_lim (fun q => vy (F3 (b q) j)) s (vy (F3 d j)) /\ derivable_pt_lim (fun q => vz (F3 (b q) j)) s (vz (F3 d j)).
Proof.
  intros b d s j Hj H. destruct (sl_edge j Hj) as (u & v & E & _ & Iu & Iv). unfold F3, half, vscale, vadd. cbn [vx vy vz]. rewrite E. unfold hd_, tl_. cbn [nth].
  destruct (NV_deriv b d s u Iu H) as (X1 & X2 & X3). destruct (NV_deriv b d s v Iv H) as (Y1 & Y2 & Y3).
  assert (K : forall f g df dg, derivable_pt_lim f s df -> derivable_pt_lim g s dg -> derivable_pt_lim (fun q => (f q + g q) * (1 / 2)) s ((df + dg) * (1 / 2))).
  { intros f g df dg Hf Hg. replace ((df + dg) * (1 / 2)) with ((df + dg) * (1 / 2) + (f s + g s) * 0) by ring.
    apply (derivable_pt_lim_mult (fun q => f q + g q) (fun _ => 1 / 2)); [apply (derivable_pt_lim_plus f g); assumption|apply (derivable_pt_lim_const (1 / 2))]. }
  repeat split.
  - apply (K (fun q => vx (NV (b q) u)) (fun q => vx (NV (b q) v))); assumption.
  - apply (K (fun q => vy (NV (b q) u)) (fun q => vy (NV (b q) v))); assumption.
  - apply (K (fun q => vz (NV (b q) u)) (fun q => vz (NV (b q) v))); assumption.
Qed.
End T.
