From Coq Require Import List Arith Bool Lia Reals Lra Permutation.
From Verif Require Import Adjacency Geometry GeometrySpec Volume VolumeSpec VolumeGeom Surface SurfaceSpec SurfaceRings Cylindrical CylindricalSpec.
Import ListNotations.
Open Scope R_scope.

Lemma insert_perm : forall x l, Permutation (insert x l) (x :: l).
Proof.
  intros x. induction l as [|y l IH]; [apply Permutation_refl|]. cbn [insert]. destruct (pair_lt y x); [|apply Permutation_refl].
  eapply Permutation_trans; [apply perm_skip; exact IH|apply perm_swap].
Qed.
Lemma sort_perm : forall l, Permutation (sort l) l.
Proof. induction l as [|x l IH]; [apply Permutation_refl|]. cbn [sort fold_right]. eapply Permutation_trans; [apply insert_perm|]. apply perm_skip. exact IH. Qed.
Definition low (p q : R * R) : Prop := fst p <= fst q.
Lemma insert_low : forall x l, Sorted.StronglySorted low l -> Sorted.StronglySorted low (insert x l).
Proof.
  intros x. induction l as [|y l IH]; intros H; [repeat constructor|]. cbn [insert]. inversion H as [|? ? H1 H2]; subst.
  unfold pair_lt. destruct (Rlt_dec (fst y) (fst x)) as [L|L].
  - constructor; [apply IH; exact H1|]. rewrite Forall_forall in *. intros q I. apply (Permutation_in _ (insert_perm x l)) in I. destruct I as [<-|I]; [unfold low; lra|apply H2; exact I].
  - assert (X : low x y) by (unfold low; lra).
    destruct (Rlt_dec (fst x) (fst y)) as [L2|L2]; [|destruct (Rlt_dec (snd y) (snd x))].
    + constructor; [exact H|]. constructor; [exact X|]. rewrite Forall_forall in *. intros q I. specialize (H2 q I). unfold low in *. lra.
    + constructor; [apply IH; exact H1|]. rewrite Forall_forall in *. intros q I. apply (Permutation_in _ (insert_perm x l)) in I. destruct I as [<-|I]; [unfold low; lra|apply H2; exact I].
    + constructor; [exact H|]. constructor; [exact X|]. rewrite Forall_forall in *. intros q I. specialize (H2 q I). unfold low in *. lra.
Qed.
Lemma sort_low : forall l, Sorted.StronglySorted low (sort l).
Proof. induction l as [|x l IH]; [constructor|]. cbn [sort fold_right]. apply insert_low. exact IH. Qed.
(* twice the area and the radius *)
Definition det (p q s : R * R) : R := (fst q - fst p) * (snd s - snd p) - (fst s - fst p) * (snd q - snd p).
Definition pap (l : list (R * R)) : R := match l with [p; q; s] => PI * Rabs (det p q s) * ((snd p + snd q + snd s) / 3) | _ => 0 end.
Lemma pap_perm : forall l l', Permutation l l' -> length l = 3%nat -> pap l = pap l'.
Proof.
  assert (S1 : forall p q s, pap [p; q; s] = pap [q; p; s]).
  { intros. unfold pap. replace (det p q s) with (- det q p s) by (unfold det; ring). rewrite Rabs_Ropp. f_equal. lra. }
  assert (S2 : forall p q s, pap [p; q; s] = pap [p; s; q]).
  { intros. unfold pap. replace (det p q s) with (- det p s q) by (unfold det; ring). rewrite Rabs_Ropp. f_equal. lra. }
  assert (K : forall l l', Permutation l l' -> forall m, (length m + length l = 3)%nat -> pap (m ++ l) = pap (m ++ l')).
  { intros l l' H. induction H as [|x l l' H IH|x y l|l l' l'' H1 IH1 H2 IH2]; intros m L; [reflexivity| | |].
    - replace (m ++ x :: l) with ((m ++ [x]) ++ l) by (rewrite <- app_assoc; reflexivity). replace (m ++ x :: l') with ((m ++ [x]) ++ l') by (rewrite <- app_assoc; reflexivity).
      apply IH. rewrite app_length. cbn in *. lia.
    - destruct m as [|u [|v m]]; cbn in L.
      + destruct l as [|w [|]]; cbn in L; try lia. apply S1.
      + destruct l; cbn in L; try lia. apply S2.
      + lia.
    - rewrite IH1 by exact L. apply IH2. rewrite <- (Permutation_length H1). exact L. }
  intros l l' H L. apply (K l l' H []). exact L.
Qed.
(* a piece with a side of constant height *)
Definition piece (z r0 r1 r2 : R) : R := PI * (Rabs (r2 - r1) * (z * (Rabs (r1 + r2 - 2 * r0) / 3 + r0))).
Lemma flat_piece : forall r0 z0 r1 z1 r2 z, Rabs (z1 - z0) = z -> flat r0 z0 r1 z1 r2 = piece z r0 r1 r2.
Proof.
  intros r0 z0 r1 z1 r2 z H. unfold flat, piece. rewrite H. cbv zeta. replace ((r2 - r0) ^ 2 - (r1 - r0) ^ 2) with ((r2 - r1) * (r1 + r2 - 2 * r0)) by ring.
  rewrite Rabs_mult. field.
Qed.
Lemma piece_bound : forall z r0 r1 r2, 0 <= z -> PI * (Rabs (r2 - r1) * (z * ((r0 + r1 + r2) / 3))) <= piece z r0 r1 r2 /\
  (2 * r0 <= r1 + r2 -> piece z r0 r1 r2 = PI * (Rabs (r2 - r1) * (z * ((r0 + r1 + r2) / 3)))).
Proof.
  intros z r0 r1 r2 H. unfold piece. split.
  - apply Rmult_le_compat_l; [apply Rlt_le, PI_RGT_0|]. apply Rmult_le_compat_l; [apply Rabs_pos|]. apply Rmult_le_compat_l; [exact H|]. pose proof (Rle_abs (r1 + r2 - 2 * r0)). lra.
  - intros L. rewrite (Rabs_right (r1 + r2 - 2 * r0)) by lra. do 3 f_equal. lra.
Qed.
Lemma piece_zero : forall r0 r1 r2, piece 0 r0 r1 r2 = 0.
Proof. intros. unfold piece. ring. Qed.
Lemma sorted3 : forall l, length l = 3%nat -> exists z0 r0 z1 r1 z2 r2, sort l = [(z0, r0); (z1, r1); (z2, r2)] /\ Permutation l [(z0, r0); (z1, r1); (z2, r2)] /\ z0 <= z1 <= z2.
Proof.
  intros l L. pose proof (sort_perm l) as Q. pose proof (sort_low l) as S. pose proof (Permutation_length Q) as E. rewrite L in E.
  destruct (sort l) as [|[z0 r0] [|[z1 r1] [|[z2 r2] [|]]]]; try discriminate. exists z0, r0, z1, r1, z2, r2. split; [reflexivity|]. split; [apply Permutation_sym; exact Q|].
  inversion S as [|? ? S1 F1]; subst. inversion F1; subst. inversion S1 as [|? ? S2 F2]; subst. inversion F2; subst. unfold low in *. cbn [fst] in *. lra.
Qed.
(* the two pieces *)
Lemma swept_pieces : forall l z0 r0 z1 r1 z2 r2, sort l = [(z0, r0); (z1, r1); (z2, r2)] -> z0 <= z1 <= z2 -> z0 < z2 ->
  let r3 := r0 + (z1 - z0) / (z2 - z0) * (r2 - r0) in swept l = piece (z1 - z0) r0 r1 r3 + piece (z2 - z1) r2 r1 r3.
Proof.
  intros l z0 r0 z1 r1 z2 r2 E H L r3. unfold swept. rewrite E. destruct (Req_EM_T z0 z1) as [Z|Z].
  - subst z1. unfold r3. replace (z0 - z0) with 0 by ring. rewrite piece_zero. rewrite (flat_piece _ _ _ _ _ (z2 - z0)) by (rewrite Rabs_left1; lra).
    replace (r0 + 0 / (z2 - z0) * (r2 - r0)) with r0 by (field; lra). unfold piece. rewrite (Rabs_minus_sym r1 r0). replace (r0 + r1 - 2 * r2) with (r1 + r0 - 2 * r2) by ring. ring.
  - destruct (Req_EM_T z1 z2) as [Y|Y].
    + subst z1. replace (z2 - z2) with 0 by ring. rewrite piece_zero. replace r3 with r2 by (unfold r3; field; lra).
      rewrite (flat_piece _ _ _ _ _ (z2 - z0)) by (rewrite Rabs_right; lra). ring.
    + replace ((z1 - z0) * (r2 - r0) / (z2 - z0) + r0) with r3 by (unfold r3; field; lra).
      rewrite (flat_piece _ _ _ _ _ (z1 - z0)) by (rewrite Rabs_right; lra). rewrite (flat_piece _ _ _ _ _ (z2 - z1)) by (rewrite Rabs_left1; lra). reflexivity.
Qed.
Lemma pieces_pap : forall z0 r0 z1 r1 z2 r2, z0 <= z1 <= z2 -> z0 < z2 ->
  let r3 := r0 + (z1 - z0) / (z2 - z0) * (r2 - r0) in
  PI * (Rabs (r3 - r1) * ((z1 - z0) * ((r0 + r1 + r3) / 3))) + PI * (Rabs (r3 - r1) * ((z2 - z1) * ((r2 + r1 + r3) / 3))) = pap [(z0, r0); (z1, r1); (z2, r2)].
Proof.
  intros z0 r0 z1 r1 z2 r2 H L r3. unfold pap, det. cbn [fst snd].
  replace ((z1 - z0) * (r2 - r0) - (z2 - z0) * (r1 - r0)) with ((z2 - z0) * (r3 - r1)) by (unfold r3; field; lra).
  rewrite Rabs_mult, (Rabs_right (z2 - z0)) by lra. set (w := Rabs (r3 - r1)). unfold r3. field. lra.
Qed.
Lemma swept_flat0 : forall l z r0 r1 r2, sort l = [(z, r0); (z, r1); (z, r2)] -> swept l = 0.
Proof. intros l z r0 r1 r2 E. unfold swept. rewrite E. destruct (Req_EM_T z z); [|congruence]. rewrite (flat_piece _ _ _ _ _ 0); [apply piece_zero|]. rewrite Rminus_diag_eq by reflexivity. apply Rabs_R0. Qed.
Lemma swept_bound : forall l, length l = 3%nat -> pap l <= swept l /\ (tapers l -> swept l = pap l).
Proof.
  intros l L. destruct (sorted3 l L) as (z0 & r0 & z1 & r1 & z2 & r2 & E & Q & H). rewrite (pap_perm l _ Q L).
  destruct (Rlt_dec z0 z2) as [D|D].
  - rewrite (swept_pieces l _ _ _ _ _ _ E H D). rewrite <- (pieces_pap z0 r0 z1 r1 z2 r2 H D). set (r3 := r0 + (z1 - z0) / (z2 - z0) * (r2 - r0)).
    destruct (piece_bound (z1 - z0) r0 r1 r3) as [A1 A2]; [lra|]. destruct (piece_bound (z2 - z1) r2 r1 r3) as [B1 B2]; [lra|]. split; [lra|].
    intros T. destruct (T _ _ _ _ _ _ Q H D) as [T1 T2]. fold r3 in T1, T2.
    destruct (Rlt_dec z0 z1) as [C|C]; destruct (Rlt_dec z1 z2) as [C'|C']; try lra.
    + rewrite (A2 (T1 C)). replace (z2 - z1) with 0 by lra. rewrite piece_zero. ring.
    + rewrite (B2 (T2 C')). replace (z1 - z0) with 0 by lra. rewrite piece_zero. ring.
  - assert (z1 = z0) by lra. assert (z2 = z0) by lra. subst. rewrite (swept_flat0 l _ _ _ _ E). unfold pap, det. cbn [fst snd].
    replace ((z0 - z0) * (r2 - r0) - (z0 - z0) * (r1 - r0)) with 0 by ring. rewrite Rabs_R0. split; [lra|intros _; lra].
Qed.
Lemma pap_pappus : forall ax p q s, pap [height_radius ax p; height_radius ax q; height_radius ax s] = pappus (radial ax) p q s.
Proof.
  intros [k z] p q s. unfold pap, det, height_radius, pappus, area2. cbn [fst snd].
  replace (Rabs ((vx q - vx p) * (vy s - vy p) - (vx s - vx p) * (vy q - vy p))) with
    (Rabs ((axial (k, z) q - axial (k, z) p) * (radial (k, z) s - radial (k, z) p) - (axial (k, z) s - axial (k, z) p) * (radial (k, z) q - radial (k, z) p))); [field|].
  destruct k; unfold axial, radial; cbn [fst snd].
  - replace ((vy q - vy p) * (vx s - z - (vx p - z)) - (vy s - vy p) * (vx q - z - (vx p - z))) with (- ((vx q - vx p) * (vy s - vy p) - (vx s - vx p) * (vy q - vy p))) by ring. apply Rabs_Ropp.
  - f_equal. ring.
Qed.
