(* Order of accuracy of the three formulas for smooth solutions (C08). *)
From Coq Require Import Reals Lra Lia.
From Coquelicot Require Import Coquelicot.
Open Scope R_scope.

Definition diffable (f f' : R -> R) : Prop := forall t, is_derive f t (f' t).

Lemma Dn1 : forall f f1, diffable f f1 -> forall t, Derive_n f 1 t = f1 t.
Proof. intros f f1 H t. cbn. apply is_derive_unique. apply H. Qed.
Lemma Dn_shift : forall f f1 n, diffable f f1 -> forall t, Derive_n f (S n) t = Derive_n f1 n t.
Proof.
  intros f f1 n H. induction n as [|n IH]; intros t; [apply (Dn1 f f1 H)|].
  cbn [Derive_n]. apply Derive_ext. intros x. exact (IH x).
Qed.
Lemma exDn_shift : forall f f1 n, diffable f f1 -> forall t, ex_derive_n f1 n t -> ex_derive_n f (S n) t.
Proof.
  intros f f1 [|n] H t K; [exists (f1 t); apply H|]. cbn in *.
  apply (ex_derive_ext (Derive_n f1 n)); [|exact K]. intros x. symmetry. apply (Dn_shift f f1 n H).
Qed.

Lemma taylor0 : forall f f1 x y, diffable f f1 -> x < y -> exists z, x < z < y /\ f y = f x + (y - x) * f1 z.
Proof.
  intros f f1 x y H Hxy.
  destruct (Taylor_Lagrange f 0 x y Hxy) as (z & Hz & E).
  - intros t _ k Hk. destruct k as [|[|k]]; [exact I| |lia]. exists (f1 t). apply H.
  - exists z. split; [exact Hz|]. cbn [sum_f_R0] in E. rewrite (Dn1 f f1 H) in E. cbn in E. rewrite E. field.
Qed.
Lemma taylor1 : forall f f1 f2 x y, diffable f f1 -> diffable f1 f2 -> x < y ->
  exists z, x < z < y /\ f y = f x + (y - x) * f1 x + (y - x) ^ 2 / 2 * f2 z.
Proof.
  intros f f1 f2 x y H H1 Hxy.
  destruct (Taylor_Lagrange f 1 x y Hxy) as (z & Hz & E).
  - intros t _ k Hk. destruct k as [|[|[|k]]]; [exact I| | |lia].
    + exists (f1 t). apply H.
    + apply (exDn_shift f f1 1 H). exists (f2 t). apply H1.
  - exists z. split; [exact Hz|]. cbn [sum_f_R0] in E.
    rewrite (Dn1 f f1 H), (Dn_shift f f1 1 H), (Dn1 f1 f2 H1) in E. cbn in E. rewrite E. field.
Qed.
Lemma taylor2 : forall f f1 f2 f3 x y, diffable f f1 -> diffable f1 f2 -> diffable f2 f3 -> x < y ->
  exists z, x < z < y /\ f y = f x + (y - x) * f1 x + (y - x) ^ 2 / 2 * f2 x + (y - x) ^ 3 / 6 * f3 z.
Proof.
  intros f f1 f2 f3 x y H H1 H2 Hxy.
  destruct (Taylor_Lagrange f 2 x y Hxy) as (z & Hz & E).
  - intros t _ k Hk. destruct k as [|[|[|[|k]]]]; [exact I| | | |lia].
    + exists (f1 t). apply H.
    + apply (exDn_shift f f1 1 H). exists (f2 t). apply H1.
    + apply (exDn_shift f f1 2 H). apply (exDn_shift f1 f2 1 H1). exists (f3 t). apply H2.
  - exists z. split; [exact Hz|]. cbn [sum_f_R0] in E.
    rewrite (Dn1 f f1 H), (Dn_shift f f1 1 H), (Dn1 f1 f2 H1), (Dn_shift f f1 2 H), (Dn_shift f1 f2 1 H1), (Dn1 f2 f3 H2) in E.
    cbn in E. rewrite E. field.
Qed.

(* BDF1: first order *)
Lemma bdf1_order : forall q q' q'' M t h, diffable q q' -> diffable q' q'' -> (forall x, Rabs (q'' x) <= M) -> 0 < h ->
  Rabs ((q (t + h) - q t) / h - q' (t + h)) <= M * h.
Proof.
  intros q q' q'' M t h H H1 HM Hh.
  destruct (taylor0 q q' t (t + h) H ltac:(lra)) as (z & Hz & E).
  destruct (taylor0 q' q'' z (t + h) H1 ltac:(lra)) as (w & Hw & E').
  replace ((q (t + h) - q t) / h - q' (t + h)) with (- ((t + h - z) * q'' w)).
  - rewrite Rabs_Ropp, Rabs_mult, (Rabs_right (t + h - z)) by lra.
    pose proof (HM w). pose proof (Rabs_pos (q'' w)).
    rewrite Rmult_comm. apply Rmult_le_compat; lra.
  - rewrite E, E'. replace (t + h - t) with h by ring. field. lra.
Qed.

(* TR: second order *)
Lemma tr_order : forall q q' q'' q''' M t h, diffable q q' -> diffable q' q'' -> diffable q'' q''' ->
  (forall x, Rabs (q''' x) <= M) -> 0 < h ->
  Rabs (2 / h * (q (t + h) - q t) - (q' (t + h) + q' t)) <= M * h ^ 2.
Proof.
  intros q q' q'' q''' M t h H H1 H2 HM Hh.
  destruct (taylor2 q q' q'' q''' t (t + h) H H1 H2 ltac:(lra)) as (z & Hz & E).
  destruct (taylor1 q' q'' q''' t (t + h) H1 H2 ltac:(lra)) as (w & Hw & E').
  replace (2 / h * (q (t + h) - q t) - (q' (t + h) + q' t)) with (h ^ 2 * (q''' z / 3 - q''' w / 2)).
  - rewrite Rabs_mult, (Rabs_right (h ^ 2)) by (apply Rle_ge; apply pow2_ge_0).
    rewrite Rmult_comm. apply Rmult_le_compat_r; [apply pow2_ge_0|].
    pose proof (HM z) as Z. pose proof (HM w) as W. apply Rabs_le_between in Z. apply Rabs_le_between in W.
    apply Rabs_le_between. lra.
  - rewrite E, E'. replace (t + h - t) with h by ring. field. lra.
Qed.

(* BDF2 on t, t + g h, t + h: second order *)
Lemma bdf2_order : forall q q' q'' q''' M t h g, diffable q q' -> diffable q' q'' -> diffable q'' q''' ->
  (forall x, Rabs (q''' x) <= M) -> 0 < h -> 0 < g < 1 ->
  Rabs ((2 - g) / ((1 - g) * h) * q (t + h) - 1 / (g * (1 - g) * h) * q (t + g * h) + (1 - g) / (g * h) * q t - q' (t + h))
   <= M * h ^ 2 / (1 - g).
Proof.
  intros q q' q'' q''' M t h g H H1 H2 HM Hh Hg.
  assert (Hgh : 0 < g * h) by (apply Rmult_lt_0_compat; lra).
  destruct (taylor2 q q' q'' q''' t (t + h) H H1 H2 ltac:(lra)) as (z & Hz & E).
  destruct (taylor2 q q' q'' q''' t (t + g * h) H H1 H2 ltac:(lra)) as (y & Hy & Ey).
  destruct (taylor1 q' q'' q''' t (t + h) H1 H2 ltac:(lra)) as (w & Hw & E').
  replace (_ - q' (t + h)) with (h ^ 2 / (1 - g) * ((2 - g) / 6 * q''' z - g ^ 2 / 6 * q''' y - (1 - g) / 2 * q''' w)).
  - rewrite Rabs_mult, (Rabs_right (h ^ 2 / (1 - g))).
    2:{ apply Rle_ge. apply Rmult_le_pos; [apply pow2_ge_0|]. left. apply Rinv_0_lt_compat. lra. }
    replace (M * h ^ 2 / (1 - g)) with (h ^ 2 / (1 - g) * M) by (field; lra).
    apply Rmult_le_compat_l.
    { apply Rmult_le_pos; [apply pow2_ge_0|]. left. apply Rinv_0_lt_compat. lra. }
    pose proof (HM z) as Z. pose proof (HM w) as W. pose proof (HM y) as Y.
    assert (T1 : Rabs ((2 - g) / 6 * q''' z) <= (2 - g) / 6 * M).
    { rewrite Rabs_mult, Rabs_right by lra. apply Rmult_le_compat_l; lra. }
    assert (T2 : Rabs (g ^ 2 / 6 * q''' y) <= g ^ 2 / 6 * M).
    { assert (0 <= g ^ 2 / 6) by (apply Rmult_le_pos; [apply pow2_ge_0|lra]).
      rewrite Rabs_mult, Rabs_right by lra. apply Rmult_le_compat_l; lra. }
    assert (T3 : Rabs ((1 - g) / 2 * q''' w) <= (1 - g) / 2 * M).
    { rewrite Rabs_mult, Rabs_right by lra. apply Rmult_le_compat_l; lra. }
    apply Rabs_le_between in T1. apply Rabs_le_between in T2. apply Rabs_le_between in T3. apply Rabs_le_between.
    assert (HM0 : 0 <= M) by (pose proof (Rabs_pos (q''' z)); lra).
    assert (Hs : ((2 - g) / 6 + g ^ 2 / 6 + (1 - g) / 2) * M <= 1 * M).
    { apply Rmult_le_compat_r; [exact HM0|]. nra. }
    lra.
  - rewrite E, Ey, E'. replace (t + h - t) with h by ring. replace (t + g * h - t) with (g * h) by ring. field. lra.
Qed.
