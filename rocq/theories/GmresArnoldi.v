(* Proofs about the GMRES model: one step of the inner loop. *)
From Coq Require Import List Arith Lia Reals Lra.
From Verif Require Import Gmres GmresProofs.
Import ListNotations.
Open Scope R_scope.
Local Arguments Nat.ltb : simpl never.
Local Arguments Nat.leb : simpl never.
Local Arguments Nat.eqb : simpl never.

(* a linear map on vectors of length n *)
Definition linear (n : nat) (f : list R -> list R) : Prop :=
  (forall x, length x = n -> length (f x) = n) /\
  (forall x y c, length x = n -> length y = n -> f (vadd x (vscale y c)) = vadd (f x) (vscale (f y) c)).
(* what BLAS documents for drotg *)
Definition rotation (rotg : R -> R -> R * R) : Prop :=
  forall a b, let c := fst (rotg a b) in let s := snd (rotg a b) in c * c + s * s = 1 /\ - s * a + c * b = 0.

Section Step.
Variable n : nat.
Variable mul psolve : list R -> list R.
Variable rotg : R -> R -> R * R.
Hypothesis Hmul : linear n mul.
Hypothesis Hps : linear n psolve.
Hypothesis Hrot : rotation rotg.
(* the preconditioned matrix is not singular *)
Hypothesis Hinj : forall x, length x = n -> (forall p, nth p (psolve (mul x)) 0 = 0) -> forall p, nth p x 0 = 0.

Definition B (x : list R) : list R := psolve (mul x).
Lemma B_linear : linear n B.
Proof.
  destruct Hmul as (M1 & M2). destruct Hps as (P1 & P2). split; [intros x L; apply P1, M1, L|]. intros x y c Lx Ly. unfold B. rewrite M2 by assumption. apply P2; apply M1; assumption.
Qed.
Lemma linear_sub : forall f x y, linear n f -> length x = n -> length y = n -> forall p, nth p (f (vsub x y)) 0 = nth p (f x) 0 - nth p (f y) 0.
Proof.
  intros f x y (F1 & F2) Lx Ly p. replace (vsub x y) with (vadd x (vscale y (-1))).
  - rewrite F2 by assumption. rewrite nth_vadd by (rewrite len_vscale, !F1 by assumption; reflexivity). rewrite nth_vscale. lra.
  - apply vec_ext; [rewrite len_vadd, len_vsub; reflexivity|]. intros q. rewrite nth_vadd by (rewrite len_vscale; congruence). rewrite nth_vsub by congruence. rewrite nth_vscale. lra.
Qed.
Definition vec (w : work) (k : nat) : list R := match w_v w k with Some z => z | None => repeat 0 n end.
Lemma accumulate_ok : forall v y l x, (forall j, In j l -> exists z, v j = Some z /\ length z = n) -> length x = n ->
  exists x', accumulate v y l x = Some x' /\ length x' = n /\
    forall f, linear n f -> forall p, nth p (f x') 0 = nth p (f x) 0 + fold_right (fun j a => y j * nth p (f (match v j with Some z => z | None => repeat 0 n end)) 0 + a) 0 l.
Proof.
  intros v y. induction l as [|j l IH]; intros x Hl Lx; cbn [accumulate]; [exists x; split; [reflexivity|]; split; [exact Lx|intros; cbn; lra]|].
  destruct (Hl j (or_introl eq_refl)) as (z & E & Lz). rewrite E. destruct (IH (vadd x (vscale z (y j)))) as (x' & E' & L' & K).
  - intros k Hk. apply Hl. right. exact Hk.
  - rewrite len_vadd. exact Lx.
  - exists x'. split; [exact E'|]. split; [exact L'|]. intros f Hf p. rewrite K by exact Hf. destruct Hf as (F1 & F2). rewrite F2 by assumption.
    rewrite nth_vadd by (rewrite len_vscale, !F1 by assumption; reflexivity). rewrite nth_vscale. cbn [fold_right]. rewrite E. lra.
Qed.
Lemma fold_Sum : forall (f : nat -> R) k a, fold_right (fun j a => f j + a) 0 (seq a k) = Sum (fun q => f (a + q)%nat) k.
Proof.
  intros f. induction k as [|k IH]; intros a; [reflexivity|]. cbn [seq fold_right]. rewrite IH. rewrite Sum_first. rewrite Nat.add_0_r. f_equal. apply Sum_ext. intros q _. f_equal. lia.
Qed.
Lemma id_linear : linear n (fun x => x).
Proof. split; auto. Qed.

(* the orthonormal basis that the rotations make out of the vectors *)
Fixpoint tvec (w : work) (k : nat) : nat -> R :=
  match k with O => C (vec w 0) | S j => fun p => - w_sn w j * tvec w j p + w_cs w j * nth p (vec w (S j)) 0 end.
Definition uvec (w : work) (k : nat) : nat -> R := fun p => w_cs w k * tvec w k p + w_sn w k * nth p (vec w (S k)) 0.
Lemma tvec_ext : forall w w' k, (forall j, (j <= k)%nat -> w_v w j = w_v w' j) -> (forall j, (j < k)%nat -> w_cs w j = w_cs w' j /\ w_sn w j = w_sn w' j) ->
  forall p, tvec w k p = tvec w' k p.
Proof.
  intros w w'. induction k as [|k IH]; intros Hv Hc p; cbn [tvec].
  - unfold vec. rewrite Hv by lia. reflexivity.
  - destruct (Hc k ltac:(lia)) as (-> & ->). rewrite IH by (intros; (apply Hv || apply Hc); lia). unfold vec. rewrite Hv by lia. reflexivity.
Qed.
Lemma uvec_ext : forall w w' k, (forall j, (j <= S k)%nat -> w_v w j = w_v w' j) -> (forall j, (j <= k)%nat -> w_cs w j = w_cs w' j /\ w_sn w j = w_sn w' j) ->
  forall p, uvec w k p = uvec w' k p.
Proof.
  intros w w' k Hv Hc p. unfold uvec. destruct (Hc k ltac:(lia)) as (-> & ->). rewrite (tvec_ext w w') by (intros; (apply Hv || apply Hc); lia). unfold vec. rewrite Hv by lia. reflexivity.
Qed.
Lemma tvec_orth : forall w z k, (forall j, (j <= k)%nat -> fdot n z (C (vec w j)) = 0) -> fdot n z (tvec w k) = 0.
Proof.
  intros w z. induction k as [|k IH]; intros H; cbn [tvec]; [apply (H 0%nat); lia|].
  rewrite fdot_lin. rewrite IH by (intros; apply H; lia). rewrite (H (S k)) by lia. ring.
Qed.

Variable r : list R.
(* the state on entry to pass i of a cycle that starts with the residual r; the vector i may be
   missing in [weak] *)
Record weak (i : nat) (w : work) : Prop := {
  iv_vec : forall k, (k < i)%nat -> exists z, w_v w k = Some z /\ length z = n;
  iv_rot : forall k, (k < i)%nat -> w_cs w k * w_cs w k + w_sn w k * w_sn w k = 1;
  iv_tri : forall k p, (k < i)%nat -> nth p (B (vec w k)) 0 = Sum (fun l => w_h w l k * uvec w l p) (S k);
  iv_piv : forall k, (k < i)%nat -> w_h w k k <> 0;
  iv_res : forall p, nth p r 0 = Sum (fun l => w_s w l * uvec w l p) i + w_s w i * tvec w i p;
  iv_zero : forall l, (i < l)%nat -> w_s w l = 0 }.
Record strong (i : nat) (w : work) : Prop := {
  is_weak : weak i w;
  is_vec : forall k, (k <= i)%nat -> exists z, w_v w k = Some z /\ length z = n;
  is_orth : forall a b, (a <= i)%nat -> (b <= i)%nat -> fdot n (C (vec w a)) (C (vec w b)) = if Nat.eq_dec a b then 1 else 0 }.
Lemma vec_len : forall w k, (exists z, w_v w k = Some z /\ length z = n) -> length (vec w k) = n.
Proof. intros w k (z & E & L). unfold vec. rewrite E. exact L. Qed.
Lemma tvec_unit : forall i w, strong i w -> fdot n (tvec w i) (tvec w i) = 1.
Proof.
  intros i w [W V O]. assert (X : forall k, (k <= i)%nat -> fdot n (tvec w k) (tvec w k) = 1); [|apply X; lia].
  induction k as [|k IH]; intros Hk; [cbn [tvec]; rewrite O by lia; reflexivity|].
  specialize (IH ltac:(lia)). pose proof (iv_rot i w W k ltac:(lia)) as Rk.
  assert (Z : fdot n (C (vec w (S k))) (tvec w k) = 0).
  { apply tvec_orth. intros j Hj. rewrite O by lia. destruct (Nat.eq_dec (S k) j); [lia|reflexivity]. }
  pose proof (O (S k) (S k) ltac:(lia) ltac:(lia)) as U. destruct (Nat.eq_dec (S k) (S k)) as [_|]; [|contradiction].
  cbn [tvec]. rewrite fdot_lin. rewrite (fdot_comm n _ (tvec w k)), (fdot_comm n _ (C (vec w (S k)))). rewrite !fdot_lin.
  rewrite (fdot_comm n (tvec w k) (C (vec w (S k)))). rewrite Z, U, IH. nra.
Qed.

(* the solution after i passes, and its residual *)
Lemma tri_sum : forall i w y p, weak i w ->
  Sum (fun k => y k * nth p (B (vec w k)) 0) i = Sum (fun l => Sum (fun k => upper (w_h w) l k * y k) i * uvec w l p) i.
Proof.
  intros i w y p W.
  rewrite (Sum_ext _ (fun k => Sum (fun l => upper (w_h w) l k * y k * uvec w l p) i)).
  - rewrite Sum_swap. apply Sum_ext. intros l _. rewrite (Sum_ext _ (fun k => uvec w l p * (upper (w_h w) l k * y k))) by (intros; ring). rewrite Sum_scal. ring.
  - intros k Hk. rewrite (iv_tri i w W k p Hk). rewrite <- Sum_scal.
    replace i with (S k + (i - S k))%nat by lia. generalize (i - S k)%nat. intros d. induction d as [|d IH].
    + rewrite Nat.add_0_r. apply Sum_ext. intros l Hl. unfold upper. rewrite (proj2 (Nat.leb_le l k)) by lia. ring.
    + rewrite Nat.add_succ_r. change (Sum ?f (S (S k + d))) with (Sum f (S k + d) + f (S k + d)%nat). rewrite <- IH. unfold upper. rewrite (proj2 (Nat.leb_gt (S k + d) k)) by lia. ring.
Qed.
Lemma update_ok : forall i w x b, weak i w -> length x = n -> length b = n -> r = psolve (vsub b (mul x)) ->
  exists x', update x i w = Some x' /\ length x' = n /\ (forall p, nth p (psolve (vsub b (mul x'))) 0 = w_s w i * tvec w i p) /\
    exists y, forall p, nth p x' 0 = nth p x 0 + Sum (fun k => y k * nth p (vec w k) 0) i.
Proof.
  intros i w x b W Lx Lb Er. unfold update. destruct (backsolve_ok (w_h w) i (w_s w) (iv_piv i w W)) as (y & -> & _ & Hy).
  destruct (accumulate_ok (w_v w) y (seq 0 i) x) as (x' & E & L' & K); [intros j Hj; apply in_seq in Hj; apply (iv_vec i w W); lia|exact Lx|].
  exists x'. split; [exact E|]. split; [exact L'|]. split.
  - intros p. destruct Hmul as (M1 & M2). rewrite linear_sub by (auto || apply Hps). change (psolve (mul x')) with (B x').
    rewrite (K B B_linear p). rewrite (fold_Sum (fun j => y j * nth p (B (vec w j)) 0)). cbn [Nat.add].
    rewrite (tri_sum i w y p W).
    pose proof (iv_res i w W p) as F. rewrite Er in F. rewrite linear_sub in F by (auto || apply Hps). change (psolve (mul x)) with (B x) in F.
    rewrite (Sum_ext _ (fun l => w_s w l * uvec w l p)) by (intros l Hl; rewrite (Hy l Hl); reflexivity). lra.
  - exists y. intros p. rewrite (K (fun x => x) id_linear p). rewrite (fold_Sum (fun j => y j * nth p (vec w j) 0)). reflexivity.
Qed.

(* ---- one pass -------------------------------------------------------------------------------- *)
Lemma orthogonalize_ok : forall v (V : nat -> list R) i len a h w, (forall k, (k < a + len)%nat -> v k = Some (V k) /\ length (V k) = n) ->
  (forall c d, (c < a + len)%nat -> (d < a + len)%nat -> fdot n (C (V c)) (C (V d)) = if Nat.eq_dec c d then 1 else 0) ->
  length w = n -> (forall c, (c < a)%nat -> fdot n (C w) (C (V c)) = 0) ->
  exists h' x, orthogonalize v i (seq a len) h w = Some (h', x) /\ length x = n /\
    (forall c, (c < a + len)%nat -> fdot n (C x) (C (V c)) = 0) /\
    (forall k l, l <> i \/ (k < a)%nat -> h' k l = h k l) /\
    (forall p, nth p w 0 = Sum (fun q => h' (a + q)%nat i * nth p (V (a + q)%nat) 0) len + nth p x 0).
Proof.
  intros v V i. induction len as [|len IH]; intros a h w Hv Ho Lw Hw; cbn [seq orthogonalize].
  - exists h, w. split; [reflexivity|]. split; [exact Lw|]. split; [intros c Hc; apply Hw; lia|]. split; [auto|]. intros p. cbn [Sum]. lra.
  - destruct (Hv a ltac:(lia)) as (Ea & La). rewrite Ea. set (d := vdot w (V a)).
    assert (Hd : d = fdot n (C w) (C (V a))) by (apply vdot_fdot; assumption).
    assert (Ls : length w = length (vscale (V a) d)) by (rewrite len_vscale; congruence).
    destruct (IH (S a) (set2 h a i d) (vsub w (vscale (V a) d))) as (h' & x & E & Lx & X1 & X2 & X3).
    + intros k Hk. apply Hv. lia.
    + intros c e Hc He. apply Ho; lia.
    + rewrite len_vsub. exact Lw.
    + intros c Hc. rewrite fdot_comm. rewrite (fdot_ext n _ _ (C (V c)) (fun p => 1 * nth p w 0 + (- d) * nth p (V a) 0)); [|reflexivity|intros p; rewrite nth_vsub by exact Ls; rewrite nth_vscale; lra].
      rewrite fdot_lin. rewrite (Ho c a) by lia. rewrite (fdot_comm n (C (V c)) (C w)).
      destruct (Nat.eq_dec c a) as [->|]; [rewrite <- Hd; ring|]. rewrite Hw by lia. ring.
    + exists h', x. split; [exact E|]. split; [exact Lx|]. split; [intros c Hc; apply X1; lia|]. split.
      * intros k l Hkl. rewrite X2 by (destruct Hkl; [left; assumption|right; lia]). destruct Hkl; [apply set2_col|apply set2_row]; [assumption|lia].
      * intros p. rewrite Sum_first. rewrite Nat.add_0_r. rewrite (X2 a i) by (right; lia). rewrite set2_eq.
        specialize (X3 p). rewrite nth_vsub in X3 by exact Ls. rewrite nth_vscale in X3.
        rewrite (Sum_ext _ (fun q => h' (S a + q)%nat i * nth p (V (S a + q)%nat) 0)) by (intros q _; rewrite Nat.add_succ_r; reflexivity). lra.
Qed.
(* the earlier rotations, applied to a new column *)
Lemma rotate_ok : forall w' i h0 (f : nat -> R), (forall k, (k < i)%nat -> w_cs w' k * w_cs w' k + w_sn w' k * w_sn w' k = 1) ->
  (forall p, f p = Sum (fun l => h0 l i * nth p (vec w' l) 0) (S (S i))) ->
  forall j, (j <= i)%nat -> let h := fold_left (fun h k => rotate_column (w_cs w' k) (w_sn w' k) k i h) (seq 0 j) h0 in
    (forall l k, k <> i \/ (j < l)%nat -> h l k = h0 l k) /\
    (forall p, f p = Sum (fun l => h l i * uvec w' l p) j + h j i * tvec w' j p + Sum (fun q => h (S j + q)%nat i * nth p (vec w' (S j + q)%nat) 0) (S i - j)).
Proof.
  intros w' i h0 f Hr Hf. induction j as [|j IH]; intros Hj h.
  - cbn in h. subst h. split; [reflexivity|]. intros p. rewrite Hf. rewrite Sum_first. rewrite Nat.sub_0_r. cbn [Sum tvec Nat.add]. lra.
  - subst h. specialize (IH ltac:(lia)). cbv zeta in IH. destruct IH as (A & F). rewrite seq_S, fold_left_app. cbn [fold_left Nat.add].
    set (h := fold_left _ (seq 0 j) h0) in *. split.
    + intros l k Hlk. destruct Hlk as [Hk|Hl]; [rewrite rotate_column_col by exact Hk; apply A; left; exact Hk|]. rewrite rotate_column_row by lia. apply A. right. lia.
    + intros p. rewrite F. cbn [Sum]. rewrite rotate_column_at, rotate_column_next.
      rewrite (Sum_ext (fun l => rotate_column _ _ j i h l i * uvec w' l p) (fun l => h l i * uvec w' l p)) by (intros l Hl; rewrite rotate_column_row by lia; reflexivity).
      replace (S i - j)%nat with (S (S i - S j)) by lia. rewrite Sum_first. rewrite Nat.add_0_r.
      rewrite (Sum_ext (fun q => h (S j + S q)%nat i * nth p (vec w' (S j + S q)) 0) (fun q => rotate_column (w_cs w' j) (w_sn w' j) j i h (S (S j) + q)%nat i * nth p (vec w' (S (S j) + q)) 0))
        by (intros q _; rewrite rotate_column_row by lia; replace (S j + S q)%nat with (S (S j) + q)%nat by lia; reflexivity).
      change (uvec w' j p) with (w_cs w' j * tvec w' j p + w_sn w' j * nth p (vec w' (S j)) 0). cbn [tvec]. pose proof (Hr j ltac:(lia)) as Rj. set (c := w_cs w' j) in *. set (s := w_sn w' j) in *.
      set (a1 := h j i). set (a2 := h (S j) i). set (T := tvec w' j p). set (V := nth p (vec w' (S j)) 0).
      assert (Q : a1 * T + a2 * V = (c * a1 + s * a2) * (c * T + s * V) + (- s * a1 + c * a2) * (- s * T + c * V)).
      { replace ((c * a1 + s * a2) * (c * T + s * V) + (- s * a1 + c * a2) * (- s * T + c * V)) with ((c * c + s * s) * (a1 * T + a2 * V)) by ring. rewrite Rj. ring. }
      cbn [Nat.add]. lra.
Qed.

Lemma arnoldi_ok : forall i w, strong i w -> exists w', arnoldi mul psolve rotg i w = Some w' /\ weak (S i) w' /\
  (strong (S i) w' \/ w_s w' (S i) = 0) /\ Sum (fun l => w_s w' l * w_s w' l) (S (S i)) = Sum (fun l => w_s w l * w_s w l) (S i) /\
  (forall k, (k <= i)%nat -> w_v w' k = w_v w k) /\
  exists y x, (forall p, nth p (B (vec w i)) 0 = Sum (fun k => y k * nth p (vec w k) 0) (S i) + nth p x 0) /\ length x = n /\
     (forall k, (k <= i)%nat -> fdot n (C x) (C (vec w k)) = 0) /\ forall p, vnorm x * nth p (vec w' (S i)) 0 = nth p x 0.
Proof.
  intros i w St. pose proof St as [W V O]. destruct (V i ltac:(lia)) as (vi & Ei & Li). unfold arnoldi. rewrite Ei.
  assert (Evi : vec w i = vi) by (unfold vec; rewrite Ei; reflexivity).
  destruct (orthogonalize_ok (w_v w) (vec w) i (S i) 0 (w_h w) (B vi)) as (h & x & Eo & Lx & X1 & X2 & X3).
  { intros k Hk. destruct (V k ltac:(lia)) as (z & Ez & Lz). unfold vec. rewrite Ez. auto. }
  { intros c d Hc Hd. apply O; lia. }
  { apply (proj1 B_linear). exact Li. }
  { intros c Hc. lia. }
  change (psolve (mul vi)) with (B vi). rewrite Eo. cbv zeta. set (nx := vnorm x).
  set (v := set1 (w_v w) (S i) (if Reqb0 nx then None else Some (vscale x (1 / nx)))).
  set (h1 := set2 h (S i) i nx). set (h2 := fold_left _ (seq 0 i) h1). set (cs := rotg (h2 i i) (h2 (S i) i)).
  set (w' := mkW _ _ _ _ _). exists w'. split; [reflexivity|].
  assert (Vold : forall k, (k <= i)%nat -> w_v w' k = w_v w k) by (intros k Hk; cbn [w_v w']; unfold v; apply set1_ne; lia).
  assert (vold : forall k, (k <= i)%nat -> vec w' k = vec w k) by (intros k Hk; unfold vec; rewrite Vold by exact Hk; reflexivity).
  assert (Cold : forall k, (k < i)%nat -> w_cs w k = w_cs w' k /\ w_sn w k = w_sn w' k) by (intros k Hk; cbn [w_cs w_sn w']; rewrite !set1_ne by lia; auto).
  assert (told : forall k p, (k <= i)%nat -> tvec w' k p = tvec w k p).
  { intros k p Hk. symmetry. apply tvec_ext; [intros j Hj; symmetry; apply Vold; lia|intros j Hj; apply Cold; lia]. }
  assert (uold : forall k p, (k < i)%nat -> uvec w' k p = uvec w k p).
  { intros k p Hk. symmetry. apply uvec_ext; [intros j Hj; symmetry; apply Vold; lia|intros j Hj; apply Cold; lia]. }
  assert (Vnew : forall p, nx * nth p (vec w' (S i)) 0 = nth p x 0).
  { intros p. unfold vec. cbn [w_v w']. unfold v. rewrite set1_eq. destruct (Reqb0 nx) eqn:En.
    - apply Reqb0_spec in En. rewrite (vnorm_zero x En p). rewrite En. ring.
    - rewrite nth_vscale. field. intros Z. rewrite (proj2 (Reqb0_spec nx) Z) in En. discriminate. }
  assert (Rot : forall k, (k < S i)%nat -> w_cs w' k * w_cs w' k + w_sn w' k * w_sn w' k = 1).
  { intros k Hk. destruct (Nat.eq_dec k i) as [->|]; [cbn [w_cs w_sn w']; rewrite !set1_eq; apply (Hrot (h2 i i) (h2 (S i) i))|].
    destruct (Cold k ltac:(lia)) as (<- & <-). apply (iv_rot i w W). lia. }
  assert (X3' : forall p, nth p (B vi) 0 = Sum (fun l => h1 l i * nth p (vec w' l) 0) (S (S i))).
  { intros p. rewrite X3. cbn [Nat.add]. change (Sum (fun l => h1 l i * nth p (vec w' l) 0) (S (S i))) with (Sum (fun l => h1 l i * nth p (vec w' l) 0) (S i) + h1 (S i) i * nth p (vec w' (S i)) 0).
    unfold h1 at 2. rewrite set2_eq, Vnew. f_equal. apply Sum_ext. intros l Hl. unfold h1. rewrite set2_row by lia. rewrite vold by lia. reflexivity. }
  assert (Eh2 : h2 = fold_left (fun h k => rotate_column (w_cs w' k) (w_sn w' k) k i h) (seq 0 i) h1).
  { unfold h2. assert (G : forall l h, (forall k, In k l -> (k < i)%nat) -> fold_left (fun h k => rotate_column (w_cs w k) (w_sn w k) k i h) l h = fold_left (fun h k => rotate_column (w_cs w' k) (w_sn w' k) k i h) l h).
    { induction l as [|k l IH]; intros g Hl; [reflexivity|]. cbn [fold_left]. destruct (Cold k (Hl k (or_introl eq_refl))) as (-> & ->). apply IH. intros q Hq. apply Hl. right. exact Hq. }
    apply G. intros k Hk. apply in_seq in Hk. lia. }
  destruct (rotate_ok w' i h1 (C (B vi)) (fun k Hk => Rot k ltac:(lia)) X3' i ltac:(lia)) as (A2 & F2). cbv zeta in A2, F2. rewrite <- Eh2 in A2, F2.
  assert (Enx : h2 (S i) i = nx) by (rewrite A2 by (right; lia); unfold h1; apply set2_eq).
  destruct (Hrot (h2 i i) (h2 (S i) i)) as (Q1 & Q2). fold cs in Q1, Q2.
  assert (Ci : w_cs w' i = fst cs /\ w_sn w' i = snd cs) by (cbn [w_cs w_sn w']; rewrite !set1_eq; auto). destruct Ci as (Ci & Si).
  assert (Hh : forall l k, k <> i -> w_h w' l k = w_h w l k).
  { intros l k Hk. cbn [w_h w']. rewrite rotate_column_col by exact Hk. rewrite A2 by (left; exact Hk). unfold h1. rewrite set2_col by exact Hk. apply X2. left. exact Hk. }
  assert (Tri : forall p, nth p (B vi) 0 = Sum (fun l => w_h w' l i * uvec w' l p) (S i)).
  { intros p. rewrite F2. replace (S i - i)%nat with 1%nat by lia. cbn [Sum]. rewrite Nat.add_0_r. cbn [w_h w']. rewrite rotate_column_at.
    rewrite (Sum_ext (fun l => rotate_column _ _ i i h2 l i * uvec w' l p) (fun l => h2 l i * uvec w' l p)) by (intros l Hl; rewrite rotate_column_row by lia; reflexivity).
    unfold uvec at 3. rewrite Ci, Si. set (c := fst cs) in *. set (s := snd cs) in *. set (a1 := h2 i i) in *. set (a2 := h2 (S i) i) in *. set (T := tvec w' i p). set (U := nth p (vec w' (S i)) 0).
    assert (Q : a1 * T + a2 * U = (c * a1 + s * a2) * (c * T + s * U) + (- s * a1 + c * a2) * (- s * T + c * U)).
    { replace ((c * a1 + s * a2) * (c * T + s * U) + (- s * a1 + c * a2) * (- s * T + c * U)) with ((c * c + s * s) * (a1 * T + a2 * U)) by ring. rewrite Q1. ring. }
    rewrite Q2 in Q. lra. }
  assert (Hii : w_h w' i i = fst cs * h2 i i + snd cs * nx) by (cbn [w_h w']; rewrite rotate_column_at, Enx; reflexivity).
  (* the pivot *)
  assert (Piv : w_h w' i i <> 0).
  { intros Z. assert (SQ : h2 i i * h2 i i + nx * nx = 0).
    { rewrite Hii in Z. rewrite Enx in Q2. set (c := fst cs) in *. set (s := snd cs) in *.
      replace (h2 i i * h2 i i + nx * nx) with ((c * c + s * s) * (h2 i i * h2 i i + nx * nx)) by (rewrite Q1; ring).
      replace ((c * c + s * s) * (h2 i i * h2 i i + nx * nx)) with ((c * h2 i i + s * nx) * (c * h2 i i + s * nx) + (- s * h2 i i + c * nx) * (- s * h2 i i + c * nx)) by ring.
      rewrite Z, Q2. ring. }
    destruct (backsolve_ok (w_h w) i (fun l => w_h w' l i) (iv_piv i w W)) as (y & _ & _ & Hy).
    destruct (accumulate_ok (w_v w) (fun k => - y k) (seq 0 i) vi) as (z & _ & Lz & K); [intros j Hj; apply in_seq in Hj; apply (iv_vec i w W); lia|exact Li|].
    assert (Bz : forall p, nth p (B z) 0 = 0).
    { intros p. rewrite (K B B_linear p). rewrite (fold_Sum (fun j => - y j * nth p (B (vec w j)) 0)). cbn [Nat.add].
      pose proof (tri_sum i w (fun k => - y k) p W) as Tr. cbv beta in Tr. rewrite Tr. rewrite Tri. cbn [Sum]. rewrite Z.
      rewrite (Sum_ext (fun l => Sum (fun k => upper (w_h w) l k * - y k) i * uvec w l p) (fun l => (-1) * (w_h w' l i * uvec w' l p))).
      - rewrite Sum_scal. ring.
      - intros l Hl. rewrite uold by exact Hl. rewrite (Sum_ext _ (fun k => (-1) * (upper (w_h w) l k * y k))) by (intros; ring). rewrite Sum_scal, (Hy l Hl). ring. }
    pose proof (Hinj z Lz Bz) as Zz.
    assert (D : fdot n (C (vec w i)) (C z) = 1).
    { rewrite (fdot_ext n _ _ (C (vec w i)) (fun p => 1 * nth p (vec w i) 0 + 1 * Sum (fun k => - y k * nth p (vec w k) 0) i)); [|reflexivity|].
      - rewrite (fdot_lin n _ 1 (C (vec w i)) 1 (fun p => Sum (fun k => - y k * nth p (vec w k) 0) i)). rewrite (fdot_Sum n _ (fun k p => - y k * nth p (vec w k) 0)). rewrite O by lia. destruct (Nat.eq_dec i i) as [_|]; [|contradiction].
        rewrite Sum_zero; [ring|]. intros k Hk. rewrite (fdot_ext n _ _ (C (vec w i)) (fun p => - y k * nth p (vec w k) 0 + 0 * 0)) by (intros; ring || reflexivity).
        rewrite (fdot_lin n _ (- y k) (C (vec w k)) 0 (fun _ => 0)). rewrite O by lia. destruct (Nat.eq_dec i k); [lia|]. ring.
      - intros p. rewrite (K (fun x => x) id_linear p). rewrite (fold_Sum (fun j => - y j * nth p (vec w j) 0)). cbn [Nat.add]. rewrite Evi. ring. }
    rewrite (fdot_ext n _ _ (C (vec w i)) (fun _ => 0)) in D by (reflexivity || exact Zz). unfold fdot in D. rewrite Sum_zero in D; [lra|intros; ring]. }
  assert (S0 : w_s w (S i) = 0) by (apply (iv_zero i w W); lia).
  assert (Snew : w_s w' i = fst cs * w_s w i /\ w_s w' (S i) = - snd cs * w_s w i).
  { cbn [w_s w']. rewrite rotate_rhs_at, rotate_rhs_next, S0. split; ring. } destruct Snew as (Sn1 & Sn2).
  assert (Sold : forall l, (l < i)%nat -> w_s w' l = w_s w l) by (intros l Hl; cbn [w_s w']; apply rotate_rhs_ne; lia).
  assert (Wk : weak (S i) w').
  { constructor.
    - intros k Hk. destruct (V k ltac:(lia)) as (z & Ez & Lz). exists z. rewrite Vold by lia. auto.
    - exact Rot.
    - intros k p Hk. destruct (Nat.eq_dec k i) as [->|]; [rewrite vold by lia; rewrite Evi; apply Tri|].
      rewrite vold by lia. rewrite (iv_tri i w W k p) by lia. apply Sum_ext. intros l Hl. rewrite Hh by assumption. rewrite uold by lia. reflexivity.
    - intros k Hk. destruct (Nat.eq_dec k i) as [->|]; [exact Piv|]. rewrite Hh by assumption. apply (iv_piv i w W). lia.
    - intros p. rewrite (iv_res i w W p). cbn [Sum]. rewrite (Sum_ext (fun l => w_s w' l * uvec w' l p) (fun l => w_s w l * uvec w l p)) by (intros l Hl; rewrite Sold, uold by exact Hl; reflexivity).
      rewrite Sn1, Sn2. change (uvec w' i p) with (w_cs w' i * tvec w' i p + w_sn w' i * nth p (vec w' (S i)) 0).
      change (tvec w' (S i) p) with (- w_sn w' i * tvec w' i p + w_cs w' i * nth p (vec w' (S i)) 0). rewrite Ci, Si, told by lia. set (c := fst cs) in *. set (s := snd cs) in *.
      set (T := tvec w i p). set (U := nth p (vec w' (S i)) 0).
      assert (Q : c * w_s w i * (c * T + s * U) + - s * w_s w i * (- s * T + c * U) = w_s w i * T) by (replace (c * w_s w i * (c * T + s * U) + - s * w_s w i * (- s * T + c * U)) with ((c * c + s * s) * (w_s w i * T)) by ring; rewrite Q1; ring). lra.
    - intros l Hl. cbn [w_s w']. rewrite rotate_rhs_ne by lia. apply (iv_zero i w W). lia. }
  split; [exact Wk|]. split; [|split; [|split; [exact Vold|]]].
  - destruct (Req_EM_T nx 0) as [Z|Z].
    + right. rewrite Sn2. rewrite Enx, Z in Q2. rewrite Hii, Z in Piv.
      assert (h2 i i <> 0) by (intros Y; apply Piv; rewrite Y; ring). assert (snd cs = 0); [|rewrite H0; ring].
      apply (Rmult_eq_reg_r (h2 i i)); [lra|assumption].
    + left. assert (Vn : w_v w' (S i) = Some (vscale x (1 / nx))) by (cbn [w_v w']; unfold v; rewrite set1_eq, Reqb0_false by exact Z; reflexivity).
      assert (On : forall a, (a <= i)%nat -> fdot n (C (vec w a)) (C (vec w' (S i))) = 0).
      { intros a Ha. apply (Rmult_eq_reg_l nx); [|exact Z]. rewrite Rmult_0_r. unfold fdot. rewrite <- Sum_scal.
        rewrite (Sum_ext _ (fun p => nth p x 0 * nth p (vec w a) 0)) by (intros p _; rewrite <- Vnew; ring). apply X1. lia. }
      constructor; [exact Wk| |].
      * intros k Hk. destruct (Nat.eq_dec k (S i)) as [->|]; [|rewrite Vold by lia; apply V; lia]. exists (vscale x (1 / nx)). rewrite len_vscale. auto.
      * intros a b Ha Hb. destruct (Nat.eq_dec a (S i)) as [->|Na]; destruct (Nat.eq_dec b (S i)) as [->|Nb].
        -- destruct (Nat.eq_dec (S i) (S i)) as [_|]; [|contradiction]. apply (Rmult_eq_reg_l (nx * nx)); [|intros Y; apply Rmult_integral in Y; destruct Y; contradiction].
           unfold fdot. rewrite <- Sum_scal. rewrite (Sum_ext _ (fun p => nth p x 0 * nth p x 0)) by (intros p _; rewrite <- Vnew; ring).
           fold (fdot n (C x) (C x)). rewrite <- (vdot_fdot x x n) by exact Lx. unfold nx. rewrite vnorm_sq. ring.
        -- destruct (Nat.eq_dec (S i) b); [congruence|]. rewrite fdot_comm. rewrite vold by lia. apply On. lia.
        -- destruct (Nat.eq_dec a (S i)); [congruence|]. rewrite vold by lia. apply On. lia.
        -- rewrite !vold by lia. apply O; lia.
  - change (Sum (fun l => w_s w' l * w_s w' l) (S (S i))) with (Sum (fun l => w_s w' l * w_s w' l) i + w_s w' i * w_s w' i + w_s w' (S i) * w_s w' (S i)).
    cbn [Sum]. rewrite (Sum_ext (fun l => w_s w' l * w_s w' l) (fun l => w_s w l * w_s w l)) by (intros l Hl; rewrite Sold by exact Hl; reflexivity). rewrite Sn1, Sn2.
    assert (Q : fst cs * w_s w i * (fst cs * w_s w i) + - snd cs * w_s w i * (- snd cs * w_s w i) = w_s w i * w_s w i).
    { replace (fst cs * w_s w i * (fst cs * w_s w i) + - snd cs * w_s w i * (- snd cs * w_s w i)) with ((fst cs * fst cs + snd cs * snd cs) * (w_s w i * w_s w i)) by ring. rewrite Q1. ring. }
    lra.
  - exists (fun k => h k i), x. rewrite Evi. split; [exact X3|]. split; [exact Lx|]. split; [intros k Hk; apply X1; lia|]. exact Vnew.
Qed.
End Step.
