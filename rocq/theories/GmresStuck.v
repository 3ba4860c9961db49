(* GMRES makes no progress on the cyclic shift. *)
From Coq Require Import List Arith Lia Reals Lra.
From Verif Require Import Gmres GmresProofs GmresArnoldi GmresLoop.
Import ListNotations.
Open Scope R_scope.
Local Arguments Nat.ltb : simpl never.
Local Arguments Nat.leb : simpl never.
Local Arguments Nat.eqb : simpl never.

(* (x0, ..., xm) becomes (xm, x0, ..., x(m-1)) *)
Definition shift (x : list R) : list R := match x with nil => nil | _ => last x 0 :: removelast x end.
Definition e (k p : nat) : R := if (p =? k)%nat then 1 else 0.
Lemma len_removelast : forall (x : list R), length (removelast x) = pred (length x).
Proof. induction x as [|a [|b x] IH]; [reflexivity|reflexivity|]. cbn [removelast length] in *. rewrite IH. reflexivity. Qed.
Lemma shift_len : forall x, length (shift x) = length x.
Proof. intros [|a x]; [reflexivity|]. unfold shift. cbn [length]. rewrite len_removelast. reflexivity. Qed.
Lemma last_nth : forall (x : list R) a, last (a :: x) 0 = nth (length x) (a :: x) 0.
Proof. induction x as [|b x IH]; intros a; [reflexivity|]. change (last (a :: b :: x) 0) with (last (b :: x) 0). rewrite IH. reflexivity. Qed.
Lemma nth_removelast : forall (x : list R) p, (S p < length x)%nat -> nth p (removelast x) 0 = nth p x 0.
Proof.
  induction x as [|a [|b x] IH]; intros p Hp; cbn [length] in Hp; try lia. change (removelast (a :: b :: x)) with (a :: removelast (b :: x)).
  destruct p; [reflexivity|]. cbn [nth]. apply IH. cbn [length]. lia.
Qed.
Lemma nth_shift : forall m x, length x = S m -> (nth 0 (shift x) 0 = nth m x 0) /\ (forall p, (p < m)%nat -> nth (S p) (shift x) 0 = nth p x 0).
Proof.
  intros m [|a x] L; [discriminate|]. cbn [length] in L. injection L as L. split.
  - unfold shift. change (nth 0 (last (a :: x) 0 :: removelast (a :: x)) 0) with (last (a :: x) 0). rewrite last_nth, L. reflexivity.
  - intros p Hp. unfold shift. change (nth (S p) (last (a :: x) 0 :: removelast (a :: x)) 0) with (nth p (removelast (a :: x)) 0). apply nth_removelast. cbn [length]. lia.
Qed.
Lemma shift_linear : forall m, linear (S m) shift.
Proof.
  intros m. split; [intros x L; rewrite shift_len; exact L|]. intros x y c Lx Ly.
  assert (L1 : length (vadd x (vscale y c)) = S m) by (rewrite len_vadd; exact Lx).
  apply vec_ext; [rewrite shift_len, !len_vadd, shift_len; reflexivity|].
  intros p. rewrite nth_vadd by (rewrite len_vscale, !shift_len; congruence). rewrite nth_vscale.
  destruct (nth_shift m _ L1) as (A1 & A2). destruct (nth_shift m x Lx) as (B1 & B2). destruct (nth_shift m y Ly) as (C1 & C2).
  destruct p as [|p]; [rewrite A1, B1, C1|destruct (Nat.lt_ge_cases p m) as [Hp|Hp]; [rewrite A2, B2, C2 by exact Hp|]].
  - rewrite nth_vadd by (rewrite len_vscale; congruence). rewrite nth_vscale. reflexivity.
  - rewrite nth_vadd by (rewrite len_vscale; congruence). rewrite nth_vscale. reflexivity.
  - rewrite !nth_overflow by (rewrite shift_len; lia). ring.
Qed.
Lemma shift_inj : forall m x, length x = S m -> (forall p, nth p (shift x) 0 = 0) -> forall p, nth p x 0 = 0.
Proof.
  intros m x L H p. destruct (nth_shift m x L) as (A1 & A2). destruct (Nat.lt_trichotomy p m) as [Hp|[-> | Hp]].
  - rewrite <- (A2 p Hp). apply H.
  - rewrite <- A1. apply H.
  - apply nth_overflow. lia.
Qed.
Lemma same_linear : forall n, linear n (fun x => x).
Proof. intros n. split; auto. Qed.

Section Stuck.
Variable m : nat.
Local Notation n := (S m).
Variable rotg : R -> R -> R * R.
Hypothesis Hrot : rotation rotg.
Variable tol : R.
Hypothesis Htol : 0 < tol < 1.
Variable max_iter : nat.
Definition first : list R := 1 :: repeat 0 m.
Local Notation ident := (fun x : list R => x).
Local Notation res := (residual shift ident first).
Local Notation St := (strong n shift ident).
Lemma first_len : length first = n.
Proof. unfold first. cbn [length]. rewrite repeat_length. reflexivity. Qed.
Lemma nth_first : forall p, nth p first 0 = e 0 p.
Proof. intros [|p]; unfold first, e; [reflexivity|]. cbn [nth]. rewrite nth_repeat. reflexivity. Qed.
Lemma fdot_e : forall f k, (k < n)%nat -> fdot n f (e k) = f k.
Proof.
  intros f k Hk. unfold fdot. assert (G : forall j, Sum (fun p => f p * e k p) j = if (k <? j)%nat then f k else 0).
  { induction j as [|j IH]; [reflexivity|]. cbn [Sum]. rewrite IH. unfold e. destruct (Nat.eqb_spec j k) as [->|].
    - rewrite (proj2 (Nat.ltb_ge k k)), (proj2 (Nat.ltb_lt k (S k))) by lia. ring.
    - destruct (Nat.ltb_spec k j); destruct (Nat.ltb_spec k (S j)); try lia; ring. }
  rewrite G. rewrite (proj2 (Nat.ltb_lt k n)) by exact Hk. reflexivity.
Qed.
Definition units (i : nat) (w : work) : Prop := forall k p, (k <= i)%nat -> nth p (vec n w k) 0 = e k p.

(* with unit vectors the residual keeps its first component *)
Lemma stuck_at : forall i w x, (i <= m)%nat -> length x = n -> (forall p, nth p x 0 = 0) -> St (res x) i w -> units i w ->
  Sum (fun l => w_s w l * w_s w l) (S i) = 1 ->
  exists x', update x i w = Some x' /\ length x' = n /\ Rabs (w_s w i) = 1 /\ (forall p, nth p x' 0 = 0).
Proof.
  intros i w x Hi Lx Zx S0 U Sq.
  destruct (update_ok n shift ident (shift_linear m) (same_linear n) (res x) i w x first (is_weak _ _ _ _ _ _ S0) Lx first_len eq_refl) as (x' & Eu & L' & Rs & (y & Hy)).
  exists x'. split; [exact Eu|]. split; [exact L'|]. fold (res x') in Rs.
  destruct (nth_shift m x' L') as (A1 & A2).
  assert (Zm : nth m x' 0 = 0).
  { rewrite Hy, Zx. rewrite Sum_zero; [ring|]. intros k Hk. rewrite U by lia. unfold e. destruct (Nat.eqb_spec m k); [lia|ring]. }
  assert (R0 : nth 0 (res x') 0 = 1).
  { unfold residual. rewrite nth_vsub by (rewrite shift_len, first_len; congruence). rewrite A1, Zm. rewrite nth_first. unfold e. change (0 =? 0)%nat with true. cbv iota. ring. }
  pose proof (tvec_unit n shift ident (res x) i w S0) as Tu.
  assert (Nr : vnorm (res x') = Rabs (w_s w i)).
  { apply (vnorm_of _ n _ (tvec n w i)); [unfold residual; rewrite len_vsub; apply first_len|left; exact Tu|exact Rs]. }
  assert (Ls : length (res x') = n) by (unfold residual; rewrite len_vsub; apply first_len).
  pose proof (vnorm_sq (res x')) as Nq. rewrite (vdot_fdot _ _ n) in Nq by exact Ls. unfold fdot in Nq. rewrite Sum_first in Nq. cbv beta in Nq. rewrite R0 in Nq.
  pose proof (Sum_nonneg (fun q => nth (S q) (res x') 0 * nth (S q) (res x') 0) m ltac:(intros; nra)) as Np.
  assert (Le : w_s w i * w_s w i <= 1) by (rewrite <- Sq; apply last_le_sum).
  assert (Sa : Rabs (w_s w i) * Rabs (w_s w i) = w_s w i * w_s w i) by (rewrite <- Rabs_mult; apply Rabs_pos_eq; nra).
  rewrite Nr, Sa in Nq.
  assert (One : w_s w i * w_s w i = 1) by lra.
  split; [pose proof (Rabs_pos (w_s w i)); nra|].
  assert (Z : forall q, (q < m)%nat -> nth (S q) (res x') 0 = 0).
  { intros q Hq. assert (nth (S q) (res x') 0 * nth (S q) (res x') 0 = 0); [|nra]. apply (Sum_nonneg_zero (fun q => nth (S q) (res x') 0 * nth (S q) (res x') 0) m); [intros; nra|lra|exact Hq]. }
  intros p. destruct (Nat.lt_trichotomy p m) as [Hp|[-> | Hp]]; [|exact Zm|apply nth_overflow; lia].
  specialize (Z p Hp). unfold residual in Z. rewrite nth_vsub in Z by (rewrite shift_len, first_len; congruence). rewrite A2 in Z by exact Hp. rewrite nth_first in Z. unfold e in Z. change (S p =? 0)%nat with false in Z. cbv iota in Z. lra.
Qed.
Lemma units_next : forall i w, (i < m)%nat -> forall r, St r i w -> units i w -> forall w', arnoldi shift ident rotg i w = Some w' -> units (S i) w'.
Proof.
  intros i w Hi r S0 U w' Ew.
  destruct (arnoldi_ok n shift ident rotg (shift_linear m) (same_linear n) Hrot (shift_inj m) r i w S0) as (w2 & E2 & _ & _ & _ & Vold & y & x & X1 & Lx & X2 & X3).
  assert (w2 = w') by congruence. subst w2.
  assert (Li : length (vec n w i) = n) by (apply vec_len; apply (is_vec _ _ _ _ _ _ S0); lia).
  assert (Bi : forall p, nth p (B shift ident (vec n w i)) 0 = e (S i) p).
  { intros p. unfold B. destruct (nth_shift m _ Li) as (A1 & A2). destruct p as [|p].
    - rewrite A1, U by lia. unfold e. destruct (Nat.eqb_spec m i); [lia|]. destruct (Nat.eqb_spec 0 (S i)); [lia|reflexivity].
    - destruct (Nat.lt_ge_cases p m) as [Hp|Hp].
      + rewrite A2 by exact Hp. rewrite U by lia. unfold e. destruct (Nat.eqb_spec p i); destruct (Nat.eqb_spec (S p) (S i)); try lia; reflexivity.
      + rewrite nth_overflow by (rewrite shift_len; lia). unfold e. destruct (Nat.eqb_spec (S p) (S i)); [lia|reflexivity]. }
  assert (Yk : forall k, (k <= i)%nat -> y k = 0 /\ nth k x 0 = 0).
  { intros k Hk. assert (Xk : nth k x 0 = 0).
    { pose proof (X2 k Hk) as D. rewrite (fdot_ext n _ _ (C x) (e k)) in D by (reflexivity || (intros p; apply U; exact Hk)). rewrite fdot_e in D by lia. exact D. }
    split; [|exact Xk]. pose proof (X1 k) as D. rewrite Bi, Xk in D. unfold e in D at 1. destruct (Nat.eqb_spec k (S i)); [lia|].
    rewrite (Sum_ext _ (fun q => y q * e k q)) in D.
    - pose proof (fdot_e (fun q => if (q <? S i)%nat then y q else 0) k ltac:(lia)) as F. unfold fdot in F. cbv beta in F. rewrite (proj2 (Nat.ltb_lt k (S i))) in F by lia.
      assert (G : Sum (fun p => (if (p <? S i)%nat then y p else 0) * e k p) (S m) = Sum (fun q => y q * e k q) (S i)).
      { replace (S m) with (S i + (m - i))%nat by lia. generalize (m - i)%nat. intros d. induction d as [|d IH].
        - rewrite Nat.add_0_r. apply Sum_ext. intros q Hq. rewrite (proj2 (Nat.ltb_lt q (S i))) by exact Hq. reflexivity.
        - rewrite Nat.add_succ_r. change (Sum ?f (S (S i + d))) with (Sum f (S i + d) + f (S i + d)%nat). rewrite IH. rewrite (proj2 (Nat.ltb_ge (S i + d) (S i))) by lia. ring. }
      lra.
    - intros q Hq. rewrite U by lia. unfold e. rewrite (Nat.eqb_sym k q). reflexivity. }
  assert (Xp : forall p, nth p x 0 = e (S i) p).
  { intros p. pose proof (X1 p) as D. rewrite Bi in D. rewrite Sum_zero in D; [lra|]. intros k Hk. destruct (Yk k ltac:(lia)) as (-> & _). ring. }
  assert (Nx : vnorm x = 1).
  { rewrite (vnorm_of x n 1 (e (S i)) Lx); [apply Rabs_R1|left; rewrite fdot_e by lia; unfold e; rewrite Nat.eqb_refl; reflexivity|intros p; rewrite Xp; ring]. }
  intros k p Hk. destruct (Nat.eq_dec k (S i)) as [->|Hne].
  - pose proof (X3 p) as D. rewrite Nx, Xp in D. lra.
  - unfold vec. rewrite Vold by lia. apply U. lia.
Qed.
Lemma inner_stuck : forall f i j x w, (i + f = m)%nat -> (j + f <= S max_iter)%nat -> length x = n -> (forall p, nth p x 0 = 0) -> St (res x) i w -> units i w ->
  Sum (fun l => w_s w l * w_s w l) (S i) = 1 ->
  exists w', inner shift ident rotg max_iter tol 1 f i j x w = Exhausted w' (j + f) /\ St (res x) m w' /\ units m w' /\ Sum (fun l => w_s w' l * w_s w' l) (S m) = 1.
Proof.
  induction f as [|f IH]; intros i j x w Hi Hj Lx Zx S0 U Sq; cbn [inner].
  - rewrite Nat.add_0_r in *. subst i. exists w. auto.
  - rewrite (proj2 (Nat.leb_le j max_iter)) by lia.
    destruct (arnoldi_ok n shift ident rotg (shift_linear m) (same_linear n) Hrot (shift_inj m) (res x) i w S0) as (w' & E & Wk & Ok & Ssq & _).
    pose proof (units_next i w ltac:(lia) _ S0 U w' E) as U'. rewrite Sq in Ssq. rewrite E. cbv zeta.
    assert (S1 : St (res x) (S i) w').
    { destruct Ok as [Ok|Ok]; [exact Ok|]. exfalso.
      destruct (update_ok n shift ident (shift_linear m) (same_linear n) (res x) (S i) w' x first Wk Lx first_len eq_refl) as (x' & _ & L' & Rs & (y & Hy)).
      specialize (Rs 0%nat). rewrite Ok in Rs. rewrite nth_vsub in Rs by (rewrite shift_len, first_len; congruence). destruct (nth_shift m x' L') as (A1 & _). rewrite A1 in Rs. rewrite Hy, Zx in Rs.
      rewrite Sum_zero in Rs; [rewrite nth_first in Rs; unfold e in Rs; change (0 =? 0)%nat with true in Rs; cbv iota in Rs; lra|]. intros k Hk. rewrite U' by lia. unfold e. destruct (Nat.eqb_spec m k); [lia|ring]. }
    destruct (stuck_at (S i) w' x ltac:(lia) Lx Zx S1 U' Ssq) as (_ & _ & _ & Ab & _). rewrite Ab.
    assert (T : Rltb (1 / 1) tol = false) by (destruct (Rltb (1 / 1) tol) eqn:T; [apply Rltb_spec in T; lra|reflexivity]). rewrite T.
    destruct (IH (S i) (S j) x w' ltac:(lia) ltac:(lia) Lx Zx S1 U' Ssq) as (w2 & E2 & X). exists w2. rewrite E2. split; [f_equal; lia|exact X].
Qed.
Lemma zero_list : forall x : list R, length x = n -> (forall p, nth p x 0 = 0) -> x = repeat 0 n.
Proof. intros x L H. apply vec_ext; [rewrite repeat_length; exact L|]. intros p. rewrite H. symmetry. apply nth_repeat. Qed.
Lemma res_zero : res (repeat 0 n) = first.
Proof.
  apply vec_ext; [unfold residual; rewrite len_vsub; reflexivity|]. intros p. unfold residual. rewrite nth_vsub by (rewrite shift_len, first_len, repeat_length; reflexivity).
  assert (Z : nth p (shift (repeat 0 n)) 0 = 0); [|lra].
  destruct (nth_shift m (repeat 0 n) (repeat_length _ _)) as (A1 & A2). destruct p; [rewrite A1; apply nth_repeat|]. destruct (Nat.lt_ge_cases p m); [rewrite A2 by assumption; apply nth_repeat|]. apply nth_overflow. rewrite shift_len, repeat_length. lia.
Qed.
Lemma norm_first : vnorm first = 1.
Proof. rewrite (vnorm_of first n 1 (e 0)); [apply Rabs_R1|apply first_len|left; rewrite fdot_e by lia; reflexivity|intros p; rewrite nth_first; ring]. Qed.
Lemma outer_stuck : forall c f j w resid, (c < f)%nat -> (S max_iter = j + c * m)%nat -> (1 <= m)%nat -> resid = 1 ->
  outer shift ident rotg m max_iter tol 1 f j (repeat 0 n) first first w resid = Return 1 (repeat 0 n) max_iter 1.
Proof.
  induction c as [|c IH]; intros f j w resid Hf Hc Hm ->; (destruct f as [|f]; [lia|]); cbn [outer].
  - rewrite (proj2 (Nat.leb_gt j max_iter)) by lia. reflexivity.
  - rewrite (proj2 (Nat.leb_le j max_iter)) by nia. cbv zeta.
    assert (Nz : vnorm first <> 0) by (rewrite norm_first; lra).
    pose proof (start_strong n shift ident first first_len first w first_len Nz) as S0. set (w0 := mkW _ _ _ _ _) in *.
    assert (Lz : length (repeat 0 n) = n) by apply repeat_length. assert (Zz : forall p, nth p (repeat 0 n) 0 = 0) by (intros p; apply nth_repeat).
    assert (S1 : St (res (repeat 0 n)) 0 w0) by (rewrite res_zero; exact S0).
    assert (U0 : units 0 w0).
    { intros k p Hk. replace k with 0%nat by lia. unfold vec. cbn [w_v w0]. rewrite set1_eq, Reqb0_false by exact Nz. rewrite nth_vscale, nth_first, norm_first. lra. }
    destruct (inner_stuck m 0 j (repeat 0 n) w0 ltac:(lia) ltac:(nia) Lz Zz S1 U0) as (w' & E & S2 & U2 & Sq2); [cbn [Sum w_s w0]; rewrite set1_eq, norm_first; ring|].
    rewrite E. destruct (stuck_at m w' (repeat 0 n) ltac:(lia) Lz Zz S2 U2 Sq2) as (x' & Eu & L' & _ & Z'). rewrite Eu. rewrite (zero_list x' L' Z'). fold (res (repeat 0 n)). rewrite res_zero, norm_first.
    assert (T : Rltb (1 / 1) tol = false) by (destruct (Rltb (1 / 1) tol) eqn:T; [apply Rltb_spec in T; lra|reflexivity]). rewrite T.
    apply IH; [lia|nia|exact Hm|field].
Qed.
Lemma gmres_stuck : (1 <= m)%nat -> (exists c, (max_iter = c * m)%nat) -> gmres shift ident rotg m max_iter tol 1 (repeat 0 n) first = Return 1 (repeat 0 n) max_iter 1.
Proof.
  intros Hm (c & Hc). unfold gmres. cbv zeta. fold (res (repeat 0 n)). rewrite res_zero, norm_first.
  assert (T : Rleb (1 / 1) tol = false) by (destruct (Rleb (1 / 1) tol) eqn:T; [apply Rleb_spec in T; lra|reflexivity]). rewrite T.
  apply (outer_stuck c); [nia|lia|exact Hm|field].
Qed.
End Stuck.
