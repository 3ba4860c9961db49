(* Proofs about the GMRES model: the loops. *)
From Coq Require Import List Arith Lia Reals Lra.
From Verif Require Import Gmres GmresProofs GmresArnoldi.
Import ListNotations.
Open Scope R_scope.
Local Arguments Nat.ltb : simpl never.
Local Arguments Nat.leb : simpl never.
Local Arguments Nat.eqb : simpl never.

Section Loop.
Variable n : nat.
Variable mul psolve : list R -> list R.
Variable rotg : R -> R -> R * R.
Hypothesis Hmul : linear n mul.
Hypothesis Hps : linear n psolve.
Hypothesis Hrot : rotation rotg.
Hypothesis Hinj : forall x, length x = n -> (forall p, nth p (psolve (mul x)) 0 = 0) -> forall p, nth p x 0 = 0.
Variable m max_iter : nat.
Variable tol normb : R.
Hypothesis Htol : 0 < tol.
Hypothesis Hnb : 0 < normb.
Variable b : list R.
Hypothesis Lb : length b = n.

Definition residual (x : list R) : list R := psolve (vsub b (mul x)).
Lemma residual_len : forall x, length x = n -> length (residual x) = n.
Proof. intros x L. apply (proj1 Hps). rewrite len_vsub. exact Lb. Qed.

Lemma start_strong : forall r w, length r = n -> vnorm r <> 0 ->
  strong n mul psolve r 0 (mkW (w_h w) (w_cs w) (w_sn w) (set1 (fun _ => 0) 0 (vnorm r))
     (set1 (w_v w) 0 (if Reqb0 (vnorm r) then None else Some (vscale r (1 / vnorm r))))).
Proof.
  intros r w Lr Hr. set (w0 := mkW _ _ _ _ _).
  assert (V0 : w_v w0 0 = Some (vscale r (1 / vnorm r))) by (cbn [w_v w0]; rewrite set1_eq, Reqb0_false by exact Hr; reflexivity).
  assert (C0 : forall p, nth p (vec n w0 0) 0 = nth p r 0 * (1 / vnorm r)) by (intros p; unfold vec; rewrite V0; apply nth_vscale).
  constructor; [constructor|..]; try (intros; lia).
  - intros p. cbn [Sum tvec]. cbn [w_s w0]. rewrite set1_eq. rewrite C0. field. exact Hr.
  - intros l Hl. cbn [w_s w0]. rewrite set1_ne by lia. reflexivity.
  - intros k Hk. replace k with 0%nat by lia. eexists. split; [exact V0|]. rewrite len_vscale. exact Lr.
  - intros a c Ha Hc. replace a with 0%nat by lia. replace c with 0%nat by lia. cbn.
    rewrite (fdot_ext n _ _ (fun p => nth p r 0 * (1 / vnorm r)) (fun p => nth p r 0 * (1 / vnorm r))) by exact C0.
    unfold fdot. rewrite (Sum_ext _ (fun p => (1 / vnorm r * (1 / vnorm r)) * (nth p r 0 * nth p r 0))) by (intros; ring). rewrite Sum_scal.
    fold (fdot n (C r) (C r)). rewrite <- (vdot_fdot r r n) by exact Lr. rewrite <- vnorm_sq. field. exact Hr.
Qed.
(* what the inner loop may return *)
Definition good_end (x : list R) (sq : R) (o : inner_end) (j0 f i : nat) : Prop :=
  match o with
  | Undefined => False
  | Converged x' j resid => length x' = n /\ vnorm (residual x') = resid * normb /\ resid < tol /\ (resid * normb) * (resid * normb) <= sq /\ (j <= max_iter)%nat
  | Exhausted w' j => exists i', strong n mul psolve (residual x) i' w' /\ Sum (fun l => w_s w' l * w_s w' l) (S i') = sq /\
      (i <= i')%nat /\ (j - j0 = i' - i)%nat /\ (j0 <= j)%nat /\ (i' <= i + f)%nat /\ ((j0 <= S max_iter)%nat -> (j <= S max_iter)%nat) /\ ((i' = i + f)%nat \/ (max_iter < j)%nat)
  end.
Lemma last_le_sum : forall (f : nat -> R) k, f k * f k <= Sum (fun l => f l * f l) (S k).
Proof. intros f k. cbn [Sum]. pose proof (Sum_nonneg (fun l => f l * f l) k ltac:(intros; nra)). lra. Qed.
Lemma inner_ok : forall f i j x w sq, length x = n -> strong n mul psolve (residual x) i w -> Sum (fun l => w_s w l * w_s w l) (S i) = sq ->
  good_end x sq (inner mul psolve rotg max_iter tol normb f i j x w) j f i.
Proof.
  induction f as [|f IH]; intros i j x w sq Lx St Sq; cbn [inner].
  - cbn. exists i. split; [exact St|]. split; [exact Sq|]. lia.
  - destruct (Nat.leb_spec j max_iter) as [Hj|Hj].
    + destruct (arnoldi_ok n mul psolve rotg Hmul Hps Hrot Hinj (residual x) i w St) as (w' & E & Wk & Ok & Ssq & _). rewrite E. rewrite Sq in Ssq.
      destruct (update_ok n mul psolve Hmul Hps (residual x) (S i) w' x b Wk Lx Lb eq_refl) as (x' & Eu & L' & Rs & _).
      cbv zeta. destruct (Rltb (Rabs (w_s w' (S i)) / normb) tol) eqn:Et.
      * rewrite Eu. cbn. apply Rltb_spec in Et.
        assert (Nr : vnorm (residual x') = Rabs (w_s w' (S i))).
        { apply (vnorm_of _ n _ (tvec n w' (S i))); [apply residual_len; exact L'| |exact Rs]. destruct Ok as [Ok|Ok]; [left; apply (tvec_unit n mul psolve (residual x) (S i) w' Ok)|right; exact Ok]. }
        split; [exact L'|]. split; [rewrite Nr; field; lra|]. split; [exact Et|]. split; [|exact Hj].
        replace (Rabs (w_s w' (S i)) / normb * normb) with (Rabs (w_s w' (S i))) by (field; lra). rewrite <- Rabs_mult. rewrite Rabs_pos_eq by nra. rewrite <- Ssq. apply last_le_sum.
      * assert (Ok' : strong n mul psolve (residual x) (S i) w').
        { destruct Ok as [Ok|Ok]; [exact Ok|]. exfalso. rewrite Ok, Rabs_R0 in Et. assert (T : Rltb (0 / normb) tol = true) by (apply Rltb_spec; unfold Rdiv; rewrite Rmult_0_l; exact Htol). congruence. }
        specialize (IH (S i) (S j) x w' sq Lx Ok' Ssq). destruct (inner mul psolve rotg max_iter tol normb f (S i) (S j) x w') as [x2 j2 resid2|w2 j2|]; cbn in IH |- *; [exact IH| |exact IH].
        destruct IH as (i' & A1 & A2 & A3 & A4 & A5 & A6 & A7 & A8). exists i'. split; [exact A1|]. split; [exact A2|]. lia.
    + cbn. exists i. split; [exact St|]. split; [exact Sq|]. lia.
Qed.

(* the residual of what the outer loop returns *)
Lemma outer_ok : forall f j x r w resid, length x = n -> r = residual x -> vnorm r <> 0 -> resid = vnorm r / normb ->
  match outer mul psolve rotg m max_iter tol normb f j x b r w resid with
  | Return code x' it tol' => length x' = n /\ vnorm (residual x') = tol' * normb /\ ((code = 0%nat /\ tol' < tol) \/ code = 1%nat) /\
      ((exists c, (S max_iter = j + c * m)%nat) -> vnorm (residual x') <= vnorm r)
  | NotANumber => ~ exists c, (S max_iter = j + c * m)%nat
  | Loops => (m = 0)%nat \/ (j + f <= max_iter)%nat
  end.
Proof.
  induction f as [|f IH]; intros j x r w resid Lx Er Hr Hres; cbn [outer]; destruct (Nat.leb_spec j max_iter) as [Hj|Hj].
  - right. lia.
  - split; [exact Lx|]. split; [rewrite Hres, <- Er; field; lra|]. split; [right; reflexivity|]. intros _. rewrite <- Er. apply Rle_refl.
  - cbv zeta. pose proof (start_strong r w ltac:(rewrite Er; apply residual_len; exact Lx) Hr) as St0. set (w0 := mkW _ _ _ _ _) in *.
    assert (Sq0 : Sum (fun l => w_s w0 l * w_s w0 l) 1 = vnorm r * vnorm r) by (cbn [Sum w_s w0]; rewrite set1_eq; ring).
    assert (St1 : strong n mul psolve (residual x) 0 w0) by (rewrite <- Er; exact St0).
    pose proof (inner_ok m 0 j x w0 _ Lx St1 Sq0) as G. pose proof (vnorm_nonneg r) as Nr0.
    destruct (inner mul psolve rotg max_iter tol normb m 0 j x w0) as [x2 j2 resid2|w2 j2|]; cbn in G; [| |contradiction].
    + destruct G as (G1 & G2 & G3 & G4 & _). split; [exact G1|]. split; [exact G2|]. split; [left; auto|]. intros _. rewrite G2. apply Rsqr_incr_0_var; [unfold Rsqr; exact G4|exact Nr0].
    + destruct G as (i' & St & Sq & _ & G4 & G5 & G6 & G7 & G8). specialize (G7 ltac:(lia)).
      assert (Ok : (exists c, (S max_iter = j + c * m)%nat) -> i' = m).
      { intros (c & Hc). destruct G8 as [-> | G8]; [reflexivity|]. destruct c as [|[|c]]; [lia|lia|]. exfalso. cbn in Hc. nia. }
      destruct (update x m w2) as [x2|] eqn:Eu.
      2: { intros Hc. rewrite (Ok Hc) in St. destruct (update_ok n mul psolve Hmul Hps (residual x) m w2 x b (is_weak _ _ _ _ _ _ St) Lx Lb eq_refl) as (x' & Eu' & _). congruence. }
      assert (L2 : length x2 = n).
      { unfold update in Eu. destruct (backsolve (w_h w2) m (w_s w2)) as [y|]; [|discriminate].
        assert (G : forall l x0, accumulate (w_v w2) y l x0 = Some x2 -> length x0 = n -> length x2 = n).
        { induction l as [|q l IHl]; intros x0 E L; cbn [accumulate] in E; [injection E as <-; exact L|]. destruct (w_v w2 q); [|discriminate]. apply (IHl _ E). rewrite len_vadd. exact L. }
        exact (G _ _ Eu Lx). }
      assert (Le : (exists c, (S max_iter = j + c * m)%nat) -> vnorm (residual x2) <= vnorm r).
      { intros Hc. rewrite (Ok Hc) in St, Sq. destruct (update_ok n mul psolve Hmul Hps (residual x) m w2 x b (is_weak _ _ _ _ _ _ St) Lx Lb eq_refl) as (x' & Eu' & _ & Rs & _).
        assert (x' = x2) by congruence. subst x'.
        rewrite (vnorm_of (residual x2) n (w_s w2 m) (tvec n w2 m)) by (try (apply residual_len; exact L2); try exact Rs; left; exact (tvec_unit _ _ _ _ _ _ St)).
        apply Rsqr_incr_0_var; [|exact Nr0]. rewrite <- Rsqr_abs. unfold Rsqr. rewrite <- Sq. apply last_le_sum. }
      fold (residual x2). destruct (Rltb (vnorm (residual x2) / normb) tol) eqn:Et.
      * apply Rltb_spec in Et. split; [exact L2|]. split; [field; lra|]. split; [left; auto|exact Le].
      * assert (Nz : vnorm (residual x2) <> 0).
        { intros Z. rewrite Z in Et. assert (T : Rltb (0 / normb) tol = true) by (apply Rltb_spec; unfold Rdiv; rewrite Rmult_0_l; exact Htol). congruence. }
        specialize (IH j2 x2 (residual x2) w2 _ L2 eq_refl Nz eq_refl).
        assert (Next : (exists c, (S max_iter = j + c * m)%nat) -> exists c, (S max_iter = j2 + c * m)%nat).
        { intros Hc. pose proof (Ok Hc) as Em. destruct Hc as (c & Hc). destruct c as [|c]; [lia|]. exists c. rewrite Nat.mul_succ_l in Hc. lia. }
        destruct (outer mul psolve rotg m max_iter tol normb f j2 x2 b (residual x2) w2 (vnorm (residual x2) / normb)) as [code x' it tol'| |].
        -- destruct IH as (I1 & I2 & I3 & I4). split; [exact I1|]. split; [exact I2|]. split; [exact I3|]. intros Hc. eapply Rle_trans; [apply I4, Next, Hc|apply Le, Hc].
        -- intros Hc. apply IH. apply Next. exact Hc.
        -- destruct IH as [IH|IH]; [left; exact IH|]. destruct (Nat.eq_dec m 0) as [Hm|Hm]; [left; exact Hm|]. right. lia.
  - split; [exact Lx|]. split; [rewrite Hres, <- Er; field; lra|]. split; [right; reflexivity|]. intros _. rewrite <- Er. apply Rle_refl.
Qed.
Lemma gmres_ok : forall x, length x = n ->
  match gmres mul psolve rotg m max_iter tol normb x b with
  | Return code x' it tol' => length x' = n /\ vnorm (residual x') = tol' * normb /\ ((code = 0%nat /\ tol' <= tol) \/ code = 1%nat) /\
      ((exists c, (max_iter = c * m)%nat) -> vnorm (residual x') <= vnorm (residual x))
  | NotANumber => ~ exists c, (max_iter = c * m)%nat
  | Loops => (m = 0)%nat
  end.
Proof.
  intros x Lx. unfold gmres. cbv zeta. fold (residual x). destruct (Rleb (vnorm (residual x) / normb) tol) eqn:E.
  - apply Rleb_spec in E. split; [exact Lx|]. split; [field; lra|]. split; [left; auto|]. intros _. apply Rle_refl.
  - assert (Nz : vnorm (residual x) <> 0).
    { intros Z. rewrite Z in E. assert (T : Rleb (0 / normb) tol = true) by (apply Rleb_spec; unfold Rdiv; rewrite Rmult_0_l; lra). congruence. }
    pose proof (outer_ok (S max_iter) 1 x (residual x) (mkW (fun _ _ => 0) (fun _ => 0) (fun _ => 0) (fun _ => 0) (fun _ => None)) _ Lx eq_refl Nz eq_refl) as G.
    destruct (outer mul psolve rotg m max_iter tol normb (S max_iter) 1 x b (residual x) _ _) as [code x' it tol'| |].
    + destruct G as (G1 & G2 & G3 & G4). split; [exact G1|]. split; [exact G2|]. split; [destruct G3 as [(? & ?)|?]; [left; split; [assumption|lra]|right; assumption]|].
      intros (c & Hc). apply G4. exists c. lia.
    + intros (c & Hc). apply G. exists c. lia.
    + destruct G as [G|G]; [exact G|lia].
Qed.
End Loop.
