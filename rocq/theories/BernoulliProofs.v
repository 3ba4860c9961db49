(* Facts about x / (exp x - 1). *)
From Coq Require Import Reals Lra.
From Verif Require Import BernoulliSpec.
Open Scope R_scope.

Lemma exp_above : forall x, x <> 0 -> 1 + x < exp x.
Proof. exact exp_ineq1. Qed.
Lemma exp_not_one : forall x, x <> 0 -> exp x - 1 <> 0.
Proof. intros x H E. apply H. apply exp_inv. rewrite exp_0. lra. Qed.
Lemma not_fix : forall x, x <> 0 -> x <> exp x - 1.
Proof. intros x H E. pose proof (exp_above x H). lra. Qed.
Lemma Bern_0 : Bern 0 = 1.
Proof. unfold Bern. destruct (Req_EM_T 0 0); [reflexivity|lra]. Qed.
Lemma Bern_other : forall x, x <> 0 -> Bern x = x / (exp x - 1).
Proof. intros x H. unfold Bern. destruct (Req_EM_T x 0); [contradiction|reflexivity]. Qed.
Lemma Bern_pos : forall x, 0 < Bern x.
Proof.
  intros x. unfold Bern. destruct (Req_EM_T x 0) as [E|E]; [lra|].
  destruct (Rlt_dec 0 x) as [P|P].
  - assert (1 < exp x) by (rewrite <- exp_0; apply exp_increasing; exact P). apply Rdiv_lt_0_compat; lra.
  - assert (exp x < 1) by (rewrite <- exp_0; apply exp_increasing; lra). replace (x / (exp x - 1)) with (- x / (1 - exp x)) by (field; lra).
    apply Rdiv_lt_0_compat; lra.
Qed.
Lemma Bern_opp : forall x, Bern (- x) = Bern x + x.
Proof.
  intros x. destruct (Req_EM_T x 0) as [->|E]; [rewrite Ropp_0, Bern_0; ring|].
  rewrite !Bern_other by lra. rewrite exp_Ropp. pose proof (exp_not_one x E). pose proof (exp_pos x). field.
  repeat split; lra.
Qed.

(* from the bound of the derivative to a bound of the function *)
Lemma integrate_bound : forall f f' C n h, f 0 = 0 -> 0 <= C -> Rabs h <= 1 ->
  (forall t, derivable_pt_lim f t (f' t)) -> (forall t, Rabs t <= Rabs h -> Rabs (f' t) <= C * Rabs t ^ n) -> Rabs (f h) <= C * Rabs h ^ S n.
Proof.
  intros f f' C n h F0 HC Hh D B.
  assert (G : forall t, Rabs t <= Rabs h -> Rabs (f' t) <= C * Rabs h ^ n).
  { intros t Ht. eapply Rle_trans; [apply B; exact Ht|]. apply Rmult_le_compat_l; [exact HC|]. apply pow_incr. split; [apply Rabs_pos|exact Ht]. }
  destruct (Req_EM_T h 0) as [->|N]; [rewrite F0, Rabs_R0; cbn; lra|].
  assert (X : exists c, Rabs c <= Rabs h /\ f h = f' c * h).
  { destruct (Rlt_dec 0 h) as [P|P].
    - destruct (MVT_cor2 f f' 0 h P) as [c [E [A1 A2]]]; [intros; apply D|]. exists c. rewrite F0 in E. split; [|rewrite Rminus_0_r in E; lra].
      rewrite !Rabs_right by lra. lra.
    - destruct (MVT_cor2 f f' h 0) as [c [E [A1 A2]]]; [lra|intros; apply D|]. exists c. rewrite F0 in E. split; [|lra].
      rewrite !Rabs_left by lra. lra. }
  destruct X as [c [A E]]. rewrite E, Rabs_mult. cbn [pow]. 
  replace (C * (Rabs h * Rabs h ^ n)) with (C * Rabs h ^ n * Rabs h) by ring.
  apply Rmult_le_compat_r; [apply Rabs_pos|]. apply G. exact A.
Qed.
Lemma taylor1 : forall h, Rabs h <= 1 -> Rabs (exp h - 1) <= 3 * Rabs h ^ 1.
Proof.
  intros h H. apply (integrate_bound (fun t => exp t - 1) exp); [rewrite exp_0; ring|lra|exact H| |].
  - intros t. replace (exp t) with (exp t - 0) at 1 by ring. apply derivable_pt_lim_minus; [apply derivable_pt_lim_exp|apply derivable_pt_lim_const].
  - intros t Ht. cbn. rewrite Rabs_right by (apply Rle_ge, Rlt_le, exp_pos). rewrite Rmult_1_r.
    apply Rle_trans with (exp 1); [|apply exp_le_3]. assert (t <= 1) by (pose proof (Rle_abs t); lra).
    destruct (Rle_lt_or_eq_dec _ _ H0) as [L| EQ]; [apply Rlt_le, exp_increasing; exact L|rewrite EQ; lra].
Qed.
Lemma taylor2 : forall h, Rabs h <= 1 -> Rabs (exp h - 1 - h) <= 3 * Rabs h ^ 2.
Proof.
  intros h H. apply (integrate_bound (fun t => exp t - 1 - t) (fun t => exp t - 1)); [rewrite exp_0; ring|lra|exact H| |].
  - intros t. apply (derivable_pt_lim_minus (fun t => exp t - 1) id t (exp t) 1); [|apply derivable_pt_lim_id].
    replace (exp t) with (exp t - 0) at 1 by ring. apply derivable_pt_lim_minus; [apply derivable_pt_lim_exp|apply derivable_pt_lim_const].
  - intros t Ht. apply taylor1. lra.
Qed.
Lemma taylor3 : forall h, Rabs h <= 1 -> Rabs (exp h - 1 - h - h * h / 2) <= 3 * Rabs h ^ 3.
Proof.
  intros h H. apply (integrate_bound (fun t => exp t - 1 - t - t * t / 2) (fun t => exp t - 1 - t)); [rewrite exp_0; field|lra|exact H| |].
  - intros t. apply (derivable_pt_lim_minus (fun t => exp t - 1 - t) (fun t => t * t / 2) t (exp t - 1) t).
    + apply (derivable_pt_lim_minus (fun t => exp t - 1) id t (exp t) 1); [|apply derivable_pt_lim_id].
      replace (exp t) with (exp t - 0) at 1 by ring. apply derivable_pt_lim_minus; [apply derivable_pt_lim_exp|apply derivable_pt_lim_const].
    + assert (Q : derivable_pt_lim (mult_real_fct (/ 2) (fun x => x * x)) t (/ 2 * (1 * t + t * 1))).
      { apply derivable_pt_lim_scal. apply (derivable_pt_lim_mult id id t 1 1); apply derivable_pt_lim_id. }
      replace t with (/ 2 * (1 * t + t * 1)) at 2 by field. 
      intros e He. destruct (Q e He) as [d Hd]. exists d. intros k Hk Hk'. specialize (Hd k Hk Hk'). unfold mult_real_fct in Hd.
      replace ((t + k) * (t + k) / 2 - t * t / 2) with (/ 2 * ((t + k) * (t + k)) - / 2 * (t * t)) by field. exact Hd.
  - intros t Ht. apply taylor2. lra.
Qed.
Lemma em1_lower : forall h, Rabs h <= 1 / 6 -> Rabs h / 2 <= Rabs (exp h - 1).
Proof.
  intros h H. assert (A : Rabs h <= 1) by lra. pose proof (taylor2 h A) as T. cbn in T.
  pose proof (Rabs_pos h). pose proof (Rabs_triang_inv h (h - (exp h - 1))) as V.
  replace (h - (h - (exp h - 1))) with (exp h - 1) in V by ring.
  replace (h - (exp h - 1)) with (- (exp h - 1 - h)) in V by ring. rewrite Rabs_Ropp in V. nra.
Qed.
Lemma numerator : forall h, Rabs h <= 1 -> Rabs (2 * h - 2 * (exp h - 1) + h * (exp h - 1)) <= 10 * Rabs h ^ 3.
Proof.
  intros h H. pose proof (taylor3 h H) as T. set (r := exp h - 1 - h - h * h / 2) in *.
  replace (2 * h - 2 * (exp h - 1) + h * (exp h - 1)) with (h ^ 3 / 2 + (h - 2) * r) by (unfold r; field).
  eapply Rle_trans; [apply Rabs_triang|]. rewrite Rabs_mult. unfold Rdiv at 1. rewrite Rabs_mult, <- RPow_abs, (Rabs_right (/ 2)) by lra.
  assert (Rabs (h - 2) <= 3). { eapply Rle_trans; [apply Rabs_triang|]. rewrite Rabs_Ropp, (Rabs_right 2) by lra. lra. }
  pose proof (pow_le (Rabs h) 3 (Rabs_pos h)). pose proof (Rabs_pos r). pose proof (Rabs_pos (h - 2)). nra.
Qed.
(* the derivative at 0 *)
Lemma Bern_der_0 : derivable_pt_lim Bern 0 (- (1 / 2)).
Proof.
  intros e He. assert (Hd : 0 < Rmin (1 / 6) (e / 20)) by (apply Rmin_glb_lt; lra). exists (mkposreal _ Hd). cbn. intros h Hh Hl.
  assert (A : Rabs h < 1 / 6) by (eapply Rlt_le_trans; [exact Hl|apply Rmin_l]).
  assert (B : Rabs h < e / 20) by (eapply Rlt_le_trans; [exact Hl|apply Rmin_r]).
  rewrite Rplus_0_l, Bern_0, (Bern_other h Hh).
  assert (P : 0 < Rabs h) by (apply Rabs_pos_lt; exact Hh).
  pose proof (em1_lower h ltac:(lra)) as L. pose proof (numerator h ltac:(lra)) as N.
  set (E := exp h - 1) in *. assert (NE : E <> 0) by (apply exp_not_one; exact Hh).
  replace ((h / E - 1) / h - - (1 / 2)) with ((2 * h - 2 * E + h * E) * / (2 * h * E)) by (field; auto).
  rewrite Rabs_mult, Rabs_inv, !Rabs_mult, (Rabs_right 2) by lra.
  apply Rle_lt_trans with (10 * Rabs h); [|lra].
  apply Rmult_le_reg_r with (2 * Rabs h * Rabs E); [apply Rmult_lt_0_compat; lra|].
  rewrite Rmult_assoc, Rinv_l, Rmult_1_r by (apply Rgt_not_eq, Rmult_lt_0_compat; lra).
  eapply Rle_trans; [exact N|]. cbn [pow]. rewrite Rmult_1_r. nra.
Qed.
Lemma Bern_der : forall x, x <> 0 -> derivable_pt_lim Bern x ((exp x - 1 - x * exp x) / ((exp x - 1) * (exp x - 1))).
Proof.
  intros x H. assert (NE : exp x - 1 <> 0) by (apply exp_not_one; exact H).
  assert (Q : derivable_pt_lim (fun t => t / (exp t - 1)) x ((1 * (exp x - 1) - (exp x - 0) * x) / Rsqr (exp x - 1))).
  { apply (derivable_pt_lim_div id (fun t => exp t - 1)); [apply derivable_pt_lim_id| |exact NE].
    apply derivable_pt_lim_minus; [apply derivable_pt_lim_exp|apply derivable_pt_lim_const]. }
  replace ((exp x - 1 - x * exp x) / ((exp x - 1) * (exp x - 1))) with ((1 * (exp x - 1) - (exp x - 0) * x) / Rsqr (exp x - 1)) by (unfold Rsqr; field; exact NE).
  assert (Px : 0 < Rabs x) by (apply Rabs_pos_lt; exact H).
  intros e He. destruct (Q e He) as [d Hd]. assert (Hm : 0 < Rmin d (Rabs x)) by (apply Rmin_glb_lt; [apply cond_pos|exact Px]).
  exists (mkposreal _ Hm). cbn. intros h Hh Hl. specialize (Hd h Hh (Rlt_le_trans _ _ _ Hl (Rmin_l _ _))).
  assert (Hx : x + h <> 0). { intros Z. assert (h = - x) by lra. subst h. rewrite Rabs_Ropp in Hl. pose proof (Rmin_r d (Rabs x)). lra. }
  rewrite (Bern_other _ Hx), (Bern_other _ H). exact Hd.
Qed.
Lemma taylor4 : forall h, Rabs h <= 1 -> Rabs (exp h - 1 - h - h * h / 2 - h * h * h / 6) <= 3 * Rabs h ^ 4.
Proof.
  intros h H. apply (integrate_bound (fun t => exp t - 1 - t - t * t / 2 - t * t * t / 6) (fun t => exp t - 1 - t - t * t / 2)); [rewrite exp_0; field|lra|exact H| |].
  - intros t. assert (C2 : derivable_pt_lim (fun x => x * x) t (2 * t)).
    { replace (2 * t) with (1 * t + t * 1) by ring. apply (derivable_pt_lim_mult id id t 1 1); apply derivable_pt_lim_id. }
    assert (C3 : derivable_pt_lim (fun x => x * x * x) t (3 * (t * t))).
    { replace (3 * (t * t)) with (2 * t * t + t * t * 1) by ring. apply (derivable_pt_lim_mult (fun x => x * x) id t (2 * t) 1); [exact C2|apply derivable_pt_lim_id]. }
    apply (derivable_pt_lim_minus (fun t => exp t - 1 - t - t * t / 2) (fun t => t * t * t / 6) t (exp t - 1 - t) (t * t / 2)).
    + apply (derivable_pt_lim_minus (fun t => exp t - 1 - t) (fun t => t * t / 2) t (exp t - 1) t).
      * apply (derivable_pt_lim_minus (fun t => exp t - 1) id t (exp t) 1); [|apply derivable_pt_lim_id].
        replace (exp t) with (exp t - 0) at 1 by ring. apply derivable_pt_lim_minus; [apply derivable_pt_lim_exp|apply derivable_pt_lim_const].
      * pose proof (derivable_pt_lim_mult _ (fct_cte (/ 2)) _ _ _ C2 (derivable_pt_lim_const (/ 2) t)) as Q.
        unfold fct_cte in Q. cbn in Q. replace (2 * t * / 2 + t * t * 0) with t in Q by field. exact Q.
    + pose proof (derivable_pt_lim_mult _ (fct_cte (/ 6)) _ _ _ C3 (derivable_pt_lim_const (/ 6) t)) as Q.
      unfold fct_cte in Q. cbn in Q. replace (3 * (t * t) * / 6 + t * t * t * 0) with (t * t / 2) in Q by field. exact Q.
  - intros t Ht. apply taylor3. lra.
Qed.
(* the rational expressions used for small arguments *)
Lemma small_value : forall x, x <> 0 -> Rabs x <= 1 / 6 -> Rabs (1 / (1 + 1 / 2 * x) - x / (exp x - 1)) <= 7 * (x * x).
Proof.
  intros x N H. assert (HB : - (1 / 6) <= x <= 1 / 6) by (unfold Rabs in H; destruct (Rcase_abs x); lra).
  pose proof (taylor3 x ltac:(lra)) as T. pose proof (em1_lower x H) as L. assert (NE := exp_not_one x N).
  set (E := exp x - 1) in *. assert (P : 0 < Rabs x) by (apply Rabs_pos_lt; exact N).
  replace (1 / (1 + 1 / 2 * x) - x / E) with ((E - x - x * x / 2) * / (E * (1 + 1 / 2 * x))) by (field; split; lra).
  rewrite Rabs_mult, Rabs_inv, Rabs_mult, (Rabs_right (1 + 1 / 2 * x)) by lra.
  assert (PD : 0 < Rabs E * (1 + 1 / 2 * x)) by (apply Rmult_lt_0_compat; lra).
  apply Rmult_le_reg_r with (Rabs E * (1 + 1 / 2 * x)); [exact PD|]. rewrite Rmult_assoc, Rinv_l, Rmult_1_r by lra.
  eapply Rle_trans; [exact T|]. assert (X2 : x * x = Rabs x * Rabs x) by (rewrite <- Rabs_mult; symmetry; apply Rabs_right; nra). rewrite X2. cbn [pow]. rewrite Rmult_1_r.
  apply Rle_trans with (7 * (Rabs x * Rabs x) * (Rabs x / 2 * (11 / 12))); [nra|].
  apply Rmult_le_compat_l; [nra|]. apply Rmult_le_compat; lra.
Qed.
Lemma small_der : forall x, x <> 0 -> Rabs x <= 1 / 6 ->
  Rabs ((- (1 / 2) - x / 3) / (1 + x) - (exp x - 1 - x * exp x) / ((exp x - 1) * (exp x - 1))) <= 30 * (x * x).
Proof.
  intros x N H. assert (HB : - (1 / 6) <= x <= 1 / 6) by (unfold Rabs in H; destruct (Rcase_abs x); lra).
  pose proof (taylor4 x ltac:(lra)) as T. pose proof (em1_lower x H) as L. assert (NE := exp_not_one x N).
  replace (exp x - 1 - x * exp x) with ((exp x - 1) - x - x * (exp x - 1)) by ring.
  set (E := exp x - 1) in *. assert (P : 0 < Rabs x) by (apply Rabs_pos_lt; exact N).
  assert (X2 : x * x = Rabs x * Rabs x) by (rewrite <- Rabs_mult; symmetry; apply Rabs_right; nra).
  assert (PX : 0 < x * x) by (rewrite X2; apply Rmult_lt_0_compat; exact P).
  set (r := (E - x - x * x / 2 - x * x * x / 6) / (x * x * (x * x))).
  assert (R3 : - 3 <= r <= 3).
  { assert (Rabs r <= 3); [|unfold Rabs in *; destruct (Rcase_abs r); lra]. unfold r, Rdiv. rewrite Rabs_mult, Rabs_inv, (Rabs_right (x * x * (x * x))) by nra.
    apply Rmult_le_reg_r with (x * x * (x * x)); [nra|]. rewrite Rmult_assoc, Rinv_l, Rmult_1_r by nra. eapply Rle_trans; [exact T|]. cbn [pow]. rewrite !X2. nra. }
  assert (EX : E = x + x * x / 2 + x * x * x / 6 + r * (x * x * (x * x))) by (unfold r; field; exact N).
  set (a := - (1 / 6) + r - r * x). set (b := 1 / 6 + r * x).
  set (Q := (1 + x) * a + (1 / 2 + x / 3) * (1 / 4 + 2 * b * (1 + x / 2) + x * x * (b * b))).
  assert (K : (E - x - x * E) * (1 + x) + (1 / 2 + x / 3) * (E * E) = x * x * (x * x) * Q) by (unfold Q, a, b; rewrite EX; field).
  assert (HQ : - 6 <= Q <= 6).
  { assert (A : - 4 <= a <= 4) by (unfold a; nra). assert (B : - (2 / 3) <= b <= 2 / 3) by (unfold b; nra).
    assert (BB : 0 <= b * b <= 4 / 9) by nra. assert (XB : 0 <= x * x * (b * b) <= 1 / 36 * (4 / 9)) by (split; [nra|apply Rmult_le_compat; nra]).
    assert (BX : - (13 / 9) <= 2 * b * (1 + x / 2) <= 13 / 9) by nra.
    assert (AX : - (14 / 3) <= (1 + x) * a <= 14 / 3) by nra. unfold Q.
    set (w := 1 / 4 + 2 * b * (1 + x / 2) + x * x * (b * b)) in *. assert (W : - (9 / 5) <= w <= 9 / 5) by (unfold w; lra).
    assert (- 1 <= (1 / 2 + x / 3) * w <= 1) by nra. lra. }
  replace ((- (1 / 2) - x / 3) / (1 + x) - (E - x - x * E) / (E * E)) with (- ((E - x - x * E) * (1 + x) + (1 / 2 + x / 3) * (E * E)) * / ((1 + x) * (E * E))) by (field; split; lra).
  rewrite K, Rabs_mult, Rabs_Ropp, Rabs_mult, Rabs_inv. 
  assert (E2 : x * x / 4 <= E * E). { replace (E * E) with (Rabs E * Rabs E) by (rewrite <- Rabs_mult; apply Rabs_right; nra). rewrite X2. nra. }
  assert (D : 0 < (1 + x) * (E * E)) by (apply Rmult_lt_0_compat; lra). rewrite (Rabs_right ((1 + x) * _)) by lra. rewrite (Rabs_right (x * x * (x * x))) by nra.
  apply Rmult_le_reg_r with ((1 + x) * (E * E)); [exact D|]. rewrite Rmult_assoc, Rinv_l, Rmult_1_r by lra.
  assert (AQ : Rabs Q <= 6) by (apply Rabs_le; lra).
  apply Rle_trans with (x * x * (x * x) * 6); [apply Rmult_le_compat_l; [nra|exact AQ]|].
  apply Rle_trans with (30 * (x * x) * (5 / 6 * (x * x / 4))); [nra|]. apply Rmult_le_compat_l; [nra|]. apply Rmult_le_compat; lra.
Qed.
