(* C40: B(x) and dBdx. Over the reals, with expm1 x = exp x - 1; C40_small also covers an expm1 that rounds to its argument. *)
From Coq Require Import Reals Lra.
From Verif Require Import Bernoulli BernoulliSpec BernoulliProofs.
Open Scope R_scope.

(* exact exp(x) - 1 *)
Definition em1 (x : R) : R := exp x - 1.

Lemma Bern_neg_der : forall x, x <> 0 -> (exp x - 1 - x * exp x) / ((exp x - 1) * (exp x - 1)) < 0.
Proof.
  intros x H. assert (NE := exp_not_one x H).
  assert (A : 1 + - x < exp (- x)) by (apply exp_above; lra). pose proof (exp_pos x) as P.
  assert (Q : exp x * exp (- x) = 1) by (rewrite <- exp_plus, Rplus_opp_r; apply exp_0).
  assert (N : exp x - 1 - x * exp x < 0) by nra.
  unfold Rdiv. assert (0 < / ((exp x - 1) * (exp x - 1))) by (apply Rinv_0_lt_compat; apply Rsqr_pos_lt; exact NE). nra.
Qed.
Lemma t_exp : forall t, 0 <= t -> t * exp (- t) <= 1 / 2.
Proof.
  intros t H. assert (A : 1 + t / 2 <= exp (t / 2)).
  { destruct (Req_EM_T (t / 2) 0) as [E|E]; [rewrite E, exp_0; lra|]. apply Rlt_le, exp_above; exact E. }
  assert (B : (1 + t / 2) * (1 + t / 2) <= exp t) by (assert (X : exp t = exp (t / 2) * exp (t / 2)) by (rewrite <- exp_plus; f_equal; field); rewrite X; apply Rmult_le_compat; lra).
  pose proof (exp_pos (- t)) as P. assert (Q : exp t * exp (- t) = 1) by (rewrite <- exp_plus, Rplus_opp_r; apply exp_0).
  assert (C : 2 * t <= exp t) by (pose proof (Rle_0_sqr (t / 2 - 1)) as Z; unfold Rsqr in Z; lra).
  apply (Rmult_le_compat_r (exp (- t))) in C; [|lra]. lra.
Qed.

Section T.
Variable eps : R.
Hypothesis Heps : 0 < eps <= 1 / 64.

Lemma pleps_two : 2 < pleps eps.
Proof.
  unfold pleps. assert (L : ln eps < - 2); [|rewrite Rabs_left; lra].
  apply exp_lt_inv. rewrite exp_ln by lra.
  pose proof exp_le_3. pose proof (exp_pos 1). assert (A : exp 2 <= 9) by (replace 2 with (1 + 1) by ring; rewrite exp_plus; nra).
  pose proof (exp_pos (- 2)). assert (Q : exp 2 * exp (- 2) = 1) by (rewrite <- exp_plus, Rplus_opp_r; apply exp_0). nra.
Qed.
Lemma exp_eps : forall t, pleps eps <= t -> exp (- t) <= eps.
Proof.
  intros t H. pose proof pleps_two. unfold pleps in *. assert (L : ln eps < 0).
  { rewrite <- ln_1. apply ln_increasing; lra. }
  rewrite Rabs_left in * by exact L. rewrite <- (exp_ln eps) at 1 by lra.
  assert (- t <= ln eps) as [G|G] by lra; [left; apply exp_increasing; exact G|right; rewrite G; reflexivity].
Qed.

(* The value, for arguments below the threshold. *)
Theorem C40_value : forall x, Rabs x < pleps eps -> bernoulli eps em1 x = Bern x.
Proof.
  intros x H. unfold bernoulli, Bern. destruct (Req_EM_T x 0) as [E|E]; [reflexivity|].
  unfold bernoulli_impl. destruct (Rlt_dec (Rabs x) (pleps eps)); [|contradiction]. cbn zeta. unfold em1.
  destruct (Req_EM_T x (exp x - 1)) as [X|X]; [exfalso; exact (not_fix x E X)|reflexivity].
Qed.
(* Beyond the threshold the value differs by at most eps, relatively. *)
Lemma Bern_large_pos : forall x, 2 < x -> x * exp (- x) = Bern x * (1 - exp (- x)).
Proof.
  intros x H. rewrite Bern_other by lra. assert (N : exp x - 1 <> 0) by (apply exp_not_one; lra). rewrite exp_Ropp. pose proof (exp_pos x). field. split; lra.
Qed.
Lemma Bern_large_neg : forall x, x < - 2 -> - x = Bern x * (1 - exp x).
Proof. intros x H. rewrite Bern_other by lra. assert (N : exp x - 1 <> 0) by (apply exp_not_one; lra). field. exact N. Qed.
Lemma outside : forall x, pleps eps <= Rabs x ->
  (2 < x /\ exp (- x) <= eps /\ bernoulli eps em1 x = x * exp (- x) /\ der_bernoulli eps em1 x = exp (- x) * (1 - x)) \/
  (x < - 2 /\ exp x <= eps /\ bernoulli eps em1 x = - x /\ der_bernoulli eps em1 x = - 1 - x * exp x).
Proof.
  intros x H. pose proof pleps_two as P. unfold bernoulli, bernoulli_impl, der_bernoulli, der_bernoulli_impl.
  destruct (Req_EM_T x 0) as [E|E]; [exfalso; rewrite E, Rabs_R0 in H; lra|].
  destruct (Rlt_dec (Rabs x) (pleps eps)) as [L|L]; [lra|].
  destruct (Rlt_dec 0 x) as [G|G].
  - left. rewrite Rabs_right in H by lra. split; [lra|]. split; [apply exp_eps; exact H|]. split; reflexivity.
  - right. rewrite Rabs_left in H by lra. split; [lra|]. split; [replace x with (- - x) by ring; apply exp_eps; exact H|]. split; reflexivity.
Qed.
Theorem C40_large : forall x, pleps eps <= Rabs x -> Rabs (bernoulli eps em1 x - Bern x) <= eps * Bern x.
Proof.
  intros x H. pose proof (Bern_pos x) as BP. destruct (outside x H) as [[A [B [-> _]]]|[A [B [-> _]]]].
  - rewrite (Bern_large_pos x A). replace (Bern x * (1 - exp (- x)) - Bern x) with (- (Bern x * exp (- x))) by ring.
    rewrite Rabs_Ropp, Rabs_right; [nra|]. apply Rle_ge, Rmult_le_pos; [lra|left; apply exp_pos].
  - rewrite (Bern_large_neg x A). replace (Bern x * (1 - exp x) - Bern x) with (- (Bern x * exp x)) by ring.
    rewrite Rabs_Ropp, Rabs_right; [nra|]. apply Rle_ge, Rmult_le_pos; [lra|left; apply exp_pos].
Qed.
Theorem C40_positive : forall x, 0 < bernoulli eps em1 x.
Proof.
  intros x. destruct (Rlt_dec (Rabs x) (pleps eps)) as [L|L]; [rewrite C40_value by exact L; apply Bern_pos|].
  destruct (outside x ltac:(lra)) as [[A [_ [-> _]]]|[A [_ [-> _]]]]; [|lra]. apply Rmult_lt_0_compat; [lra|apply exp_pos].
Qed.
(* B(-x) = B(x) + x: exactly below the threshold, up to eps*|x| (1+eps) beyond. *)
Theorem C40_symmetry : forall x, Rabs x < pleps eps -> bernoulli eps em1 (- x) = bernoulli eps em1 x + x.
Proof. intros x H. rewrite !C40_value by (rewrite ?Rabs_Ropp; exact H). apply Bern_opp. Qed.
Theorem C40_symmetry_large : forall x, pleps eps <= Rabs x ->
  Rabs (bernoulli eps em1 (- x) - (bernoulli eps em1 x + x)) <= eps * Rabs x.
Proof.
  intros x H. pose proof H as H'. rewrite <- Rabs_Ropp in H'.
  destruct (outside x H) as [[A [B [-> _]]]|[A [B [-> _]]]]; destruct (outside (- x) H') as [[A' [B' [-> _]]]|[A' [B' [-> _]]]]; try (exfalso; lra).
  - replace (- - x - (x * exp (- x) + x)) with (- (x * exp (- x))) by ring. rewrite Rabs_Ropp, Rabs_mult, (Rabs_right (exp (- x))) by (left; apply exp_pos).
    rewrite Rmult_comm. apply Rmult_le_compat_r; [apply Rabs_pos|exact B].
  - replace (- x * exp (- - x) - (- x + x)) with (- (x * exp x)) by (rewrite Ropp_involutive; ring).
    rewrite Rabs_Ropp, Rabs_mult, (Rabs_right (exp x)) by (left; apply exp_pos). rewrite Rmult_comm. apply Rmult_le_compat_r; [apply Rabs_pos|exact B].
Qed.
Theorem C40_symmetry_refuted : forall x, pleps eps <= Rabs x -> bernoulli eps em1 (- x) <> bernoulli eps em1 x + x.
Proof.
  intros x H. pose proof H as H'. rewrite <- Rabs_Ropp in H'.
  destruct (outside x H) as [[A [B [-> _]]]|[A [B [-> _]]]]; destruct (outside (- x) H') as [[A' [B' [-> _]]]|[A' [B' [-> _]]]]; try (exfalso; lra).
  - intros E. pose proof (Rmult_lt_0_compat x (exp (- x)) ltac:(lra) (exp_pos _)). lra.
  - intros E. pose proof (Rmult_lt_0_compat (- x) (exp (- - x)) ltac:(lra) (exp_pos _)). lra.
Qed.

(* dBdx below the threshold: the derivative of B itself. *)
Lemma local_eq : forall f g x l d, 0 < d -> (forall y, Rabs (y - x) < d -> f y = g y) -> derivable_pt_lim g x l -> derivable_pt_lim f x l.
Proof.
  intros f g x l d Hd E D e He. destruct (D e He) as [d' D']. assert (P : 0 < Rmin d d') by (apply Rmin_glb_lt; [exact Hd|apply cond_pos]).
  exists (mkposreal _ P). cbn. intros h Hh Hl. rewrite (E (x + h)), (E x).
  - apply D'; [exact Hh|]. eapply Rlt_le_trans; [exact Hl|apply Rmin_r].
  - rewrite Rminus_diag_eq, Rabs_R0 by reflexivity. exact Hd.
  - replace (x + h - x) with h by ring. eapply Rlt_le_trans; [exact Hl|apply Rmin_l].
Qed.
Lemma der_inside : forall x, Rabs x < pleps eps -> derivable_pt_lim Bern x (der_bernoulli eps em1 x).
Proof.
  intros x H. unfold der_bernoulli. destruct (Req_EM_T x 0) as [E|E]; [rewrite E; apply Bern_der_0|].
  unfold der_bernoulli_impl. destruct (Rlt_dec (Rabs x) (pleps eps)); [|contradiction]. cbn zeta. unfold em1.
  destruct (Req_EM_T x (exp x - 1)) as [X|X]; [exfalso; exact (not_fix x E X)|]. apply Bern_der. exact E.
Qed.
Theorem C40_derivative : forall x, Rabs x < pleps eps -> derivable_pt_lim (bernoulli eps em1) x (der_bernoulli eps em1 x).
Proof.
  intros x H. apply (local_eq _ Bern x _ (pleps eps - Rabs x)); [lra| |apply der_inside; exact H].
  intros y Hy. apply C40_value. pose proof (Rabs_triang (y - x) x) as T. replace (y - x + x) with y in T by ring. lra.
Qed.
(* and above the positive threshold as well *)
Theorem C40_derivative_large : forall x, pleps eps < x -> derivable_pt_lim (bernoulli eps em1) x (der_bernoulli eps em1 x).
Proof.
  intros x H. pose proof pleps_two as P2. assert (HA : pleps eps <= Rabs x) by (rewrite Rabs_right; lra).
  destruct (outside x HA) as [[A [B [_ ->]]]|[A [B [_ ->]]]]; [|exfalso; lra].
  apply (local_eq _ (fun t => t * exp (- t)) x _ (x - pleps eps)); [lra| |].
  - intros y Hy. assert (pleps eps < y) by (unfold Rabs in Hy; destruct (Rcase_abs (y - x)); lra).
    destruct (outside y ltac:(rewrite Rabs_right; lra)) as [[_ [_ [E _]]]|[Z _]]; [exact E|exfalso; lra].
  - replace (exp (- x) * (1 - x)) with (1 * exp (- x) + x * (exp (- x) * - 1)) by ring.
    apply (derivable_pt_lim_mult id (fun t => exp (- t)) x 1 (exp (- x) * - 1)); [apply derivable_pt_lim_id|].
    apply (derivable_pt_lim_comp Ropp exp x (- 1) (exp (- x))); [|apply derivable_pt_lim_exp].
    replace (- 1) with (- (1)) by ring. apply (derivable_pt_lim_opp id x 1). apply derivable_pt_lim_id.
Qed.
(* Below the negative threshold B is -x, whose derivative is -1; dBdx is another number. *)
Theorem C40_derivative_refuted : forall x, x < - pleps eps ->
  derivable_pt_lim (bernoulli eps em1) x (- 1) /\ der_bernoulli eps em1 x <> - 1 /\ ~ derivable_pt_lim (bernoulli eps em1) x (der_bernoulli eps em1 x).
Proof.
  intros x H. pose proof pleps_two as P2.
  assert (D : derivable_pt_lim (bernoulli eps em1) x (- 1)).
  { apply (local_eq _ Ropp x _ (- pleps eps - x)); [lra| |].
    - intros y Hy. assert (y < - pleps eps) by (unfold Rabs in Hy; destruct (Rcase_abs (y - x)); lra).
      destruct (outside y ltac:(rewrite Rabs_left; lra)) as [[Z _]|[_ [_ [E _]]]]; [exfalso; lra|exact E].
    - replace (- 1) with (- (1)) by ring. apply (derivable_pt_lim_opp id x 1). apply derivable_pt_lim_id. }
  assert (N : der_bernoulli eps em1 x <> - 1).
  { destruct (outside x ltac:(rewrite Rabs_left; lra)) as [[Z _]|[_ [_ [_ ->]]]]; [exfalso; lra|].
    intros E. pose proof (exp_pos x). assert (0 < - x * exp x) by (apply Rmult_lt_0_compat; lra). lra. }
  split; [exact D|]. split; [exact N|]. intros X. apply N. exact (uniqueness_limite _ _ _ _ X D).
Qed.
(* Beyond the threshold dBdx differs from the derivative of x / (exp x - 1) by at most 8 eps, relatively. *)
Theorem C40_derivative_bound : forall x, pleps eps <= Rabs x ->
  exists l, derivable_pt_lim Bern x l /\ Rabs (der_bernoulli eps em1 x - l) <= 8 * eps * Rabs l.
Proof.
  intros x H. destruct (outside x H) as [[A [B [_ ->]]]|[A [B [_ ->]]]].
  - exists ((exp x - 1 - x * exp x) / ((exp x - 1) * (exp x - 1))). split; [apply Bern_der; lra|].
    assert (NE : exp x - 1 <> 0) by (apply exp_not_one; lra). pose proof (exp_pos x) as PX. pose proof (exp_pos (- x)) as PQ.
    set (q := exp (- x)) in *. assert (XQ : exp x = / q) by (unfold q; rewrite exp_Ropp, Rinv_inv; reflexivity).
    assert (NQ : 1 - q <> 0) by lra. assert (NQ' : 0 < / ((1 - q) * (1 - q))) by (apply Rinv_0_lt_compat; nra).
    replace ((exp x - 1 - x * exp x) / ((exp x - 1) * (exp x - 1))) with (q * (1 - q - x) * / ((1 - q) * (1 - q))) by (rewrite XQ; field; split; lra).
    replace (q * (1 - x) - q * (1 - q - x) * / ((1 - q) * (1 - q))) with (q * (q * (2 * x + q - 1 - q * x)) * / ((1 - q) * (1 - q))) by (field; lra).
    rewrite (Rabs_right (_ * / _)); [|apply Rle_ge, Rmult_le_pos; [|lra]; apply Rmult_le_pos; [lra|]; apply Rmult_le_pos; [lra|nra]].
    rewrite (Rabs_left (_ * / _)); [|apply Ropp_lt_cancel; rewrite Ropp_0, Ropp_mult_distr_l; apply Rmult_lt_0_compat; [nra|exact NQ']].
    set (iv := / ((1 - q) * (1 - q))) in *. replace (8 * eps * - (q * (1 - q - x) * iv)) with (8 * eps * - (q * (1 - q - x)) * iv) by ring. apply Rmult_le_compat_r; [lra|].
    replace (8 * eps * - (q * (1 - q - x))) with (q * (8 * eps * (x + q - 1))) by ring. apply Rmult_le_compat_l; [lra|].
    apply Rle_trans with (eps * (2 * x + q - 1 - q * x)); [apply Rmult_le_compat_r; nra|].
    replace (8 * eps * (x + q - 1)) with (eps * (8 * (x + q - 1))) by ring. apply Rmult_le_compat_l; [lra|]. nra.
  - exists ((exp x - 1 - x * exp x) / ((exp x - 1) * (exp x - 1))). split; [apply Bern_der; lra|].
    assert (NE : exp x - 1 <> 0) by (apply exp_not_one; lra). pose proof (exp_pos x) as PX.
    pose proof (t_exp (- x) ltac:(lra)) as T. rewrite Ropp_involutive in T.
    set (q := exp x) in *. assert (NQ : 1 - q <> 0) by lra. assert (NQ' : 0 < / ((1 - q) * (1 - q))) by (apply Rinv_0_lt_compat; nra).
    replace ((q - 1 - x * q) / ((q - 1) * (q - 1))) with ((q - 1 - x * q) * / ((1 - q) * (1 - q))) by (field; split; lra).
    replace (- 1 - x * q - (q - 1 - x * q) * / ((1 - q) * (1 - q))) with (q * (1 - q - 2 * (- x * q) + q * (- x * q)) * / ((1 - q) * (1 - q))) by (field; lra).
    set (u := - x * q) in *. assert (U0 : 0 < u) by (unfold u; apply Rmult_lt_0_compat; lra).
    replace (q - 1 - x * q) with (q - 1 + u) by (unfold u; ring).
    rewrite !Rabs_mult, (Rabs_right (/ _)) by lra. rewrite <- Rmult_assoc. apply Rmult_le_compat_r; [lra|].
    rewrite (Rabs_right q) by lra. rewrite (Rabs_left (q - 1 + u)) by lra.
    assert (V : Rabs (1 - q - 2 * u + q * u) <= 1) by (apply Rabs_le; split; nra).
    apply Rle_trans with (q * 1); [apply Rmult_le_compat_l; lra|]. nra.
Qed.
Theorem C40_decreasing : forall x, der_bernoulli eps em1 x < 0.
Proof.
  intros x. destruct (Rlt_dec (Rabs x) (pleps eps)) as [L|L].
  - pose proof (der_inside x L) as D. destruct (Req_EM_T x 0) as [E|E].
    + subst x. rewrite (uniqueness_limite _ _ _ _ D Bern_der_0). lra.
    + rewrite (uniqueness_limite _ _ _ _ D (Bern_der x E)). apply Bern_neg_der. exact E.
  - destruct (outside x ltac:(lra)) as [[A [B [_ ->]]]|[A [B [_ ->]]]].
    + pose proof (exp_pos (- x)). nra.
    + pose proof (t_exp (- x) ltac:(lra)) as T. rewrite Ropp_involutive in T. lra.
Qed.

(* Any expm1 at all: where it returns its argument (small x, rounded), value and derivative are off by no more than a multiple of x*x. *)
Theorem C40_small : forall expm1 x, x <> 0 -> Rabs x <= 1 / 6 -> expm1 x = x ->
  Rabs (bernoulli eps expm1 x - Bern x) <= 7 * (x * x) /\
  (exists l, derivable_pt_lim Bern x l /\ Rabs (der_bernoulli eps expm1 x - l) <= 30 * (x * x)).
Proof.
  intros m x N H E. pose proof pleps_two. unfold bernoulli, der_bernoulli, bernoulli_impl, der_bernoulli_impl, Bern.
  destruct (Req_EM_T x 0) as [Z|Z]; [contradiction|]. destruct (Rlt_dec (Rabs x) (pleps eps)) as [L|L]; [|exfalso; lra].
  cbn zeta. rewrite E. destruct (Req_EM_T x x) as [Y|Y]; [|exfalso; apply Y; reflexivity].
  split; [apply small_value; assumption|]. exists ((exp x - 1 - x * exp x) / ((exp x - 1) * (exp x - 1))).
  split; [apply Bern_der; exact N|apply small_der; assumption].
Qed.
End T.

(* the epsilon of double; arguments on each side of its threshold *)
Example ex_eps : 0 < / 2 ^ 52 <= 1 / 64.
Proof. split; [apply Rinv_0_lt_compat, pow_lt; lra|]. replace (1 / 64) with (/ 64) by field. apply Rinv_le_contravar; [lra|]. cbn. lra. Qed.
Example ex_inside : Rabs 1 < pleps (/ 2 ^ 52) /\ bernoulli (/ 2 ^ 52) em1 1 = 1 / (exp 1 - 1) /\ bernoulli (/ 2 ^ 52) em1 0 = 1.
Proof.
  assert (A : Rabs 1 < pleps (/ 2 ^ 52)) by (rewrite Rabs_R1; pose proof (pleps_two _ ex_eps); lra).
  split; [exact A|]. split; [rewrite C40_value by (exact ex_eps || exact A); unfold Bern; destruct (Req_EM_T 1 0); [lra|reflexivity]|].
  unfold bernoulli. destruct (Req_EM_T 0 0); [reflexivity|lra].
Qed.
Lemma pleps_53 : pleps (/ 2 ^ 52) < 53.
Proof.
  assert (P : 0 < 2 ^ 52) by (apply pow_lt; lra). unfold pleps. rewrite ln_Rinv by exact P. rewrite Rabs_Ropp.
  assert (L : 0 < ln 2) by (rewrite <- ln_1; apply ln_increasing; lra).
  assert (U : ln 2 < 1). { apply exp_lt_inv. rewrite exp_ln by lra. pose proof (exp_ineq1 1 ltac:(lra)). lra. }
  replace (ln (2 ^ 52)) with (52 * ln 2); [rewrite Rabs_right; lra|]. rewrite <- Rpower_pow by lra. unfold Rpower. rewrite ln_exp. f_equal. cbn. lra.
Qed.
Example ex_outside : pleps (/ 2 ^ 52) <= Rabs 60 /\ - 60 < - pleps (/ 2 ^ 52) /\ bernoulli (/ 2 ^ 52) em1 (- 60) = 60.
Proof.
  pose proof pleps_53. split; [rewrite Rabs_right; lra|]. split; [lra|].
  destruct (outside _ ex_eps (- 60)) as [[A _]|[_ [_ [E _]]]]; [rewrite Rabs_left; lra|exfalso; lra|rewrite E; ring].
Qed.
Example ex_small : (fun x => x) (1 / 10) = 1 / 10 /\ Rabs (1 / 10) <= 1 / 6.
Proof. split; [reflexivity|rewrite Rabs_right; lra]. Qed.

Print Assumptions C40_value.
Print Assumptions C40_large.
Print Assumptions C40_positive.
Print Assumptions C40_symmetry.
Print Assumptions C40_symmetry_large.
Print Assumptions C40_symmetry_refuted.
Print Assumptions C40_derivative.
Print Assumptions C40_derivative_large.
Print Assumptions C40_derivative_refuted.
Print Assumptions C40_derivative_bound.
Print Assumptions C40_decreasing.
Print Assumptions C40_small.
