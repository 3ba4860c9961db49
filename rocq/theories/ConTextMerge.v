(* The simplification of pow(1234567, x) * pow(1234568, y). *)
From Coq Require Import Ascii String List Bool ZArith Reals Lia Lra Permutation.
From Verif Require Import Sym SymSpec SymProofs Simplify SimplifySpec ConText ConTextProofs ConTextProperties.
Import ListNotations.
Open Scope R_scope.
Local Arguments Nat.ltb : simpl never.

Lemma reqb_f : forall x y, x <> y -> reqb x y = false. Proof. intros. unfold reqb. destruct (Req_EM_T x y); congruence. Qed.
Lemma perm1 : forall (A : Type) (a : A) l, Permutation l [a] -> l = [a].
Proof. intros A a l H. apply Permutation_sym in H. now apply Permutation_length_1_inv in H. Qed.
Lemma perm2 : forall (A : Type) (a b : A) l, Permutation l [a; b] -> l = [a; b] \/ l = [b; a].
Proof. intros A a b l H. apply Permutation_sym, Permutation_length_2_inv in H. tauto. Qed.
Lemma perm3 : forall (A : Type) (a b c : A) l, Permutation l [a; b; c] ->
  l = [a; b; c] \/ l = [a; c; b] \/ l = [b; a; c] \/ l = [b; c; a] \/ l = [c; a; b] \/ l = [c; b; a].
Proof.
  intros A a b c l H. assert (I : In a l) by (apply (Permutation_in _ (Permutation_sym H)); now left). apply in_split in I. destruct I as (l1 & l2 & ->).
  assert (Q : Permutation (l1 ++ l2) [b; c]) by (apply (Permutation_cons_inv (a := a)); eapply Permutation_trans; [apply Permutation_middle|exact H]).
  destruct (perm2 _ _ _ _ Q) as [E|E]; destruct l1 as [|x [|y [|z l1]]]; cbn in E; try (injection E as E1); subst; cbn; auto 8; try discriminate.
  all: try (injection E1 as E2; subst; cbn; auto 8). all: try (injection E as ? ?; subst; cbn; auto 8). all: try discriminate.
Qed.
Definition sorts (srt : list expr -> list expr) : Prop := forall l, Permutation (srt l) l.
Section Merge.
Variable srt : list expr -> list expr.
Hypothesis Hs : sorts srt.
Variable shorter : expr -> expr -> bool.
Variable text : expr -> string.
Hypothesis text_con : forall c, text (Con c) = con_text c.
Hypothesis text_var : forall s, text (Var s) = s.
Let same (a b : expr) : bool := String.eqb (text a) (text b).
Let simp := simplify srt same shorter.
Let x := Var "x".
Let y := Var "y".
Let m1 := Con (-1).
Lemma s_var : forall n s, simp (S n) (Var s) = Some (Var s). Proof. reflexivity. Qed.
Lemma s_con : forall n c, simp (S n) (Con c) = Some (Con c). Proof. reflexivity. Qed.
Lemma s_prod : forall n l, simp (S n) (Prod l) = prod_simplify srt same shorter (simp n) n l. Proof. reflexivity. Qed.
Lemma txt1 : con_text 1 = "1"%string.
Proof.
  unfold con_text. rewrite (whole_IZR 1). destruct (Rlt_dec 1 0) as [L|_]; [lra|]. unfold int_text. destruct (Req_EM_T 1 0) as [L|_]; [lra|].
  assert (M : Flocq.Core.Raux.mag_val r10 1 (Flocq.Core.Raux.mag r10 1) = 1%Z) by (apply Flocq.Core.Raux.mag_unique; rewrite Rabs_right by lra; cbn -[IZR]; lra).
  unfold expo. rewrite (rnd_small 1) by reflexivity. rewrite M, Flocq.Core.Raux.Ztrunc_IZR. reflexivity.
Qed.
Lemma srt1 : forall a, srt [a] = [a]. Proof. intros a. apply perm1, Hs. Qed.
(* the scale of one term *)
Lemma sg_var : forall n s, scale_group srt (simp (S (S n))) (Var s, []) = Some (Var s).
Proof.
  intros n s. unfold scale_group. cbn [fst snd map get_scale get_unscaled]. unfold mk_add. rewrite srt1. change (simp (S (S n)) (Add [Con 1])) with (simp (S n) (Con 1)). rewrite s_con. cbn [is_one]. rewrite reqb_refl. reflexivity.
Qed.
Lemma sg_m1 : forall n, scale_group srt (simp (S (S n))) (m1, []) = Some m1.
Proof.
  intros n. unfold scale_group, m1. cbn [fst snd map get_scale get_unscaled]. unfold mk_add. rewrite srt1. change (simp (S (S n)) (Add [Con (-1)])) with (simp (S n) (Con (-1))). rewrite s_con. cbn [is_one]. rewrite reqb_f by lra.
  unfold times. cbn [is_zero is_one]. rewrite (reqb_f (-1) 0), (reqb_f 1 0), (reqb_f (-1) 1) by lra. rewrite reqb_refl. reflexivity.
Qed.
Lemma same_xy : same x y = false. Proof. unfold same, x, y. rewrite !text_var. reflexivity. Qed.
Lemma same_yx : same y x = false. Proof. unfold same, x, y. rewrite !text_var. reflexivity. Qed.
Lemma same_x1 : same x (Con 1) = false. Proof. unfold same, x. rewrite text_var, text_con, txt1. reflexivity. Qed.
Lemma same_1x : same (Con 1) x = false. Proof. unfold same, x. rewrite text_var, text_con, txt1. reflexivity. Qed.
Lemma same_y1 : same y (Con 1) = false. Proof. unfold same, y. rewrite text_var, text_con, txt1. reflexivity. Qed.
Lemma same_1y : same (Con 1) y = false. Proof. unfold same, y. rewrite text_var, text_con, txt1. reflexivity. Qed.
Definition like (a b : expr) := same (get_unscaled srt a) (get_unscaled srt b).
Lemma likes : like x y = false /\ like y x = false /\ like x m1 = false /\ like m1 x = false /\ like y m1 = false /\ like m1 y = false.
Proof. unfold like. cbn [get_unscaled x y m1]. fold x. fold y. rewrite same_xy, same_yx, same_x1, same_1x, same_y1, same_1y. auto 10. Qed.
Lemma step3 : forall n l, Permutation l [x; y; m1] ->
  opt_groups srt (simp (S (S n))) (groups like (length l) l) = Some l.
Proof.
  intros n l H. destruct likes as (Lxy & Lyx & Lxm & Lmx & Lym & Lmy).
  destruct (perm3 _ _ _ _ _ H) as [->|[->|[->|[->|[->| ->]]]]]; cbn [length groups filter];
  rewrite ?Lxy, ?Lyx, ?Lxm, ?Lmx, ?Lym, ?Lmy; cbn [negb groups filter]; rewrite ?Lxy, ?Lyx, ?Lxm, ?Lmx, ?Lym, ?Lmy; cbn [negb groups filter opt_groups].
  all: unfold x, y; rewrite ?sg_var, ?sg_m1; reflexivity.
Qed.
Lemma step2 : forall n l, Permutation l [x; y] ->
  opt_groups srt (simp (S (S n))) (groups like (length l) l) = Some l.
Proof.
  intros n l H. destruct likes as (Lxy & Lyx & _). destruct (perm2 _ _ _ _ H) as [->| ->]; cbn [length groups filter]; rewrite ?Lxy, ?Lyx; cbn [negb groups filter opt_groups].
  all: unfold x, y; rewrite ?sg_var; reflexivity.
Qed.
Lemma all_simp : forall n l, (forall a, In a l -> a = x \/ a = y \/ a = m1) -> opt_map (simp (S n)) l = Some l.
Proof.
  intros n l. induction l as [|a l IH]; intros H; [reflexivity|]. cbn [opt_map]. rewrite IH by (intros b B; apply H; now right).
  destruct (H a (or_introl eq_refl)) as [->|[->| ->]]; reflexivity.
Qed.
Lemma no_zero : forall l, (forall a, In a l -> a = x \/ a = y \/ a = m1) -> filter (fun e => negb (is_zero e)) l = l.
Proof.
  induction l as [|a l IH]; intros H; [reflexivity|]. cbn [filter]. rewrite IH by (intros b B; apply H; now right).
  destruct (H a (or_introl eq_refl)) as [->|[->| ->]]; [reflexivity|reflexivity|]. unfold m1. cbn [is_zero]. rewrite reqb_f by lra. reflexivity.
Qed.
Lemma in3 : forall l, Permutation l [x; y; m1] -> forall a, In a l -> a = x \/ a = y \/ a = m1.
Proof. intros l H a I. apply (Permutation_in _ H) in I. cbn in I. intuition congruence. Qed.
Lemma in2 : forall l, Permutation l [x; y] -> forall a, In a l -> a = x \/ a = y \/ a = m1.
Proof. intros l H a I. apply (Permutation_in _ H) in I. cbn in I. intuition congruence. Qed.
(* sums of x, y and -1 stay as they are *)
Lemma add3 : forall n l, Permutation l [x; y; m1] -> exists l', Permutation l' [x; y; m1] /\ simp (S (S (S n))) (Add l) = Some (Add l').
Proof.
  intros n l H. change (simp (S (S (S n))) (Add l)) with (add_simplify srt same (simp (S (S n))) l). unfold add_simplify.
  assert (E : opt_map (simp (S (S n))) l = Some l) by (apply all_simp, in3, H). rewrite E. cbv zeta.
  assert (F : Permutation (flat_map addends (map (fun g => combine_add srt (fst g) (snd g)) (groups same_kind (length l) l))) [x; y; m1]).
  { destruct (perm3 _ _ _ _ _ H) as [->|[->|[->|[->|[->| ->]]]]]; cbn; fold x; fold y; fold m1; rewrite ?app_nil_r.
    - eapply Permutation_trans; [apply Permutation_app_tail, Hs|]. cbn. constructor 3.
    - eapply Permutation_trans; [apply Permutation_app_tail, Hs|]. cbn. constructor 3.
    - eapply Permutation_trans; [apply Permutation_app_tail, Hs|]. cbn. reflexivity.
    - eapply Permutation_trans; [apply Permutation_app_tail, Hs|]. cbn. reflexivity.
    - eapply Permutation_trans; [apply perm_skip, Hs|]. apply (Permutation_app_comm [m1; y] [x]) || idtac. cbn. eapply Permutation_trans; [apply perm_skip, perm_swap|]. apply (Permutation_app_comm [m1] [x; y]).
    - eapply Permutation_trans; [apply perm_skip, Hs|]. apply (Permutation_app_comm [m1] [x; y]). }
  revert F. generalize (flat_map addends (map (fun g => combine_add srt (fst g) (snd g)) (groups same_kind (length l) l))). intros l2 F.
  rewrite (all_simp (S n) l2) by (apply in3, F). rewrite (no_zero l2) by (apply in3, F). fold like. rewrite (step3 n l2 F).
  assert (G : exists a b c, l2 = [a; b; c]) by (apply Permutation_length in F; destruct l2 as [|a [|b [|c [|d t]]]]; try discriminate; eauto). destruct G as (a & b & c & G).
  exists (srt l2). split; [eapply Permutation_trans; [apply Hs|exact F]|]. subst l2.
  assert (K : forall o, match l with [z] => o z | _ => Some (Add (srt [a; b; c])) end = Some (Add (srt [a; b; c]))) by (intros o; apply Permutation_length in H; destruct l as [|? [|? ?]]; try discriminate; reflexivity).
  apply (K (simp (S (S n)))).
Qed.
Lemma add2 : forall n l, Permutation l [x; y] -> exists l', Permutation l' [x; y] /\ simp (S (S (S n))) (Add l) = Some (Add l').
Proof.
  intros n l H. change (simp (S (S (S n))) (Add l)) with (add_simplify srt same (simp (S (S n))) l). unfold add_simplify.
  assert (E : opt_map (simp (S (S n))) l = Some l) by (apply all_simp, in2, H). rewrite E. cbv zeta.
  assert (F : Permutation (flat_map addends (map (fun g => combine_add srt (fst g) (snd g)) (groups same_kind (length l) l))) [x; y]).
  { destruct (perm2 _ _ _ _ H) as [->| ->]; cbn; fold x; fold y; rewrite ?app_nil_r; (eapply Permutation_trans; [apply Hs|]); [constructor 3|reflexivity]. }
  revert F. generalize (flat_map addends (map (fun g => combine_add srt (fst g) (snd g)) (groups same_kind (length l) l))). intros l2 F.
  rewrite (all_simp (S n) l2) by (apply in2, F). rewrite (no_zero l2) by (apply in2, F). fold like. rewrite (step2 n l2 F).
  assert (G : exists a b, l2 = [a; b]) by (apply Permutation_length in F; destruct l2 as [|a [|b [|c t]]]; try discriminate; eauto). destruct G as (a & b & G).
  exists (srt l2). split; [eapply Permutation_trans; [apply Hs|exact F]|]. subst l2.
  assert (K : forall o, match l with [z] => o z | _ => Some (Add (srt [a; b])) end = Some (Add (srt [a; b]))) by (intros o; apply Permutation_length in H; destruct l as [|? [|? ?]]; try discriminate; reflexivity).
  apply (K (simp (S (S n)))).
Qed.
Definition c1 := 1234567.
Definition c2 := 1234568.
Lemma same_c : same (Con c2) (Con c1) = true.
Proof. unfold same. rewrite !text_con. apply String.eqb_eq. symmetry. apply C31_refuted. Qed.
Lemma pow_step : forall n b l l', b = c1 \/ b = c2 -> simp (S n) (Add l) = Some (Add l') -> simp (S (S n)) (Pow (Con b) (Add l)) = Some (Pow (Con b) (Add l')).
Proof.
  intros n b l l' B E. change (simp (S (S n)) (Pow (Con b) (Add l))) with (pow_simplify srt (simp (S n)) (Con b) (Add l)). unfold pow_simplify. rewrite s_con, E. cbn [is_zero is_one].
  rewrite (reqb_f b 0), (reqb_f b 1) by (unfold c1, c2 in B; destruct B as [->| ->]; lra). reflexivity.
Qed.
Lemma pow_var : forall n b s, b = c1 \/ b = c2 -> simp (S (S n)) (Pow (Con b) (Var s)) = Some (Pow (Con b) (Var s)).
Proof.
  intros n b s B. change (simp (S (S n)) (Pow (Con b) (Var s))) with (pow_simplify srt (simp (S n)) (Con b) (Var s)). unfold pow_simplify. rewrite s_con, s_var. cbn [is_zero is_one].
  rewrite (reqb_f b 0), (reqb_f b 1) by (unfold c1, c2 in B; destruct B as [->| ->]; lra). reflexivity.
Qed.
Definition e0 : expr := Prod [Pow (Con c1) x; Pow (Con c2) y].
Lemma merged : exists l l', Permutation l [x; y] /\ Permutation l' [x; y; m1] /\ exists e', simp 10 e0 = Some e' /\
  (e' = Pow (Con c2) (Add l) \/ e' = mk_prod srt [Con c2; Pow (Con c2) (Add l')]).
Proof.
  destruct (add2 5 (srt [y; x])) as (l & L & E); [eapply Permutation_trans; [apply Hs|constructor 3]|].
  assert (T : opt_map (simp 9) [Pow (Con c1) x; Pow (Con c2) y] = Some [Pow (Con c1) x; Pow (Con c2) y]) by (unfold x, y; cbn [opt_map]; rewrite !pow_var by auto; reflexivity).
  assert (V : vec_simplify srt same (simp 9) [Pow (Con c1) x; Pow (Con c2) y] = Some [Pow (Con c2) (Add l)]).
  { unfold vec_simplify. cbn [map length groups filter x y]. change (same_kind (Pow (Con c1) x) (Pow (Con c2) y)) with true. cbn [negb groups map fst snd combine_prod app].
    unfold pow_combine. cbn [length groups filter base]. rewrite same_c. cbn [negb groups map fst snd base exponent prod_of flat_map factors app is_one filter opt_map].
    unfold mk_add. fold x. fold y. rewrite (pow_step 7 c2 _ l (or_intror eq_refl) E). reflexivity. }
  assert (ML : exists l0, minus srt (Add l) (Con 1) = Add l0 /\ Permutation l0 [x; y; m1]).
  { unfold minus, times, plus. cbn [is_zero is_one]. rewrite (reqb_f (-1) 0), (reqb_f 1 0), (reqb_f (-1) 1) by lra. cbn [orb]. rewrite reqb_refl. cbn [is_zero]. rewrite (reqb_f (-1) 0) by lra.
    unfold mk_add. exists (srt (l ++ [m1])). split; [reflexivity|]. eapply Permutation_trans; [apply Hs|]. apply (Permutation_app_tail [m1] L). }
  destruct ML as (l0 & Em & Pm). destruct (add3 5 l0 Pm) as (l' & L' & E').
  exists l, l'. split; [exact L|]. split; [exact L'|].
  assert (W : vec_simplify srt same (simp 9) [Con c2; Pow (Con c2) (Add l0)] = Some [Con c2; Pow (Con c2) (Add l')]).
  { unfold vec_simplify. cbn [map length groups filter]. change (same_kind (Con c2) (Pow (Con c2) (Add l0))) with false. cbn [negb groups filter map fst snd combine_prod flat_map factors app is_one].
    rewrite (reqb_f c2 1) by (unfold c2; lra). cbn [negb filter opt_map]. rewrite s_con, (pow_step 7 c2 _ l' (or_intror eq_refl) E'). reflexivity. }
  assert (R : reduce srt same (simp 9) 9 [Con c2; Pow (Con c2) (Add l0)] = Some [Con c2; Pow (Con c2) (Add l')]).
  { cbn [reduce]. rewrite W. reflexivity. }
  unfold e0. rewrite s_prod.
  unfold prod_simplify. cbn [existsb is_zero orb]. rewrite T, V. cbv zeta. change (Nat.ltb 1 (length [Pow (Con c2) (Add l)])) with false. cbv iota.
  cbn [flat_map split_pow is_one app]. rewrite Em, R. cbn [prod_of].
  destruct (shorter _ _); eexists; (split; [reflexivity|]); [now right|now left].
Qed.
End Merge.
(* Whatever the order of the terms and however the texts of sums, products and powers look: simplification changes
   pow(1234567, x) * pow(1234568, y) into a power of 1234568; at x = 1, y = 0 the value changes. *)
Theorem C31_merged_refuted : forall srt shorter text, sorts srt -> (forall c, text (Con c) = con_text c) -> (forall s, text (Var s) = s) ->
  let e := Prod [Pow (Con 1234567) (Var "x"); Pow (Con 1234568) (Var "y")] in
  let r := fun s => if String.eqb s "x" then 1 else 0 in
  exists n e', simplify srt (fun a b => String.eqb (text a) (text b)) shorter n e = Some e' /\
    forall F, ev F r e = 1234567 /\ ev F r e' = 1234568.
Proof.
  intros srt shorter text Hs Hc Hv e r. destruct (merged srt Hs shorter text Hc Hv) as (l & l' & L & L' & e' & E & C). exists 10%nat, e'. split; [exact E|]. intros F. split.
  - unfold e. rewrite ev_Prod. unfold pr. cbn [map fold_right ev]. unfold r. cbn [String.eqb Ascii.eqb Bool.eqb]. rewrite rpow_1, rpow_0. ring.
  - destruct C as [->| ->].
    + change (ev F r (Pow (Con c2) (Add l))) with (rpow c2 (ev F r (Add l))). rewrite ev_Add, (sm_perm _ _ (Permutation_map (ev F r) L)). unfold sm. cbn [map fold_right ev]. unfold r. cbn [String.eqb Ascii.eqb Bool.eqb]. replace (1 + (0 + 0)) with 1 by ring. apply rpow_1.
    + rewrite ev_mk_prod by exact Hs. unfold pr. cbn [map fold_right]. change (ev F r (Pow (Con c2) (Add l'))) with (rpow c2 (ev F r (Add l'))). change (ev F r (Con c2)) with c2. rewrite ev_Add, (sm_perm _ _ (Permutation_map (ev F r) L')). unfold sm. cbn [map fold_right ev]. unfold r. cbn [String.eqb Ascii.eqb Bool.eqb].
      replace (1 + (0 + (-1 + 0))) with 0 by ring. rewrite rpow_0. unfold c2. ring.
Qed.
Print Assumptions C31_merged_refuted.
