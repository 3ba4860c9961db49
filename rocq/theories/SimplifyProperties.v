(* C30: simplification keeps the value. *)
From Coq Require Import String List Bool Arith Reals ZArith Lia Lra Permutation.
From Verif Require Import Sym SymSpec SymProofs Simplify SimplifySpec SimplifyProofs SimplifyTotal.
Import ListNotations.
Open Scope R_scope.

Definition sorts (srt : list expr -> list expr) : Prop := forall l, Permutation (srt l) l.
(* two expressions with the same text are the same *)
Definition exact_text (same : expr -> expr -> bool) : Prop := forall a b, same a b = true -> a = b.

(* Whenever simplify returns, and the expression is tame at the point r, the value at r is the same. *)
Theorem C30_value_partial : forall F srt same shorter r n e e', sorts srt -> exact_text same -> tame F false r e ->
  simplify srt same shorter n e = Some e' -> ev F r e' = ev F r e.
Proof. intros F srt same shorter r n e e' H1 H2 H E. destruct (simplify_good F srt H1 same shorter H2 r n e e' E) as (A & _). apply (A false H). Qed.
(* So it is after any number of simplifications. *)
Fixpoint times_simplified srt same shorter (fuel : list nat) (e : expr) : option expr :=
  match fuel with
  | [] => Some e
  | n :: t => match simplify srt same shorter n e with None => None | Some e' => times_simplified srt same shorter t e' end
  end.
Theorem C30_repeated_partial : forall F srt same shorter r ns e e', sorts srt -> exact_text same -> tame F false r e ->
  times_simplified srt same shorter ns e = Some e' -> ev F r e' = ev F r e.
Proof.
  intros F srt same shorter r ns e e' H1 H2. revert e. induction ns as [|n ns IH]; intros e H E; cbn [times_simplified] in E; [injection E as <-; reflexivity|].
  destruct (simplify srt same shorter n e) as [e1|] eqn:E1; [|discriminate]. destruct (simplify_good F srt H1 same shorter H2 r n e e1 E1) as (A & _). destruct (A false H) as [A1 A2].
  rewrite (IH e1 A1 E), A2. reflexivity.
Qed.
(* Sums and products of constants become one constant: the simplification returns, with their value. *)
Theorem C30_constants : forall srt same shorter F r e, sorts srt -> exact_text same -> constants e ->
  (exists n, forall m, (n <= m)%nat -> simplify srt same shorter m e = Some (Con (ev F r e))) /\
  (forall m e', simplify srt same shorter m e = Some e' -> e' = Con (ev F r e)).
Proof.
  intros srt same shorter F r e H1 H2 H. split.
  - destruct (constants_return F r srt H1 same shorter H2 e H) as [n Hn]. exists n. exact Hn.
  - intros m e' E. destruct (simplify_good F srt H1 same shorter H2 r m e e' E) as (_ & A & _). now apply A.
Qed.
Example C30_constants_case : constants (Add [Con 2; Prod [Con 3; Con (-1)]]).
Proof. cbn. repeat split. discriminate. Qed.

Lemma reqb_f : forall x y, x <> y -> reqb x y = false. Proof. intros. unfold reqb. destruct (Req_EM_T x y); congruence. Qed.
Lemma reqb_t : forall x y, x = y -> reqb x y = true. Proof. intros. unfold reqb. destruct (Req_EM_T x y); congruence. Qed.
(* an exact comparison *)
Fixpoint eqe (a b : expr) {struct a} : bool :=
  let go := fix go (l m : list expr) {struct l} := match l, m with [], [] => true | x :: t, y :: u => eqe x y && go t u | _, _ => false end in
  match a, b with
  | Con c, Con d => reqb c d
  | Var s, Var t => String.eqb s t
  | Add l, Add m | Prod l, Prod m => go l m
  | Exp x, Exp y | Log x, Log y => eqe x y
  | Pow x x', Pow y y' => eqe x y && eqe x' y'
  | User f l, User g m => String.eqb f g && go l m
  | _, _ => false
  end.
Lemma eqe_exact : exact_text eqe.
Proof.
  intros a. induction a as [c|s|l IH|l IH|e IH|b e IHb IHe|e IH|f l IH] using expr_ind'; intros b' H; destruct b' as [d|t|m|m|y|y y'|y|g m]; try discriminate H.
  - cbn in H. apply reqb_true in H. now subst.
  - cbn in H. apply String.eqb_eq in H. now subst.
  - cbn in H. f_equal. revert m H. induction IH as [|x t Hx Ht IHt]; intros [|y u] H; try discriminate; [reflexivity|]. apply andb_prop in H. destruct H as [H1 H2]. f_equal; [now apply Hx|now apply IHt].
  - cbn in H. f_equal. revert m H. induction IH as [|x t Hx Ht IHt]; intros [|y u] H; try discriminate; [reflexivity|]. apply andb_prop in H. destruct H as [H1 H2]. f_equal; [now apply Hx|now apply IHt].
  - cbn in H. f_equal. now apply IH.
  - cbn in H. apply andb_prop in H. destruct H as [H1 H2]. f_equal; [now apply IHb|now apply IHe].
  - cbn in H. f_equal. now apply IH.
  - cbn in H. apply andb_prop in H. destruct H as [H1 H2]. apply String.eqb_eq in H1. subst g. f_equal. revert m H2. induction IH as [|x t Hx Ht IHt]; intros [|y u] H; try discriminate; [reflexivity|]. apply andb_prop in H. destruct H as [H1 H2]. f_equal; [now apply Hx|now apply IHt].
Qed.
Definition nofun : string -> list R -> R := fun _ _ => 0.
Local Arguments Nat.ltb : simpl never.
(* x * x becomes pow(x, 2): a case at a negative point, with the exact comparison *)
Section Square.
Variable srt : list expr -> list expr.
Hypothesis Hs : sorts srt.
Variable shorter : expr -> expr -> bool.
Variable x : string.
Let simp := simplify srt eqe shorter.
Lemma pow_two : forall k A, (forall m, (k <= m)%nat -> simp m A = Some (Con 2)) -> forall m, (S (S k) <= m)%nat -> simp m (Pow (Var x) A) = Some (Pow (Var x) (Con 2)).
Proof.
  intros k A H m L. destruct m as [|m]; [lia|]. unfold simp in *. cbn [simplify]. unfold pow_simplify. destruct m as [|m]; [lia|]. rewrite (H (S m)) by lia. cbn [simplify is_zero is_one].
  rewrite (reqb_f 2 0) by lra. rewrite (reqb_f 2 1) by lra. reflexivity.
Qed.
Lemma vec_two : forall a b m k, (forall j, (k <= j)%nat -> simp j (mk_add srt [b; a]) = Some (Con 2)) -> (S (S k) <= m)%nat ->
  vec_simplify srt eqe (simp m) [Pow (Var x) a; Pow (Var x) b] = Some [Pow (Var x) (Con 2)].
Proof.
  intros a b m k H L. unfold vec_simplify. cbn [map length groups filter]. change (same_kind (Pow (Var x) a) (Pow (Var x) b)) with true. cbn [negb map fst snd combine_prod app].
  unfold pow_combine. cbn [length groups filter base]. change (eqe (Var x) (Var x)) with (String.eqb x x). rewrite String.eqb_refl. cbn [negb filter groups map fst snd base exponent prod_of flat_map factors app is_one opt_map].
  rewrite (pow_two k _ H m L). reflexivity.
Qed.
Lemma square : exists n, forall m, (n <= m)%nat -> simp m (Prod [Var x; Var x]) = Some (Pow (Var x) (Con 2)).
Proof.
  assert (C1 : exists k, forall j, (k <= j)%nat -> simp j (mk_add srt [Con 1; Con 1]) = Some (Con 2)).
  { destruct (C30_constants srt eqe shorter nofun (fun _ => 0) (mk_add srt [Con 1; Con 1]) Hs eqe_exact) as ((k & K) & _).
    - apply (mk_add_cons srt Hs). repeat constructor.
    - exists k. intros j L. unfold simp. rewrite (K j L). rewrite ev_mk_add by exact Hs. do 2 f_equal. unfold sm. cbn. ring. }
  assert (C2 : exists k, forall j, (k <= j)%nat -> simp j (mk_add srt [minus srt (Con 2) (Con 1); Con 1]) = Some (Con 2)).
  { destruct (C30_constants srt eqe shorter nofun (fun _ => 0) (mk_add srt [minus srt (Con 2) (Con 1); Con 1]) Hs eqe_exact) as ((k & K) & _).
    - apply (mk_add_cons srt Hs). constructor; [apply (minus1_cons srt Hs eqe); exact I|repeat constructor].
    - exists k. intros j L. unfold simp. rewrite (K j L). rewrite ev_mk_add by exact Hs. do 2 f_equal. unfold sm. cbn [map fold_right]. rewrite ev_minus by exact Hs. cbn. ring. }
  assert (C3 : exists k, forall j, (k <= j)%nat -> simp j (Con 2) = Some (Con 2)) by (exists 1%nat; intros [|j] L; [lia|reflexivity]).
  destruct C1 as [k1 C1]. destruct C2 as [k2 C2]. destruct C3 as [k3 C3]. exists (k1 + k2 + k3 + 8)%nat. intros m L. destruct m as [|m]; [lia|]. unfold simp. cbn [simplify]. unfold prod_simplify. cbn [existsb is_zero orb].
  fold (simp m). cbn [opt_map]. replace (simp m (Var x)) with (Some (Var x)) by (destruct m as [|m]; [lia|reflexivity]).
  change (vec_simplify srt eqe (simp m) [Var x; Var x]) with (vec_simplify srt eqe (simp m) [Pow (Var x) (Con 1); Pow (Var x) (Con 1)]). rewrite (vec_two (Con 1) (Con 1) m k1 C1) by lia.
  cbv zeta. cbn [length prod_of flat_map split_pow is_one app]. change (Nat.ltb 1 1) with false. cbv iota. rewrite (reqb_f 2 1) by lra.
  assert (R1 : vec_simplify srt eqe (simp m) [Pow (Var x) (Con 2)] = Some [Pow (Var x) (Con 2)]).
  { unfold vec_simplify. cbn [map length groups filter fst snd combine_prod flat_map factors app is_one negb opt_map]. rewrite (pow_two k3 _ C3 m) by lia. reflexivity. }
  assert (R : reduce srt eqe (simp m) m [Var x; Pow (Var x) (minus srt (Con 2) (Con 1))] = Some [Pow (Var x) (Con 2)]).
  { destruct m as [|m]; [lia|]. cbn [reduce]. 
    change (vec_simplify srt eqe (simp (S m)) [Var x; Pow (Var x) (minus srt (Con 2) (Con 1))]) with (vec_simplify srt eqe (simp (S m)) [Pow (Var x) (Con 1); Pow (Var x) (minus srt (Con 2) (Con 1))]).
    rewrite (vec_two (Con 1) (minus srt (Con 2) (Con 1)) (S m) k2 C2) by lia. change (Nat.ltb (length [Pow (Var x) (Con 2)]) (length [Var x; Pow (Var x) (minus srt (Con 2) (Con 1))])) with true. cbv iota.
    destruct m as [|m]; [lia|]. cbn [reduce]. rewrite R1. change (Nat.ltb (length [Pow (Var x) (Con 2)]) (length [Pow (Var x) (Con 2)])) with false. reflexivity. }
  rewrite app_nil_r, R. cbn [prod_of]. destruct (shorter _ _); reflexivity.
Qed.
End Square.
Example C30_case : tame nofun false (fun _ => -3) (Prod [Var "x"; Var "x"]) /\
  exists n, simplify (fun l => l) eqe (fun _ _ => true) n (Prod [Var "x"; Var "x"]) = Some (Pow (Var "x") (Con 2)).
Proof.
  split; [cbn; repeat split; discriminate|]. destruct (square (fun l => l) (fun l => Permutation_refl l) (fun _ _ => true) "x") as [n H]. exists n. apply H. lia.
Qed.
(* log(pow(1 + x, -1/2)) at x = 2 *)
Example C30_log_case : tame nofun false (fun _ => 2) (Log (Pow (Add [Con 1; Var "x"]) (Con (- / 2)))) /\
  simplify (fun l => l) eqe (fun _ _ => true) 1 (Log (Pow (Add [Con 1; Var "x"]) (Con (- / 2)))) = Some (Prod [Con (- / 2); Log (Add [Con 1; Var "x"])]).
Proof.
  split.
  - cbn -[IZR Rplus Rmult Rinv]. assert (S1 : 0 < 1 + (2 + 0)) by lra. split; [reflexivity|]. split; [|rewrite rpow_pos by lra; apply exp_pos]. left.
    split; [|split; [exact S1|exact I]]. split; [split; [exact I|intros _; left; exact I]|]. split; [|exact I]. split; [exact I|intros _; right; left; lra].
  - cbn [simplify is_one]. unfold times. cbn [is_zero is_one]. rewrite (reqb_f (- / 2) 0) by lra. rewrite (reqb_f (- / 2) 1) by lra. reflexivity.
Qed.

(* ---- where the value is not kept ---- *)
(* pow(pow(x, 2), 1/2) is 3 at x = -3, but its simplification is -3: for every order and every comparison. *)
Theorem C30_root_refuted : forall srt same shorter, sorts srt -> exact_text same ->
  let e := Pow (Pow (Var "x") (Con 2)) (Con (/ 2)) in let r := fun _ : string => -3 in
  regular nofun (fun _ _ _ => []) r e /\ ev nofun r e = 3 /\
  exists n e', simplify srt same shorter n e = Some e' /\ ev nofun r e' = -3.
Proof.
  intros srt same shorter H1 H2 e r. assert (V : rpow (-3) 2 = 9) by (rewrite rpow_2; lra).
  assert (W : rpow 9 (/ 2) = 3). { rewrite rpow_pos by lra. replace 9 with (3 * 3) by ring. rewrite Rpower_sqrt by lra. apply sqrt_square. lra. }
  split; [|split].
  - cbn -[IZR Rinv]. fold (rpow (-3) 2). split; [split; [exact I|]; split; [exact I|]; right; exists 2%Z; split; [reflexivity|right; lia]|]. split; [exact I|]. left. unfold r. rewrite V. lra.
  - cbn -[IZR Rinv]. unfold r. rewrite V, W. reflexivity.
  - assert (C : exists k, forall j, (k <= j)%nat -> simplify srt same shorter j (times srt (Con 2) (Con (/ 2))) = Some (Con 1)).
    { destruct (C30_constants srt same shorter nofun (fun _ => 0) (times srt (Con 2) (Con (/ 2))) H1 H2) as ((k & K) & _); [apply (times_cons srt H1 same); exact I|].
      exists k. intros j L. rewrite (K j L). rewrite ev_times by exact H1. cbn [ev]. do 2 f_equal. lra. }
    destruct C as [k C]. exists (k + 4)%nat, (Pow (Var "x") (Con 1)). split; [|cbn [ev]; apply rpow_1]. unfold e. replace (k + 4)%nat with (S (S (S (S k)))) by lia.
    assert (St : forall n b x, simplify srt same shorter (S n) (Pow b x) = pow_simplify srt (simplify srt same shorter n) b x) by reflexivity.
    assert (Sc : forall n c, simplify srt same shorter (S n) (Con c) = Some (Con c)) by reflexivity.
    assert (Sv : forall n c, simplify srt same shorter (S n) (Var c) = Some (Var c)) by reflexivity.
    rewrite St. unfold pow_simplify. rewrite (St (S (S k))). unfold pow_simplify. rewrite Sv, !Sc. cbn [is_zero is_one].
    rewrite (reqb_f 2 0), (reqb_f 2 1) by lra. cbv iota. cbn [is_zero is_one]. rewrite (reqb_f (/ 2) 0), (reqb_f (/ 2) 1) by lra. cbv iota.
    rewrite (C (S (S (S k)))) by lia. reflexivity.
Qed.
(* log(pow(x, 2)) is log(4) at x = -2; its simplification contains the log of a negative number. *)
Theorem C30_log_refuted : forall srt same shorter, 
  let e := Log (Pow (Var "x") (Con 2)) in let r := fun _ : string => -2 in
  regular nofun (fun _ _ _ => []) r e /\ ev nofun r e = ln 4 /\
  simplify srt same shorter 1 e = Some (Prod [Con 2; Log (Var "x")]) /\ ~ regular nofun (fun _ _ _ => []) r (Prod [Con 2; Log (Var "x")]).
Proof.
  intros srt same shorter e r. assert (V : rpow (-2) 2 = 4) by (rewrite rpow_2; lra). split; [|split; [|split]].
  - cbn -[IZR Rinv]. unfold r. rewrite V. split; [|lra]. split; [exact I|]. split; [exact I|]. right. exists 2%Z. split; [reflexivity|right; lia].
  - cbn -[IZR Rinv]. unfold r. rewrite V. reflexivity.
  - unfold e. cbn [simplify is_one]. unfold times. cbn [is_zero is_one]. rewrite (reqb_f 2 0), (reqb_f 2 1) by lra. reflexivity.
  - cbn -[IZR Rinv]. unfold r. intros (_ & (_ & H) & _). lra.
Qed.
(* pow(0, y) is 1 at y = 0, but is simplified to 0. *)
Theorem C30_zero_refuted : forall srt same shorter,
  simplify srt same shorter 2 (Pow (Con 0) (Var "y")) = Some (Con 0) /\ ev nofun (fun _ => 0) (Pow (Con 0) (Var "y")) = 1.
Proof.
  intros srt same shorter. split; [|cbn [ev]; apply rpow_0]. cbn [simplify]. unfold pow_simplify. cbn [simplify is_zero is_one]. rewrite (reqb_f 0 1) by lra. rewrite reqb_refl. reflexivity.
Qed.
(* log(x * x) keeps its value when simplified once, and loses it the second time. *)
Theorem C30_twice_refuted : let e := Log (Prod [Var "x"; Var "x"]) in let r := fun _ : string => -2 in
  regular nofun (fun _ _ _ => []) r e /\ ev nofun r e = ln 4 /\
  exists n, times_simplified (fun l => l) eqe (fun _ _ => true) [n] e = Some (Log (Pow (Var "x") (Con 2))) /\
    times_simplified (fun l => l) eqe (fun _ _ => true) [n; n] e = Some (Prod [Con 2; Log (Var "x")]) /\
    ~ regular nofun (fun _ _ _ => []) r (Prod [Con 2; Log (Var "x")]).
Proof.
  intros e r. split; [cbn -[IZR]; unfold r; split; [repeat split|lra]|]. split; [cbn -[IZR]; unfold r; f_equal; lra|].
  destruct (square (fun l => l) (fun l => Permutation_refl l) (fun _ _ => true) "x") as [n H]. exists (S n).
  assert (A : simplify (fun l => l) eqe (fun _ _ => true) (S n) e = Some (Log (Pow (Var "x") (Con 2)))) by (unfold e; cbn [simplify is_one]; cbn [forallb is_one andb]; rewrite (H n (le_n _)); reflexivity).
  cbn [times_simplified]. rewrite A. split; [reflexivity|]. split; [|cbn -[IZR Rinv]; unfold r; intros (_ & (_ & Q) & _); lra].
  cbn [simplify is_one]. unfold times. cbn [is_zero is_one]. rewrite (reqb_f 2 0), (reqb_f 2 1) by lra. reflexivity.
Qed.
Print Assumptions C30_value_partial.
Print Assumptions C30_repeated_partial.
Print Assumptions C30_constants.
Print Assumptions C30_root_refuted.
Print Assumptions C30_log_refuted.
Print Assumptions C30_zero_refuted.
Print Assumptions C30_twice_refuted.
