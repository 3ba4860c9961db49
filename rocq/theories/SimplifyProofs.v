(* Proofs about simplification *)
From Coq Require Import String List Bool Arith Reals ZArith Lia Lra Permutation.
From Verif Require Import Sym SymSpec SymProofs Simplify SimplifySpec.
Import ListNotations.
Open Scope R_scope.
Local Arguments Nat.ltb : simpl never.

Lemma fr_F : forall (A : Type) (Q : A -> Prop) l, fold_right (fun a p => Q a /\ p) True l <-> Forall Q l.
Proof.
  intros A Q l. induction l as [|a l IH]; cbn [fold_right]; split; intros H; [constructor|exact I|constructor; [exact (proj1 H)|apply IH, H]|].
  inversion H; subst. split; [assumption|]. now apply IH.
Qed.
Lemma F_perm : forall (A : Type) (Q : A -> Prop) a b, Permutation a b -> Forall Q b -> Forall Q a.
Proof. intros A Q a b P H. rewrite Forall_forall in *. intros x I. apply H. eapply Permutation_in; eassumption. Qed.
Lemma F_app : forall (A : Type) (Q : A -> Prop) a b, Forall Q a -> Forall Q b -> Forall Q (a ++ b).
Proof. intros A Q a b. intros. apply Forall_app. split; assumption. Qed.
Lemma F_flat : forall (A B : Type) (P : A -> Prop) (Q : B -> Prop) f l, (forall x, P x -> Forall Q (f x)) -> Forall P l -> Forall Q (flat_map f l).
Proof. intros A B P Q f l H K. induction K as [|x l Hx Hl IH]; cbn [flat_map]; [constructor|]. apply F_app; [now apply H|exact IH]. Qed.
Lemma F_map : forall (A B : Type) (P : A -> Prop) (Q : B -> Prop) (f : A -> B) l, (forall x, P x -> Q (f x)) -> Forall P l -> Forall Q (map f l).
Proof. intros A B P Q f l H K. induction K as [|x l Hx Hl IH]; cbn [map]; constructor; auto. Qed.
Lemma F_imp : forall (A : Type) (P Q : A -> Prop) l, (forall x, P x -> Q x) -> Forall P l -> Forall Q l.
Proof. intros A P Q l H K. induction K; constructor; auto. Qed.
Lemma F_filter : forall (A : Type) (P : A -> Prop) f (l : list A), Forall P l -> Forall P (filter f l).
Proof. intros A P f l H. induction H as [|x l Hx Hl IH]; cbn [filter]; [constructor|]. destruct (f x); [constructor; assumption|exact IH]. Qed.

Section P.
Variable F : string -> list R -> R.
Notation ev := (ev F).
Variable srt : list expr -> list expr.
Hypothesis Hsrt : forall l, Permutation (srt l) l.
Variable same shorter : expr -> expr -> bool.
Hypothesis Hsame : forall a b, same a b = true -> a = b.
Variable r : env.
Notation ok := (fun c e => tame F c r e).
Notation pre l := (pr (map (ev r) l)).
Notation sme l := (sm (map (ev r) l)).

Definition sel (c : bool) (e : expr) : Prop := tame F c r e /\ (c = true -> constants e \/ 0 < ev r e).
Definition tel (c : bool) (e : expr) : Prop := tame F c r e /\ (c = true -> constants e \/ 0 < ev r e \/ product e).
Definition semi (c : bool) (e : expr) : Prop :=
  exists b x n, e = Pow b x /\ tame F c r b /\ constants x /\ ev r x = IZR n /\ (ev r b <> 0 \/ (1 <= n)%Z) /\ (c = true -> constants b).
Definition elem (c : bool) (e : expr) : Prop := sel c e \/ semi c e.

Lemma tame_Add : forall c l, tame F c r (Add l) <-> Forall (tel c) l.
Proof. intros c l. cbn [tame]. apply (fr_F expr (tel c)). Qed.
Lemma tame_Prod : forall c l, tame F c r (Prod l) <-> l <> [] /\ Forall (sel c) l.
Proof. intros c l. cbn [tame]. rewrite (fr_F expr (sel c)). reflexivity. Qed.
Lemma tame_User : forall c f l, tame F c r (User f l) <-> Forall (tame F false r) l.
Proof. intros c f l. cbn [tame]. apply (fr_F expr (tame F false r)). Qed.
Lemma cons_Add : forall l, constants (Add l) <-> Forall constants l.
Proof. intros l. cbn [constants]. apply (fr_F expr constants). Qed.
Lemma cons_Prod : forall l, constants (Prod l) <-> l <> [] /\ Forall constants l.
Proof. intros l. cbn [constants]. rewrite (fr_F expr constants). reflexivity. Qed.

Lemma cons_tame : forall e, constants e -> forall c, tame F c r e.
Proof.
  intros e. induction e as [c|s|l IH|l IH|e IH|b e IHb IHe|e IH|f l IH] using expr_ind'; intros H c0; try contradiction H; try exact I.
  - apply cons_Add in H. apply tame_Add. rewrite Forall_forall in *. intros a Ia. split; [now apply IH; [|apply H]|]. intros _. left. now apply H.
  - apply cons_Prod in H. destruct H as [N H]. apply tame_Prod. split; [exact N|]. rewrite Forall_forall in *. intros a Ia. split; [now apply IH; [|apply H]|]. intros _. left. now apply H.
Qed.
Lemma sel_false : forall e, sel false e <-> tame F false r e.
Proof. intros e. unfold sel. split; [tauto|]. intros H. split; [exact H|discriminate]. Qed.
Lemma tel_false : forall e, tel false e <-> tame F false r e.
Proof. intros e. unfold tel. split; [tauto|]. intros H. split; [exact H|discriminate]. Qed.
Lemma tame_weak : forall e, tame F true r e -> tame F false r e.
Proof.
  intros e. induction e as [c|s|l IH|l IH|e IH|b e IHb IHe|e IH|f l IH] using expr_ind'; intros H; try exact I.
  - apply tame_Add in H. apply tame_Add. rewrite Forall_forall in *. intros a Ia. apply tel_false. apply IH; [exact Ia|]. apply (H a Ia).
  - apply tame_Prod in H. destruct H as [N H]. apply tame_Prod. split; [exact N|]. rewrite Forall_forall in *. intros a Ia. apply sel_false. apply IH; [exact Ia|]. apply (H a Ia).
  - exact H.
  - cbn [tame] in *. destruct H as [H|(H & _)]; [|discriminate]. left. exact H.
  - cbn [tame] in H. destruct H as (H & _). discriminate.
  - exact H.
Qed.
Lemma tame_any : forall c e, tame F c r e -> tame F false r e.
Proof. intros [] e H; [now apply tame_weak|exact H]. Qed.
Lemma sel_tel : forall c e, sel c e -> tel c e.
Proof. intros c e [H K]. split; [exact H|]. intros E. destruct (K E); tauto. Qed.
Lemma cons_sel : forall c e, constants e -> sel c e.
Proof. intros c e H. split; [now apply cons_tame|]. intros _. left. exact H. Qed.
Lemma sel_factors : forall c e, sel c e -> Forall (sel c) (factors e).
Proof. intros c e H. destruct e; try (constructor; [exact H|constructor]). cbn [factors]. destruct H as [H _]. apply tame_Prod in H. apply H. Qed.
Lemma tel_addends : forall c e, tel c e -> Forall (tel c) (addends e).
Proof. intros c e H. destruct e; try (constructor; [exact H|constructor]). cbn [addends]. destruct H as [H _]. now apply tame_Add in H. Qed.
Lemma factors_ev : forall e, pre (factors e) = ev r e.
Proof. intros e. destruct e; cbn [factors map]; unfold pr; cbn [fold_right]; try ring. symmetry. apply ev_Prod. Qed.
Lemma addends_ev : forall e, sme (addends e) = ev r e.
Proof. intros e. destruct e; cbn [addends map]; unfold sm; cbn [fold_right]; try ring. symmetry. apply ev_Add. Qed.
Lemma flat_pre : forall f l, (forall e, In e l -> pre (f e) = ev r e) -> pre (flat_map f l) = pre l.
Proof. intros f l H. induction l as [|a l IH]; [reflexivity|]. cbn [flat_map]. rewrite map_app, pr_app, H by (left; reflexivity). rewrite IH by (intros; apply H; right; assumption). reflexivity. Qed.
Lemma flat_sme : forall f l, (forall e, In e l -> sme (f e) = ev r e) -> sme (flat_map f l) = sme l.
Proof. intros f l H. induction l as [|a l IH]; [reflexivity|]. cbn [flat_map]. rewrite map_app, sm_app, H by (left; reflexivity). rewrite IH by (intros; apply H; right; assumption). reflexivity. Qed.
Lemma mk_prod_ok : forall c l, l <> [] -> Forall (sel c) l -> tame F c r (mk_prod srt l).
Proof.
  intros c l N H. apply tame_Prod. split; [|exact (F_perm _ _ _ _ (Hsrt l) H)].
  intros E. specialize (Hsrt l). rewrite E in Hsrt. apply Permutation_nil in Hsrt. contradiction.
Qed.
Lemma mk_add_ok : forall c l, Forall (tel c) l -> tame F c r (mk_add srt l).
Proof. intros c l H. apply tame_Add. exact (F_perm _ _ _ _ (Hsrt l) H). Qed.
Lemma mk_add_cons : forall l, Forall constants l -> constants (mk_add srt l).
Proof. intros l H. apply cons_Add. exact (F_perm _ _ _ _ (Hsrt l) H). Qed.
Lemma mk_prod_cons : forall l, l <> [] -> Forall constants l -> constants (mk_prod srt l).
Proof.
  intros l N H. apply cons_Prod. split; [|exact (F_perm _ _ _ _ (Hsrt l) H)].
  intros E. specialize (Hsrt l). rewrite E in Hsrt. apply Permutation_nil in Hsrt. contradiction.
Qed.

(* ---- groups ---- *)
Lemma groups_perm : forall like n l, (length l <= n)%nat -> Permutation (flat_map (fun g => fst g :: snd g) (groups like n l)) l.
Proof.
  intros like. induction n as [|n IH]; intros l L; [destruct l; [constructor|cbn in L; lia]|]. destruct l as [|x t]; [constructor|]. cbn [groups flat_map fst snd app].
  apply perm_skip. rewrite IH.
  - clear. induction t as [|y t IH]; [constructor|]. cbn [filter]. destruct (like x y); cbn [negb app]; [apply perm_skip; exact IH|]. rewrite <- Permutation_middle. apply perm_skip. exact IH.
  - cbn in L. assert (K : forall f (l : list expr), (length (filter f l) <= length l)%nat) by (intros f u; induction u as [|y u IHu]; cbn; [lia|destruct (f y); cbn; lia]). specialize (K (fun y => negb (like x y)) t). lia.
Qed.
Lemma groups_like : forall like n l, Forall (fun g => forall y, In y (snd g) -> like (fst g) y = true) (groups like n l).
Proof.
  intros like. induction n as [|n IH]; intros l; [destruct l; constructor|]. destruct l as [|x t]; cbn [groups]; [constructor|]. constructor; [|apply IH].
  cbn [fst snd]. intros y I. apply filter_In in I. apply I.
Qed.
Lemma groups_F : forall P like n l, Forall P l -> Forall (fun g => P (fst g) /\ Forall P (snd g)) (groups like n l).
Proof.
  intros P like. induction n as [|n IH]; intros l H; [destruct l; constructor|]. destruct l as [|x t]; cbn [groups]; [constructor|]. inversion H; subst.
  constructor; [|apply IH, F_filter; assumption]. split; [assumption|]. cbn [snd]. apply F_filter. assumption.
Qed.
Lemma groups_nil : forall like n l, l <> [] -> (length l <= n)%nat -> groups like n l <> [].
Proof. intros like n l N L. destruct n, l; cbn [groups]; try contradiction; try discriminate. cbn in L. lia. Qed.
Definition group_pre (g : expr * list expr) : R := ev r (fst g) * pre (snd g).
Definition group_sme (g : expr * list expr) : R := ev r (fst g) + sme (snd g).
Lemma groups_pre : forall like l, pr (map group_pre (groups like (length l) l)) = pre l.
Proof.
  intros like l. rewrite <- (pr_perm _ _ (Permutation_map (ev r) (groups_perm like (length l) l (le_n _)))).
  induction (groups like (length l) l) as [|g u IH]; [reflexivity|]. cbn [flat_map map app]. rewrite map_app.
  change (pr (group_pre g :: map group_pre u)) with (group_pre g * pr (map group_pre u)). rewrite IH. unfold group_pre.
  change (pr (ev r (fst g) :: map (ev r) (snd g) ++ map (ev r) (flat_map (fun g0 => fst g0 :: snd g0) u))) with (ev r (fst g) * pr (map (ev r) (snd g) ++ map (ev r) (flat_map (fun g0 => fst g0 :: snd g0) u))).
  rewrite pr_app. ring.
Qed.
Lemma groups_sme : forall like l, sm (map group_sme (groups like (length l) l)) = sme l.
Proof.
  intros like l. rewrite <- (sm_perm _ _ (Permutation_map (ev r) (groups_perm like (length l) l (le_n _)))).
  induction (groups like (length l) l) as [|g u IH]; [reflexivity|]. cbn [flat_map map app]. rewrite map_app.
  change (sm (group_sme g :: map group_sme u)) with (group_sme g + sm (map group_sme u)). rewrite IH. unfold group_sme.
  change (sm (ev r (fst g) :: map (ev r) (snd g) ++ map (ev r) (flat_map (fun g0 => fst g0 :: snd g0) u))) with (ev r (fst g) + sm (map (ev r) (snd g) ++ map (ev r) (flat_map (fun g0 => fst g0 :: snd g0) u))).
  rewrite sm_app. ring.
Qed.
(* one group if all are alike *)
Lemma groups_one : forall like n x t, (length t <= n)%nat -> (forall y, In y t -> like x y = true) -> groups like (S n) (x :: t) = [(x, t)].
Proof.
  intros like n x t L H. cbn [groups]. assert (A : filter (like x) t = t).
  { clear L. induction t as [|y t IH]; [reflexivity|]. cbn [filter]. rewrite H by (left; reflexivity). f_equal. apply IH. intros; apply H; right; assumption. }
  assert (B : filter (fun y => negb (like x y)) t = []).
  { clear L A. induction t as [|y t IH]; [reflexivity|]. cbn [filter]. rewrite H by (left; reflexivity). cbn [negb]. apply IH. intros; apply H; right; assumption. }
  rewrite A, B. destruct n; reflexivity.
Qed.

(* ---- combining ---- *)
Lemma sum_argument : forall y, Forall (fun e => exists a, e = Exp a) y -> pre y = exp (sme (map argument y)).
Proof.
  intros y H. induction H as [|e y (a & ->) Hy IH]; [symmetry; exact exp_0|]. cbn [map argument]. change (pr (ev r (Exp a) :: map (ev r) y)) with (exp (ev r a) * pre y).
  change (sm (ev r a :: map (ev r) (map argument y))) with (ev r a + sme (map argument y)). rewrite exp_plus, IH. reflexivity.
Qed.
Lemma rpow_nz : forall b n m, b <> 0 \/ ((1 <= n)%Z /\ (1 <= m)%Z) -> rpow b (IZR n) * rpow b (IZR m) = rpow b (IZR (n + m)).
Proof.
  intros b n m H. rewrite !rpow_int. destruct (Req_dec b 0) as [->|N]; [|symmetry; now apply powerRZ_add].
  destruct H as [H|[H K]]; [congruence|]. assert (Z : forall k, (1 <= k)%Z -> powerRZ 0 k = 0).
  { intros k Hk. destruct k as [|p|p]; try lia. cbn. apply pow_ne_zero. lia. } rewrite !Z by lia. ring.
Qed.
(* powers of one base *)
Definition power_of (c : bool) (b e : expr) : Prop := exists x, e = Pow b x /\ elem c e.
Lemma powers : forall c b x0 t, power_of c b (Pow b x0) -> Forall (power_of c b) t -> t <> [] ->
  let e := Pow b (mk_add srt (x0 :: map exponent t)) in elem c e /\ ev r e = ev r (Pow b x0) * pre t.
Proof.
  intros c b x0 t H0 Ht N e. 
  (* either some power has a strict base, or none *)
  assert (D : (tame F true r b /\ 0 < ev r b /\ tame F false r x0 /\ Forall (fun e => exists x, e = Pow b x /\ tame F false r x) t) \/
    ((forall d, d = c -> tame F d r b) /\ (c = true -> constants b) /\ exists n, constants x0 /\ ev r x0 = IZR n /\ (ev r b <> 0 \/ (1 <= n)%Z) /\
      Forall (fun e => exists x n, e = Pow b x /\ constants x /\ ev r x = IZR n /\ (ev r b <> 0 \/ (1 <= n)%Z)) t)).
  { assert (Cl : forall x, power_of c b (Pow b x) -> (tame F true r b /\ 0 < ev r b /\ tame F false r x) \/
        (tame F c r b /\ (c = true -> constants b) /\ exists n, constants x /\ ev r x = IZR n /\ (ev r b <> 0 \/ (1 <= n)%Z))).
    { intros x (x1 & [= <-] & [[H _]|(b' & x2 & n & [= <- <-] & H1 & H2 & H3 & H4 & H5)]).
      - cbn [tame] in H. destruct H as [H|(-> & H & n & -> & K)]; [left; exact H|]. right. split; [exact H|]. split; [discriminate|]. exists n. cbn [constants SymSpec.ev]. tauto.
      - right. split; [exact H1|]. split; [exact H5|]. exists n. tauto. }
    assert (E : (tame F true r b /\ 0 < ev r b) \/ ~ (tame F true r b /\ 0 < ev r b)) by (destruct (Classical_Prop.classic (tame F true r b /\ 0 < ev r b)); tauto).
    assert (CT : forall x, constants x -> tame F false r x) by (intros; now apply cons_tame).
    destruct E as [[E1 E2]|E].
    - left. split; [exact E1|]. split; [exact E2|]. split; [destruct (Cl x0 H0) as [H|(_ & _ & n & H & _)]; [tauto|auto]|].
      rewrite Forall_forall in *. intros y Iy. destruct (Ht y Iy) as (x & -> & Hx). exists x. split; [reflexivity|].
      destruct (Cl x) as [H|(_ & _ & n & H & _)]; [exists x; tauto|tauto|auto].
    - right. destruct (Cl x0 H0) as [H|(B1 & B2 & n & H1 & H2 & H3)]; [tauto|]. split; [intros d ->; exact B1|]. split; [exact B2|]. exists n.
      split; [exact H1|]. split; [exact H2|]. split; [exact H3|]. rewrite Forall_forall in *. intros y Iy. destruct (Ht y Iy) as (x & -> & Hx).
      destruct (Cl x) as [H|(_ & _ & m & K1 & K2 & K3)]; [exists x; tauto|tauto|]. exists x, m. tauto. }
  assert (EV : ev r e = rpow (ev r b) (ev r x0 + sme (map exponent t))).
  { unfold e. cbn [SymSpec.ev]. rewrite ev_mk_add by exact Hsrt. reflexivity. }
  destruct D as [(B1 & B2 & B3 & B4)|(B1 & B2 & n & X1 & X2 & X3 & B4)].
  - split.
    + left. split; [|intros _; right; rewrite EV, rpow_pos by exact B2; apply exp_pos]. cbn [tame]. left. split; [exact B1|]. split; [exact B2|].
      apply mk_add_ok. constructor; [now apply tel_false|]. rewrite Forall_forall in *. intros y Iy. apply in_map_iff in Iy. destruct Iy as (z & <- & Iz).
      destruct (B4 z Iz) as (x & -> & Hx). now apply tel_false.
    + rewrite EV. cbn [SymSpec.ev]. rewrite !rpow_pos by exact B2. rewrite Rpower_plus. f_equal. clear - B4 B2.
      induction B4 as [|y t (x & -> & Hx) Ht IH]; [unfold sm, pr; cbn; apply Rpower_O; exact B2|]. cbn [map exponent].
      change (sm (ev r x :: map (ev r) (map exponent t))) with (ev r x + sme (map exponent t)). rewrite Rpower_plus, IH.
      change (pr (ev r (Pow b x) :: map (ev r) t)) with (rpow (ev r b) (ev r x) * pre t). rewrite rpow_pos by exact B2. reflexivity.
  - assert (Q : Forall constants (x0 :: map exponent t) /\ exists m, ev r x0 + sme (map exponent t) = IZR m /\ (ev r b <> 0 \/ (1 <= m)%Z) /\ rpow (ev r b) (ev r x0) * pre t = rpow (ev r b) (IZR m)).
    { clear - B4 X1 X2 X3. revert x0 n X1 X2 X3. induction B4 as [|y t (x & k & -> & Hx1 & Hx2 & Hx3) Ht IH]; intros x0 n X1 X2 X3.
      - split; [constructor; [exact X1|constructor]|]. exists n. unfold sm, pr. cbn [map fold_right]. rewrite X2. split; [ring|]. split; [exact X3|]. ring.
      - destruct (IH x k Hx1 Hx2 Hx3) as (Q1 & m & Q2 & Q3 & Q4). split; [constructor; [exact X1|exact Q1]|]. exists (n + m)%Z. cbn [map exponent].
        change (sm (ev r x :: map (ev r) (map exponent t))) with (ev r x + sme (map exponent t)). rewrite Q2, X2, plus_IZR. split; [reflexivity|].
        split; [destruct X3 as [X3|X3]; [left; exact X3|]; destruct Q3 as [Q3|Q3]; [left; exact Q3|right; lia]|].
        change (pr (ev r (Pow b x) :: map (ev r) t)) with (rpow (ev r b) (ev r x) * pre t). rewrite Q4, <- plus_IZR. apply rpow_nz. destruct X3 as [X3|X3]; [left; exact X3|]; destruct Q3 as [Q3|Q3]; [left; exact Q3|right; lia]. }
    destruct Q as (Q1 & m & Q2 & Q3 & Q4). split.
    + right. exists b, (mk_add srt (x0 :: map exponent t)), m. split; [reflexivity|]. split; [now apply B1|]. split; [now apply mk_add_cons|].
      split; [rewrite ev_mk_add by exact Hsrt; exact Q2|]. split; [exact Q3|exact B2].
    + rewrite EV, Q2. cbn [SymSpec.ev]. rewrite Q4. reflexivity.
Qed.

Lemma srt_nil : forall l, srt l = [] -> l = [].
Proof. intros l E. specialize (Hsrt l). rewrite E in Hsrt. apply Permutation_nil in Hsrt. exact Hsrt. Qed.
Lemma elem_factors : forall c e, elem c e -> Forall (elem c) (factors e) /\ factors e <> [].
Proof.
  intros c e [H|H].
  - split; [apply (F_imp _ (sel c)); [intros; left; assumption|now apply sel_factors]|]. destruct e; try discriminate. destruct H as [H _]. apply tame_Prod in H. apply H.
  - destruct H as (b & x & n & -> & H). cbn [factors]. split; [|discriminate]. constructor; [|constructor]. right. exists b, x, n. tauto.
Qed.
Definition is_pow (e : expr) : Prop := exists b x, e = Pow b x.
Lemma prod_of_factors : forall l, l <> [] -> Forall is_pow l -> Permutation (factors (prod_of srt l)) l.
Proof.
  intros [|x [|y t]] N H; [contradiction| |apply Hsrt]. inversion H as [|? ? (b & a & ->) _]; subst. cbn. apply Permutation_refl.
Qed.
Lemma pow_combine_ok : forall c y, y <> [] -> Forall is_pow y -> Forall (elem c) y ->
  Forall (elem c) (factors (pow_combine srt same y)) /\ pre (factors (pow_combine srt same y)) = pre y /\ factors (pow_combine srt same y) <> [].
Proof.
  intros c y N P H. unfold pow_combine. set (like := fun a b => same (base a) (base b)).
  set (f := fun g : expr * list expr => Pow (base (fst g)) match snd g with [] => exponent (fst g) | t => mk_add srt (exponent (fst g) :: map exponent t) end).
  assert (G : Forall (fun g => elem c (f g) /\ ev r (f g) = group_pre g) (groups like (length y) y)).
  { pose proof (groups_F is_pow like (length y) y P) as G1. pose proof (groups_F (elem c) like (length y) y H) as G2. pose proof (groups_like like (length y) y) as G3.
    rewrite Forall_forall in *. intros [x0 t] I. specialize (G1 _ I). specialize (G2 _ I). specialize (G3 _ I). cbn [fst snd] in *.
    destruct G1 as ((b & x & ->) & G1). destruct G2 as (E0 & Et). unfold f, group_pre. cbn [fst snd base exponent].
    destruct t as [|z t']; [split; [exact E0|]; unfold pr; cbn [map fold_right]; rewrite Rmult_1_r; reflexivity|]. remember (z :: t') as t eqn:Et'.
    apply powers; [exists x; split; [reflexivity|exact E0]| |rewrite Et'; discriminate].
    rewrite Forall_forall in *. intros u Iu. destruct (G1 u Iu) as (b' & x' & ->). specialize (G3 _ Iu). unfold like in G3. cbn [base] in G3. apply Hsame in G3. subst b'.
    exists x'. split; [reflexivity|]. apply (Et _ Iu). }
  set (l := map f (groups like (length y) y)).
  assert (L : l <> []). { unfold l. intros E. apply map_eq_nil in E. revert E. apply groups_nil; [exact N|lia]. }
  assert (LP : Forall is_pow l). { unfold l. rewrite Forall_forall. intros u I. apply in_map_iff in I. destruct I as (g & <- & _). unfold f. eexists _, _. reflexivity. }
  pose proof (prod_of_factors l L LP) as PF. split; [|split].
  - apply (F_perm _ _ _ _ PF). unfold l. apply (F_map _ _ (fun g => elem c (f g) /\ ev r (f g) = group_pre g)); [tauto|exact G].
  - rewrite (pr_perm _ _ (Permutation_map (ev r) PF)). unfold l. rewrite map_map. rewrite <- (groups_pre like y). f_equal. apply map_ext_F. apply (F_imp _ _ _ _ (fun g (K : elem c (f g) /\ _) => proj2 K) G).
  - intros E. rewrite E in PF. apply Permutation_nil in PF. contradiction.
Qed.
Lemma con_kind : forall e, kind e = 0%nat -> exists c, e = Con c. Proof. intros []; try discriminate. intros _. eexists. reflexivity. Qed.
Lemma fl_mult : forall y c, Forall (fun e => kind e = 0%nat) y -> fold_left Rmult (map con_val y) c = c * pre y.
Proof.
  intros y c H. rewrite fold_left_mult. f_equal. f_equal. apply map_ext_F. apply (F_imp _ (fun e => kind e = 0%nat)); [|exact H]. intros e K. destruct (con_kind e K) as (d & ->). reflexivity.
Qed.
Lemma combine_prod_ok : forall c x y, elem c x -> Forall (elem c) y -> (forall z, In z y -> kind x = kind z) ->
  let e := combine_prod srt same x y in Forall (elem c) (factors e) /\ pre (factors e) = ev r x * pre y /\ factors e <> [].
Proof.
  intros c x y Hx Hy K e. unfold e, combine_prod. clear e.
  assert (Gen : y <> [] -> let e := mk_prod srt (y ++ [x]) in Forall (elem c) (factors e) /\ pre (factors e) = ev r x * pre y /\ factors e <> []).
  { intros N. cbn [factors Sym.mk_prod]. split; [apply (F_perm _ _ _ _ (Hsrt _)), F_app; [exact Hy|constructor; [exact Hx|constructor]]|]. split.
    - rewrite (pr_perm _ _ (Permutation_map (ev r) (Hsrt _))), map_app, pr_app. unfold pr at 2. cbn [map fold_right]. ring.
    - intros E. apply srt_nil in E. destruct y; discriminate. }
  destruct y as [|z t].
  { destruct (elem_factors c x Hx) as [A B]. split; [exact A|]. split; [|exact B]. rewrite factors_ev. unfold pr. cbn [map fold_right]. ring. }
  remember (z :: t) as y eqn:Ey. assert (N : y <> []) by (rewrite Ey; discriminate). clear Ey z t.
  assert (KF : Forall (fun z => kind z = kind x) y) by (rewrite Forall_forall; intros u I; symmetry; now apply K).
  destruct x as [d|s|l|l|a|b a|a|f l]; try exact (Gen N).
  - rewrite fl_mult by exact KF. cbn [factors]. split; [constructor; [left; apply cons_sel; exact I|constructor]|]. split; [unfold pr; cbn [map fold_right SymSpec.ev]; ring|discriminate].
  - cbn [factors Sym.mk_prod]. split; [|split].
    + apply (F_perm _ _ _ _ (Hsrt _)), F_app; [apply (elem_factors c _ Hx)|]. apply (F_flat _ _ (elem c)); [|exact Hy]. intros u Hu. apply (elem_factors c u Hu).
    + rewrite (pr_perm _ _ (Permutation_map (ev r) (Hsrt _))), map_app, pr_app, ev_Prod. f_equal. apply flat_pre. intros. apply factors_ev.
    + intros E. apply srt_nil in E. destruct (elem_factors c _ Hx) as [_ B]. cbn [factors] in B. destruct l; [contradiction|discriminate].
  - assert (EY : Forall (fun e => exists a, e = Exp a) y).
    { apply (F_imp _ (fun z => kind z = kind (Exp a))); [|exact KF]. intros u Ku. destruct u; try discriminate Ku. eexists. reflexivity. }
    assert (TE : forall c e, elem c (Exp e) -> tame F false r e) by (intros c' e' [[Q _]|(b & x' & n & Q & _)]; [exact Q|discriminate]).
    cbn [factors]. split; [|split; [|discriminate]].
    + constructor; [|constructor]. left. split; [|intros _; right; cbn [SymSpec.ev]; apply exp_pos]. cbn [tame]. apply mk_add_ok. constructor; [apply tel_false, (TE c), Hx|].
      rewrite Forall_forall in *. intros u I. apply in_map_iff in I. destruct I as (v & <- & Iv). destruct (EY v Iv) as (b & ->). cbn [argument]. apply tel_false, (TE c), Hy, Iv.
    + unfold pr at 1. cbn [map fold_right SymSpec.ev]. rewrite ev_mk_add by exact Hsrt. cbn [map]. change (sm (ev r a :: map (ev r) (map argument y))) with (ev r a + sme (map argument y)).
      rewrite exp_plus, (sum_argument y EY). ring.
  - destruct (pow_combine_ok c (y ++ [Pow b a])) as (A & B & C).
    + destruct y; discriminate.
    + apply F_app; [|constructor; [exists b, a; reflexivity|constructor]]. apply (F_imp _ (fun z => kind z = kind (Pow b a))); [|exact KF]. intros u Ku. destruct u; try discriminate Ku. eexists _, _. reflexivity.
    + apply F_app; [exact Hy|constructor; [exact Hx|constructor]].
    + split; [exact A|]. split; [|exact C]. rewrite B, map_app, pr_app. unfold pr at 2. cbn [map fold_right]. ring.
Qed.

(* ---- what is proved of every simplification ---- *)
Definition good (S : expr -> option expr) : Prop := forall e e', S e = Some e' ->
  (forall c, tame F c r e -> tame F c r e' /\ ev r e' = ev r e) /\
  (constants e -> e' = Con (ev r e)) /\
  (forall c, semi c e -> sel c e' /\ ev r e' = ev r e) /\
  (tame F true r e -> product e -> tel true e').
Section S.
Variable S : expr -> option expr.
Hypothesis HS : good S.
Lemma S_sel : forall c e e', S e = Some e' -> elem c e -> sel c e' /\ ev r e' = ev r e.
Proof.
  intros c e e' E [[H K]|H].
  - destruct (HS e e' E) as (A & B & _). destruct (A c H) as [A1 A2]. split; [|exact A2]. split; [exact A1|]. intros T.
    destruct (K T) as [C|C]; [left; rewrite (B C); exact I|right; rewrite A2; exact C].
  - destruct (HS e e' E) as (_ & _ & A & _). now apply A.
Qed.
Lemma S_tel : forall c e e', S e = Some e' -> tel c e -> tel c e' /\ ev r e' = ev r e.
Proof.
  intros c e e' E [H K]. destruct (HS e e' E) as (A & B & _ & D). destruct (A c H) as [A1 A2]. split; [|exact A2]. split; [exact A1|]. intros T. subst c.
  destruct (K eq_refl) as [C|[C|C]]; [left; rewrite (B C); exact I|right; left; rewrite A2; exact C|]. apply (D H C). reflexivity.
Qed.
Lemma opt_map_F : forall (P Q : expr -> Prop) l l', (forall e e', S e = Some e' -> P e -> Q e' /\ ev r e' = ev r e) -> Forall P l -> opt_map S l = Some l' ->
  Forall Q l' /\ map (ev r) l' = map (ev r) l.
Proof.
  intros P Q l. induction l as [|a l IH]; intros l' H K E; cbn [opt_map] in E; [injection E as <-; split; [constructor|reflexivity]|].
  destruct (S a) as [b|] eqn:Ea; [|discriminate]. destruct (opt_map S l) as [u|] eqn:El; [|discriminate]. injection E as <-. inversion K; subst.
  destruct (H a b Ea) as [A B]; [assumption|]. destruct (IH u H) as [C D]; [assumption|reflexivity|]. split; [constructor; assumption|]. cbn [map]. rewrite B, D. reflexivity.
Qed.
Lemma pre_ones : forall l, pre (filter (fun e => negb (is_one e)) l) = pre l.
Proof.
  intros l. induction l as [|a l IH]; [reflexivity|]. cbn [filter]. destruct (is_one a) eqn:E; cbn [negb].
  - change (pre (a :: l)) with (ev r a * pre l). rewrite (is_one_ev F r a E), IH. ring.
  - change (ev r a * pre (filter (fun e => negb (is_one e)) l) = ev r a * pre l). rewrite IH. reflexivity.
Qed.
Lemma vec_ok : forall c l l', l <> [] -> Forall (elem c) l -> vec_simplify srt same S l = Some l' -> Forall (sel c) l' /\ pre l' = pre l /\ l' <> [].
Proof.
  intros c l l' N H. unfold vec_simplify. set (l1 := map _ l). 
  assert (H1 : Forall (elem c) l1 /\ pre l1 = pre l /\ l1 <> []).
  { unfold l1. split; [|split; [|intros E; apply map_eq_nil in E; contradiction]].
    - apply (F_map _ _ (elem c)); [|exact H]. intros e He. destruct e as [d|s|u|u|a|b a|a|f u]; try exact He.
      assert (V : sel c (Var s)) by (destruct He as [He|(b & x & n & He & _)]; [exact He|discriminate]). destruct c.
      + left. split; [|intros _; right; cbn [SymSpec.ev]; rewrite rpow_1].
        * cbn [tame]. left. destruct V as [_ V]. destruct (V eq_refl) as [[]|V']. split; [exact I|]. split; [exact V'|exact I].
        * destruct V as [_ V]. destruct (V eq_refl) as [[]|V']. exact V'.
      + right. exists (Var s), (Con 1), 1%Z. split; [reflexivity|]. split; [exact I|]. split; [exact I|]. split; [reflexivity|]. split; [right; lia|discriminate].
    - rewrite map_map. f_equal. apply map_ext. intros e. destruct e; try reflexivity. cbn [SymSpec.ev]. apply rpow_1. }
  destruct H1 as (E1 & P1 & N1). clearbody l1. set (gs := groups same_kind (length l1) l1). set (l3 := flat_map factors _).
  assert (G : Forall (fun g => let e := combine_prod srt same (fst g) (snd g) in Forall (elem c) (factors e) /\ pre (factors e) = group_pre g /\ factors e <> []) gs).
  { pose proof (groups_F (elem c) same_kind (length l1) l1 E1) as G2. pose proof (groups_like same_kind (length l1) l1) as G3. fold gs in G2, G3.
    rewrite Forall_forall in *. intros g I. destruct (G2 g I) as [A B]. apply combine_prod_ok; [exact A|exact B|]. intros z Iz. specialize (G3 g I z Iz). now apply Nat.eqb_eq. }
  assert (H3 : Forall (elem c) l3 /\ pre l3 = pre l /\ l3 <> []).
  { assert (NG : gs <> []) by (apply groups_nil; [exact N1|lia]).
    assert (PG : pre l = pr (map group_pre gs)) by (unfold gs; rewrite groups_pre, P1; reflexivity). rewrite PG. clear PG. unfold l3. clear l3. clearbody gs. clear - G NG.
    split; [|split].
    - induction G as [|g gs (A & _) Gs IH]; cbn [map flat_map]; [constructor|]. apply F_app; [exact A|]. destruct gs; [constructor|apply IH; discriminate].
    - clear NG. induction G as [|g gs (_ & B & _) Gs IH]; [reflexivity|]. cbn [map flat_map]. rewrite map_app, pr_app, IH, B. reflexivity.
    - destruct G as [|g gs (_ & _ & C) Gs]; [contradiction|]. cbn [map flat_map]. intros E. apply app_eq_nil in E. apply C, E. }
  destruct H3 as (E3 & P3 & N3). clearbody l3. destruct (opt_map S (filter _ l3)) as [l4|] eqn:E; [|discriminate].
  apply (opt_map_F (elem c) (sel c)) in E; [|intros e e' Q; now apply S_sel|now apply F_filter]. destruct E as [E4 M4].
  assert (P4 : pre l4 = pre l). { rewrite M4, pre_ones. exact P3. }
  destruct l4 as [|x t]; intros Q.
  - assert (On : existsb is_one l3 = true).
    { destruct l3 as [|x t]; [contradiction|]. cbn [existsb]. destruct (is_one x) eqn:Ox; [reflexivity|]. exfalso. cbn [filter] in M4. rewrite Ox in M4. discriminate. }
    rewrite On in Q. injection Q as <-. split; [constructor; [apply cons_sel; exact I|constructor]|]. split; [|discriminate]. rewrite <- P4. unfold pr. cbn. ring.
  - injection Q as <-. split; [exact E4|]. split; [exact P4|discriminate].
Qed.
Lemma reduce_ok : forall c n l l', l <> [] -> Forall (elem c) l -> reduce srt same S n l = Some l' -> Forall (sel c) l' /\ pre l' = pre l /\ l' <> [].
Proof.
  intros c. induction n as [|n IH]; intros l l' N H E; [discriminate|]. cbn [reduce] in E. destruct (vec_simplify srt same S l) as [t|] eqn:V; [|discriminate].
  destruct (vec_ok c l t N H V) as (A & B & C). destruct (Nat.ltb _ _); [|injection E as <-; tauto].
  destruct (IH t l') as (A' & B' & C'); [exact C|apply (F_imp _ (sel c)); [intros; left; assumption|exact A]|exact E|]. split; [exact A'|]. split; [congruence|exact C'].
Qed.

(* constants *)
Lemma opt_map_cons : forall l l', Forall constants l -> opt_map S l = Some l' -> l' = map Con (map (ev r) l).
Proof.
  intros l. induction l as [|a l IH]; intros l' H E; cbn [opt_map] in E; [injection E as <-; reflexivity|]. inversion H; subst.
  destruct (S a) as [b|] eqn:Ea; [|discriminate]. destruct (opt_map S l) as [u|] eqn:El; [|discriminate]. injection E as <-. cbn [map].
  rewrite (IH u) by (assumption || reflexivity). f_equal. destruct (HS a b Ea) as (_ & B & _). now apply B.
Qed.
Lemma vec_con : forall ds l', ds <> [] -> vec_simplify srt same S (map Con ds) = Some l' -> l' = [Con (pr ds)].
Proof.
  intros ds l' N. unfold vec_simplify. replace (map (fun e => match e with Var _ => Pow e (Con 1) | _ => e end) (map Con ds)) with (map Con ds) by (rewrite map_map; apply map_ext; reflexivity).
  destruct ds as [|d ds]; [contradiction|]. cbn [map]. replace (length (Con d :: map Con ds)) with (Datatypes.S (length ds)) by (cbn [length]; now rewrite map_length).
  rewrite groups_one; [|rewrite map_length; lia|intros y Iy; apply in_map_iff in Iy; destruct Iy as (z & <- & _); reflexivity]. cbn [map fst snd flat_map app].
  assert (C : combine_prod srt same (Con d) (map Con ds) = Con (pr (d :: ds))).
  { destruct ds as [|d1 ds]; [unfold pr; cbn; f_equal; ring|]. unfold combine_prod. cbn [map]. change (Con d1 :: map Con ds) with (map Con (d1 :: ds)). rewrite fold_left_mult. f_equal.
    change (pr (d :: d1 :: ds)) with (d * pr (d1 :: ds)). f_equal. f_equal. change (con_val (Con d1) :: map con_val (map Con ds)) with (map con_val (map Con (d1 :: ds))). rewrite map_map. apply map_id. }
  rewrite C. cbn [factors app filter existsb is_one]. destruct (reqb (pr (d :: ds)) 1) eqn:O; cbn [negb opt_map orb].
  - intros [= <-]. apply reqb_true in O. rewrite O. reflexivity.
  - destruct (S (Con (pr (d :: ds)))) as [b|] eqn:E; [|discriminate]. intros [= <-]. destruct (HS _ _ E) as (_ & B & _). rewrite (B I). reflexivity.
Qed.
Lemma cons_clone : forall e, constants e -> constants (clone srt e).
Proof.
  intros e. induction e as [c|s|l IH|l IH|e IH|b e IHb IHe|e IH|f l IH] using expr_ind'; intros H; try contradiction H; try exact I; cbn [clone].
  - apply cons_Add in H. apply mk_add_cons. rewrite Forall_forall in *. intros a Ia. apply in_map_iff in Ia. destruct Ia as (b & <- & Ib). now apply IH; [|apply H].
  - apply cons_Prod in H. destruct H as [N H]. apply mk_prod_cons; [intros E; apply map_eq_nil in E; contradiction|]. rewrite Forall_forall in *. intros a Ia. apply in_map_iff in Ia. destruct Ia as (b & <- & Ib). now apply IH; [|apply H].
Qed.
Lemma tame_clone : forall e c, tame F c r e -> tame F c r (clone srt e).
Proof.
  intros e. induction e as [c|s|l IH|l IH|e IH|b e IHb IHe|e IH|f l IH] using expr_ind'; intros c0 H; try exact I; cbn [clone].
  - apply tame_Add in H. apply mk_add_ok. rewrite Forall_forall in *. intros a Ia. apply in_map_iff in Ia. destruct Ia as (b & <- & Ib). destruct (H b Ib) as [H1 H2].
    split; [now apply IH|]. intros T. rewrite ev_clone by exact Hsrt. destruct (H2 T) as [Q|[Q|(l' & ->)]]; [left; now apply cons_clone|right; left; exact Q|right; right; cbn [clone]; eexists; reflexivity].
  - apply tame_Prod in H. destruct H as [N H]. apply mk_prod_ok; [intros E; apply map_eq_nil in E; contradiction|]. rewrite Forall_forall in *. intros a Ia. apply in_map_iff in Ia. destruct Ia as (b & <- & Ib). destruct (H b Ib) as [H1 H2].
    split; [now apply IH|]. intros T. rewrite ev_clone by exact Hsrt. destruct (H2 T) as [Q|Q]; [left; now apply cons_clone|right; exact Q].
  - cbn [tame] in *. now apply IH.
  - cbn [tame] in *. rewrite ev_clone by exact Hsrt. destruct H as [(H1 & H2 & H3)|(H1 & H2 & n & -> & H3)]; [left; split; [now apply IHb|split; [exact H2|now apply IHe]]|].
    right. split; [exact H1|]. split; [now apply IHb|]. exists n. split; [reflexivity|exact H3].
  - cbn [tame] in *. rewrite ev_clone by exact Hsrt. destruct H as (H1 & H2 & H3). split; [exact H1|]. split; [now apply IH|exact H3].
  - apply tame_User in H. apply tame_User. rewrite Forall_forall in *. intros a Ia. apply in_map_iff in Ia. destruct Ia as (b & <- & Ib). now apply IH; [|apply H].
Qed.
Lemma sel_clone : forall c e, sel c e -> sel c (clone srt e).
Proof. intros c e [H K]. split; [now apply tame_clone|]. intros T. rewrite ev_clone by exact Hsrt. destruct (K T); [left; now apply cons_clone|tauto]. Qed.
(* operators *)
Lemma tel_factors : forall c e, tel c e -> Forall (sel c) (factors e).
Proof.
  intros c e [H K]. assert (G : ~ product e -> Forall (sel c) [e]).
  { intros N. constructor; [|constructor]. split; [exact H|]. intros T. destruct (K T) as [Q|[Q|Q]]; [left; exact Q|right; exact Q|contradiction]. }
  destruct e as [d|s|l|l|a|b a|a|f l]; try (apply G; intros (l' & Q); discriminate). cbn [factors]. apply tame_Prod in H. apply H.
Qed.
Lemma times_tel : forall c x y, tel c x -> tel c y -> tel c (times srt x y).
Proof.
  intros c x y Hx Hy. unfold times. destruct (is_zero x || is_zero y); [apply sel_tel, cons_sel; exact I|]. destruct (is_one x); [exact Hy|]. destruct (is_one y); [exact Hx|].
  pose proof (tel_factors c x Hx) as Fx. pose proof (tel_factors c y Hy) as Fy.
  assert (G : forall l, l <> [] -> Forall (sel c) l -> tel c (Prod l)) by (intros l N H; split; [apply tame_Prod; split; assumption|intros _; right; right; eexists; reflexivity]).
  assert (M : forall l, l <> [] -> Forall (sel c) l -> tel c (mk_prod srt l)) by (intros l N H; split; [apply mk_prod_ok; assumption|intros _; right; right; eexists; reflexivity]).
  assert (N1 : forall l, Prod l = x -> l <> []) by (intros l <-; destruct Hx as [Hx _]; apply tame_Prod in Hx; apply Hx).
  destruct x as [d|s|l|l|a|b a|a|f l], y as [d'|s'|l'|l'|a'|b' a'|a'|f' l']; cbn [factors] in Fx, Fy;
    try (apply G; [discriminate|]; inversion Fx; subst; inversion Fy; subst; constructor; [assumption|constructor; [assumption|constructor]]);
    try (apply M; [discriminate|inversion Fx; subst; constructor; assumption]);
    (apply M; [intros E; apply app_eq_nil in E; apply (N1 l eq_refl), E|apply F_app; assumption]).
Qed.
Lemma times_cons : forall x y, constants x -> constants y -> constants (times srt x y).
Proof.
  intros x y Hx Hy. unfold times. destruct (is_zero x || is_zero y); [exact I|]. destruct (is_one x); [exact Hy|]. destruct (is_one y); [exact Hx|].
  assert (CF : forall e, constants e -> Forall constants (factors e) /\ factors e <> []).
  { intros e H. destruct e; try (split; [constructor; [exact H|constructor]|discriminate]). apply cons_Prod in H. cbn [factors]. tauto. }
  destruct (CF x Hx) as [Fx Nx]. destruct (CF y Hy) as [Fy Ny].
  destruct x as [d|s|l|l|a|b a|a|f l]; try contradiction Hx; destruct y as [d'|s'|l'|l'|a'|b' a'|a'|f' l']; try contradiction Hy; cbn [factors] in Fx, Fy, Nx, Ny;
    try (apply cons_Prod; split; [discriminate|]; constructor; [assumption|constructor; [assumption|constructor]]);
    try (apply mk_prod_cons; [discriminate|constructor; assumption]);
    (apply mk_prod_cons; [intros E; apply app_eq_nil in E; apply Nx, E|apply F_app; assumption]).
Qed.
Lemma plus_tame : forall x y, tame F false r x -> tame F false r y -> tame F false r (plus srt x y).
Proof.
  intros x y Hx Hy. unfold plus. destruct (is_zero x); [exact Hy|]. destruct (is_zero y); [exact Hx|].
  assert (CF : forall e, tame F false r e -> Forall (tel false) (addends e)).
  { intros e H. apply tel_addends. now apply tel_false. }
  pose proof (CF x Hx) as Fx. pose proof (CF y Hy) as Fy. 
  destruct x as [d|s|l|l|a|b a|a|f l], y as [d'|s'|l'|l'|a'|b' a'|a'|f' l']; cbn [addends] in Fx, Fy;
    try (apply tame_Add; constructor; [apply tel_false; assumption|constructor; [apply tel_false; assumption|constructor]]);
    try (apply mk_add_ok; constructor; [apply tel_false; assumption|assumption]);
    (apply mk_add_ok, F_app; assumption).
Qed.
Lemma plus_cons : forall x y, constants x -> constants y -> constants (plus srt x y).
Proof.
  intros x y Hx Hy. unfold plus. destruct (is_zero x); [exact Hy|]. destruct (is_zero y); [exact Hx|].
  assert (CF : forall e, constants e -> Forall constants (addends e)).
  { intros e H. destruct e; try (constructor; [exact H|constructor]). now apply cons_Add in H. }
  pose proof (CF x Hx) as Fx. pose proof (CF y Hy) as Fy. 
  destruct x as [d|s|l|l|a|b a|a|f l]; try contradiction Hx; destruct y as [d'|s'|l'|l'|a'|b' a'|a'|f' l']; try contradiction Hy; cbn [addends] in Fx, Fy;
    try (apply cons_Add; constructor; [assumption|constructor; [assumption|constructor]]);
    try (apply mk_add_cons; constructor; assumption);
    (apply mk_add_cons, F_app; assumption).
Qed.
Lemma minus1_tame : forall a, tame F false r a -> tame F false r (minus srt a (Con 1)).
Proof. intros a H. apply plus_tame; [exact H|]. apply (times_tel false); apply tel_false; exact I. Qed.
Lemma minus1_cons : forall a, constants a -> constants (minus srt a (Con 1)).
Proof. intros a H. apply plus_cons; [exact H|]. apply times_cons; exact I. Qed.

Lemma split_pow_ok : forall c e, sel c e -> Forall (elem c) (split_pow srt e) /\ pre (split_pow srt e) = ev r e /\ split_pow srt e <> [].
Proof.
  intros c e H.
  assert (CL : Forall (elem c) [clone srt e] /\ pre [clone srt e] = ev r e /\ [clone srt e] <> []).
  { split; [constructor; [left; now apply sel_clone|constructor]|]. split; [|discriminate]. unfold pr. cbn [map fold_right]. rewrite ev_clone by exact Hsrt. ring. }
  destruct e as [d|s|l|l|a|b a|a|f l]; try exact CL. clear CL. cbn [split_pow]. destruct H as [H _].
  (* b itself, its factors, and the remaining power *)
  assert (B : sel c b /\ (is_one a = false -> elem c (Pow b (minus srt a (Con 1))) /\ ev r b * ev r (Pow b (minus srt a (Con 1))) = ev r (Pow b a))).
  { cbn [tame] in H. destruct H as [(H1 & H2 & H3)|(-> & H2 & n & -> & H3)].
    - split; [split; [destruct c; [exact H1|now apply tame_weak]|intros _; right; exact H2]|]. intros _. split.
      + left. split; [|intros _; right; cbn [SymSpec.ev]; rewrite rpow_pos by exact H2; apply exp_pos]. cbn [tame]. left. split; [exact H1|]. split; [exact H2|now apply minus1_tame].
      + cbn [SymSpec.ev]. rewrite ev_minus by exact Hsrt. cbn [SymSpec.ev]. rewrite !rpow_pos by exact H2. rewrite <- (Rpower_1 (ev r b)) at 1 by exact H2. rewrite <- Rpower_plus. f_equal. ring.
    - split; [now apply sel_false|]. intros O. cbn [is_one] in O. apply reqb_false in O. assert (NZ : ev r b <> 0 \/ (1 <= n - 1)%Z).
      { destruct H3 as [H3|H3]; [left; exact H3|]. right. assert (n <> 1%Z) by (intros ->; now apply O). lia. }
      split.
      + right. exists b, (minus srt (Con (IZR n)) (Con 1)), (n - 1)%Z. split; [reflexivity|]. split; [exact H2|]. split; [apply minus1_cons; exact I|].
        split; [rewrite ev_minus by exact Hsrt; cbn [SymSpec.ev]; rewrite minus_IZR; reflexivity|]. split; [exact NZ|discriminate].
      + cbn [SymSpec.ev]. rewrite ev_minus by exact Hsrt. cbn [SymSpec.ev]. rewrite <- minus_IZR. rewrite <- (rpow_1 (ev r b)) at 1. rewrite rpow_nz by (destruct NZ; [left; assumption|right; lia]). do 2 f_equal. lia. }
  destruct B as [B1 B2]. destruct (is_one a) eqn:O.
  { split; [constructor; [left; exact B1|constructor]|]. split; [|discriminate]. unfold pr. cbn [map fold_right SymSpec.ev]. rewrite (is_one_ev F r a O), rpow_1. ring. }
  destruct (B2 eq_refl) as [B3 B4]. 
  assert (D : Forall (elem c) [b; Pow b (minus srt a (Con 1))] /\ pre [b; Pow b (minus srt a (Con 1))] = ev r (Pow b a) /\ [b; Pow b (minus srt a (Con 1))] <> []).
  { split; [constructor; [left; exact B1|constructor; [exact B3|constructor]]|]. split; [|discriminate]. rewrite <- B4. unfold pr. cbn [map fold_right]. ring. }
  destruct b as [d|s|l|l|b' |b' a'|b'|f l]; try exact D. clear D. pose proof (sel_factors c _ B1) as FB. cbn [factors] in FB. split; [|split].
  - apply F_app; [apply (F_imp _ (sel c)); [intros; left; assumption|exact FB]|constructor; [exact B3|constructor]].
  - rewrite map_app, pr_app, <- ev_Prod, <- B4. unfold pr. cbn [map fold_right]. ring.
  - intros E. apply app_eq_nil in E. destruct E as [_ E]. discriminate.
Qed.
Lemma prod_of_ok : forall c t, t <> [] -> Forall (sel c) t -> tel c (prod_of srt t) /\ ev r (prod_of srt t) = pre t.
Proof.
  intros c t N H. assert (G : tel c (mk_prod srt t) /\ ev r (mk_prod srt t) = pre t).
  { split; [split; [now apply mk_prod_ok|intros _; right; right; eexists; reflexivity]|]. apply ev_mk_prod, Hsrt. }
  destruct t as [|x [|y t]]; [contradiction| |exact G]. inversion H; subst. cbn [prod_of]. split; [now apply sel_tel|]. unfold pr. cbn [map fold_right]. ring.
Qed.
Lemma wrap_ok : forall c t, t <> [] -> Forall (sel c) t -> let u := srt (map (fun e => match e with Pow _ _ => e | _ => Pow e (Con 1) end) t) in
  Forall (elem c) u /\ pre u = pre t /\ u <> [].
Proof.
  intros c t N H u. split; [|split].
  - apply (F_perm _ _ _ _ (Hsrt _)). apply (F_map _ _ (sel c)); [|exact H]. intros e He. assert (G : elem c (Pow e (Con 1))).
    { destruct He as [He1 He2]. destruct c.
      - destruct (He2 eq_refl) as [Q|Q].
        + right. exists e, (Con 1), 1%Z. split; [reflexivity|]. split; [exact He1|]. split; [exact I|]. split; [reflexivity|]. split; [right; lia|]. intros _. exact Q.
        + left. split; [cbn [tame]; left; tauto|]. intros _. right. cbn [SymSpec.ev]. rewrite rpow_1. exact Q.
      - right. exists e, (Con 1), 1%Z. split; [reflexivity|]. split; [exact He1|]. split; [exact I|]. split; [reflexivity|]. split; [right; lia|discriminate]. }
    destruct e; try exact G. left. exact He.
  - unfold u. rewrite (pr_perm _ _ (Permutation_map (ev r) (Hsrt _))), map_map. f_equal. apply map_ext. intros e. destruct e; cbn [SymSpec.ev]; rewrite ?rpow_1; reflexivity.
  - intros E. apply srt_nil, map_eq_nil in E. contradiction.
Qed.
Lemma prod_simplify_ok : forall c n l e', l <> [] -> Forall (sel c) l -> prod_simplify srt same shorter S n l = Some e' -> tel c e' /\ ev r e' = pre l.
Proof.
  intros c n l e' N H. unfold prod_simplify. destruct (existsb is_zero l) eqn:Z.
  { intros [= <-]. split; [apply sel_tel, cons_sel; exact I|]. cbn [SymSpec.ev]. symmetry. apply pr_zero. apply existsb_exists in Z. destruct Z as (a & Ia & Za). apply Exists_exists. exists a. split; [exact Ia|now apply is_zero_ev]. }
  assert (G : match opt_map S l with None => None | Some t0 => match vec_simplify srt same S t0 with None => None | Some t =>
           let out := prod_of srt t in
           match (if Nat.ltb 1 (length t)
                  then match vec_simplify srt same S (srt (map (fun e => match e with Pow _ _ => e | _ => Pow e (Con 1) end) t)) with
                       | None => None
                       | Some u => Some (if shorter (prod_of srt u) out then prod_of srt u else out)
                       end
                  else Some out) with None => None | Some out =>
           match reduce srt same S n (flat_map (split_pow srt) t) with None => None | Some u =>
           Some (if shorter (prod_of srt u) out then prod_of srt u else out)
           end end end end = Some e' -> tel c e' /\ ev r e' = pre l).
  { destruct (opt_map S l) as [t0|] eqn:E0; [|discriminate]. destruct (opt_map_F (sel c) (sel c) l t0) as [A0 M0]; [intros e e1 Q K; apply (S_sel c e e1 Q); left; exact K|exact H|exact E0|].
    assert (N0 : t0 <> []) by (intros ->; destruct l; [contradiction|discriminate]).
    destruct (vec_simplify srt same S t0) as [t|] eqn:E1; [|discriminate]. 
    assert (SE : forall l, Forall (sel c) l -> Forall (elem c) l) by (intros; apply (F_imp _ (sel c)); [intros; left; assumption|assumption]).
    destruct (vec_ok c t0 t N0 (SE _ A0) E1) as (A1 & P1 & N1). cbv zeta. destruct (prod_of_ok c t N1 A1) as [T1 V1].
    match goal with |- match ?o with _ => _ end = _ -> _ => destruct o as [out|] eqn:E2 end; [|discriminate].
    assert (O : tel c out /\ ev r out = pre t).
    { destruct (Nat.ltb 1 (length t)); [|injection E2 as <-; tauto]. destruct (wrap_ok c t N1 A1) as (A2 & P2 & N2).
      destruct (vec_simplify srt same S (srt _)) as [u|] eqn:E3; [|discriminate]. destruct (vec_ok c _ u N2 A2 E3) as (A3 & P3 & N3). destruct (prod_of_ok c u N3 A3) as [T3 V3].
      injection E2 as <-. destruct (shorter _ _); [split; [exact T3|congruence]|tauto]. }
    destruct (reduce srt same S n (flat_map (split_pow srt) t)) as [u|] eqn:E4; [|discriminate].
    assert (SP : Forall (elem c) (flat_map (split_pow srt) t) /\ pre (flat_map (split_pow srt) t) = pre t /\ flat_map (split_pow srt) t <> []).
    { split; [apply (F_flat _ _ (sel c)); [intros x Hx; apply (split_pow_ok c x Hx)|exact A1]|]. split.
      - apply flat_pre. rewrite Forall_forall in A1. intros e Ie. apply (split_pow_ok c e (A1 e Ie)).
      - destruct A1 as [|x t Hx Ht]; [contradiction|]. cbn [flat_map]. intros E. apply app_eq_nil in E. apply (split_pow_ok c x Hx), E. }
    destruct SP as (A5 & P5 & N5). destruct (reduce_ok c n _ u N5 A5 E4) as (A6 & P6 & N6). destruct (prod_of_ok c u N6 A6) as [T6 V6].
    assert (PL : pre t = pre l) by (rewrite P1, M0; reflexivity). intros [= <-]. destruct (shorter _ _); [split; [exact T6|congruence]|]. split; [tauto|]. destruct O. congruence. }
  destruct l as [|x [|y l]]; [contradiction| |exact G]. clear G. intros E. inversion H; subst. destruct (S_sel c x e' E) as [A B]; [left; assumption|].
  split; [now apply sel_tel|]. rewrite B. unfold pr. cbn [map fold_right]. ring.
Qed.
Lemma reduce_con : forall n d l', reduce srt same S n [Con d] = Some l' -> l' = [Con d].
Proof.
  intros [|n] d l'; [discriminate|]. cbn [reduce]. destruct (vec_simplify srt same S [Con d]) as [t|] eqn:E; [|discriminate].
  apply (vec_con [d]) in E; [|discriminate]. replace (pr [d]) with d in E by (unfold pr; cbn; ring). subst t. cbn. intros [= <-]. reflexivity.
Qed.
Lemma prod_simplify_cons : forall n l e', l <> [] -> Forall constants l -> prod_simplify srt same shorter S n l = Some e' -> e' = Con (pre l).
Proof.
  intros n l e' N H E. destruct (prod_simplify_ok false n l e' N) as [_ V]; [apply (F_imp _ constants); [intros; now apply cons_sel|exact H]|exact E|].
  revert E. unfold prod_simplify. destruct (existsb is_zero l) eqn:Z; [intros [= <-]; cbn [SymSpec.ev] in V; congruence|].
  assert (G : match opt_map S l with None => None | Some t0 => match vec_simplify srt same S t0 with None => None | Some t =>
           let out := prod_of srt t in
           match (if Nat.ltb 1 (length t)
                  then match vec_simplify srt same S (srt (map (fun e => match e with Pow _ _ => e | _ => Pow e (Con 1) end) t)) with
                       | None => None
                       | Some u => Some (if shorter (prod_of srt u) out then prod_of srt u else out)
                       end
                  else Some out) with None => None | Some out =>
           match reduce srt same S n (flat_map (split_pow srt) t) with None => None | Some u =>
           Some (if shorter (prod_of srt u) out then prod_of srt u else out)
           end end end end = Some e' -> e' = Con (pre l)).
  { destruct (opt_map S l) as [t0|] eqn:E0; [|discriminate]. apply opt_map_cons in E0; [|exact H]. subst t0. 
    destruct (vec_simplify _ _ _ _) as [t|] eqn:E1; [|discriminate]. apply vec_con in E1; [|intros E; apply map_eq_nil in E; contradiction]. subst t. cbn [length prod_of flat_map split_pow clone app]. cbv zeta.
    change (Nat.ltb 1 1) with false. cbv iota. destruct (reduce _ _ _ _ _) as [u|] eqn:E2; [|discriminate]. apply reduce_con in E2. subst u. cbn [prod_of]. destruct (shorter _ _); intros [= <-]; reflexivity. }
  destruct l as [|x [|y l]]; [contradiction| |exact G]. clear G. intros E. inversion H; subst. destruct (HS x e' E) as (_ & B & _). rewrite B by assumption. f_equal. unfold pr. cbn [map fold_right]. ring.
Qed.

(* ---- sums ---- *)
Lemma fl_plus : forall y c, Forall (fun e => kind e = 0%nat) y -> fold_left Rplus (map (fun e => match e with Con d => d | _ => 0 end) y) c = c + sme y.
Proof.
  intros y c H. revert c. induction H as [|e y He Hy IH]; intros c; [unfold sm; cbn; ring|]. destruct (con_kind e He) as (d & ->). cbn [map fold_left]. rewrite IH.
  change (sm (ev r (Con d) :: map (ev r) y)) with (d + sme y). ring.
Qed.
Lemma combine_add_ok : forall c x y, tel c x -> Forall (tel c) y -> (forall z, In z y -> kind x = kind z) ->
  let e := combine_add srt x y in Forall (tel c) (addends e) /\ sme (addends e) = ev r x + sme y.
Proof.
  intros c x y Hx Hy K e. unfold e, combine_add. clear e.
  assert (Gen : let e := mk_add srt (y ++ [x]) in Forall (tel c) (addends e) /\ sme (addends e) = ev r x + sme y).
  { cbn [addends Sym.mk_add]. split; [apply (F_perm _ _ _ _ (Hsrt _)), F_app; [exact Hy|constructor; [exact Hx|constructor]]|].
    rewrite (sm_perm _ _ (Permutation_map (ev r) (Hsrt _))), map_app, sm_app. unfold sm at 2. cbn [map fold_right]. ring. }
  destruct y as [|z t]; [split; [now apply tel_addends|]; rewrite addends_ev; unfold sm; cbn [map fold_right]; ring|].
  remember (z :: t) as y eqn:Ey. clear Ey z t. assert (KF : Forall (fun z => kind z = kind x) y) by (rewrite Forall_forall; intros u I; symmetry; now apply K).
  destruct x as [d|s|l|l|a|b a|a|f l]; try exact Gen.
  - rewrite fl_plus by exact KF. cbn [addends]. split; [constructor; [apply sel_tel, cons_sel; exact I|constructor]|]. unfold sm at 1. cbn [map fold_right SymSpec.ev]. ring.
  - cbn [addends Sym.mk_add]. split.
    + apply (F_perm _ _ _ _ (Hsrt _)), F_app; [apply (tel_addends c _ Hx)|]. apply (F_flat _ _ (tel c)); [|exact Hy]. intros u Hu. apply (tel_addends c u Hu).
    + rewrite (sm_perm _ _ (Permutation_map (ev r) (Hsrt _))), map_app, sm_app, ev_Add. f_equal. apply flat_sme. intros. apply addends_ev.
Qed.
Definition sc (e : expr) : R := match e with Con c => c | Prod l => scale l | _ => 1 end.
Lemma scale_sc : forall e, get_scale e = Con (sc e). Proof. intros []; reflexivity. Qed.
Lemma sc_ev : forall e, ev r e = sc e * ev r (get_unscaled srt e).
Proof. intros e. destruct e; cbn [sc get_unscaled]; try ring; [cbn [SymSpec.ev]; ring|]. rewrite ev_Prod. now apply ev_unscaled. Qed.
Lemma unscaled_tel : forall c e, tel c e -> tel c (get_unscaled srt e).
Proof.
  intros c e H. destruct e as [d|s|l|l|a|b a|a|f l]; try exact H; cbn [get_unscaled]. { apply sel_tel, cons_sel; exact I. }
  pose proof (F_filter _ _ (fun e => negb (is_con e)) _ (tel_factors c _ H)) as G. cbn [factors] in G. unfold unscaled.
  destruct (filter (fun e => negb (is_con e)) l) as [|x [|y t]]; [apply sel_tel, cons_sel; exact I|inversion G; subst; now apply sel_tel|].
  split; [apply mk_prod_ok; [discriminate|exact G]|]. intros _. right. right. eexists. reflexivity.
Qed.
Lemma scale_group_ok : forall c g e', tel c (fst g) -> Forall (tel c) (snd g) -> (forall y, In y (snd g) -> get_unscaled srt y = get_unscaled srt (fst g)) ->
  scale_group srt S g = Some e' -> tel c e' /\ ev r e' = group_sme g.
Proof.
  intros c [x t] e' Hx Ht U. unfold scale_group. cbn [fst snd] in *. destruct (S _) as [fact|] eqn:E; [|discriminate].
  assert (Ef : fact = Con (sc x + sm (map sc t))).
  { destruct (HS _ _ E) as (_ & B & _). rewrite B.
    - f_equal. rewrite ev_mk_add by exact Hsrt. rewrite scale_sc. change (sm (map (ev r) (Con (sc x) :: map get_scale t))) with (sc x + sm (map (ev r) (map get_scale t))). f_equal. f_equal. rewrite map_map. apply map_ext. intros a. rewrite scale_sc. reflexivity.
    - apply mk_add_cons. constructor; [rewrite scale_sc; exact I|]. rewrite Forall_forall. intros y Iy. apply in_map_iff in Iy. destruct Iy as (z & <- & _). rewrite scale_sc. exact I. }
  subst fact. set (f := sc x + sm (map sc t)) in *. pose proof (unscaled_tel c x Hx) as UX.
  assert (V : group_sme (x, t) = f * ev r (get_unscaled srt x)).
  { unfold group_sme, f. cbn [fst snd]. rewrite (sc_ev x). rewrite Rmult_plus_distr_r. f_equal. clear - U Hsrt. induction t as [|y t IH]; [unfold sm; cbn; ring|]. cbn [map].
    change (sm (ev r y :: map (ev r) t)) with (ev r y + sme t). change (sm (sc y :: map sc t)) with (sc y + sm (map sc t)). rewrite IH by (intros; apply U; right; assumption). rewrite (sc_ev y), U by (left; reflexivity). ring. }
  rewrite V. destruct (is_one (Con f)) eqn:O.
  - intros [= <-]. split; [exact UX|]. apply (is_one_ev F r) in O. cbn [SymSpec.ev] in O. rewrite O. ring.
  - intros Q. apply (S_tel c) in Q; [|apply times_tel; [apply sel_tel, cons_sel; exact I|exact UX]]. destruct Q as [Q1 Q2]. split; [exact Q1|]. rewrite Q2, ev_times by exact Hsrt. reflexivity.
Qed.
Lemma sme_zeros : forall l, sme (filter (fun e => negb (is_zero e)) l) = sme l.
Proof.
  intros l. induction l as [|a l IH]; [reflexivity|]. cbn [filter]. destruct (is_zero a) eqn:E; cbn [negb].
  - change (sme (a :: l)) with (ev r a + sme l). rewrite (is_zero_ev F r a E), IH. ring.
  - change (ev r a + sme (filter (fun e => negb (is_zero e)) l) = ev r a + sme l). rewrite IH. reflexivity.
Qed.
Lemma add_simplify_ok : forall c l e', Forall (tel c) l -> add_simplify srt same S l = Some e' -> tame F c r e' /\ ev r e' = sme l.
Proof.
  intros c l e' H. unfold add_simplify.
  match goal with |- match l with [] => ?g | _ => _ end = _ -> _ => set (body := g) end.
  assert (G : match opt_map S l with None => None | Some t =>
      let t2 := map (fun g => combine_add srt (fst g) (snd g)) (groups same_kind (length t) t) in
      match opt_map S (flat_map addends t2) with None => None | Some t3 =>
      let t4 := filter (fun e => negb (is_zero e)) t3 in
      match opt_groups srt S (groups (fun a b => same (get_unscaled srt a) (get_unscaled srt b)) (length t4) t4) with
      | None => None
      | Some [] => Some (Con 0)
      | Some [x] => Some x
      | Some t5 => Some (mk_add srt t5)
      end end end = Some e' -> tame F c r e' /\ ev r e' = sme l).
  { clear body. destruct (opt_map S l) as [t|] eqn:E0; [|discriminate]. destruct (opt_map_F (tel c) (tel c) l t) as [A0 M0]; [intros e e1 Q K; apply (S_tel c e e1 Q K)|exact H|exact E0|].
    cbv zeta. set (gs := groups same_kind (length t) t). set (t2 := flat_map addends _).
    assert (A2 : Forall (tel c) t2 /\ sme t2 = sme t).
    { assert (PG : sme t = sm (map group_sme gs)) by (unfold gs; rewrite groups_sme; reflexivity). rewrite PG.
      assert (G : Forall (fun g => let e := combine_add srt (fst g) (snd g) in Forall (tel c) (addends e) /\ sme (addends e) = group_sme g) gs).
      { pose proof (groups_F (tel c) same_kind (length t) t A0) as G2. pose proof (groups_like same_kind (length t) t) as G3. fold gs in G2, G3.
        rewrite Forall_forall in *. intros g Ig. destruct (G2 g Ig) as [A B]. apply combine_add_ok; [exact A|exact B|]. intros z Iz. specialize (G3 g Ig z Iz). now apply Nat.eqb_eq. }
      unfold t2. clearbody gs. clear - G. induction G as [|g gs (A & B) Gs [IH1 IH2]]; cbn [map flat_map]; [split; [constructor|reflexivity]|].
      split; [now apply F_app|]. rewrite map_app, sm_app, IH2, B. reflexivity. }
    destruct A2 as [A2 P2]. clearbody t2. destruct (opt_map S t2) as [t3|] eqn:E2; [|discriminate]. destruct (opt_map_F (tel c) (tel c) t2 t3) as [A3 M3]; [intros e e1 Q K; apply (S_tel c e e1 Q K)|exact A2|exact E2|].
    set (t4 := filter _ t3). assert (A4 : Forall (tel c) t4) by (apply F_filter; exact A3). assert (P4 : sme t4 = sme l) by (unfold t4; rewrite sme_zeros, M3, P2, M0; reflexivity). clearbody t4.
    set (like := fun a b => same (get_unscaled srt a) (get_unscaled srt b)). set (g5 := groups like (length t4) t4).
    assert (PG : sme l = sm (map group_sme g5)) by (unfold g5; rewrite groups_sme; symmetry; exact P4).
    assert (G : forall t5, opt_groups srt S g5 = Some t5 -> Forall (tel c) t5 /\ sme t5 = sm (map group_sme g5)).
    { assert (G : Forall (fun g => forall e', scale_group srt S g = Some e' -> tel c e' /\ ev r e' = group_sme g) g5).
      { pose proof (groups_F (tel c) like (length t4) t4 A4) as G2. pose proof (groups_like like (length t4) t4) as G3. fold g5 in G2, G3.
        rewrite Forall_forall in *. intros g Ig e1 Q. destruct (G2 g Ig) as [A B]. apply (scale_group_ok c g e1 A B); [|exact Q]. intros y Iy. symmetry. apply Hsame. apply (G3 g Ig y Iy). }
      clearbody g5. clear - G. induction G as [|g gs Hg Gs IH]; intros t5 Q; cbn [opt_groups] in Q; [injection Q as <-; split; [constructor|reflexivity]|].
      destruct (scale_group srt S g) as [b|] eqn:Eb; [|discriminate]. destruct (opt_groups srt S gs) as [u|] eqn:Eu; [|discriminate]. injection Q as <-.
      destruct (Hg b eq_refl) as [X1 X2]. destruct (IH u eq_refl) as [X3 X4]. split; [constructor; assumption|]. cbn [map].
      change (ev r b + sme u = group_sme g + sm (map group_sme gs)). rewrite X2, X4. reflexivity. }
    destruct (opt_groups srt S g5) as [t5|]; [|discriminate]. destruct (G t5 eq_refl) as [A5 P5]. rewrite PG, <- P5.
    destruct t5 as [|x [|y t5]]; intros [= <-]; [split; [exact I|reflexivity]| |split; [now apply mk_add_ok|apply ev_mk_add, Hsrt]].
    inversion A5 as [|? ? (X & _) _]; subst. split; [exact X|]. unfold sm. cbn [map fold_right]. ring. }
  destruct l as [|x [|y l]]; [exact G| |exact G]. clear G. intros E. inversion H; subst. destruct (S_tel c x e' E) as [[A _] B]; [assumption|].
  split; [exact A|]. rewrite B. unfold sm. cbn [map fold_right]. ring.
Qed.
Lemma add_simplify_cons : forall l e', Forall constants l -> add_simplify srt same S l = Some e' -> e' = Con (sme l).
Proof.
  intros l e' H. unfold add_simplify.
  assert (G : match opt_map S l with None => None | Some t =>
      let t2 := map (fun g => combine_add srt (fst g) (snd g)) (groups same_kind (length t) t) in
      match opt_map S (flat_map addends t2) with None => None | Some t3 =>
      let t4 := filter (fun e => negb (is_zero e)) t3 in
      match opt_groups srt S (groups (fun a b => same (get_unscaled srt a) (get_unscaled srt b)) (length t4) t4) with
      | None => None
      | Some [] => Some (Con 0)
      | Some [x] => Some x
      | Some t5 => Some (mk_add srt t5)
      end end end = Some e' -> e' = Con (sme l)).
  { destruct (opt_map S l) as [t|] eqn:E0; [|discriminate]. apply opt_map_cons in E0; [|exact H]. subst t. cbv zeta. 
    destruct (map (ev r) l) as [|d ds]; [cbn; intros [= <-]; reflexivity|]. cbn [map].
    replace (length (Con d :: map Con ds)) with (Datatypes.S (length ds)) by (cbn [length]; now rewrite map_length).
    rewrite groups_one; [|rewrite map_length; lia|intros y Iy; apply in_map_iff in Iy; destruct Iy as (z & <- & _); reflexivity]. cbn [map fst snd flat_map app].
    assert (C : combine_add srt (Con d) (map Con ds) = Con (sm (d :: ds))).
    { destruct ds as [|d1 ds]; [unfold sm; cbn; f_equal; ring|]. unfold combine_add. cbn [map]. change (Con d1 :: map Con ds) with (map Con (d1 :: ds)).
      change (d1 :: map (fun e => match e with Con d0 => d0 | _ => 0 end) (map Con ds)) with (map (fun e => match e with Con d0 => d0 | _ => 0 end) (map Con (d1 :: ds))).
      rewrite fl_plus by (rewrite Forall_forall; intros z Iz; apply in_map_iff in Iz; destruct Iz as (w & <- & _); reflexivity). f_equal. rewrite map_map. cbn [SymSpec.ev]. rewrite map_id. change (sm (d :: d1 :: ds)) with (d + sm (d1 :: ds)). ring. }
    rewrite C. set (s := sm (d :: ds)). cbn [addends app opt_map]. destruct (S (Con s)) as [b|] eqn:Es; [|discriminate]. destruct (HS _ _ Es) as (_ & B & _). rewrite (B I) in *. clear B b.
    cbn [SymSpec.ev filter is_zero]. destruct (reqb s 0) eqn:Z; cbn [negb length groups].
    { apply reqb_true in Z. cbn [opt_groups]. intros [= <-]. rewrite Z. reflexivity. }
    cbn [opt_groups filter length groups]. destruct (scale_group srt S (Con s, [])) as [x|] eqn:Q; [|discriminate]. intros [= <-].
    revert Q. unfold scale_group. cbn [fst snd get_scale get_unscaled map]. destruct (S (mk_add srt [Con s])) as [fact|] eqn:Ef; [|discriminate].
    destruct (HS _ _ Ef) as (_ & B & _). rewrite B by (apply mk_add_cons; constructor; [exact I|constructor]). rewrite ev_mk_add by exact Hsrt.
    replace (sm (map (ev r) [Con s])) with s by (unfold sm; cbn; ring). cbn [is_one]. destruct (reqb s 1) eqn:O; [intros [= <-]; apply reqb_true in O; rewrite O; reflexivity|].
    unfold times. cbn [is_zero is_one]. rewrite Z, O. replace (reqb 1 0) with false by (unfold reqb; destruct (Req_EM_T 1 0); [lra|reflexivity]). rewrite reqb_refl. cbn [orb].
    rewrite Es. intros [= <-]. reflexivity. }
  destruct l as [|x [|y l]]; [exact G| |exact G]. clear G. intros E. inversion H; subst. destruct (HS x e' E) as (_ & B & _). rewrite B by assumption. f_equal. unfold sm. cbn [map fold_right]. ring.
Qed.

(* ---- powers ---- *)
Lemma rpow_mult : forall b x y, 0 < b -> rpow (rpow b x) y = rpow b (x * y).
Proof. intros b x y H. rewrite (rpow_pos b) by exact H. rewrite rpow_pos by apply exp_pos. rewrite rpow_pos by exact H. apply Rpower_mult. Qed.
Lemma powerRZ_zero : forall k, (1 <= k)%Z -> powerRZ 0 k = 0.
Proof. intros k H. destruct k as [|p|p]; try lia. cbn. apply pow_ne_zero. lia. Qed.
Lemma powerRZ_nest : forall b n m, b <> 0 -> powerRZ (powerRZ b n) m = powerRZ b (n * m).
Proof.
  intros b n m H. assert (P : forall k, powerRZ (powerRZ b n) (Z.of_nat k) = powerRZ b (n * Z.of_nat k)).
  { induction k as [|k IH]; [rewrite Z.mul_0_r; reflexivity|]. rewrite Nat2Z.inj_succ. unfold Z.succ. rewrite powerRZ_add by now apply powerRZ_NOR. rewrite IH.
    rewrite Z.mul_add_distr_l, Z.mul_1_r, powerRZ_add by exact H. rewrite powerRZ_1. reflexivity. }
  destruct (Z_le_gt_dec 0 m) as [L|L]; [rewrite <- (Z2Nat.id m L); apply P|].
  replace m with (- Z.of_nat (Z.to_nat (- m)))%Z by lia. rewrite powerRZ_neg', P, <- powerRZ_neg'. f_equal. lia.
Qed.
Lemma rpow_nest : forall b n m, b <> 0 \/ ((1 <= n)%Z /\ (1 <= m)%Z) -> rpow (rpow b (IZR n)) (IZR m) = rpow b (IZR (n * m)).
Proof.
  intros b n m H. rewrite !rpow_int. destruct (Req_dec b 0) as [->|N].
  - destruct H as [H|[H K]]; [congruence|]. rewrite !powerRZ_zero by nia. reflexivity.
  - now apply powerRZ_nest.
Qed.
Lemma pow_strict : forall c b x e', tame F true r b -> 0 < ev r b -> tame F false r x -> pow_simplify srt S b x = Some e' -> sel c e' /\ ev r e' = rpow (ev r b) (ev r x).
Proof.
  intros c b x e' Hb Pb Hx. unfold pow_simplify. destruct (S b) as [b'|] eqn:Eb; [|discriminate]. destruct (S x) as [x'|] eqn:Ex; [|discriminate].
  destruct (HS _ _ Eb) as (Ab & _). destruct (Ab true Hb) as [Tb Vb]. destruct (HS _ _ Ex) as (Ax & _). destruct (Ax false Hx) as [Tx Vx]. clear Ab Ax.
  assert (Pos : 0 < rpow (ev r b) (ev r x)) by (rewrite rpow_pos by exact Pb; apply exp_pos).
  assert (Fin : forall e1, e' = e1 -> tame F c r e1 -> ev r e1 = rpow (ev r b) (ev r x) -> sel c e' /\ ev r e' = rpow (ev r b) (ev r x)).
  { intros e1 -> T V. split; [split; [exact T|intros _; right; rewrite V; exact Pos]|exact V]. }
  destruct (is_zero x') eqn:Zx; [intros [= <-]; eapply Fin; [reflexivity|exact I|]; rewrite <- Vx, (is_zero_ev F r x' Zx), rpow_0; reflexivity|].
  destruct (is_one x') eqn:Ox; [intros [= <-]; eapply Fin; [reflexivity|destruct c; [exact Hb|now apply tame_weak]|]; rewrite <- Vx, (is_one_ev F r x' Ox), rpow_1; reflexivity|].
  destruct (is_one b') eqn:Ob; [intros [= <-]; eapply Fin; [reflexivity|exact I|]; rewrite <- Vb, (is_one_ev F r b' Ob), rpow_pos by lra; cbn [SymSpec.ev]; unfold Rpower; rewrite ln_1, Rmult_0_r, exp_0; reflexivity|].
  destruct (is_zero b') eqn:Zb; [apply (is_zero_ev F r) in Zb; lra|].
  assert (Gen : forall e1, Some (Pow b' x') = Some e1 -> sel c e1 /\ ev r e1 = rpow (ev r b) (ev r x)).
  { intros e1 [= <-]. split; [split; [cbn [tame]; left; rewrite Vb; tauto|]|]; cbn [SymSpec.ev]; rewrite Vb, Vx; [intros _; right; exact Pos|reflexivity]. }
  destruct b' as [d|s|l|l|a|b1 e1|a|f l]; try exact (Gen e').
  - destruct x' as [y|s|l|l|a|b1 e1|a|f l]; try exact (Gen e'). intros [= <-]. cbn [SymSpec.ev] in *. eapply Fin; [reflexivity|exact I|]. cbn [SymSpec.ev]. rewrite Vb, Vx. reflexivity.
  - destruct (S (times srt e1 x')) as [e2|] eqn:E2; [|discriminate]. intros [= <-]. cbn [tame] in Tb. destruct Tb as [(T1 & T2 & T3)|(T & _)]; [|discriminate].
    destruct (HS _ _ E2) as (A2 & _). destruct (A2 false) as [B1 B2]; [apply (times_tel false); apply tel_false; assumption|]. rewrite ev_times in B2 by exact Hsrt.
    eapply Fin; [reflexivity|cbn [tame]; left; tauto|]. cbn [SymSpec.ev] in *. rewrite B2, <- Vb, <- Vx. symmetry. now apply rpow_mult.
Qed.
Lemma pow_semi : forall c b x n e', tame F c r b -> constants x -> ev r x = IZR n -> (ev r b <> 0 \/ (1 <= n)%Z) -> (c = true -> constants b) ->
  pow_simplify srt S b x = Some e' -> sel c e' /\ ev r e' = rpow (ev r b) (ev r x).
Proof.
  intros c b x n e' Hb Cx Hn NZ Cb. unfold pow_simplify. destruct (S b) as [b'|] eqn:Eb; [|discriminate]. destruct (S x) as [x'|] eqn:Ex; [|discriminate].
  destruct (HS _ _ Eb) as (Ab & Bb & _). destruct (Ab c Hb) as [Tb Vb]. destruct (HS _ _ Ex) as (_ & Bx & _). rewrite (Bx Cx) in *. clear Ab Bx x'. rewrite Hn in *.
  assert (CE : c = true -> b' = Con (ev r b)) by (intros T; now apply Bb, Cb). cbn [is_zero is_one].
  assert (K : forall v, v = rpow (ev r b) (IZR n) -> sel c (Con v) /\ ev r (Con v) = rpow (ev r b) (IZR n)) by (intros v ->; split; [apply cons_sel; exact I|reflexivity]).
  destruct (reqb (IZR n) 0) eqn:Zx; [intros [= <-]; apply K; apply reqb_true in Zx; rewrite Zx, rpow_0; reflexivity|].
  destruct (reqb (IZR n) 1) eqn:Ox.
  { intros [= <-]. apply reqb_true in Ox. rewrite Ox, rpow_1. split; [|reflexivity]. split; [exact Hb|]. intros T. left. now apply Cb. }
  destruct (is_one b') eqn:Ob. { intros [= <-]. apply K. rewrite <- Vb, (is_one_ev F r b' Ob), rpow_pos by lra. unfold Rpower. rewrite ln_1, Rmult_0_r, exp_0. reflexivity. }
  destruct (is_zero b') eqn:Zb. { intros [= <-]. apply K. apply (is_zero_ev F r) in Zb. rewrite Vb in Zb. rewrite Zb, rpow_int. destruct NZ as [NZ|NZ]; [contradiction|]. now rewrite powerRZ_zero. }
  assert (Gen : c = false -> Some (Pow b' (Con (IZR n))) = Some e' -> sel c e' /\ ev r e' = rpow (ev r b) (IZR n)).
  { intros -> [= <-]. split; [|cbn [SymSpec.ev]; rewrite Vb; reflexivity]. apply sel_false. cbn [tame]. right. split; [reflexivity|]. split; [exact Tb|]. exists n. rewrite Vb. tauto. }
  destruct b' as [d|s|l|l|a|b1 e1|a|f l]; try (apply Gen; destruct c; [specialize (CE eq_refl); discriminate|reflexivity]).
  - intros [= <-]. cbn [SymSpec.ev] in Vb. apply K. rewrite Vb. reflexivity.
  - destruct c; [specialize (CE eq_refl); discriminate|]. clear Gen CE Cb. destruct (S (times srt e1 (Con (IZR n)))) as [e2|] eqn:E2; [|discriminate]. intros [= <-].
    destruct (HS _ _ E2) as (A2 & B2 & _). cbn [tame] in Tb. destruct Tb as [(T1 & T2 & T3)|(_ & T1 & m & -> & T2)].
    + destruct (A2 false) as [B1 V2]; [apply (times_tel false); apply tel_false; [assumption|exact I]|]. rewrite ev_times in V2 by exact Hsrt. cbn [SymSpec.ev] in V2, Vb.
      split; [apply sel_false; cbn [tame]; left; tauto|]. cbn [SymSpec.ev]. rewrite V2, <- Vb. symmetry. now apply rpow_mult.
    + rewrite B2 by (apply times_cons; exact I). rewrite ev_times by exact Hsrt. cbn [SymSpec.ev] in *. rewrite <- mult_IZR.
      assert (Q : ev r b1 <> 0 \/ ((1 <= m)%Z /\ (1 <= n)%Z)).
      { destruct (Req_dec (ev r b1) 0) as [Z1|Z1]; [|left; exact Z1]. right. destruct T2 as [T2|T2]; [contradiction|]. split; [exact T2|]. destruct NZ as [NZ|NZ]; [|exact NZ].
        exfalso. apply NZ. rewrite <- Vb, Z1, rpow_int. now apply powerRZ_zero. }
      split; [|rewrite <- Vb; symmetry; now apply rpow_nest]. apply sel_false. cbn [tame]. right. split; [reflexivity|]. split; [exact T1|]. exists (m * n)%Z. split; [reflexivity|].
      destruct Q as [Q|Q]; [left; exact Q|right; nia].
Qed.
End S.

Theorem simplify_good : forall n, good (simplify srt same shorter n).
Proof.
  induction n as [|n IH]; intros e e' E; [discriminate|]. cbn [simplify] in E.
  destruct e as [d|s|l|l|a|b x|a|f l].
  - injection E as <-. split; [intros c H; split; [exact H|reflexivity]|]. split; [reflexivity|]. split; [intros c (b & x & m & Q & _); discriminate|intros _ (l & Q); discriminate].
  - injection E as <-. split; [intros c H; split; [exact H|reflexivity]|]. split; [intros []|]. split; [intros c (b & x & m & Q & _); discriminate|intros _ (l & Q); discriminate].
  - split.
    { intros c H. apply tame_Add in H. rewrite ev_Add. apply (add_simplify_ok _ IH c l e' H E). }
    split; [intros H; apply cons_Add in H; rewrite ev_Add; apply (add_simplify_cons _ IH l e' H E)|]. split; [intros c (b & x & m & Q & _); discriminate|intros _ (l' & Q); discriminate].
  - split.
    { intros c H. apply tame_Prod in H. destruct H as [N H]. rewrite ev_Prod. destruct (prod_simplify_ok _ IH c n l e' N H E) as [[A _] B]. split; assumption. }
    split; [intros H; apply cons_Prod in H; destruct H as [N H]; rewrite ev_Prod; apply (prod_simplify_cons _ IH n l e' N H E)|]. split; [intros c (b & x & m & Q & _); discriminate|].
    intros H _. apply tame_Prod in H. destruct H as [N H]. apply (prod_simplify_ok _ IH true n l e' N H E).
  - split; [|split; [intros []|split; [intros c (b & x & m & Q & _); discriminate|intros _ (l & Q); discriminate]]].
    intros c H. cbn [tame] in H. destruct (is_zero a) eqn:Z; [injection E as <-; split; [exact I|]; cbn [SymSpec.ev]; rewrite (is_zero_ev F r a Z), exp_0; reflexivity|].
    assert (G : opt_exp (simplify srt same shorter n a) Exp = Some e' -> tame F c r e' /\ ev r e' = ev r (Exp a)).
    { destruct (simplify srt same shorter n a) as [a'|] eqn:Ea; [|discriminate]. intros [= <-]. destruct (IH _ _ Ea) as (A & _). destruct (A false H) as [A1 A2]. split; [exact A1|]. cbn [SymSpec.ev]. rewrite A2. reflexivity. }
    destruct a as [d|s|l|l|a|b x|a|f l]; try exact (G E). injection E as <-. cbn [tame] in H. destruct H as (_ & H1 & H2). split; [destruct c; [exact H1|now apply tame_weak]|]. cbn [SymSpec.ev]. symmetry. now apply exp_ln.
  - split; [|split; [intros []|split; [|intros _ (l & Q); discriminate]]].
    + intros c H. cbn [tame] in H. destruct H as [(H1 & H2 & H3)|(-> & H1 & m & -> & H2)].
      * destruct (pow_strict _ IH c b x e' H1 H2 H3 E) as [[A _] B]. split; assumption.
      * destruct (pow_semi _ IH false b (Con (IZR m)) m e' H1 I eq_refl H2 ltac:(discriminate) E) as [[A _] B]. split; assumption.
    + intros c (b1 & x1 & m & [= <- <-] & H1 & H2 & H3 & H4 & H5). apply (pow_semi _ IH c b x m e' H1 H2 H3 H4 H5 E).
  - split; [|split; [intros []|split; [intros c (b & x & m & Q & _); discriminate|intros _ (l & Q); discriminate]]].
    intros c H. cbn [tame] in H. destruct H as (-> & H & P). destruct (is_one a) eqn:Z; [injection E as <-; split; [exact I|]; cbn [SymSpec.ev]; rewrite (is_one_ev F r a Z), ln_1; reflexivity|].
    assert (G : opt_exp (simplify srt same shorter n a) Log = Some e' -> tame F false r e' /\ ev r e' = ev r (Log a)).
    { destruct (simplify srt same shorter n a) as [a'|] eqn:Ea; [|discriminate]. intros [= <-]. destruct (IH _ _ Ea) as (A & _). destruct (A true H) as [A1 A2]. cbn [tame SymSpec.ev]. rewrite A2. tauto. }
    destruct a as [d|s|l|l|a|b x|a|f l]; try exact (G E).
    + injection E as <-. cbn [tame] in H. split; [exact H|]. cbn [SymSpec.ev]. symmetry. apply ln_exp.
    + injection E as <-. cbn [tame] in H. destruct H as [(H1 & H2 & H3)|(Q & _)]; [|discriminate]. split.
      * apply (times_tel false); apply tel_false; [exact H3|]. cbn [tame]. tauto.
      * rewrite ev_times by exact Hsrt. cbn [SymSpec.ev]. rewrite rpow_pos by exact H2. unfold Rpower. rewrite ln_exp. reflexivity.
  - split; [|split; [intros []|split; [intros c (b & x & m & Q & _); discriminate|intros _ (l' & Q); discriminate]]].
    intros c H. apply tame_User in H. destruct (opt_map (simplify srt same shorter n) l) as [t|] eqn:Et; [|discriminate]. injection E as <-.
    destruct (opt_map_F (simplify srt same shorter n) (tame F false r) (tame F false r) l t) as [A B]; [intros a a' Ea Ha; destruct (IH _ _ Ea) as (A & _); apply (A false Ha)|exact H|exact Et|].
    split; [now apply tame_User|]. cbn [SymSpec.ev]. rewrite B. reflexivity.
Qed.
End P.
