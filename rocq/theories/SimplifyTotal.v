(* Simplification of constants always returns. *)
From Coq Require Import String List Bool Arith Reals ZArith Lia Lra Permutation.
From Verif Require Import Sym SymSpec SymProofs Simplify SimplifySpec SimplifyProofs.
Import ListNotations.
Open Scope R_scope.
Local Arguments Nat.ltb : simpl never.

Section P.
Variable F : string -> list R -> R.
Variable r : env.
Notation ev := (ev F).
Variable srt : list expr -> list expr.
Hypothesis Hsrt : forall l, Permutation (srt l) l.
Variable same shorter : expr -> expr -> bool.
Notation simplify := (simplify srt same shorter).

Lemma srt_one : forall x, srt [x] = [x].
Proof. intros x. specialize (Hsrt [x]). symmetry in Hsrt. now apply Permutation_length_1_inv in Hsrt. Qed.
Lemma simp_con : forall n c, simplify (S n) (Con c) = Some (Con c). Proof. reflexivity. Qed.
Lemma simp_var : forall n c, simplify (S n) (Var c) = Some (Var c). Proof. reflexivity. Qed.
Lemma opt_map_some : forall S l, (forall e, In e l -> S e <> None) -> opt_map S l <> None.
Proof.
  intros S l. induction l as [|a l IH]; intros H; cbn [opt_map]; [discriminate|]. destruct (S a) as [b|] eqn:E; [|exfalso; now apply (H a (or_introl eq_refl))].
  destruct (opt_map S l) as [u|]; [discriminate|]. apply IH. intros e I. apply H. right. exact I.
Qed.
Lemma vec_con_some : forall S ds, (forall c, S (Con c) = Some (Con c)) -> vec_simplify srt same S (map Con ds) <> None.
Proof.
  intros S ds H. unfold vec_simplify. match goal with |- match opt_map S ?l with _ => _ end <> None => destruct (opt_map S l) as [l4|] eqn:E end.
  - destruct l4; discriminate.
  - exfalso. revert E. apply opt_map_some. intros e I. apply filter_In in I. destruct I as [I _].
    replace (map (fun e => match e with Var _ => Pow e (Con 1) | _ => e end) (map Con ds)) with (map Con ds) in I by (rewrite map_map; apply map_ext; reflexivity).
    destruct ds as [|d ds]; [destruct I|]. cbn [map] in I. replace (length (Con d :: map Con ds)) with (Datatypes.S (length ds)) in I by (cbn [length]; now rewrite map_length).
    rewrite groups_one in I; [|rewrite map_length; lia|intros y Iy; apply in_map_iff in Iy; destruct Iy as (z & <- & _); reflexivity]. cbn [map fst snd flat_map] in I. rewrite app_nil_r in I.
    assert (C : exists c, combine_prod srt same (Con d) (map Con ds) = Con c) by (unfold combine_prod; destruct (map Con ds); eexists; reflexivity).
    destruct C as [c C]. rewrite C in I. destruct I as [<-|[]]. rewrite H. discriminate.
Qed.
(* the sorted list of constants *)
Lemma reduce_con_some : forall n S d, (forall c, S (Con c) = Some (Con c)) -> (forall l', vec_simplify srt same S [Con d] = Some l' -> l' = [Con d]) -> (1 <= n)%nat -> reduce srt same S n [Con d] <> None.
Proof.
  intros [|n] S d H K L; [lia|]. cbn [reduce]. pose proof (vec_con_some S [d] H) as V. cbn [map] in V. destruct (vec_simplify srt same S [Con d]) as [t|] eqn:E; [|congruence].
  rewrite (K t eq_refl). cbn. discriminate.
Qed.
Hypothesis Hsame : forall a b, same a b = true -> a = b.
Lemma good_S : forall n, good F r (simplify n). Proof. intros n. apply simplify_good; assumption. Qed.
Definition returns (e : expr) (n : nat) : Prop := forall m, (n <= m)%nat -> simplify m e = Some (Con (ev r e)).
Lemma common : forall l, Forall (fun e => exists n, returns e n) l -> exists n, forall e, In e l -> returns e n.
Proof.
  intros l H. induction H as [|e l (n & Hn) Hl (k & IH)]; [exists 0%nat; intros e []|]. exists (n + k)%nat. intros x [<-|I] m L; [apply Hn; lia|apply IH; [exact I|lia]].
Qed.
Theorem constants_return : forall e, constants e -> exists n, returns e n.
Proof.
  intros e. induction e as [c|s|l IH|l IH|e IH|b e IHb IHe|e IH|f l IH] using expr_ind'; intros H; try contradiction H.
  - exists 1%nat. intros [|m] L; [lia|reflexivity].
  - pose proof H as H0. apply cons_Add in H. assert (G : Forall (fun e => exists n, returns e n) l) by (rewrite Forall_forall in *; intros e I; apply IH; [exact I|now apply H]).
    destruct (common l G) as [N HN]. exists (N + 4)%nat. intros m L. destruct m as [|m]; [lia|].
    assert (K : simplify (S m) (Add l) <> None).
    { cbn [Simplify.simplify]. assert (Sc : forall c, simplify m (Con c) = Some (Con c)) by (intros c; destruct m as [|k]; [lia|reflexivity]).
      assert (Sa : forall c, simplify m (mk_add srt [Con c]) = Some (Con c)) by (intros c; destruct m as [|k]; [lia|]; unfold mk_add; rewrite srt_one; cbn [Simplify.simplify add_simplify]; destruct k as [|k]; [lia|reflexivity]).
      unfold add_simplify.
      assert (B : opt_map (simplify m) l <> None) by (apply opt_map_some; intros e I; rewrite (HN e I m) by lia; discriminate).
      match goal with |- match l with [] => ?b | _ => _ end <> None => assert (Q : b <> None) end.
      { destruct (opt_map (simplify m) l) as [t|] eqn:E0; [|congruence]. apply (opt_map_cons F r _ (good_S m)) in E0; [|exact H]. subst t. cbv zeta.
        destruct (map (ev r) l) as [|d ds]; [cbn; discriminate|]. cbn [map].
        replace (length (Con d :: map Con ds)) with (Datatypes.S (length ds)) by (cbn [length]; now rewrite map_length).
        rewrite groups_one; [|rewrite map_length; lia|intros y Iy; apply in_map_iff in Iy; destruct Iy as (z & <- & _); reflexivity]. cbn [map fst snd flat_map app].
        assert (C : exists c, combine_add srt (Con d) (map Con ds) = Con c) by (unfold combine_add; destruct (map Con ds); eexists; reflexivity).
        destruct C as [c C]. rewrite C. cbn [addends app opt_map]. rewrite Sc. cbn [filter is_zero]. destruct (reqb c 0) eqn:Z; cbn [negb length groups]; [cbn; discriminate|].
        cbn [opt_groups filter length groups]. unfold scale_group. cbn [fst snd get_scale get_unscaled map]. rewrite Sa. cbn [is_one]. destruct (reqb c 1) eqn:O; [discriminate|].
        unfold times. cbn [is_zero is_one]. rewrite Z, O. replace (reqb 1 0) with false by (unfold reqb; destruct (Req_EM_T 1 0); [lra|reflexivity]). rewrite reqb_refl. cbn [orb]. rewrite Sc. discriminate. }
      destruct l as [|x [|y t]]; [exact Q| |exact Q]. rewrite (HN x (or_introl eq_refl) m) by lia. discriminate. }
    destruct (simplify (S m) (Add l)) as [e'|] eqn:E; [|congruence]. destruct (good_S (S m) _ _ E) as (_ & A & _). rewrite (A H0). reflexivity.
  - pose proof H as H0. apply cons_Prod in H. destruct H as [NE H]. assert (G : Forall (fun e => exists n, returns e n) l) by (rewrite Forall_forall in *; intros e I; apply IH; [exact I|now apply H]).
    destruct (common l G) as [N HN]. exists (N + 4)%nat. intros m L. destruct m as [|m]; [lia|].
    assert (K : simplify (S m) (Prod l) <> None).
    { cbn [Simplify.simplify]. assert (Sc : forall c, simplify m (Con c) = Some (Con c)) by (intros c; destruct m as [|k]; [lia|reflexivity]).
      unfold prod_simplify. destruct (existsb is_zero l); [discriminate|].
      assert (B : opt_map (simplify m) l <> None) by (apply opt_map_some; intros e I; rewrite (HN e I m) by lia; discriminate).
      match goal with |- match l with [] => ?b | _ => _ end <> None => assert (Q : b <> None) end.
      { destruct (opt_map (simplify m) l) as [t|] eqn:E0; [|congruence]. apply (opt_map_cons F r _ (good_S m)) in E0; [|exact H]. subst t.
        pose proof (vec_con_some (simplify m) (map (ev r) l) Sc) as V. destruct (vec_simplify srt same (simplify m) (map Con (map (ev r) l))) as [t|] eqn:Ev; [|congruence].
        apply (vec_con F srt same r _ (good_S m)) in Ev; [|intros E; apply map_eq_nil in E; contradiction]. subst t. cbn [length prod_of flat_map split_pow clone app]. cbv zeta.
        change (Nat.ltb 1 1) with false. cbv iota. set (p := pr (map (ev r) l)).
        assert (R : reduce srt same (simplify m) m [Con p] <> None).
        { apply reduce_con_some; [exact Sc| |lia]. intros l' E. apply (vec_con F srt same r _ (good_S m) [p]) in E; [|discriminate]. rewrite E. f_equal. f_equal. unfold pr. cbn. ring. }
        destruct (reduce _ _ _ _ _); [discriminate|congruence]. }
      destruct l as [|x [|y t]]; [contradiction| |exact Q]. rewrite (HN x (or_introl eq_refl) m) by lia. discriminate. }
    destruct (simplify (S m) (Prod l)) as [e'|] eqn:E; [|congruence]. destruct (good_S (S m) _ _ E) as (_ & A & _). rewrite (A H0). reflexivity.
Qed.
End P.
