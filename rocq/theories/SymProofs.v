(* Proofs about symbolic derivatives *)
From Coq Require Import String List Bool Reals ZArith Lia Lra Permutation.
From Verif Require Import Sym SymSpec.
Import ListNotations.
Open Scope R_scope.

Section Ind.
Variable P : expr -> Prop.
Hypothesis Hc : forall c, P (Con c).
Hypothesis Hv : forall s, P (Var s).
Hypothesis Ha : forall l, Forall P l -> P (Add l).
Hypothesis Hp : forall l, Forall P l -> P (Prod l).
Hypothesis He : forall e, P e -> P (Exp e).
Hypothesis Hw : forall b e, P b -> P e -> P (Pow b e).
Hypothesis Hl : forall e, P e -> P (Log e).
Hypothesis Hu : forall f l, Forall P l -> P (User f l).
Fixpoint expr_ind' (e : expr) : P e :=
  let go := fix go l : Forall P l := match l with [] => Forall_nil P | a :: t => Forall_cons a (expr_ind' a) (go t) end in
  match e with
  | Con c => Hc c
  | Var s => Hv s
  | Add l => Ha l (go l)
  | Prod l => Hp l (go l)
  | Exp a => He a (expr_ind' a)
  | Pow b a => Hw b a (expr_ind' b) (expr_ind' a)
  | Log a => Hl a (expr_ind' a)
  | User f l => Hu f l (go l)
  end.
End Ind.

Lemma reqb_true : forall x y, reqb x y = true -> x = y.
Proof. intros x y. unfold reqb. destruct (Req_EM_T x y); congruence. Qed.
Lemma reqb_false : forall x y, reqb x y = false -> x <> y.
Proof. intros x y. unfold reqb. destruct (Req_EM_T x y); congruence. Qed.
Lemma reqb_refl : forall x, reqb x x = true.
Proof. intros x. unfold reqb. destruct (Req_EM_T x x); congruence. Qed.

(* sums and products of lists *)
Definition sm (l : list R) : R := fold_right Rplus 0 l.
Definition pr (l : list R) : R := fold_right Rmult 1 l.
Lemma sm_app : forall a b, sm (a ++ b) = sm a + sm b.
Proof. unfold sm. induction a as [|x a IH]; intros b; cbn [app fold_right]. { ring. } rewrite IH. ring. Qed.
Lemma pr_app : forall a b, pr (a ++ b) = pr a * pr b.
Proof. unfold pr. induction a as [|x a IH]; intros b; cbn [app fold_right]. { ring. } rewrite IH. ring. Qed.
Lemma sm_perm : forall a b, Permutation a b -> sm a = sm b.
Proof. intros a b H. unfold sm. induction H as [|x l l' H IH|x y l|l l' l'' H IH K IK]; cbn [fold_right]; [reflexivity|rewrite IH; ring|ring|congruence]. Qed.
Lemma pr_perm : forall a b, Permutation a b -> pr a = pr b.
Proof. intros a b H. unfold pr. induction H as [|x l l' H IH|x y l|l l' l'' H IH K IK]; cbn [fold_right]; [reflexivity|rewrite IH; ring|ring|congruence]. Qed.

(* powers *)
Lemma Int_part_IZR : forall n, Int_part (IZR n) = n.
Proof. intros n. unfold Int_part. rewrite <- (tech_up (IZR n) (n + 1)). { lia. } - rewrite plus_IZR. lra. - rewrite plus_IZR. lra. Qed.
Lemma rpow_int : forall b n, rpow b (IZR n) = powerRZ b n.
Proof.
  intros b n. unfold rpow. destruct (Rlt_dec 0 b) as [H|H]. { symmetry. apply powerRZ_Rpower. exact H. }
  rewrite Int_part_IZR. destruct (Req_EM_T (IZR n) (IZR n)); congruence.
Qed.
Lemma rpow_pos : forall b e, 0 < b -> rpow b e = Rpower b e.
Proof. intros b e H. unfold rpow. destruct (Rlt_dec 0 b); [reflexivity|contradiction]. Qed.
Lemma rpow_0 : forall b, rpow b 0 = 1.
Proof. intros b. change 0 with (IZR 0). rewrite rpow_int. reflexivity. Qed.
Lemma rpow_1 : forall b, rpow b 1 = b.
Proof. intros b. change 1 with (IZR 1). rewrite rpow_int. apply powerRZ_1. Qed.
Lemma rpow_2 : forall b, rpow b 2 = b * b.
Proof. intros b. rewrite rpow_int. unfold powerRZ. change (Pos.to_nat 2) with 2%nat. cbn [pow]. ring. Qed.
Lemma rpow_m1 : forall b, rpow b (-1) = / b.
Proof. intros b. rewrite rpow_int. unfold powerRZ. change (Pos.to_nat 1) with 1%nat. cbn [pow]. now rewrite Rmult_1_r. Qed.

(* derivatives of functions of one variable *)
Lemma d_same : forall f g x d d', derivable_pt_lim f x d -> (forall t, g t = f t) -> d' = d -> derivable_pt_lim g x d'.
Proof. intros f g x d d' H E ->. apply (derivable_pt_lim_ext f); [|exact H]. intros t. symmetry. apply E. Qed.
Lemma d_const : forall c x, derivable_pt_lim (fun _ => c) x 0.
Proof. intros. apply derivable_pt_lim_const. Qed.
Lemma d_add : forall f g x a b, derivable_pt_lim f x a -> derivable_pt_lim g x b -> derivable_pt_lim (fun t => f t + g t) x (a + b).
Proof. intros. now apply (derivable_pt_lim_plus f g). Qed.
Lemma d_mul : forall f g x a b, derivable_pt_lim f x a -> derivable_pt_lim g x b -> derivable_pt_lim (fun t => f t * g t) x (a * g x + f x * b).
Proof. intros. now apply (derivable_pt_lim_mult f g). Qed.
Lemma d_comp : forall f g x a b, derivable_pt_lim f x a -> derivable_pt_lim g (f x) b -> derivable_pt_lim (fun t => g (f t)) x (b * a).
Proof. intros. now apply (derivable_pt_lim_comp f g). Qed.
Lemma d_inv : forall x, x <> 0 -> derivable_pt_lim (fun t => / t) x (- / (x * x)).
Proof.
  intros x H. apply (d_same (fun t => 1 / t) _ x ((0 * x - 1 * 1) / Rsqr x)).
  - apply (derivable_pt_lim_div (fun _ => 1) (fun t => t) x 0 1); [apply d_const|apply derivable_pt_lim_id|exact H].
  - intros t. unfold Rdiv. ring.
  - unfold Rsqr. field. exact H.
Qed.
Lemma d_pow : forall x n, derivable_pt_lim (fun t => t ^ n) x (INR n * x ^ (n - 1)).
Proof. intros x n. replace (n - 1)%nat with (pred n) by lia. apply derivable_pt_lim_pow. Qed.
Lemma d_powerRZ : forall x n, x <> 0 \/ (0 <= n)%Z -> derivable_pt_lim (fun t => powerRZ t n) x (IZR n * powerRZ x (n - 1)).
Proof.
  intros x n H. destruct n as [|p|p].
  - cbn [powerRZ]. apply (d_same (fun _ => 1) _ x 0); [apply d_const|reflexivity|ring].
  - apply (d_same (fun t => t ^ Pos.to_nat p) _ x (INR (Pos.to_nat p) * x ^ (Pos.to_nat p - 1))); [apply d_pow|reflexivity|].
    rewrite INR_IZR_INZ, positive_nat_Z. f_equal.
    replace (Z.pos p - 1)%Z with (Z.of_nat (Pos.to_nat p - 1)) by lia. now rewrite <- pow_powerRZ.
  - assert (N : x <> 0) by (destruct H as [H|H]; [exact H|lia]).
    apply (d_same (fun t => / (t ^ Pos.to_nat p)) _ x (- / (x ^ Pos.to_nat p * x ^ Pos.to_nat p) * (INR (Pos.to_nat p) * x ^ (Pos.to_nat p - 1)))).
    + apply (d_comp (fun t => t ^ Pos.to_nat p) (fun t => / t)); [apply d_pow|]. apply d_inv. now apply pow_nonzero.
    + reflexivity.
    + replace (Z.neg p - 1)%Z with (- Z.of_nat (S (Pos.to_nat p)))%Z by lia. rewrite powerRZ_neg'. rewrite <- pow_powerRZ.
      rewrite INR_IZR_INZ, positive_nat_Z. change (IZR (Z.neg p)) with (- IZR (Z.pos p)).
      assert (E : x ^ Pos.to_nat p = x * x ^ (Pos.to_nat p - 1)).
      { replace (Pos.to_nat p) with (S (Pos.to_nat p - 1)) at 1 by lia. reflexivity. }
      cbn [pow]. rewrite E. field. split; [|exact N]. now apply pow_nonzero.
Qed.
Lemma d_rpow_int : forall f x d n, derivable_pt_lim f x d -> f x <> 0 \/ (0 <= n)%Z ->
  derivable_pt_lim (fun t => rpow (f t) (IZR n)) x (IZR n * rpow (f x) (IZR n - 1) * d).
Proof.
  intros f x d n H N. apply (d_same (fun t => powerRZ (f t) n) _ x (IZR n * powerRZ (f x) (n - 1) * d)).
  - apply (d_comp f (fun t => powerRZ t n)); [exact H|]. now apply d_powerRZ.
  - intros t. apply rpow_int.
  - rewrite <- minus_IZR, rpow_int. reflexivity.
Qed.
Lemma d_rpow_pos : forall f g x df dg, derivable_pt_lim f x df -> derivable_pt_lim g x dg -> 0 < f x ->
  derivable_pt_lim (fun t => rpow (f t) (g t)) x (g x * rpow (f x) (g x - 1) * df + ln (f x) * rpow (f x) (g x) * dg).
Proof.
  intros f g x df dg H K P.
  assert (C : continuity_pt f x). { apply derivable_continuous_pt. exists df. exact H. }
  destruct (C (f x) P) as (al & Pa & Ca).
  assert (Pos : forall z, x - al < z < x + al -> 0 < f z).
  { intros z Hz. destruct (Req_dec x z) as [->|Nz]; [exact P|]. specialize (Ca z). cbn in Ca. unfold R_dist in Ca.
    assert (B : Rabs (f z - f x) < f x). { apply Ca. split; [split; [exact Logic.I|exact Nz]|]. apply Rabs_def1; lra. }
    apply Rabs_def2 in B. lra. }
  apply (derivable_pt_lim_locally_ext (fun t => exp (g t * ln (f t))) _ x (x - al) (x + al)).
  - lra.
  - intros z Hz. rewrite rpow_pos by (now apply Pos). reflexivity.
  - apply (d_same (fun t => exp (g t * ln (f t))) _ x (exp (g x * ln (f x)) * (dg * ln (f x) + g x * (/ f x * df)))).
    + apply (d_comp (fun t => g t * ln (f t)) exp); [|apply derivable_pt_lim_exp].
      apply (d_mul g (fun t => ln (f t))); [exact K|]. apply (d_comp f ln); [exact H|]. now apply derivable_pt_lim_ln.
    + reflexivity.
    + rewrite !rpow_pos by exact P. unfold Rminus. rewrite Rpower_plus, Rpower_Ropp, Rpower_1 by exact P.
      unfold Rpower. field. lra.
Qed.

Section P.
Variable F : string -> list R -> R.
Notation ev := (ev F).

Lemma ev_Add : forall r l, ev r (Add l) = sm (map (ev r) l).
Proof. intros r l. cbn [SymSpec.ev]. unfold sm. induction l as [|a l IH]; cbn. { reflexivity. } now rewrite IH. Qed.
Lemma ev_Prod : forall r l, ev r (Prod l) = pr (map (ev r) l).
Proof. intros r l. cbn [SymSpec.ev]. unfold pr. induction l as [|a l IH]; cbn. { reflexivity. } now rewrite IH. Qed.
Lemma pr_zero : forall r l, Exists (fun e => ev r e = 0) l -> pr (map (ev r) l) = 0.
Proof. intros r l H. unfold pr. induction H as [e l E|e l E IH]; cbn [map fold_right]. { rewrite E. ring. } rewrite IH. ring. Qed.
Lemma is_zero_ev : forall r e, is_zero e = true -> ev r e = 0.
Proof.
  intros r e. induction e as [c|s|l IH|l IH|e IH|b e IHb IHe|e IH|f l IH] using expr_ind'; cbn [is_zero]; try discriminate.
  - intros H. apply reqb_true in H. exact H.
  - intros H. rewrite ev_Prod. apply pr_zero. apply existsb_exists in H. destruct H as (a & Ia & Za). apply Exists_exists. exists a.
    split; [exact Ia|]. rewrite Forall_forall in IH. now apply IH.
Qed.
Lemma is_one_ev : forall r e, is_one e = true -> ev r e = 1.
Proof.
  intros r e. induction e as [c|s|l IH|l IH|e IH|b e IHb IHe|e IH|f l IH] using expr_ind'; cbn [is_one]; try discriminate.
  - intros H. apply reqb_true in H. exact H.
  - intros H. rewrite ev_Prod. assert (A : forallb is_one l = true) by (destruct l; [discriminate|exact H]). clear H.
    unfold pr. induction IH as [|a l Ha Hl IHl]; cbn [map fold_right]. { reflexivity. } cbn in A. apply andb_prop in A. destruct A as [A B].
    rewrite (Ha A), (IHl B). ring.
Qed.

Variable srt : list expr -> list expr.
Hypothesis Hsrt : forall l, Permutation (srt l) l.
Notation mk_prod := (mk_prod srt).
Notation mk_add := (mk_add srt).
Notation times := (times srt).
Notation plus := (plus srt).

Lemma ev_mk_prod : forall r l, ev r (mk_prod l) = pr (map (ev r) l).
Proof. intros r l. unfold Sym.mk_prod. rewrite ev_Prod. apply pr_perm. apply Permutation_map. apply Hsrt. Qed.
Lemma ev_mk_add : forall r l, ev r (mk_add l) = sm (map (ev r) l).
Proof. intros r l. unfold Sym.mk_add. rewrite ev_Add. apply sm_perm. apply Permutation_map. apply Hsrt. Qed.
Lemma ev_times : forall r x y, ev r (times x y) = ev r x * ev r y.
Proof.
  intros r x y. unfold Sym.times. destruct (is_zero x) eqn:Zx.
  { cbn [orb]. rewrite (is_zero_ev r x Zx). cbn. ring. }
  destruct (is_zero y) eqn:Zy. { cbn [orb]. rewrite (is_zero_ev r y Zy). cbn. ring. }
  cbn [orb]. destruct (is_one x) eqn:Ox. { rewrite (is_one_ev r x Ox). ring. }
  destruct (is_one y) eqn:Oy. { rewrite (is_one_ev r y Oy). ring. }
  destruct x, y; rewrite ?ev_mk_prod, ?ev_Prod, ?map_app, ?pr_app; cbn [map]; rewrite ?pr_app; unfold pr; cbn [fold_right map];
    try ring; rewrite ?ev_Prod; unfold pr; ring.
Qed.
Lemma ev_plus : forall r x y, ev r (plus x y) = ev r x + ev r y.
Proof.
  intros r x y. unfold Sym.plus. destruct (is_zero x) eqn:Zx. { rewrite (is_zero_ev r x Zx). ring. }
  destruct (is_zero y) eqn:Zy. { rewrite (is_zero_ev r y Zy). ring. }
  destruct x, y; rewrite ?ev_mk_add, ?ev_Add, ?map_app, ?sm_app; cbn [map]; rewrite ?sm_app; unfold sm; cbn [fold_right map];
    try ring; rewrite ?ev_Add; unfold sm; ring.
Qed.
Lemma ev_minus : forall r x y, ev r (minus srt x y) = ev r x - ev r y.
Proof. intros r x y. unfold minus. rewrite ev_plus, ev_times. cbn. ring. Qed.
Lemma map_ext_F : forall (A B : Type) (f g : A -> B) l, Forall (fun x => f x = g x) l -> map f l = map g l.
Proof. intros A B f g l H. induction H; cbn; congruence. Qed.
Lemma ev_clone : forall r e, ev r (clone srt e) = ev r e.
Proof.
  intros r e. induction e as [c|s|l IH|l IH|e IH|b e IHb IHe|e IH|f l IH] using expr_ind'; cbn [clone].
  - reflexivity.
  - reflexivity.
  - rewrite ev_mk_add, ev_Add, map_map. f_equal. apply map_ext_F. exact IH.
  - rewrite ev_mk_prod, ev_Prod, map_map. f_equal. apply map_ext_F. exact IH.
  - cbn [SymSpec.ev]. now rewrite IH.
  - cbn [SymSpec.ev]. now rewrite IHb, IHe.
  - cbn [SymSpec.ev]. now rewrite IH.
  - cbn [SymSpec.ev]. f_equal. rewrite map_map. apply map_ext_F. exact IH.
Qed.

Lemma fold_left_mult : forall l a, fold_left Rmult l a = a * pr l.
Proof. induction l as [|x l IH]; intros a; cbn. { ring. } rewrite IH. unfold pr. ring. Qed.
Lemma pr_split : forall r l, pr (map (ev r) l) = pr (map con_val (filter is_con l)) * pr (map (ev r) (filter (fun e => negb (is_con e)) l)).
Proof.
  intros r l. unfold pr. induction l as [|e l IH]; cbn [filter map fold_right]. { ring. }
  rewrite IH. destruct e; cbn [is_con negb map con_val fold_right SymSpec.ev]; ring.
Qed.
Lemma ev_unscaled : forall r l, pr (map (ev r) l) = scale l * ev r (unscaled srt l).
Proof.
  intros r l. unfold scale. rewrite fold_left_mult, pr_split, Rmult_1_l. f_equal.
  unfold unscaled. destruct (filter (fun e => negb (is_con e)) l) as [|x [|y t]].
  - reflexivity. - unfold pr. cbn [map fold_right]. ring. - symmetry. apply ev_mk_prod.
Qed.

Variable key : expr -> string.
Notation subst := (subst srt key).
(* v is the text of the variable v only *)
Definition only_var (v : string) : Prop := forall e, key e = v <-> e = Var v.
Lemma ev_subst : forall r v a e, only_var v -> ev r (subst v a e) = ev (upd r v (ev r a)) e.
Proof.
  intros r v a e K.
  assert (Y : forall e, String.eqb v (key e) = true -> ev (upd r v (ev r a)) e = ev r a).
  { intros e' H. apply String.eqb_eq in H. symmetry in H. apply K in H. subst e'. cbn. unfold upd. now rewrite String.eqb_refl. }
  induction e as [c|s|l IH|l IH|e IH|b e IHb IHe|e IH|f l IH] using expr_ind'; cbn [Sym.subst];
    (match goal with |- context [if String.eqb v (key ?x) then _ else _] => destruct (String.eqb v (key x)) eqn:E; [symmetry; now apply Y|] end).
  - reflexivity.
  - cbn. unfold upd. destruct (String.eqb s v) eqn:Es; [|reflexivity]. apply String.eqb_eq in Es. subst s.
    assert (B : key (Var v) = v) by (now apply K). rewrite B, String.eqb_refl in E. discriminate.
  - rewrite ev_mk_add, ev_Add, map_map. f_equal. now apply map_ext_F.
  - destruct (String.eqb v (key (unscaled srt l))) eqn:E'.
    + rewrite ev_times, ev_Prod, ev_unscaled, (Y _ E'). reflexivity.
    + rewrite ev_mk_prod, ev_Prod, map_map. f_equal. now apply map_ext_F.
  - cbn [SymSpec.ev]. now rewrite IH.
  - cbn [SymSpec.ev]. now rewrite IHb, IHe.
  - cbn [SymSpec.ev]. now rewrite IH.
  - cbn [SymSpec.ev]. f_equal. rewrite map_map. now apply map_ext_F.
Qed.
Lemma ev_agree : forall r r' e, (forall s, In s (vars e) -> r s = r' s) -> ev r e = ev r' e.
Proof.
  intros r r' e. assert (G : forall l, Forall (fun e => (forall s, In s (vars e) -> r s = r' s) -> ev r e = ev r' e) l ->
    (forall s, In s (flat_map vars l) -> r s = r' s) -> map (ev r) l = map (ev r') l).
  { intros l H A. apply map_ext_F. rewrite Forall_forall in *. intros e' I'. apply (H e' I'). intros s Is. apply A. apply in_flat_map. eauto. }
  induction e as [c|s|l IH|l IH|e IH|b e IHb IHe|e IH|f l IH] using expr_ind'; cbn [vars]; intros A.
  - reflexivity.
  - apply A. now left.
  - rewrite !ev_Add. now rewrite (G l IH A).
  - rewrite !ev_Prod. now rewrite (G l IH A).
  - cbn. now rewrite (IH A).
  - cbn. rewrite IHb, IHe; [reflexivity| |]; intros s Hs; apply A; apply in_or_app; auto.
  - cbn. now rewrite (IH A).
  - cbn. f_equal. now apply G.
Qed.
Lemma bind_other : forall names vs r s, ~ In s names -> bind r names vs s = r s.
Proof.
  unfold bind. induction names as [|n ns IH]; intros [|v vs] r s N; try reflexivity. cbn [combine fold_right fst snd]. unfold upd at 1.
  destruct (String.eqb s n) eqn:E. { apply String.eqb_eq in E. subst. exfalso. apply N. now left. }
  apply IH. intros I'. apply N. now right.
Qed.
Lemma ev_subst_all : forall names args r e,
  (forall n, In n names -> only_var n) -> (forall n a, In n names -> In a args -> ~ In n (vars a)) ->
  ev r (subst_all srt key names args e) = ev (bind r names (map (ev r) args)) e.
Proof.
  unfold subst_all, bind. induction names as [|n ns IH]; intros [|a args] r e K V; try reflexivity.
  cbn [combine fold_left map fst snd]. rewrite IH.
  - rewrite ev_subst by (apply K; now left). cbn [fold_right fst snd]. f_equal.
    fold (bind r ns (map (ev r) args)). f_equal. apply ev_agree. intros s Is. apply bind_other.
    intros In'. apply (V s a); [now right|now left|exact Is].
  - intros m Hm. apply K. now right.
  - intros m b Hm Hb. apply V; now right.
Qed.

(* the derivative *)
Variable info : string -> list (string * option expr).
Notation D := (D srt key info).
Variable x : string.
Definition ipart (f : string) (r : env) (vs : list R) : list R :=
  map (fun d => match snd d with Some d => ev (bind r (map fst (info f)) vs) d | None => 0 end) (info f).
Definition iarity (f : string) : nat := length (info f).
Notation regular := (regular F ipart).
Notation wf := (wf iarity).

Definition ok (r : env) (e : expr) : Prop := derivable_pt_lim (fun t => ev (upd r x t) e) (r x) (ev r (D x e)).
Lemma upd_same : forall r e, ev (upd r x (r x)) e = ev r e.
Proof. intros r e. apply ev_agree. intros s _. unfold upd. destruct (String.eqb s x) eqn:E; [|reflexivity]. apply String.eqb_eq in E. now subst. Qed.
Lemma ev_sum_of : forall r l, ev r (sum_of srt l) = sm (map (ev r) l).
Proof.
  intros r l. unfold sum_of. destruct l as [|a [|b t]].
  - reflexivity. - unfold sm. cbn [map fold_right]. ring. - apply ev_mk_add.
Qed.
Lemma sm_filter : forall r l, sm (map (ev r) (filter (fun d => negb (is_zero d)) l)) = sm (map (ev r) l).
Proof.
  intros r l. unfold sm. induction l as [|d l IH]; cbn [filter map fold_right]. { reflexivity. }
  destruct (is_zero d) eqn:Z; cbn [negb map fold_right]; rewrite IH. { rewrite (is_zero_ev r d Z). ring. } reflexivity.
Qed.
Fixpoint dprod (l : list (R * R)) : R := match l with [] => 0 | (v, d) :: t => d * pr (map fst t) + v * dprod t end.
Lemma pr_rev : forall l, pr (rev l) = pr l.
Proof. intros l. apply pr_perm. apply Permutation_sym, Permutation_rev. Qed.
Lemma ev_prod_terms : forall r l pre, (2 <= length pre + length l)%nat ->
  sm (map (ev r) (prod_terms srt pre l)) = pr (map (ev r) pre) * dprod (map (fun p => (ev r (fst p), ev r (snd p))) l).
Proof.
  intros r. induction l as [|[v d] t IH]; intros pre L. { cbn. unfold sm. cbn. ring. }
  cbn [prod_terms map dprod fst snd]. rewrite map_app, sm_app, IH by (cbn [length] in *; lia).
  assert (T : sm (map (ev r) (if is_zero d then [] else match (if is_one d then [] else [d]) ++ rev pre ++ map fst t with
            | [] => [] | [y] => [y] | vp => [mk_prod vp] end)) = ev r d * (pr (map (ev r) pre) * pr (map (ev r) (map fst t)))).
  { destruct (is_zero d) eqn:Z. { rewrite (is_zero_ev r d Z). unfold sm. cbn. ring. }
    assert (V : pr (map (ev r) ((if is_one d then [] else [d]) ++ rev pre ++ map fst t)) = ev r d * (pr (map (ev r) pre) * pr (map (ev r) (map fst t)))).
    { rewrite !map_app, !pr_app. rewrite map_rev, pr_rev. f_equal.
      destruct (is_one d) eqn:O1. { rewrite (is_one_ev r d O1). reflexivity. } unfold pr. cbn. ring. }
    rewrite <- V. assert (N : (if is_one d then [] else [d]) ++ rev pre ++ map fst t <> []).
    { intros E. apply (f_equal (@length expr)) in E. rewrite !app_length, rev_length, map_length in E. cbn [length] in *. lia. }
    destruct ((if is_one d then [] else [d]) ++ rev pre ++ map fst t) as [|y [|z u]]; [congruence| |].
    - unfold sm, pr. cbn. ring.
    - cbn [map]. rewrite ev_mk_prod. unfold sm. cbn [fold_right map]. ring. }
  rewrite T. rewrite map_map. cbn [map fst]. unfold pr at 3. cbn [fold_right]. fold (pr (map (ev r) pre)).
  rewrite map_map. cbn [fst]. ring.
Qed.

Lemma go_F : forall (A : Type) (Q : A -> Prop) l, (fix go l := match l with [] => True | a :: t => Q a /\ go t end) l -> Forall Q l.
Proof. intros A Q l. induction l as [|a l IH]; intros H. { constructor. } destruct H. constructor; auto. Qed.
Lemma F_go : forall (A : Type) (Q : A -> Prop) l, Forall Q l -> (fix go l := match l with [] => True | a :: t => Q a /\ go t end) l.
Proof. intros A Q l H. induction H. { exact Logic.I. } split; assumption. Qed.
Lemma d_sum : forall r l, Forall (ok r) l -> derivable_pt_lim (fun t => sm (map (ev (upd r x t)) l)) (r x) (sm (map (ev r) (map (D x) l))).
Proof.
  intros r l H. unfold sm. induction H as [|e l He Hl IH]; cbn [map fold_right]. { apply d_const. }
  apply (d_add _ _ _ _ _ He IH).
Qed.
Lemma d_prod : forall r l, Forall (ok r) l ->
  derivable_pt_lim (fun t => pr (map (ev (upd r x t)) l)) (r x) (dprod (map (fun v => (ev r v, ev r (D x v))) l)).
Proof.
  intros r l H. unfold pr. induction H as [|e l He Hl IH]; cbn [map fold_right dprod]. { apply d_const. }
  apply (d_same _ _ _ _ _ (d_mul _ _ _ _ _ He IH)). { reflexivity. }
  rewrite upd_same, map_map. unfold pr. f_equal. f_equal. f_equal. apply map_ext. intros v. symmetry. apply upd_same.
Qed.
Lemma is_con_inv : forall e, is_con e = true -> exists c, e = Con c.
Proof. intros e. destruct e; try discriminate. eauto. Qed.
Lemma ev_user_term : forall r names args di y,
  (forall n, In n names -> only_var n) -> (forall n a, In n names -> In a args -> ~ In n (vars a)) ->
  ev r (user_term srt key names args di y) = match di with Some d => ev (bind r names (map (ev r) args)) d | None => 0 end * ev r y.
Proof.
  intros r names args di y K V. unfold user_term.
  assert (X : ev r (subst_all srt key names args match di with Some d => d | None => Con 0 end) =
              match di with Some d => ev (bind r names (map (ev r) args)) d | None => 0 end).
  { rewrite ev_subst_all by assumption. destruct di; reflexivity. }
  destruct (is_zero y) eqn:Z. { rewrite (is_zero_ev r y Z). cbn. ring. }
  destruct (is_one y) eqn:O1. { rewrite (is_one_ev r y O1), X. ring. }
  rewrite ev_times, X. reflexivity.
Qed.
Hypothesis Hkey : forall f n, In n (map fst (info f)) -> only_var n.
Theorem derivative : forall r e, wf e -> (forall f n, In n (map fst (info f)) -> ~ In n (vars e)) -> regular r e -> ok r e.
Proof.
  intros r e. 
  assert (G : forall l, Forall (fun e => wf e -> (forall f n, In n (map fst (info f)) -> ~ In n (vars e)) -> regular r e -> ok r e) l ->
    Forall wf l -> (forall f n, In n (map fst (info f)) -> ~ In n (flat_map vars l)) -> Forall (regular r) l -> Forall (ok r) l).
  { intros l H W V Rg. rewrite Forall_forall in *. intros e' I'. apply H; auto. intros f n Hn Hv. apply (V f n Hn). apply in_flat_map. eauto. }
  induction e as [c|s|l IH|l IH|e IH|b e IHb IHe|e IH|f l IH] using expr_ind'; intros W V Rg; unfold ok.
  - exact (d_const c (r x)).
  - cbn [Sym.D SymSpec.ev]. unfold upd. rewrite (String.eqb_sym s x). destruct (String.eqb x s) eqn:E; cbn [SymSpec.ev].
    + apply derivable_pt_lim_id. + apply d_const.
  - cbn [SymSpec.wf SymSpec.regular vars] in *. apply go_F in W. apply go_F in Rg. specialize (G l IH W V Rg).
    apply (d_same _ _ _ _ _ (d_sum r l G)). { intros t. apply ev_Add. } cbn [Sym.D]. now rewrite ev_sum_of, sm_filter.
  - cbn [SymSpec.wf SymSpec.regular vars] in *. destruct W as [L W]. apply go_F in W. apply go_F in Rg. specialize (G l IH W V Rg).
    apply (d_same _ _ _ _ _ (d_prod r l G)). { intros t. apply ev_Prod. } cbn [Sym.D].
    rewrite ev_sum_of, ev_prod_terms by (rewrite map_length; exact L). rewrite map_map. cbn [map fst snd]. unfold pr. cbn [fold_right]. ring.
  - cbn [SymSpec.wf SymSpec.regular vars] in *. specialize (IH W V Rg). cbn [Sym.D].
    destruct (is_con e) eqn:C. { apply is_con_inv in C. destruct C as [c ->]. exact (d_const (exp c) (r x)). }
    rewrite ev_times. cbn [SymSpec.ev].
    apply (d_same (fun t => exp (ev (upd r x t) e)) _ _ (exp (ev (upd r x (r x)) e) * ev r (D x e))).
    + apply (d_comp (fun t => ev (upd r x t) e) exp); [exact IH|apply derivable_pt_lim_exp].
    + reflexivity.
    + rewrite upd_same. ring.
  - cbn [SymSpec.wf SymSpec.regular vars] in *. destruct W as [Wb We]. destruct Rg as (Rb & Re & Rc).
    assert (Ob : ok r b). { apply IHb; [exact Wb| |exact Rb]. intros f n Hn Hv. apply (V f n Hn). apply in_or_app. now left. }
    assert (Oe : ok r e). { apply IHe; [exact We| |exact Re]. intros f n Hn Hv. apply (V f n Hn). apply in_or_app. now right. }
    clear IHb IHe G V Wb We Rb Re. unfold ok in Ob, Oe.
    destruct (is_con e) eqn:Ce.
    + apply is_con_inv in Ce. destruct Ce as [ex ->]. cbn [Sym.D].
      destruct (reqb ex 0) eqn:E0.
      { apply reqb_true in E0. subst ex. cbn [orb SymSpec.ev]. apply (d_same (fun _ => 1) _ _ 0); [apply d_const| |reflexivity].
        intros t. apply rpow_0. }
      cbn [orb]. destruct (is_con b) eqn:Cb.
      { apply is_con_inv in Cb. destruct Cb as [c ->]. exact (d_const (rpow c ex) (r x)). }
      destruct (reqb ex 1) eqn:E1.
      { apply reqb_true in E1. subst ex. apply (d_same _ _ _ _ _ Ob); [|reflexivity]. intros t. cbn [SymSpec.ev]. apply rpow_1. }
      destruct (reqb ex 2) eqn:E2.
      { apply reqb_true in E2. subst ex. rewrite !ev_times. cbn [SymSpec.ev].
        apply (d_same _ _ _ _ _ (d_mul _ _ _ _ _ Ob Ob)). { intros t. cbn [SymSpec.ev]. apply rpow_2. } rewrite !upd_same. ring. }
      rewrite !ev_times. cbn [SymSpec.ev].
      destruct Rc as [Rc|(n & En & Rc)].
      * apply (d_same _ _ _ _ _ (d_rpow_pos (fun t => ev (upd r x t) b) (fun _ => ex) _ _ _ Ob (d_const ex (r x)) (eq_ind_r (fun v => 0 < v) Rc (upd_same r b)))).
        { reflexivity. } rewrite upd_same. ring.
      * injection En as ->. apply (d_same _ _ _ _ _ (d_rpow_int (fun t => ev (upd r x t) b) _ _ n Ob (eq_ind_r (fun v => v <> 0 \/ (0 <= n)%Z) Rc (upd_same r b)))).
        { reflexivity. } rewrite upd_same. ring.
    + destruct Rc as [Rc|(n & En & Rc)]; [|subst e; discriminate].
      pose proof (d_rpow_pos (fun t => ev (upd r x t) b) (fun t => ev (upd r x t) e) _ _ _ Ob Oe (eq_ind_r (fun v => 0 < v) Rc (upd_same r b))) as P. cbn beta in P. rewrite !upd_same in P.
      assert (G : ev r (D x (Pow b e)) = ev r e * rpow (ev r b) (ev r e - 1) * ev r (D x b) + ln (ev r b) * rpow (ev r b) (ev r e) * ev r (D x e)).
      { cbn [Sym.D].
        destruct e as [ce|se|le|le|e|b' e'|e|fe le]; try discriminate;
          (destruct (is_con b) eqn:Cb;
           [apply is_con_inv in Cb; destruct Cb as [c ->]; cbn [SymSpec.ev] in Rc; cbn [is_zero is_one];
            destruct (reqb c 0) eqn:Zc; [apply reqb_true in Zc; lra|];
            destruct (reqb c 1) eqn:Oc; cbn [orb];
            [apply reqb_true in Oc; subst c; cbn [SymSpec.ev]; rewrite ln_1; cbn [Sym.D SymSpec.ev]; ring
            |rewrite !ev_times; cbn [SymSpec.ev Sym.D]; ring]
           |rewrite ev_plus, !ev_times, ev_clone; cbn [SymSpec.ev]; rewrite ev_minus; reflexivity]). }
      rewrite G. apply (d_same _ _ _ _ _ P); reflexivity.
  - cbn [SymSpec.wf SymSpec.regular vars] in *. destruct Rg as [Rg Rp]. specialize (IH W V Rg). cbn [Sym.D].
    destruct (is_con e) eqn:C. { apply is_con_inv in C. destruct C as [c ->]. exact (d_const (ln c) (r x)). }
    rewrite ev_times. cbn [SymSpec.ev]. rewrite rpow_m1.
    apply (d_same (fun t => ln (ev (upd r x t) e)) _ _ (/ ev (upd r x (r x)) e * ev r (D x e))).
    + apply (d_comp (fun t => ev (upd r x t) e) ln); [exact IH|]. apply derivable_pt_lim_ln. now rewrite upd_same.
    + reflexivity.
    + rewrite upd_same. ring.
  - cbn [SymSpec.wf SymSpec.regular vars] in *. destruct W as [L W]. destruct Rg as [Rg Df]. unfold ipart in Df. apply go_F in W. apply go_F in Rg.
    specialize (G l IH W V Rg).
    specialize (Df (map (fun e t => ev (upd r x t) e) l) (r x) (map (fun e => ev r (D x e)) l)).
    assert (A1 : map (fun h => h (r x)) (map (fun e t => ev (upd r x t) e) l) = map (ev r) l).
    { rewrite map_map. apply map_ext. intros e. apply upd_same. }
    assert (A2 : Forall2 (fun h d => derivable_pt_lim h (r x) d) (map (fun e t => ev (upd r x t) e) l) (map (fun e => ev r (D x e)) l)).
    { clear - G. induction G as [|e l He Hl IHl]; cbn [map]; constructor; assumption. }
    specialize (Df A1 A2). apply (d_same _ _ _ _ _ Df).
    + intros t. cbn [SymSpec.ev]. f_equal. rewrite map_map. reflexivity.
    + cbn [Sym.D].
      set (ts := map (fun p => user_term srt key (map fst (info f)) l (fst p) (snd p)) (combine (map snd (info f)) (map (D x) l))).
      assert (Ets : ev r (match ts with [y] => y | _ => mk_add ts end) = sm (map (ev r) ts)).
      { destruct ts as [|y [|z u]]. - rewrite ev_mk_add. reflexivity. - unfold sm. cbn. ring. - apply ev_mk_add. }
      rewrite Ets. unfold ts. rewrite map_map. unfold sm. f_equal.
      transitivity (map (fun p => match fst p with Some d => ev (bind r (map fst (info f)) (map (ev r) l)) d | None => 0 end * ev r (snd p))
        (combine (map snd (info f)) (map (D x) l))).
      * apply map_ext. intros [di y]. cbn [fst snd]. apply ev_user_term.
        { intros n Hn. now apply (Hkey f). }
        { intros n a Hn Ha Hv. apply (V f n Hn). apply in_flat_map. eauto. }
      * generalize (bind r (map fst (info f)) (map (ev r) l)). intros q. clear. revert l.
        induction (info f) as [|[n d] t IH]; intros [|a l]; try reflexivity. cbn [map combine fst snd]. f_equal. apply IH.
Qed.
End P.
