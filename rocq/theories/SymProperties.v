(* Theorems: symbolic derivatives (C29) *)
From Coq Require Import Ascii String List Bool Reals ZArith Lia Lra Permutation.
From Verif Require Import Sym SymSpec SymProofs SymUser.
Import ListNotations.
Open Scope string_scope.
Open Scope list_scope.
Open Scope R_scope.

Definition arity (decls : string -> decl) (f : string) : nat := darity (decls f).
Definition declared (F : string -> list R -> R) (decls : string -> decl) (f : string) := dpartials F (decls f).
Definition infos srt key (decls : string -> decl) (f : string) := info_of srt key (decls f).

(* C29: the expression returned by the differentiation is the derivative, at every regular point of every expression *)
Theorem C29_derivative_partial : forall F srt key decls r x e,
  (forall l, Permutation (srt l) l) -> text key -> (forall f, good_decl (arity decls) (decls f)) ->
  wf (arity decls) e -> idents e -> regular F (declared F decls) r e ->
  derivable_pt_lim (fun t => ev F (upd r x t) e) (r x) (ev F r (D srt key (infos srt key decls) x e)).
Proof. intros F srt key decls r x e Hs Hk Hg W V Rg. now apply (user_derivative F srt Hs key Hk decls Hg). Qed.

(* C29: and so do derivatives of derivatives, to any order *)
Theorem C29_repeated_partial : forall F srt key decls r xs x e,
  (forall l, Permutation (srt l) l) -> text key -> (forall f, good_decl (arity decls) (decls f)) ->
  wf (arity decls) e -> idents e ->
  let d := fold_left (fun e x => D srt key (infos srt key decls) x e) xs e in
  regular F (declared F decls) r d ->
  derivable_pt_lim (fun t => ev F (upd r x t) d) (r x) (ev F r (D srt key (infos srt key decls) x d)).
Proof.
  intros F srt key decls r xs x e Hs Hk Hg W V d Rg. 
  assert (G : good decls ident d).
  { unfold d. clear d Rg. assert (G : good decls ident e) by (split; assumption). clear W V. revert e G.
    induction xs as [|y xs IH]; intros e G; [exact G|]. cbn [fold_left]. apply IH. apply (good_D srt Hs key Hk decls Hg); auto. }
  destruct G as [W' V']. now apply C29_derivative_partial.
Qed.

(* an example: e = x * exp y + pow(x, 3) + prodab(x, log y), prodab(a, b) = a * b being defined by the user *)
Definition ex_srt (l : list expr) := l.
Definition ex_key (e : expr) : string := match e with Var s => s | _ => "()" end.
Definition ex_F (f : string) (l : list R) : R := match l with [a; b] => a * b | _ => 0 end.
Definition ex_decls (f : string) : decl := if String.eqb f "prodab" then Defined ["a"; "b"] [Var "b"; Var "a"] else Declared 0.
Definition ex_e : expr :=
  Add [Prod [Var "x"; Exp (Var "y")]; Pow (Var "x") (Con 3); User "prodab" [Var "x"; Log (Var "y")]].
Definition ex_r : env := fun s => if String.eqb s "x" then -1 else 2.
Lemma ex_srt_perm : forall l, Permutation (ex_srt l) l.
Proof. intros l. apply Permutation_refl. Qed.
Lemma ex_key_text : text ex_key.
Proof.
  intros e v H. split; [|intros ->; reflexivity]. destruct e; cbn; intros E; subst v; try reflexivity;
    (destruct H as [H|[H|(w & _ & H)]]; [discriminate|cbn in H; unfold letter in H; cbn in H; lia|discriminate]).
Qed.

Lemma ex_good : forall f, good_decl (arity ex_decls) (ex_decls f).
Proof.
  intros f. unfold ex_decls. destruct (String.eqb f "prodab"); cbn; [|exact Logic.I].
  split; [reflexivity|]. split. { constructor; [intros [H|[]]; discriminate|]. constructor; [intros []|constructor]. }
  assert (A : letter "a"%char) by (unfold letter; cbn; lia). assert (B : letter "b"%char) by (unfold letter; cbn; lia).
  split. { repeat (apply Forall_cons; [assumption|]). apply Forall_nil. }
  split. { apply Forall_cons; [intros s [<-|[]]; exact B|]. apply Forall_cons; [intros s [<-|[]]; exact A|apply Forall_nil]. }
  repeat (apply Forall_cons; [exact Logic.I|]). apply Forall_nil.
Qed.
Lemma ex_diff : forall a b, differentiable (ex_F "prodab") [a; b] [b; a].
Proof.
  intros a b g t dg E H. destruct g as [|g1 [|g2 [|]]]; try discriminate. injection E as <- <-.
  inversion H as [|? d1 ? dg1 H1 T1]; subst. inversion T1 as [|? d2 ? dg2 H2 T2]; subst. inversion T2; subst.
  cbn [map combine fold_right fst snd ex_F]. apply (d_same _ _ _ _ _ (d_mul g1 g2 t d1 d2 H1 H2)); [reflexivity|]. ring.
Qed.
Example C29_ex : wf (arity ex_decls) ex_e /\ idents ex_e /\ regular ex_F (declared ex_F ex_decls) ex_r ex_e.
Proof.
  split; [cbn; repeat split; lia|]. split.
  - intros s H. cbn in H. assert (X : letter "x"%char) by (unfold letter; cbn; lia). assert (Y : letter "y"%char) by (unfold letter; cbn; lia).
    destruct H as [<-|[<-|[<-|[<-|[<-|[]]]]]]; assumption.
  - cbn [ex_e regular]. split; [repeat split|]. split.
    { split; [exact Logic.I|]. split; [exact Logic.I|]. right. exists 3%Z. split; [reflexivity|]. right. lia. }
    split; [|exact Logic.I]. split.
    { split; [exact Logic.I|]. split; [|exact Logic.I]. split; [exact Logic.I|]. cbn. unfold ex_r. cbn. lra. }
    apply ex_diff.
Qed.
(* the derivative with respect to x is exp y + 3 pow(x, 2) + log y *)
Example C29_ex_D : D ex_srt ex_key (infos ex_srt ex_key ex_decls) "y" (User "prodab" [Var "x"; Log (Var "y")])
  = Add [Con 0; Prod [Var "x"; Pow (Var "y") (Con (-1))]].
Proof.
  cbn. unfold user_term. cbn. rewrite reqb_refl. cbn.
  assert (A : reqb 1 0 = false) by (unfold reqb; destruct (Req_EM_T 1 0); [lra|reflexivity]).
  unfold times. cbn. rewrite !reqb_refl, ?A. cbn. rewrite ?reqb_refl, ?A. cbn. reflexivity.
Qed.

(* C29, refuted: a product with a single factor (the operators make none) has derivative 0 *)
Theorem C29_one_factor_refuted : forall F srt key info r, ~ derivable_pt_lim (fun t => ev F (upd r "x" t) (Prod [Var "x"])) (r "x"%string)
  (ev F r (D srt key info "x" (Prod [Var "x"]))).
Proof.
  intros F srt key info r H.
  assert (E : ev F r (D srt key info "x" (Prod [Var "x"])) = 0).
  { cbn. assert (A : reqb 1 0 = false) by (unfold reqb; destruct (Req_EM_T 1 0); [lra|reflexivity]). rewrite A, reqb_refl. reflexivity. }
  rewrite E in H. assert (K : derivable_pt_lim (fun t => ev F (upd r "x" t) (Prod [Var "x"])) (r "x"%string) 1).
  { apply (d_same (fun t => t) _ _ 1); [apply derivable_pt_lim_id| |reflexivity]. intros t. cbn. unfold upd. cbn. ring. }
  pose proof (uniqueness_limite _ _ _ _ H K). lra.
Qed.

(* C29, refuted: the derivatives of a function which was declared before it was defined. With f(x, y) = x * x / 2, df/dx = x,
   the derivative of f(y, 3) with respect to y is given as 3 instead of y *)
Definition bad_decls (f : string) : decl := Redefined ["x"; "y"] [Var "x"; Con 0].
Definition bad_F (f : string) (l : list R) : R := match l with [a; b] => a * a / 2 | _ => 0 end.
Definition bad_e : expr := User "f" [Var "y"; Con 3].
Theorem C29_declared_before_refuted : forall r, r "y"%string <> 3 ->
  wf (arity bad_decls) bad_e /\ idents bad_e /\ regular bad_F (declared bad_F bad_decls) r bad_e /\
  ~ derivable_pt_lim (fun t => ev bad_F (upd r "y" t) bad_e) (r "y"%string)
    (ev bad_F r (D ex_srt ex_key (infos ex_srt ex_key bad_decls) "y" bad_e)).
Proof.
  intros r N. split; [cbn; repeat split|]. split.
  { intros s H. cbn in H. destruct H as [<-|[]]. cbn. unfold letter. cbn. lia. }
  split.
  - cbn [bad_e regular]. split; [repeat split|]. unfold declared, bad_decls, dpartials. cbn [map]. intros g t dg E H.
    destruct g as [|g1 [|g2 [|]]]; try discriminate. injection E as E1 E2.
    inversion H as [|? d1 ? dg1 H1 T1]; subst. inversion T1 as [|? d2 ? dg2 H2 T2]; subst. inversion T2; subst.
    cbn [map combine fold_right fst snd bad_F]. apply (d_same (fun s => / 2 * (g1 s * g1 s)) _ _ (/ 2 * (d1 * g1 t + g1 t * d1))).
    + apply (derivable_pt_lim_scal (fun s => g1 s * g1 s) (/ 2) t). now apply d_mul.
    + intros s. unfold Rdiv. ring.
    + cbn [ev bind combine fold_right fst snd]. unfold upd. cbn [String.eqb Ascii.eqb Bool.eqb]. cbn. cbn in E1. rewrite E1. field.
  - assert (A : reqb 1 0 = false) by (unfold reqb; destruct (Req_EM_T 1 0); [lra|reflexivity]).
    assert (E : ev bad_F r (D ex_srt ex_key (infos ex_srt ex_key bad_decls) "y" bad_e) = 3).
    { cbn. unfold user_term. cbn. rewrite !A, !reqb_refl. cbn. ring. }
    rewrite E. intros H.
    assert (K : derivable_pt_lim (fun t => ev bad_F (upd r "y" t) bad_e) (r "y"%string) (r "y"%string)).
    { apply (d_same (fun t => / 2 * (t * t)) _ _ (/ 2 * (1 * r "y"%string + r "y"%string * 1))).
      - apply (derivable_pt_lim_scal (fun s => s * s) (/ 2)). apply (d_mul (fun s => s) (fun s => s)); apply derivable_pt_lim_id.
      - intros t. cbn. unfold upd. cbn. unfold Rdiv. ring.
      - field. }
    pose proof (uniqueness_limite _ _ _ _ H K). lra.
Qed.

(* C29, refuted: a function which is only declared has derivative 0 *)
Theorem C29_declared_only_refuted : forall r,
  let F := fun (f : string) (l : list R) => fold_right Rplus 0 l in
  let e := User "g" [Var "x"] in
  ~ derivable_pt_lim (fun t => ev F (upd r "x" t) e) (r "x"%string) (ev F r (D ex_srt ex_key (infos ex_srt ex_key (fun _ => Declared 1)) "x" e)).
Proof.
  intros r F e.
  assert (A : reqb 1 0 = false) by (unfold reqb; destruct (Req_EM_T 1 0); [lra|reflexivity]).
  assert (E : ev F r (D ex_srt ex_key (infos ex_srt ex_key (fun _ => Declared 1)) "x" e) = 0).
  { cbn. unfold user_term. cbn. rewrite !A, !reqb_refl. reflexivity. }
  rewrite E. intros H. assert (K : derivable_pt_lim (fun t => ev F (upd r "x" t) e) (r "x"%string) 1).
  { apply (d_same (fun t => t) _ _ 1); [apply derivable_pt_lim_id| |reflexivity]. intros t. cbn. unfold upd. cbn. ring. }
  pose proof (uniqueness_limite _ _ _ _ H K). lra.
Qed.

(* C29: derivatives of models. Over any history of derivatives whose names are not confused with one another or with a
   model of the user, the answer for (v, x) is the derivative of the model v with respect to x *)
Definition answer srt key info (simp : expr -> expr) (ms0 ms : models) (q : string * string) (a : expr) : Prop :=
  let '(v, x) := q in
  (x = v /\ a = Con 1) \/
  (x <> v /\ forall m, lookup ms0 v = Some m ->
     (is_zero (simp (D srt key info x m)) = true /\ a = Con 0) \/
     (exists n, a = Var n /\ lookup ms n = Some (simp (D srt key info x m)))).
Lemma lookup_app : forall ms v e t, lookup ms v = Some e -> lookup (ms ++ t)%list v = Some e.
Proof. induction ms as [|[n d] ms IH]; intros v e t H; [discriminate|]. cbn in *. destruct (String.eqb n v); auto. Qed.
Lemma lookup_app_none : forall ms v t, lookup ms v = None -> lookup (ms ++ t)%list v = lookup t v.
Proof. induction ms as [|[n d] ms IH]; intros v t H; [reflexivity|]. cbn in *. destruct (String.eqb n v); [discriminate|auto]. Qed.
Section Models.
Variable srt : list expr -> list expr.
Variable key : expr -> string.
Variable info : string -> list (string * option expr).
Variable simp : expr -> expr.
Variable ms0 : models.
Notation drv x m := (simp (D srt key info x m)).
Definition qok (qs : list (string * string)) : Prop :=
  Forall (fun q => lookup ms0 (fst q) <> None /\ lookup ms0 (bar (fst q) (snd q)) = None) qs /\
  forall q q', In q qs -> In q' qs -> bar (fst q) (snd q) = bar (fst q') (snd q') -> q = q'.
Definition minv (qs : list (string * string)) (ms : models) : Prop :=
  exists t, ms = (ms0 ++ t)%list /\ forall v x e, In (v, x) qs -> lookup t (bar v x) = Some e -> exists m, lookup ms0 v = Some m /\ e = drv x m.
Lemma model_D_step : forall all ms v x, qok all -> In (v, x) all -> minv all ms ->
  minv all (fst (model_D srt key info simp ms v x)) /\ answer srt key info simp ms0 (fst (model_D srt key info simp ms v x)) (v, x) (snd (model_D srt key info simp ms v x)) /\
  (forall n e, lookup ms n = Some e -> lookup (fst (model_D srt key info simp ms v x)) n = Some e).
Proof.
  intros all ms v x [Q1 Q2] Hin Inv. rewrite Forall_forall in Q1. destruct (Q1 _ Hin) as [Hv Hb]. cbn [fst snd] in Hv, Hb.
  unfold model_D. destruct (String.eqb x v) eqn:E.
  { apply String.eqb_eq in E. subst. cbn [fst snd]. split; [exact Inv|]. split; [|auto]. left. auto. }
  apply String.eqb_neq in E. destruct Inv as (t & -> & Ht). destruct (lookup ms0 v) as [m|] eqn:Em; [|congruence].
  rewrite (lookup_app _ _ _ t Em). destruct (is_zero (drv x m)) eqn:Z.
  { cbn [fst snd]. split; [exists t; auto|]. split; [|auto]. right. split; [exact E|]. intros m' Hm. rewrite Em in Hm. injection Hm as <-. left. auto. }
  rewrite (lookup_app_none _ _ t Hb). destruct (lookup t (bar v x)) as [e|] eqn:El; cbn [fst snd].
  - split; [exists t; auto|]. split; [|auto]. right. split; [exact E|]. intros m' Hm. rewrite Em in Hm. injection Hm as <-. right. exists (bar v x).
    split; [reflexivity|]. rewrite (lookup_app_none _ _ t Hb), El. destruct (Ht v x e Hin El) as (m' & Hm' & ->). congruence.
  - split; [|split].
    + exists (t ++ [(bar v x, drv x m)])%list. split; [now rewrite app_assoc|]. intros v' x' e Hin' He.
      destruct (lookup t (bar v' x')) as [e'|] eqn:El'.
      * rewrite (lookup_app _ _ _ _ El') in He. injection He as <-. eapply Ht; eauto.
      * rewrite (lookup_app_none _ _ _ El') in He. cbn [lookup] in He. destruct (String.eqb (bar v x) (bar v' x')) eqn:Eb; [|discriminate He].
        apply String.eqb_eq in Eb. apply (Q2 (v, x) (v', x')) in Eb; auto. injection Eb as <- <-. injection He as <-. exists m. auto.
    + right. split; [exact E|]. intros m' Hm. rewrite Em in Hm. injection Hm as <-. right. exists (bar v x). split; [reflexivity|].
      rewrite <- app_assoc, (lookup_app_none _ _ _ Hb), (lookup_app_none _ _ _ El). cbn. now rewrite String.eqb_refl.
    + intros n e He. now apply lookup_app.
Qed.
Lemma answer_later : forall ms ms' q a, (forall n e, lookup ms n = Some e -> lookup ms' n = Some e) ->
  answer srt key info simp ms0 ms q a -> answer srt key info simp ms0 ms' q a.
Proof.
  intros ms ms' [v x] a H A. destruct A as [A|[E A]]; [left; exact A|]. right. split; [exact E|]. intros m Hm.
  destruct (A m Hm) as [Z|(n & En & Hn)]; [left; exact Z|right; exists n; auto].
Qed.
Lemma model_Ds_ok : forall qs all ms, qok all -> (forall q, In q qs -> In q all) -> minv all ms ->
  Forall2 (answer srt key info simp ms0 (fst (model_Ds srt key info simp ms qs))) qs (snd (model_Ds srt key info simp ms qs)) /\
  (forall n e, lookup ms n = Some e -> lookup (fst (model_Ds srt key info simp ms qs)) n = Some e).
Proof.
  induction qs as [|[v x] qs IH]; intros all ms Q Hin Inv; cbn [model_Ds]; [split; [constructor|auto]|].
  destruct (model_D_step all ms v x Q (Hin _ (or_introl eq_refl)) Inv) as (I1 & A & M).
  destruct (model_D srt key info simp ms v x) as [ms1 e]. cbn [fst snd] in *.
  destruct (IH all ms1 Q (fun q H => Hin q (or_intror H)) I1) as [B M'].
  destruct (model_Ds srt key info simp ms1 qs) as [ms2 l]. cbn [fst snd] in *. split; [|auto].
  constructor; [|exact B]. now apply (answer_later ms1).
Qed.
End Models.
Theorem C29_models_partial : forall srt key info simp ms0 qs,
  Forall (fun q => lookup ms0 (fst q) <> None /\ lookup ms0 (bar (fst q) (snd q)) = None) qs ->
  (forall q q', In q qs -> In q' qs -> bar (fst q) (snd q) = bar (fst q') (snd q') -> q = q') ->
  Forall2 (answer srt key info simp ms0 (fst (model_Ds srt key info simp ms0 qs))) qs (snd (model_Ds srt key info simp ms0 qs)).
Proof.
  intros srt key info simp ms0 qs H K. apply (model_Ds_ok srt key info simp ms0 qs qs ms0); [split; assumption|auto|].
  exists []. split; [now rewrite app_nil_r|]. intros v x e _ He. discriminate.
Qed.
Definition ex_ms : models := [("a", Prod [Con 3; Var "u"]); ("b", Prod [Con 2; Var "u"])].
Example C29_models_ex : let qs := [("a", "u"); ("b", "u"); ("a", "u"); ("a", "a")]%string in
  Forall (fun q => lookup ex_ms (fst q) <> None /\ lookup ex_ms (bar (fst q) (snd q)) = None) qs /\
  (forall q q', In q qs -> In q' qs -> bar (fst q) (snd q) = bar (fst q') (snd q') -> q = q').
Proof.
  cbv zeta. split.
  - repeat (apply Forall_cons; [cbn; split; [discriminate|reflexivity]|]). apply Forall_nil.
  - intros q q' H H'. cbn in H, H'. destruct H as [<-|[<-|[<-|[<-|[]]]]]; destruct H' as [<-|[<-|[<-|[<-|[]]]]]; intros E; try reflexivity; discriminate.
Qed.

(* C29, refuted: the name of the derivative of model a_d_b with respect to c is also that of model a with respect to b_d_c;
   the second is given the value of the first *)
Definition clash : models := [("a_d_b", Prod [Con 2; Var "c"]); ("a", Prod [Con 3; Var "b_d_c"])].
Theorem C29_models_names_refuted :
  ~ (forall qs, Forall (fun q => lookup clash (fst q) <> None /\ lookup clash (bar (fst q) (snd q)) = None) qs ->
     let info := fun _ => [] in
     Forall2 (answer ex_srt ex_key info (fun e => e) clash (fst (model_Ds ex_srt ex_key info (fun e => e) clash qs))) qs
       (snd (model_Ds ex_srt ex_key info (fun e => e) clash qs))).
Proof.
  intros H. specialize (H [("a_d_b", "c"); ("a", "b_d_c")]%string).
  assert (A : reqb 1 0 = false) by (unfold reqb; destruct (Req_EM_T 1 0); [lra|reflexivity]).
  assert (B : reqb 2 0 = false) by (unfold reqb; destruct (Req_EM_T 2 0); [lra|reflexivity]).
  assert (C : reqb 3 0 = false) by (unfold reqb; destruct (Req_EM_T 3 0); [lra|reflexivity]).
  assert (E : model_Ds ex_srt ex_key (fun _ => []) (fun e => e) clash [("a_d_b", "c"); ("a", "b_d_c")]%string
    = ((clash ++ [("d_a_d_b_d_c", Con 2)])%list, [Var "d_a_d_b_d_c"; Var "d_a_d_b_d_c"])%string).
  { unfold model_Ds, model_D. cbn. rewrite !reqb_refl, !A. cbn. rewrite ?A, ?B, ?C, ?reqb_refl. cbn. rewrite ?A, ?B, ?C, ?reqb_refl. cbn. rewrite ?C. reflexivity. }
  cbv zeta in H. rewrite E in H. cbn [fst snd] in H. clear E.
  assert (G : Forall (fun q => lookup clash (fst q) <> None /\ lookup clash (bar (fst q) (snd q)) = None) [("a_d_b", "c"); ("a", "b_d_c")]%string).
  { repeat (apply Forall_cons; [cbn; split; [discriminate|reflexivity]|]). apply Forall_nil. }
  specialize (H G). inversion H as [|? ? ? ? _ H2]; subst. inversion H2 as [|? ? ? ? H3 _]; subst. clear H H2.
  destruct H3 as [[H3 _]|[_ H3]]; [discriminate|]. specialize (H3 _ eq_refl). destruct H3 as [[_ H3]|(n & En & Hn)]; [discriminate|].
  injection En as <-. cbn in Hn. rewrite !reqb_refl, !A in Hn. cbn in Hn. injection Hn as Hn. lra.
Qed.

Print Assumptions C29_derivative_partial.
Print Assumptions C29_repeated_partial.
Print Assumptions C29_one_factor_refuted.
Print Assumptions C29_declared_before_refuted.
Print Assumptions C29_declared_only_refuted.
Print Assumptions C29_models_partial.
Print Assumptions C29_models_names_refuted.
