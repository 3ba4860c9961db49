(* The equation commands and what they report: all the commands *)
From Coq Require Import String List Bool Arith Lia.
From Verif Require Import StrMap EqTable EqTableProofs EqReport EqReportSpec EqReportProofs.
Import ListNotations.
Open Scope string_scope.
Open Scope list_scope.
Local Arguments Nat.ltb : simpl never.

Section P.
Variable there : kind -> string -> string -> bool.
Local Notation step := (step there).
Local Notation run := (run there).

Record wf (s : st) (g : place -> option args) : Prop := {
  w_reg : forall d p, exists o g0, inv (regions s d p) o g0 (next s);
  w_con : forall d p, sorted (contacts s d p);
  w_int : forall d p, sorted (interfaces s d p);
  w_cnm : forall d p n q, find n (contacts s d p) = Some q -> c_name q = n;
  w_inm : forall d p n q, find n (interfaces s d p) = Some q -> i_name q = n;
  w_get : forall k d p n, match g (k, d, p, n) with
                          | Some kw => exists o, get s k d p n = Reported o /\ good k d p n kw o
                          | None => get s k d p n = Failed
                          end }.
Lemma wf_start : wf start (fun _ => None).
Proof.
  constructor; intros; cbn.
  - exists [], (fun _ => None). apply inv_empty.
  - apply Sorted.SSorted_nil.
  - apply Sorted.SSorted_nil.
  - discriminate.
  - discriminate.
  - destruct k; reflexivity.
Qed.
Lemma inv_weaken : forall B (t : table B) o g id, inv t o g id -> inv t o g (S id).
Proof. intros B t o g id I. destruct I. constructor; auto. intros n q Hq. destruct (i_nm n q Hq). split; [assumption|lia]. Qed.
Lemma at_same : forall A (f : string -> string -> A) d p x, at_place f d p x d p = x.
Proof. intros. unfold at_place. rewrite !String.eqb_refl. reflexivity. Qed.
Lemma at_other : forall A (f : string -> string -> A) d p x d' p', (d, p) <> (d', p') -> at_place f d p x d' p' = f d' p'.
Proof. intros A f d p x d' p' H. unfold at_place. destruct (String.eqb_spec d d'); [subst|reflexivity]. destruct (String.eqb_spec p p'); [subst; congruence|reflexivity]. Qed.
Lemma at_cases : forall A (f : string -> string -> A) d p x d' p', (d = d' /\ p = p' /\ at_place f d p x d' p' = x) \/ ((d, p) <> (d', p') /\ at_place f d p x d' p' = f d' p').
Proof.
  intros A f d p x d' p'. destruct (string_dec d d') as [->|N]; [destruct (string_dec p p') as [->|N]|].
  - left. rewrite at_same. auto.
  - right. rewrite at_other by congruence. split; [congruence|reflexivity].
  - right. rewrite at_other by congruence. split; [congruence|reflexivity].
Qed.

(* ---- what an accepted command gives ---- *)
Lemma required_given : forall k kw n, options_ok k kw = true -> In n (required k) -> given_value kw n = Some (value kw n) /\ value kw n <> "".
Proof.
  intros k kw n H Hn. apply andb_prop in H. destruct H as [_ H]. rewrite forallb_forall in H. specialize (H n Hn). apply negb_true_iff, String.eqb_neq in H.
  split; [|exact H]. rewrite given_arg. unfold value in *. destruct (arg n kw); [reflexivity|]. destruct (String.eqb_spec n "variable_update"); [|congruence].
  subst n. destruct k; cbn in Hn; repeat (destruct Hn as [Hn|Hn]; [discriminate|]); destruct Hn.
Qed.
Lemma given_create : forall k kw g, options_ok k kw = true -> forall y,
  given_step g (Create k kw, Done) y = if place_dec y (k, value kw "device", value kw (place_option k), value kw "name") then Some kw else g y.
Proof.
  intros k kw g H y. destruct y as [[[k' d] p] n]. cbn [given_step].
  rewrite (proj1 (required_given k kw "device" H ltac:(destruct k; cbn; auto))), (proj1 (required_given k kw "name" H ltac:(destruct k; cbn; auto))).
  replace (at_option k) with (place_option k) by (destruct k; reflexivity).
  rewrite (proj1 (required_given k kw (place_option k) H ltac:(destruct k; cbn; auto))). reflexivity.
Qed.
Lemma get_get : forall s s' k d p n, (match k with OnRegion => regions s' d p = regions s d p | OnContact => contacts s' d p = contacts s d p | OnInterface => interfaces s' d p = interfaces s d p end) ->
  get s' k d p n = get s k d p n.
Proof. intros s s' k d p n H. destruct k; cbn; rewrite H; reflexivity. Qed.

Lemma create_wf : forall s g en k kw s' r, wf s g -> create there en s k kw = (s', r) ->
  wf s' (given_step g (Create k kw, r)) /\ (r = Done \/ r = Failed).
Proof.
  intros s g en k kw s' r W E. unfold create in E.
  destruct (options_ok k kw && there k (value kw "device") (value kw (place_option k))) eqn:O; [|inversion E; subst; split; [exact W|auto]].
  apply andb_prop in O. destruct O as [O Th].
  assert (Nn := proj2 (required_given k kw "name" O ltac:(destruct k; cbn; auto))).
  assert (G := given_create k kw g O). destruct k; cbn [place_option] in *.
  - (* region *)
    unfold create_region in E. cbv zeta in E. destruct (_ && _ && _ && _); [|inversion E; subst; split; [exact W|auto]].
    destruct (update_of (value kw "variable_update")) as [u|] eqn:U; [|inversion E; subst; split; [exact W|auto]].
    destruct (region_reports kw u U) as [R So].
    set (q := expr_equation _ _ _ _ _ _ _ _ _ _ _ _) in *. set (d := value kw "device") in *. set (p := value kw "region") in *.
    destruct (w_reg _ _ W d p) as (o & g0 & I).
    destruct (add_equation (regions s d p) (mkQ (r_name q) (r_var q) q (next s))) as [t ok] eqn:A.
    assert (X := exec_inv _ _ _ _ (Equation (r_name q) (r_var q) q) _ _ I A).
    assert (Wr : forall d' p', exists o g0, inv (at_place (regions s) d p t d' p') o g0 (S (next s))).
    { intros d' p'. destruct (at_cases _ (regions s) d p t d' p') as [(<- & <- & ->)|(_ & ->)].
      - destruct ok; [eauto|subst t; exists o, g0; apply inv_weaken; exact I].
      - destruct (w_reg _ _ W d' p') as (o' & g' & I'). exists o', g'. apply inv_weaken. exact I'. }
    destruct ok; inversion E; subst s' r; clear E.
    + split; [|auto]. constructor; cbn [regions contacts interfaces next]; try apply W; [exact Wr|].
      intros k' d' p' n. rewrite G. destruct (place_dec _ _) as [Q|Q].
      * inversion Q; subst k' d' p' n. unfold get. cbn [regions]. rewrite at_same.
        assert (Y := i_giv _ _ _ _ X (value kw "name")). cbn [given_step EqTableProofs.given_step] in Y. unfold q in Y at 2. cbn [expr_equation r_name] in Y. rewrite String.eqb_refl in Y.
        destruct (find (value kw "name") (t_eqs t)) as [q'|]; [|discriminate]. cbn [option_map] in Y. unfold gv in Y. inversion Y as [[Y1 Y2]].
        exists (region_options q). split; [rewrite Y2; reflexivity|]. split; [|split; assumption]. unfold accepted. split; [exact O|]. split; [reflexivity|]. split; [reflexivity|]. split; [reflexivity|]. split; [exact Nn|congruence].
      * assert (Z : get (mkS (at_place (regions s) d p t) (contacts s) (interfaces s) (S (next s))) k' d' p' n = get s k' d' p' n).
        { destruct k'; [|reflexivity|reflexivity]. unfold get. cbn [regions]. destruct (at_cases _ (regions s) d p t d' p') as [(<- & <- & ->)|(_ & ->)]; [|reflexivity].
          assert (Nq : n <> value kw "name") by (intros ->; apply Q; reflexivity).
          assert (Y := i_giv _ _ _ _ X n). cbn [EqTableProofs.given_step] in Y. change (r_name q) with (value kw "name") in Y. rewrite (proj2 (String.eqb_neq _ _) Nq) in Y.
          rewrite <- (i_giv _ _ _ _ I n) in Y. destruct (find n (t_eqs t)) as [q1|], (find n (t_eqs (regions s d p))) as [q2|]; cbn in Y; try discriminate; [|reflexivity].
          unfold gv in Y. inversion Y as [[Y1 Y2]]. reflexivity. }
        rewrite Z. apply (w_get _ _ W).
    + split; [|auto]. subst t. constructor; cbn [regions contacts interfaces next]; try apply W; [exact Wr|].
      intros k' d' p' n. assert (Z : get (mkS (at_place (regions s) d p (regions s d p)) (contacts s) (interfaces s) (S (next s))) k' d' p' n = get s k' d' p' n).
      { destruct k'; [|reflexivity|reflexivity]. unfold get. cbn [regions]. destruct (at_cases _ (regions s) d p (regions s d p) d' p') as [(<- & <- & ->)|(_ & ->)]; reflexivity. }
      rewrite Z. apply (w_get _ _ W).
  - (* contact *)
    unfold create_contact in E. cbv zeta in E. destruct (contact_reports kw) as [R So].
    set (q := expr_contact_equation _ _ _ _ _ _ _ _ _ _ _ _ _ _ _ _) in *. set (d := value kw "device") in *. set (p := value kw "contact") in *. inversion E; subst s' r; clear E.
    split; [|auto]. assert (Sp := w_con _ _ W d p). constructor; cbn [regions contacts interfaces next]; try apply W.
    + intros d' p'. destruct (at_cases _ (contacts s) d p (put (value kw "name") q (contacts s d p)) d' p') as [(<- & <- & ->)|(_ & ->)]; [apply put_sorted; exact Sp|apply W].
    + intros d' p' n q'. destruct (at_cases _ (contacts s) d p (put (value kw "name") q (contacts s d p)) d' p') as [(<- & <- & ->)|(_ & ->)]; [|apply W].
      rewrite find_put by exact Sp. destruct (String.eqb_spec n (value kw "name")); [intros H; inversion H; subst; reflexivity|apply W].
    + intros k' d' p' n. rewrite G. destruct (place_dec _ _) as [Q|Q].
      * inversion Q; subst k' d' p' n. unfold get. cbn [contacts]. rewrite at_same, find_put by exact Sp.  rewrite String.eqb_refl.
        eexists. split; [reflexivity|]. split; [|split; assumption]. unfold accepted. split; [exact O|]. split; [reflexivity|]. split; [reflexivity|]. split; [reflexivity|]. split; [exact Nn|exact Logic.I].
      * assert (Z : get (mkS (regions s) (at_place (contacts s) d p (put (value kw "name") q (contacts s d p))) (interfaces s) (next s)) k' d' p' n = get s k' d' p' n).
        { destruct k'; [reflexivity| |reflexivity]. unfold get. cbn [contacts]. destruct (at_cases _ (contacts s) d p (put (value kw "name") q (contacts s d p)) d' p') as [(<- & <- & ->)|(_ & ->)]; [|reflexivity].
          rewrite find_put by exact Sp. assert (Nq : n <> value kw "name") by (intros ->; apply Q; reflexivity).  destruct (String.eqb_spec n (value kw "name")); [contradiction|reflexivity]. }
        rewrite Z. apply (w_get _ _ W).
  - (* interface *)
    unfold create_interface in E. cbv zeta in E. destruct (negb (String.eqb (value kw "interface_model") "") && _) eqn:Im; [|inversion E; subst; split; [exact W|auto]].
    apply andb_prop in Im. destruct Im as [Im _]. apply negb_true_iff, String.eqb_neq in Im.
    destruct (itype_of (value kw "type")) as [u|] eqn:U; [|inversion E; subst; split; [exact W|auto]].
    destruct (interface_reports kw u U) as [R So].
    set (q := interface_equation _ _ _ _ _ _ _) in *. set (d := value kw "device") in *. set (p := value kw "interface") in *. inversion E; subst s' r; clear E.
    split; [|auto]. assert (Sp := w_int _ _ W d p). constructor; cbn [regions contacts interfaces next]; try apply W.
    + intros d' p'. destruct (at_cases _ (interfaces s) d p (put (value kw "name") q (interfaces s d p)) d' p') as [(<- & <- & ->)|(_ & ->)]; [apply put_sorted; exact Sp|apply W].
    + intros d' p' n q'. destruct (at_cases _ (interfaces s) d p (put (value kw "name") q (interfaces s d p)) d' p') as [(<- & <- & ->)|(_ & ->)]; [|apply W].
      rewrite find_put by exact Sp. destruct (String.eqb_spec n (value kw "name")); [intros H; inversion H; subst; reflexivity|apply W].
    + intros k' d' p' n. rewrite G. destruct (place_dec _ _) as [Q|Q].
      * inversion Q; subst k' d' p' n. unfold get. cbn [interfaces]. rewrite at_same, find_put by exact Sp.  rewrite String.eqb_refl.
        eexists. split; [reflexivity|]. split; [|split; assumption]. unfold accepted. split; [exact O|]. split; [reflexivity|]. split; [reflexivity|]. split; [reflexivity|]. split; [exact Nn|split; [congruence|exact Im]].
      * assert (Z : get (mkS (regions s) (contacts s) (at_place (interfaces s) d p (put (value kw "name") q (interfaces s d p))) (next s)) k' d' p' n = get s k' d' p' n).
        { destruct k'; [reflexivity|reflexivity|]. unfold get. cbn [interfaces]. destruct (at_cases _ (interfaces s) d p (put (value kw "name") q (interfaces s d p)) d' p') as [(<- & <- & ->)|(_ & ->)]; [|reflexivity].
          rewrite find_put by exact Sp. assert (Nq : n <> value kw "name") by (intros ->; apply Q; reflexivity).  destruct (String.eqb_spec n (value kw "name")); [contradiction|reflexivity]. }
        rewrite Z. apply (w_get _ _ W).
Qed.
Lemma delete_wf : forall s g k d p n s' r, wf s g -> delete s k d p n = (s', r) ->
  wf s' (given_step g (Delete k d p n, r)) /\ (r = Done \/ r = Failed).
Proof.
  intros s g k d p n s' r W E. destruct k; cbn [delete] in E.
  - destruct (find n (t_eqs (regions s d p))) as [q|] eqn:F; [|inversion E; subst; split; [exact W|auto]].
    destruct (w_reg _ _ W d p) as (o & g0 & I). destruct (delete_equation (regions s d p) q) as [t ok] eqn:A.
    assert (X : exec (next s) (regions s d p) (DeleteEquation n) = (t, ok)) by (cbn; rewrite F; exact A).
    assert (X' := exec_inv _ _ _ _ _ _ _ I X). destruct ok; inversion E; subst s' r; clear E.
    + split; [|auto]. cbn [given_step]. constructor; cbn [regions contacts interfaces next]; try apply W.
      * intros d' p'. destruct (at_cases _ (regions s) d p t d' p') as [(<- & <- & ->)|(_ & ->)]; [|apply W].
        exists (order_step o (@DeleteEquation requation n)), (EqTableProofs.given_step g0 (@DeleteEquation requation n)). constructor; try apply X'. intros m q' Hq'. split; [exact (proj1 (i_nm _ _ _ _ X' m q' Hq'))|].
        assert (Se := i_se _ _ _ _ I). unfold delete_equation in A. destruct (find (q_name q) (t_eqs (regions s d p))); [|discriminate]. destruct (find (q_name q) (t_idx (regions s d p))); [|discriminate].
        destruct (find (q_var q) (t_var (regions s d p))); [|discriminate]. inversion A; subst t. cbn [t_eqs] in Hq'. rewrite find_erase in Hq' by exact Se.
        destruct (String.eqb m (q_name q)); [discriminate|]. exact (proj2 (i_nm _ _ _ _ I m q' Hq')).
      * intros k' d' p' n'. destruct (place_dec _ _) as [Q|Q].
        -- inversion Q; subst k' d' p' n'. unfold get. cbn [regions]. rewrite at_same. assert (Y := i_giv _ _ _ _ X' n). cbn [EqTableProofs.given_step] in Y. rewrite String.eqb_refl in Y.
           destruct (find n (t_eqs t)); [discriminate|reflexivity].
        -- assert (Z : get (mkS (at_place (regions s) d p t) (contacts s) (interfaces s) (next s)) k' d' p' n' = get s k' d' p' n').
           { destruct k'; [|reflexivity|reflexivity]. unfold get. cbn [regions]. destruct (at_cases _ (regions s) d p t d' p') as [(<- & <- & ->)|(_ & ->)]; [|reflexivity].
             assert (Nq : n' <> n) by (intros ->; apply Q; reflexivity).
             assert (Y := i_giv _ _ _ _ X' n'). cbn [EqTableProofs.given_step] in Y. destruct (String.eqb_spec n' n); [contradiction|].
             rewrite <- (i_giv _ _ _ _ I n') in Y. destruct (find n' (t_eqs t)) as [q1|], (find n' (t_eqs (regions s d p))) as [q2|]; cbn in Y; try discriminate; [|reflexivity].
             unfold gv in Y. inversion Y as [[Y1 Y2]]. reflexivity. }
           rewrite Z. apply (w_get _ _ W).
    + subst t. split; [|auto]. cbn [given_step]. constructor; cbn [regions contacts interfaces next]; try apply W.
      * intros d' p'. destruct (at_cases _ (regions s) d p (regions s d p) d' p') as [(<- & <- & ->)|(_ & ->)]; apply W.
      * intros k' d' p' n'. assert (Z : get (mkS (at_place (regions s) d p (regions s d p)) (contacts s) (interfaces s) (next s)) k' d' p' n' = get s k' d' p' n').
        { destruct k'; [|reflexivity|reflexivity]. unfold get. cbn [regions]. destruct (at_cases _ (regions s) d p (regions s d p) d' p') as [(<- & <- & ->)|(_ & ->)]; reflexivity. }
        rewrite Z. apply (w_get _ _ W).
  - destruct (find n (contacts s d p)) as [q|] eqn:F; inversion E; subst s' r; clear E; [|split; [exact W|auto]].
    split; [|auto]. assert (Sp := w_con _ _ W d p). assert (Nm := w_cnm _ _ W d p n q F). cbn [given_step]. constructor; cbn [regions contacts interfaces next]; try apply W.
    + intros d' p'. destruct (at_cases _ (contacts s) d p (erase (c_name q) (contacts s d p)) d' p') as [(<- & <- & ->)|(_ & ->)]; [apply erase_sorted; exact Sp|apply W].
    + intros d' p' n' q'. destruct (at_cases _ (contacts s) d p (erase (c_name q) (contacts s d p)) d' p') as [(<- & <- & ->)|(_ & ->)]; [|apply W].
      rewrite find_erase by exact Sp. destruct (String.eqb n' (c_name q)); [discriminate|apply W].
    + intros k' d' p' n'. destruct (place_dec _ _) as [Q|Q].
      * inversion Q; subst k' d' p' n'. unfold get. cbn [contacts]. rewrite at_same, find_erase by exact Sp. rewrite Nm, String.eqb_refl. reflexivity.
      * assert (Z : get (mkS (regions s) (at_place (contacts s) d p (erase (c_name q) (contacts s d p))) (interfaces s) (next s)) k' d' p' n' = get s k' d' p' n').
        { destruct k'; [reflexivity| |reflexivity]. unfold get. cbn [contacts]. destruct (at_cases _ (contacts s) d p (erase (c_name q) (contacts s d p)) d' p') as [(<- & <- & ->)|(_ & ->)]; [|reflexivity].
          rewrite find_erase by exact Sp. rewrite Nm. assert (Nq : n' <> n) by (intros ->; apply Q; reflexivity). destruct (String.eqb_spec n' n); [contradiction|reflexivity]. }
        rewrite Z. apply (w_get _ _ W).
  - destruct (find n (interfaces s d p)) as [q|] eqn:F; inversion E; subst s' r; clear E; [|split; [exact W|auto]].
    split; [|auto]. assert (Sp := w_int _ _ W d p). assert (Nm := w_inm _ _ W d p n q F). cbn [given_step]. constructor; cbn [regions contacts interfaces next]; try apply W.
    + intros d' p'. destruct (at_cases _ (interfaces s) d p (erase (i_name q) (interfaces s d p)) d' p') as [(<- & <- & ->)|(_ & ->)]; [apply erase_sorted; exact Sp|apply W].
    + intros d' p' n' q'. destruct (at_cases _ (interfaces s) d p (erase (i_name q) (interfaces s d p)) d' p') as [(<- & <- & ->)|(_ & ->)]; [|apply W].
      rewrite find_erase by exact Sp. destruct (String.eqb n' (i_name q)); [discriminate|apply W].
    + intros k' d' p' n'. destruct (place_dec _ _) as [Q|Q].
      * inversion Q; subst k' d' p' n'. unfold get. cbn [interfaces]. rewrite at_same, find_erase by exact Sp. rewrite Nm, String.eqb_refl. reflexivity.
      * assert (Z : get (mkS (regions s) (contacts s) (at_place (interfaces s) d p (erase (i_name q) (interfaces s d p))) (next s)) k' d' p' n' = get s k' d' p' n').
        { destruct k'; [reflexivity|reflexivity|]. unfold get. cbn [interfaces]. destruct (at_cases _ (interfaces s) d p (erase (i_name q) (interfaces s d p)) d' p') as [(<- & <- & ->)|(_ & ->)]; [|reflexivity].
          rewrite find_erase by exact Sp. rewrite Nm. assert (Nq : n' <> n) by (intros ->; apply Q; reflexivity). destruct (String.eqb_spec n' n); [contradiction|reflexivity]. }
        rewrite Z. apply (w_get _ _ W).
Qed.
Lemma step_wf : forall s g en c s' r, wf s g -> step s en c = (s', r) -> wf s' (given_step g (c, r)).
Proof.
  intros s g en c s' r W E. destruct c as [k kw|k d p n|k d p|k d p n]; cbn [EqReport.step] in E.
  - exact (proj1 (create_wf _ _ _ _ _ _ _ W E)).
  - destruct (there k d p && negb (String.eqb n "")); [exact (proj1 (delete_wf _ _ _ _ _ _ _ _ W E))|inversion E; subst; exact W].
  - destruct (there k d p); inversion E; subst; exact W.
  - destruct (there k d p && negb (String.eqb n "")); inversion E; subst; exact W.
Qed.
Theorem run_wf : forall h s g s' rs, wf s g -> run s h = (s', rs) -> wf s' (fold_left given_step (combine (map snd h) rs) g) /\ length rs = length h.
Proof.
  induction h as [|[en c] h IH]; intros s g s' rs W E; cbn [EqReport.run] in E; [inversion E; subst; split; [exact W|reflexivity]|].
  destruct (step s en c) as [s1 r] eqn:Es. destruct (run s1 h) as [s2 l] eqn:Er. inversion E; subst s' rs. cbn [map snd combine fold_left].
  destruct (IH s1 (given_step g (c, r)) s2 l (step_wf _ _ _ _ _ _ W Es) Er) as [A B]. split; [exact A|cbn; rewrite B; reflexivity].
Qed.
End P.
