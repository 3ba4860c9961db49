(* C71: the commands with which equations are saved give them back *)
From Coq Require Import String List Bool.
From Verif Require Import StrMap EqTable EqReport EqReportSpec EqReportProofs EqReportSteps EqReportQuery EqReportSaved EqReportProperties.
Import ListNotations.
Open Scope string_scope.
Open Scope list_scope.

(* the command written for an equation that is reported: executed in the same session or, if the command is done, in any other, it gives the same report;
   in a session without equations it is done, if the models exist *)
Theorem C71_saved : forall there h s rs k d p n o en, run there start h = (s, rs) -> there k d p = true -> step there s en (Get k d p n) = (s, Reported o) ->
  exists kw, written s k d p n = Some kw /\
    (forall h2 s2 rs2 en2 s3, run there start h2 = (s2, rs2) -> step there s2 en2 (Create k kw) = (s3, Done) -> snd (step there s3 en2 (Get k d p n)) = Reported o) /\
    (forall en2, (forall m x, en2 m d p x = true) -> snd (step there start en2 (Create k kw)) = Done /\ snd (step there s en2 (Create k kw)) = Done).
Proof.
  intros there h s rs k d p n o en E Th G. destruct (run_wf there h start _ s rs wf_start E) as [W _]. cbn [step] in G. rewrite Th in G.
  destruct (negb (String.eqb n "")) eqn:Nn; [|discriminate]. cbn [andb] in G. assert (Gg : get s k d p n = Reported o) by (inversion G; reflexivity).
  assert (Wr : exists kw, written s k d p n = Some kw).
  { destruct k; cbn [written get] in *; [destruct (find n (t_eqs (regions s d p)))|destruct (find n (contacts s d p))|destruct (find n (interfaces s d p))]; try discriminate; eexists; reflexivity. }
  destruct Wr as [kw Hk]. exists kw. split; [exact Hk|]. destruct (written_get _ _ _ _ _ _ Hk) as (o' & G' & A). rewrite Gg in G'. inversion G'; subst o'; clear G'.
  assert (Ea : forall x, arg x kw = arg x o) by (intros x; rewrite A; symmetry; apply arg_find). split.
  - intros h2 s2 rs2 en2 s3 E2 C. destruct (run_wf there h2 start _ s2 rs2 wf_start E2) as [W2 _]. cbn [step] in C. rewrite (create_ext there en2 s2 k kw o Ea) in C.
    cbn [step]. rewrite Th, Nn. cbn [andb snd]. exact (report_elsewhere there s _ s2 _ en2 k d p n o s3 W W2 Gg C).
  - intros en2 En. cbn [step]. rewrite !(create_ext there en2 _ k kw o Ea). split.
    + destruct (report_first there s _ en2 k d p n o W Gg Th En) as (s3 & C). cbn [step] in C. rewrite C. reflexivity.
    + assert (H := w_get _ _ W k d p n). destruct (fold_left _ _ _ (k, d, p, n)) as [kw'|] eqn:F in H; [|congruence].
      destruct (again_done there s _ k d p n kw' o en2 W F Gg Th En) as (s' & C & _). cbn [step] in C. rewrite C. reflexivity.
Qed.
Print Assumptions C71_saved.
Example C71_saved_there : written state0 OnInterface "d" "i" "Poisson" =
    Some [("device", "d"); ("interface", "i"); ("name", "Poisson"); ("name0", "P0"); ("name1", "Poisson"); ("interface_model", "m"); ("type", "fluxterm")] /\
  snd (step there0 start env0 (Create OnInterface [("device", "d"); ("interface", "i"); ("name", "Poisson"); ("name0", "P0"); ("name1", "Poisson"); ("interface_model", "m"); ("type", "fluxterm")])) = Done /\
  (exists o, step there0 state0 env0 (Get OnInterface "d" "i" "Poisson") = (state0, Reported o)).
Proof. split; [vm_compute; reflexivity|]. split; [vm_compute; reflexivity|]. eexists. cbn [step]. match goal with |- (if ?b then _ else _) = _ => replace b with true by reflexivity end. f_equal. vm_compute. reflexivity. Qed.
