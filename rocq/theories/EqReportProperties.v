(* C71: equations are reported back as they were given.
   [given] of EqReportSpec.v says, from the commands and their replies alone, with which options an equation was last given;
   [meant] what these options mean; [documented] which options the manual lists. *)
From Coq Require Import String List Bool.
From Verif Require Import StrMap EqReport EqReportSpec EqReportProofs EqReportSteps EqReportQuery.
Import ListNotations.
Open Scope string_scope.
Open Scope list_scope.

(* a history to speak of: a region "r", a contact "c" and an interface "i" of "d"; all models exist but "x" *)
Definition there0 (k : kind) (d p : string) : bool :=
  String.eqb d "d" && String.eqb p (match k with OnRegion => "r" | OnContact => "c" | OnInterface => "i" end).
Definition env0 : env := fun m d p x => negb (String.eqb x "x").
Definition history0 : list (env * cmd) := map (fun c => (env0, c))
  [Create OnRegion [("device", "d"); ("region", "r"); ("name", "Poisson"); ("variable_name", "V"); ("edge_model", "D"); ("variable_update", "log_damp")];
   Create OnRegion [("device", "d"); ("region", "r"); ("name", "Bad"); ("variable_name", "W"); ("edge_model", "x")];
   Create OnContact [("device", "d"); ("contact", "c"); ("name", "Poisson"); ("node_model", "cV"); ("edge_charge_model", "D")];
   Create OnInterface [("name0", "P0"); ("device", "d"); ("interface", "i"); ("name", "Poisson"); ("interface_model", "m"); ("type", "fluxterm")];
   Create OnRegion [("device", "d"); ("region", "r"); ("name", "Second"); ("variable_name", "V")];
   Create OnRegion [("device", "d"); ("region", "r"); ("name", "Electrons"); ("variable_name", "n"); ("time_node_model", "Q")];
   Create OnContact [("device", "d"); ("contact", "c"); ("name", "Electrons"); ("node_model", "x")];
   Delete OnContact "d" "c" "Electrons"].
Example history0_replies : snd (run there0 start history0) = [Done; Failed; Done; Done; Failed; Done; Done; Done].
Proof. vm_compute. reflexivity. Qed.
Definition state0 : st := fst (run there0 start history0).
Example history0_lists : map (fun kp => snd (step there0 state0 env0 (List_ (fst kp) "d" (snd kp)))) [(OnRegion, "r"); (OnContact, "c"); (OnInterface, "i")] =
  [Names ["Poisson"; "Electrons"]; Names ["Poisson"]; Names ["Poisson"]].
Proof. vm_compute. reflexivity. Qed.
Example history0_interface : snd (step there0 state0 env0 (Get OnInterface "d" "i" "Poisson")) =
  Reported [("device", "d"); ("interface", "i"); ("interface_model", "m"); ("name", "Poisson"); ("name0", "P0"); ("name1", "Poisson"); ("type", "fluxterm")].
Proof. vm_compute. reflexivity. Qed.

(* get_equation_command, get_contact_equation_command and get_interface_equation_command reply, after any commands, with every
   documented option and no other, each with the value that was last given for this equation; or fail, if there is none *)
Theorem C71_reported : forall there h s rs en k d p n, run there start h = (s, rs) -> there k d p = true -> n <> "" ->
  match given (combine (map snd h) rs) (k, d, p, n) with
  | None => step there s en (Get k d p n) = (s, Failed)
  | Some kw => exists o, step there s en (Get k d p n) = (s, Reported o) /\
      (forall x, In x (documented k) -> find x o = Some (meant kw x)) /\ (forall x, ~ In x (documented k) -> find x o = None)
  end.
Proof.
  intros there h s rs en k d p n E Th Nn. destruct (run_wf there h start _ s rs wf_start E) as [W _]. fold (given (combine (map snd h) rs)) in W.
  cbn [step]. rewrite Th. destruct (String.eqb_spec n ""); [contradiction|]. cbn [andb negb]. assert (H := w_get _ _ W k d p n).
  destruct (given (combine (map snd h) rs) (k, d, p, n)) as [kw|]; [|rewrite H; reflexivity]. destruct H as (o & G & _ & R & _). exists o. rewrite G. split; [reflexivity|exact R].
Qed.
Print Assumptions C71_reported.
Example C71_reported_there : run there0 start history0 = (state0, snd (run there0 start history0)) /\
  given (combine (map snd history0) (snd (run there0 start history0))) (OnRegion, "d", "r", "Poisson") <> None /\
  given (combine (map snd history0) (snd (run there0 start history0))) (OnRegion, "d", "r", "Second") = None /\
  given (combine (map snd history0) (snd (run there0 start history0))) (OnContact, "d", "c", "Electrons") = None /\
  snd (step there0 state0 env0 (Get OnRegion "d" "r" "Poisson")) =
    Reported [("device", "d"); ("edge_model", "D"); ("edge_volume_model", ""); ("element_model", ""); ("name", "Poisson"); ("node_model", ""); ("region", "r");
              ("time_node_model", ""); ("variable_name", "V"); ("variable_update", "log_damp"); ("volume_node0_model", ""); ("volume_node1_model", "")].
Proof. split; [unfold state0; destruct (run there0 start history0); reflexivity|]. split; [vm_compute; discriminate|]. split; [vm_compute; reflexivity|]. split; vm_compute; reflexivity. Qed.

(* the lists hold every equation of the place once, and no other *)
Theorem C71_listed : forall there h s rs en k d p, run there start h = (s, rs) -> there k d p = true ->
  exists l, step there s en (List_ k d p) = (s, Names l) /\ NoDup l /\ forall n, In n l <-> given (combine (map snd h) rs) (k, d, p, n) <> None.
Proof.
  intros there h s rs en k d p E Th. destruct (run_wf there h start _ s rs wf_start E) as [W _]. fold (given (combine (map snd h) rs)) in W.
  destruct (names_ok s _ k d p W) as (l & N & Nd & Hl). exists l. cbn [step]. rewrite Th, N. split; [reflexivity|]. split; [exact Nd|exact Hl].
Qed.
Print Assumptions C71_listed.

(* what is reported, given back as the arguments of the command that creates the equation, is accepted and changes nothing that is reported *)
Theorem C71_again : forall there h s rs en k d p n o, run there start h = (s, rs) -> there k d p = true -> step there s en (Get k d p n) = (s, Reported o) ->
  (forall m x, en m d p x = true) ->
  exists s', step there s en (Create k o) = (s', Done) /\
    forall k' d' p' en', (forall n', snd (step there s' en' (Get k' d' p' n')) = snd (step there s en' (Get k' d' p' n'))) /\
      snd (step there s' en' (List_ k' d' p')) = snd (step there s en' (List_ k' d' p')).
Proof.
  intros there h s rs en k d p n o E Th G En. destruct (run_wf there h start _ s rs wf_start E) as [W _]. cbn [step] in G. rewrite Th in G.
  destruct (negb (String.eqb n "")); [|discriminate]. cbn [andb] in G. assert (Gg : get s k d p n = Reported o) by (inversion G; reflexivity).
  assert (H := w_get _ _ W k d p n). destruct (fold_left _ _ _ (k, d, p, n)) as [kw|] eqn:F in H; [|congruence].
  destruct (again_done there s _ k d p n kw o en W F Gg Th En) as (s' & E' & Sm). exists s'. split; [exact E'|]. intros k' d' p' en'. destruct (Sm k' d' p') as [S1 S2].
  split; [intros n'|]; cbn [step]; [destruct (there k' d' p' && _); [cbn [snd]; rewrite S1; reflexivity|reflexivity]|].
  destruct (there k' d' p'); [cbn [snd]; rewrite S2; reflexivity|reflexivity].
Qed.
Print Assumptions C71_again.
Example C71_again_there : exists o, step there0 state0 (fun _ _ _ _ => true) (Get OnRegion "d" "r" "Poisson") = (state0, Reported o) /\
  snd (step there0 state0 (fun _ _ _ _ => true) (Create OnRegion o)) = Done.
Proof. eexists. split; [cbn [step]; match goal with |- (if ?b then _ else _) = _ => replace b with true by reflexivity end; f_equal; vm_compute; reflexivity|vm_compute; reflexivity]. Qed.

(* a command that fails changes nothing that is reported *)
Theorem C71_failed_nothing : forall there h s rs en c s', run there start h = (s, rs) -> step there s en c = (s', Failed) ->
  forall k' d' p' en', (forall n', snd (step there s' en' (Get k' d' p' n')) = snd (step there s en' (Get k' d' p' n'))) /\
    snd (step there s' en' (List_ k' d' p')) = snd (step there s en' (List_ k' d' p')).
Proof.
  intros there h s rs en c s' E G k' d' p' en'. destruct (run_wf there h start _ s rs wf_start E) as [W _].
  destruct (failed_same there s _ en c s' W G k' d' p') as [S1 S2].
  split; [intros n'|]; cbn [step]; [destruct (there k' d' p' && _); [cbn [snd]; rewrite S1; reflexivity|reflexivity]|].
  destruct (there k' d' p'); [cbn [snd]; rewrite S2; reflexivity|reflexivity].
Qed.
Print Assumptions C71_failed_nothing.
Example C71_failed_there : snd (step there0 state0 env0 (Create OnRegion [("device", "d"); ("region", "r"); ("name", "Second"); ("variable_name", "V")])) = Failed.
Proof. vm_compute. reflexivity. Qed.

(* an equation of a region that is accepted names node and edge models that exist, and an interface equation its interface model *)
Theorem C71_checked : forall there s en kw s', step there s en (Create OnRegion kw) = (s', Done) ->
  exists d p, given_value kw "device" = Some d /\ given_value kw "region" = Some p /\ there OnRegion d p = true /\
    (forall x v, In x ["node_model"; "time_node_model"] -> given_value kw x = Some v -> v <> "" -> en NodeModel d p v = true) /\
    (forall x v, In x ["edge_model"; "edge_volume_model"] -> given_value kw x = Some v -> v <> "" -> en EdgeModel d p v = true).
Proof.
  intros there s en kw s' E. destruct (create_checked there s en OnRegion kw s' E) as (O & Th & M1 & M2 & M3 & M4). cbn [place_option] in *.
  exists (value kw "device"), (value kw "region"). split; [apply (required_given OnRegion kw "device" O); cbn; auto|].
  split; [apply (required_given OnRegion kw "region" O); cbn; auto|]. split; [exact Th|].
  assert (V : forall x v, given_value kw x = Some v -> value kw x = v) by (intros x v H; rewrite given_arg in H; unfold value; rewrite H; reflexivity).
  assert (Y : forall m d p w v, optional_model en m d p w = true -> w = v -> v <> "" -> en m d p v = true).
  { intros m d p w v H -> Nv. unfold optional_model in H. apply orb_prop in H. destruct H as [H|H]; [apply String.eqb_eq in H; contradiction|exact H]. }
  split; intros x v [<- | [<- | []]] Hv Nv; apply V in Hv; eauto.
Qed.
Print Assumptions C71_checked.
Theorem C71_interface_checked : forall there s en kw s', step there s en (Create OnInterface kw) = (s', Done) ->
  exists d p m, given_value kw "device" = Some d /\ given_value kw "interface" = Some p /\ there OnInterface d p = true /\
    given_value kw "interface_model" = Some m /\ m <> "" /\ en InterfaceModel d p m = true.
Proof.
  intros there s en kw s' E. destruct (create_checked there s en OnInterface kw s' E) as (O & Th & M1 & M2). cbn [place_option] in *.
  exists (value kw "device"), (value kw "interface"), (value kw "interface_model"). split; [apply (required_given OnInterface kw "device" O); cbn; auto|].
  split; [apply (required_given OnInterface kw "interface" O); cbn; auto|]. split; [exact Th|]. split; [|split; assumption].
  rewrite given_arg. unfold value in *. destruct (arg "interface_model" kw); [reflexivity|contradiction].
Qed.
Print Assumptions C71_interface_checked.
Example C71_checked_there : snd (step there0 start env0 (Create OnRegion [("device", "d"); ("region", "r"); ("name", "Poisson"); ("variable_name", "V"); ("edge_model", "D")])) = Done /\
  snd (step there0 start env0 (Create OnInterface [("device", "d"); ("interface", "i"); ("name", "Poisson"); ("interface_model", "m"); ("type", "fluxterm")])) = Done.
Proof. split; vm_compute; reflexivity. Qed.

(* but not the models of a contact equation, nor the element models of an equation: these are accepted when no model at all exists *)
Theorem C71_model_refuted : ~ (forall there s en k kw s', step there s en (Create k kw) = (s', Done) ->
  forall x v, In x ["node_model"; "edge_model"; "element_model"; "edge_current_model"] -> given_value kw x = Some v -> v <> "" ->
    exists m d p, en m d p v = true).
Proof.
  intros H. set (kw := [("device", "d"); ("contact", "c"); ("name", "Poisson"); ("edge_current_model", "J")]).
  destruct (step there0 start (fun _ _ _ _ => false) (Create OnContact kw)) as [s' r] eqn:E.
  assert (r = Done) by (assert (Z := f_equal snd E); vm_compute in Z; symmetry; exact Z). subst r.
  destruct (H _ _ _ _ _ _ E "edge_current_model" "J") as (m & d & p & Hm); [cbn; tauto|reflexivity|discriminate|discriminate].
Qed.
Print Assumptions C71_model_refuted.
Theorem C71_element_model_refuted : ~ (forall there s en kw s', step there s en (Create OnRegion kw) = (s', Done) ->
  forall v, given_value kw "element_model" = Some v -> v <> "" -> exists m d p, en m d p v = true).
Proof.
  intros H. set (kw := [("device", "d"); ("region", "r"); ("name", "Poisson"); ("variable_name", "V"); ("element_model", "J")]).
  destruct (step there0 start (fun _ _ _ _ => false) (Create OnRegion kw)) as [s' r] eqn:E.
  assert (r = Done) by (assert (Z := f_equal snd E); vm_compute in Z; symmetry; exact Z). subst r.
  destruct (H _ _ _ _ _ E "J") as (m & d & p & Hm); [reflexivity|discriminate|discriminate].
Qed.
Print Assumptions C71_element_model_refuted.
(* interface_model is an option, but no interface equation is made without it *)
Theorem C71_interface_model_refuted : ~ (forall there s en kw, options_ok OnInterface kw = true -> there OnInterface (value kw "device") (value kw "interface") = true ->
  In (value kw "type") ["continuous"; "fluxterm"; "hybrid"] -> (forall m d p x, en m d p x = true) ->
  snd (step there s en (Create OnInterface kw)) = Done).
Proof.
  intros H. specialize (H there0 start (fun _ _ _ _ => true) [("device", "d"); ("interface", "i"); ("name", "Poisson"); ("type", "fluxterm")]).
  vm_compute in H. assert (Z := H eq_refl eq_refl (or_intror (or_introl eq_refl)) (fun _ _ _ _ => eq_refl)). discriminate.
Qed.
Print Assumptions C71_interface_model_refuted.
