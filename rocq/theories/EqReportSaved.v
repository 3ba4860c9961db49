(* The commands with which the equations are written to a file, and what they give when they are executed (C71).
   DevsimRestartWriter.cc:95-125 writes, for each equation, the command of Serialize: ExprEquation.cc:112-128, ExprContactEquation.cc:210-231,
   InterfaceExprEquation.cc:101-113. That the characters are read back as these arguments: C57. *)
From Coq Require Import String List Bool Arith.
From Verif Require Import StrMap EqTable EqTableProofs EqReport EqReportSpec EqReportProofs EqReportSteps EqReportQuery.
Import ListNotations.
Open Scope string_scope.
Open Scope list_scope.

(* ExprEquation.cc:112-128 *)
Definition region_written (q : requation) : args :=
  [("device", r_device q); ("region", r_region q); ("name", r_name q); ("variable_name", r_var q); ("variable_update", update_string (r_update q));
   ("node_model", r_node q); ("edge_model", r_edge q); ("edge_volume_model", r_edge_volume q); ("element_model", r_element q);
   ("volume_node0_model", r_volume0 q); ("volume_node1_model", r_volume1 q); ("time_node_model", r_time q)].
(* ExprContactEquation.cc:210-231 *)
Definition contact_written (q : cequation) : args :=
  [("device", c_device q); ("contact", c_contact q); ("name", c_name q); ("edge_charge_model", c_edge_charge q); ("edge_current_model", c_edge_current q);
   ("edge_model", c_edge q); ("edge_volume_model", c_edge_volume q); ("element_charge_model", c_element_charge q); ("element_current_model", c_element_current q);
   ("element_model", c_element q); ("volume_node0_model", c_volume0 q); ("volume_node1_model", c_volume1 q); ("node_charge_model", c_node_charge q);
   ("node_current_model", c_node_current q); ("node_model", c_node q); ("circuit_node", c_circuit q)].
(* InterfaceExprEquation.cc:101-113 *)
Definition interface_written (q : iequation) : args :=
  [("device", i_device q); ("interface", i_interface q); ("name", i_name q); ("name0", i_name0 q); ("name1", i_name1 q); ("interface_model", i_model q);
   ("type", itype_string (i_type q))].
(* the command written for the equation n of a place *)
Definition written (s : st) (k : kind) (d p n : string) : option args :=
  match k with
  | OnRegion => option_map (fun q => region_written (q_body q)) (find n (t_eqs (regions s d p)))
  | OnContact => option_map contact_written (find n (contacts s d p))
  | OnInterface => option_map interface_written (find n (interfaces s d p))
  end.

Lemma written_get : forall s k d p n kw, written s k d p n = Some kw -> exists o, get s k d p n = Reported o /\ forall x, arg x kw = find x o.
Proof.
  intros s k d p n kw H. destruct k; cbn [written get] in *.
  - destruct (find n (t_eqs (regions s d p))) as [q|]; [|discriminate]. cbn in H. eexists. split; [reflexivity|]. inversion H; subst kw. intros x. symmetry. apply (map_of_ok (region_written (q_body q))). apply nodupb_ok. reflexivity.
  - destruct (find n (contacts s d p)) as [q|]; [|discriminate]. cbn in H. eexists. split; [reflexivity|]. inversion H; subst kw. intros x. symmetry. apply (map_of_ok (contact_written q)). apply nodupb_ok. reflexivity.
  - destruct (find n (interfaces s d p)) as [q|]; [|discriminate]. cbn in H. eexists. split; [reflexivity|]. inversion H; subst kw. intros x. symmetry. apply (map_of_ok (interface_written q)). apply nodupb_ok. reflexivity.
Qed.
Lemma arg_in : forall l x, In x (map fst l) -> arg x l <> None.
Proof. induction l as [|[m v] t IH]; intros x H; [destruct H|]. cbn in *. destruct (String.eqb_spec x m); [discriminate|]. destruct H as [H|H]; [congruence|apply IH; exact H]. Qed.
Lemma args_known : forall (kw kw' : args) (l : list string), (forall x, arg x kw = arg x kw') -> forallb (fun p => is_in (fst p) l) kw = true -> forallb (fun p => is_in (fst p) l) kw' = true.
Proof.
  intros kw kw' l E H. apply forallb_forall. intros [x v] Hx. cbn [fst]. assert (A : arg x kw' <> None) by (apply arg_in, in_map_iff; exists (x, v); auto).
  rewrite <- E in A. apply arg_some, in_map_iff in A. destruct A as ([y w] & <- & Hy). rewrite forallb_forall in H. exact (H _ Hy).
Qed.
Lemma options_ext : forall k kw kw', (forall x, arg x kw = arg x kw') -> options_ok k kw = options_ok k kw'.
Proof.
  intros k kw kw' E. assert (V : forall x, value kw x = value kw' x) by (intros x; unfold value; rewrite E; reflexivity). unfold options_ok.
  replace (forallb (fun n => negb (String.eqb (value kw n) "")) (required k)) with (forallb (fun n => negb (String.eqb (value kw' n) "")) (required k)).
  2: { induction (required k) as [|x l IH]; [reflexivity|]. cbn. rewrite V, IH. reflexivity. }
  f_equal. apply eq_true_iff_eq. split; apply args_known; [exact E|intros x; symmetry; apply E].
Qed.
Lemma create_ext : forall there en s k kw kw', (forall x, arg x kw = arg x kw') -> create there en s k kw = create there en s k kw'.
Proof.
  intros there en s k kw kw' E. assert (V : forall x, value kw x = value kw' x) by (intros x; unfold value; rewrite E; reflexivity).
  unfold create. rewrite (options_ext k kw kw' E), !V. destruct (options_ok k kw' && _); [|reflexivity]. destruct k.
  - unfold create_region. cbv zeta. rewrite !V. reflexivity.
  - unfold create_contact. cbv zeta. rewrite !V. reflexivity.
  - unfold create_interface. cbv zeta. rewrite !V. reflexivity.
Qed.

Section P.
Variable there : kind -> string -> string -> bool.
Local Notation step := (step there).
(* a report given to the command, in any other state *)
Lemma report_elsewhere : forall s g s2 g2 en k d p n o s3, wf s g -> wf s2 g2 -> get s k d p n = Reported o -> step s2 en (Create k o) = (s3, Done) ->
  get s3 k d p n = Reported o.
Proof.
  intros s g s2 g2 en k d p n o s3 W W2 G E. assert (H := w_get _ _ W k d p n). destruct (g (k, d, p, n)) as [kw|]; [|congruence]. destruct H as (o' & G' & Gd). rewrite G in G'. inversion G'; subst o'.
  destruct (report_ok _ _ _ _ _ _ Gd) as (Ok & D & Pl & N). destruct (report_value _ _ _ _ _ _ Gd) as [_ Ro].
  assert (W3 := step_wf there _ _ _ _ _ _ W2 E). assert (H := w_get _ _ W3 k d p n). assert (Gs := given_create k o g2 Ok). rewrite D, Pl, N in Gs. rewrite Gs in H.
  destruct (place_dec _ _) as [_|Z]; [|congruence]. destruct H as (o2 & G2 & _ & R2 & S2). rewrite G2, (reports_det _ _ _ _ R2 Ro S2 (proj2 (proj2 Gd))). reflexivity.
Qed.
Lemma report_first : forall s g en k d p n o, wf s g -> get s k d p n = Reported o -> there k d p = true -> (forall m x, en m d p x = true) ->
  exists s3, step start en (Create k o) = (s3, Done).
Proof.
  intros s g en k d p n o W G Th En. assert (H := w_get _ _ W k d p n). destruct (g (k, d, p, n)) as [kw|]; [|congruence]. destruct H as (o' & G' & Gd). rewrite G in G'. inversion G'; subst o'.
  destruct (report_ok _ _ _ _ _ _ Gd) as (Ok & D & Pl & N). destruct (report_value _ _ _ _ _ _ Gd) as [V _]. assert (Ac := proj1 Gd).
  cbn [EqReport.step]. unfold create. rewrite Ok, D, Pl, Th. cbn [andb]. destruct k; cbn [place_option] in Pl.
  - unfold create_region. cbv zeta. rewrite D, Pl. unfold optional_model. rewrite !En, !orb_true_r. cbn [andb].
    assert (U : value o "variable_update" = value kw "variable_update") by (rewrite V, meant_value; [reflexivity|reflexivity|cbn; tauto]).
    rewrite U. destruct Ac as (_ & _ & _ & _ & _ & Au). destruct (update_of (value kw "variable_update")) as [u|]; [|congruence]. eexists. reflexivity.
  - eexists. reflexivity.
  - unfold create_interface. cbv zeta. rewrite D, Pl, En, andb_true_r.
    assert (M : value o "interface_model" = value kw "interface_model") by (rewrite V, meant_value; [reflexivity|reflexivity|cbn; tauto]).
    assert (U : value o "type" = value kw "type") by (rewrite V, meant_value; [reflexivity|reflexivity|cbn; tauto]).
    destruct Ac as (_ & _ & _ & _ & _ & At & Am). rewrite M, U. destruct (String.eqb_spec (value kw "interface_model") ""); [contradiction|]. cbn [negb].
    destruct (itype_of (value kw "type")) as [u|]; [|congruence]. eexists. reflexivity.
Qed.
End P.

