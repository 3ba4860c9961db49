(* The equation commands and what they report: proofs *)
From Coq Require Import String List Bool Arith Lia Sorting.Sorted.
From Verif Require Import StrMap EqTable EqTableProofs EqReport EqReportSpec.
Import ListNotations.
Open Scope string_scope.
Open Scope list_scope.
Local Arguments Nat.ltb : simpl never.

Lemma given_arg : forall kw n, given_value kw n = arg n kw.
Proof. induction kw as [|[m v] t IH]; intros n; [reflexivity|]. cbn. destruct (string_dec n m) as [->|N]; [rewrite String.eqb_refl; reflexivity|]. destruct (String.eqb_spec n m); [contradiction|apply IH]. Qed.
Lemma arg_find : forall (o : smap string) n, arg n o = find n o.
Proof. induction o as [|[m v] t IH]; intros n; [reflexivity|]. cbn. destruct (String.eqb n m); [reflexivity|apply IH]. Qed.
Lemma is_in_spec : forall s l, is_in s l = true <-> In s l.
Proof. intros s l. unfold is_in. rewrite existsb_exists. split; [intros (x & H & E); apply String.eqb_eq in E; subst; exact H|intros H; exists s; split; [exact H|apply String.eqb_refl]]. Qed.
Lemma arg_none : forall l n, ~ In n (map fst l) -> arg n l = None.
Proof. induction l as [|[m v] t IH]; intros n H; [reflexivity|]. cbn in *. destruct (String.eqb_spec n m); [subst; tauto|]. apply IH. tauto. Qed.
Lemma arg_some : forall l n, arg n l <> None -> In n (map fst l).
Proof. intros l n H. destruct (in_dec string_dec n (map fst l)); [assumption|]. destruct H. apply arg_none. assumption. Qed.

(* ---- maps made from lists ---- *)
Lemma fold_put : forall l m, sorted m -> NoDup (map fst l) -> sorted (fold_left (fun m p => put (fst p) (snd p) m) l m) /\
  forall x, find x (fold_left (fun m (p : string * string) => put (fst p) (snd p) m) l m) = match arg x l with Some v => Some v | None => find x m end.
Proof.
  induction l as [|[n v] l IH]; intros m Sm Nd; [split; [exact Sm|reflexivity]|]. cbn [fold_left fst snd map] in *. inversion Nd as [|? ? N1 N2]; subst.
  destruct (IH (put n v m) (put_sorted n v m Sm) N2) as [I1 I2]. split; [exact I1|]. intros x. rewrite I2. cbn [arg]. rewrite find_put by exact Sm.
  destruct (String.eqb_spec x n) as [->|_]; [|reflexivity]. rewrite arg_none by exact N1. reflexivity.
Qed.
Lemma map_of_ok : forall l, NoDup (map fst l) -> sorted (map_of l) /\ forall x, find x (map_of l) = arg x l.
Proof. intros l Nd. destruct (fold_put l [] (SSorted_nil slt) Nd) as [A B]. split; [exact A|]. intros x. unfold map_of. rewrite B. cbn. destruct (arg x l); reflexivity. Qed.
Fixpoint nodupb (l : list string) : bool := match l with [] => true | x :: t => negb (is_in x t) && nodupb t end.
Lemma nodupb_ok : forall l, nodupb l = true -> NoDup l.
Proof.
  induction l as [|x t IH]; intros H; [constructor|]. cbn in H. apply andb_prop in H. destruct H as [H1 H2]. constructor; [|apply IH; exact H2].
  intros Hi. apply is_in_spec in Hi. rewrite Hi in H1. discriminate.
Qed.

(* ---- what a report is ---- *)
Definition reports (k : kind) (kw : args) (o : smap string) : Prop :=
  (forall x, In x (documented k) -> find x o = Some (meant kw x)) /\ (forall x, ~ In x (documented k) -> find x o = None).
Definition accepted (k : kind) (d p n : string) (kw : args) : Prop :=
  options_ok k kw = true /\ value kw "device" = d /\ value kw (place_option k) = p /\ value kw "name" = n /\ n <> "" /\
  match k with OnRegion => update_of (value kw "variable_update") <> None | OnContact => True | OnInterface => itype_of (value kw "type") <> None /\ value kw "interface_model" <> "" end.
Definition good (k : kind) (d p n : string) (kw : args) (o : smap string) : Prop := accepted k d p n kw /\ reports k kw o /\ sorted o.
Lemma update_back : forall s u, update_of s = Some u -> update_string u = s.
Proof. intros s u. unfold update_of. destruct (String.eqb_spec s "default"); [intros E; inversion E; subst; auto|]. destruct (String.eqb_spec s "log_damp"); [intros E; inversion E; subst; auto|]. destruct (String.eqb_spec s "positive"); [intros E; inversion E; subst; auto|discriminate]. Qed.
Lemma itype_back : forall s u, itype_of s = Some u -> itype_string u = s.
Proof. intros s u. unfold itype_of. destruct (String.eqb_spec s "continuous"); [intros E; inversion E; subst; auto|]. destruct (String.eqb_spec s "fluxterm"); [intros E; inversion E; subst; auto|]. destruct (String.eqb_spec s "hybrid"); [intros E; inversion E; subst; auto|discriminate]. Qed.
Lemma meant_value : forall kw n, side n = false -> meant kw n = value kw n.
Proof. intros kw n H. unfold meant, value. rewrite H, !given_arg. cbn. destruct (arg n kw); reflexivity. Qed.
Lemma meant_side : forall kw n, side n = true -> meant kw n = if String.eqb (value kw n) "" then value kw "name" else value kw n.
Proof.
  intros kw n H. assert (Ne : String.eqb n "variable_update" = false) by (unfold side in H; apply orb_prop in H; destruct H as [H|H]; apply String.eqb_eq in H; subst; reflexivity).
  unfold meant, value. rewrite H, !given_arg, Ne. cbn [andb]. destruct (arg n kw) as [v|]; [destruct (String.eqb v ""); [|reflexivity]|]; destruct (arg "name" kw); reflexivity.
Qed.
Lemma reports_list : forall k kw l, nodupb (map fst l) = true -> incl (map fst l) (documented k) ->
  (forall x, In x (documented k) -> arg x l = Some (meant kw x)) -> reports k kw (map_of l) /\ sorted (map_of l).
Proof.
  intros k kw l Nd In_ H. destruct (map_of_ok l (nodupb_ok _ Nd)) as [So F]. split; [split|exact So].
  - intros x Hx. rewrite F. apply H. exact Hx.
  - intros x Hx. rewrite F. apply arg_none. intros Hi. apply Hx, In_, Hi.
Qed.
Lemma inclb : forall l m, forallb (fun x => is_in x m) l = true -> incl l m.
Proof. intros l m H x Hx. rewrite forallb_forall in H. apply is_in_spec. apply H. exact Hx. Qed.
Ltac each H := repeat (destruct H as [<-|H]; [cbn [arg fst snd String.eqb Ascii.eqb eqb]; try (rewrite meant_value by reflexivity; try reflexivity)|]); try (destruct H).
Lemma region_reports : forall kw u, update_of (value kw "variable_update") = Some u ->
  let v := value kw in
  let q := expr_equation (v "name") (v "device") (v "region") (v "variable_name") (v "node_model") (v "edge_model") (v "edge_volume_model") (v "element_model")
                   (v "volume_node0_model") (v "volume_node1_model") (v "time_node_model") u in
  reports OnRegion kw (region_options q) /\ sorted (region_options q).
Proof.
  intros kw u Hu v q. apply reports_list; [vm_compute; reflexivity|apply inclb; vm_compute; reflexivity|].
  intros x Hx. unfold q, v. cbn [expr_equation r_device r_region r_name r_var r_node r_edge r_edge_volume r_element r_volume0 r_volume1 r_time r_update].
  unfold documented in Hx. cbn [app at_option] in Hx. each Hx. f_equal. apply update_back. exact Hu.
Qed.
Lemma contact_reports : forall kw,
  let v := value kw in
  let q := expr_contact_equation (v "name") (v "circuit_node") (v "device") (v "contact") (v "node_model") (v "edge_model") (v "edge_volume_model") (v "element_model")
             (v "volume_node0_model") (v "volume_node1_model") (v "node_current_model") (v "edge_current_model") (v "element_current_model")
             (v "node_charge_model") (v "edge_charge_model") (v "element_charge_model") in
  reports OnContact kw (contact_options q) /\ sorted (contact_options q).
Proof.
  intros kw v q. apply reports_list; [vm_compute; reflexivity|apply inclb; vm_compute; reflexivity|].
  intros x Hx. unfold q, v. cbn [expr_contact_equation c_device c_contact c_name c_circuit c_node c_edge c_edge_volume c_element c_volume0 c_volume1 c_node_current
    c_edge_current c_element_current c_node_charge c_edge_charge c_element_charge].
  unfold documented in Hx. cbn [app at_option] in Hx. each Hx.
Qed.
Lemma interface_reports : forall kw u, itype_of (value kw "type") = Some u ->
  let v := value kw in
  let q := interface_equation (v "name") (v "name0") (v "name1") (v "device") (v "interface") (v "interface_model") u in
  reports OnInterface kw (interface_options q) /\ sorted (interface_options q).
Proof.
  intros kw u Hu v q. apply reports_list; [vm_compute; reflexivity|apply inclb; vm_compute; reflexivity|].
  intros x Hx. unfold q, v. cbn [interface_equation i_device i_interface i_name i_name0 i_name1 i_model i_type].
  unfold documented in Hx. cbn [app at_option] in Hx. each Hx.
  - f_equal. apply itype_back. exact Hu.
  - rewrite meant_side by reflexivity. reflexivity.
  - rewrite meant_side by reflexivity. reflexivity.
Qed.
