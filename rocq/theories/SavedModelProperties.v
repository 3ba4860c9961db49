(* C72: the models made from other models have the names of the manual, and the commands saved with them make them again *)
From Coq Require Import String Ascii List Bool Arith Lia.
From Verif Require Import EqReport SavedModel.
Import ListNotations.
Open Scope string_scope.
Open Scope list_scope.
Open Scope nat_scope.

(* ---- specification ---- *)
Definition coordinates (dim : nat) : list string := if dim =? 3 then ["x"; "y"; "z"] else ["x"; "y"].
(* the nodes of a triangle or tetrahedron *)
Definition corners (dim : nat) : list string := if dim =? 3 then ["0"; "1"; "2"; "3"] else ["0"; "1"; "2"].
(* a name put together from pieces *)
Definition text (l : list string) : string := String.concat "" l.
(* the names of the manual, for a command, its model and its variable (the empty string: none) *)
Definition documented (command : string) (dim : nat) (of var : string) (x : string) : Prop :=
  if String.eqb command "edge_from_node_model" then exists i, In i ["0"; "1"] /\ x = text [of; "@n"; i]
  else if String.eqb command "element_from_node_model" then exists i, In i (corners dim) /\ x = text [of; "@en"; i]
  else if String.eqb command "element_from_edge_model" then
    if String.eqb var "" then exists c, In c (coordinates dim) /\ x = text [of; "_"; c]
    else exists c i, In c (coordinates dim) /\ In i (corners dim) /\ x = text [of; "_"; c; ":"; var; "@en"; i]
  else if String.eqb command "element_pair_from_edge_model" then
    if String.eqb var "" then exists j c, In j ["0"; "1"] /\ In c (coordinates dim) /\ x = text [of; "_node"; j; "_"; c]
    else exists i j c, In i (corners dim) /\ In j ["0"; "1"] /\ In c (coordinates dim) /\ x = text [of; "_node"; j; "_"; c; ":"; var; "@en"; i]
  else False.
(* the value of an option, the empty string if it is not given *)
Fixpoint option_value (n : string) (kw : args) : string := match kw with [] => "" | (m, v) :: t => if string_dec n m then v else option_value n t end.
Lemma option_val : forall n kw, option_value n kw = val kw n.
Proof.
  intros n kw. unfold val. induction kw as [|[m v] t IH]; [reflexivity|]. cbn. destruct (string_dec n m) as [->|N]; [rewrite String.eqb_refl; reflexivity|].
  destruct (String.eqb_spec n m); [contradiction|exact IH].
Qed.

(* the model a command is about *)
Definition subject (command : string) (kw : args) : string :=
  option_value (if is_in command ["edge_from_node_model"; "element_from_node_model"] then "node_model" else "edge_model") kw.

Lemma in1 : forall (f : string -> string) l x, In x (map f l) <-> exists i, In i l /\ x = f i.
Proof. intros f l x. rewrite in_map_iff. split; intros (i & H1 & H2); exists i; auto. Qed.
Lemma in2 : forall (f : string -> string -> string) l m x, In x (flat_map (fun c => map (f c) m) l) <-> exists c i, In c l /\ In i m /\ x = f c i.
Proof.
  intros f l m x. rewrite in_flat_map. split; [intros (c & Hc & H); apply in1 in H; destruct H as (i & Hi & E); exists c, i; auto|].
  intros (c & i & Hc & Hi & E). exists c. split; [exact Hc|]. apply in1. exists i. auto.
Qed.
Lemma in3 : forall (f : string -> string -> string -> string) l m n x, In x (flat_map (fun c => flat_map (fun i => map (f c i) n) m) l) <-> exists c i k, In c l /\ In i m /\ In k n /\ x = f c i k.
Proof.
  intros f l m n x. rewrite in_flat_map. split; [intros (c & Hc & H); apply in2 in H; destruct H as (i & k & Hi & Hk & E); exists c, i, k; auto|].
  intros (c & i & k & Hc & Hi & Hk & E). exists c. split; [exact Hc|]. apply in2. exists i, k. auto.
Qed.
Lemma append_inj : forall e a b, String.append e a = String.append e b -> a = b.
Proof. induction e as [|c e IH]; intros a b H; [exact H|]. cbn in H. inversion H. auto. Qed.

Section T.
Variable dimension : string -> nat.
Variable there : string -> string -> bool.
Variables node_model edge_model : string -> string -> string -> bool.
Notation exec := (exec dimension there node_model edge_model).

(* what an accepted command makes *)
Lemma exec_inv : forall c kw m, exec (c, kw) = Some m ->
  m_device m = val kw "device" /\ m_region m = val kw "region" /\ there (m_device m) (m_region m) = true /\ m_device m <> "" /\ m_region m <> "" /\ m_of m <> "" /\
  ((m_of m = val kw "node_model" /\ m_var m = "" /\ node_model (m_device m) (m_region m) (m_of m) = true /\
    (c = "edge_from_node_model" /\ m_cls m = EdgeFromNode \/
     c = "element_from_node_model" /\ (dimension (m_device m) = 2 /\ m_cls m = TriFromNode \/ dimension (m_device m) = 3 /\ m_cls m = TetFromNode))) \/
   (m_of m = val kw "edge_model" /\ m_var m = val kw "derivative" /\
    (m_var m = "" /\ edge_model (m_device m) (m_region m) (m_of m) = true /\
       (c = "element_from_edge_model" /\ (dimension (m_device m) = 2 /\ m_cls m = TriFromEdge \/ dimension (m_device m) = 3 /\ m_cls m = TetFromEdge) \/
        c = "element_pair_from_edge_model" /\ (dimension (m_device m) = 2 /\ m_cls m = TriPair \/ dimension (m_device m) = 3 /\ m_cls m = TetPair)) \/
     m_var m <> "" /\ edge_model (m_device m) (m_region m) (m_of m ++ (":" ++ (m_var m ++ "@n0")))%string = true /\
       edge_model (m_device m) (m_region m) (m_of m ++ (":" ++ (m_var m ++ "@n1")))%string = true /\
       (c = "element_from_edge_model" /\ (dimension (m_device m) = 2 /\ m_cls m = TriFromEdgeDer \/ dimension (m_device m) = 3 /\ m_cls m = TetFromEdgeDer) \/
        c = "element_pair_from_edge_model" /\ (dimension (m_device m) = 2 /\ m_cls m = TriPairDer \/ dimension (m_device m) = 3 /\ m_cls m = TetPairDer))))).
Proof.
  intros c kw m E. unfold SavedModel.exec in E. cbn [fst snd] in E. unfold is_in, existsb in E.
  assert (K : forall req opt, known req opt kw = true -> forall n, In n req -> val kw n <> "").
  { intros req opt H n Hn. apply andb_prop in H. destruct H as [_ H]. rewrite forallb_forall in H. specialize (H n Hn). apply negb_true_iff, String.eqb_neq in H. exact H. }
  destruct (String.eqb c "edge_from_node_model" || (String.eqb c "element_from_node_model" || false)) eqn:C.
  - unfold from_node in E. cbv zeta in E. destruct (known _ _ kw && _ && _) eqn:B in E; [|discriminate]. apply andb_prop in B. destruct B as [B Nm]. apply andb_prop in B. destruct B as [Kn Th].
    pose proof (K _ _ Kn "device" ltac:(cbn; auto)). pose proof (K _ _ Kn "region" ltac:(cbn; auto)). pose proof (K _ _ Kn "node_model" ltac:(cbn; auto)).
    rewrite orb_false_r in C. apply orb_prop in C.
    destruct (String.eqb_spec c "edge_from_node_model") as [->|Nc].
    + inversion E; subst m; cbn. repeat (split; [solve [auto]|]). left. repeat (split; [solve [auto]|]). auto.
    + destruct C as [C|C]; [discriminate|]. apply String.eqb_eq in C. subst c.
      destruct (dimension (val kw "device") =? 2) eqn:D2; [apply Nat.eqb_eq in D2|destruct (dimension (val kw "device") =? 3) eqn:D3; [apply Nat.eqb_eq in D3|discriminate]];
        inversion E; subst m; cbn; repeat (split; [solve [auto]|]); left; repeat (split; [solve [auto]|]); auto.
  - destruct (String.eqb c "element_from_edge_model" || (String.eqb c "element_pair_from_edge_model" || false)) eqn:C2; [|discriminate].
    unfold from_edge in E. cbv zeta in E. destruct (known _ _ kw && _ && _) eqn:B in E; [|discriminate]. apply andb_prop in B. destruct B as [B Nm]. apply andb_prop in B. destruct B as [Kn Th].
    pose proof (K _ _ Kn "device" ltac:(cbn; auto)). pose proof (K _ _ Kn "region" ltac:(cbn; auto)). pose proof (K _ _ Kn "edge_model" ltac:(cbn; auto)).
    rewrite orb_false_r in C2. apply orb_prop in C2.
    assert (Cc : (c = "element_from_edge_model" /\ String.eqb c "element_from_edge_model" = true) \/ (c = "element_pair_from_edge_model" /\ String.eqb c "element_from_edge_model" = false)).
    { destruct C2 as [X|X]; apply String.eqb_eq in X; subst c; auto. }
    destruct (String.eqb_spec (val kw "derivative") "") as [V|V].
    + destruct Cc as [[Cc Cb]|[Cc Cb]]; rewrite Cb in E;
      (destruct (dimension (val kw "device") =? 2) eqn:D2; [apply Nat.eqb_eq in D2|destruct (dimension (val kw "device") =? 3) eqn:D3; [apply Nat.eqb_eq in D3|discriminate]];
        inversion E; subst m; cbn; repeat (split; [solve [auto]|]); right; repeat (split; [solve [auto]|]); left; repeat (split; [solve [auto]|]); auto).
    + apply andb_prop in Nm. destruct Nm as [N0 N1].
      destruct Cc as [[Cc Cb]|[Cc Cb]]; rewrite Cb in E;
      (destruct (dimension (val kw "device") =? 2) eqn:D2; [apply Nat.eqb_eq in D2|destruct (dimension (val kw "device") =? 3) eqn:D3; [apply Nat.eqb_eq in D3|discriminate]];
        inversion E; subst m; cbn; repeat (split; [solve [auto]|]); right; repeat (split; [solve [auto]|]); right; repeat (split; [solve [auto]|]); auto).
Qed.
Ltac cases E := let D := fresh "D" in let R := fresh "R" in let T := fresh "T" in let Nd := fresh "Nd" in let Nr := fresh "Nr" in let No := fresh "No" in
  destruct (exec_inv _ _ _ E) as (D & R & T & Nd & Nr & No &
    [(O & V & N & [[-> K]|[-> [[Dm K]|[Dm K]]]])|(O & V & [(V0 & N & [[-> [[Dm K]|[Dm K]]]|[-> [[Dm K]|[Dm K]]]])|(V0 & N0 & N1 & [[-> [[Dm K]|[Dm K]]]|[-> [[Dm K]|[Dm K]]]])])]).

(* the models that a command makes have the names of the manual *)
Theorem C72_names : forall c kw m, exec (c, kw) = Some m ->
  forall x, In x (names m) <-> documented c (dimension (option_value "device" kw)) (subject c kw) (option_value "derivative" kw) x.
Proof.
  intros c kw m E x. rewrite !option_val. cases E; unfold subject; rewrite option_val; cbn [is_in existsb String.eqb Ascii.eqb eqb orb];
    rewrite <- D, <- O; unfold documented; cbn [String.eqb Ascii.eqb eqb];
    try (match type of V with _ = val _ _ => rewrite <- V; destruct (String.eqb_spec (m_var m) ""); [try congruence|try congruence] end);
    unfold names; rewrite K; try rewrite Dm; cbn [coordinates corners Nat.eqb];
    try (rewrite <- (in1 _ _ x); reflexivity); try (rewrite <- (in2 _ _ _ x); reflexivity); rewrite <- (in3 _ _ _ _ x); reflexivity.
Qed.
(* which are different *)
Theorem C72_distinct : forall c kw m, exec (c, kw) = Some m -> NoDup (names m).
Proof.
  intros c kw m E. clear E. unfold names. destruct (m_cls m); cbn [flat_map map app];
    repeat (constructor; [intros H; cbn [In] in H; repeat (destruct H as [H|H]; [apply append_inj in H; cbn in H; try discriminate; inversion H as [H']; apply append_inj in H'; discriminate|]); exact H|]); constructor.
Qed.

(* the commands with their options in the order of Serialize *)
Lemma node_again : forall c d r o, d <> "" -> r <> "" -> o <> "" -> there d r = true -> node_model d r o = true ->
  from_node dimension there node_model c [("device", d); ("region", r); ("node_model", o)] =
  if String.eqb c "edge_from_node_model" then Some (mkM EdgeFromNode d r o "")
  else if dimension d =? 2 then Some (mkM TriFromNode d r o "") else if dimension d =? 3 then Some (mkM TetFromNode d r o "") else None.
Proof.
  intros c d r o Nd Nr No T N. unfold from_node, known, val. cbn. apply String.eqb_neq in Nd, Nr, No. rewrite Nd, Nr, No, T, N. reflexivity.
Qed.
Lemma edge_again : forall c d r o, d <> "" -> r <> "" -> o <> "" -> there d r = true -> edge_model d r o = true ->
  from_edge dimension there edge_model c [("device", d); ("region", r); ("edge_model", o)] =
  let one := String.eqb c "element_from_edge_model" in
  if dimension d =? 2 then Some (mkM (if one then TriFromEdge else TriPair) d r o "") else if dimension d =? 3 then Some (mkM (if one then TetFromEdge else TetPair) d r o "") else None.
Proof.
  intros c d r o Nd Nr No T N. unfold from_edge, known, val. cbn. apply String.eqb_neq in Nd, Nr, No. rewrite Nd, Nr, No, T, N. reflexivity.
Qed.
Lemma edge_der_again : forall c d r o v, d <> "" -> r <> "" -> o <> "" -> v <> "" -> there d r = true ->
  edge_model d r (o ++ (":" ++ (v ++ "@n0")))%string = true -> edge_model d r (o ++ (":" ++ (v ++ "@n1")))%string = true ->
  from_edge dimension there edge_model c [("device", d); ("region", r); ("edge_model", o); ("derivative", v)] =
  let one := String.eqb c "element_from_edge_model" in
  if dimension d =? 2 then Some (mkM (if one then TriFromEdgeDer else TriPairDer) d r o v) else if dimension d =? 3 then Some (mkM (if one then TetFromEdgeDer else TetPairDer) d r o v) else None.
Proof.
  intros c d r o v Nd Nr No Nv T N0 N1. unfold from_edge, known, val. cbn. cbn in N0, N1. apply String.eqb_neq in Nd, Nr, No, Nv. rewrite Nd, Nr, No, Nv, T, N0, N1. reflexivity.
Qed.
(* the command saved with a model makes it again, where there are the same models; not for the derivatives of element_from_edge_model in 3D *)
Theorem C72_saved_partial : forall c kw m, exec (c, kw) = Some m ->
  ~ (c = "element_from_edge_model" /\ option_value "derivative" kw <> "" /\ dimension (option_value "device" kw) = 3) -> exec (saved m) = Some m.
Proof.
  intros c kw m E Nx. rewrite !option_val in Nx. cases E; destruct m as [k d r o v]; cbn [m_cls m_device m_region m_of m_var] in *; subst k;
    try (exfalso; apply Nx; split; [reflexivity|split; congruence]); unfold saved, SavedModel.exec, of_edge_der, of_node, of_edge;
    cbn [m_cls m_device m_region m_of m_var fst snd is_in existsb String.eqb Ascii.eqb eqb orb app];
    try rewrite node_again by assumption; try rewrite edge_der_again by assumption; try rewrite edge_again by assumption; cbv zeta; try rewrite Dm;
    cbn [String.eqb Ascii.eqb eqb Nat.eqb]; try rewrite V0; try (match type of V with v = "" => rewrite V end); reflexivity.
Qed.
(* in 3D, the command saved for the derivatives of element_from_edge_model is accepted, and makes models none of which has the name of one that was saved *)
Theorem C72_saved_derivative_refuted : forall kw m, exec ("element_from_edge_model", kw) = Some m -> option_value "derivative" kw <> "" -> dimension (option_value "device" kw) = 3 ->
  exists m2, exec (saved m) = Some m2 /\ names m2 <> [] /\ forall x, In x (names m) -> ~ In x (names m2).
Proof.
  intros kw m E Nv D3. rewrite !option_val in *. 
  destruct (exec_inv _ _ _ E) as (D & R & T & Nd & Nr & No & [(O & V & N & [[C _]|[C _]])|(O & V & [(V0 & _)|(V0 & N0 & N1 & [[_ [[Dm K]|[Dm K]]]|[C _]])])]); try discriminate; try congruence.
  exists (mkM TetPairDer (m_device m) (m_region m) (m_of m) (m_var m)). destruct m as [k d r o v]; cbn [m_cls m_device m_region m_of m_var] in *. subst k. split; [|split].
  - unfold saved, SavedModel.exec, of_edge_der, of_edge. cbn [m_cls m_device m_region m_of m_var fst snd is_in existsb String.eqb Ascii.eqb eqb orb app].
    rewrite edge_der_again by assumption. cbv zeta. rewrite Dm. reflexivity.
  - unfold names. cbn. discriminate.
  - intros x H1 H2. unfold names in H1, H2. cbn [m_cls m_of m_var] in H1, H2.
    assert (P : exists y, x = String.append o (String.append "_" y) /\ match y with String a _ => In a ["x"%char; "y"%char; "z"%char] | EmptyString => False end).
    { cbn [In] in H1. repeat (destruct H1 as [H1|H1]; [subst x; eexists; split; [cbn; reflexivity|cbn; auto]|]). destruct H1. }
    destruct P as (y & -> & Py). cbn [flat_map map app In] in H2.
    repeat (destruct H2 as [H2|H2]; [apply append_inj in H2; cbn in H2; inversion H2; subst y; cbn in Py; repeat (destruct Py as [Py|Py]; [discriminate|]); exact Py|]). exact H2.
Qed.
End T.

(* ---- the hypotheses are met: a device of 2 and one of 3 dimensions, a node model n, an edge model j with its derivatives by n ---- *)
Definition dims (d : string) : nat := if String.eqb d "d2" then 2 else 3.
Definition all_there (d r : string) : bool := true.
Definition n_only (d r n : string) : bool := String.eqb n "n".
Definition j_only (d r n : string) : bool := is_in n ["j"; "j:n@n0"; "j:n@n1"].
Notation run := (exec dims all_there n_only j_only).
Definition on (d kind of : string) : args := [("region", "r"); ("device", d); (kind, of)].
Example C72_node : run ("edge_from_node_model", on "d2" "node_model" "n") = Some (mkM EdgeFromNode "d2" "r" "n" "") /\
  names (mkM EdgeFromNode "d2" "r" "n" "") = ["n@n0"; "n@n1"]. Proof. vm_compute. auto. Qed.
Example C72_node3 : exists m, run ("element_from_node_model", on "d3" "node_model" "n") = Some m /\ names m = ["n@en0"; "n@en1"; "n@en2"; "n@en3"] /\ run (saved m) = Some m.
Proof. eexists. vm_compute. auto. Qed.
Example C72_edge2 : exists m, run ("element_from_edge_model", ("derivative", "n") :: on "d2" "edge_model" "j") = Some m /\
  names m = ["j_x:n@en0"; "j_x:n@en1"; "j_x:n@en2"; "j_y:n@en0"; "j_y:n@en1"; "j_y:n@en2"] /\ run (saved m) = Some m.
Proof. eexists. vm_compute. auto. Qed.
Example C72_pair2 : exists m, run ("element_pair_from_edge_model", on "d2" "edge_model" "j") = Some m /\
  names m = ["j_node0_x"; "j_node0_y"; "j_node1_x"; "j_node1_y"] /\ run (saved m) = Some m.
Proof. eexists. vm_compute. auto. Qed.
Example C72_pair3 : exists m, run ("element_pair_from_edge_model", ("derivative", "n") :: on "d3" "edge_model" "j") = Some m /\
  List.length (names m) = 24 /\ run (saved m) = Some m.
Proof. eexists. vm_compute. auto. Qed.
Example C72_error : run ("element_from_edge_model", ("derivative", "m") :: on "d2" "edge_model" "j") = None. Proof. reflexivity. Qed.
(* the command of the last theorem *)
Example C72_edge3 : exists m m2, run ("element_from_edge_model", ("derivative", "n") :: on "d3" "edge_model" "j") = Some m /\ In "j_x:n@en0" (names m) /\
  saved m = ("element_pair_from_edge_model", [("device", "d3"); ("region", "r"); ("edge_model", "j"); ("derivative", "n")]) /\
  run (saved m) = Some m2 /\ In "j_node0_x:n@en0" (names m2) /\ ~ In "j_x:n@en0" (names m2).
Proof. eexists. eexists. vm_compute. repeat (split; [solve [auto]|]). intuition discriminate. Qed.
(* the statement of C72_saved_partial without its exception is false *)
Theorem C72_saved_refuted : ~ (forall dimension there node_model edge_model c kw m, exec dimension there node_model edge_model (c, kw) = Some m ->
  exec dimension there node_model edge_model (saved m) = Some m).
Proof.
  intros H. specialize (H dims all_there n_only j_only "element_from_edge_model" (("derivative", "n") :: on "d3" "edge_model" "j") _ eq_refl). vm_compute in H. discriminate.
Qed.
Print Assumptions C72_names.
Print Assumptions C72_distinct.
Print Assumptions C72_saved_partial.
Print Assumptions C72_saved_derivative_refuted.
Print Assumptions C72_saved_refuted.
