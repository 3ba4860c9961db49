(* C72: the commands saved with the models of node_model, edge_model and element_model make them again *)
From Coq Require Import String Ascii List Bool Arith Lia.
From Verif Require Import EqReport SavedModel SavedModelProperties SavedExpr.
Import ListNotations.
Open Scope string_scope.
Open Scope list_scope.
Open Scope nat_scope.

Section T.
Variable E : Type.
Variable print : E -> string.
Variable parse : string -> option E.
Variable dimension : string -> nat.
Variable there : string -> string -> bool.
Variable taken : kind -> string -> string -> string -> bool.
Notation exec := (exec_expr E parse dimension there taken).
Notation saved := (saved_expr E print).

Lemma exec_expr_inv : forall c kw m, exec (c, kw) = Some m ->
  kind_of c (dimension (e_device E m)) = Some (e_kind E m) /\ e_device E m = val kw "device" /\ e_device E m <> "" /\ e_region E m <> "" /\ e_name E m <> "" /\
  there (e_device E m) (e_region E m) = true /\ taken (e_kind E m) (e_device E m) (e_region E m) (e_name E m) = false /\
  (val kw "display_type" = "" /\ e_shown E m = ScalarShow \/ val kw "display_type" <> "" /\ read_shown (e_kind E m) (val kw "display_type") = Some (e_shown E m)).
Proof.
  intros c kw m H. unfold exec_expr in H. cbn [fst snd] in H. destruct (kind_of c _) as [k|] eqn:K; [|discriminate].
  destruct (known _ _ kw && _ && _) eqn:B in H; [|discriminate]. apply andb_prop in B. destruct B as [B Tk]. apply andb_prop in B. destruct B as [Kn Th]. apply negb_true_iff in Tk.
  assert (Kq : forall n, In n ["device"; "region"; "name"] -> val kw n <> "").
  { intros n Hn. apply andb_prop in Kn. destruct Kn as [_ Kn]. rewrite forallb_forall in Kn. specialize (Kn n Hn). apply negb_true_iff, String.eqb_neq in Kn. exact Kn. }
  pose proof (Kq "device" ltac:(cbn; auto)). pose proof (Kq "region" ltac:(cbn; auto)). pose proof (Kq "name" ltac:(cbn; auto)).
  destruct (String.eqb_spec (val kw "display_type") "") as [V|V].
  - destruct (arg "equation" kw) as [q|]; [|discriminate]. destruct (parse q) as [e|]; [|discriminate]. inversion H; subst m; cbn. repeat (split; [solve [auto]|]). auto.
  - destruct (read_shown k _) as [s|] eqn:Rs; [|discriminate]. destruct (arg "equation" kw) as [q|]; [|discriminate]. destruct (parse q) as [e|]; [|discriminate].
    inversion H; subst m; cbn. repeat (split; [solve [auto]|]). auto.
Qed.
Lemma read_written : forall k s t, read_shown k t = Some s -> read_shown k (shown_text s) = Some s.
Proof.
  intros k s t H. unfold read_shown in H. destruct (String.eqb t "nodisplay"); [inversion H; reflexivity|]. destruct (String.eqb t "scalar"); [inversion H; reflexivity|].
  destruct (String.eqb t "vector"); [|discriminate]. destruct k; try discriminate. inversion H; reflexivity.
Qed.
Lemma shown_not_empty : forall s, String.eqb (shown_text s) "" = false. Proof. destruct s; reflexivity. Qed.
(* what the saved command makes: the same model, but shown as scalar in 2D *)
Lemma saved_made : forall c kw m, exec (c, kw) = Some m -> parse (print (e_equation E m) ++ ";")%string = Some (e_equation E m) ->
  exec (saved m) = Some (mkE E (e_kind E m) (e_device E m) (e_region E m) (e_name E m) (e_equation E m) (match e_kind E m with KTriangle => ScalarShow | _ => e_shown E m end)).
Proof.
  intros c kw m H P. destruct (exec_expr_inv _ _ _ H) as (K & _ & Nd & Nr & Nn & Th & Tk & S).
  assert (Sr : read_shown (e_kind E m) (shown_text (e_shown E m)) = Some (e_shown E m)) by (destruct S as [[_ ->]|[_ S]]; [reflexivity|exact (read_written _ _ _ S)]).
  assert (Ke : match e_kind E m with KTriangle => dimension (e_device E m) = 2 | KTetrahedron => dimension (e_device E m) = 3 | _ => True end).
  { unfold kind_of in K. destruct (String.eqb c "node_model"); [inversion K; exact I|]. destruct (String.eqb c "edge_model"); [inversion K; exact I|]. destruct (String.eqb c "element_model"); [|discriminate].
    destruct (dimension (e_device E m) =? 2) eqn:D2; [inversion K; apply Nat.eqb_eq; exact D2|]. destruct (dimension (e_device E m) =? 3) eqn:D3; [inversion K; apply Nat.eqb_eq; exact D3|discriminate]. }
  destruct m as [k d r n e s]. cbn [e_kind e_device e_region e_name e_equation e_shown] in *. apply String.eqb_neq in Nd, Nr, Nn.
  unfold saved_expr, exec_expr. destruct k; cbn [e_kind e_device e_region e_name e_equation e_shown fst snd app]; unfold kind_of, val, known; cbn -[read_shown String.append]; unfold val; cbn -[read_shown String.append];
    try rewrite Ke; cbn -[read_shown String.append]; rewrite ?Nd, ?Nr, ?Nn, ?Th, ?Tk; cbn -[read_shown String.append]; rewrite ?shown_not_empty, ?Sr, ?P; reflexivity.
Qed.

(* an accepted command makes a model of its name, place and equation, with the display type of the manual: vector for edge models only, scalar if there is none *)
Theorem C72_expression_made : forall c kw m, exec (c, kw) = Some m ->
  e_device E m = option_value "device" kw /\ e_region E m = option_value "region" kw /\ e_name E m = option_value "name" kw /\
  (exists q, arg "equation" kw = Some q /\ parse q = Some (e_equation E m)) /\
  (e_kind E m = KNode <-> c = "node_model") /\ (e_kind E m = KEdge <-> c = "edge_model") /\
  (e_kind E m = KTriangle <-> c = "element_model" /\ dimension (option_value "device" kw) = 2) /\ (e_kind E m = KTetrahedron <-> c = "element_model" /\ dimension (option_value "device" kw) = 3) /\
  match e_shown E m with
  | NoShow => option_value "display_type" kw = "nodisplay"
  | ScalarShow => option_value "display_type" kw = "scalar" \/ option_value "display_type" kw = ""
  | VectorShow => option_value "display_type" kw = "vector" /\ c = "edge_model"
  end.
Proof.
  intros c kw m H. rewrite !option_val. unfold exec_expr in H. cbn [fst snd] in H. destruct (kind_of c _) as [k|] eqn:K; [|discriminate].
  destruct (known _ _ kw && _ && _); [|discriminate]. set (t := val kw "display_type") in *.
  destruct (if String.eqb t "" then Some ScalarShow else read_shown k t) as [s|] eqn:S; [|discriminate].
  destruct (arg "equation" kw) as [q|]; [|discriminate]. destruct (parse q) as [e|] eqn:Pq; [|discriminate]. inversion H; subst m. cbn [e_kind e_device e_region e_name e_equation e_shown].
  split; [reflexivity|]. split; [reflexivity|]. split; [reflexivity|]. split; [exists q; auto|].
  assert (Kc : k = KNode /\ c = "node_model" \/ k = KEdge /\ c = "edge_model" \/ k = KTriangle /\ c = "element_model" /\ dimension (val kw "device") = 2 \/ k = KTetrahedron /\ c = "element_model" /\ dimension (val kw "device") = 3).
  { unfold kind_of in K. destruct (String.eqb c "node_model") eqn:C1; [apply String.eqb_eq in C1; inversion K; solve [auto 10]|]. destruct (String.eqb c "edge_model") eqn:C2; [apply String.eqb_eq in C2; inversion K; solve [auto 10]|].
    destruct (String.eqb c "element_model") eqn:C3; [apply String.eqb_eq in C3|discriminate K].
    destruct (dimension (val kw "device") =? 2) eqn:D2; [apply Nat.eqb_eq in D2; inversion K; solve [auto 10]|]. destruct (dimension (val kw "device") =? 3) eqn:D3; [apply Nat.eqb_eq in D3; inversion K; solve [auto 10]|discriminate K]. }
  assert (Sc : match s with NoShow => t = "nodisplay" | ScalarShow => t = "scalar" \/ t = "" | VectorShow => t = "vector" /\ k = KEdge end).
  { clear H. destruct (String.eqb t "") eqn:T0; [apply String.eqb_eq in T0; inversion S; auto|]. unfold read_shown in S. destruct (String.eqb t "nodisplay") eqn:T1; [apply String.eqb_eq in T1; inversion S; auto|].
    destruct (String.eqb t "scalar") eqn:T2; [apply String.eqb_eq in T2; inversion S; auto|]. destruct (String.eqb t "vector") eqn:T3; [apply String.eqb_eq in T3|discriminate S]. destruct k; try discriminate S. inversion S; auto. }
  clear H K S Pq q e. clearbody t. generalize dependent (val kw "device"). intros d Kc.
  destruct Kc as [[-> ->]|[[-> ->]|[[-> [-> D]]|[-> [-> D]]]]]; repeat split; try discriminate; try exact D; try (intros X; destruct X as [X1 X2]; discriminate X1); try (intros X; discriminate X);
    try (intros [_ X]; rewrite D in X; discriminate X); try (destruct s; try exact Sc; destruct Sc as [? X]; try discriminate X; split; auto).
Qed.
(* the saved command makes the model again; not for element models in 2D with display_type nodisplay *)
Theorem C72_expression_saved_partial : forall c kw m, exec (c, kw) = Some m -> parse (print (e_equation E m) ++ ";")%string = Some (e_equation E m) ->
  ~ (c = "element_model" /\ dimension (option_value "device" kw) = 2 /\ option_value "display_type" kw = "nodisplay") -> exec (saved m) = Some m.
Proof.
  intros c kw m H P N. rewrite !option_val in N. rewrite (saved_made _ _ _ H P). destruct (exec_expr_inv _ _ _ H) as (K & D & _ & _ & _ & _ & _ & S). rewrite <- D in N.
  destruct m as [k d r n e s]. cbn [e_kind e_device e_region e_name e_equation e_shown] in *. do 2 f_equal. destruct k; try reflexivity.
  destruct S as [[_ S]|[_ S]]; [congruence|]. unfold kind_of in K. destruct (String.eqb c "node_model"); [discriminate|]. destruct (String.eqb c "edge_model"); [discriminate|].
  destruct (String.eqb_spec c "element_model") as [Ec|]; [|discriminate]. destruct (Nat.eqb_spec (dimension d) 2) as [D2|]; [|destruct (dimension d =? 3); discriminate].
  unfold read_shown in S. destruct (String.eqb_spec (val kw "display_type") "nodisplay") as [Dn|]; [destruct N; auto|].
  destruct (String.eqb _ "scalar"); [congruence|]. destruct (String.eqb _ "vector"); discriminate.
Qed.
(* there the saved command makes a model that is shown *)
Theorem C72_expression_saved_refuted : forall kw m, exec ("element_model", kw) = Some m -> parse (print (e_equation E m) ++ ";")%string = Some (e_equation E m) ->
  dimension (option_value "device" kw) = 2 -> option_value "display_type" kw = "nodisplay" ->
  e_shown E m = NoShow /\ exists m2, exec (saved m) = Some m2 /\ e_shown E m2 = ScalarShow.
Proof.
  intros kw m H P D2 Dn. rewrite !option_val in *. pose proof (saved_made _ _ _ H P) as M. destruct (exec_expr_inv _ _ _ H) as (K & D & _ & _ & _ & _ & _ & S).
  unfold kind_of in K. rewrite D, D2 in K. cbn in K. inversion K as [Ke]. rewrite <- Ke in *. rewrite Dn in S. destruct S as [[S _]|[_ S]]; [discriminate|]. cbn in S. inversion S.
  split; [reflexivity|]. eexists. split; [exact M|reflexivity].
Qed.
End T.

(* ---- the hypotheses are met: expressions are texts without the semicolon ---- *)
Fixpoint cut (s : string) : option string :=
  match s with
  | EmptyString => None
  | String c EmptyString => if Ascii.eqb c ";"%char then Some EmptyString else None
  | String c t => option_map (String c) (cut t)
  end.
Notation run := (exec_expr string cut dims all_there (fun _ _ _ n => String.eqb n "n")).
Definition model_of (d n q : string) (t : args) : args := ("name", n) :: ("device", d) :: ("region", "r") :: ("equation", q) :: t.
Example C72_expression_edge : exists m, run ("edge_model", model_of "d2" "E" "(a-b)*c;" [("display_type", "vector")]) = Some m /\ e_shown string m = VectorShow /\
  e_equation string m = "(a-b)*c" /\ run (saved_expr string (fun s => s) m) = Some m.
Proof. eexists. vm_compute. auto. Qed.
Example C72_expression_element3 : exists m, run ("element_model", model_of "d3" "E" "a;" [("display_type", "nodisplay")]) = Some m /\ e_shown string m = NoShow /\ run (saved_expr string (fun s => s) m) = Some m.
Proof. eexists. vm_compute. auto. Qed.
Example C72_expression_taken : run ("edge_model", model_of "d2" "n" "a;" []) = None. Proof. reflexivity. Qed.
Example C72_expression_element2 : exists m m2, run ("element_model", model_of "d2" "E" "a;" [("display_type", "nodisplay")]) = Some m /\ e_shown string m = NoShow /\
  run (saved_expr string (fun s => s) m) = Some m2 /\ e_shown string m2 = ScalarShow.
Proof. eexists. eexists. vm_compute. auto. Qed.
Print Assumptions C72_expression_saved_partial.
Print Assumptions C72_expression_saved_refuted.
Print Assumptions C72_expression_made.
