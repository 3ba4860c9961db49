(* C70: the values of interface models *)
From Coq Require Import Ascii String List Bool Arith Lia.
From Verif Require Import ModelData ModelExpr ModelExprProofs ModelExprProperties InterfaceExpr InterfaceExprSpec InterfaceExprNames InterfaceExprProofs InterfaceExprSilent.
Import ListNotations.
Open Scope list_scope.

Section T.
Variable V : Type.
Variables (zero one : V) (add mul : V -> V -> V) (is0 : V -> bool) (lt same : V -> V -> bool).
Variables (bad_add bad_mul : V -> V -> bool).
Variable fn : string -> nat -> option (list V -> V * bool).
Variable key : expr V -> string.
Variable par : bool -> string -> option V.
Variable circuit : string -> option V.
Variable imodel : string -> option (expr V).
Variable nmodel : bool -> string -> option (list V).
Variable nodes : bool -> list nat.
Variable var : string -> option V.
Variable rho : string -> option (list V).
Variable rank : string -> nat.
Local Notation n := (length (nodes false)).
Local Notation sem := (sem V zero one add mul is0 lt bad_add bad_mul fn n var rho).
Local Notation model_is := (model_is V zero one add mul is0 lt bad_add bad_mul fn n var rho imodel nmodel nodes).
Local Notation eval := (InterfaceExpr.eval V zero one add mul is0 lt same bad_add bad_mul fn key par circuit imodel nmodel nodes).
Local Notation values := (InterfaceExpr.values V zero one add mul is0 lt same bad_add bad_mul fn key par circuit imodel nmodel nodes).
Local Notation run := (InterfaceExpr.run V zero one add mul is0 lt same bad_add bad_mul fn key par circuit imodel nmodel nodes).
(* the two sides of the interface match; the values of the names (var) and of the models (rho) are what they are meant
   to be, and no model with values depends on itself *)
Definition interface_ok : Prop :=
  length (nodes true) = length (nodes false) /\
  (forall s v, var s = Some v -> var_is V same par circuit s v) /\
  (forall m l, rho m = Some l -> model_is m l) /\
  (forall m e x, rho m <> None -> imodel m = Some e -> In x (uses V e) -> rank x < rank m) /\
  (forall e e', key e = key e' -> e = e').

Lemma bound : forall l : list string, exists R, forall m, In m l -> rank m < R.
Proof.
  induction l as [|x l (R & H)]; [exists 0; intros m []|]. exists (S (rank x) + R). intros m [<-|Hm]; [lia|]. specialize (H m Hm). lia.
Qed.
(* the values of an interface model are those of its expression, and nothing is reported *)
Theorem C70_value_partial : interface_ok -> forall m l, imodel m <> None -> rho m = Some l ->
  exists N, forall fuel, N <= fuel -> values fuel m = (Ok l, false).
Proof.
  intros (H1 & H2 & H3 & H4 & H5) m l Im Rm. destruct (imodel m) as [e|] eqn:E; [|congruence].
  assert (M := H3 m l Rm). unfold InterfaceExprSpec.model_is in M. rewrite E in M. destruct M as (v & Sv & ->).
  assert (Nn : rho m <> None) by congruence.
  destruct (eval_correct V zero one add mul is0 lt same bad_add bad_mul fn key par circuit imodel nmodel nodes var rho rank H1 H2 H3 H4 H5
              (rank m) e (fun q Hq => H4 m e q Nn E Hq) [m]) with (s := start V) (v := v) as (N & s1 & d & Ev & (R1 & F1 & D1 & Sn1)).
  { intros x [<-|[]]. lia. } { split; [intros k d []|split; reflexivity]. } { exact Sv. }
  exists N. intros fuel Hf. unfold InterfaceExpr.values. rewrite E, (Ev fuel Hf).
  assert (MC := model_cell_ok V zero nodes s1 d v D1). rewrite MC.
  destruct R1 as (_ & _ & (_ & Er & Sd)). rewrite Er, Sd. reflexivity.
Qed.
(* conversely: a model calculated without a message has the values it is meant to have, if it and the models it uses have no "if",
   the parameters named with their region exist, and there are no exceptions. The converses of the hypotheses on var and rho
   say that they leave no value out. *)
Lemma plainly_ok : forall e, no_if V e = true -> (forall s i x, In s (names V e) -> of_region i x s -> var s <> None) ->
  plainly V (fun s => match region_and_name s, var s with Some _, None => false | _, _ => true end) e = true.
Proof.
  assert (L : forall l, Forall (fun e => no_if V e = true -> (forall s i x, In s (names V e) -> of_region i x s -> var s <> None) ->
    plainly V (fun s => match region_and_name s, var s with Some _, None => false | _, _ => true end) e = true) l ->
    forallb (no_if V) l = true -> (forall s i x, In s (flat_map (names V) l) -> of_region i x s -> var s <> None) ->
    forallb (plainly V (fun s => match region_and_name s, var s with Some _, None => false | _, _ => true end)) l = true).
  { induction 1 as [|e l H _ IH]; [reflexivity|]. cbn [forallb flat_map]. intros N X. apply andb_prop in N. destruct N as [N1 N2].
    rewrite H, IH; try assumption; [reflexivity| |]; intros s i x Hi; apply X; apply in_or_app; auto. }
  induction e as [v|s|m|l IH|l IH|t a _ _|t a b IHt IHa IHb|f l IH] using expr_ind'; intros N X; cbn [plainly]; try (apply L; assumption).
  - reflexivity.
  - destruct (region_and_name s) as [[i x]|] eqn:R; [|reflexivity]. apply region_name_iff in R. assert (Y := X s i x (or_introl eq_refl) R). destruct (var s); [reflexivity|congruence].
  - reflexivity.
  - discriminate.
  - cbn [no_if] in N. apply andb_prop in N. destruct N as [N N3]. apply andb_prop in N. destruct N as [N1 N2]. cbn [names] in X.
    rewrite IHt, IHa, IHb; try assumption; [reflexivity| | |]; intros s i x Hi; apply X; apply in_or_app; [right; apply in_or_app; right|right; apply in_or_app; left|left]; exact Hi.
Qed.
Theorem C70_silent_partial : length (nodes true) = length (nodes false) ->
  (forall s v, var s = Some v <-> var_is V same par circuit s v) ->
  (forall m l, model_is m l -> rho m = Some l) ->
  (forall m e, imodel m = Some e -> no_if V e = true) ->
  (forall m e s i x, imodel m = Some e -> In s (names V e) -> of_region i x s -> var s <> None) ->
  (forall e e', key e = key e' -> e = e') ->
  (forall x y, bad_add x y = false) -> (forall x y, bad_mul x y = false) ->
  (forall f k g l, fn f k = Some g -> snd (g l) = false) ->
  forall fuel m l, values fuel m = (Ok l, false) -> rho m = Some l.
Proof.
  intros H1 H2 H3 H4 H5 H6 H7 H8 H9 fuel m l E. unfold InterfaceExpr.values in E. destruct (imodel m) as [e|] eqn:Im; [|discriminate].
  destruct (eval fuel [m] (start V) e) as [s r] eqn:Ee. inversion E as [[Er Es]]. clear E. destruct r as [d| | |]; try discriminate.
  apply orb_false_elim in Es. destruct Es as [Sd Ee'].
  assert (Pl : forall m e, imodel m = Some e -> plainly V (fun s => match region_and_name s, var s with Some _, None => false | _, _ => true end) e = true).
  { intros m' e' Hm. apply plainly_ok; [exact (H4 m' e' Hm)|]. intros s' i x. apply H5 with (m := m'). exact Hm. }
  set (okv := fun s => match region_and_name s, var s with Some _, None => false | _, _ => true end) in Pl.
  assert (Po : forall i x s, okv s = true -> of_region i x s -> var s <> None).
  { intros i x s' Ho Hr. unfold okv in Ho. apply region_name_iff in Hr. rewrite Hr in Ho. destruct (var s'); [discriminate|discriminate Ho]. }
  destruct (eval_told V zero one add mul is0 lt same bad_add bad_mul fn key par circuit imodel nmodel nodes var rho okv H1
    (fun s v => proj2 (H2 s v)) (fun s v => proj1 (H2 s v)) Po H3 Pl H6 H7 H8 H9
    fuel [m] (start V) e s d) as (v & Sv & (R1 & F1 & D1 & Sn1)); try assumption.
  { split; [intros k d0 []|split; reflexivity]. } { exact (Pl m e Im). }
  rewrite (model_cell_ok V zero nodes s d v D1) in Er. inversion Er; subst l. apply H3. unfold InterfaceExprSpec.model_is. rewrite Im. exists v. split; [exact Sv|reflexivity].
Qed.
(* expressions evaluated one after the other with one cache *)
Definition as_number (x : val V) : V + list V := match x with Sc v => inl v | Fl l => inr l end.
Theorem C70_history_partial : interface_ok -> forall es, Forall (fun e => sem e <> None) es ->
  exists N, forall fuel, N <= fuel -> snd (run fuel (start V) es) = map (fun e => option_map as_number (sem e)) es.
Proof.
  intros (H1 & H2 & H3 & H4 & H5) es He.
  assert (O : ok_st V zero one add mul is0 lt bad_add bad_mul fn key nodes var rho (start V)) by (split; [intros k d []|split; reflexivity]).
  revert O. generalize (start V). induction He as [|e es Ee _ IH]; intros s O; [exists 0; reflexivity|].
  destruct (sem e) as [v|] eqn:Es; [|congruence]. destruct (bound (uses V e)) as (R & HR).
  destruct (eval_correct V zero one add mul is0 lt same bad_add bad_mul fn key par circuit imodel nmodel nodes var rho rank H1 H2 H3 H4 H5
              R e HR [] (fun x Hx => match Hx with end) s v O Es) as (N1 & s1 & d & Ev & (R1 & _ & D & _)).
  destruct R1 as (_ & _ & O1). destruct (IH s1 O1) as (N2 & HN). exists (N1 + N2). intros fuel Hf. cbn [InterfaceExpr.run]. rewrite (Ev fuel) by lia.
  specialize (HN fuel). destruct (run fuel s1 es) as [s2 r]. cbn [snd] in *. rewrite HN by lia. cbn [map]. rewrite Es. f_equal.
  destruct d as [|x|p], v as [y|l]; try (cbn in D; contradiction); cbn.
  - cbn in D. subst. reflexivity.
  - destruct D as [Hp _]. unfold InterfaceExpr.get. rewrite (nth_error_nth _ _ _ Hp). reflexivity.
Qed.
(* a parameter that has different values in the two regions is an error *)
Theorem C70_differ : forall m s v w fuel, imodel m = Some (Var s) -> plain s ->
  par false s = Some v -> par true s = Some w -> same v w = false -> values (S fuel) m = (Throw, true).
Proof.
  intros m s v w fuel Im Pl P0 P1 Sm. apply region_name_none in Pl. unfold InterfaceExpr.values. rewrite Im. cbn [InterfaceExpr.eval start set_fpe InterfaceExpr.lookup cache heap err said].
  unfold eval_var. rewrite Pl, P0, P1, Sm. reflexivity.
Qed.
(* a parameter that is in neither region, nor a circuit node, is an error *)
Theorem C70_unknown : forall m s i fuel, imodel m = Some (Var s) -> plain s -> par i s = None -> circuit s = None ->
  values (S fuel) m = (Throw, true).
Proof.
  intros m s i fuel Im Pl P C. apply region_name_none in Pl. unfold InterfaceExpr.values. rewrite Im. cbn [InterfaceExpr.eval start set_fpe InterfaceExpr.lookup cache heap err said].
  unfold eval_var. rewrite Pl, C. destruct i; rewrite P; [destruct (par false s)|]; reflexivity.
Qed.
(* a model that does not exist: reported, and 0.0 *)
Theorem C70_missing : forall m x fuel, imodel m = Some (Model x) -> imodel x = None ->
  (forall i y, of_region i y x -> nmodel i y = None) ->
  values (S fuel) m = (Ok (repeat zero n), true).
Proof.
  intros m x fuel Im Ix Nx. unfold InterfaceExpr.values. rewrite Im. cbn [InterfaceExpr.eval start set_fpe InterfaceExpr.lookup cache heap err said]. rewrite Ix.
  destruct (region_and_name x) as [[i y]|] eqn:R; [|reflexivity]. apply region_name_iff in R. rewrite (Nx i y R). reflexivity.
Qed.
End T.

(* ---- two nodes: nodes 1 and 3 of region 0 at nodes 0 and 2 of region 1; natural numbers ---- *)
Open Scope string_scope.
Definition xnodes (i : bool) : list nat := if i then [0; 2]%nat else [1; 3]%nat.
Definition xnmodel (i : bool) (x : string) : option (list nat) :=
  if String.eqb x "n" then Some (if i then [20; 21; 22; 23]%nat else [10; 11; 12; 13]%nat) else None.
Definition xpar (i : bool) (x : string) : option nat :=
  if String.eqb x "T" then Some 300%nat else if String.eqb x "k" then Some (if i then 2 else 1)%nat else None.
Definition xcircuit (x : string) : option nat := if String.eqb x "V1" then Some 5%nat else None.
(* d = n@r0 + k@r1 * n@r1; s = vec_sum(d) + sq(n@r1) + T + V1; b = ifelse(d, s, 0) *)
Definition xd : expr nat := Sum [Model "n@r0"; Prod [Var "k@r1"; Model "n@r1"]].
Definition xs : expr nat := Sum [Fun "vec_sum" [Model "d"]; Fun "sq" [Model "n@r1"]; Var "T"; Var "V1"].
Definition ximodel (m : string) : option (expr nat) :=
  if String.eqb m "d" then Some xd else if String.eqb m "s" then Some xs else if String.eqb m "b" then Some (IfElse (Model "d") (Model "s") (Const 0%nat)) else None.
Definition xvar (s : string) : option nat :=
  if String.eqb s "T" then Some 300%nat else if String.eqb s "k@r1" then Some 2%nat else if String.eqb s "k@r0" then Some 1%nat else if String.eqb s "V1" then Some 5%nat else None.
Definition xrho (m : string) : option (list nat) :=
  if String.eqb m "n@r0" then Some [11; 13]%nat else if String.eqb m "n@r1" then Some [20; 22]%nat else if String.eqb m "d" then Some [51; 57]%nat
  else if String.eqb m "s" then Some [813; 897]%nat else if String.eqb m "b" then Some [813; 897]%nat else None.
Definition xrank (m : string) : nat := if String.eqb m "d" then 1 else if String.eqb m "s" then 2 else if String.eqb m "b" then 3 else 0.
Definition xvalues (im : string -> option (expr nat)) := InterfaceExpr.values nat 0 1 Nat.add Nat.mul (Nat.eqb 0) Nat.ltb Nat.eqb nbad nbad nfn nkey xpar xcircuit im xnmodel xnodes 20.
Lemma x_region : forall i x s, (exists y, region_and_name s = Some (i, y) /\ x = y) -> of_region i x s.
Proof. intros i x s (y & H & ->). apply region_name_iff. exact H. Qed.
Example C70_case : interface_ok nat 0 1 Nat.add Nat.mul (Nat.eqb 0) Nat.ltb Nat.eqb nbad nbad nfn nkey xpar xcircuit ximodel xnmodel xnodes xvar xrho xrank.
Proof.
  unfold interface_ok. split; [reflexivity|]. split; [|split; [|split; [|exact nkey_inj]]].
  - intros s v H. unfold xvar in H.
    destruct (String.eqb_spec s "T") as [->|_]; [inversion H; subst; apply VBoth with (w := 300); [apply region_name_none; vm_compute; reflexivity|reflexivity|reflexivity|reflexivity]|].
    destruct (String.eqb_spec s "k@r1") as [->|_]; [inversion H; subst; apply VReg with (i := true) (x := "k"); [apply region_name_iff; vm_compute; reflexivity|reflexivity]|].
    destruct (String.eqb_spec s "k@r0") as [->|_]; [inversion H; subst; apply VReg with (i := false) (x := "k"); [apply region_name_iff; vm_compute; reflexivity|reflexivity]|].
    destruct (String.eqb_spec s "V1") as [->|_]; [inversion H; subst; apply VNode with (i := false); [apply region_name_none; vm_compute; reflexivity|reflexivity|reflexivity]|]. discriminate.
  - intros m l H. unfold xrho in H. unfold model_is.
    destruct (String.eqb_spec m "n@r0") as [->|_]; [inversion H; subst; cbn [ximodel]; change (ximodel "n@r0") with (@None (expr nat)); cbv iota; exists false, "n"; eexists; split; [apply region_name_iff; vm_compute; reflexivity|split; reflexivity]|].
    destruct (String.eqb_spec m "n@r1") as [->|_]; [inversion H; subst; change (ximodel "n@r1") with (@None (expr nat)); cbv iota; exists true, "n"; eexists; split; [apply region_name_iff; vm_compute; reflexivity|split; reflexivity]|].
    destruct (String.eqb_spec m "d") as [->|_]; [inversion H; subst; change (ximodel "d") with (Some xd); cbv iota; eexists; split; vm_compute; reflexivity|].
    destruct (String.eqb_spec m "s") as [->|_]; [inversion H; subst; change (ximodel "s") with (Some xs); cbv iota; eexists; split; vm_compute; reflexivity|].
    destruct (String.eqb_spec m "b") as [->|_]; [inversion H; subst; change (ximodel "b") with (Some (IfElse (Model "d") (Model "s") (Const 0%nat))); cbv iota; eexists; split; vm_compute; reflexivity|]. discriminate.
  - intros m e x _ H Hx. unfold ximodel in H.
    destruct (String.eqb_spec m "d") as [->|_]; [inversion H; subst; cbn in Hx; intuition subst; vm_compute; lia|].
    destruct (String.eqb_spec m "s") as [->|_]; [inversion H; subst; cbn in Hx; intuition subst; vm_compute; lia|].
    destruct (String.eqb_spec m "b") as [->|_]; [inversion H; subst; cbn in Hx; intuition subst; vm_compute; lia|]. discriminate.
Qed.
(* the hypotheses of C70_silent_partial *)
Definition xall (s : string) : option nat :=
  match region_and_name s with
  | Some (i, x) => match xpar i x with Some v => Some v | None => xcircuit s end
  | None => match xpar false s, xpar true s with Some v, Some w => if Nat.eqb v w then Some v else None | _, _ => xcircuit s end
  end.
Lemma xall_iff : forall s v, xall s = Some v <-> var_is nat Nat.eqb xpar xcircuit s v.
Proof.
  intros s v. unfold xall. split.
  - destruct (region_and_name s) as [[i x]|] eqn:R.
    + apply region_name_iff in R. destruct (xpar i x) as [w|] eqn:P; intros H; [inversion H; subst; exact (VReg _ _ _ _ _ _ _ _ R P)|exact (VRegNode _ _ _ _ _ _ _ _ R P H)].
    + apply region_name_none in R. destruct (xpar false s) as [w|] eqn:P; [|intros H; exact (VNode _ _ _ _ _ false _ R P H)].
      destruct (xpar true s) as [w'|] eqn:P'; [|intros H; exact (VNode _ _ _ _ _ true _ R P' H)].
      destruct (Nat.eqb w w') eqn:Q; intros H; [|discriminate]. inversion H; subst. exact (VBoth _ _ _ _ _ _ _ R P P' Q).
  - intros H. destruct H as [i x v R P|i x v R P C|v w R P P' Q|i v R P C].
    + apply region_name_iff in R. rewrite R, P. reflexivity.
    + apply region_name_iff in R. rewrite R, P. exact C.
    + apply region_name_none in R. rewrite R, P, P', Q. reflexivity.
    + apply region_name_none in R. rewrite R. destruct i; rewrite P; [destruct (xpar false s)|]; exact C.
Qed.
Example C70_silent_case : length (xnodes true) = length (xnodes false) /\
  (forall s v, xall s = Some v <-> var_is nat Nat.eqb xpar xcircuit s v) /\
  (forall m l, model_is nat 0 1 Nat.add Nat.mul (Nat.eqb 0) Nat.ltb nbad nbad nfn 2 xall xrho ximodel xnmodel xnodes m l -> xrho m = Some l) /\
  (forall m e, ximodel m = Some e -> no_if nat e = true) /\
  (forall m e s i x, ximodel m = Some e -> In s (names nat e) -> of_region i x s -> xall s <> None) /\
  (forall e e', nkey e = nkey e' -> e = e') /\
  (forall x y, nbad x y = false) /\ (forall f k g l, nfn f k = Some g -> snd (g l) = false).
Proof.
  split; [reflexivity|]. split; [exact xall_iff|]. split; [|split; [|split; [|split; [exact nkey_inj|split; [reflexivity|]]]]].
  - intros m l. unfold model_is. destruct (ximodel m) as [e|] eqn:E.
    + unfold ximodel in E.
      destruct (String.eqb_spec m "d") as [->|_]; [inversion E; subst; intros (v & Sv & ->); vm_compute in Sv; inversion Sv; reflexivity|].
      destruct (String.eqb_spec m "s") as [->|_]; [inversion E; subst; intros (v & Sv & ->); vm_compute in Sv; inversion Sv; reflexivity|].
      destruct (String.eqb_spec m "b") as [->|_]; [inversion E; subst; intros (v & Sv & ->); vm_compute in Sv; inversion Sv; reflexivity|]. discriminate.
    + intros (i & x & vals & (Nx & ->) & Nm & ->). unfold xnmodel in Nm. destruct (String.eqb_spec x "n") as [->|_]; [|discriminate].
      inversion Nm; subst. destruct i; reflexivity.
  - intros m e H. unfold ximodel in H.
    destruct (String.eqb m "d"); [inversion H; subst; reflexivity|]. destruct (String.eqb m "s"); [inversion H; subst; reflexivity|].
    destruct (String.eqb m "b"); [inversion H; subst; reflexivity|discriminate].
  - intros m e s i x H Hs _. unfold ximodel in H.
    destruct (String.eqb m "d"); [inversion H; subst; cbn in Hs; destruct Hs as [<-|[]]; vm_compute; discriminate|].
    destruct (String.eqb m "s"); [inversion H; subst; cbn in Hs; destruct Hs as [<-|[<-|[]]]; vm_compute; discriminate|].
    destruct (String.eqb m "b"); [inversion H; subst; cbn in Hs; destruct Hs|discriminate].
  - intros f k g l H. unfold nfn in H. destruct k as [|[|[|[|k]]]]; try discriminate.
    + destruct (String.eqb f "sq"); [inversion H; reflexivity|]. destruct (String.eqb f "vec_sum"); [inversion H; reflexivity|discriminate].
    + destruct (String.eqb f "ifelse"); [inversion H; reflexivity|discriminate].
Qed.
Example C70_case_values : map (xvalues ximodel) ["d"; "s"; "b"] = [(Ok [51; 57], false); (Ok [813; 897], false); (Ok [813; 897], false)]%nat.
Proof. vm_compute. reflexivity. Qed.

(* ---- what is excluded ---- *)
Definition one_model (e : expr nat) (m : string) : option (expr nat) := if String.eqb m "a" then Some e else None.
Example C70_differ_case : xvalues (one_model (Var "k")) "a" = (Throw, true). Proof. vm_compute. reflexivity. Qed.
Example C70_unknown_case : xvalues (one_model (Var "Q")) "a" = (Throw, true). Proof. vm_compute. reflexivity. Qed.
(* a model that depends on itself gets values: a = a + 1 is 1; a message is written, the command succeeds *)
Theorem C70_circular_refuted : xvalues (one_model (Sum [Model "a"; Const 1%nat])) "a" = (Ok [1; 1], true)%nat.
Proof. vm_compute. reflexivity. Qed.
(* so does one with a misspelled name; it fails only when a function is called after that *)
Theorem C70_missing_refuted :
  xvalues (one_model (Sum [Model "N@r0"; Model "n@r1"])) "a" = (Ok [20; 22], true)%nat /\
  xvalues (one_model (Sum [Fun "sq" [Model "n@r1"]; Model "N@r0"])) "a" = (Ok [400; 484], true)%nat /\
  xvalues (one_model (Sum [Model "N@r0"; Fun "sq" [Model "n@r1"]])) "a" = (Throw, true).
Proof. split; [|split]; vm_compute; reflexivity. Qed.
(* a parameter that is not in the region of its name is not reported: the model fails without saying why, and times 0 it is 0 *)
Theorem C70_parameter_refuted :
  xvalues (one_model (Sum [Var "Q@r0"; Model "n@r1"])) "a" = (Throw, false) /\
  xvalues (one_model (Sum [Model "n@r1"; Prod [Var "Q@r0"; Const 0%nat]])) "a" = (Ok [20; 22], false)%nat.
Proof. split; vm_compute; reflexivity. Qed.
(* if(t, n@r0) + if(t, n@r1) with values t = 1 on the nodes: the first "if" changes the values of t *)
Definition tmodel (e : expr nat) (m : string) : option (expr nat) :=
  if String.eqb m "a" then Some e else if String.eqb m "t" then Some (Const 1%nat) else None.
Theorem C70_if_if_refuted :
  xvalues (tmodel (If (Model "t") (Model "n@r0"))) "a" = (Ok [11; 13], false)%nat /\
  xvalues (tmodel (If (Model "t") (Model "n@r1"))) "a" = (Ok [20; 22], false)%nat /\
  xvalues (tmodel (Sum [If (Model "t") (Model "n@r0"); If (Model "t") (Model "n@r1")])) "a" = (Ok [231; 299], false)%nat.
Proof. split; [|split]; vm_compute; reflexivity. Qed.
(* an exception of the product of the first two factors is forgotten when there is a third one *)
Definition xfvalues (im : string -> option (expr nat)) := InterfaceExpr.values nat 0 1 Nat.add Nat.mul (Nat.eqb 0) Nat.ltb Nat.eqb nbad ebad nfn nkey xpar xcircuit im xnmodel xnodes 20.
Theorem C70_exception_refuted :
  xfvalues (one_model (Prod [Const 20; Const 30]%nat)) "a" = (Throw, true) /\
  xfvalues (one_model (Prod [Const 20; Const 30; Const 1]%nat)) "a" = (Ok [600; 600], false)%nat.
Proof. split; vm_compute; reflexivity. Qed.
Print Assumptions C70_value_partial.
Print Assumptions C70_silent_partial.
Print Assumptions C70_history_partial.
Print Assumptions C70_differ.
Print Assumptions C70_unknown.
Print Assumptions C70_missing.
Print Assumptions C70_circular_refuted.
Print Assumptions C70_missing_refuted.
Print Assumptions C70_parameter_refuted.
Print Assumptions C70_if_if_refuted.
Print Assumptions C70_exception_refuted.
