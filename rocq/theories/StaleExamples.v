(* C25: histories that leave stale values (the property is false for them), and a history that meets C25_fresh_partial. *)
From Coq Require Import Ascii String List Bool Arith Lia ZArith.
From Verif Require Import StrMap Params ParamsProofs Stale StaleProofs StaleSpec StaleEval StaleTerm StaleSys StaleProperties.
Import ListNotations.
Open Scope string_scope.
Open Scope list_scope.

(* values are integers; a parameter is a number or (None) a string *)
Definition zsys := sys Z (option Z).
Definition zop := op Z (option Z).
Definition zid (w : option Z) : option Z := w.
(* after the commands l (last first) from some start, reading model n of region r of device d gives v, but n means w <> v *)
Definition stale (l : list zop) (d r n : string) : Prop := exists s0 s R s' v w,
  history Z 0%Z (option Z) zid s0 l s /\ get_reg Z (option Z) s d r = Some R /\
  read Z 0%Z (option Z) zid s d r n = Some (s', Val v) /\ means Z 0%Z R (env_of Z (option Z) zid s d r) n w /\ v <> w.

Definition s_start : zsys :=
  mkS (mkG [("p", Some 0%Z); ("q", Some 3%Z)] [] []) [("d", [("r", mkR [] [])])] (mkC [("0", 0%Z); ("n1", 5%Z)] [("a1", "n1")]).
Definition run_all (l : list zop) : option zsys :=
  fold_right (fun o s => match s with Some s => exec Z 0%Z (option Z) zid s o | None => None end) (Some s_start) l.
Definition final (l : list zop) : zsys := match run_all l with Some s => s | None => s_start end.
Definition reg_of (s : zsys) : region Z := match get_reg Z (option Z) s "d" "r" with Some R => R | None => mkR [] [] end.
Lemma start_ok : start Z (option Z) s_start.
Proof.
  repeat split; try (repeat constructor; fail).
  - intros d rs. cbn. destruct (String.eqb d "d"); [|discriminate]. intros X. injection X as <-. repeat constructor.
  - intros d r R. unfold get_reg. cbn. destruct (String.eqb d "d"); [|discriminate]. cbn. destruct (String.eqb r "r"); [|discriminate]. congruence.
Qed.
Lemma run_history : forall l s, run_all l = Some s -> history Z 0%Z (option Z) zid s_start l s.
Proof.
  induction l as [|o l IH]; intros s E; cbn in E; [injection E as <-; constructor; exact start_ok|].
  fold (run_all l) in E. destruct (run_all l) as [s1|]; [|discriminate]. eapply h_op; [apply IH; reflexivity|exact E].
Qed.
Definition read_val (s : zsys) (n : string) : option (res Z) := option_map snd (read Z 0%Z (option Z) zid s "d" "r" n).
Lemma stale_intro : forall l n v w, match run_all l with Some s => read_val s n | None => None end = Some (Val v) ->
  match run_all l with Some s => get_reg Z (option Z) s "d" "r" | None => None end <> None ->
  means Z 0%Z (reg_of (final l)) (env_of Z (option Z) zid (final l) "d" "r") n w -> v <> w -> stale l "d" "r" n.
Proof.
  intros l n v w E G M N. unfold final in M. destruct (run_all l) as [s|] eqn:R; [|discriminate].
  unfold read_val in E. destruct (read Z 0%Z (option Z) zid s "d" "r" n) as [[s' x]|] eqn:Er; [|discriminate]. cbn in E. injection E as ->.
  unfold reg_of in M. destruct (get_reg Z (option Z) s "d" "r") as [R0|] eqn:Gr; [|congruence].
  exists s_start, s, R0, s', v, w. split; [apply run_history; exact R|]. auto.
Qed.

(* expressions *)
Definition konst (z : Z) : def Z := Expr [] [] (Ret (Some z)).
Definition param (p : string) : def Z := Expr [] [p] (GetVar p (fun x => Ret x)).
Definition times (z : Z) (m : string) : def Z := Expr [m] [] (GetModel m (fun x => match x with Some x => Ret (Some (z * x)%Z) | None => Ret None end)).
(* p*m: EvaluateProductType stops at a factor that is the number 0 (ModelExprEval.cc:254-262) *)
Definition ptimes (p m : string) : def Z :=
  Expr [m] [p] (GetVar p (fun x => match x with
    | Some 0%Z => Ret (Some 0%Z)
    | Some x => GetModel m (fun y => match y with Some y => Ret (Some (x * y)%Z) | None => Ret None end)
    | None => Ret None end)).
Definition plus (a b : string) : def Z :=
  Expr [a; b] [] (GetModel a (fun x => GetModel b (fun y => match x, y with Some x, Some y => Ret (Some (x + y)%Z) | _, _ => Ret None end))).
Notation D := (Define "d" "r"). Notation Rd := (Read "d" "r").

Ltac stale_by v w := apply (stale_intro _ _ v w); [vm_compute; reflexivity|vm_compute; discriminate| |lia].
Ltac mexpr := eapply means_expr; [vm_compute; reflexivity|reflexivity|].
Ltac mmodel := eapply y_model.
Ltac mdata := match goal with |- means _ _ ?R ?e ?n _ => eapply (means_data _ _ R e n) end; [vm_compute; reflexivity|reflexivity].
Ltac mvar := apply y_var; vm_compute.

(* 1. a model is replaced: the models that use it keep the values computed from the replaced definition, *)
Definition ops_redefine : list zop := [D "a" false (konst 2); Rd "n"; D "n" false (times 10 "a"); D "a" false (konst 1)].
Theorem C25_redefine_refuted : stale ops_redefine "d" "r" "n".
Proof.
  stale_by 10%Z 20%Z. mexpr. mmodel; [mexpr; apply y_ret|apply y_ret].
Qed.
(* ... until the new definition is evaluated, or, when the model is replaced by a solution, until it is set: *)
Definition ops_redefine_data : list zop := [Rd "a"; D "a" false Data; Rd "n"; D "n" false (times 10 "a"); D "a" false (konst 1)].
Theorem C25_redefine_data_refuted : stale ops_redefine_data "d" "r" "n".
Proof.
  stale_by 10%Z 0%Z. mexpr. mmodel; [mdata|apply y_ret].
Qed.
(* the same after a model that was referred to is deleted and defined again *)
Definition ops_recreate : list zop := [D "a" false (konst 2); Rd "n"; Delete "d" "r" "a"; D "n" false (times 10 "a"); D "a" false (konst 1)].
Theorem C25_recreate_refuted : stale ops_recreate "d" "r" "n".
Proof.
  stale_by 0%Z 20%Z. mexpr. mmodel; [mexpr; apply y_ret|apply y_ret].
Qed.
(* 2. the references of a replaced definition stay registered; turned round they hide a parameter change *)
Definition ops_reverse : list zop :=
  [SetParam "" "" "q" (Some 4%Z); Rd "B"; D "B" false (times 2 "A"); D "A" false (param "q"); D "A" false (times 1 "B"); D "B" false Data].
Theorem C25_reverse_refuted : stale ops_reverse "d" "r" "B".
Proof.
  stale_by 6%Z 8%Z. mexpr. mmodel; [mexpr; mvar; apply y_ret|apply y_ret].
Qed.
(* 3. a factor that is 0 stops the evaluation of a product: a model that was skipped and is evaluated later marks the
   product old while the model that already used it becomes up to date; the next change of the factor is not seen *)
Definition ops_product : list zop :=
  [SetParam "" "" "p" (Some 1%Z); Rd "n"; D "n" false (plus "x" "y"); D "x" false (ptimes "p" "y"); D "y" false (param "q")].
Theorem C25_product_refuted : stale ops_product "d" "r" "n".
Proof.
  stale_by 3%Z 6%Z. mexpr. mmodel.
  - mexpr. apply y_var. vm_compute. mmodel; [mexpr; mvar; apply y_ret|apply y_ret].
  - mmodel; [mexpr; mvar; apply y_ret|]. cbv beta iota. change (3 * 1 + 3)%Z with 6%Z. apply y_ret.
Qed.
(* 4. set_node_values on a model given by an expression *)
Definition ops_setexpr : list zop := [SetVals "d" "r" "a" 7%Z; D "a" false (konst 1)].
Theorem C25_setexpr_refuted : stale ops_setexpr "d" "r" "a".
Proof. stale_by 7%Z 1%Z. mexpr. apply y_ret. Qed.
(* 5. circuit: the values restored after a failed solve, the other names of a node, a string parameter that hides the callback *)
Definition ops_restore : list zop := [CktRestore [("0", 0%Z); ("n1", 6%Z)]; Rd "a"; D "a" false (param "n1")].
Theorem C25_restore_refuted : stale ops_restore "d" "r" "a".
Proof. stale_by 5%Z 6%Z. mexpr. mvar. apply y_ret. Qed.
Definition ops_alias : list zop := [CktSet "n1" 6%Z; Rd "a"; D "a" false (param "a1")].
Theorem C25_circuit_alias_refuted : stale ops_alias "d" "r" "a".
Proof. stale_by 5%Z 6%Z. mexpr. mvar. apply y_ret. Qed.
Definition ops_string : list zop := [CktUpdate [("0", 0%Z); ("n1", 6%Z)]; Rd "a"; D "a" false (param "n1"); SetParam "d" "" "n1" None].
Theorem C25_string_refuted : stale ops_string "d" "r" "a".
Proof. stale_by 5%Z 6%Z. mexpr. mvar. apply y_ret. Qed.
(* 6. an edge model read in place of a missing element edge model: the substitute is not registered *)
Definition ops_substitute : list zop := [SetVals "d" "r" "f@n0" 4%Z; Rd "a"; D "a" false (times 1 "f@en0"); D "f@n0" true Data].
Theorem C25_substitute_refuted : stale ops_substitute "d" "r" "a".
Proof.
  stale_by 0%Z 4%Z. mexpr. change "f@en0" with ("f" ++ "@en" ++ "0")%string.
  eapply y_alias; [left; reflexivity|discriminate|vm_compute; reflexivity|vm_compute; reflexivity|reflexivity| |].
  - match goal with |- means _ _ ?R ?e ?n _ => eapply (means_data _ _ R e n) end; [vm_compute; reflexivity|reflexivity].
  - apply y_ret.
Qed.

(* Non-vacuity of C25_fresh_partial: definitions, evaluation, parameter and circuit changes, replacement with evaluation. *)
Definition ex_rank (d r n : string) : nat := if String.eqb n "a" then 1 else if String.eqb n "n" then 2 else 0.
Definition ex_var (d r n : string) : Prop := n <> "a" /\ n <> "n".
Definition zgood := good Z 0%Z (option Z) zid ex_rank ex_var.
Definition o1 : zop := D "a" false (param "q").
Definition o2 : zop := D "n" false (times 10 "a").
Definition o3 : zop := Rd "n".
Definition o4 : zop := SetParam "d" "" "q" (Some 4%Z).
Definition d5 : def Z := Expr [] ["q"; "a1"] (GetVar "q" (fun x => GetVar "a1" (fun y => match x, y with Some x, Some y => Ret (Some (x + y)%Z) | _, _ => Ret None end))).
Definition o5 : zop := D "a" false d5.
Definition o6 : zop := Rd "a".
Definition o7 : zop := CktUpdate [("0", 0%Z); ("n1", 6%Z)].
Lemma va : ~ ex_var "d" "r" "a". Proof. intros [H _]. exact (H eq_refl). Qed.
Lemma vn : ~ ex_var "d" "r" "n". Proof. intros [_ H]. exact (H eq_refl). Qed.
Lemma vq : ex_var "d" "r" "q". Proof. split; discriminate. Qed.
Lemma va1 : ex_var "d" "r" "a1". Proof. split; discriminate. Qed.
Example C25_ex : zgood (final [o7; o6; o5; o3; o4; o3; o2; o1]) /\
  map (fun l => read_val (final l) "n") [[o3; o2; o1]; [o4; o3; o2; o1]; [o6; o5; o3; o4; o3; o2; o1]; [o7; o6; o5; o3; o4; o3; o2; o1]]
  = [Some (Val 30%Z); Some (Val 40%Z); Some (Val 90%Z); Some (Val 100%Z)].
Proof.
  split; [|vm_compute; reflexivity].
  assert (G0 : zgood (final [])) by (apply g_start; exact start_ok).
  assert (G1 : zgood (final [o1])).
  { refine (g_op _ _ _ _ _ _ (final []) o1 _ G0 _ _); [|vm_compute; reflexivity].
    apply c_define with (R := reg_of (final [])); [vm_compute; reflexivity| | |].
    - split; [exact va|]. split; [intros m []|]. split; [intros p [<-|[]]; split; [cbv; lia|exact vq]|]. split; [cbn; auto|]. intros [z|]; cbn; auto.
    - intros x (M & F & _). vm_compute in F. discriminate.
    - intros x (M & F & _). vm_compute in F. discriminate. }
  assert (G2 : zgood (final [o2; o1])).
  { refine (g_op _ _ _ _ _ _ (final [o1]) o2 _ G1 _ _); [|vm_compute; reflexivity].
    apply c_define with (R := reg_of (final [o1])); [vm_compute; reflexivity| | |].
    - split; [exact vn|]. split; [|split; [intros p []|split; [cbn; split; [auto|]; intros [z|]; exact I|]]].
      + intros m [<-|[]]. split; [cbv; lia|]. split; [exact va|]. intros p i Hi E. destruct p as [|c p]; [destruct Hi as [->| ->]; discriminate|]. cbn in E. injection E as _ E. destruct p; discriminate.
      + cbn. intros [z|]; [|exact I]. intros m [[<-|[]] H]. exact (H eq_refl).
    - intros x (M & F & _). vm_compute in F. discriminate.
    - intros m (M & F & H).
      assert (E : r_models (reg_of (final [o1])) = [("a", mkM false (param "q") 0%Z false)]) by (vm_compute; reflexivity).
      rewrite E in F. cbn [find] in F. destruct (String.eqb m "a"); [|discriminate]. injection F as <-. cbn in H. destruct H as [H|[]]. discriminate. }
  assert (G3 : zgood (final [o3; o2; o1])) by (refine (g_op _ _ _ _ _ _ (final [o2; o1]) o3 _ G2 _ _); [constructor|vm_compute; reflexivity]).
  assert (G4 : zgood (final [o4; o3; o2; o1])).
  { refine (g_op _ _ _ _ _ _ (final [o3; o2; o1]) o4 _ G3 _ _); [|vm_compute; reflexivity]. apply c_param. left. discriminate. }
  assert (G5 : zgood (final [o3; o4; o3; o2; o1])) by (refine (g_op _ _ _ _ _ _ (final [o4; o3; o2; o1]) o3 _ G4 _ _); [constructor|vm_compute; reflexivity]).
  assert (G6 : zgood (final [o6; o5; o3; o4; o3; o2; o1])).
  { refine (g_expr _ _ _ _ _ _ (final [o3; o4; o3; o2; o1]) "d" "r" "a" false [] ["q"; "a1"] _ (reg_of (final [o3; o4; o3; o2; o1])) (final [o5; o3; o4; o3; o2; o1]) _ 9%Z G5 _ _ _ _ _);
      [vm_compute; reflexivity| | |vm_compute; reflexivity|vm_compute; reflexivity].
    - split; [exact va|]. split; [intros m []|]. split; [intros p [<-|[<-|[]]]; (split; [cbv; lia|]); [exact vq|exact va1]|].
      split; [cbn; split; [auto|]; intros o; split; [auto|]; intros o'; destruct o, o'; exact I|].
      cbn. intros o o'. destruct o, o'; cbn; auto.
    - intros x (M & F & H). vm_compute in F. injection F as <-. cbn in H |- *. tauto. }
  refine (g_op _ _ _ _ _ _ (final [o6; o5; o3; o4; o3; o2; o1]) o7 _ G6 _ _); [|vm_compute; reflexivity].
  apply c_update. repeat constructor.
Qed.
(* Models that refer to each other in a cycle of any length, each using the value of the next one: reading any of them
   is an error, not a value and not an endless loop. *)
Fixpoint chain {V} (R : region V) (first : string) (l : list string) : Prop :=
  match l with
  | [] => True
  | a :: t => (exists M ms vs k, find a (r_models R) = Some M /\ m_up M = false /\
                 m_def M = Expr ms vs (GetModel (match t with [] => first | b :: _ => b end) k) /\ k None = Ret None)
              /\ chain R first t
  end.
Lemma chain_eval : forall V (zero : V) env R first l stk fuel a, length (a :: l) <= fuel ->
  chain R first (a :: l) -> has first (r_models R) = true -> In first (a :: stk) -> NoDup (rev stk ++ a :: l)%list ->
  eval V zero env fuel stk R a = (R, Throw).
Proof.
  intros V zero env R first l. induction l as [|b l IH]; intros stk fuel a L C Hf I N; (destruct fuel as [|fuel]; [cbn in L; lia|]);
    destruct C as [(M & ms & vs & k & F & U & D & K) C]; cbn [eval]; rewrite F, U, D; cbn [run]; unfold resolve.
  - rewrite Hf. assert (Hm : mem first (a :: stk) = true) by (unfold mem; apply existsb_exists; exists first; split; [exact I|apply String.eqb_refl]).
    rewrite Hm, K. reflexivity.
  - assert (Hb : has b (r_models R) = true) by (destruct C as [(M' & ms' & vs' & k' & F' & _) _]; unfold has; rewrite F'; reflexivity).
    rewrite Hb.
    assert (Nb : ~ In b (a :: stk)).
    { intros Hi. replace (rev stk ++ a :: b :: l)%list with ((rev stk ++ [a]) ++ b :: l)%list in N by (rewrite <- app_assoc; reflexivity).
      apply NoDup_remove_2 in N. apply N. apply in_or_app. left. apply in_or_app. destruct Hi as [<-|Hi]; [right; left; reflexivity|left; apply in_rev in Hi; exact Hi]. }
    assert (Hm : mem b (a :: stk) = false).
    { unfold mem. destruct (existsb (String.eqb b) (a :: stk)) eqn:E; [|reflexivity]. apply existsb_exists in E. destruct E as (x & Hx & Ex). apply String.eqb_eq in Ex. subst x. contradiction. }
    rewrite Hm. rewrite (IH (a :: stk) fuel b); auto.
    + cbn in L |- *. lia.
    + right. exact I.
    + cbn [rev]. rewrite <- app_assoc. exact N.
Qed.
Theorem C25_cycle : forall V (zero : V) env R n l, NoDup (n :: l) -> chain R n (n :: l) ->
  read_model V zero env R n = (R, Throw).
Proof.
  intros V zero env R n l N C. unfold read_model. apply (chain_eval V zero env R n l); auto.
  - apply Nat.le_trans with (length (keys (r_models R))); [|unfold keys; rewrite map_length; lia]. apply NoDup_incl_length; [exact N|]. clear N.
    intros x Hx. apply has_keys. revert x Hx. generalize (n :: l) C. intros l' C'. revert C'. generalize n at 1. intros f. induction l' as [|a l' IH]; intros C' x Hx; [destruct Hx|].
    destruct C' as [(M & ms & vs & k & F & _) C']. destruct Hx as [<-|Hx]; [unfold has; rewrite F; reflexivity|apply IH; assumption].
  - destruct C as [(M & ms & vs & k & F & _) _]. unfold has. rewrite F. reflexivity.
  - left. reflexivity.
Qed.
Example C25_cycle_ex : chain (mkR [("a", mkM false (times 2 "b") 0%Z false); ("b", mkM false (times 3 "a") 0%Z false)] []) "a" ["a"; "b"].
Proof. split; [|split; [|exact I]]; eexists _, _, _, _; repeat split; reflexivity. Qed.
Print Assumptions C25_fresh_partial.
Print Assumptions C25_terminates.
Print Assumptions C25_cycle.
