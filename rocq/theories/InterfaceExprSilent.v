(* Evaluation of the expressions of interface models without messages: proofs *)
From Coq Require Import Ascii String List Bool Arith Lia.
From Verif Require Import ModelData ModelDataProperties ModelExpr ModelExprProofs InterfaceExpr InterfaceExprSpec InterfaceExprNames InterfaceExprProofs.
Import ListNotations.
Open Scope list_scope.

Section P.
Variable V : Type.
Variables (zero one : V) (add mul : V -> V -> V) (is0 : V -> bool) (lt same : V -> V -> bool).
Variables (bad_add bad_mul : V -> V -> bool).
Variable fn : string -> nat -> option (list V -> V * bool).
Variable key : expr V -> string.
Variable par : bool -> string -> option V.
Variable circuit : string -> option V.
Variable imodel : string -> option (expr V).
Variable nmodel : bool -> string -> option (list V).
Variable nodes : bool -> list nat.
Variable var : string -> option V.
Variable rho : string -> option (list V).
Local Notation n := (n nodes).
Local Notation val := (val V).
Local Notation elem := (elem V zero).
Local Notation lift2 := (lift2 V zero n).
Local Notation apply := (apply V zero add lt fn n).
Local Notation sem := (sem V zero one add mul is0 lt bad_add bad_mul fn n var rho).
Local Notation product := (product V zero mul is0 bad_mul n).
Local Notation total := (total V zero add bad_add n).
Local Notation model_is := (model_is V zero one add mul is0 lt bad_add bad_mul fn n var rho imodel nmodel nodes).
Local Notation st := (st V).
Local Notation data := (data V).
Local Notation op_equal := (op_equal V).
Local Notation ext_math := (ext_math V zero add lt fn).
Local Notation eval := (eval V zero one add mul is0 lt same bad_add bad_mul fn key par circuit imodel nmodel nodes).
Local Notation den := (den V nodes).
Local Notation ok_st := (ok_st V zero one add mul is0 lt bad_add bad_mul fn key nodes var rho).
Local Notation reach := (reach V zero one add mul is0 lt bad_add bad_mul fn key nodes var rho).
Local Notation own := (own V).
Local Notation post := (post V zero one add mul is0 lt bad_add bad_mul fn key nodes var rho).

(* no "if"; names that satisfy okv *)
Variable okv : string -> bool.
Fixpoint plainly (e : expr V) : bool :=
  match e with
  | Const _ | Model _ => true
  | Var s => okv s
  | Prod l | Sum l | Fun _ l => forallb plainly l
  | If _ _ => false
  | IfElse t a b => plainly t && plainly a && plainly b
  end.

(* messages are not taken back *)
Definition mono (s s' : st) : Prop := (err s = true -> err s' = true) /\ (said s = true -> said s' = true).
Lemma mono_refl : forall s, mono s s. Proof. intros s. split; auto. Qed.
Lemma mono_trans : forall a b c, mono a b -> mono b c -> mono a c. Proof. intros a b c [A1 A2] [B1 B2]. split; auto. Qed.
Lemma mono_same : forall s s', err s' = err s -> said s' = said s -> mono s s'. Proof. intros s s' E1 E2. split; congruence. Qed.
Lemma mono_err : forall s, mono s (set_err V s true). Proof. intros s. split; [reflexivity|auto]. Qed.
Lemma mono_clean : forall s s', mono s s' -> err s' = false -> said s' = false -> err s = false /\ said s = false.
Proof. intros s s' [A B] E S. split; [destruct (err s); [rewrite A in E by reflexivity; discriminate|reflexivity]|destruct (said s); [rewrite B in S by reflexivity; discriminate|reflexivity]]. Qed.
Lemma op_cell_mono : forall op bad s p d, mono s (fst (op_cell V op bad s p d)).
Proof. intros op bad s p d. unfold op_cell. destruct (op_data V op (get V s p) d); apply mono_same; reflexivity. Qed.
Lemma op_equal_mono : forall op bad s a b, mono s (fst (op_equal op bad s a b)).
Proof.
  intros op bad s [|x|p] [|y|q]; cbn [InterfaceExpr.op_equal]; try (apply mono_same; reflexivity); try apply op_cell_mono.
  destruct (alloc V s (Uni x (clen V (get V s q)))) as [s1 p1] eqn:EA. apply mono_trans with s1; [inversion EA; apply mono_same; reflexivity|apply op_cell_mono].
Qed.
Lemma eval_var_mono : forall s m, mono s (fst (eval_var V same par circuit s m)).
Proof.
  intros s m. unfold eval_var. destruct (region_and_name m) as [[r x]|].
  - destruct (par r x); [apply mono_refl|]. destruct (circuit m); apply mono_refl.
  - destruct (par false m), (par true m); try (destruct (same v v0)); try (destruct (circuit m)); try apply mono_refl; apply mono_err.
Qed.
Ltac same := apply mono_same; reflexivity.
Lemma ext_math_mono : forall s f argv, mono s (fst (ext_math s f argv)).
Proof.
  intros s f argv. unfold InterfaceExpr.ext_math. destruct argv as [|d argv]; [same|].
  destruct (get_args V s (d :: argv)) as [args|]; [|apply mono_err]. destruct (fn f (length args)) as [g|]; [|apply mono_err]. cbn zeta.
  destruct (all_num V args); [same|]. destruct (forallb (uniform_arg V) args).
  - destruct (err (raise V s _)); [same|]. unfold alloc. cbn [fst]. same.
  - destruct (String.eqb f "vec_sum"); [same|]. destruct (String.eqb f "vec_max"); [destruct (extreme V lt _); same|].
    destruct (String.eqb f "vec_min"); [destruct (extreme V (fun a b => lt b a) _); same|].
    destruct (err (raise V s _)); [same|]. unfold alloc. cbn [fst]. same.
Qed.
Lemma finish_mono : forall s e r, mono s (fst (finish V key s e r)).
Proof.
  intros s e r. unfold finish. destruct r as [d| | |]; try apply mono_refl. destruct (fpe s); [split; auto|]. destruct d; same.
Qed.
Section L.
Variable ev : st -> expr V -> st * res data.
Hypothesis Hev : forall s e, mono s (fst (ev s e)).
Lemma prod_mono : forall l s out, mono s (fst (prod_loop V zero mul is0 bad_mul ev s out l)).
Proof.
  induction l as [|e l IH]; intros s out; [apply mono_refl|]. cbn [prod_loop]. assert (M := Hev s e). destruct (ev s e) as [s1 [x| | |]]; cbn [fst] in M; try exact M.
  destruct (match x with Dbl v => is0 v | _ => false end); [exact M|].
  assert (M2 := op_equal_mono mul bad_mul s1 out x). destruct (op_equal mul bad_mul s1 out x) as [s2 [o| | |]]; cbn [fst] in *; apply mono_trans with s1; try exact M; try exact M2.
  apply mono_trans with s2; [exact M2|apply IH].
Qed.
Lemma sum_mono : forall l s out, mono s (fst (sum_loop V add bad_add ev s out l)).
Proof.
  induction l as [|e l IH]; intros s out; [apply mono_refl|]. cbn [sum_loop]. assert (M := Hev s e). destruct (ev s e) as [s1 [x| | |]]; cbn [fst] in M; try exact M.
  assert (M2 := op_equal_mono add bad_add s1 out x). destruct (op_equal add bad_add s1 out x) as [s2 [o| | |]]; cbn [fst] in *; apply mono_trans with s1; try exact M; try exact M2.
  apply mono_trans with s2; [exact M2|apply IH].
Qed.
Lemma args_mono : forall l s acc, mono s (fst (args_loop V ev s acc l)).
Proof.
  induction l as [|e l IH]; intros s acc; [apply mono_refl|]. cbn [args_loop]. assert (M := Hev s e). destruct (ev s e) as [s1 [x| | |]]; cbn [fst] in M; try exact M.
  apply mono_trans with s1; [exact M|apply IH].
Qed.
End L.
Lemma eval_mono : forall fuel stk s e, mono s (fst (eval fuel stk s e)).
Proof.
  induction fuel as [|fuel IH]; intros stk s e; [apply mono_refl|]. cbn [InterfaceExpr.eval].
  apply mono_trans with (set_fpe V s false); [same|]. set (s0 := set_fpe V s false).
  destruct (lookup V (key e) (cache s0)); [apply mono_refl|].
  match goal with |- mono s0 (fst (let '(s, r) := ?X in _)) => assert (M : mono s0 (fst X)); [|destruct X as [s1 r1]; cbn [fst] in M; apply mono_trans with s1; [exact M|apply finish_mono]] end.
  destruct e as [v|x|m|l|l|t a|t a b|f l].
  - apply mono_refl.
  - apply eval_var_mono.
  - destruct (imodel m) as [e'|].
    + destruct (existsb (String.eqb m) stk); [apply mono_err|].
      assert (M := IH (m :: stk) (set_err V s0 false) e'). destruct (eval fuel (m :: stk) (set_err V s0 false) e') as [s1 r1]. cbn [fst] in M. destruct M as [M1 M2].
      assert (M3 : mono s0 (set_err V (set_said V s1 (said s1 || err s1)) (err s0))).
      { split; [auto|]. intros H. cbn [set_err set_said said]. rewrite M2 by exact H. reflexivity. }
      destruct r1 as [d| | |]; try exact M3. destruct (model_cell V nodes _ d); try exact M3.
    + destruct (region_and_name m) as [[r x]|]; [|apply mono_err]. destruct (nmodel r x); [|apply mono_err]. unfold alloc. cbn [fst]. same.
  - apply prod_mono. intros; apply IH.
  - apply sum_mono. intros; apply IH.
  - assert (M := IH stk s0 t). destruct (eval fuel stk s0 t) as [s1 r1]; cbn [fst] in M. destruct r1 as [d| | |]; try exact M.
    assert (M2 := IH stk s1 a). destruct d as [|w|p]; cbn [fst] in M2.
    + destruct (eval fuel stk s1 a) as [s2 r2]; cbn [fst] in M2. destruct r2 as [y| | |];
      first [exact (mono_trans _ _ _ M M2)|apply mono_trans with s2; [exact (mono_trans _ _ _ M M2)|apply op_equal_mono]].
    + destruct (is0 w); [exact M|exact (mono_trans _ _ _ M M2)].
    + destruct (eval fuel stk s1 a) as [s2 r2]; cbn [fst] in M2. destruct r2 as [y| | |];
      first [exact (mono_trans _ _ _ M M2)|apply mono_trans with s2; [exact (mono_trans _ _ _ M M2)|apply op_equal_mono]].
  - assert (M := IH stk s0 t). destruct (eval fuel stk s0 t) as [s1 r1]; cbn [fst] in M. destruct r1 as [d| | |]; try exact M.
    assert (G : forall x, mono s0 (fst (match args_loop V (eval fuel stk) s1 [x] [a; b] with
                           | (s, Ok l) => ext_math s "ifelse" l
                           | (s, Throw) => (s, Throw) | (s, UB) => (s, UB) | (s, NoFuel) => (s, NoFuel)
                           end))).
    { intros x. assert (M2 := args_mono (eval fuel stk) (IH stk) [a; b] s1 [x]). destruct (args_loop V (eval fuel stk) s1 [x] [a; b]) as [s2 r2]; cbn [fst] in M2.
      destruct r2 as [y| | |]; try exact (mono_trans _ _ _ M M2). apply mono_trans with s2; [exact (mono_trans _ _ _ M M2)|apply ext_math_mono]. }
    destruct d as [|w|p]; try apply G. destruct (is0 w); (apply mono_trans with s1; [exact M|apply IH]).
  - assert (M2 := args_mono (eval fuel stk) (IH stk) l s0 []). destruct (args_loop V (eval fuel stk) s0 [] l) as [s2 r2]; cbn [fst] in M2.
    destruct r2 as [y| | |]; try exact M2. apply mono_trans with s2; [exact M2|apply ext_math_mono].
Qed.

Hypothesis Hnodes : length (nodes true) = length (nodes false).
Hypothesis Hvar : forall s v, var_is V same par circuit s v -> var s = Some v.
Hypothesis Hvar' : forall s v, var s = Some v -> var_is V same par circuit s v.
(* every parameter named with its region exists *)
Hypothesis Hpar : forall i x s, okv s = true -> of_region i x s -> var s <> None.
Hypothesis Hrho : forall m l, model_is m l -> rho m = Some l.
Hypothesis Hif : forall m e, imodel m = Some e -> plainly e = true.
Hypothesis Hkey : forall e e', key e = key e' -> e = e'.
Hypothesis Hadd : forall x y, bad_add x y = false.
Hypothesis Hmul : forall x y, bad_mul x y = false.
Hypothesis Hfn : forall f k g l, fn f k = Some g -> snd (g l) = false.

Lemma existsb_never : forall {A} (p : A -> bool) l, (forall x, p x = false) -> existsb p l = false.
Proof. intros A p l H. induction l as [|x l IH]; [reflexivity|]. cbn. rewrite H. exact IH. Qed.
Lemma lift2_total : forall op bad a b, (forall x y, bad x y = false) -> exists v, lift2 op bad a b = Some v.
Proof.
  intros op bad a b H. unfold InterfaceExprSpec.lift2. destruct a, b; rewrite ?H; rewrite ?existsb_never by (intros; apply H); eexists; reflexivity.
Qed.
Definition told (stk : list string) (fuel : nat) : Prop := forall s e s' d, ok_st s -> plainly e = true ->
  eval fuel stk s e = (s', Ok d) -> err s' = false -> said s' = false -> exists v, sem e = Some v /\ post s s' d v.
Lemma prod_told : forall stk fuel, told stk fuel -> forall l s0 s out va s' d, forallb plainly l = true ->
  reach s0 s -> fpe s = false -> den s out va -> own s0 s out ->
  prod_loop V zero mul is0 bad_mul (eval fuel stk) s out l = (s', Ok d) -> err s' = false -> said s' = false ->
  exists v, product va (map sem l) = Some v /\ reach s0 s' /\ fpe s' = false /\ den s' d v /\ own s0 s' d.
Proof.
  intros stk fuel T. induction l as [|e l IH]; intros s0 s out va s' d NI R F D O E Er Sd; cbn [prod_loop] in E.
  - inversion E; subst s' d. exists va. cbn. auto.
  - cbn [forallb] in NI. apply andb_prop in NI. destruct NI as [N1 N2].
    destruct (eval fuel stk s e) as [s1 [x| | |]] eqn:Ee; try discriminate.
    assert (Cl : err s1 = false /\ said s1 = false).
    { destruct (match x with Dbl v => is0 v | _ => false end); [inversion E; subst; auto|].
      assert (M2 := op_equal_mono mul bad_mul s1 out x). destruct (op_equal mul bad_mul s1 out x) as [s2 [o| | |]]; try discriminate.
      assert (M3 := prod_mono (eval fuel stk) (eval_mono fuel stk) l s2 o). rewrite E in M3. cbn [fst] in *. exact (mono_clean _ _ (mono_trans _ _ _ M2 M3) Er Sd). }
    destruct (T s e s1 x (proj2 (proj2 R)) N1 Ee (proj1 Cl) (proj2 Cl)) as (w & Sw & (R1 & F1 & D1 & Sn1)).
    assert (R01 := reach_trans _ _ _ _ _ _ _ _ _ _ _ _ _ _ Hnodes _ _ _ R R1). assert (Da := den_reach _ _ _ _ _ _ _ _ _ _ _ _ _ _ _ _ _ _ D R1).
    assert (O1 := own_reach _ _ _ _ _ _ _ _ _ _ _ _ _ _ Hnodes _ _ _ _ O R1).
    cbn [map InterfaceExprSpec.product]. rewrite Sw.
    assert (Z : match x with Dbl w => is0 w | _ => false end = match w with Sc w => is0 w | _ => false end).
    { destruct x as [|u|p], w as [u'|l0]; try (cbn in D1; contradiction); [cbn in D1; subst; reflexivity|reflexivity]. }
    rewrite Z in E. destruct (match w with Sc w => is0 w | _ => false end).
    + inversion E; subst s' d. exists (Sc zero). split; [reflexivity|]. split; [exact R01|]. split; [exact F1|]. split; [reflexivity|apply own_dbl].
    + destruct (lift2_total mul bad_mul va w Hmul) as (y & L2).
      destruct (op_equal_ok V zero one add mul is0 lt bad_add bad_mul fn key nodes var rho Hnodes s0 s1 mul bad_mul out x va w y R01 F1 Da D1 O1 L2) as (s2 & d2 & E2 & R2 & F2 & O2 & D2).
      rewrite E2 in E. rewrite L2. exact (IH s0 s2 d2 y s' d N2 R2 F2 D2 O2 E Er Sd).
Qed.
Lemma sum_told : forall stk fuel, told stk fuel -> forall l s0 s out va s' d, forallb plainly l = true ->
  reach s0 s -> fpe s = false -> den s out va -> own s0 s out ->
  sum_loop V add bad_add (eval fuel stk) s out l = (s', Ok d) -> err s' = false -> said s' = false ->
  exists v, total va (map sem l) = Some v /\ reach s0 s' /\ fpe s' = false /\ den s' d v /\ own s0 s' d.
Proof.
  intros stk fuel T. induction l as [|e l IH]; intros s0 s out va s' d NI R F D O E Er Sd; cbn [sum_loop] in E.
  - inversion E; subst s' d. exists va. cbn. auto.
  - cbn [forallb] in NI. apply andb_prop in NI. destruct NI as [N1 N2].
    destruct (eval fuel stk s e) as [s1 [x| | |]] eqn:Ee; try discriminate.
    assert (Cl : err s1 = false /\ said s1 = false).
    { assert (M2 := op_equal_mono add bad_add s1 out x). destruct (op_equal add bad_add s1 out x) as [s2 [o| | |]]; try discriminate.
      assert (M3 := sum_mono (eval fuel stk) (eval_mono fuel stk) l s2 o). rewrite E in M3. cbn [fst] in *. exact (mono_clean _ _ (mono_trans _ _ _ M2 M3) Er Sd). }
    destruct (T s e s1 x (proj2 (proj2 R)) N1 Ee (proj1 Cl) (proj2 Cl)) as (w & Sw & (R1 & F1 & D1 & Sn1)).
    assert (R01 := reach_trans _ _ _ _ _ _ _ _ _ _ _ _ _ _ Hnodes _ _ _ R R1). assert (Da := den_reach _ _ _ _ _ _ _ _ _ _ _ _ _ _ _ _ _ _ D R1).
    assert (O1 := own_reach _ _ _ _ _ _ _ _ _ _ _ _ _ _ Hnodes _ _ _ _ O R1).
    cbn [map InterfaceExprSpec.total]. rewrite Sw.
    destruct (lift2_total add bad_add va w Hadd) as (y & L2).
    destruct (op_equal_ok V zero one add mul is0 lt bad_add bad_mul fn key nodes var rho Hnodes s0 s1 add bad_add out x va w y R01 F1 Da D1 O1 L2) as (s2 & d2 & E2 & R2 & F2 & O2 & D2).
    rewrite E2 in E. rewrite L2. exact (IH s0 s2 d2 y s' d N2 R2 F2 D2 O2 E Er Sd).
Qed.
Lemma args_told : forall stk fuel, told stk fuel -> forall l s0 s acc va s' ds, forallb plainly l = true ->
  reach s0 s -> fpe s = false -> Forall2 (den s) acc va ->
  args_loop V (eval fuel stk) s acc l = (s', Ok ds) -> err s' = false -> said s' = false ->
  exists vs, all (map sem l) = Some vs /\ reach s0 s' /\ fpe s' = false /\ Forall2 (den s') ds (rev va ++ vs).
Proof.
  intros stk fuel T. induction l as [|e l IH]; intros s0 s acc va s' ds NI R F D E Er Sd; cbn [args_loop] in E.
  - inversion E; subst s' ds. exists []. rewrite List.app_nil_r. split; [reflexivity|]. split; [exact R|]. split; [exact F|].
    clear - D. induction D as [|d v acc va H _ IH]; [constructor|]. cbn [rev]. apply Forall2_app; [exact IH|]. constructor; [exact H|constructor].
  - cbn [forallb] in NI. apply andb_prop in NI. destruct NI as [N1 N2].
    destruct (eval fuel stk s e) as [s1 [x| | |]] eqn:Ee; try discriminate.
    assert (Cl : err s1 = false /\ said s1 = false).
    { assert (M3 := args_mono (eval fuel stk) (eval_mono fuel stk) l s1 (x :: acc)). rewrite E in M3. exact (mono_clean _ _ M3 Er Sd). }
    destruct (T s e s1 x (proj2 (proj2 R)) N1 Ee (proj1 Cl) (proj2 Cl)) as (w & Sw & (R1 & F1 & D1 & Sn1)).
    assert (R01 := reach_trans _ _ _ _ _ _ _ _ _ _ _ _ _ _ Hnodes _ _ _ R R1).
    destruct (IH s0 s1 (x :: acc) (w :: va) s' ds N2 R01 F1) as (vs & Ev & R2 & F2 & D2); [|exact E|exact Er|exact Sd|].
    { constructor; [exact D1|]. clear - D R1. induction D as [|d v acc va H _ IH]; constructor; [exact (den_reach _ _ _ _ _ _ _ _ _ _ _ _ _ _ _ _ _ _ H R1)|exact IH]. }
    exists (w :: vs). cbn [map all]. rewrite Sw, Ev. split; [reflexivity|]. split; [exact R2|]. split; [exact F2|].
    cbn [rev] in D2. rewrite <- app_assoc in D2. exact D2.
Qed.
Lemma ext_told : forall s0 s f argv vs s' d, reach s0 s -> fpe s = false -> Forall2 (den s) argv vs ->
  ext_math s f argv = (s', Ok d) -> err s' = false ->
  exists v, apply f vs = Some v /\ reach s0 s' /\ fpe s' = false /\ own s0 s' d /\ den s' d v.
Proof.
  intros s0 s f argv vs s' d R F D E Er.
  assert (G : exists v, apply f vs = Some v).
  { destruct (get_args_ok V nodes s argv vs D) as (args & Ga & A). unfold InterfaceExpr.ext_math in E. unfold InterfaceExprSpec.apply.
    destruct D as [|d0 v0 argv vs D0 D]; [discriminate|]. rewrite Ga in E.
    assert (Ln : length args = length (v0 :: vs)) by exact (F2_len A). rewrite Ln in E.
    destruct (fn f (length (v0 :: vs))) as [g|] eqn:Fn; [|inversion E; subst; cbn in Er; discriminate].
    assert (Ng : forall l, snd (g l) = false) by (intros l; exact (Hfn f _ g l Fn)).
    rewrite (all_num_ok V nodes _ _ A) in E. destruct (forallb (is_number V) (v0 :: vs)) eqn:Num; [rewrite Ng; eexists; reflexivity|].
    rewrite existsb_map, existsb_never by (intros; apply Ng). rewrite map_map. cbv zeta. unfold reduce.
    rewrite (uniform_ok V nodes _ _ A), Num, (vlen_ok V nodes _ _ A Num) in E. cbv zeta in E.
    assert (E2 : map (fun i => fst (g (map (at_elem V zero i) args))) (seq 0 n) = map (fun i => fst (g (map (elem i) (v0 :: vs)))) (seq 0 n)).
    { apply map_ext. intros i. rewrite (at_elem_ok V zero nodes _ _ i A). reflexivity. }
    rewrite E2 in E. set (l := map (fun i => fst (g (map (elem i) (v0 :: vs)))) (seq 0 n)) in *. clearbody l.
    destruct (String.eqb f "vec_sum"); [eexists; reflexivity|].
    destruct (String.eqb f "vec_max"); [destruct l; [discriminate|eexists; reflexivity]|].
    destruct (String.eqb f "vec_min"); [destruct l; [discriminate|eexists; reflexivity]|]. eexists; reflexivity. }
  destruct G as (v & G). destruct (ext_math_ok V zero one add mul is0 lt bad_add bad_mul fn key nodes var rho Hnodes s0 s f argv vs v R F D G) as (s2 & d2 & E2 & P).
  rewrite E2 in E. inversion E; subst s2 d2. exists v. split; [exact G|exact P].
Qed.
Lemma eval_var_told : forall s m d, okv m = true -> eval_var V same par circuit s m = (s, Ok d) -> err s = false -> fst (eval_var V same par circuit s m) = s ->
  exists v, d = Dbl v /\ var m = Some v.
Proof.
  intros s m d Okv E Er _. destruct (region_and_name m) as [[r x]|] eqn:Rn.
  - assert (Rn' := Rn). apply region_name_iff in Rn'. destruct (var m) as [v|] eqn:Ev; [|destruct (Hpar _ _ _ Okv Rn' Ev)].
    rewrite (eval_var_ok V same par circuit var Hvar' s m v Ev) in E. inversion E. exists v. auto.
  - assert (Rn' := Rn). apply region_name_none in Rn'. unfold eval_var in E. rewrite Rn in E.
    assert (Ne : forall d', (set_err V s true, Ok d') <> (s, Ok d)) by (intros d' Q; inversion Q as [[Q1 Q2]]; rewrite <- Q1 in Er; discriminate).
    destruct (par false m) as [v|] eqn:P0, (par true m) as [w|] eqn:P1.
    + destruct (same v w) eqn:Sm; [|destruct (Ne _ E)]. inversion E; subst d. exists v. split; [reflexivity|]. apply Hvar. exact (VBoth _ _ _ _ _ v w Rn' P0 P1 Sm).
    + destruct (circuit m) as [v'|] eqn:C; [|destruct (Ne _ E)]. inversion E; subst d. exists v'. split; [reflexivity|]. apply Hvar. exact (VNode _ _ _ _ _ true v' Rn' P1 C).
    + destruct (circuit m) as [v'|] eqn:C; [|destruct (Ne _ E)]. inversion E; subst d. exists v'. split; [reflexivity|]. apply Hvar. exact (VNode _ _ _ _ _ false v' Rn' P0 C).
    + destruct (circuit m) as [v'|] eqn:C; [|destruct (Ne _ E)]. inversion E; subst d. exists v'. split; [reflexivity|]. apply Hvar. exact (VNode _ _ _ _ _ false v' Rn' P0 C).
Qed.
Lemma eval_var_state : forall s m, err (fst (eval_var V same par circuit s m)) = false -> fst (eval_var V same par circuit s m) = s.
Proof.
  intros s m. unfold eval_var. destruct (region_and_name m) as [[r x]|].
  - destruct (par r x); [reflexivity|]. destruct (circuit m); reflexivity.
  - destruct (par false m) as [v|], (par true m) as [w|]; try (destruct (same v w)); try (destruct (circuit m)); cbn; intros H; try reflexivity; discriminate.
Qed.
Theorem eval_told : forall fuel stk, told stk fuel.
Proof.
  induction fuel as [|fuel IH]; intros stk s e s' d O NI E Er Sd; [discriminate|].
  cbn [InterfaceExpr.eval] in E. assert (O' : ok_st (set_fpe V s false)) by exact O. assert (R0 := reach_refl _ _ _ _ _ _ _ _ _ _ _ _ _ _ _ O').
  set (s0 := set_fpe V s false) in *. assert (F0 : fpe s0 = false) by reflexivity. assert (E0 : err s0 = false) by (destruct O' as (_ & X & _); exact X).
  assert (Sd0 : said s0 = false) by (destruct O' as (_ & _ & X); exact X).
  destruct (lookup V (key e) (cache s0)) as [d0|] eqn:Lk.
  { inversion E; subst s' d0. assert (X := lookup_in _ _ _ _ Lk). destruct O as (C & Er0). destruct (C (key e) d X) as (e' & v' & K & E' & D). apply Hkey in K. subst e'.
    exists v'. split; [exact E'|]. split; [exact R0|]. split; [exact F0|]. split; [exact D|]. intros p ->. left. exists (key e). exact X. }
  match type of E with (let '(s, r) := ?X in _) = _ => destruct X as [s1 r1] eqn:EX end.
  assert (M := finish_mono s1 e r1). rewrite E in M. cbn [fst] in M. destruct (mono_clean _ _ M Er Sd) as [Er1 Sd1].
  destruct r1 as [d1| | |]; try discriminate.
  assert (Main : exists v, sem e = Some v /\ post s0 s1 d1 v).
  { clear E M Er Sd. destruct e as [w|x|m|l|l|t a|t a b|f l]; cbn [plainly] in NI.
    - inversion EX; subst s1 d1. exists (Sc w). split; [reflexivity|]. split; [exact R0|]. split; [exact F0|]. split; [reflexivity|intros p H; discriminate].
    - assert (Q := eval_var_state s0 x). rewrite EX in Q. cbn [fst] in Q. specialize (Q Er1). subst s1.
      destruct (eval_var_told s0 x d1 NI EX E0) as (v & -> & Ev); [rewrite EX; reflexivity|]. exists (Sc v). cbn. rewrite Ev. split; [reflexivity|].
      split; [exact R0|]. split; [exact F0|]. split; [reflexivity|intros p H; discriminate].
    - destruct (imodel m) as [e'|] eqn:Im.
      + destruct (existsb (String.eqb m) stk); [inversion EX; subst; cbn in Er1; discriminate|].
        assert (O1 : ok_st (set_err V s0 false)) by (destruct O' as (C & _ & X); split; [exact C|split; [reflexivity|exact X]]).
        destruct (eval fuel (m :: stk) (set_err V s0 false) e') as [s2 r2] eqn:Ee.
        set (s3 := set_err V (set_said V s2 (said s2 || err s2)) (err s0)) in *.
        destruct r2 as [d2| | |]; try discriminate. destruct (model_cell V nodes s3 d2) as [c| | |] eqn:MC; try discriminate.
        assert (Cl : said s2 = false /\ err s2 = false).
        { assert (Q : said s1 = said s3) by (inversion EX; reflexivity). rewrite Sd1 in Q. cbn in Q. symmetry in Q. apply orb_false_elim in Q. exact Q. }
        destruct (IH (m :: stk) (set_err V s0 false) e' s2 d2 O1 (Hif m e' Im) Ee (proj2 Cl) (proj1 Cl)) as (v & Sv & (R1 & F1 & D1 & Sn1)).
        assert (MC' := model_cell_ok V zero nodes s3 d2 v D1). rewrite MC in MC'. inversion MC'; subst c.
        assert (Rm : rho m = Some (per_node V zero n v)) by (apply Hrho; unfold InterfaceExprSpec.model_is; rewrite Im; exists v; auto).
        destruct R1 as (H1 & L1 & (C1 & X1 & X2)).
        assert (R3 : reach s0 s3) by (split; [exact H1|split; [exact L1|split; [exact C1|split; [exact E0|unfold s3; cbn; rewrite (proj1 Cl), (proj2 Cl); reflexivity]]]]).
        destruct (fresh V zero one add mul is0 lt bad_add bad_mul fn key nodes var rho Hnodes s0 s3 (per_node V zero n v) R3 (per_node_len V zero nodes v)) as (s4 & p4 & EA & R4 & F4 & O4 & D4).
        rewrite EA in EX. inversion EX; subst s1 d1. exists (Fl (per_node V zero n v)). cbn. rewrite Rm. split; [reflexivity|].
        split; [exact R4|]. split; [rewrite F4; exact F1|]. split; [exact D4|exact (seen_own _ _ Hnodes _ _ _ O4)].
      + destruct (region_and_name m) as [[i x]|] eqn:Rn; [|inversion EX; subst; cbn in Er1; discriminate].
        destruct (nmodel i x) as [vals|] eqn:Nm; [|inversion EX; subst; cbn in Er1; discriminate]. apply region_name_iff in Rn.
        assert (Rm : rho m = Some (map (fun k => nth k vals zero) (nodes i))) by (apply Hrho; unfold InterfaceExprSpec.model_is; rewrite Im; exists i, x, vals; auto).
        assert (Ll : length (map (fun k => nth k vals zero) (nodes i)) = n) by (rewrite map_length; destruct i; [exact Hnodes|reflexivity]).
        destruct (fresh V zero one add mul is0 lt bad_add bad_mul fn key nodes var rho Hnodes s0 s0 _ R0 Ll) as (s4 & p4 & EA & R4 & F4 & O4 & D4).
        rewrite EA in EX. inversion EX; subst s1 d1. eexists. cbn [InterfaceExprSpec.sem]. rewrite Rm. split; [reflexivity|].
        split; [exact R4|]. split; [rewrite F4; exact F0|]. split; [exact D4|exact (seen_own _ _ Hnodes _ _ _ O4)].
    - destruct (prod_told stk fuel (IH stk) l s0 s0 (Dbl one) (Sc one) s1 d1 NI R0 F0 eq_refl (own_dbl _ _ _ _) EX Er1 Sd1) as (v & Ev & R1 & F1 & D1 & O1).
      exists v. split; [exact Ev|]. split; [exact R1|]. split; [exact F1|]. split; [exact D1|exact (seen_own _ _ Hnodes _ _ _ O1)].
    - destruct (sum_told stk fuel (IH stk) l s0 s0 (Dbl zero) (Sc zero) s1 d1 NI R0 F0 eq_refl (own_dbl _ _ _ _) EX Er1 Sd1) as (v & Ev & R1 & F1 & D1 & O1).
      exists v. split; [exact Ev|]. split; [exact R1|]. split; [exact F1|]. split; [exact D1|exact (seen_own _ _ Hnodes _ _ _ O1)].
    - discriminate.
    - apply andb_prop in NI. destruct NI as [NI N3]. apply andb_prop in NI. destruct NI as [N1 N2].
      destruct (eval fuel stk s0 t) as [s2 r2] eqn:Et. destruct r2 as [d2| | |]; try discriminate.
      destruct d2 as [|w|p].
      + exfalso. assert (Q : exists vt, sem t = Some vt /\ post s0 s2 Inv vt).
        { assert (Cl : err s2 = false /\ said s2 = false).
          { destruct (args_loop V (eval fuel stk) s2 [Inv] [a; b]) as [s3 r3] eqn:Ea. destruct r3 as [ds| | |]; try discriminate.
            assert (M1 := args_mono (eval fuel stk) (eval_mono fuel stk) [a; b] s2 [Inv]). rewrite Ea in M1.
            assert (M2 := ext_math_mono s3 "ifelse" ds). rewrite EX in M2. cbn [fst] in *. exact (mono_clean _ _ (mono_trans _ _ _ M1 M2) Er1 Sd1). }
          exact (IH stk s0 t s2 Inv O' N1 Et (proj1 Cl) (proj2 Cl)). }
        destruct Q as (vt & _ & (_ & _ & D & _)). exact (den_inv V nodes _ _ D).
      + assert (G : exists x, (if is0 w then x = b else x = a) /\ eval fuel stk s2 x = (s1, Ok d1) /\ plainly x = true).
        { destruct (is0 w); [exists b|exists a]; auto. }
        destruct G as (x & Hx & Ex & Nx).
        assert (M1 := eval_mono fuel stk s2 x). rewrite Ex in M1. cbn [fst] in M1. destruct (mono_clean _ _ M1 Er1 Sd1) as [Er2 Sd2].
        destruct (IH stk s0 t s2 (Dbl w) O' N1 Et Er2 Sd2) as (vt & St & (R1 & F1 & D1 & Sn1)).
        destruct vt as [w'|]; [|contradiction]. cbn in D1. subst w'.
        destruct (IH stk s2 x s1 d1 (proj2 (proj2 R1)) Nx Ex Er1 Sd1) as (v & Sv & (R2 & F2 & D2 & Sn2)).
        exists v. split; [cbn [InterfaceExprSpec.sem]; rewrite St; destruct (is0 w); subst x; exact Sv|].
        split; [exact (reach_trans _ _ _ _ _ _ _ _ _ _ _ _ _ _ Hnodes _ _ _ R1 R2)|]. split; [exact F2|]. split; [exact D2|exact (seen_trans _ _ _ _ _ _ _ _ _ _ _ _ _ _ Hnodes _ _ _ R1 Sn2)].
      + destruct (args_loop V (eval fuel stk) s2 [Dat p] [a; b]) as [s3 r3] eqn:Ea. destruct r3 as [ds| | |]; try discriminate.
        assert (M2 := ext_math_mono s3 "ifelse" ds). rewrite EX in M2. cbn [fst] in M2. destruct (mono_clean _ _ M2 Er1 Sd1) as [Er3 Sd3].
        assert (M1 := args_mono (eval fuel stk) (eval_mono fuel stk) [a; b] s2 [Dat p]). rewrite Ea in M1. cbn [fst] in M1. destruct (mono_clean _ _ M1 Er3 Sd3) as [Er2 Sd2].
        destruct (IH stk s0 t s2 (Dat p) O' N1 Et Er2 Sd2) as (vt & St & (R1 & F1 & D1 & Sn1)).
        assert (Nab : forallb plainly [a; b] = true) by (cbn [forallb]; rewrite N2, N3; reflexivity).
        destruct (args_told stk fuel (IH stk) [a; b] s0 s2 [Dat p] [vt] s3 ds Nab R1 F1 (Forall2_cons _ _ D1 (Forall2_nil _)) Ea Er3 Sd3) as (vs & Ev & R3 & F3 & D3).
        cbn [rev app] in D3. destruct (ext_told s0 s3 "ifelse" ds (vt :: vs) s1 d1 R3 F3 D3 EX Er1) as (v & Av & R4 & F4 & O4 & D4).
        exists v. cbn [InterfaceExprSpec.sem]. rewrite St. destruct vt as [w|lt0]; [contradiction|].
        cbn [map all] in Ev. destruct (sem a) as [va|]; [|discriminate]. destruct (sem b) as [vb|]; [|discriminate]. inversion Ev; subst vs.
        split; [exact Av|]. split; [exact R4|]. split; [exact F4|]. split; [exact D4|exact (seen_own _ _ Hnodes _ _ _ O4)].
    - destruct (args_loop V (eval fuel stk) s0 [] l) as [s3 r3] eqn:Ea. destruct r3 as [ds| | |]; try discriminate.
      assert (M2 := ext_math_mono s3 f ds). rewrite EX in M2. cbn [fst] in M2. destruct (mono_clean _ _ M2 Er1 Sd1) as [Er3 Sd3].
      destruct (args_told stk fuel (IH stk) l s0 s0 [] [] s3 ds NI R0 F0 (Forall2_nil _) Ea Er3 Sd3) as (vs & Ev & R3 & F3 & D3).
      cbn [rev app] in D3. destruct (ext_told s0 s3 f ds vs s1 d1 R3 F3 D3 EX Er1) as (v & Av & R4 & F4 & O4 & D4).
      exists v. cbn [InterfaceExprSpec.sem]. rewrite Ev. split; [exact Av|]. split; [exact R4|]. split; [exact F4|]. split; [exact D4|exact (seen_own _ _ Hnodes _ _ _ O4)]. }
  destruct Main as (v & Sv & P). destruct (finish_ok V zero one add mul is0 lt bad_add bad_mul fn key nodes var rho e v _ _ _ P Sv) as (s2 & F2 & P2).
  rewrite F2 in E. inversion E; subst s2 d1. exists v. split; [exact Sv|exact P2].
Qed.
End P.
