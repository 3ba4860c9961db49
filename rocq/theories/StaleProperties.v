(* C25: the values of models are never stale - for which histories this holds, and for which it does not. *)
From Coq Require Import Ascii String List Bool Arith Lia ZArith.
From Verif Require Import StrMap Params ParamsProofs Stale StaleProofs StaleSpec StaleEval StaleTerm StaleSys.
Import ListNotations.
Open Scope string_scope.
Open Scope list_scope.

Section P.
Variable V : Type.
Variable zero : V.
Variable W : Type.
Variable num : W -> option V.
Notation sys := (sys V W). Notation region := (region V). Notation op := (op V W).

(* ---- specification ---- *)
(* A program starts with devices whose regions have no models, no device or region parameters, and some circuit. *)
Definition start (s : sys) : Prop :=
  sorted (g_global (s_g s)) /\ g_dev (s_g s) = [] /\ g_reg (s_g s) = [] /\
  sorted (s_devs s) /\ (forall d rs, find d (s_devs s) = Some rs -> sorted rs) /\
  (forall d r R, get_reg V W s d r = Some R -> R = mkR [] []) /\ sorted (c_nodes (s_ckt s)).
Inductive history (s0 : sys) : list op -> sys -> Prop :=
| h_start : start s0 -> history s0 [] s0
| h_op : forall l s o s', history s0 l s -> exec V zero W num s o = Some s' -> history s0 (o :: l) s'.

Definition names (d : def V) : list string := match d with Data => [] | Expr ms vs _ => ms ++ vs end.
(* the current definition of model m mentions n *)
Definition mentions (R : region) (m n : string) : Prop := exists M, find m (r_models R) = Some M /\ In n (names (m_def M)).

(* rank d r orders the names of a region; var d r are the names of parameters and circuit nodes *)
Variable rank : string -> string -> string -> nat.
Variable var : string -> string -> string -> Prop.
(* A definition of n that refers to earlier names only, uses no name both as a model and as a variable, does not refer to
   <name>@en0/@en1, and whose evaluation asks for all models it mentions (no short circuit by a factor 0). *)
Definition orderly (d r n : string) (df : def V) : Prop :=
  ~ var d r n /\
  match df with
  | Data => True
  | Expr ms vs c =>
      (forall m, In m ms -> rank d r m < rank d r n /\ ~ var d r m /\ forall p i, i = "0" \/ i = "1" -> m <> (p ++ "@en" ++ i)%string) /\
      (forall p, In p vs -> rank d r p < rank d r n /\ var d r p) /\
      within V ms vs c /\ strict V (fun m => In m ms) c
  end.
(* redefinitions keep the references of the definition they replace *)
Definition keeps (R : region) (n : string) (df : def V) : Prop := forall x, mentions R n x -> In x (names df).
Definition sole_name (c : ckt V) (n : string) : Prop := forall m, real_name V c m = real_name V c n -> m = n.
(* the commands that need no further care *)
Inductive careful (s : sys) : op -> Prop :=
| c_param : forall d r n w, num w <> None \/ d = "" \/ ckt_value V (s_ckt s) n = None -> careful s (SetParam d r n w)
| c_define : forall d r n e df R, get_reg V W s d r = Some R -> orderly d r n df -> keeps R n df ->
    (forall m, ~ mentions R m n) -> careful s (Define d r n e df)
| c_delete : forall d r n, careful s (Delete d r n)
| c_set : forall d r n v R M, get_reg V W s d r = Some R -> find n (r_models R) = Some M -> m_def M = Data -> careful s (SetVals d r n v)
| c_read : forall d r n, careful s (Read d r n)
| c_update : forall vals, sorted vals -> careful s (CktUpdate vals)
| c_cset : forall n v, sole_name (s_ckt s) n -> careful s (CktSet n v).
(* orderly histories: careful commands; a model other models refer to may be (re)defined if it is evaluated
   (a solution: set) at once *)
Inductive good : sys -> Prop :=
| g_start : forall s, start s -> good s
| g_op : forall s o s', good s -> careful s o -> exec V zero W num s o = Some s' -> good s'
| g_expr : forall s d r n e ms vs c R s1 s2 v, good s -> get_reg V W s d r = Some R -> orderly d r n (Expr ms vs c) -> keeps R n (Expr ms vs c) ->
    exec V zero W num s (Define d r n e (Expr ms vs c)) = Some s1 -> read V zero W num s1 d r n = Some (s2, Val v) -> good s2
| g_data : forall s d r n e R s1 s2 v, good s -> get_reg V W s d r = Some R -> orderly d r n Data -> keeps R n Data ->
    exec V zero W num s (Define d r n e Data) = Some s1 -> exec V zero W num s1 (SetVals d r n v) = Some s2 -> good s2.

(* ---- proofs ---- *)
Record sinv (s : sys) : Prop := mkSinv {
  v_devs : sorted2 V (s_devs s);
  v_g : ParamsProofs.wf (s_g s);
  v_ckt : sorted (c_nodes (s_ckt s));
  v_str : forall d n w, own_dev (s_g s) d n = Some w -> num w <> None \/ ckt_value V (s_ckt s) n = None;
  v_strr : forall d r n w, own_reg (s_g s) d r n = Some w -> num w <> None \/ ckt_value V (s_ckt s) n = None;
  v_reg : forall d r R, get2 V (s_devs s) d r = Some R ->
          wfr V (rank d r) (var d r) R /\ Inv V zero none (env_of V W num s d r) R
}.
Lemma orderly_good : forall d r n df, orderly d r n df -> good_def V (rank d r) (var d r) n df /\ ~ var d r n.
Proof.
  intros d r n df [N H]. split; [|exact N]. destruct df as [|ms vs c]; [exact I|]. destruct H as (A & B & C & D).
  split; [|split; [exact B|split; [exact C|exact D]]]. intros m Hm. destruct (A m Hm) as (X & Y & Z). split; [exact X|].
  split; [|exact Y]. apply no_alias_iff. exact Z.
Qed.
Lemma names_refs : forall d, names d = refs V d.
Proof. intros [|ms vs c]; reflexivity. Qed.
Lemma start_sinv : forall s, start s -> sinv s.
Proof.
  intros s (A & B & C & D & E & F & G). split.
  - split; assumption.
  - split; [exact A|rewrite B; split; [constructor|discriminate]|rewrite C; split; [constructor|discriminate]].
  - exact G.
  - intros d n w. unfold own_dev, sub. rewrite B. discriminate.
  - intros d r n w. unfold own_reg, sub. rewrite C. discriminate.
  - intros d r R H. rewrite (F d r R H). apply empty_ok.
Qed.
(* one region is replaced, nothing else changes *)
Lemma put_sinv : forall s d r R R', sinv s -> get2 V (s_devs s) d r = Some R ->
  wfr V (rank d r) (var d r) R' -> Inv V zero none (env_of V W num s d r) R' -> sinv (mkS (s_g s) (put_reg V (s_devs s) d r R') (s_ckt s)).
Proof.
  intros s d r R R' [A B C D E F] G Wr Iv. split; auto.
  - apply put_reg_sorted. exact A.
  - intros d' r' R0 X. cbn in X. rewrite (put_reg_get V _ _ _ _ R _ _ A G) in X.
    change (env_of V W num (mkS (s_g s) (put_reg V (s_devs s) d r R') (s_ckt s)) d' r') with (env_of V W num s d' r').
    destruct (String.eqb_spec d' d) as [->|]; cbn [andb] in X; [destruct (String.eqb_spec r' r) as [->|]|]; [|exact (F _ _ _ X)|exact (F _ _ _ X)].
    injection X as <-. split; assumption.
Qed.
(* callbacks that cover every change of the environment *)
Lemma env_sinv : forall s g' devs' c',
  sinv s -> sorted2 V devs' -> ParamsProofs.wf g' -> sorted (c_nodes c') ->
  (forall d n w, own_dev g' d n = Some w -> num w <> None \/ ckt_value V c' n = None) ->
  (forall d r n w, own_reg g' d r n = Some w -> num w <> None \/ ckt_value V c' n = None) ->
  (forall d r, exists ns, get2 V devs' d r = option_map (sigl V ns) (get2 V (s_devs s) d r) /\
     (get2 V (s_devs s) d r <> None -> forall x, ~ In x ns -> env_of V W num (mkS g' devs' c') d r x = env_of V W num s d r x)) ->
  sinv (mkS g' devs' c').
Proof.
  intros s g' devs' c' [A B C D E F] A' B' C' D' E' H. split; try assumption. intros d r R' X. cbn [s_devs] in X.
  destruct (H d r) as (ns & En & Hn). rewrite X in En. destruct (get2 V (s_devs s) d r) as [R|] eqn:G; [|discriminate]. cbn in En. injection En as ->.
  destruct (F d r R G) as [Wr Iv].
  assert (I' : Inv V zero (fun x => In x ns) (env_of V W num (mkS g' devs' c') d r) R).
  { apply (Inv_env V zero (rank d r) (var d r) _ (env_of V W num s d r)); [|exact Wr|exact Iv]. apply Hn. discriminate. }
  destruct (sigl_ok V zero (rank d r) (var d r) ns _ _ _ Wr I') as [W1 I1]. split; [exact W1|].
  eapply Inv_weaken; [|exact I1]. intros x [X1 X2]. contradiction.
Qed.
Lemma set_values_sinv : forall s d r n v R M, sinv s -> get2 V (s_devs s) d r = Some R -> find n (r_models R) = Some M -> m_def M = Data ->
  sinv (mkS (s_g s) (put_reg V (s_devs s) d r (set_values V R n v)) (s_ckt s)).
Proof.
  intros s d r n v R M H G F D. destruct (v_reg _ H d r R G) as [Wr Iv]. destruct (set_data_ok V zero _ _ none _ R n v M Wr Iv F D) as [X Y].
  apply (put_sinv s d r R); auto. eapply Inv_weaken; [|exact Y]. intros x [[] _].
Qed.
Lemma find_same_keys : forall A (a b : smap A) x, keys a = keys b -> (find x a = None <-> find x b = None).
Proof.
  intros A a b x E. assert (P := find_keys x a). assert (Q := find_keys x b). rewrite E in P.
  destruct (find x a), (find x b); split; intros X; try reflexivity; try discriminate; exfalso.
  - assert (Z : Some a0 <> None) by discriminate. apply P in Z. apply Q in Z. congruence.
  - assert (Z : Some a0 <> None) by discriminate. apply Q in Z. apply P in Z. congruence.
Qed.
Lemma careful_sinv : forall s o s', sinv s -> careful s o -> exec V zero W num s o = Some s' -> sinv s'.
Proof.
  intros s o s' H Ca E. destruct Ca as [d r n w Hw|d r n e df R G O K Nm|d r n|d r n v R M G F D|d r n|vals Sv|n v So]; cbn [exec] in E.
  - destruct (set_parameter W (s_g s) (s_devs s) d r n w) as [[g' l]|] eqn:Es; [|discriminate]. injection E as <-.
    destruct (signal_regions_ok V l n (s_devs s) (v_devs _ H)) as [S1 X].
    assert (Wg := v_g _ H).
    assert (Hg : ParamsProofs.wf g' /\ (forall a x y, own_dev g' a x = Some y -> own_dev (s_g s) a x = Some y \/ (y = w /\ x = n /\ d <> "")) /\
                 (forall a b x y, own_reg g' a b x = Some y -> own_reg (s_g s) a b x = Some y \/ (y = w /\ x = n /\ d <> ""))).
    { revert Es. unfold set_parameter. destruct (empty n); [discriminate|]. destruct (valid_scope (s_devs s) d r) eqn:Vs; cbn [negb]; [|discriminate].
      unfold empty. destruct (String.eqb_spec d "") as [->|Nd]; [|destruct (String.eqb_spec r "") as [->|Nr]]; intros Z.
      - assert (Eg : g' = fst (add_global W (s_g s) (s_devs s) n w)) by (injection Z as <- _; reflexivity). rewrite Eg.
        split; [apply add_global_wf; exact Wg|]. split; intros; left; assumption.
      - assert (Eg : g' = fst (add_device W (s_g s) (s_devs s) d n w)) by (injection Z as <- _; reflexivity). rewrite Eg.
        split; [apply add_device_wf; exact Wg|]. split; [|intros; left; assumption]. intros a x y. rewrite own_dev_add by exact Wg.
        destruct (String.eqb_spec a d), (String.eqb_spec x n); cbn [andb]; intros Y; try (left; exact Y). injection Y as <-. right. auto.
      - assert (Eg : g' = fst (add_region W (s_g s) (s_devs s) d r n w)) by (injection Z as <- _; reflexivity). rewrite Eg.
        split; [apply add_region_wf; exact Wg|]. split; [intros; left; assumption|]. intros a b x y. rewrite own_reg_add by exact Wg.
        destruct (String.eqb_spec a d), (String.eqb_spec b r), (String.eqb_spec x n); cbn [andb]; intros Y; try (left; exact Y). injection Y as <-. right. auto. }
    destruct Hg as (Wg' & Hd & Hr). apply (env_sinv s); auto; [exact (v_ckt _ H)| | |].
    + intros a x y Y. destruct (Hd _ _ _ Y) as [Z|(-> & -> & Nd)]; [exact (v_str _ H _ _ _ Z)|]. destruct Hw as [Z|[Z|Z]]; [left; exact Z|contradiction|right; exact Z].
    + intros a b x y Y. destruct (Hr _ _ _ _ Y) as [Z|(-> & -> & Nd)]; [exact (v_strr _ H _ _ _ _ Z)|]. destruct Hw as [Z|[Z|Z]]; [left; exact Z|contradiction|right; exact Z].
    + intros a b. destruct (X a b) as (ns & En & Hn). exists ns. split; [exact En|]. intros Ne x Nx. unfold env_of. cbn [s_g s_ckt].
      destruct (set_parameter_seen V W (s_g s) (s_devs s) d r n w g' l a b x Wg Es Ne) as [Z|[-> Z]]; [rewrite Z; reflexivity|].
      exfalso. exact (Nx (Hn Z Ne)).
  - unfold on_region in E. rewrite G in E. destruct (define V zero R n e df) as [R'|] eqn:Ed; [|discriminate]. injection E as <-.
    destruct (v_reg _ H d r R G) as [Wr Iv]. destruct (orderly_good _ _ _ _ O) as [Go Nv].
    destruct (define_ok V zero _ _ _ R n e df R' Wr Iv Go Nv) as (A & _ & _ & B); [intros x Hx; rewrite <- names_refs; apply K; destruct Hx as (M & F & I); exists M; rewrite names_refs; auto|exact Ed|].
    apply (put_sinv s d r R); [exact H|exact G|exact A|]. apply B. intros m (M & F & I). apply (Nm m). exists M. rewrite names_refs. auto.
  - unfold on_region in E. destruct (get_reg V W s d r) as [R|] eqn:G; [|discriminate]. injection E as <-. destruct (v_reg _ H d r R G) as [Wr Iv].
    destruct (delete_ok V zero _ _ _ R n Wr Iv) as [A B]. apply (put_sinv s d r R); auto.
  - unfold on_region, set_model in E. rewrite G in E. unfold has in E. rewrite F in E. injection E as <-. exact (set_values_sinv s d r n v R M H G F D).
  - unfold read in E. destruct (get_reg V W s d r) as [R|] eqn:G; [|discriminate]. destruct (has n (r_models R)) eqn:Hh; [|discriminate].
    destruct (v_reg _ H d r R G) as [Wr Iv]. unfold has in Hh. destruct (find n (r_models R)) as [M|] eqn:F; [|discriminate].
    destruct (read_ok V zero _ _ _ R n M Wr Iv F) as (A & B & _). destruct (read_model V zero (env_of V W num s d r) R n) as [R' x]. cbn in E, A, B.
    injection E as <-. apply (put_sinv s d r R); auto.
  - destruct (same_keys vals (c_nodes (s_ckt s))) eqn:Ek; [|discriminate]. injection E as <-.
    assert (Kk : keys vals = keys (c_nodes (s_ckt s))) by (unfold same_keys in Ek; destruct (list_eq_dec string_dec (keys vals) (keys (c_nodes (s_ckt s)))); [assumption|discriminate]).
    destruct (triggers_ok V W (s_g s) (keys vals ++ keys (c_alias (s_ckt s))) (s_devs s) (v_devs _ H)) as [S1 X].
    assert (Nn : forall n, ckt_value V (mkC vals (c_alias (s_ckt s))) n = None <-> ckt_value V (s_ckt s) n = None).
    { intros n. unfold ckt_value. change (real_name V (mkC vals (c_alias (s_ckt s))) n) with (real_name V (s_ckt s) n). apply find_same_keys. exact Kk. }
    apply (env_sinv s); auto; [exact (v_g _ H)| | |].
    + intros a x y Y. rewrite Nn. exact (v_str _ H _ _ _ Y).
    + intros a b x y Y. rewrite Nn. exact (v_strr _ H _ _ _ _ Y).
    + intros a b. destruct (X a b) as (ns & En & Hn). exists ns. split; [exact En|]. intros Ne x Nx. unfold env_of. cbn [s_g s_ckt].
      assert (Go : get_region W (s_g s) a b x = match own_reg (s_g s) a b x with Some v => Some v | None => match own_dev (s_g s) a x with Some v => Some v | None => get_global W (s_g s) x end end) by apply get_region_eq.
      destruct (match get_region W (s_g s) a b x with Some w => num w | None => None end) as [y|] eqn:Eg; [reflexivity|].
      destruct (ckt_value V (s_ckt s) x) as [y|] eqn:Ec; [|apply Nn; exact Ec]. exfalso. apply Nx. apply Hn; [| | |exact Ne].
      * apply in_or_app. unfold ckt_value, real_name in Ec. destruct (find x (c_alias (s_ckt s))) as [z|] eqn:Ea.
        -- right. apply find_keys. congruence.
        -- left. rewrite Kk. apply find_keys. congruence.
      * destruct (own_dev (s_g s) a x) as [w|] eqn:Od; [|reflexivity]. exfalso.
        destruct (own_reg (s_g s) a b x) as [w'|] eqn:Or.
        -- destruct (v_strr _ H _ _ _ _ Or) as [Z|Z]; [|congruence]. rewrite Go in Eg. congruence.
        -- destruct (v_str _ H _ _ _ Od) as [Z|Z]; [|congruence]. rewrite Go in Eg. congruence.
      * destruct (own_reg (s_g s) a b x) as [w'|] eqn:Or; [|reflexivity]. exfalso.
        destruct (v_strr _ H _ _ _ _ Or) as [Z|Z]; [|congruence]. rewrite Go in Eg. congruence.
  - destruct (has (real_name V (s_ckt s) n) (c_nodes (s_ckt s))) eqn:Hh; [|discriminate]. injection E as <-.
    destruct (triggers_ok V W (s_g s) [n] (s_devs s) (v_devs _ H)) as [S1 X]. cbn [fold_left] in S1, X.
    assert (Cs := v_ckt _ H).
    assert (Nc : forall x, ckt_value V (mkC (put (real_name V (s_ckt s) n) v (c_nodes (s_ckt s))) (c_alias (s_ckt s))) x =
                           if String.eqb (real_name V (s_ckt s) x) (real_name V (s_ckt s) n) then Some v else ckt_value V (s_ckt s) x).
    { intros x. unfold ckt_value. cbn [c_nodes]. change (real_name V (mkC (put (real_name V (s_ckt s) n) v (c_nodes (s_ckt s))) (c_alias (s_ckt s))) x) with (real_name V (s_ckt s) x).
      apply find_put. exact Cs. }
    assert (Nn : forall x, ckt_value V (mkC (put (real_name V (s_ckt s) n) v (c_nodes (s_ckt s))) (c_alias (s_ckt s))) x = None <-> ckt_value V (s_ckt s) x = None).
    { intros x. rewrite Nc. destruct (String.eqb_spec (real_name V (s_ckt s) x) (real_name V (s_ckt s) n)) as [Ex|]; [|reflexivity].
      split; [discriminate|]. unfold ckt_value. rewrite Ex. unfold has in Hh. intros Z. rewrite Z in Hh. discriminate. }
    apply (env_sinv s); auto; [exact (v_g _ H)|cbn; apply put_sorted; exact Cs| | |].
    + intros a x y Y. rewrite Nn. exact (v_str _ H _ _ _ Y).
    + intros a b x y Y. rewrite Nn. exact (v_strr _ H _ _ _ _ Y).
    + intros a b. destruct (X a b) as (ns & En & Hn). exists ns. split; [exact En|]. intros Ne x Nx. unfold env_of. cbn [s_g s_ckt].
      assert (Go : get_region W (s_g s) a b x = match own_reg (s_g s) a b x with Some v => Some v | None => match own_dev (s_g s) a x with Some v => Some v | None => get_global W (s_g s) x end end) by apply get_region_eq.
      destruct (match get_region W (s_g s) a b x with Some w => num w | None => None end) as [y|] eqn:Eg; [reflexivity|].
      rewrite Nc. destruct (String.eqb_spec (real_name V (s_ckt s) x) (real_name V (s_ckt s) n)) as [Ex|]; [|reflexivity].
      apply So in Ex. subst x. exfalso. apply Nx.
      assert (Ec : ckt_value V (s_ckt s) n <> None) by (unfold ckt_value; unfold has in Hh; intros Z; rewrite Z in Hh; discriminate).
      apply Hn; [left; reflexivity| | |exact Ne].
      * destruct (own_dev (s_g s) a n) as [w|] eqn:Od; [|reflexivity]. exfalso.
        destruct (own_reg (s_g s) a b n) as [w'|] eqn:Or.
        -- destruct (v_strr _ H _ _ _ _ Or) as [Z|Z]; [|congruence]. rewrite Go in Eg. congruence.
        -- destruct (v_str _ H _ _ _ Od) as [Z|Z]; [|congruence]. rewrite Go in Eg. congruence.
      * destruct (own_reg (s_g s) a b n) as [w'|] eqn:Or; [|reflexivity]. exfalso.
        destruct (v_strr _ H _ _ _ _ Or) as [Z|Z]; [|congruence]. rewrite Go in Eg. congruence.
Qed.
Lemma put_put : forall (devs : smap (smap region)) d r A B R, sorted2 V devs -> get2 V devs d r = Some R ->
  put_reg V (put_reg V devs d r A) d r B = put_reg V devs d r B.
Proof.
  intros devs d r A B R [S1 S2] G. unfold get2 in G. unfold put_reg at 2 3. destruct (find d devs) as [rs|] eqn:F; [|discriminate].
  unfold put_reg. rewrite find_put by exact S1. rewrite String.eqb_refl.
  assert (Sr := S2 _ _ F). assert (PP : forall U (m : smap U) k a b, sorted m -> put k b (put k a m) = put k b m).
  { intros U m k a b Sm. apply map_ext_sorted; [apply put_sorted; apply put_sorted; exact Sm|apply put_sorted; exact Sm|].
    intros x. rewrite !find_put by (try apply put_sorted; exact Sm). destruct (String.eqb x k); reflexivity. }
  rewrite (PP _ rs r A B Sr). apply PP. exact S1.
Qed.
Lemma good_sinv : forall s, good s -> sinv s.
Proof.
  intros s Hg. induction Hg as [s Hs|s o s' _ IH Ca E|s d r n e ms vs c R s1 s2 v _ IH G O K E1 E2|s d r n e R s1 s2 v _ IH G O K E1 E2].
  - apply start_sinv. exact Hs.
  - exact (careful_sinv s o s' IH Ca E).
  - cbn [exec] in E1. unfold on_region in E1. rewrite G in E1. destruct (define V zero R n e (Expr ms vs c)) as [R1|] eqn:Ed; [|discriminate]. injection E1 as <-.
    destruct (v_reg _ IH d r R G) as [Wr Iv]. destruct (orderly_good _ _ _ _ O) as [Go Nv].
    destruct (define_ok V zero _ _ _ R n e (Expr ms vs c) R1 Wr Iv Go Nv) as (W1 & I1 & F1 & _); [intros x Hx; rewrite <- names_refs; apply K; destruct Hx as (M & F & I); exists M; rewrite names_refs; auto|exact Ed|].
    unfold read in E2. unfold get_reg in E2. cbn [s_devs s_g s_ckt] in E2. 
    assert (G1 : get2 V (put_reg V (s_devs s) d r R1) d r = Some R1) by (rewrite (put_reg_get V _ _ _ _ R _ _ (v_devs _ IH) G), !String.eqb_refl; reflexivity).
    unfold get2 in G1. rewrite G1 in E2. destruct (has n (r_models R1)); [|discriminate].
    change (env_of V W num (mkS (s_g s) (put_reg V (s_devs s) d r R1) (s_ckt s)) d r) with (env_of V W num s d r) in E2.
    assert (X := read_hole V zero (rank d r) (var d r) (env_of V W num s d r) R1 n _ v W1 I1 F1 eq_refl ltac:(discriminate)).
    destruct (read_model V zero (env_of V W num s d r) R1 n) as [R2 x2]. cbn [fst snd] in X. injection E2 as <- ->. destruct (X eq_refl) as [W2 I2].
    rewrite (put_put _ d r R1 R2 R (v_devs _ IH) G). apply (put_sinv s d r R); auto.
  - cbn [exec] in E1. unfold on_region in E1. rewrite G in E1. destruct (define V zero R n e Data) as [R1|] eqn:Ed; [|discriminate]. injection E1 as <-.
    destruct (v_reg _ IH d r R G) as [Wr Iv]. destruct (orderly_good _ _ _ _ O) as [Go Nv].
    destruct (define_ok V zero _ _ _ R n e Data R1 Wr Iv Go Nv) as (W1 & I1 & F1 & _); [intros x Hx; rewrite <- names_refs; apply K; destruct Hx as (M & F & I); exists M; rewrite names_refs; auto|exact Ed|].
    cbn [exec] in E2. unfold on_region, get_reg in E2. cbn [s_devs s_g s_ckt] in E2.
    assert (G1 : get2 V (put_reg V (s_devs s) d r R1) d r = Some R1) by (rewrite (put_reg_get V _ _ _ _ R _ _ (v_devs _ IH) G), !String.eqb_refl; reflexivity).
    unfold get2 in G1. rewrite G1 in E2. unfold set_model in E2. destruct (has n (r_models R1)); [|discriminate]. injection E2 as <-.
    destruct (set_data_ok V zero _ _ _ _ R1 n v _ W1 I1 F1 eq_refl) as [W2 I2].
    rewrite (put_put _ d r R1 (set_values V R1 n v) R (v_devs _ IH) G). apply (put_sinv s d r R); auto.
    eapply Inv_weaken; [|exact I2]. intros x [X Y]. contradiction.
Qed.

(* C25 for orderly histories: reading a model gives v exactly when its current definition means v now; a model that has
   no meaning makes the command fail.  R and the environment are those of the state in which the model is read. *)
Theorem C25_fresh_partial : forall s d r n R s' x, good s -> get_reg V W s d r = Some R -> read V zero W num s d r n = Some (s', x) ->
  good s' /\ (forall v, x = Val v <-> means V zero R (env_of V W num s d r) n v).
Proof.
  intros s d r n R s' x Hg G E. split.
  - apply (g_op s (Read d r n)); [exact Hg|constructor|]. cbn [exec]. rewrite E. reflexivity.
  - destruct (v_reg _ (good_sinv _ Hg) d r R G) as [Wr Iv]. unfold read in E. rewrite G in E. unfold has in E.
    destruct (find n (r_models R)) as [M|] eqn:F; [|discriminate].
    destruct (read_ok V zero _ _ _ R n M Wr Iv F) as (_ & _ & B). destruct (read_model V zero (env_of V W num s d r) R n) as [R' y]. cbn in B.
    injection E as _ <-. intros v. destruct y as [w| |].
    + split; [intros X; injection X as <-; exact B|intros Y; f_equal; exact (means_det V zero _ _ _ _ _ B Y)].
    + split; [discriminate|intros Y; exfalso; exact (B v Y)].
    + destruct B.
Qed.

(* C25: evaluation terminates after any history, whatever the definitions (also cyclic ones). *)
Lemma signal_regions_wf : forall l n devs, sorted2 V devs -> (forall d r R, get2 V devs d r = Some R -> wfm V R) ->
  forall d r R, get2 V (signal_regions V devs l n) d r = Some R -> wfm V R.
Proof.
  intros l n devs S H d r R E. destruct (proj2 (signal_regions_ok V l n devs S) d r) as (ns & En & _). rewrite En in E.
  destruct (get2 V devs d r) as [R0|] eqn:G; [|discriminate]. cbn in E. injection E as <-. specialize (H _ _ _ G). clear -H.
  revert R0 H. induction ns as [|a ns IH]; intros R0 H; cbn; [exact H|]. apply IH. exact (dm_wf _ _ _ (signal_dom V R0 a H)).
Qed.
Lemma triggers_wf : forall g ns devs, sorted2 V devs -> (forall d r R, get2 V devs d r = Some R -> wfm V R) ->
  sorted2 V (fold_left (trigger V W g) ns devs) /\ forall d r R, get2 V (fold_left (trigger V W g) ns devs) d r = Some R -> wfm V R.
Proof.
  intros g ns. induction ns as [|a ns IH]; intros devs S H; cbn [fold_left]; [split; assumption|]. apply IH.
  - exact (proj1 (signal_regions_ok V _ a devs S)).
  - apply signal_regions_wf; assumption.
Qed.
Lemma put_wf : forall devs d r R R', sorted2 V devs -> (forall d r R, get2 V devs d r = Some R -> wfm V R) -> get2 V devs d r = Some R -> wfm V R' ->
  sorted2 V (put_reg V devs d r R') /\ forall a b Q, get2 V (put_reg V devs d r R') a b = Some Q -> wfm V Q.
Proof.
  intros devs d r R R' S H G W'. split; [apply put_reg_sorted; exact S|]. intros a b Q. rewrite (put_reg_get V _ _ _ _ R _ _ S G).
  destruct (String.eqb a d && String.eqb b r); [intros X; injection X as <-; exact W'|apply H].
Qed.
Lemma define_wf : forall R n e df R', wfm V R -> define V zero R n e df = Some R' -> wfm V R'.
Proof.
  intros R n e df R' [A B] E.
  assert (Er : R' = mkR (put n (mkM e df zero false) (r_models R)) (fold_left (register n) (refs V df) (r_deps R))).
  { revert E. unfold define. destruct (find n (r_models R)) as [M|]; [destruct (Bool.eqb (m_edge M) e); [|discriminate]|]; intros E; injection E as <-; reflexivity. }
  subst R'. split; [apply put_sorted; exact A|exact (proj1 (registers n _ _ B))].
Qed.
Lemma history_wf : forall s0 l s, history s0 l s -> sorted2 V (s_devs s) /\ forall d r R, get2 V (s_devs s) d r = Some R -> wfm V R.
Proof.
  intros s0 l s H. induction H as [Hs|l s o s' _ [So IH] E].
  - destruct Hs as (A & B & C & D & E & F & G). split; [split; assumption|]. intros d r R X. rewrite (F d r R X). split; constructor.
  - destruct o as [d r n w|d r n e df|d r n|d r n v|d r n|vals|n v|vals]; cbn [exec] in E.
    + destruct (set_parameter W (s_g s) (s_devs s) d r n w) as [[g' k]|]; [|discriminate]. injection E as <-. cbn [s_devs].
      split; [exact (proj1 (signal_regions_ok V k n _ So))|apply signal_regions_wf; assumption].
    + unfold on_region in E. destruct (get_reg V W s d r) as [R|] eqn:G; [|discriminate]. destruct (define V zero R n e df) as [R'|] eqn:Ed; [|discriminate].
      injection E as <-. cbn [s_devs]. apply (put_wf _ d r R); auto. exact (define_wf _ _ _ _ _ (IH _ _ _ G) Ed).
    + unfold on_region in E. destruct (get_reg V W s d r) as [R|] eqn:G; [|discriminate]. injection E as <-. cbn [s_devs]. apply (put_wf _ d r R); auto.
      unfold delete_. destruct (has n (r_models R)); [|exact (IH _ _ _ G)]. destruct (IH _ _ _ G) as [A B].
      exact (dm_wf _ _ _ (signal_dom V (mkR (erase n (r_models R)) (erase n (r_deps R))) n (conj (erase_sorted _ _ A) (erase_sorted _ _ B)))).
    + unfold on_region, set_model in E. destruct (get_reg V W s d r) as [R|] eqn:G; [|discriminate]. destruct (has n (r_models R)); [|discriminate].
      injection E as <-. cbn [s_devs]. apply (put_wf _ d r R); auto. exact (dm_wf _ _ _ (set_values_dom V R n v (IH _ _ _ G))).
    + unfold read in E. destruct (get_reg V W s d r) as [R|] eqn:G; [|discriminate]. destruct (has n (r_models R)) eqn:Hh; [|discriminate].
      assert (T := eval_term V zero (S (length (r_models R))) (env_of V W num s d r) [] R n (IH _ _ _ G) (NoDup_nil _) ltac:(intros z []) ltac:(intros []) Hh ltac:(cbn; lia)).
      destruct T as [_ T]. unfold read_model in E. destruct (eval V zero (env_of V W num s d r) (S (length (r_models R))) [] R n) as [R' x]. cbn in E, T. injection E as <-. cbn [s_devs].
      apply (put_wf _ d r R); auto. exact (dm_wf _ _ _ T).
    + destruct (same_keys vals (c_nodes (s_ckt s))); [|discriminate]. injection E as <-. cbn [s_devs]. apply triggers_wf; assumption.
    + destruct (has (real_name V (s_ckt s) n) (c_nodes (s_ckt s))); [|discriminate]. injection E as <-. cbn [s_devs].
      exact (triggers_wf (s_g s) [n] (s_devs s) So IH).
    + destruct (same_keys vals (c_nodes (s_ckt s))); [|discriminate]. injection E as <-. cbn [s_devs]. split; assumption.
Qed.
Theorem C25_terminates : forall s0 l s d r n s' x, history s0 l s -> read V zero W num s d r n = Some (s', x) -> x <> NoFuel.
Proof.
  intros s0 l s d r n s' x H E. destruct (history_wf _ _ _ H) as [_ Wf]. unfold read in E.
  destruct (get_reg V W s d r) as [R|] eqn:G; [|discriminate]. destruct (has n (r_models R)) eqn:Hh; [|discriminate].
  assert (T := eval_term V zero (S (length (r_models R))) (env_of V W num s d r) [] R n (Wf _ _ _ G) (NoDup_nil _) ltac:(intros z []) ltac:(intros []) Hh ltac:(cbn; lia)).
  destruct T as [T _]. unfold read_model in E. destruct (eval V zero (env_of V W num s d r) (S (length (r_models R))) [] R n) as [R' y]. cbn in T. injection E as _ <-. exact T.
Qed.
End P.
