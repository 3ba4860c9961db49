(* Proofs for SetValuesProperties.v *)
From Coq Require Import String List Bool Arith ZArith Lia.
From Verif Require Import StrMap ModelData SetValues SetValuesSpec.
Import ListNotations.
Open Scope list_scope.
Local Arguments Nat.eqb : simpl never.
Local Arguments Nat.ltb : simpl never.
Local Arguments Nat.leb : simpl never.
Local Arguments Z.eqb : simpl never.
Local Arguments Z.leb : simpl never.
Local Arguments Z.ltb : simpl never.

Lemma same_kind_iff : forall a b, same_kind a b = true <-> a = b.
Proof. intros [] []; cbn; split; congruence. Qed.

Section P.
Variable V : Type.
Variable zero : V.
Variable calcs : string -> region V -> string -> option (cell V).
Variable depss : string -> string -> list string.
Hypothesis whole : whole_evaluations V calcs.

Notation old := (old V).
Definition aged (l : list string) (n : string) (M : model V) : model V :=
  mkM (m_kind M) (m_sol M) (m_calc M) (m_con M) (m_cell M) (if existsb (String.eqb n) l then false else m_up M).
Lemma keys_old : forall l ms, keys (old l ms) = keys ms.
Proof. intros l ms. unfold SetValues.old, keys. rewrite map_map. reflexivity. Qed.
Lemma find_old : forall l ms n, find n (old l ms) = option_map (aged l n) (find n ms).
Proof.
  intros l ms n. induction ms as [|[k M] t IH]; cbn; [reflexivity|]. destruct (String.eqb_spec n k) as [->|N]; [reflexivity|exact IH].
Qed.
Lemma sorted_old : forall l ms, sorted ms -> sorted (old l ms).
Proof. intros l ms H. unfold sorted. rewrite keys_old. exact H. Qed.

(* ---- one region ---- *)
Variable reg : string.
Notation calc := (calcs reg).
Notation deps := (depss reg).

Record wf (r : region V) : Prop := {
  w_sorted : sorted (models r);
  w_name : find ""%string (models r) = None;
  w_size : forall n M, find n (models r) = Some M -> length (elems V (m_cell M)) = size r (m_kind M) }.
Definition dims (r r' : region V) : Prop :=
  dim r' = dim r /\ nodes r' = nodes r /\ edges r' = edges r /\ triangles r' = triangles r /\ tetrahedra r' = tetrahedra r.
Lemma dims_size : forall r r' k, dims r r' -> size r' k = size r k.
Proof. intros r r' k (a & b & c & d & e). unfold size. rewrite a, b, c, d, e. reflexivity. Qed.
Lemma dims_refl : forall r, dims r r. Proof. intros r. repeat split. Qed.
Lemma dims_trans : forall a b c, dims a b -> dims b c -> dims a c.
Proof. intros a b c (H1 & H2 & H3 & H4 & H5) (K1 & K2 & K3 & K4 & K5). repeat split; congruence. Qed.
Lemma dims_with : forall r ms, dims r (with_models V r ms). Proof. intros r ms. repeat split. Qed.

(* what becomes of the model n when it is not written; free: nothing it depends on changed *)
Definition keeps (free : Prop) (n : string) (r r' : region V) : Prop :=
  dims r r' /\
  match find n (models r), find n (models r') with
  | None, None => True
  | Some M, Some M' => m_kind M' = m_kind M /\ m_sol M' = m_sol M /\ m_calc M' = m_calc M /\ m_con M' = m_con M /\
                       (m_calc M = false -> m_cell M' = m_cell M) /\
                       (free -> m_up M = true -> m_cell M' = m_cell M /\ m_up M' = true)
  | _, _ => False
  end.
Lemma keeps_refl : forall P n r, keeps P n r r.
Proof. intros P n r. split; [apply dims_refl|]. destruct (find n (models r)); [repeat split; auto|exact Logic.I]. Qed.
Lemma keeps_trans : forall P n a b c, keeps P n a b -> keeps P n b c -> keeps P n a c.
Proof.
  intros P n a b c [Da Ka] [Db Kb]. split; [exact (dims_trans _ _ _ Da Db)|].
  destruct (find n (models a)) as [Ma|], (find n (models b)) as [Mb|], (find n (models c)) as [Mc|]; try contradiction; auto.
  destruct Ka as (k1 & k2 & k3 & k4 & k5 & k6), Kb as (j1 & j2 & j3 & j4 & j5 & j6).
  split; [congruence|]. split; [congruence|]. split; [congruence|]. split; [congruence|]. split.
  - intros C. rewrite j5, k5; congruence.
  - intros f U. destruct (k6 f U) as [A B]. destruct (j6 f B) as [C D]. split; congruence.
Qed.
Lemma keeps_mono : forall (P Q : Prop) n a b, (Q -> P) -> keeps P n a b -> keeps Q n a b.
Proof.
  intros P Q n a b H [D K]. split; [exact D|]. destruct (find n (models a)), (find n (models b)); auto.
  destruct K as (k1 & k2 & k3 & k4 & k5 & k6). split; [exact k1|]. split; [exact k2|]. split; [exact k3|]. split; [exact k4|]. split; [exact k5|]. intros q U. exact (k6 (H q) U).
Qed.

Lemma not_dep : forall n l, ~ In n l -> existsb (String.eqb n) l = false.
Proof.
  intros n l H. destruct (existsb (String.eqb n) l) eqn:X; [|reflexivity]. apply existsb_exists in X. destruct X as (x & Hx & Y).
  apply String.eqb_eq in Y. subst x. contradiction.
Qed.
Lemma aged_keeps : forall n l (r r' : region V) M, dims r r' -> find n (models r) = Some M -> find n (models r') = Some (aged l n M) ->
  keeps (~ In n l) n r r'.
Proof.
  intros n l r r' M D F F'. split; [exact D|]. rewrite F, F'. unfold aged. cbn. repeat split; auto.
  rewrite (not_dep n l H). assumption.
Qed.

(* storing values in n0 *)
Lemma store_find : forall r n0 M c n, wf r ->
  find n (models (store V deps r n0 M c)) =
  if String.eqb n n0 then Some (mkM (m_kind M) (m_sol M) (m_calc M) (m_con M) c true)
  else option_map (aged (deps n0) n) (find n (models r)).
Proof.
  intros r n0 M c n W. unfold store, with_models. cbn [models]. rewrite find_put by (apply sorted_old, W).
  destruct (String.eqb n n0); [reflexivity|apply find_old].
Qed.
Lemma store_keeps : forall r n0 M c n, wf r -> n <> n0 -> keeps (~ In n (deps n0)) n r (store V deps r n0 M c).
Proof.
  intros r n0 M c n W N. pose proof (store_find r n0 M c n W) as F. apply String.eqb_neq in N. rewrite N in F.
  destruct (find n (models r)) as [Mn|] eqn:X.
  - exact (aged_keeps n (deps n0) r _ Mn (dims_with _ _) X F).
  - split; [apply dims_with|]. cbn [option_map] in F. rewrite X, F. exact Logic.I.
Qed.
Lemma store_wf : forall r n0 M c, wf r -> n0 <> ""%string -> length (elems V c) = size r (m_kind M) -> wf (store V deps r n0 M c).
Proof.
  intros r n0 M c W N L. split.
  - unfold store, with_models. cbn [models]. apply put_sorted, sorted_old, W.
  - rewrite store_find by exact W. destruct (String.eqb_spec ""%string n0) as [<-|_]; [congruence|]. rewrite (w_name _ W). reflexivity.
  - intros n M' F. rewrite store_find in F by exact W. change (size (store V deps r n0 M c) (m_kind M')) with (size r (m_kind M')).
    destruct (String.eqb n n0).
    + injection F as <-. exact L.
    + destruct (find n (models r)) as [Mn|] eqn:X; [|discriminate]. injection F as <-. exact (w_size _ W n Mn X).
Qed.
Lemma named_in : forall r n M, wf r -> find n (models r) = Some M -> n <> ""%string.
Proof. intros r n M W F E. subst n. rewrite (w_name _ W) in F. discriminate. Qed.

(* evaluation of n0 *)
Lemma calculate_ok : forall r n0 M r' M', wf r -> find n0 (models r) = Some M -> calculate V calc deps r n0 M = Some (r', M') ->
  wf r' /\ find n0 (models r') = Some M' /\ m_up M' = true /\
  forall n, keeps (~ In n (deps n0)) n r r'.
Proof.
  intros r n0 M r' M' W F C. unfold calculate in C.
  destruct (m_up M) eqn:U.
  { injection C as <- <-. split; [exact W|]. split; [exact F|]. split; [exact U|]. intros n. apply keeps_refl. }
  destruct (m_calc M) eqn:K.
  - destruct (calc r n0) as [c|] eqn:X; [|discriminate]. injection C as <- <-.
    assert (L := whole reg r n0 c M F X). pose proof (named_in _ _ _ W F) as N.
    split; [exact (store_wf r n0 M c W N L)|]. split; [rewrite (store_find _ _ _ _ _ W), String.eqb_refl, K; reflexivity|].
    split; [reflexivity|]. intros n. destruct (String.eqb_spec n n0) as [->|D]; [|exact (store_keeps r n0 M c n W D)].
    split; [apply dims_with|]. rewrite F, (store_find _ _ _ _ _ W), String.eqb_refl. cbn. repeat split; intros; congruence.
  - injection C as <- <-. pose proof (named_in _ _ _ W F) as N.
    assert (Fp : forall n, find n (models (with_models V r (put n0 (mkM (m_kind M) (m_sol M) false (m_con M) (m_cell M) true) (models r))))
                 = if String.eqb n n0 then Some (mkM (m_kind M) (m_sol M) false (m_con M) (m_cell M) true) else find n (models r)).
    { intros n. cbn [with_models models]. apply find_put, W. }
    split; [|split; [|split]].
    + split.
      * cbn [with_models models]. apply put_sorted, W.
      * rewrite Fp. destruct (String.eqb_spec ""%string n0) as [<-|_]; [congruence|apply W].
      * intros n Mn Fn. rewrite Fp in Fn. rewrite (dims_size r _ _ (dims_with _ _)). destruct (String.eqb n n0).
        -- injection Fn as <-. exact (w_size _ W n0 M F).
        -- exact (w_size _ W n Mn Fn).
    + rewrite Fp, String.eqb_refl. reflexivity.
    + reflexivity.
    + intros n. split; [apply dims_with|]. rewrite Fp. destruct (String.eqb_spec n n0) as [->|D].
      * rewrite F. cbn. repeat split; intros; congruence.
      * destruct (find n (models r)); [repeat split; auto|exact Logic.I].
Qed.
Lemma lookup_iff : forall (r : region V) k n M, lookup r k n = Some M <->
  find n (models r) = Some M /\ m_kind M = k /\ (k = Element -> dim r = 2 \/ dim r = 3).
Proof.
  intros r k n M. unfold lookup. destruct (find n (models r)) as [M'|]; [|split; [discriminate|intros (H & _); discriminate]].
  destruct (same_kind (m_kind M') k) eqn:K.
  - apply same_kind_iff in K. cbn [andb]. destruct (same_kind k Element) eqn:E.
    + apply same_kind_iff in E. cbn [andb]. destruct (Nat.eqb_spec (dim r) 2) as [H2|H2]; cbn [orb negb].
      * split; [intros H; injection H as <-; repeat split; auto|intros (H & _); exact H].
      * destruct (Nat.eqb_spec (dim r) 3) as [H3|H3]; cbn [negb].
        -- split; [intros H; injection H as <-; repeat split; auto|intros (H & _); exact H].
        -- split; [discriminate|intros (_ & _ & H)]. exfalso. destruct (H E); contradiction.
    + cbn [andb negb]. split; [intros H; injection H as <-; repeat split; auto|intros (H & _); exact H].
      intros X. subst k. rewrite X in E. cbn in E. discriminate.
  - cbn [andb]. split; [discriminate|intros (H & Hk & _)]. injection H as <-. exfalso.
    apply (proj2 (same_kind_iff _ _)) in Hk. congruence.
Qed.
Lemma lookup_dims : forall (r r' : region V) k n M M', dims r r' -> lookup r k n = Some M -> find n (models r') = Some M' ->
  m_kind M' = m_kind M -> lookup r' k n = Some M'.
Proof.
  intros r r' k n M M' D L F K. apply (proj1 (lookup_iff _ _ _ _)) in L. destruct L as (L1 & L2 & L3). apply lookup_iff.
  destruct D as (D & _). rewrite D. repeat split; auto. congruence.
Qed.
Lemma lookup_size : forall r k n M, wf r -> lookup r k n = Some M -> length (elems V (m_cell M)) = size r k.
Proof. intros r k n M W L. apply (proj1 (lookup_iff _ _ _ _)) in L. destruct L as (F & <- & _). exact (w_size _ W n M F). Qed.
Lemma lookup_named : forall r k n M, wf r -> lookup r k n = Some M -> n <> ""%string.
Proof. intros r k n M W L. apply (proj1 (lookup_iff _ _ _ _)) in L. exact (named_in _ _ _ W (proj1 L)). Qed.
Lemma lookup_empty : forall r k, wf r -> lookup r k ""%string = None.
Proof. intros r k W. destruct (lookup r k ""%string) eqn:L; [|reflexivity]. exfalso. exact (lookup_named _ _ _ _ W L eq_refl). Qed.

Lemma values_ok : forall r k n0 M r' l, wf r -> lookup r k n0 = Some M -> values V calc deps r n0 M = Some (r', l) ->
  wf r' /\ (exists M', lookup r' k n0 = Some M' /\ m_up M' = true /\ l = elems V (m_cell M')) /\ length l = size r k /\
  forall n, keeps (~ In n (deps n0)) n r r'.
Proof.
  intros r k n0 M r' l W L E. unfold values in E. destruct (calculate V calc deps r n0 M) as [[r1 M1]|] eqn:C; [|discriminate].
  injection E as <- <-. assert (F := proj1 (proj1 (lookup_iff _ _ _ _) L)).
  destruct (calculate_ok r n0 M r1 M1 W F C) as (W1 & F1 & U & K). assert (K0 := K n0). destruct K0 as [D K0]. rewrite F, F1 in K0.
  assert (L1 := lookup_dims _ _ _ _ _ _ D L F1 (proj1 K0)).
  split; [exact W1|]. split; [exists M1; auto|]. split; [|exact K].
  rewrite (lookup_size _ _ _ _ W1 L1). apply dims_size, D.
Qed.
Lemma values_up : forall r n M, m_up M = true -> values V calc deps r n M = Some (r, elems V (m_cell M)).
Proof. intros r n M U. unfold values, calculate. rewrite U. reflexivity. Qed.
Lemma values_data : forall r n M, m_calc M = false -> option_map snd (values V calc deps r n M) = Some (elems V (m_cell M)).
Proof. intros r n M K. unfold values, calculate. rewrite K. destruct (m_up M); reflexivity. Qed.

(* ---- commands on one region ---- *)
Notation do := (on_region zero calc deps).
Lemma put_at_length : forall A (l : list A) i v, length (put_at l i v) = length l.
Proof.
  intros A l i v. unfold put_at. rewrite app_length. rewrite <- (firstn_skipn i l) at 3. rewrite app_length. f_equal.
  destruct (skipn i l); reflexivity.
Qed.
Lemma mask_length : forall idx n (f : nat -> V), length (mask zero n idx f) = n.
Proof. intros idx n f. unfold mask. rewrite map_length, seq_length. reflexivity. Qed.
Lemma list_cell_length : forall M l, length (elems V (list_cell V zero M l)) = length l.
Proof. intros M l. unfold list_cell. destruct (m_con M); cbn [elems]; [apply mask_length|reflexivity]. Qed.
Lemma number_cell_length : forall r M v, length (elems V (number_cell V zero r M v)) = size r (m_kind M).
Proof. intros r M v. unfold number_cell. destruct (m_con M); cbn [elems]; [apply mask_length|apply repeat_length]. Qed.

(* the models whose dependents may change *)
Definition free (c : command V) (n : string) : Prop := forall m, names V c m -> ~ In n (deps m).
Definition effect (c : command V) (r r' : region V) : Prop :=
  wf r' /\ dims r r' /\ forall n, ~ writes V c n -> keeps (free c n) n r r'.
Lemma effect_same : forall c r, wf r -> effect c r r.
Proof. intros c r W. split; [exact W|]. split; [apply dims_refl|]. intros n _. apply keeps_refl. Qed.
Lemma keeps_dims : forall P n r r', keeps P n r r' -> dims r r'.
Proof. intros P n r r' H. exact (proj1 H). Qed.

Lemma set_values_effect : forall r k n init g, wf r -> effect (Set_values k n init g) r (fst (do r (Set_values k n init g))).
Proof.
  intros r k n init g W. cbn [on_region]. unfold set_values. cbv zeta.
  set (l0 := match g with Some (Some l) => l | _ => [] end).
  set (c := Set_values k n init g).
  assert (A : forall r' l, (match lookup r k init, lookup r k n with
      | Some Mi, Some M => if m_sol M then values V calc deps r init Mi else Some (r, l0) | _, _ => Some (r, l0) end) = Some (r', l) ->
      wf r' /\ forall n', keeps (~ In n' (deps init)) n' r r').
  { intros r' l E. assert (Same : Some (r, l0) = Some (r', l) -> wf r' /\ forall n', keeps (~ In n' (deps init)) n' r r').
    { intros X. injection X as <- _. split; [exact W|]. intros n'. apply keeps_refl. }
    destruct (lookup r k init) as [Mi|] eqn:Li; [|exact (Same E)]. destruct (lookup r k n) as [M|]; [|exact (Same E)].
    destruct (m_sol M); [|exact (Same E)]. destruct (values_ok r k init Mi r' l W Li E) as (W' & _ & _ & K). split; [exact W'|exact K]. }
  destruct (match lookup r k init with Some _ => _ | None => _ end) as [[r' l]|] eqn:E; [|apply effect_same; exact W].
  destruct (A r' l eq_refl) as [W' K]. assert (D := keeps_dims _ _ _ _ (K n)).
  assert (B : effect c r r').
  { split; [exact W'|]. split; [exact D|]. intros n' _. apply (keeps_mono (~ In n' (deps init))); [|apply K].
    intros F. apply F. right. reflexivity. }
  destruct (lookup r k n) as [M|] eqn:Ln; [|exact B]. destruct (negb (String.eqb init "") && _); [exact B|].
  destruct (Nat.eqb_spec (length l) (size r k)) as [Hs|_]; [|exact B].
  destruct (lookup r' k n) as [M1|] eqn:L1; [|exact B]. cbn [fst].
  split; [|split].
  - apply store_wf; [exact W'|exact (lookup_named _ _ _ _ W' L1)|]. rewrite list_cell_length, Hs, <- (dims_size r r' k D).
    apply (proj1 (lookup_iff _ _ _ _)) in L1. destruct L1 as (_ & <- & _). reflexivity.
  - exact (dims_trans _ _ _ D (dims_with _ _)).
  - intros n' N. apply (keeps_trans _ _ _ r').
    + apply (keeps_mono (~ In n' (deps init))); [|apply K]. intros F. apply F. right. reflexivity.
    + apply (keeps_mono (~ In n' (deps n))); [intros F; apply F; left; reflexivity|]. apply store_keeps; [exact W'|].
      intros X. apply N. symmetry. exact X.
Qed.
Lemma set_value_effect : forall r n i v, wf r -> effect (Set_value n i v) r (fst (do r (Set_value n i v))).
Proof.
  intros r n i v W. cbn [on_region]. unfold set_value. destruct (lookup r Node n) as [M|] eqn:L; [|apply effect_same; exact W].
  assert (F := proj1 (proj1 (lookup_iff _ _ _ _) L)).
  destruct ((_ || _)%bool); [apply effect_same; exact W|]. destruct (i =? -1)%Z.
  - cbn [fst]. split; [|split; [apply dims_with|]].
    + apply store_wf; [exact W|exact (named_in _ _ _ W F)|apply number_cell_length].
    + intros n' N. apply (keeps_mono (~ In n' (deps n))); [intros X; apply X; reflexivity|]. apply store_keeps; [exact W|].
      intros X. apply N. symmetry. exact X.
  - destruct (calculate V calc deps r n M) as [[r' M']|] eqn:C; [|apply effect_same; exact W]. cbn [fst].
    destruct (calculate_ok r n M r' M' W F C) as (W' & F' & _ & K). assert (D := keeps_dims _ _ _ _ (K n)).
    split; [|split].
    + apply store_wf; [exact W'|exact (named_in _ _ _ W F)|]. destruct (m_con M'); [apply number_cell_length|].
      cbn [assign elems]. unfold assign. cbn [elems]. rewrite put_at_length. exact (w_size _ W' n M' F').
    + exact (dims_trans _ _ _ D (dims_with _ _)).
    + intros n' N. apply (keeps_trans _ _ _ r').
      * apply (keeps_mono (~ In n' (deps n))); [intros X; apply X; reflexivity|apply K].
      * apply (keeps_mono (~ In n' (deps n))); [intros X; apply X; reflexivity|]. apply store_keeps; [exact W'|].
        intros X. apply N. symmetry. exact X.
Qed.
Lemma get_values_effect : forall r k n, wf r -> effect (Get_values k n) r (fst (do r (Get_values k n))).
Proof.
  intros r k n W. cbn [on_region]. unfold get_values. destruct (lookup r k n) as [M|] eqn:L; [|apply effect_same; exact W].
  destruct (values V calc deps r n M) as [[r' l]|] eqn:E; [|apply effect_same; exact W].
  destruct (values_ok r k n M r' l W L E) as (W' & _ & _ & K).
  assert (B : effect (Get_values k n) r r').
  { split; [exact W'|]. split; [exact (keeps_dims _ _ _ _ (K n))|]. intros n' _. apply (keeps_mono (~ In n' (deps n))); [|apply K].
    intros X. apply X. reflexivity. }
  destruct l; exact B.
Qed.
Lemma delete_effect : forall r k n, wf r -> effect (Delete k n) r (fst (do r (Delete k n))).
Proof.
  intros r k n W. cbn [on_region]. unfold delete_model. destruct (lookup r k n) as [M|] eqn:L; [|apply effect_same; exact W]. cbn [fst].
  assert (F : forall n', find n' (models (with_models V r (old (deps n) (erase n (models r))))) =
              if String.eqb n' n then None else option_map (aged (deps n) n') (find n' (models r))).
  { intros n'. cbn [with_models models]. rewrite find_old, find_erase by apply W. destruct (String.eqb n' n); reflexivity. }
  split; [|split; [apply dims_with|]].
  - split.
    + cbn [with_models models]. apply sorted_old, erase_sorted, W.
    + rewrite F. destruct (String.eqb ""%string n); [reflexivity|]. rewrite (w_name _ W). reflexivity.
    + intros n' M' F'. rewrite F in F'. destruct (String.eqb n' n); [discriminate|].
      destruct (find n' (models r)) as [Mn|] eqn:X; [|discriminate]. injection F' as <-. exact (w_size _ W n' Mn X).
  - intros n' N. assert (D : n' <> n) by (intros X; apply N; symmetry; exact X). apply String.eqb_neq in D.
    pose proof (F n') as F'. rewrite D in F'. apply (keeps_mono (~ In n' (deps n))); [intros X; apply X; reflexivity|].
    destruct (find n' (models r)) as [Mn|] eqn:X.
    + exact (aged_keeps n' (deps n) r _ Mn (dims_with _ _) X F').
    + split; [apply dims_with|]. cbn [option_map] in F'. rewrite X, F'. exact Logic.I.
Qed.
Lemma define_effect : forall r k n s c con, wf r -> n <> ""%string ->
  effect (Define k n s c con) r (fst (do r (Define k n s c con))).
Proof.
  intros r k n s c con W Nm. cbn [on_region]. unfold define.
  assert (B : effect (Define k n s c con) r (with_models V r (put n (mkM k s c con (Uni zero (size r k)) false) (models r)))).
  { assert (F : forall n', find n' (models (with_models V r (put n (mkM k s c con (Uni zero (size r k)) false) (models r)))) =
      if String.eqb n' n then Some (mkM k s c con (Uni zero (size r k)) false) else find n' (models r))
    by (intros n'; cbn [with_models models]; apply find_put, W).
    split; [|split; [apply dims_with|]].
    - split.
      + cbn [with_models models]. apply put_sorted, W.
      + rewrite F. destruct (String.eqb_spec ""%string n) as [<-|_]; [congruence|apply W].
      + intros n' M' F'. rewrite F in F'. change (size (with_models V r _) (m_kind M')) with (size r (m_kind M')).
        destruct (String.eqb n' n); [injection F' as <-; cbn [m_cell m_kind elems]; apply repeat_length|exact (w_size _ W n' M' F')].
    - intros n' N. assert (D : n' <> n) by (intros X; apply N; symmetry; exact X). apply String.eqb_neq in D.
      split; [apply dims_with|]. rewrite F, D. destruct (find n' (models r)); [|exact Logic.I].
      split; [reflexivity|]. split; [reflexivity|]. split; [reflexivity|]. split; [reflexivity|]. split; [reflexivity|]. intros _ U. split; [reflexivity|exact U]. }
  destruct (find n (models r)) as [M|]; [|exact B]. destruct (same_kind (m_kind M) k); [exact B|apply effect_same; exact W].
Qed.
Lemma do_effect : forall r c, wf r -> named V c -> effect c r (fst (do r c)).
Proof.
  intros r [k n i g|n i v|k n|k n|k n s c con] W N.
  - apply set_values_effect, W.
  - apply set_value_effect, W.
  - apply get_values_effect, W.
  - apply delete_effect, W.
  - apply define_effect; [exact W|exact N].
Qed.

(* ---- what the commands give ---- *)
Lemma get_iff : forall r k n l, wf r -> snd (do r (Get_values k n)) = Values l <->
  l <> [] /\ exists M, lookup r k n = Some M /\ option_map snd (values V calc deps r n M) = Some l.
Proof.
  intros r k n l W. cbn [on_region]. unfold get_values. destruct (lookup r k n) as [M|]; cbn [snd].
  - destruct (values V calc deps r n M) as [[r' [|x t]]|] eqn:E; cbn [snd option_map].
    + split; [discriminate|]. intros (H & M' & L & X). injection L as <-. rewrite E in X. injection X as <-. congruence.
    + split.
      * intros H. injection H as <-. split; [discriminate|]. exists M. rewrite E. auto.
      * intros (H & M' & L & X). injection L as <-. rewrite E in X. injection X as <-. reflexivity.
    + split; [discriminate|]. intros (H & M' & L & X). injection L as <-. rewrite E in X. discriminate.
  - split; [discriminate|]. intros (_ & M & L & _). discriminate.
Qed.
(* after a model has been stored *)
Lemma get_store : forall r k n M c, wf r -> lookup r k n = Some M -> elems V c <> [] ->
  snd (do (store V deps r n M c) (Get_values k n)) = Values (elems V c).
Proof.
  intros r k n M c W L N. cbn [on_region]. unfold get_values.
  assert (F : find n (models (store V deps r n M c)) = Some (mkM (m_kind M) (m_sol M) (m_calc M) (m_con M) c true)).
  { rewrite store_find by exact W. rewrite String.eqb_refl. reflexivity. }
  rewrite (lookup_dims r (store V deps r n M c) k n M _ (dims_with _ _) L F eq_refl). rewrite values_up by reflexivity. cbn [m_cell].
  destruct (elems V c); [congruence|reflexivity].
Qed.
(* reading again *)
Lemma get_again : forall r k n l P r', wf r -> snd (do r (Get_values k n)) = Values l ->
  (forall M, find n (models r) = Some M -> m_calc M = false) -> keeps P n r r' -> wf r' ->
  snd (do r' (Get_values k n)) = Values l.
Proof.
  intros r k n l P r' W G D K W'. apply get_iff in G; [|exact W]. destruct G as (Nl & M & L & E). apply get_iff; [exact W'|].
  split; [exact Nl|]. assert (F := proj1 (proj1 (lookup_iff _ _ _ _) L)). destruct K as [Dm K]. rewrite F in K.
  destruct (find n (models r')) as [M'|] eqn:F'; [|contradiction]. destruct K as (k1 & k2 & k3 & k4 & k5 & k6).
  exists M'. split; [exact (lookup_dims _ _ _ _ _ _ Dm L F' k1)|]. rewrite values_data by (rewrite k3; exact (D M F)).
  rewrite values_data in E by exact (D M F). rewrite (k5 (D M F)). exact E.
Qed.
Lemma get_fixed : forall r k n l, wf r -> snd (do r (Get_values k n)) = Values l ->
  exists M', lookup (fst (do r (Get_values k n))) k n = Some M' /\ m_up M' = true /\ l = elems V (m_cell M') /\ l <> [].
Proof.
  intros r k n l W. cbn [on_region]. unfold get_values. destruct (lookup r k n) as [M|] eqn:L; [|discriminate].
  destruct (values V calc deps r n M) as [[r' [|x t]]|] eqn:E; try discriminate. cbn [fst snd]. intros H. injection H as <-.
  destruct (values_ok r k n M r' (x :: t) W L E) as (_ & (M' & L' & U & X) & _). exists M'. repeat split; auto. discriminate.
Qed.
Lemma get_up : forall (P : Prop) r k n M r', lookup r k n = Some M -> m_up M = true -> P -> keeps P n r r' ->
  exists M', lookup r' k n = Some M' /\ m_up M' = true /\ m_cell M' = m_cell M.
Proof.
  intros P r k n M r' L U p [Dm K]. assert (F := proj1 (proj1 (lookup_iff _ _ _ _) L)). rewrite F in K.
  destruct (find n (models r')) as [M'|] eqn:F'; [|contradiction]. destruct K as (k1 & k2 & k3 & k4 & k5 & k6).
  destruct (k6 p U) as [A B]. exists M'. split; [exact (lookup_dims _ _ _ _ _ _ Dm L F' k1)|]. auto.
Qed.
End P.
