(* C69: the values given to a model are the values read back. *)
From Coq Require Import String List Bool Arith ZArith Lia.
From Verif Require Import StrMap ModelData SetValues SetValuesSpec SetValuesProofs.
Import ListNotations.
Open Scope string_scope.
Open Scope list_scope.
Open Scope nat_scope.

Section P.
Variable V : Type.
Variable zero : V.
Variable calcs : string -> region V -> string -> option (cell V).
Variable depss : string -> string -> list string.
Notation device := (smap (region V)).
Notation step := (exec zero calcs depss).
Notation after := (after V zero calcs depss).
Notation reads := (reads V zero calcs depss).
Notation reachable := (reachable V zero calcs depss).
Notation whole := (whole_evaluations V calcs).
Notation do reg := (on_region zero (calcs reg) (depss reg)).

Definition inv (s : device) : Prop := sorted s /\ forall reg r, find reg s = Some r -> wf V r.
Lemma step_eq : forall s reg r c, find reg s = Some r -> step s reg c = (put reg (fst (do reg r c)) s, snd (do reg r c)).
Proof. intros s reg r c F. unfold exec. rewrite F. destruct (on_region _ _ _ _ _); reflexivity. Qed.
Lemma step_none : forall s reg c, find reg s = None -> step s reg c = (s, Error No_region).
Proof. intros s reg c F. unfold exec. rewrite F. reflexivity. Qed.
Lemma reads_eq : forall s reg r k n l, find reg s = Some r -> (reads s reg k n l <-> snd (do reg r (Get_values k n)) = Values l).
Proof. intros s reg r k n l F. unfold SetValuesSpec.reads. rewrite (step_eq _ _ _ _ F). reflexivity. Qed.
Lemma reads_region : forall s reg k n l, reads s reg k n l -> exists r, find reg s = Some r.
Proof. intros s reg k n l. unfold SetValuesSpec.reads, exec. destruct (find reg s) as [r|]; [eauto|discriminate]. Qed.
Lemma find_step : forall s reg c r reg', inv s -> find reg s = Some r ->
  find reg' (fst (step s reg c)) = if String.eqb reg' reg then Some (fst (do reg r c)) else find reg' s.
Proof. intros s reg c r reg' I F. rewrite (step_eq _ _ _ _ F). cbn [fst]. apply find_put, I. Qed.
Lemma inv_step : forall s reg c, whole -> inv s -> named V c -> inv (fst (step s reg c)).
Proof.
  intros s reg c Wh I N. destruct (find reg s) as [r|] eqn:F; [|rewrite (step_none _ _ _ F); exact I].
  split; [rewrite (step_eq _ _ _ _ F); apply put_sorted, I|]. intros reg' r' F'. rewrite (find_step _ _ _ _ _ I F) in F'.
  destruct (String.eqb reg' reg); [|exact (proj2 I _ _ F')]. injection F' as <-.
  exact (proj1 (do_effect V zero calcs depss Wh reg r c (proj2 I _ _ F) N)).
Qed.
Lemma inv_after : forall l s, whole -> inv s -> (forall rc, In rc l -> named V (snd rc)) -> inv (after s l).
Proof.
  induction l as [|[reg c] t IH]; intros s Wh I N; [exact I|]. cbn. apply IH; [exact Wh| |intros rc H; apply N; right; exact H].
  apply inv_step; [exact Wh|exact I|exact (N (reg, c) (or_introl eq_refl))].
Qed.
Lemma reachable_inv : forall s, whole -> reachable s -> inv s.
Proof.
  intros s Wh (s0 & l & S0 & E & N & ->). apply inv_after; [exact Wh| |exact N]. split; [exact S0|]. intros reg r F. pose proof (E reg r F) as X.
  split; rewrite X; [constructor|reflexivity|discriminate].
Qed.
Lemma size_elements : forall s reg r k, find reg s = Some r -> elements V s reg k (size r k).
Proof.
  intros s reg r k F. exists r. split; [exact F|]. destruct k; cbn [size]; auto.
  destruct (Nat.eqb_spec (dim r) 2); [auto|]. destruct (Nat.eqb_spec (dim r) 3); auto.
Qed.
Lemma elements_size : forall s reg r k sz, find reg s = Some r -> elements V s reg k sz -> sz = size r k.
Proof.
  intros s reg r k sz F (r0 & F0 & H). rewrite F in F0. injection F0 as <-. destruct k; cbn [size]; auto.
  destruct (Nat.eqb_spec (dim r) 2), (Nat.eqb_spec (dim r) 3); lia.
Qed.
Lemma such_iff : forall P s reg k n r, find reg s = Some r ->
  (model_such_that V P s reg k n <-> exists M, lookup r k n = Some M /\ P M).
Proof.
  intros P s reg k n r F. split.
  - intros (r0 & M & F0 & H1 & H2 & H3 & H4). rewrite F in F0. injection F0 as <-. exists M. split; [apply lookup_iff; auto|exact H3].
  - intros (M & L & p). apply (proj1 (lookup_iff _ _ _ _ _)) in L. destruct L as (H1 & H2 & H3). exists r, M. auto.
Qed.
Lemma such_region : forall P s reg k n, model_such_that V P s reg k n -> exists r, find reg s = Some r.
Proof. intros P s reg k n (r & M & F & _). eauto. Qed.
Lemma such_det : forall P Q s reg k n, model_such_that V P s reg k n -> model_such_that V Q s reg k n ->
  model_such_that V (fun M => P M /\ Q M) s reg k n.
Proof.
  intros P Q s reg k n (r & M & F & H1 & H2 & H3 & H4) (r' & M' & F' & K1 & K2 & K3 & K4). rewrite F in F'. injection F' as <-.
  rewrite H1 in K1. injection K1 as <-. exists r, M. repeat split; auto.
Qed.
Lemma elems_list : forall (M : model V) l, m_con M = None -> elems V (list_cell V zero M l) = l.
Proof. intros M l C. unfold list_cell. rewrite C. reflexivity. Qed.
(* set_node_values on the region, without initializer *)
Lemma set_list_do : forall reg r k n l, wf V r ->
  do reg r (Set_values k n "" (Some (Some l))) =
  match lookup r k n with
  | None => (r, Error No_model)
  | Some M => if length l =? size r k then (store V (depss reg) r n M (list_cell V zero M l), Done) else (r, Error Wrong_number)
  end.
Proof.
  intros reg r k n l W. cbn [on_region]. unfold set_values. rewrite (lookup_empty V r k W). cbn [String.eqb negb andb].
  destruct (lookup r k n) as [M|] eqn:L; [rewrite ?L; destruct (length l =? size r k); reflexivity|reflexivity].
Qed.

(* The list given by the option values is what is read, if the model is not a contact model. *)
Theorem C69_list : forall s reg k n l, whole -> reachable s -> ordinary V s reg k n -> elements V s reg k (length l) -> l <> [] ->
  exists s', step s reg (Set_values k n "" (Some (Some l))) = (s', Done) /\ reads s' reg k n l.
Proof.
  intros s reg k n l Wh R O E Nl. pose proof (reachable_inv s Wh R) as I. destruct (such_region _ _ _ _ _ O) as [r F].
  apply (such_iff _ _ _ _ _ _ F) in O. destruct O as (M & L & C). pose proof (proj2 I _ _ F) as W.
  rewrite (step_eq _ _ _ _ F), (set_list_do _ _ _ _ _ W), L, <- (elements_size _ _ _ _ _ F E), Nat.eqb_refl.
  eexists. split; [reflexivity|]. cbn [fst]. apply (reads_eq _ _ (store V (depss reg) r n M (list_cell V zero M l))).
  { rewrite find_put by apply I. rewrite String.eqb_refl. reflexivity. }
  rewrite (get_store V zero calcs depss reg r k n M (list_cell V zero M l) W L); rewrite elems_list by exact C; auto.
Qed.
(* It is taken when the model exists and the number of values is right, and only then. *)
Theorem C69_accepted : forall s reg k n l, whole -> reachable s ->
  (snd (step s reg (Set_values k n "" (Some (Some l)))) = Done <-> exists_model V s reg k n /\ elements V s reg k (length l)).
Proof.
  intros s reg k n l Wh R. pose proof (reachable_inv s Wh R) as I. destruct (find reg s) as [r|] eqn:F.
  - pose proof (proj2 I _ _ F) as W. rewrite (step_eq _ _ _ _ F), (set_list_do _ _ _ _ _ W). cbn [snd].
    unfold exists_model. rewrite (such_iff _ _ _ _ _ _ F). split.
    + destruct (lookup r k n) as [M|]; [|discriminate]. destruct (Nat.eqb_spec (length l) (size r k)) as [H|H]; [|discriminate].
      intros _. split; [exists M; auto|]. rewrite H. apply size_elements, F.
    + intros ((M & L & _) & E). rewrite L, (elements_size _ _ _ _ _ F E), Nat.eqb_refl. reflexivity.
  - rewrite (step_none _ _ _ F). cbn. split; [discriminate|]. intros (X & _). destruct (such_region _ _ _ _ _ X). congruence.
Qed.
(* The option init_from: the model is a solution; it gets the values the other model has. *)
Theorem C69_init_from : forall s reg k n init l g, whole -> reachable s -> ordinary V s reg k n -> solution V s reg k n ->
  reads s reg k init l -> exists s', step s reg (Set_values k n init g) = (s', Done) /\ reads s' reg k n l.
Proof.
  intros s reg k n init l g Wh R O So Rd. pose proof (reachable_inv s Wh R) as I. destruct (such_region _ _ _ _ _ O) as [r F].
  pose proof (such_det _ _ _ _ _ _ O So) as OS. apply (such_iff _ _ _ _ _ _ F) in OS. destruct OS as (M & L & C & Sl).
  pose proof (proj2 I _ _ F) as W. apply (reads_eq _ _ _ _ _ _ F) in Rd. apply (get_iff V zero calcs depss reg r k init l W) in Rd.
  destruct Rd as (Nl & Mi & Li & Ev). destruct (values V (calcs reg) (depss reg) r init Mi) as [[r' l']|] eqn:E; [|discriminate].
  injection Ev as ->. destruct (values_ok V calcs depss Wh reg r k init Mi r' l W Li E) as (W' & _ & Len & K).
  assert (Fn := proj1 (proj1 (lookup_iff _ _ _ _ _) L)). destruct (K n) as [Dm Kn]. rewrite Fn in Kn.
  destruct (find n (models r')) as [M1|] eqn:F1; [|contradiction]. destruct Kn as (k1 & k2 & k3 & k4 & _).
  pose proof (lookup_dims V _ _ _ _ _ _ Dm L F1 k1) as L1.
  assert (X : do reg r (Set_values k n init g) = (store V (depss reg) r' n M1 (list_cell V zero M1 l), Done)).
  { cbn [on_region]. unfold set_values. rewrite L, Li, Sl, E. cbn [negb]. rewrite andb_false_r, Len, Nat.eqb_refl, L1. reflexivity. }
  rewrite (step_eq _ _ _ _ F), X. eexists. split; [reflexivity|]. cbn [fst].
  apply (reads_eq _ _ (store V (depss reg) r' n M1 (list_cell V zero M1 l))).
  { rewrite find_put by apply I. rewrite String.eqb_refl. reflexivity. }
  assert (C1 : m_con M1 = None) by congruence.
  rewrite (get_store V zero calcs depss reg r' k n M1 (list_cell V zero M1 l) W' L1); rewrite elems_list by exact C1; auto.
Qed.
Lemma put_at_spec : forall A (l : list A) i v, i < length l -> put_at l i v = firstn i l ++ v :: skipn (S i) l.
Proof.
  intros A l i v H. unfold put_at. f_equal. revert i H. induction l as [|x l IH]; intros i H; [cbn in H; lia|].
  destruct i; [reflexivity|]. apply IH. cbn in H. lia.
Qed.
(* set_node_value: one value changes *)
Theorem C69_one : forall s reg n l i v, whole -> reachable s -> ordinary V s reg Node n -> reads s reg Node n l -> i < length l ->
  exists s', step s reg (Set_value n (Z.of_nat i) v) = (s', Done) /\ reads s' reg Node n (firstn i l ++ v :: skipn (S i) l).
Proof.
  intros s reg n l i v Wh R O Rd Hi. pose proof (reachable_inv s Wh R) as I. destruct (such_region _ _ _ _ _ O) as [r F].
  apply (such_iff _ _ _ _ _ _ F) in O. destruct O as (M & L & C). pose proof (proj2 I _ _ F) as W.
  apply (reads_eq _ _ _ _ _ _ F) in Rd. apply (get_iff V zero calcs depss reg r Node n l W) in Rd. destruct Rd as (Nl & M0 & L0 & Ev).
  rewrite L in L0. injection L0 as <-. destruct (values V (calcs reg) (depss reg) r n M) as [[r' l']|] eqn:E; [|discriminate].
  injection Ev as ->. destruct (values_ok V calcs depss Wh reg r Node n M r' l W L E) as (_ & _ & Len & _).
  unfold values in E. destruct (calculate V (calcs reg) (depss reg) r n M) as [[r1 M1]|] eqn:Ca; [|discriminate]. injection E as -> E.
  assert (Fn := proj1 (proj1 (lookup_iff _ _ _ _ _) L)).
  destruct (calculate_ok V calcs depss Wh reg r n M r' M1 W Fn Ca) as (W' & F1 & U & K).
  destruct (K n) as [Dm Kn]. rewrite Fn, F1 in Kn. destruct Kn as (k1 & k2 & k3 & k4 & _).
  pose proof (lookup_dims V _ _ _ _ _ _ Dm L F1 k1) as L1. assert (C1 : m_con M1 = None) by congruence. cbn [size] in Len.
  assert (X : do reg r (Set_value n (Z.of_nat i) v) = (store V (depss reg) r' n M1 (assign V (m_cell M1) i v), Done)).
  { cbn [on_region]. unfold set_value. rewrite L.
    replace ((Z.of_nat i <? -1) || (negb (Z.of_nat i =? -1) && (Z.of_nat (nodes r) <=? Z.of_nat i)))%Z%bool with false.
    2:{ symmetry. apply orb_false_intro; [apply Z.ltb_ge; lia|]. apply andb_false_intro2. apply Z.leb_gt. lia. }
    replace (Z.of_nat i =? -1)%Z with false by (symmetry; apply Z.eqb_neq; lia). rewrite Ca, C1, Nat2Z.id. reflexivity. }
  rewrite (step_eq _ _ _ _ F), X. eexists. split; [reflexivity|]. cbn [fst].
  apply (reads_eq _ _ (store V (depss reg) r' n M1 (assign V (m_cell M1) i v))).
  { rewrite find_put by apply I. rewrite String.eqb_refl. reflexivity. }
  assert (Ee : elems V (assign V (m_cell M1) i v) = firstn i l ++ v :: skipn (S i) l).
  { unfold assign. cbn [elems]. rewrite E. apply put_at_spec, Hi. }
  rewrite (get_store V zero calcs depss reg r' Node n M1 (assign V (m_cell M1) i v) W' L1); rewrite Ee; [reflexivity|].
  destruct (firstn i l); discriminate.
Qed.
(* index -1 (the default): all of them *)
Theorem C69_all : forall s reg n v sz, whole -> reachable s -> ordinary V s reg Node n -> elements V s reg Node sz -> sz <> 0 ->
  exists s', step s reg (Set_value n (-1) v) = (s', Done) /\ reads s' reg Node n (repeat v sz).
Proof.
  intros s reg n v sz Wh R O E Nz. pose proof (reachable_inv s Wh R) as I. destruct (such_region _ _ _ _ _ O) as [r F].
  apply (such_iff _ _ _ _ _ _ F) in O. destruct O as (M & L & C). pose proof (proj2 I _ _ F) as W.
  pose proof (elements_size _ _ _ _ _ F E) as Hs. subst sz.
  assert (X : do reg r (Set_value n (-1) v) = (store V (depss reg) r n M (number_cell V zero r M v), Done)).
  { cbn [on_region]. unfold set_value. rewrite L. reflexivity. }
  rewrite (step_eq _ _ _ _ F), X. eexists. split; [reflexivity|]. cbn [fst].
  apply (reads_eq _ _ (store V (depss reg) r n M (number_cell V zero r M v))).
  { rewrite find_put by apply I. rewrite String.eqb_refl. reflexivity. }
  assert (Ee : elems V (number_cell V zero r M v) = repeat v (size r Node)).
  { unfold number_cell. rewrite C. cbn [elems]. apply (proj1 (lookup_iff _ _ _ _ _)) in L. destruct L as (_ & -> & _). reflexivity. }
  rewrite (get_store V zero calcs depss reg r Node n M (number_cell V zero r M v) W L); rewrite Ee; [reflexivity|].
  destruct (size r Node); [congruence|discriminate].
Qed.
(* An index that is not one of a node is an error and nothing changes. *)
Theorem C69_no_such_node : forall s reg n i v sz, reachable s -> exists_model V s reg Node n -> elements V s reg Node sz ->
  (i < -1 \/ Z.of_nat sz <= i)%Z -> snd (step s reg (Set_value n i v)) = Error No_index.
Proof.
  intros s reg n i v sz R O E Hi. destruct (such_region _ _ _ _ _ O) as [r F].
  apply (such_iff _ _ _ _ _ _ F) in O. destruct O as (M & L & _). pose proof (elements_size _ _ _ _ _ F E) as Hs. cbn [size] in Hs. subst sz.
  rewrite (step_eq _ _ _ _ F). cbn [on_region snd]. unfold set_value. rewrite L.
  replace ((i <? -1) || (negb (i =? -1) && (Z.of_nat (nodes r) <=? i)))%Z%bool with true; [reflexivity|]. symmetry.
  apply orb_true_iff. destruct Hi as [H|H]; [left; apply Z.ltb_lt; lia|].
  destruct (Z.ltb_spec i (-1)); [left; reflexivity|right]. apply andb_true_iff. split; [|apply Z.leb_le; lia].
  destruct (Z.eqb_spec i (-1)); [lia|reflexivity].
Qed.

(* The values stay until a command names the model to write or delete it: solutions. *)
Theorem C69_kept : forall cs s reg k n l, whole -> reachable s -> plain V s reg k n -> reads s reg k n l ->
  (forall reg' c, In (reg', c) cs -> named V c /\ (reg' = reg -> ~ writes V c n)) ->
  reads (after s cs) reg k n l.
Proof.
  intros cs s reg k n l Wh R. pose proof (reachable_inv s Wh R) as I. clear R. revert s I.
  induction cs as [|[reg' c] t IH]; intros s I P Rd N; [exact Rd|]. cbn.
  destruct (N reg' c (or_introl eq_refl)) as [Nm Nw]. destruct (such_region _ _ _ _ _ P) as [r F].
  destruct (find reg' s) as [r'|] eqn:F'.
  2:{ rewrite (step_none _ _ _ F'). cbn [fst]. apply IH; auto. intros x y H. apply N. right. exact H. }
  pose proof (inv_step s reg' c Wh I Nm) as I'. pose proof (find_step s reg' c r' reg I F') as Fs.
  destruct (String.eqb_spec reg reg') as [<-|D].
  - rewrite F in F'. injection F' as <-. specialize (Nw eq_refl). pose proof (proj2 I _ _ F) as W.
    destruct (do_effect V zero calcs depss Wh reg r c W Nm) as (W1 & Dm & K). specialize (K n Nw).
    apply (such_iff _ _ _ _ _ _ F) in P. destruct P as (M & L & C). assert (Fn := proj1 (proj1 (lookup_iff _ _ _ _ _) L)).
    apply IH.
    + exact I'.
    + apply (such_iff _ _ _ _ _ _ Fs). destruct K as [_ K]. rewrite Fn in K.
      destruct (find n (models (fst (do reg r c)))) as [M'|] eqn:F1; [|contradiction]. destruct K as (k1 & _ & k3 & _).
      exists M'. split; [exact (lookup_dims V _ _ _ _ _ _ Dm L F1 k1)|congruence].
    + apply (reads_eq _ _ _ _ _ _ Fs). apply (reads_eq _ _ _ _ _ _ F) in Rd.
      apply (get_again V zero calcs depss reg r k n l _ _ W Rd) with (2 := K); [|exact W1]. intros M0 F0. rewrite Fn in F0. injection F0 as <-. exact C.
    + intros x y H. apply N. right. exact H.
  - rewrite F in Fs. apply IH.
    + exact I'.
    + destruct P as (r0 & M & F0 & H). rewrite F in F0. injection F0 as <-. exists r, M. split; [exact Fs|exact H].
    + apply (reads_eq _ _ _ _ _ _ Fs). apply (reads_eq _ _ _ _ _ _ F). exact Rd.
    + intros x y H. apply N. right. exact H.
Qed.
(* Any model, once read: until a command names it, or a model it depends on. *)
Theorem C69_kept_all : forall cs s s1 reg k n l, whole -> reachable s -> step s reg (Get_values k n) = (s1, Values l) ->
  (forall reg' c, In (reg', c) cs -> named V c /\ (reg' = reg -> ~ writes V c n /\ forall m, names V c m -> ~ In n (depss reg m))) ->
  reads (after s1 cs) reg k n l.
Proof.
  intros cs s s1 reg k n l Wh R E N. pose proof (reachable_inv s Wh R) as I. clear R.
  destruct (find reg s) as [r|] eqn:F; [|rewrite (step_none _ _ _ F) in E; discriminate].
  pose proof (inv_step s reg (Get_values k n) Wh I Logic.I) as I1. rewrite E in I1. cbn [fst] in I1.
  pose proof (find_step s reg (Get_values k n) r reg I F) as F1. rewrite E, String.eqb_refl in F1. cbn [fst] in F1.
  rewrite (step_eq _ _ _ _ F) in E. injection E as E Ev.
  destruct (get_fixed V zero calcs depss Wh reg r k n l (proj2 I _ _ F) Ev) as (M & L & U & Hl & Nl). clear E Ev.
  generalize (fst (do reg r (Get_values k n))) F1 L. clear F I r F1 L. intros r F1 L. revert s1 r M I1 F1 L U Hl.
  induction cs as [|[reg' c] t IH]; intros s1 r M I1 F1 L U Hl.
  - cbn. apply (reads_eq _ _ _ _ _ _ F1). apply (get_iff V zero calcs depss reg r k n l (proj2 I1 _ _ F1)). split; [exact Nl|].
    exists M. split; [exact L|]. rewrite values_up by exact U. rewrite Hl. reflexivity.
  - cbn. destruct (N reg' c (or_introl eq_refl)) as [Nm Nw]. assert (N' : forall reg' c, In (reg', c) t -> named V c /\ (reg' = reg -> ~ writes V c n /\ forall m, names V c m -> ~ In n (depss reg m))) by (intros x y H; apply N; right; exact H).
    destruct (find reg' s1) as [r'|] eqn:F'.
    2:{ rewrite (step_none _ _ _ F'). cbn [fst]. exact (IH N' s1 r M I1 F1 L U Hl). }
    pose proof (inv_step s1 reg' c Wh I1 Nm) as I'. pose proof (find_step s1 reg' c r' reg I1 F') as Fs.
    destruct (String.eqb_spec reg reg') as [<-|D].
    + rewrite F1 in F'. injection F' as <-. destruct (Nw eq_refl) as [Nw1 Nd].
      destruct (do_effect V zero calcs depss Wh reg r c (proj2 I1 _ _ F1) Nm) as (W1 & Dm & K). specialize (K n Nw1).
      destruct (get_up V _ r k n M _ L U Nd K) as (M' & L' & U' & Hc). apply (IH N' _ _ M' I' Fs L' U'). congruence.
    + rewrite F1 in Fs. exact (IH N' _ r M I' Fs L U Hl).
Qed.
Lemma plain_after_list : forall s reg k n l s', whole -> inv s -> plain V s reg k n ->
  step s reg (Set_values k n "" (Some (Some l))) = (s', Done) -> plain V s' reg k n.
Proof.
  intros s reg k n l s' Wh I P E. destruct (such_region _ _ _ _ _ P) as [r F]. pose proof (proj2 I _ _ F) as W.
  apply (such_iff _ _ _ _ _ _ F) in P. destruct P as (M & L & C).
  pose proof (find_step s reg (Set_values k n "" (Some (Some l))) r reg I F) as F1. rewrite E, String.eqb_refl in F1. cbn [fst] in F1.
  rewrite (step_eq _ _ _ _ F) in E. rewrite (set_list_do _ _ _ _ _ W), L in E, F1. destruct (length l =? size r k); [|discriminate].
  cbn [fst] in F1. apply (such_iff _ _ _ _ _ _ F1).
  exists (mkM (m_kind M) (m_sol M) (m_calc M) (m_con M) (list_cell V zero M l) true). split; [|exact C].
  apply (lookup_dims V r _ k n M); [apply dims_with|exact L| |reflexivity]. rewrite store_find by exact W. rewrite String.eqb_refl. reflexivity.
Qed.
(* The last list that was given. *)
Theorem C69_last : forall cs s reg k n l, whole -> reachable s -> ordinary V s reg k n -> plain V s reg k n ->
  elements V s reg k (length l) -> l <> [] ->
  (forall reg' c, In (reg', c) cs -> named V c /\ (reg' = reg -> ~ writes V c n)) ->
  reads (after s ((reg, Set_values k n "" (Some (Some l))) :: cs)) reg k n l.
Proof.
  intros cs s reg k n l Wh R O P E Nl N. destruct (C69_list s reg k n l Wh R O E Nl) as (s' & Es & Rd).
  cbn. rewrite Es. cbn [fst]. apply C69_kept; auto.
  - destruct R as (s0 & c0 & H1 & H2 & H3 & ->). exists s0, (c0 ++ [(reg, Set_values k n "" (Some (Some l)))]).
    split; [exact H1|]. split; [exact H2|]. split.
    + intros rc Hr. apply in_app_or in Hr. destruct Hr as [Hr|[<-|[]]]; [exact (H3 _ Hr)|exact Logic.I].
    + unfold SetValuesSpec.after. rewrite fold_left_app. cbn. unfold SetValuesSpec.after in Es. rewrite Es. reflexivity.
  - exact (plain_after_list s reg k n l s' Wh (reachable_inv s Wh R) P Es).
Qed.
(* A command that reports an error gives no values: solutions keep theirs, and nothing at all changes if the command
   does not evaluate a model. *)
Lemma error_do : forall reg r c e, whole -> wf V r -> snd (do reg r c) = Error e ->
  (only_writes V c -> fst (do reg r c) = r) /\ exists P, forall n, keeps V (P n) n r (fst (do reg r c)).
Proof.
  intros reg r c e Wh W. destruct c as [k n init g|n i v|k n|k n|k n so co con]; cbn [on_region only_writes].
  - unfold set_values. cbv zeta. set (l0 := match g with Some (Some l) => l | _ => [] end).
    assert (A : forall r' l, (match lookup r k init, lookup r k n with
      | Some Mi, Some M => if m_sol M then values V (calcs reg) (depss reg) r init Mi else Some (r, l0) | _, _ => Some (r, l0) end) = Some (r', l) ->
      (init = ""%string -> r' = r) /\ forall n', keeps V (~ In n' (depss reg init)) n' r r').
    { intros r' l E. assert (Same : Some (r, l0) = Some (r', l) -> (init = "" -> r' = r) /\ forall n', keeps V (~ In n' (depss reg init)) n' r r').
      { intros X. injection X as <- _. split; [reflexivity|]. intros n'. apply keeps_refl. }
      destruct (lookup r k init) as [Mi|] eqn:Li; [|exact (Same E)]. destruct (lookup r k n) as [M|]; [|exact (Same E)].
      destruct (m_sol M); [|exact (Same E)]. destruct (values_ok V calcs depss Wh reg r k init Mi r' l W Li E) as (_ & _ & _ & K).
      split; [|exact K]. intros ->. rewrite (lookup_empty V r k W) in Li. discriminate. }
    destruct (match lookup r k init with Some _ => _ | None => _ end) as [[r' l]|] eqn:E.
    2:{ intros _. split; [reflexivity|]. exists (fun _ => True). intros n'. apply keeps_refl. }
    destruct (A r' l eq_refl) as [A1 A2].
    assert (B : forall x : reply V, (init = "" -> fst (r', x) = r) /\ exists P, forall n', keeps V (P n') n' r (fst (r', x)))
      by (intros x; split; [exact A1|exists (fun n' => ~ In n' (depss reg init)); exact A2]).
    destruct (lookup r k n) as [M|]; [|intros _; exact (B _)]. destruct (negb (String.eqb init "") && _); [intros _; exact (B _)|].
    destruct (length l =? size r k); [|intros _; exact (B _)]. destruct (lookup r' k n); [discriminate|intros _; exact (B _)].
  - unfold set_value. assert (B : forall x : reply V, (True -> fst (r, x) = r) /\ exists P, forall n', keeps V (P n') n' r (fst (r, x)))
      by (intros x; split; [reflexivity|exists (fun _ => True); intros n'; apply keeps_refl]).
    destruct (lookup r Node n) as [M|]; [|intros _; exact (B _)]. destruct (_ || _)%bool; [intros _; exact (B _)|].
    destruct (i =? -1)%Z; [discriminate|]. destruct (calculate _ _ _ _ _ _) as [[r' M']|]; [discriminate|intros _; exact (B _)].
  - intros _. split; [contradiction|]. exists (fun n' => free V depss reg (Get_values k n) n'). intros n'.
    apply (get_values_effect V zero calcs depss Wh reg r k n W). intros [].
  - unfold delete_model. destruct (lookup r k n); [discriminate|]. intros _. split; [reflexivity|]. exists (fun _ => True). intros n'. apply keeps_refl.
  - unfold define. destruct (find n (models r)) as [M|]; [|discriminate]. destruct (same_kind (m_kind M) k); [discriminate|].
    intros _. split; [reflexivity|]. exists (fun _ => True). intros n'. apply keeps_refl.
Qed.
Lemma put_same : forall (s : device) reg r, sorted s -> find reg s = Some r -> put reg r s = s.
Proof.
  intros s reg r Hs F. apply map_ext_sorted; [apply put_sorted, Hs|exact Hs|]. intros k. rewrite find_put by exact Hs.
  destruct (String.eqb_spec k reg) as [->|]; [symmetry; exact F|reflexivity].
Qed.
Theorem C69_error : forall s s' reg c e, whole -> reachable s -> named V c -> step s reg c = (s', Error e) ->
  (only_writes V c -> s' = s) /\
  forall reg' k n l, plain V s reg' k n -> reads s reg' k n l -> reads s' reg' k n l.
Proof.
  intros s s' reg c e Wh R Nm E. pose proof (reachable_inv s Wh R) as I. destruct (find reg s) as [r|] eqn:F.
  2:{ rewrite (step_none _ _ _ F) in E. injection E as <- _. auto. }
  pose proof (inv_step s reg c Wh I Nm) as I'. rewrite E in I'. cbn [fst] in I'.
  assert (Fs : forall reg', find reg' s' = if String.eqb reg' reg then Some (fst (do reg r c)) else find reg' s)
    by (intros reg'; rewrite <- (find_step s reg c r reg' I F), E; reflexivity).
  rewrite (step_eq _ _ _ _ F) in E. injection E as <- E. destruct (error_do reg r c e Wh (proj2 I _ _ F) E) as [A (P & K)].
  split.
  { intros Ow. rewrite (A Ow). apply put_same; [apply I|exact F]. }
  intros reg' k n l Pl Rd. pose proof (Fs reg') as Fr. destruct (String.eqb_spec reg' reg) as [X|D].
  - subst reg'. apply (reads_eq _ _ _ _ _ _ Fr). apply (reads_eq _ _ _ _ _ _ F) in Rd.
    apply (such_iff _ _ _ _ _ _ F) in Pl. destruct Pl as (M & L & C). assert (Fn := proj1 (proj1 (lookup_iff _ _ _ _ _) L)).
    apply (get_again V zero calcs depss reg r k n l _ _ (proj2 I _ _ F) Rd) with (2 := K n); [|exact (proj2 I' _ _ Fr)].
    intros M0 F0. rewrite Fn in F0. injection F0 as <-. exact C.
  - destruct (such_region _ _ _ _ _ Pl) as [r0 F0]. rewrite F0 in Fr. apply (reads_eq _ _ _ _ _ _ Fr). apply (reads_eq _ _ _ _ _ _ F0). exact Rd.
Qed.
End P.
Print Assumptions C69_list.
Print Assumptions C69_accepted.
Print Assumptions C69_init_from.
Print Assumptions C69_one.
Print Assumptions C69_all.
Print Assumptions C69_no_such_node.
Print Assumptions C69_kept.
Print Assumptions C69_kept_all.
Print Assumptions C69_last.
Print Assumptions C69_error.

(* ---- a device: x and y are solutions, d is x + 1, c a contact_node_model of the same expression at node 0 ---- *)
Definition ex_calc (reg : string) (r : region Z) (n : string) : option (cell Z) :=
  match find n (models r), find "x" (models r) with
  | Some M, Some X => Some (Vals (map (fun i => (nth i (elems Z (m_cell X)) 0 + 1)%Z) (seq 0 (size r (m_kind M)))))
  | _, _ => None
  end.
Definition ex_deps (reg n : string) : list string := if String.eqb n "x" then ["d"; "c"] else [].
Definition ex0 : smap (region Z) := [("oxide", mkR 1 2 1 0 0 []); ("silicon", mkR 1 3 2 0 0 [])].
Definition ex_made : list (string * command Z) :=
  [("silicon", Define Node "x" true false None); ("silicon", Define Node "y" true false None);
   ("silicon", Define Node "d" false true None); ("silicon", Define Node "c" false true (Some [0]));
   ("silicon", Define Edge "e" true false None); ("silicon", Set_values Node "x" "" (Some (Some [4; 5; 6]%Z)))].
Definition ex : smap (region Z) := after Z 0%Z ex_calc ex_deps ex0 ex_made.
Notation zstep := (exec 0%Z ex_calc ex_deps).
Notation zreads := (reads Z 0%Z ex_calc ex_deps).
Lemma ex_whole : whole_evaluations Z ex_calc.
Proof.
  intros reg r n c M F. unfold ex_calc. rewrite F. destruct (find "x" (models r)); [|discriminate]. intros H. injection H as <-.
  cbn [elems]. rewrite map_length, seq_length. reflexivity.
Qed.
Lemma ex_reachable : reachable Z 0%Z ex_calc ex_deps ex.
Proof.
  exists ex0, ex_made. split; [|split; [|split]].
  - unfold sorted. cbn. repeat constructor.
  - intros reg r. unfold ex0. cbn. destruct (String.eqb reg "oxide"); [intros H; injection H as <-; reflexivity|].
    destruct (String.eqb reg "silicon"); [intros H; injection H as <-; reflexivity|discriminate].
  - intros rc H. repeat (destruct H as [<-|H]; [cbn; auto; discriminate|]). destruct H.
  - reflexivity.
Qed.
Ltac model_of := eexists; eexists; split; [vm_compute; reflexivity|]; split; [vm_compute; reflexivity|];
  split; [reflexivity|]; split; [auto; reflexivity|discriminate].
Example C69_ex_read : zreads ex "silicon" Node "x" [4; 5; 6]%Z /\ zreads ex "silicon" Node "d" [5; 6; 7]%Z /\
  zreads ex "silicon" Node "y" [0; 0; 0]%Z.
Proof. repeat split; vm_compute; reflexivity. Qed.
Example C69_ex_list : ordinary Z ex "silicon" Node "d" /\ elements Z ex "silicon" Node (length [1; 2; 3]%Z).
Proof. split; [model_of|]. eexists. split; [vm_compute; reflexivity|reflexivity]. Qed.
Example C69_ex_init_from : ordinary Z ex "silicon" Node "y" /\ solution Z ex "silicon" Node "y" /\ plain Z ex "silicon" Node "y" /\
  zreads (fst (zstep ex "silicon" (Set_values Node "y" "d" None))) "silicon" Node "y" [5; 6; 7]%Z.
Proof. split; [model_of|]. split; [model_of|]. split; [model_of|]. vm_compute. reflexivity. Qed.
Example C69_ex_one : zreads (fst (zstep ex "silicon" (Set_value "d" 1 9%Z))) "silicon" Node "d" [5; 9; 7]%Z.
Proof. vm_compute. reflexivity. Qed.
(* commands that leave x alone; d after a reading, and commands on y *)
Example C69_ex_kept : plain Z ex "silicon" Node "x" /\
  (forall reg' c, In (reg', c) [("silicon", Set_value "d" 1 9%Z); ("silicon", Set_values Node "y" "x" None); ("oxide", Define Node "x" true false None); ("silicon", Delete Node "d")] ->
    named Z c /\ (reg' = "silicon" -> ~ writes Z c "x")) /\
  snd (zstep ex "silicon" (Get_values Node "d")) = Values [5; 6; 7]%Z /\
  (forall reg' c, In (reg', c) [("silicon", Set_value "y" (-1) 9%Z); ("silicon", Set_values Node "y" "y" None)] ->
    named Z c /\ (reg' = "silicon" -> ~ writes Z c "d" /\ forall m, names Z c m -> ~ In "d" (ex_deps "silicon" m))).
Proof.
  split; [model_of|]. split; [|split; [vm_compute; reflexivity|]].
  - intros reg' c H. repeat (destruct H as [H|H]; [injection H as <- <-; split; [cbn; auto; discriminate|cbn; intros; discriminate]|]). destruct H.
  - intros reg' c H. repeat (destruct H as [H|H]; [injection H as <- <-; split; [exact Logic.I|]; intros _; split; [cbn; discriminate|]|]); [| |destruct H].
    + intros m <-. intros [].
    + intros m [<-|<-]; intros [].
Qed.
Example C69_ex_error : zstep ex "silicon" (Set_values Node "x" "" (Some (Some [1; 2]%Z))) = (ex, Error Wrong_number) /\
  zstep ex "silicon" (Set_values Edge "x" "" (Some (Some [1; 2]%Z))) = (ex, Error No_model) /\
  zstep ex "silicon" (Set_value "x" 3 1%Z) = (ex, Error No_index) /\
  snd (zstep ex "silicon" (Set_values Node "y" "z" None)) = Error No_initializer.
Proof. repeat split; vm_compute; reflexivity. Qed.

(* Contact models: the node that is named does not get the value, all the nodes of the contact do, and all the other
   values become 0; a list is taken but most of it is lost. *)
Theorem C69_contact_refuted : exists s, reachable Z 0%Z ex_calc ex_deps s /\ exists_model Z s "silicon" Node "c" /\
  (exists s', zstep s "silicon" (Set_value "c" 2 7%Z) = (s', Done) /\ zreads s' "silicon" Node "c" [7; 0; 0]%Z) /\
  (exists s', zstep s "silicon" (Set_values Node "c" "" (Some (Some [1; 2; 3]%Z))) = (s', Done) /\ zreads s' "silicon" Node "c" [1; 0; 0]%Z).
Proof.
  exists ex. split; [exact ex_reachable|]. split; [model_of|]. split; eexists; (split; [vm_compute; reflexivity|vm_compute; reflexivity]).
Qed.
(* "Options values and init_from should not be specified at the same time" is never reported: a solution takes the
   values of the other model, another model the list *)
Theorem C69_both_refuted : exists s, reachable Z 0%Z ex_calc ex_deps s /\ zreads s "silicon" Node "x" [4; 5; 6]%Z /\
  (exists s', zstep s "silicon" (Set_values Node "y" "x" (Some (Some [1; 2; 3]%Z))) = (s', Done) /\ zreads s' "silicon" Node "y" [4; 5; 6]%Z) /\
  (exists s', zstep s "silicon" (Set_values Node "d" "x" (Some (Some [1; 2; 3]%Z))) = (s', Done) /\ zreads s' "silicon" Node "d" [1; 2; 3]%Z).
Proof.
  exists ex. split; [exact ex_reachable|]. split; [vm_compute; reflexivity|]. split; eexists; (split; [vm_compute; reflexivity|vm_compute; reflexivity]).
Qed.
(* "Option values could not be converted to a list of doubles" is never reported *)
Theorem C69_not_numbers_refuted : exists s s', reachable Z 0%Z ex_calc ex_deps s /\
  zstep s "silicon" (Set_values Node "y" "x" (Some None)) = (s', Done) /\
  snd (zstep s "silicon" (Set_values Node "y" "" (Some None))) = Error Wrong_number.
Proof. exists ex. eexists. split; [exact ex_reachable|]. split; vm_compute; reflexivity. Qed.
(* init_from is refused for models that are not solutions, with the message "wrong number of elements" *)
Theorem C69_init_from_refuted : exists s, reachable Z 0%Z ex_calc ex_deps s /\ ordinary Z s "silicon" Node "d" /\
  zreads s "silicon" Node "x" [4; 5; 6]%Z /\ snd (zstep s "silicon" (Set_values Node "d" "x" None)) = Error Wrong_number.
Proof. exists ex. split; [exact ex_reachable|]. split; [model_of|]. split; vm_compute; reflexivity. Qed.
(* C69_kept for models that are not solutions: the values given are lost when an input changes *)
Theorem C69_kept_refuted : exists s s1, reachable Z 0%Z ex_calc ex_deps s /\ ordinary Z s "silicon" Node "d" /\
  zstep s "silicon" (Set_values Node "d" "" (Some (Some [1; 2; 3]%Z))) = (s1, Done) /\ zreads s1 "silicon" Node "d" [1; 2; 3]%Z /\
  ~ writes Z (Set_value "x" 0 8%Z) "d" /\ zreads (fst (zstep s1 "silicon" (Set_value "x" 0 8%Z))) "silicon" Node "d" [9; 6; 7]%Z.
Proof.
  exists ex. eexists. split; [exact ex_reachable|]. split; [model_of|]. split; [vm_compute; reflexivity|]. split; [vm_compute; reflexivity|].
  split; [cbn; discriminate|vm_compute; reflexivity].
Qed.
Print Assumptions C69_contact_refuted.
Print Assumptions C69_both_refuted.
Print Assumptions C69_not_numbers_refuted.
Print Assumptions C69_init_from_refuted.
Print Assumptions C69_kept_refuted.
