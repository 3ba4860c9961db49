(* Where the results of a small-signal or noise solve are stored. *)
From Coq Require Import String List Bool Arith Lia Reals ZArith.
From Verif Require Import StrMap EqTable EqTableProofs NodeKeeper NodeKeeperProofs Numbering NumberingProofs Assembly AssemblyProofs Load LoadProofs SmallSignal.
Import ListNotations.
Open Scope string_scope.
Open Scope list_scope.
Open Scope nat_scope.
Local Arguments Nat.ltb : simpl never.
Local Arguments Nat.eqb : simpl never.

(* ---- names ------------------------------------------------------------------------- *)
Lemma append_length : forall a b, String.length (a ++ b)%string = String.length a + String.length b.
Proof. induction a as [|x a IH]; intros b; cbn; [reflexivity|]. rewrite IH. reflexivity. Qed.
Lemma append_inj : forall a b s t, String.length s = String.length t -> (a ++ s = b ++ t)%string -> a = b /\ s = t.
Proof.
  induction a as [|x a IH]; intros [|y b] s t L H; cbn in H.
  - auto.
  - subst s. cbn [String.length] in L. rewrite append_length in L. lia.
  - subst t. cbn [String.length] in L. rewrite append_length in L. lia.
  - injection H as -> H. destruct (IH _ _ _ L H) as (-> & ->). auto.
Qed.
Lemma append_inj_l : forall a s t, (a ++ s = a ++ t)%string -> s = t.
Proof. induction a as [|x a IH]; intros s t H; cbn in H; [exact H|]. injection H as H. apply IH. exact H. Qed.

(* ---- sequences ------------------------------------------------------------------------ *)
Lemma all_out_map : forall {A B} (f : A -> out B) g l, (forall a, In a l -> f a = OK (g a)) -> all_out (map f l) = OK (map g l).
Proof.
  intros A B f g. induction l as [|a t IH]; intros H; cbn [map all_out]; [reflexivity|]. rewrite (H a (or_introl eq_refl)). cbn [Load.bind].
  rewrite IH by (intros b Hb; apply H; right; exact Hb). reflexivity.
Qed.

Section Update.
Context {S : Type}.
Variable names : smap (list S) -> string -> string -> option (string * string).
Variable nm : string -> string -> string * string.
Variable P : smap (list S) -> string -> Prop.
Hypothesis names_ok : forall ms e v, P ms v -> names ms e v = Some (nm e v).
Hypothesis P_put : forall ms v k x, P ms v -> P (put k x ms) v.
Variable get : Z -> out (S * S).

(* the models of the equations of a table *)
Definition both (q : string * eqn unit) : list string := [fst (nm (fst q) (q_var (snd q))); snd (nm (fst q) (q_var (snd q)))].
Lemma update_equations_ok : forall rg (val : string -> nat -> S * S) l ms, sorted ms ->
  (forall e q, In (e, q) l -> P ms (q_var q)) ->
  (forall e q, In (e, q) l -> exists ind, equation_index (r_table rg) e = Some ind /\
     forall i, i < r_nodes rg -> exists row, region_row rg ind i = Some row /\ get row = OK (val e i)) ->
  NoDup (flat_map both l) ->
  exists ms', update_equations rg names get l ms = OK ms' /\ sorted ms' /\
    (forall e q, In (e, q) l -> find (fst (nm e (q_var q))) ms' = Some (map (fun i => fst (val e i)) (seq 0 (r_nodes rg))) /\
                                find (snd (nm e (q_var q))) ms' = Some (map (fun i => snd (val e i)) (seq 0 (r_nodes rg)))) /\
    (forall k, ~ In k (flat_map both l) -> find k ms' = find k ms).
Proof.
  intros rg val. induction l as [|[e q] t IH]; intros ms Sm HP HV ND; cbn [update_equations].
  - exists ms. split; [reflexivity|]. split; [exact Sm|]. split; [intros e q []|]. reflexivity.
  - rewrite (names_ok _ e _ (HP e q (or_introl eq_refl))). destruct (HV e q (or_introl eq_refl)) as (ind & Ei & Hi). rewrite Ei.
    pose proof (surjective_pairing (nm e (q_var q))) as En. destruct (nm e (q_var q)) as [re im] eqn:Enm. cbn [fst snd] in En.
    assert (Ev : node_values rg ind get = OK (map (val e) (seq 0 (r_nodes rg)))).
    { unfold node_values. apply all_out_map. intros i Hin. apply in_seq in Hin. destruct (Hi i ltac:(lia)) as (row & -> & E). exact E. }
    rewrite Ev. cbn [Load.bind]. unfold set_models.
    set (ms1 := put im (map snd (map (val e) (seq 0 (r_nodes rg)))) (put re (map fst (map (val e) (seq 0 (r_nodes rg)))) ms)).
    assert (S1 : sorted ms1) by (apply put_sorted; apply put_sorted; exact Sm).
    assert (Hb : both (e, q) = [re; im]) by (unfold both; cbn [fst snd]; rewrite Enm; reflexivity).
    change (flat_map both ((e, q) :: t)) with (both (e, q) ++ flat_map both t) in *. rewrite Hb in *. cbn [app] in *.
    apply NoDup_cons_iff in ND. destruct ND as (N1 & ND). apply NoDup_cons_iff in ND. destruct ND as (N2 & ND).
    destruct (IH ms1 S1) as (ms' & E & S' & A & B).
    + intros e' q' Hin. unfold ms1. apply P_put. apply P_put. eapply HP. right. exact Hin.
    + intros e' q' Hin. eapply HV. right. exact Hin.
    + exact ND.
    + exists ms'. split; [exact E|]. split; [exact S'|]. split.
      * intros e' q' [Hin|Hin]; [|apply A; exact Hin]. injection Hin as <- <-. rewrite Enm. cbn [fst snd].
        rewrite !B; [| exact N2 | intros H; apply N1; right; exact H]. unfold ms1.
        rewrite !find_put by (try apply put_sorted; exact Sm). rewrite !String.eqb_refl.
        destruct (String.eqb_spec re im) as [->|Hne]; [exfalso; apply N1; left; reflexivity|]. rewrite !map_map. auto.
      * intros k Hk. rewrite B by (intros H; apply Hk; right; right; exact H).
        unfold ms1. rewrite !find_put by (try apply put_sorted; exact Sm).
        destruct (String.eqb_spec k im) as [->|]; [exfalso; apply Hk; right; left; reflexivity|].
        destruct (String.eqb_spec k re) as [->|]; [exfalso; apply Hk; left; reflexivity|]. reflexivity.
Qed.

(* what must hold in a region, and what has become of it *)
Definition region_ready (val : string -> nat -> S * S) (rg : Numbering.region) (ms : smap (list S)) : Prop :=
  sorted ms /\ (t_num (r_table rg) = 0 -> t_eqs (r_table rg) = []) /\
  (forall e q, In (e, q) (t_eqs (r_table rg)) -> P ms (q_var q)) /\
  (forall e q, In (e, q) (t_eqs (r_table rg)) -> exists ind, equation_index (r_table rg) e = Some ind /\
     forall i, i < r_nodes rg -> exists row, region_row rg ind i = Some row /\ get row = OK (val e i)) /\
  NoDup (flat_map both (t_eqs (r_table rg))).
Definition region_done (val : string -> nat -> S * S) (rg : Numbering.region) (ms ms' : smap (list S)) : Prop :=
  sorted ms' /\
  (forall e q, In (e, q) (t_eqs (r_table rg)) -> find (fst (nm e (q_var q))) ms' = Some (map (fun i => fst (val e i)) (seq 0 (r_nodes rg))) /\
                              find (snd (nm e (q_var q))) ms' = Some (map (fun i => snd (val e i)) (seq 0 (r_nodes rg)))) /\
  (forall k, ~ In k (flat_map both (t_eqs (r_table rg))) -> find k ms' = find k ms).
Lemma update_region_ok : forall val rg ms, region_ready val rg ms -> exists ms', update_region names get rg ms = OK ms' /\ region_done val rg ms ms'.
Proof.
  intros val rg ms (Sm & Z & HP & HV & ND). unfold update_region. destruct (t_num (r_table rg)) as [|n] eqn:En.
  - exists ms. split; [reflexivity|]. unfold region_done. rewrite (Z eq_refl). split; [exact Sm|]. split; [intros e q []|]. reflexivity.
  - apply update_equations_ok; assumption.
Qed.
Lemma update_regions_ok : forall (val : string -> string -> nat -> S * S) d l m, NoDup (keys l) ->
  (forall r rg, In (r, rg) l -> region_ready (val r) rg (m d r)) ->
  exists m', update_regions names get d l m = OK m' /\
    (forall r rg, In (r, rg) l -> region_done (val r) rg (m d r) (m' d r)) /\
    (forall d' r', (d' <> d \/ ~ In r' (keys l)) -> m' d' r' = m d' r').
Proof.
  intros val d. induction l as [|[r rg] t IH]; intros m ND HR; cbn [update_regions].
  - exists m. split; [reflexivity|]. split; [intros r rg []|]. reflexivity.
  - cbn [keys map fst] in ND. apply NoDup_cons_iff in ND. destruct ND as (Nr & ND).
    destruct (update_region_ok (val r) rg (m d r) (HR r rg (or_introl eq_refl))) as (v & Ev & Dv). rewrite Ev. cbn [Load.bind].
    destruct (IH (set_region m d r v) ND) as (m' & E & A & B).
    + intros r' rg' Hin. unfold set_region. rewrite String.eqb_refl. destruct (String.eqb_spec r' r) as [->|]; [exfalso; apply Nr; apply in_map_iff; exists (r, rg'); auto|].
      apply HR. right. exact Hin.
    + exists m'. split; [exact E|]. split.
      * intros r' rg' [Hin|Hin].
        -- injection Hin as <- <-. rewrite (B d r) by (right; exact Nr). unfold set_region. rewrite !String.eqb_refl. exact Dv.
        -- specialize (A r' rg' Hin). unfold set_region in A. rewrite String.eqb_refl in A.
           destruct (String.eqb_spec r' r) as [->|]; [exfalso; apply Nr; apply in_map_iff; exists (r, rg'); auto|]. exact A.
      * intros d' r' H. rewrite B by (destruct H as [H|H]; [left; exact H|right; intros Hi; apply H; right; exact Hi]). unfold set_region.
        destruct (String.eqb_spec d' d) as [->|]; [|reflexivity]. destruct (String.eqb_spec r' r) as [->|]; [|reflexivity].
        exfalso. destruct H as [H|H]; [apply H; reflexivity|apply H; left; reflexivity].
Qed.
Lemma update_devices_ok : forall (val : string -> string -> string -> nat -> S * S) l m, NoDup (keys l) -> (forall d dv, In (d, dv) l -> NoDup (keys dv)) ->
  (forall d dv r rg, In (d, dv) l -> In (r, rg) dv -> region_ready (val d r) rg (m d r)) ->
  exists m', update_devices names get l m = OK m' /\
    (forall d dv r rg, In (d, dv) l -> In (r, rg) dv -> region_done (val d r) rg (m d r) (m' d r)) /\
    (forall d' r', (forall d dv, In (d, dv) l -> d' <> d \/ ~ In r' (keys dv)) -> m' d' r' = m d' r').
Proof.
  intros val. induction l as [|[d dv] t IH]; intros m ND NR HR; cbn [update_devices].
  - exists m. split; [reflexivity|]. split; [intros d dv r rg []|]. reflexivity.
  - cbn [keys map fst] in ND. apply NoDup_cons_iff in ND. destruct ND as (Nd & ND).
    destruct (update_regions_ok (val d) d dv m (NR d dv (or_introl eq_refl)) (fun r rg H => HR d dv r rg (or_introl eq_refl) H)) as (m1 & E1 & A1 & B1).
    rewrite E1. cbn [Load.bind].
    assert (Ot : forall d' r', d' <> d -> m1 d' r' = m d' r') by (intros; apply B1; left; assumption).
    assert (Nt : forall d' dv', In (d', dv') t -> d' <> d) by (intros d' dv' Hin ->; apply Nd; apply in_map_iff; exists (d, dv'); auto).
    destruct (IH m1 ND) as (m' & E & A & B).
    + intros d' dv' Hin. eapply NR. right. exact Hin.
    + intros d' dv' r' rg' Hin Hr. rewrite Ot by (eapply Nt; exact Hin). eapply HR; [right; exact Hin|exact Hr].
    + exists m'. split; [exact E|]. split.
      * intros d' dv' r' rg' [Hin|Hin] Hr.
        -- injection Hin as <- <-. rewrite (B d r'); [apply A1; exact Hr|]. intros d2 dv2 H2. left. intros ->. exact (Nt d2 dv2 H2 eq_refl).
        -- pose proof (A d' dv' r' rg' Hin Hr) as X. rewrite Ot in X by (eapply Nt; exact Hin). exact X.
      * intros d' r' H. rewrite B by (intros d2 dv2 H2; apply H with (dv := dv2); right; exact H2). apply B1. exact (H d dv (or_introl eq_refl)).
Qed.
End Update.

(* ---- the circuit ------------------------------------------------------------------------ *)
Section Circuit.
Context {S : Type}.
Lemma circuit_values_ok : forall (k : keeper) (x : list (S * S)) l re im,
  (forall s nd, In (s, nd) l -> is_ground nd = false -> exists i, n_num nd = Some i /\ i < length re /\ i < length im /\ i + k_min k < length x) ->
  (forall s nd s' nd' i, In (s, nd) l -> In (s', nd') l -> is_ground nd = false -> is_ground nd' = false -> n_num nd = Some i -> n_num nd' = Some i -> s = s') ->
  NoDup (keys l) ->
  exists re' im', circuit_values k x l re im = OK (re', im') /\ length re' = length re /\ length im' = length im /\
    (forall s nd i, In (s, nd) l -> is_ground nd = false -> n_num nd = Some i ->
       exists v, nth_error x (i + k_min k) = Some v /\ nth_error re' i = Some (fst v) /\ nth_error im' i = Some (snd v)) /\
    (forall j, (forall s nd, In (s, nd) l -> is_ground nd = false -> n_num nd <> Some j) -> nth_error re' j = nth_error re j /\ nth_error im' j = nth_error im j).
Proof.
  intros k x. induction l as [|[s nd] t IH]; intros re im Hn Hd ND; cbn [circuit_values].
  - exists re, im. split; [reflexivity|]. split; [reflexivity|]. split; [reflexivity|]. split; [intros s nd i []|auto].
  - cbn [keys map fst] in ND. apply NoDup_cons_iff in ND. destruct ND as (Ns & ND).
    assert (Hd' : forall s nd s' nd' i, In (s, nd) t -> In (s', nd') t -> is_ground nd = false -> is_ground nd' = false -> n_num nd = Some i -> n_num nd' = Some i -> s = s').
    { intros a na b nb i Ha Hb. apply (Hd a na b nb i); right; assumption. }
    destruct (is_ground nd) eqn:G.
    + destruct (IH re im) as (re' & im' & E & L1 & L2 & A & B); [intros; eapply Hn; [right; eassumption|assumption]|exact Hd'|exact ND|].
      exists re', im'. split; [exact E|]. split; [exact L1|]. split; [exact L2|]. split.
      * intros s' nd' i [Hin|Hin] G'; [injection Hin as <- <-; congruence|]. apply A with (s := s') (nd := nd'); assumption.
      * intros j Hj. apply B. intros s' nd' Hin. apply Hj with (s := s'). right. exact Hin.
    + destruct (Hn s nd (or_introl eq_refl) G) as (i & Ei & H1 & H2 & H3). rewrite Ei.
      destruct (nth_error x (i + k_min k)) as [v|] eqn:Ev; [|apply nth_error_None in Ev; lia].
      destruct (set_nth_some re i (fst v) H1) as (re1 & Er). destruct (set_nth_some im i (snd v) H2) as (im1 & Em). rewrite Er, Em.
      destruct (set_nth_spec _ _ _ _ Er) as (Lr & _ & Nr). destruct (set_nth_spec _ _ _ _ Em) as (Lm & _ & Nm).
      destruct (IH re1 im1) as (re' & im' & E & L1 & L2 & A & B).
      * intros s' nd' Hin G'. rewrite Lr, Lm. eapply Hn; [right; eassumption|assumption].
      * exact Hd'.
      * exact ND.
      * exists re', im'. split; [exact E|]. split; [congruence|]. split; [congruence|]. split.
        -- intros s' nd' j [Hin|Hin] G' Ej; [|apply A with (s := s') (nd := nd'); assumption].
           injection Hin as <- <-. assert (j = i) by congruence. subst j. exists v. split; [exact Ev|].
           destruct (B i) as (B1 & B2).
           { intros s2 nd2 Hin2 G2 E2. assert (s = s2) by (eapply Hd; [left; reflexivity|right; exact Hin2|assumption|assumption|exact Ei|exact E2]). subst s2.
             apply Ns. apply in_map_iff. exists (s, nd2). auto. }
           rewrite B1, B2, Nr, Nm, !Nat.eqb_refl. auto.
        -- intros j Hj. destruct (B j) as (B1 & B2); [intros s2 nd2 Hin2; apply Hj with (s := s2); right; exact Hin2|].
           rewrite B1, B2, Nr, Nm. destruct (Nat.eqb_spec j i) as [->|]; [|auto]. exfalso. exact (Hj s nd (or_introl eq_refl) G Ei).
Qed.
End Circuit.
