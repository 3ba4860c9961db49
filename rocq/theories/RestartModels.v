(* Proofs about models and equations of a device that is restored. *)
From Coq Require Import String List Bool Arith ZArith Lia.
Import ListNotations.
Require Import Verif.StrMap Verif.Adjacency Verif.Loader Verif.LoaderSpec Verif.Restart Verif.RestartWrite Verif.RestartSpec Verif.RestartProofs
  Verif.RestartRead Verif.RestartDeviceSpec Verif.RestartDevice3 Verif.RestartModelsSpec.
Local Arguments Nat.eqb : simpl never.

Section Models.
Variable A : Type.
Variable of_int : Z -> A.
Variable run : list (command A) -> command A -> bool.
Variable builtin : mtype -> string -> bool.

Lemma run_all_ok : forall cs log, (forall pre c post, cs = pre ++ c :: post -> run (log ++ pre) c = true) -> run_all A run cs log true = (true, log ++ cs).
Proof.
  induction cs as [|c cs IH]; intros log H; [cbn; rewrite app_nil_r; reflexivity|]. cbn [run_all]. pose proof (H [] c cs eq_refl) as E. rewrite app_nil_r in E. rewrite E.
  rewrite IH; [rewrite <- app_assoc; reflexivity|]. intros pre d post Q. rewrite <- app_assoc. apply (H (c :: pre) d post). rewrite Q. reflexivity.
Qed.
Definition part_succeed (log cs : list (command A)) : Prop := forall pre c post, cs = pre ++ c :: post -> run (log ++ pre) c = true.
Lemma part_succeed_app : forall log a b, part_succeed log (a ++ b) -> part_succeed log a /\ part_succeed (log ++ a) b.
Proof.
  intros log a b H. split.
  - intros pre c post E. apply (H pre c (post ++ b)). rewrite E, <- app_assoc. reflexivity.
  - intros pre c post E. rewrite <- app_assoc. apply (H (a ++ pre) c post). rewrite E, <- app_assoc. reflexivity.
Qed.

Lemma read_commands : forall ms, commands_in A (map (fun p => (fst p, solution_of A of_int (fst (snd p)) (snd (snd p)))) ms) =
  flat_map (fun q => match snd (snd q) with BCommand _ n o => [called A (n, o)] | _ => [] end) ms.
Proof.
  induction ms as [|[k [m b]] ms IH]; [reflexivity|]. cbn [map commands_in flat_map fst snd]. f_equal; [destruct b; reflexivity|exact IH].
Qed.
Lemma iface_commands : forall ms, commands_in A (map (fun p => (fst p, solution_of A of_int MIface (BCommand A (fst (snd p)) (snd (snd p))))) ms) = map (fun q => called A (snd q)) ms.
Proof. induction ms as [|[k [n o]] ms IH]; [reflexivity|]. cbn [map commands_in flat_map fst snd]. cbn. f_equal. exact IH. Qed.

Lemma give_step : forall x m b, (match b with BData _ vs => length vs = expected x m | _ => True end) -> give A of_int x (solution_of A of_int m b) = (true, value_of A of_int b).
Proof. intros x m b H. unfold give. destruct b; cbn in *; try reflexivity. rewrite H, Nat.eqb_refl. reflexivity. Qed.
Lemma give_all_ok : forall x ms acc, sorted (snd acc) -> fst acc = true -> NoDup (map fst ms) ->
  (forall k m b, In (k, (m, b)) ms -> match b with BData _ vs => length vs = expected x m | _ => True end) ->
  let out := fold_left (fun acc p => let y := snd p in
               if builtin (s_type A y) (fst p) then acc
               else match s_data A y with
                    | DBuiltin => acc
                    | _ => (fst acc && fst (give A of_int x y), put (fst p) (s_type A y, snd (give A of_int x y)) (snd acc))
                    end) (map (fun p => (fst p, solution_of A of_int (fst (snd p)) (snd (snd p)))) ms) acc in
  fst out = true /\ sorted (snd out) /\
  (forall k, ~ In k (map fst ms) -> find k (snd out) = find k (snd acc)) /\
  forall k m b, In (k, (m, b)) ms -> builtin m k = false -> b <> BBuiltin A -> find k (snd out) = Some (m, value_of A of_int b).
Proof.
  intros x. induction ms as [|[k0 [m0 b0]] ms IH]; intros acc S T N H; cbn zeta; [cbn; repeat split; auto; intros ? ? ? []|].
  cbn [map fold_left fst snd]. set (y := solution_of A of_int m0 b0). assert (TY : s_type A y = m0) by (destruct b0; reflexivity).
  cbn [map fst] in N. apply NoDup_cons_iff in N. destruct N as [N1 N2].
  set (acc' := if builtin (s_type A y) k0 then acc else match s_data A y with DBuiltin => acc | _ => _ end).
  assert (AC : (acc' = acc /\ (builtin m0 k0 = true \/ b0 = BBuiltin A)) \/ (acc' = (true, put k0 (m0, value_of A of_int b0) (snd acc)))).
  { unfold acc'. rewrite TY. destruct (builtin m0 k0) eqn:EB; [left; auto|].
    assert (G : give A of_int x y = (true, value_of A of_int b0)) by (apply give_step, (H k0 m0 b0); left; reflexivity). rewrite G, T. cbn [fst snd andb].
    destruct b0; cbn [y solution_of s_data]; auto. }
  assert (S' : sorted (snd acc')) by (destruct AC as [[-> _]| ->]; [exact S|apply put_sorted, S]).
  assert (T' : fst acc' = true) by (destruct AC as [[-> _]| ->]; [exact T|reflexivity]).
  destruct (IH acc' S' T' N2) as (Q1 & Q2 & Q3 & Q4); [intros k m b I; apply (H k m b); right; exact I|]. cbn zeta in Q1, Q2, Q3, Q4.
  split; [exact Q1|]. split; [exact Q2|]. split.
  - intros k NI. rewrite Q3 by (intros I; apply NI; right; exact I). destruct AC as [[-> _]| ->]; [reflexivity|]. cbn [snd]. rewrite find_put by exact S.
    destruct (String.eqb_spec k k0) as [->|]; [exfalso; apply NI; left; reflexivity|reflexivity].
  - intros k m b [E|I] B NB; [|apply Q4; assumption]. injection E as -> -> ->. rewrite Q3 by exact N1. destruct AC as [[_ [C|C]]| ->]; [congruence|contradiction|].
    cbn [snd]. rewrite find_put, String.eqb_refl by exact S. reflexivity.
Qed.
Definition region_done (n : string) (r : sregion A) (vs : smap (mtype * given_values A)) : Prop :=
  forall k m b, In (k, (m, b)) (sr_models A r) -> builtin m k = false -> b <> BBuiltin A -> find k vs = Some (m, value_of A of_int b).
Lemma load_regions_ok : forall dim rs l vals log, sorted vals -> NoDup (map fst l) ->
  (forall n r, In (n, r) l -> exists x, find n rs = Some x /\ region_shown A r x) ->
  (forall n r, In (n, r) l -> sorted (sr_models A r)) ->
  (forall n r k m vs, In (n, r) l -> In (k, (m, BData A vs)) (sr_models A r) -> length vs = values_needed A r m) ->
  part_succeed log (flat_map (fun p => region_commands A (snd p)) l) ->
  exists vals', load_regions A of_int run builtin rs (map (fun p => (fst p, region_read A of_int dim (snd p))) l) true vals log =
      (true, vals', log ++ flat_map (fun p => region_commands A (snd p)) l) /\ sorted vals' /\
    (forall n, ~ In n (map fst l) -> find n vals' = find n vals) /\
    forall n r, In (n, r) l -> exists vs, find n vals' = Some vs /\ region_done n r vs.
Proof.
  intros dim rs. induction l as [|[n r] l IH]; intros vals log S N F SM HL HS.
  - exists vals. cbn. rewrite app_nil_r. split; [reflexivity|]. split; [exact S|]. split; [reflexivity|]. intros ? ? [].
  - cbn [map fst snd flat_map] in *. inversion N as [|? ? N1 N2]; subst. destruct (F n r (or_introl eq_refl)) as (x & Fx & SH).
    cbn [load_regions]. rewrite Fx.
    assert (HG : forall k m b, In (k, (m, b)) (sr_models A r) -> match b with BData _ vs => length vs = expected x m | _ => True end).
    { intros k m b I. destruct b; auto. rewrite (HL n r k m vs (or_introl eq_refl) I). destruct SH as (E1 & E2 & E3 & E4). unfold values_needed, expected. rewrite E1, E2, E3, E4. reflexivity. }
    pose proof (give_all_ok x (sr_models A r) (true, []) (sorted_nil _) eq_refl (sorted_NoDup _ (SM n r (or_introl eq_refl))) HG) as G. cbn zeta in G.
    unfold region_read at 1 2 3. cbn [cr_models cr_equations]. unfold give_all. destruct (fold_left _ _ _) as [ok vs]. cbn [fst snd] in G. destruct G as (-> & Sv & _ & Gv). cbn [andb].
    apply part_succeed_app in HS. destruct HS as [H1 H2].
    assert (EC : commands_in A (map (fun p => (fst p, solution_of A of_int (fst (snd p)) (snd (snd p)))) (sr_models A r)) ++ map snd (map (fun p => (fst p, called A (snd p))) (sr_equations A r)) = region_commands A r).
    { unfold region_commands. rewrite read_commands, map_map. reflexivity. }
    rewrite EC, (run_all_ok _ _ H1).
    destruct (IH (put n vs vals) (log ++ region_commands A r)) as (vals' & E & Sv' & K1 & K2).
    + apply put_sorted, S. + exact N2. + intros n' r' I. apply (F n' r'). right. exact I.
    + intros n' r' I. apply (SM n' r'). right. exact I. + intros n' r' k m w I. apply (HL n' r' k m w). right. exact I. + exact H2.
    + exists vals'. split; [rewrite app_assoc; exact E|]. split; [exact Sv'|]. split.
      * intros n' NI. rewrite K1 by (intros I; apply NI; right; exact I). rewrite find_put by exact S. destruct (String.eqb_spec n' n) as [->|]; [exfalso; apply NI; left; reflexivity|reflexivity].
      * intros n' r' [E'|I]; [|apply (K2 n' r' I)]. injection E' as <- <-. exists vs. rewrite K1 by exact N1. rewrite find_put, String.eqb_refl by exact S. split; [reflexivity|exact Gv].
Qed.
Lemma load_models_ok : forall s d d', shows A s d -> restored d d' -> proper A s -> complete_data A s -> succeed A run (commands_of A s) ->
  exists x, load_models A of_int run builtin (read A of_int s) d' = (true, x) /\ ld_device A x = d' /\ ld_coords A x = sv_coords A s /\
    ld_materials A x = map (fun p => (fst p, sr_material A (snd p))) (sv_regions A s) /\
    ld_cmaterials A x = map (fun p => (fst p, sc_material (snd p))) (sv_contacts A s) /\
    ld_commands A x = commands_of A s /\ values_restored A of_int builtin s x.
Proof.
  intros s d d' (SD & SR & SC & SI) (RD & RR & RC & RI) (P1 & P2 & P3 & Q1 & Q2 & Q3) CD HS. unfold load_models.
  assert (HS0 : part_succeed [] (commands_of A s)) by (intros pre c post E; apply (HS pre c post E)).
  unfold commands_of in HS0. apply part_succeed_app in HS0. destruct HS0 as [H1 H2]. apply part_succeed_app in H2. destruct H2 as [H2 H3]. cbn [app] in H2, H3.
  destruct (load_regions_ok (sv_dim A s) (d_regions d') (sv_regions A s) [] []) as (vals & E & Sv & _ & K).
  - apply sorted_nil. - apply (sorted_NoDup _ P1).
  - intros n r I. rewrite RR. assert (SDR : sorted (d_regions d)) by (apply (named_sorted _ _ _ _ _ SR P1)).
    assert (I' : exists x, In (n, x) (d_regions d) /\ region_shown A r x).
    { clear - SR I. induction SR as [|[n1 r1] [n2 x2] l m [E1 E2] SR IH]; [destruct I|]. cbn [fst snd] in *. destruct I as [I|I].
      - injection I as -> ->. subst n2. exists x2. split; [left; reflexivity|exact E2].
      - destruct (IH I) as (x & J1 & J2). exists x. split; [right; exact J1|exact J2]. }
    destruct I' as (x & J1 & J2). exists x. split; [|exact J2]. apply find_NoDup; [apply (sorted_NoDup _ SDR)|exact J1].
  - intros n r I. rewrite Forall_forall in Q1. apply (Q1 _ I).
  - intros n r k m vs I J. apply (CD n r k m vs I J).
  - exact H1.
  - cbn [read co_regions co_interfaces co_contacts co_coords]. rewrite E. cbn [app].
    assert (EI : flat_map (fun p => commands_in A (ci_models A (snd p)) ++ map snd (ci_equations A (snd p))) (map (fun p => (fst p, interface_read A of_int (sv_dim A s) (snd p))) (sv_interfaces A s)) =
       flat_map (fun p => interface_commands A (snd p)) (sv_interfaces A s)).
    { clear. induction (sv_interfaces A s) as [|[n i] l IH]; [reflexivity|]. cbn [map flat_map fst snd]. f_equal; [|exact IH]. unfold interface_read, interface_commands. cbn [ci_models ci_equations]. rewrite iface_commands, map_map. reflexivity. }
    assert (EC : flat_map (fun p => map snd (cc_equations A (snd p))) (map (fun p => (fst p, contact_read A (sv_dim A s) (snd p))) (sv_contacts A s)) =
       flat_map (fun p => contact_commands A (snd p)) (sv_contacts A s)).
    { clear. induction (sv_contacts A s) as [|[n i] l IH]; [reflexivity|]. cbn [map flat_map fst snd]. f_equal; [|exact IH]. unfold contact_read, contact_commands. cbn [cc_equations]. rewrite map_map. reflexivity. }
    rewrite EI, (run_all_ok _ _ H2), EC, (run_all_ok _ _ H3). eexists. split; [reflexivity|]. cbn [ld_device ld_coords ld_materials ld_cmaterials ld_commands ld_values].
    split; [reflexivity|]. split; [reflexivity|]. split; [rewrite map_map; reflexivity|]. split; [rewrite map_map; reflexivity|]. split; [unfold commands_of; rewrite app_assoc; reflexivity|].
    intros n r I. destruct (K n r I) as (vs & F & G). exists vs. split; [exact F|exact G].
Qed.
End Models.
