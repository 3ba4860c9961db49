(* C58: what a load that failed leaves behind; C59: errors while a device is restored are reported. *)
From Coq Require Import String List Bool Arith ZArith Lia.
Import ListNotations.
Require Import Verif.StrMap Verif.Adjacency Verif.Loader Verif.LoaderSpec Verif.LoaderProofs Verif.Restart Verif.RestartWrite Verif.RestartSpec Verif.RestartProofs
  Verif.RestartRead Verif.RestartRead2 Verif.RestartDeviceSpec Verif.RestartDevice Verif.RestartDevice3 Verif.RestartModelsSpec Verif.RestartModels Verif.RestartProperties.
Local Arguments Nat.ltb : simpl never.
Local Arguments Nat.leb : simpl never.
Local Arguments Nat.eqb : simpl never.
Open Scope string_scope.
Open Scope list_scope.

Section Fail.
Variable A : Type.
Variable of_int : Z -> A.
Variable run : list (command A) -> command A -> bool.
Variable builtin : mtype -> string -> bool.
Notation load := (load_devices A of_int run builtin).

(* Once the scanner is left inside a section no file that begins with a device can be read: every load fails and
   changes nothing, whatever the file says. *)
Theorem C58_stuck_refuted : forall w s f, w_stack A w <> [] -> load w (write_device A s ++ f) = Failure A w.
Proof.
  intros w s f N. destruct w as [st lo ms ds ld]. cbn [w_stack] in N. destruct st as [|x st]; [congruence|].
  unfold load_devices, write_device. cbn [app parse_file w_stack lex].
  assert (L : line_word A (x :: st) "begin_device" = (TWord A "begin_device", x :: st)).
  { destruct x as [| | | | | | | | |m| |]; try reflexivity. destruct m; reflexivity. }
  rewrite L. reflexivity.
Qed.
(* The same holds, from the second load on, when the loader of an earlier load was not given up. *)
Theorem C58_loader_refuted : forall w s f c, w_stack A w = [] -> w_loader A w = Some c ->
  exists w', load w (write_device A s ++ f) = Failure A w' /\ w_stack A w' <> [].
Proof.
  intros [st lo ms ds ld] s f c Es El. cbn [w_stack w_loader] in *. subst st lo. eexists. split; [reflexivity|]. cbn. discriminate.
Qed.

(* ... and these states are left by failing loads: a device whose name is the name of a mesh is refused, and from then on nothing can
   be loaded. *)
Theorem C58_name_refuted : forall s d, writable A run s d -> forall w, w_stack A w = [] -> w_loader A w = None -> In (sv_name A s) (w_meshes A w) ->
  exists w', load w (write_device A s) = Failure A w' /\ w_devices A w' = w_devices A w /\
    forall s' f, load w' (write_device A s' ++ f) = Failure A w'.
Proof.
  intros s d _ [st lo ms ds ld] Es El I. cbn [w_stack w_loader w_meshes w_devices] in *. subst st lo.
  assert (E : existsb (String.eqb (sv_name A s)) ms = true). { apply existsb_exists. exists (sv_name A s). split; [exact I|apply String.eqb_refl]. }
  exists (Build_world A [S_device] None ms ds ld). split; [|split; [reflexivity|]].
  - unfold load_devices, write_device. cbn [app parse_file w_stack lex line_word opens find String.eqb Ascii.eqb Bool.eqb w_loader w_meshes w_devices w_loaded].
    unfold step at 1. cbn [fresh q_place top_token]. unfold step at 1. cbn [at_place q_place app length words_of]. change (Nat.eqb 1 1) with true. cbn [enter nth]. rewrite E. reflexivity.
  - intros s' f. apply C58_stuck_refuted. discriminate.
Qed.
(* A file that ends before end_device (a disk that was full, say) is read without error, makes no device, and nothing can be loaded after it. *)
Definition cut_file (s : saved A) : list (lexeme A) := [Line A "begin_device"; Quoted A (sv_name A s); NL A] ++ write_coordinates A (sv_coords A s).
Theorem C58_truncated_refuted : forall s, (exists rest, write_device A s = cut_file s ++ rest) /\
  forall w, w_stack A w = [] -> w_loader A w = None -> ~ In (sv_name A s) (w_meshes A w) ->
  exists w', load w (cut_file s) = Success A w' /\ w_devices A w' = w_devices A w /\
    forall s' f, load w' (write_device A s' ++ f) = Failure A w'.
Proof.
  intros s. split; [eexists; unfold write_device, cut_file; rewrite <- app_assoc; reflexivity|].
  intros [st lo ms ds ld] Es El NI. cbn [w_stack w_loader w_meshes w_devices] in *. subst st lo.
  assert (E : existsb (String.eqb (sv_name A s)) ms = false) by (apply existsb_In; exact NI).
  eexists. split; [|split].
  - unfold load_devices, cut_file. cbn [app parse_file w_stack lex line_word opens find String.eqb Ascii.eqb Bool.eqb w_loader w_meshes w_devices w_loaded].
    unfold step at 1. cbn [fresh q_place top_token]. unfold step at 1. cbn [at_place q_place app length words_of]. change (Nat.eqb 1 1) with true. cbn [enter nth]. rewrite E.
    cbn [co_name new_content in_command]. fold (parse_file A of_int run builtin). unfold write_coordinates, section. cbn [app].
    etransitivity. { eapply (parse_go A of_int run builtin [S_device] (new_content A (sv_name A s)) (sv_name A s :: ms) ds ld); [reflexivity|]. reflexivity. }
    rewrite parse_nl by reflexivity. etransitivity; [apply coordinates_items|]. erewrite parse_go; [| reflexivity | reflexivity]. rewrite !parse_nl by reflexivity. reflexivity.
  - reflexivity.
  - intros s' f. apply C58_stuck_refuted. discriminate.
Qed.
End Fail.
Print Assumptions C58_stuck_refuted.
Print Assumptions C58_loader_refuted.
Print Assumptions C58_name_refuted.
Print Assumptions C58_truncated_refuted.
(* The hypotheses can be met: the device of the example, a world in which its name is taken. *)
Example C58_case : writable Z (fun _ _ => true) (ex_saved "a") ex_device /\
  exists w', load_devices Z (fun z => z) (fun _ _ => true) (fun _ _ => false) (Build_world Z [] None ["a"] [] []) (write_device Z (ex_saved "a")) = Failure Z w' /\
    load_devices Z (fun z => z) (fun _ _ => true) (fun _ _ => false) w' (write_device Z (ex_saved "b")) = Failure Z w' /\
    exists w2, load_devices Z (fun z => z) (fun _ _ => true) (fun _ _ => false) (Build_world Z [] None ["a"] [] []) (write_device Z (ex_saved "b")) = Success Z w2.
Proof. split; [apply C57_restart_case|]. eexists. split; [vm_compute; reflexivity|]. split; [vm_compute; reflexivity|]. eexists. vm_compute. reflexivity. Qed.
(* a device without coordinates is refused after the loader was made *)
Theorem C58_unfinished_refuted : exists (f : list (lexeme Z)) w', load_devices Z (fun z => z) (fun _ _ => true) (fun _ _ => false) (Build_world Z [] None [] [] []) f = Failure Z w' /\
  w_loader Z w' <> None.
Proof. exists [Line Z "begin_device"; Quoted Z "d"; NL Z; Line Z "end_device"; NL Z]. eexists. split; [vm_compute; reflexivity|]. discriminate. Qed.
Print Assumptions C58_unfinished_refuted.

(* ---------------------------------------------------------------- errors of commands *)
Section Commands.
Variable A : Type.
Variable of_int : Z -> A.
Variable run : list (command A) -> command A -> bool.
Variable builtin : mtype -> string -> bool.
Notation load := (load_devices A of_int run builtin).
Lemma run_all_log : forall cs log ret, snd (run_all A run cs log ret) = log ++ cs.
Proof. induction cs as [|c cs IH]; intros log ret; cbn [run_all]; [rewrite app_nil_r; reflexivity|]. rewrite IH, <- app_assoc. reflexivity. Qed.
(* failure is what remains to be reported when the commands cs are still to be run *)
Definition bad (log cs : list (command A)) (ret : bool) : Prop := (cs = [] /\ ret = false) \/ exists pre c, cs = pre ++ [c] /\ run (log ++ pre) c = false.
Lemma run_all_bad : forall cs rest log ret, bad log (cs ++ rest) ret -> bad (log ++ cs) rest (fst (run_all A run cs log ret)).
Proof.
  induction cs as [|c cs IH]; intros rest log ret H; cbn [run_all app] in *; [rewrite app_nil_r; exact H|].
  replace (log ++ c :: cs) with ((log ++ [c]) ++ cs) by (rewrite <- app_assoc; reflexivity). apply IH.
  destruct H as [[H _]|(pre & d & E & R)]; [discriminate|]. destruct pre as [|p pre]; cbn [app] in E; injection E as -> E.
  - left. rewrite app_nil_r in R. split; [exact E|exact R].
  - right. exists pre, d. split; [exact E|]. rewrite <- app_assoc. exact R.
Qed.
Lemma bad_false : forall log cs ret, bad log cs ret -> bad log cs false.
Proof. intros log cs ret [[E _]|H]; [left; auto|right; exact H]. Qed.
Lemma load_regions_any : forall dim rs l rest vals log ret, sorted vals ->
  (forall n r, In (n, r) l -> find n rs <> None) -> bad log (flat_map (fun p => region_commands A (snd p)) l ++ rest) ret \/ True ->
  exists ret' vals', load_regions A of_int run builtin rs (map (fun p => (fst p, region_read A of_int dim (snd p))) l) ret vals log =
      (ret', vals', log ++ flat_map (fun p => region_commands A (snd p)) l) /\
    (bad log (flat_map (fun p => region_commands A (snd p)) l ++ rest) ret -> bad (log ++ flat_map (fun p => region_commands A (snd p)) l) rest ret').
Proof.
  intros dim rs. induction l as [|[n r] l IH]; intros rest vals log ret S F _.
  - exists ret, vals. cbn. rewrite app_nil_r. split; [reflexivity|auto].
  - cbn [map fst snd flat_map load_regions]. destruct (find n rs) as [x|] eqn:Fx; [|exfalso; apply (F n r); [left; reflexivity|exact Fx]].
    destruct (give_all A of_int builtin x (cr_models A (region_read A of_int dim r))) as [ok vs].
    assert (EC : commands_in A (cr_models A (region_read A of_int dim r)) ++ map snd (cr_equations A (region_read A of_int dim r)) = region_commands A r).
    { unfold region_commands, region_read. cbn [cr_models cr_equations]. rewrite read_commands, map_map. reflexivity. }
    rewrite EC. pose proof (run_all_log (region_commands A r) log (ret && ok)) as EL. pose proof (fun rest' => run_all_bad (region_commands A r) rest' log (ret && ok)) as EB.
    destruct (run_all A run (region_commands A r) log (ret && ok)) as [ret1 log1]. cbn [fst snd] in EL, EB. subst log1.
    destruct (IH rest (put n vs vals) (log ++ region_commands A r) ret1 (put_sorted _ _ _ S)) as (ret' & vals' & E & B); [intros n' r' I; apply (F n' r'); right; exact I|right; exact I|].
    exists ret', vals'. rewrite app_assoc. split; [exact E|]. intros HB. apply B. apply EB. rewrite <- app_assoc in HB.
    destruct HB as [[HB1 HB2]|HB]; [left; split; [exact HB1|rewrite HB2; reflexivity]|right; exact HB].
Qed.
Lemma load_models_any : forall s d', proper A s -> keys (d_regions d') = keys (sv_regions A s) ->
  exists ok x, load_models A of_int run builtin (read A of_int s) d' = (ok, x) /\ ld_device A x = d' /\ ld_commands A x = commands_of A s /\ ld_coords A x = sv_coords A s /\
    (forall pre c, commands_of A s = pre ++ [c] -> run pre c = false -> ok = false).
Proof.
  intros s d' (P1 & P2 & P3 & Q1 & Q2 & Q3) K. unfold load_models.
  set (ci := flat_map (fun p => interface_commands A (snd p)) (sv_interfaces A s)). set (cc := flat_map (fun p => contact_commands A (snd p)) (sv_contacts A s)).
  destruct (load_regions_any (sv_dim A s) (d_regions d') (sv_regions A s) (ci ++ cc) [] [] true (sorted_nil _)) as (ret & vals & E & B); [|right; exact I|].
  { intros n r I. apply find_keys. rewrite K. unfold keys. apply (in_map fst) in I. exact I. }
  cbn [read co_regions co_interfaces co_contacts co_coords]. rewrite E. cbn [app].
  assert (EI : flat_map (fun p => commands_in A (ci_models A (snd p)) ++ map snd (ci_equations A (snd p))) (map (fun p => (fst p, interface_read A of_int (sv_dim A s) (snd p))) (sv_interfaces A s)) = ci).
  { unfold ci. clear. induction (sv_interfaces A s) as [|[n i] l IH]; [reflexivity|]. cbn [map flat_map fst snd]. f_equal; [|exact IH]. unfold interface_read, interface_commands. cbn [ci_models ci_equations]. rewrite iface_commands, map_map. reflexivity. }
  assert (EC : flat_map (fun p => map snd (cc_equations A (snd p))) (map (fun p => (fst p, contact_read A (sv_dim A s) (snd p))) (sv_contacts A s)) = cc).
  { unfold cc. clear. induction (sv_contacts A s) as [|[n i] l IH]; [reflexivity|]. cbn [map flat_map fst snd]. f_equal; [|exact IH]. unfold contact_read, contact_commands. cbn [cc_equations]. rewrite map_map. reflexivity. }
  rewrite EI. set (cr := flat_map (fun p => region_commands A (snd p)) (sv_regions A s)) in *.
  pose proof (run_all_log ci cr ret) as L1. pose proof (fun rest => run_all_bad ci rest cr ret) as B1. destruct (run_all A run ci cr ret) as [ret1 log1]. cbn [fst snd] in L1, B1. subst log1.
  rewrite EC. pose proof (run_all_log cc (cr ++ ci) ret1) as L2. pose proof (fun rest => run_all_bad cc rest (cr ++ ci) ret1) as B2. destruct (run_all A run cc (cr ++ ci) ret1) as [ret2 log2]. cbn [fst snd] in L2, B2. subst log2.
  exists ret2. eexists. split; [reflexivity|]. cbn [ld_device ld_commands ld_coords]. split; [reflexivity|]. split; [unfold commands_of; fold cr ci cc; rewrite app_assoc; reflexivity|]. split; [reflexivity|].
  intros pre c EQ R. unfold commands_of in EQ. fold cr ci cc in EQ. specialize (B2 []). rewrite app_nil_r in B2. destruct B2 as [[_ B2]|(? & ? & X & _)].
  - apply B1. apply B. right. exists pre, c. split; [exact EQ|exact R].
  - exact B2.
  - destruct x; discriminate.
Qed.
(* Whatever the commands of a well formed file do, the device is made, every command is run, and the next file can be read. *)
Lemma one_device_any : forall s d w, shows A s d -> whole A s d -> proper A s -> w_stack A w = [] -> w_loader A w = None -> sorted (w_devices A w) -> sorted (w_loaded A w) ->
  ~ In (sv_name A s) (w_meshes A w) -> find (sv_name A s) (w_devices A w) = None ->
  exists ok w' d' x, load w (write_device A s) = (if ok : bool then Success A w' else Failure A w') /\ w_stack A w' = [] /\ w_loader A w' = None /\
    find (sv_name A s) (w_devices A w') = Some d' /\ restored d d' /\ find (sv_name A s) (w_loaded A w') = Some x /\ ld_commands A x = commands_of A s /\
    (forall pre c, commands_of A s = pre ++ [c] -> run pre c = false -> ok = false).
Proof.
  intros s d [st lo ms ds ld] SH WH PR Es El Sd Sl NM ND. cbn [w_stack w_loader w_devices w_loaded w_meshes] in *. subst st lo.
  destruct (device_restored A of_int s d ds SH WH PR (has_find _ _ _ ND)) as (m & m' & d' & E1 & E2 & R).
  destruct (load_models_any s d' PR) as (ok & x & E3 & X1 & X2 & X3 & X4).
  { destruct R as (_ & -> & _). destruct SH as (_ & SR & _). symmetry. apply (named_keys _ _ _ _ _ SR). }
  assert (DD : 1 <= sv_dim A s <= 3) by (destruct SH as (-> & _); apply WH).
  exists ok. exists (Build_world A [] None (sv_name A s :: ms) (put (sv_name A s) d' ds) (put (sv_name A s) x ld)), d', x. split.
  - unfold load_devices. rewrite <- (app_nil_r (write_device A s)).
    etransitivity; [apply (device_section A of_int run builtin s ms ds ld (fresh A) [] DD PR (proj2 (existsb_In _ _) NM)); left; reflexivity|].
    unfold finish. rewrite E1. change (co_name A (read A of_int s)) with (sv_name A s). cbn [w_devices w_meshes w_loaded]. rewrite E2.
    rewrite find_put, String.eqb_refl by exact Sd. rewrite E3. destruct ok; reflexivity.
  - cbn [w_stack w_loader w_devices w_loaded]. rewrite !find_put, String.eqb_refl by assumption. repeat (split; [reflexivity || assumption|]). exact X4.
Qed.
Theorem C58_next_file_partial : forall s d w, shows A s d -> whole A s d -> proper A s -> w_stack A w = [] -> w_loader A w = None -> sorted (w_devices A w) -> sorted (w_loaded A w) ->
  ~ In (sv_name A s) (w_meshes A w) -> find (sv_name A s) (w_devices A w) = None ->
  exists w' d' x, (load w (write_device A s) = Success A w' \/ load w (write_device A s) = Failure A w') /\ w_stack A w' = [] /\ w_loader A w' = None /\
    find (sv_name A s) (w_devices A w') = Some d' /\ restored d d' /\ find (sv_name A s) (w_loaded A w') = Some x /\ ld_commands A x = commands_of A s.
Proof.
  intros s d w H1 H2 H3 H4 H5 H6 H7 H8 H9. destruct (one_device_any s d w H1 H2 H3 H4 H5 H6 H7 H8 H9) as (ok & w' & d' & x & E & X1 & X2 & X3 & X4 & X5 & X6 & _).
  exists w', d', x. split; [destruct ok; auto|]. auto 10.
Qed.
(* The failure of the last command is reported. *)
Theorem C59_last_command_partial : forall s d w, shows A s d -> whole A s d -> proper A s -> w_stack A w = [] -> w_loader A w = None -> sorted (w_devices A w) -> sorted (w_loaded A w) ->
  ~ In (sv_name A s) (w_meshes A w) -> find (sv_name A s) (w_devices A w) = None ->
  forall before c, commands_of A s = before ++ [c] -> run before c = false -> exists w', load w (write_device A s) = Failure A w'.
Proof.
  intros s d w H1 H2 H3 H4 H5 H6 H7 H8 H9 pre c E R. destruct (one_device_any s d w H1 H2 H3 H4 H5 H6 H7 H8 H9) as (ok & w' & d' & x & EL & _ & _ & _ & _ & _ & _ & K).
  exists w'. rewrite (K pre c E R) in EL. exact EL.
Qed.
End Commands.
Print Assumptions C58_next_file_partial.
Print Assumptions C59_last_command_partial.
(* The hypotheses are met by the example; the command of its last equation fails. *)
Example C59_last_command_case : exists before c, commands_of Z (ex_saved "a") = before ++ [c] /\ shows Z (ex_saved "a") ex_device /\ whole Z (ex_saved "a") ex_device /\ proper Z (ex_saved "a") /\
  exists w', load_devices Z (fun z => z) (fun log _ => Nat.ltb (length log) 2) (fun _ _ => false) (Build_world Z [] None [] [] []) (write_device Z (ex_saved "a")) = Failure Z w'.
Proof.
  exists (firstn 2 (commands_of Z (ex_saved "a"))). eexists. split; [vm_compute; reflexivity|]. destruct C57_restart_case as ((S1 & S2 & S3 & _) & _).
  split; [exact S1|]. split; [exact S2|]. split; [exact S3|]. eexists. vm_compute. reflexivity.
Qed.
(* The failure of another command is not: here the edge_model command fails, and the device is loaded without error. *)
Theorem C59_earlier_command_refuted : exists run s d, shows Z s d /\ whole Z s d /\ proper Z s /\
  (exists before c after, commands_of Z s = before ++ c :: after /\ run before c = false /\ fst c = "edge_model") /\
  exists w', load_devices Z (fun z => z) run (fun _ _ => false) (Build_world Z [] None [] [] []) (write_device Z s) = Success Z w'.
Proof.
  exists (fun _ c => negb (String.eqb (fst c) "edge_model")), (ex_saved "a"), ex_device. destruct C57_restart_case as ((S1 & S2 & S3 & _) & _).
  split; [exact S1|]. split; [exact S2|]. split; [exact S3|]. split.
  - exists [], ("edge_model", [("-equation", VStr Z "1")]). eexists. split; [vm_compute; reflexivity|]. split; reflexivity.
  - eexists. vm_compute. reflexivity.
Qed.
Print Assumptions C59_earlier_command_refuted.
(* The same with values: two of three values are in the file; the model is zero and no error is reported. *)
Definition short_saved : saved Z :=
  {| sv_name := "a"; sv_dim := 2; sv_coords := [(0, 0, 0); (0, 1, 0); (1, 0, 0)]%Z;
     sv_regions := [("si", ex_region [0; 1; 2] [("p", (MNode, BData Z [5; 6]%Z))])]; sv_contacts := []; sv_interfaces := [] |}.
Theorem C59_values_refuted : ~ complete_data Z short_saved /\
  exists w' x vs, load_devices Z (fun z => z) (fun _ _ => true) (fun _ _ => false) (Build_world Z [] None [] [] []) (write_device Z short_saved) = Success Z w' /\
    find "a" (w_loaded Z w') = Some x /\ find "si" (ld_values Z x) = Some vs /\ find "p" vs = Some (MNode, Uniform Z 0%Z).
Proof.
  split.
  - intros H. specialize (H "si" _ "p" MNode [5; 6]%Z (or_introl eq_refl) (or_introl eq_refl)). discriminate.
  - eexists _, _, _. split; [vm_compute; reflexivity|]. split; [vm_compute; reflexivity|]. split; vm_compute; reflexivity.
Qed.
Print Assumptions C59_values_refuted.
