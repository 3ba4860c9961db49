(* C57: load_devices restores what write_devices wrote; C58: a load that failed and the ones after it. *)
From Coq Require Import String List Bool Arith ZArith Lia Sorting.Sorted Permutation.
Import ListNotations.
Require Import Verif.StrMap Verif.Adjacency Verif.Loader Verif.LoaderSpec Verif.LoaderProofs Verif.Restart Verif.RestartWrite Verif.RestartSpec Verif.RestartProofs
  Verif.RestartRead Verif.RestartRead2 Verif.RestartDeviceSpec Verif.RestartDevice Verif.RestartDevice3 Verif.RestartModelsSpec Verif.RestartModels.
Local Arguments Nat.ltb : simpl never.
Local Arguments Nat.leb : simpl never.
Local Arguments Nat.eqb : simpl never.

Section Restart.
Variable A : Type.
Variable of_int : Z -> A.
Variable run : list (command A) -> command A -> bool.
Variable builtin : mtype -> string -> bool.
Notation load := (load_devices A of_int run builtin).

(* a device and what is written about it *)
Definition writable (s : saved A) (d : device) : Prop :=
  shows A s d /\ whole A s d /\ proper A s /\ complete_data A s /\ succeed A run (commands_of A s).
(* the device s is in the world w after loading, like the device d that was written *)
Definition is_back (w : world A) (s : saved A) (d : device) : Prop :=
  exists d' x, find (sv_name A s) (w_devices A w) = Some d' /\ restored d d' /\
    find (sv_name A s) (w_loaded A w) = Some x /\ ld_coords A x = sv_coords A s /\
    ld_materials A x = map (fun p => (fst p, sr_material A (snd p))) (sv_regions A s) /\
    ld_cmaterials A x = map (fun p => (fst p, sc_material (snd p))) (sv_contacts A s) /\
    ld_commands A x = commands_of A s /\ values_restored A of_int builtin s x.

Lemma existsb_In : forall n l, existsb (String.eqb n) l = false <-> ~ In n l.
Proof.
  intros n l. rewrite <- not_true_iff_false. rewrite existsb_exists. split; intros H C; apply H.
  - exists n. split; [exact C|apply String.eqb_refl].
  - destruct C as (x & I & E). apply String.eqb_eq in E. subst. exact I.
Qed.
Lemma has_find : forall V (m : smap V) n, find n m = None -> has n m = false.
Proof. intros V m n H. unfold has. rewrite H. reflexivity. Qed.

Lemma one_device : forall s d ms ds ld q f, writable s d -> ~ In (sv_name A s) ms -> find (sv_name A s) ds = None -> sorted ds -> sorted ld ->
  q = fresh A \/ (exists p, q = Build_partial A p None None None None None /\ p = Device A) ->
  exists d' x, parse_file A of_int run builtin (Build_world A [] None ms ds ld) q (write_device A s ++ f) =
    parse_file A of_int run builtin (Build_world A [] None (sv_name A s :: ms) (put (sv_name A s) d' ds) (put (sv_name A s) x ld)) (Build_partial A (Device A) None None None None None) f /\
    restored d d' /\ ld_coords A x = sv_coords A s /\
    ld_materials A x = map (fun p => (fst p, sr_material A (snd p))) (sv_regions A s) /\
    ld_cmaterials A x = map (fun p => (fst p, sc_material (snd p))) (sv_contacts A s) /\
    ld_commands A x = commands_of A s /\ values_restored A of_int builtin s x.
Proof.
  intros s d ms ds ld q f (SH & WH & PR & CD & SU) NM ND Sd Sl Hq.
  destruct (device_restored A of_int s d ds SH WH PR (has_find _ _ _ ND)) as (m & m' & d' & E1 & E2 & R).
  destruct (load_models_ok A of_int run builtin s d d' SH R PR CD SU) as (x & E3 & X).
  exists d', x. split; [|destruct X as (_ & X); split; [exact R|exact X]].
  assert (DD : 1 <= sv_dim A s <= 3) by (destruct SH as (-> & _); apply WH).
  etransitivity; [apply (device_section A of_int run builtin s ms ds ld q f DD PR (proj2 (existsb_In _ _) NM) Hq)|].
  unfold finish. rewrite E1. change (co_name A (read A of_int s)) with (sv_name A s). cbn [w_devices w_meshes w_loaded]. rewrite E2.
  rewrite find_put, String.eqb_refl by exact Sd. rewrite E3. reflexivity.
Qed.
Lemma is_back_later : forall w s d n d' x ms, sorted (w_devices A w) -> sorted (w_loaded A w) -> is_back w s d -> sv_name A s <> n ->
  is_back (Build_world A [] None ms (put n d' (w_devices A w)) (put n x (w_loaded A w))) s d.
Proof.
  intros w s d n d' x ms S1 S2 (e & y & F1 & R & F2 & Y) N. exists e, y. cbn [w_devices w_loaded]. rewrite !find_put by assumption.
  destruct (String.eqb_spec (sv_name A s) n); [contradiction|]. auto.
Qed.

(* Devices written to one file come back: reading the file succeeds, every device is as it was - its regions with their nodes,
   edges, triangles, tetrahedra and connections, its contacts, the node pairs of its interfaces, coordinates, materials,
   values - and the commands making its models and equations were run with the arguments that were written, in the order of the
   regions, interfaces and contacts; the other devices stay, and the next file can be read.  partial: characters, numbers and
   their text, and what the commands do are not part of this. *)
Theorem C57_restart_partial : forall l w,
  w_stack A w = [] -> w_loader A w = None -> sorted (w_devices A w) -> sorted (w_loaded A w) ->
  Forall (fun p => writable (fst p) (snd p)) l -> NoDup (map (fun p => sv_name A (fst p)) l) ->
  Forall (fun p => ~ In (sv_name A (fst p)) (w_meshes A w) /\ find (sv_name A (fst p)) (w_devices A w) = None) l ->
  exists w', load w (write_devices A (map fst l)) = Success A w' /\ w_stack A w' = [] /\ w_loader A w' = None /\
    Forall (fun p => is_back w' (fst p) (snd p)) l /\
    forall n, ~ In n (map (fun p => sv_name A (fst p)) l) -> find n (w_devices A w') = find n (w_devices A w).
Proof.
  intros l w SW LW SD SL WR ND FN. unfold load_devices.
  cut (forall done_ l w q, w_stack A w = [] -> w_loader A w = None -> sorted (w_devices A w) -> sorted (w_loaded A w) ->
    Forall (fun p => writable (fst p) (snd p)) l -> NoDup (map (fun p => sv_name A (fst p)) (done_ ++ l)) ->
    Forall (fun p => ~ In (sv_name A (fst p)) (w_meshes A w) /\ find (sv_name A (fst p)) (w_devices A w) = None) l ->
    Forall (fun p => is_back w (fst p) (snd p)) done_ ->
    q = fresh A \/ (exists p, q = Build_partial A p None None None None None /\ p = Device A) ->
    exists w', parse_file A of_int run builtin w q (write_devices A (map fst l)) = Success A w' /\ w_stack A w' = [] /\ w_loader A w' = None /\
      Forall (fun p => is_back w' (fst p) (snd p)) (done_ ++ l) /\
      forall n, ~ In n (map (fun p => sv_name A (fst p)) l) -> find n (w_devices A w') = find n (w_devices A w)).
  { intros G. destruct (G [] l w (fresh A) SW LW SD SL WR ND FN (Forall_nil _) (or_introl eq_refl)) as (w' & X). exists w'. exact X. }
  clear. intros done_ l. revert done_. induction l as [|[s d] l IH]; intros done_ w q SW LW SD SL WR ND FN DN Hq.
  - exists w. rewrite app_nil_r. split; [|auto]. cbn [map write_devices flat_map parse_file]. destruct Hq as [->|(p & -> & ->)]; reflexivity.
  - destruct w as [st lo ms ds ld]. cbn [w_stack w_loader w_meshes w_devices w_loaded fst snd] in *. subst st lo.
    inversion WR as [|? ? W1 W2]; subst. inversion FN as [|? ? [F1 F2] F3]; subst. cbn [fst snd] in *.
    destruct (one_device s d ms ds ld q (write_devices A (map fst l)) W1 F1 F2 SD SL Hq) as (d' & x & E & R & X).
    set (w1 := Build_world A [] None (sv_name A s :: ms) (put (sv_name A s) d' ds) (put (sv_name A s) x ld)) in *.
    assert (NS : forall p, In p done_ \/ In p l -> sv_name A (fst p) <> sv_name A s).
    { intros p I C. rewrite map_app in ND. cbn [map fst] in ND. apply NoDup_remove_2 in ND. apply ND. rewrite <- C. rewrite <- map_app.
      apply (in_map (fun p => sv_name A (fst p))). apply in_app_iff. exact I. }
    destruct (IH (done_ ++ [(s, d)]) w1 (Build_partial A (Device A) None None None None None)) as (w' & E' & S' & L' & B' & K'); clear IH.
    + reflexivity. + reflexivity. + apply put_sorted, SD. + apply put_sorted, SL. + exact W2.
    + rewrite <- app_assoc. exact ND.
    + apply Forall_forall. intros p I. rewrite Forall_forall in F3. destruct (F3 p I) as [G1 G2]. pose proof (NS p (or_intror I)) as NE. cbn [w1 w_meshes w_devices]. split.
      * intros [C|C]; [congruence|contradiction].
      * rewrite find_put by exact SD. destruct (String.eqb_spec (sv_name A (fst p)) (sv_name A s)); [contradiction|exact G2].
    + apply Forall_app. split.
      * apply Forall_forall. intros p I. rewrite Forall_forall in DN. apply (is_back_later (Build_world A [] None ms ds ld) (fst p) (snd p)); [exact SD|exact SL|apply DN, I|apply NS; left; exact I].
      * constructor; [|constructor]. exists d', x. cbn [fst snd w1 w_devices w_loaded]. rewrite !find_put, String.eqb_refl by assumption. split; [reflexivity|]. split; [exact R|]. split; [reflexivity|]. exact X.
    + right. eexists. split; reflexivity.
    + exists w'. split; [etransitivity; [exact E|exact E']|]. split; [exact S'|]. split; [exact L'|]. split; [rewrite <- app_assoc in B'; exact B'|].
      intros n NI. rewrite K' by (intros I; apply NI; right; exact I). cbn [w1 w_devices]. rewrite find_put by exact SD. destruct (String.eqb_spec n (sv_name A s)) as [->|]; [|reflexivity].
      exfalso. apply NI. left. reflexivity.
Qed.
End Restart.
Print Assumptions C57_restart_partial.

(* ---- an example: two triangles with a common edge ---- *)
Open Scope string_scope.
Definition tri_adj : adjacency := match finalize_region 2 [[0; 1]; [0; 2]; [1; 2]] [[0; 1; 2]] [] with Finished a => a | _ => Build_adjacency [] [] [] [] [] [] end.
Definition tri_region (nodes : list nat) : region :=
  {| r_nodes := nodes; r_edges := [[0; 1]; [0; 2]; [1; 2]]; r_tris := [[0; 1; 2]]; r_tets := []; r_adj := tri_adj |}.
Definition ex_device : device :=
  {| d_dim := 2; d_regions := [("ox", tri_region [1; 2; 3]); ("si", tri_region [0; 1; 2])];
     d_contacts := [("top", {| c_region := "si"; c_nodes := [0; 1]; c_edges := [0]; c_tris := [] |})];
     d_interfaces := [("i", {| i_region0 := "si"; i_region1 := "ox"; i_nodes0 := [1; 2]; i_nodes1 := [0; 1]; i_edges := []; i_tris := [] |})] |}.
Definition ex_region (nodes : list nat) (ms : smap (mtype * body Z)) : sregion Z :=
  {| sr_material := "Si"; sr_nodes := nodes; sr_edges := [[0; 1]; [0; 2]; [1; 2]]; sr_tris := [[0; 1; 2]]; sr_tets := [];
     sr_models := ms; sr_equations := [("eq", ("equation", [("-name", "eq")]))] |}.
Definition ex_saved (name : string) : saved Z :=
  {| sv_name := name; sv_dim := 2; sv_coords := [(0, 0, 0); (0, 1, 0); (1, 0, 0); (1, 1, 0)]%Z;
     sv_regions := [("ox", ex_region [1; 2; 3] [("m", (MEdge, BCommand Z "edge_model" [("-equation", "1")]))]);
                    ("si", ex_region [0; 1; 2] [("p", (MNode, BData Z [5; 6; 7]%Z)); ("u", (MEdge, BUniform Z 3%Z))])];
     sv_contacts := [("top", {| sc_region := "si"; sc_material := "metal"; sc_nodes := [0; 1]; sc_edges := [[0; 1]]; sc_tris := []; sc_equations := [] |})];
     sv_interfaces := [("i", {| si_region0 := "si"; si_region1 := "ox"; si_pairs := [(1, 0); (2, 1)]; si_provided := true;
                               si_edges0 := [[1; 2]]; si_edges1 := [[0; 1]]; si_tris0 := []; si_tris1 := []; si_models := []; si_equations := [] |})] |}.
Lemma tri_whole : forall nodes, length nodes = 3 -> Forall (fun c => c < 4) nodes -> whole_region 4 2 (tri_region nodes).
Proof.
  intros nodes L B. assert (W : Forall (wf 3) [[0; 1; 2]]) by (repeat constructor).
  split; [destruct nodes; discriminate|]. cbn [tri_region r_nodes top r_tris r_edges r_tets r_adj]. split; [lia|]. split; [exact B|]. split; [discriminate|].
  split. { constructor; [|constructor]. split; [reflexivity|]. split; [repeat constructor|]. split; [repeat constructor; cbn; lia|]. repeat constructor; lia. }
  assert (B1 : before [0; 1] [0; 2]) by (exists [0], 1, 2, [], []; repeat split; lia).
  assert (B2 : before [0; 1] [1; 2]) by (exists [], 0, 1, [1], [2]; repeat split; lia).
  assert (B3 : before [0; 2] [1; 2]) by (exists [], 0, 1, [2], [2]; repeat split; lia).
  split. { apply SSorted_cons; [apply SSorted_cons; [apply SSorted_cons; [apply SSorted_nil|constructor]|constructor; [exact B3|constructor]]|constructor; [exact B1|constructor; [exact B2|constructor]]]. }
  split; [apply SSorted_cons; [apply SSorted_nil|constructor]|]. split; [apply SSorted_nil|]. split; [|split; [|split]].
  - intros e. rewrite <- (LoaderDevsimProperties.edges_In _ e W). cbn. tauto.
  - intros e. symmetry. apply (part_own 3 _ e W).
  - intros e. split; [intros []|]. intros P. exfalso. revert P. apply too_small. constructor; [cbn; lia|constructor].
  - vm_compute. reflexivity.
Qed.
Example C57_restart_case : let run := fun _ _ => true in
  writable Z run (ex_saved "a") ex_device /\ writable Z run (ex_saved "b") ex_device /\
  exists w', load_devices Z (fun z => z) run (fun _ _ => false) (Build_world Z [] None [] [] []) (write_devices Z [ex_saved "a"; ex_saved "b"]) = Success Z w' /\
    w_devices Z w' = [("a", ex_device); ("b", ex_device)].
Proof.
  cbn zeta. assert (W : forall n, writable Z (fun _ _ => true) (ex_saved n) ex_device).
  { intros n. split; [|split; [|split; [|split]]].
    - split; [reflexivity|]. split; [repeat constructor|]. split; [|repeat constructor].
      constructor; [|constructor]. split; [reflexivity|]. split; [reflexivity|]. split; [reflexivity|]. exists (tri_region [0; 1; 2]). repeat split.
    - split; [cbn; lia|]. split; [discriminate|]. split; [discriminate|]. split; [|split].
      + constructor; [apply tri_whole; [reflexivity|repeat constructor; lia]|]. constructor; [apply tri_whole; [reflexivity|repeat constructor; lia]|constructor].
      + constructor; [|constructor]. exists (tri_region [0; 1; 2]). split; [reflexivity|]. cbn. split; [repeat constructor; lia|]. split; [reflexivity|]. split; [repeat constructor|].
        intros i. split.
        * intros [<-|[<-|[]]]; (exists 0, [0; 1]; split; [left; reflexivity|]; split; [reflexivity|]); cbn; auto.
        * intros (e & s & [<-|[]] & [= <-] & I). exact I.
      + constructor; [|constructor]. exists (tri_region [0; 1; 2]), (tri_region [1; 2; 3]). split; [reflexivity|]. split; [reflexivity|]. cbn. split; [repeat constructor; lia|]. split; [repeat constructor; lia|]. right. right.
        split; [reflexivity|]. split; [repeat constructor|]. split; [repeat constructor|]. split; [|split; [|split; [reflexivity|split; repeat constructor; cbn; lia]]].
        * intros j. split; [intros I; exists [1; 2]; split; [left; reflexivity|exact I]|]. intros (s & [<-|[]] & I). exact I.
        * intros j. split; [intros I; exists [0; 1]; split; [left; reflexivity|exact I]|]. intros (s & [<-|[]] & I). exact I.
    - split; [repeat constructor|]. split; [repeat constructor|]. split; [repeat constructor|]. split; [|split]; repeat constructor; cbn; discriminate.
    - intros k r j m vs I J. cbn in I. destruct I as [[= <- <-]|[[= <- <-]|[]]]; cbn in J; destruct J as [E|J].
      + discriminate. + destruct J. + injection E as <- <- <-. reflexivity. + destruct J as [E|[]]. discriminate.
    - intros pre c post E. reflexivity. }
  split; [apply W|]. split; [apply W|]. eexists. split; [vm_compute; reflexivity|]. vm_compute. reflexivity.
Qed.
