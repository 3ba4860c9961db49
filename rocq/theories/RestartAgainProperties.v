(* C60: saving a loaded device again. *)
From Coq Require Import String List Bool Arith ZArith Lia.
Import ListNotations.
Require Import Verif.StrMap Verif.Adjacency Verif.Loader Verif.LoaderSpec Verif.LoaderProofs Verif.Restart Verif.RestartWrite Verif.RestartSpec Verif.RestartProofs
  Verif.RestartRead Verif.RestartRead2 Verif.RestartDeviceSpec Verif.RestartDevice Verif.RestartDevice2 Verif.RestartDevice3 Verif.RestartModelsSpec Verif.RestartModels
  Verif.RestartProperties Verif.RestartAgain Verif.AdjacencySpec Verif.AdjacencyProperties.
Local Arguments Nat.ltb : simpl never.
Local Arguments Nat.leb : simpl never.
Local Arguments Nat.eqb : simpl never.
Open Scope string_scope.
Open Scope list_scope.

Lemma listed_all : forall nc dim r k l ss, 1 <= dim <= 3 -> whole_region nc dim r -> 0 < k -> in_order l -> (forall e, In e l <-> part_of k (top dim r) e) -> incl ss l ->
  listed ss r l = ss.
Proof.
  intros nc dim r k l ss D W K O Hl IN. unfold listed.
  assert (X : exists es, map Some ss = map (nth_error l) es).
  { clear - IN. induction ss as [|s ss IH]; [exists []; reflexivity|]. destruct IH as [es E]; [intros a Ia; apply IN; right; exact Ia|].
    destruct (In_nth_error l s (IN s (or_introl eq_refl))) as [e He]. exists (e :: es). cbn. rewrite He, E. reflexivity. }
  destruct X as [es E]. rewrite (found_all nc dim r D W k l K O Hl ss es E). clear - E. revert es E.
  induction ss as [|s ss IH]; intros [|e es] E; try discriminate; [reflexivity|]. cbn in E. injection E as E1 E2. cbn. rewrite (nth_error_nth _ _ _ (eq_sym E1)). f_equal. apply IH, E2.
Qed.

Section Again.
Variable A : Type.
Variable of_int : Z -> A.
Variable run : list (command A) -> command A -> bool.
Variable builtin : mtype -> string -> bool.
Notation load := (load_devices A of_int run builtin).

(* the interface is written by elements of its regions *)
Definition by_elements (dim : nat) (rs : smap region) (i : sinterface) : Prop :=
  si_provided i = true /\ fst (sides dim i) <> [] /\
  exists r0 r1, find (si_region0 i) rs = Some r0 /\ find (si_region1 i) rs = Some r1 /\
    match dim with
    | 2 => incl (si_edges0 i) (r_edges r0) /\ incl (si_edges1 i) (r_edges r1)
    | _ => incl (si_tris0 i) (r_tris r0) /\ incl (si_tris1 i) (r_tris r1)
    end.
Lemma find_map : forall X Y (f : string * X -> Y) (l : smap X) n x, sorted l -> In (n, x) l -> find n (map (fun p => (fst p, f p)) l) = Some (f (n, x)).
Proof.
  intros X Y f l n x. induction l as [|[k y] l IH]; intros S0 H; [destruct H|]. apply sorted_NoDup in S0 as ND.
  assert (Sl : sorted l) by (unfold sorted in *; cbn in S0; inversion S0; assumption).
  cbn [map fst find]. destruct (String.eqb_spec n k) as [->|N].
  - destruct H as [H|H]; [injection H as ->; reflexivity|]. exfalso. cbn in ND. apply NoDup_cons_iff in ND. apply (proj1 ND). apply (in_map fst) in H. exact H.
  - destruct H as [H|H]; [congruence|]. apply IH; assumption.
Qed.
Lemma find_of_In : forall X (l : smap X) n x, sorted l -> In (n, x) l -> find n l = Some x.
Proof.
  intros X l n x S0 H. pose proof (find_map _ _ (fun p : string * X => snd p) l n x S0 H) as E. cbn [snd] in E. rewrite <- E. f_equal. clear. induction l as [|[k y] l IH]; [reflexivity|]. cbn. f_equal. exact IH.
Qed.
Lemma look_same : forall nc dim rs i x r0 r1 n, 1 <= dim <= 3 -> (forall n r, find n rs = Some r -> whole_region nc dim r) ->
  find (si_region0 i) rs = Some r0 -> find (si_region1 i) rs = Some r1 ->
  i_region0 x = si_region0 i -> i_region1 x = si_region1 i -> combine (i_nodes0 x) (i_nodes1 x) = si_pairs i ->
  dim = 1 \/ (by_elements dim rs i /\ length (fst (sides dim i)) = length (snd (sides dim i))) ->
  let ci := interface_read A of_int dim i in
  write_interface A dim n (look r0 r1 x (elements_loaded {| mi_region0 := ci_region0 A ci; mi_region1 := ci_region1 A ci; mi_part0 := ci_part0 A ci;
                                           mi_part1 := ci_part1 A ci; mi_pairs := ci_pairs A ci |} r0 r1) (si_models i) (si_equations i)) = write_interface A dim n i.
Proof.
  intros nc dim rs i x r0 r1 n D WR E0 E1 G0 G1 P H ci. unfold write_interface. cbn [look si_region0 si_region1 si_pairs si_provided si_edges0 si_edges1 si_tris0 si_tris1 si_models si_equations].
  rewrite G0, G1, P. destruct H as [->|((PV & NE & q0 & q1 & Q0 & Q1 & IN) & LE)]; [reflexivity|].
  assert (q0 = r0) by congruence. assert (q1 = r1) by congruence. subst q0 q1. cbn [elements_loaded e_provided]. rewrite PV. cbn [negb]. rewrite orb_false_r.
  assert (dim = 1 \/ dim = 2 \/ dim = 3) as [-> | [-> | ->]] by lia; [reflexivity| |]; cbn [sides] in *.
  - assert (X : or_found (e_edges0 (elements_loaded {| mi_region0 := ci_region0 A ci; mi_region1 := ci_region1 A ci; mi_part0 := ci_part0 A ci; mi_part1 := ci_part1 A ci; mi_pairs := ci_pairs A ci |} r0 r1))
      (e_edges1 (elements_loaded {| mi_region0 := ci_region0 A ci; mi_region1 := ci_region1 A ci; mi_part0 := ci_part0 A ci; mi_part1 := ci_part1 A ci; mi_pairs := ci_pairs A ci |} r0 r1))
      (find_edges r0 (i_nodes0 x)) (find_edges r1 (i_nodes1 x)) = (si_edges0 i, si_edges1 i)); [|rewrite X; reflexivity].
    cbn [elements_loaded e_edges0 e_edges1 mi_part0 mi_part1 ci interface_read ci_part0 ci_part1]. unfold by_nodes. rewrite PV. cbn [negb]. change (Nat.eqb 2 1 || false) with false. cbv iota. cbn [fst snd if_dim].
    unfold if_dim, equally. change (Nat.eqb 2 2) with true. change (Nat.eqb 2 3) with false. cbn [fst snd] in LE, NE |- *. rewrite LE, Nat.eqb_refl.
    change {| mr_nodes := []; mr_edges := si_edges0 i; mr_tris := []; mr_tets := [] |} with (part_given (si_edges0 i) []).
    change {| mr_nodes := []; mr_edges := si_edges1 i; mr_tris := []; mr_tets := [] |} with (part_given (si_edges1 i) []).
    rewrite !part_edges. cbn [mr_edges]. pose proof (WR _ _ E0) as W0. pose proof (WR _ _ E1) as W1.
    rewrite (listed_all nc 2 r0 2 (r_edges r0) (si_edges0 i)), (listed_all nc 2 r1 2 (r_edges r1) (si_edges1 i)); try assumption; try lia; try apply W0; try apply W1; try apply IN.
    unfold or_found. destruct (si_edges0 i) as [|a l0]; [congruence|]. destruct (si_edges1 i) as [|b l1]; [discriminate|]. reflexivity.
  - assert (X : or_found (e_tris0 (elements_loaded {| mi_region0 := ci_region0 A ci; mi_region1 := ci_region1 A ci; mi_part0 := ci_part0 A ci; mi_part1 := ci_part1 A ci; mi_pairs := ci_pairs A ci |} r0 r1))
      (e_tris1 (elements_loaded {| mi_region0 := ci_region0 A ci; mi_region1 := ci_region1 A ci; mi_part0 := ci_part0 A ci; mi_part1 := ci_part1 A ci; mi_pairs := ci_pairs A ci |} r0 r1))
      (find_triangles r0 (i_nodes0 x)) (find_triangles r1 (i_nodes1 x)) = (si_tris0 i, si_tris1 i)); [|rewrite X; reflexivity].
    cbn [elements_loaded e_tris0 e_tris1 mi_part0 mi_part1 ci interface_read ci_part0 ci_part1]. unfold by_nodes. rewrite PV. cbn [negb]. change (Nat.eqb 3 1 || false) with false. cbv iota. cbn [fst snd].
    unfold if_dim, equally. change (Nat.eqb 3 2) with false. change (Nat.eqb 3 3) with true. cbn [fst snd] in LE, NE |- *. rewrite LE, Nat.eqb_refl.
    change {| mr_nodes := []; mr_edges := []; mr_tris := si_tris0 i; mr_tets := [] |} with (part_given [] (si_tris0 i)).
    change {| mr_nodes := []; mr_edges := []; mr_tris := si_tris1 i; mr_tets := [] |} with (part_given [] (si_tris1 i)).
    rewrite !part_tris. cbn [mr_tris]. pose proof (WR _ _ E0) as W0. pose proof (WR _ _ E1) as W1.
    rewrite (listed_all nc 3 r0 3 (r_tris r0) (si_tris0 i)), (listed_all nc 3 r1 3 (r_tris r1) (si_tris1 i)); try assumption; try lia; try apply W0; try apply W1; try apply IN.
    unfold or_found. destruct (si_tris0 i) as [|a l0]; [congruence|]. destruct (si_tris1 i) as [|b l1]; [discriminate|]. reflexivity.
Qed.
Lemma Forall2_In_l : forall X Y (R : X -> Y -> Prop) l m a, Forall2 R l m -> In a l -> exists b, In b m /\ R a b.
Proof. intros X Y R l m a H. induction H as [|x y l m Hxy H IH]; intros I; [destruct I|]. destruct I as [->|I]; [exists y; split; [left; reflexivity|exact Hxy]|]. destruct (IH I) as (b & Ib & Rb). exists b. split; [right; exact Ib|exact Rb]. Qed.

(* A device restored from a file and written again gives the same file, if the interfaces of a 2D or 3D device were written by
   elements; and so any number of times. *)
Theorem C60_again_partial : forall s d w, writable A run s d -> w_stack A w = [] -> w_loader A w = None -> sorted (w_devices A w) -> sorted (w_loaded A w) ->
  ~ In (sv_name A s) (w_meshes A w) -> find (sv_name A s) (w_devices A w) = None ->
  (forall n i, In (n, i) (sv_interfaces A s) -> d_dim d = 1 \/ by_elements (d_dim d) (d_regions d) i) ->
  exists w' d', load w (write_device A s) = Success A w' /\ find (sv_name A s) (w_devices A w') = Some d' /\ restored d d' /\
    write_device A (see_again A (read A of_int s) d' s) = write_device A s.
Proof.
  intros s d w WR Ws Wl Sd Sl NM ND BE.
  destruct (C57_restart_partial A of_int run builtin [(s, d)] w Ws Wl Sd Sl) as (w' & L & _ & _ & B & _).
  { constructor; [exact WR|constructor]. } { constructor; [intros []|constructor]. } { constructor; [auto|constructor]. }
  inversion B as [|? ? (d' & x & F1 & R & _) _]; subst. cbn [fst snd] in *. exists w', d'. cbn [map write_devices flat_map] in L. unfold write_devices in L. cbn [flat_map map fst] in L. rewrite app_nil_r in L.
  split; [exact L|]. split; [exact F1|]. split; [exact R|].
  unfold write_device, see_again. cbn [sv_name sv_dim sv_coords sv_regions sv_contacts sv_interfaces]. f_equal. f_equal. f_equal. f_equal.
  f_equal. rewrite flat_map_concat_map, map_map, (flat_map_concat_map _ (sv_interfaces A s)). f_equal. apply map_ext_in. intros [n i] I. cbn [fst snd].
  destruct WR as ((Edim & SR & SC & SI) & (D & _ & _ & WRs & _ & WI) & (P1 & P2 & P3 & _) & _). destruct R as (_ & ER & _ & RI).
  destruct (Forall2_In_l _ _ _ _ _ _ (Forall2_and _ _ _ _ _ _ SI WI) I) as ([n' y] & Iy & (En & Sy) & Wy). cbn [fst snd] in *. subst n'.
  destruct (Forall2_In_l _ _ _ _ _ _ RI Iy) as ([n' z] & Iz & En & Sz). cbn [fst snd] in *. subst n'.
  assert (Sd' : sorted (d_interfaces d')). { apply (named_sorted _ _ _ _ _ RI). apply (named_sorted _ _ _ _ _ SI), P3. }
  unfold look_again. cbn [read co_interfaces].
  rewrite (find_map _ _ (fun p => interface_read A of_int (sv_dim A s) (snd p)) _ n i P3 I). cbn [snd].
  rewrite (find_of_In _ _ n z Sd' Iz).
  destruct Sy as (G0 & G1 & LN & PP). destruct Sz as (H0 & H1 & H2 & H3). destruct Wy as (r0 & r1 & F0 & F3 & _ & _ & AL).
  assert (Z0 : find (i_region0 z) (d_regions d') = Some r0) by (rewrite ER, <- H0; exact F0). assert (Z1 : find (i_region1 z) (d_regions d') = Some r1) by (rewrite ER, <- H1; exact F3).
  rewrite Z0, Z1.
  assert (KK : forall m r, find m (d_regions d) = Some r -> whole_region (length (sv_coords A s)) (d_dim d) r).
  { intros m r Fm. rewrite Forall_forall in WRs. apply (WRs (m, r)). apply find_In in Fm. exact Fm. }
  rewrite Edim. apply (look_same (length (sv_coords A s)) (d_dim d) (d_regions d) i z r0 r1 n D KK).
  - rewrite G0. exact F0. - rewrite G1. exact F3. - congruence. - congruence. - rewrite PP, H2, H3. reflexivity.
  - destruct (BE n i I) as [E|E]; [left; exact E|]. assert (d_dim d = 1 \/ d_dim d <> 1) as [E1|N1] by lia; [left; exact E1|]. right. split; [exact E|].
    destruct AL as [C|[C|(C & _)]]; [contradiction| |exact C]. destruct E as (C' & _). congruence.
Qed.
End Again.
Print Assumptions C60_again_partial.
(* the example of C57 satisfies the hypotheses *)
Example C60_again_case : writable Z (fun _ _ => true) (ex_saved "a") ex_device /\
  forall n i, In (n, i) (sv_interfaces Z (ex_saved "a")) -> d_dim ex_device = 1 \/ by_elements (d_dim ex_device) (d_regions ex_device) i.
Proof.
  split; [apply C57_restart_case|]. intros n i [[= <- <-]|[]]. right. split; [reflexivity|]. split; [discriminate|]. exists (tri_region [0; 1; 2]), (tri_region [1; 2; 3]).
  split; [reflexivity|]. split; [reflexivity|]. split; intros a [<-|[]]; cbn; auto.
Qed.

(* Two triangles with an interface given by node pairs; nodes: the coordinates of the nodes of the second one. *)
Definition pair_device (nodes n0 n1 : list nat) : device :=
  {| d_dim := 2; d_regions := [("ox", tri_region nodes); ("si", tri_region [0; 1; 2])]; d_contacts := [];
     d_interfaces := [("i", {| i_region0 := "si"; i_region1 := "ox"; i_nodes0 := n0; i_nodes1 := n1; i_edges := []; i_tris := [] |})] |}.
Definition pair_saved (nodes n0 n1 : list nat) : saved Z :=
  {| sv_name := "a"; sv_dim := 2; sv_coords := [(0, 0, 0); (0, 1, 0); (1, 0, 0); (1, 1, 0); (2, 1, 0)]%Z;
     sv_regions := [("ox", ex_region nodes []); ("si", ex_region [0; 1; 2] [])]; sv_contacts := [];
     sv_interfaces := [("i", {| si_region0 := "si"; si_region1 := "ox"; si_pairs := combine n0 n1; si_provided := false;
                               si_edges0 := []; si_edges1 := []; si_tris0 := []; si_tris1 := []; si_models := []; si_equations := [] |})] |}.
Lemma tri_whole5 : forall nodes, length nodes = 3 -> Forall (fun c => c < 5) nodes -> whole_region 5 2 (tri_region nodes).
Proof.
  intros nodes L B. pose proof (tri_whole [0; 1; 2] eq_refl ltac:(repeat constructor; lia)) as W. unfold whole_region in *. cbn [tri_region r_nodes r_edges r_tris r_tets r_adj top] in *.
  destruct W as (W1 & W2 & W3 & W4 & W5 & W6). split; [destruct nodes; discriminate|]. split; [lia|]. split; [exact B|]. split; [exact W4|]. split; [rewrite L; exact W5|exact W6].
Qed.
Lemma pair_writable : forall nodes n0 n1, length nodes = 3 -> Forall (fun c => c < 5) nodes -> length n0 = length n1 ->
  Forall (fun j => j < 3) n0 -> Forall (fun j => j < 3) n1 -> writable Z (fun _ _ => true) (pair_saved nodes n0 n1) (pair_device nodes n0 n1).
Proof.
  intros nodes n0 n1 L B LN B0 B1. split; [|split; [|split; [|split]]].
  - split; [reflexivity|]. split; [repeat constructor|]. split; [constructor|]. constructor; [|constructor]. split; [reflexivity|]. split; [reflexivity|]. split; [reflexivity|]. split; [exact LN|reflexivity].
  - split; [cbn; lia|]. split; [discriminate|]. split; [discriminate|]. split; [|split].
    + constructor; [apply (tri_whole5 nodes L B)|]. constructor; [apply tri_whole5; [reflexivity|repeat constructor; lia]|constructor].
    + constructor.
    + constructor; [|constructor]. exists (tri_region [0; 1; 2]), (tri_region nodes). split; [reflexivity|]. split; [reflexivity|]. cbn [tri_region r_nodes pair_device d_interfaces snd i_nodes0 i_nodes1]. rewrite L.
      split; [exact B0|]. split; [exact B1|]. right. left. reflexivity.
  - split; [repeat constructor|]. split; [repeat constructor|]. split; [repeat constructor|]. split; [|split]; repeat constructor; cbn; discriminate.
  - intros k r j m vs I J. cbn in I. destruct I as [[= <- <-]|[[= <- <-]|[]]]; destruct J.
  - intros pre c post E. reflexivity.
Qed.
Definition nothing : world Z := Build_world Z [] None [] [] [].
Definition load_z (f : list (lexeme Z)) := load_devices Z (fun z => z) (fun _ _ => true) (fun _ _ => false) nothing f.
(* An interface of a single pair of nodes: restored once, lost when the restored device is saved and loaded again. *)
Theorem C60_point_refuted : exists s d, writable Z (fun _ _ => true) s d /\ exists x, find "i" (d_interfaces d) = Some x /\ i_nodes0 x = [2] /\ i_nodes1 x = [0] /\
  exists w1 d1, load_z (write_device Z s) = Success Z w1 /\ find "a" (w_devices Z w1) = Some d1 /\ restored d d1 /\
  exists w2 d2 y, load_z (write_device Z (see_again Z (read Z (fun z => z) s) d1 s)) = Success Z w2 /\ find "a" (w_devices Z w2) = Some d2 /\
    find "i" (d_interfaces d2) = Some y /\ i_nodes0 y = [] /\ i_nodes1 y = [].
Proof.
  exists (pair_saved [2; 3; 4] [2] [0]), (pair_device [2; 3; 4] [2] [0]). split; [apply pair_writable; try reflexivity; repeat constructor; lia|].
  eexists. split; [reflexivity|]. split; [reflexivity|]. split; [reflexivity|]. eexists _, (pair_device [2; 3; 4] [2] [0]). split; [vm_compute; reflexivity|]. split; [vm_compute; reflexivity|].
  split; [repeat split; repeat constructor|]. eexists _, _, _. split; [vm_compute; reflexivity|]. split; [vm_compute; reflexivity|]. split; [vm_compute; reflexivity|]. split; reflexivity.
Qed.
(* The nodes of the two regions are numbered in opposite directions along the interface: after the second restart each node is
   paired with the node at the other end (coordinates 1 and 2). *)
Theorem C60_pairs_refuted : exists s d, writable Z (fun _ _ => true) s d /\
  (forall x r0 r1, find "i" (d_interfaces d) = Some x -> find "si" (d_regions d) = Some r0 -> find "ox" (d_regions d) = Some r1 ->
     map (fun j => nth j (r_nodes r0) 9) (i_nodes0 x) = [1; 2] /\ map (fun j => nth j (r_nodes r1) 9) (i_nodes1 x) = [1; 2]) /\
  exists w1 d1, load_z (write_device Z s) = Success Z w1 /\ find "a" (w_devices Z w1) = Some d1 /\ restored d d1 /\
  exists w2 d2, load_z (write_device Z (see_again Z (read Z (fun z => z) s) d1 s)) = Success Z w2 /\ find "a" (w_devices Z w2) = Some d2 /\ d_regions d2 = d_regions d /\
    forall x r0 r1, find "i" (d_interfaces d2) = Some x -> find "si" (d_regions d2) = Some r0 -> find "ox" (d_regions d2) = Some r1 ->
      map (fun j => nth j (r_nodes r0) 9) (i_nodes0 x) = [1; 2] /\ map (fun j => nth j (r_nodes r1) 9) (i_nodes1 x) = [2; 1].
Proof.
  exists (pair_saved [2; 1; 3] [1; 2] [1; 0]), (pair_device [2; 1; 3] [1; 2] [1; 0]). split; [apply pair_writable; try reflexivity; repeat constructor; lia|].
  split. { intros x r0 r1 E0 E1 E2. cbn in E0, E1, E2. injection E0 as <-. injection E1 as <-. injection E2 as <-. split; reflexivity. }
  eexists _, (pair_device [2; 1; 3] [1; 2] [1; 0]). split; [vm_compute; reflexivity|]. split; [vm_compute; reflexivity|].
  split; [repeat split; repeat constructor|]. eexists _, (pair_device [2; 1; 3] [1; 2] [0; 1]). split; [vm_compute; reflexivity|]. split; [vm_compute; reflexivity|]. split; [reflexivity|].
  intros x r0 r1 E0 E1 E2. cbn in E0, E1, E2. injection E0 as <-. injection E1 as <-. injection E2 as <-. split; reflexivity.
Qed.
Print Assumptions C60_point_refuted.
Print Assumptions C60_pairs_refuted.
(* A contact of a 2D device that is a single node (a point of the mesh): its node is not in the file. *)
Theorem C60_contact_refuted : exists (s : saved Z) (d : device) c, shows Z s d /\ proper Z s /\ find "c" (d_contacts d) = Some c /\ c_nodes c = [2] /\
  exists w d' c', load_z (write_device Z s) = Success Z w /\ find "a" (w_devices Z w) = Some d' /\ d_regions d' = d_regions d /\
    find "c" (d_contacts d') = Some c' /\ c_nodes c' = [].
Proof.
  exists {| sv_name := "a"; sv_dim := 2; sv_coords := [(0, 0, 0); (0, 1, 0); (1, 0, 0)]%Z; sv_regions := [("si", ex_region [0; 1; 2] [])];
            sv_contacts := [("c", {| sc_region := "si"; sc_material := "metal"; sc_nodes := [2]; sc_edges := []; sc_tris := []; sc_equations := [] |})]; sv_interfaces := [] |},
         {| d_dim := 2; d_regions := [("si", tri_region [0; 1; 2])]; d_contacts := [("c", {| c_region := "si"; c_nodes := [2]; c_edges := []; c_tris := [] |})]; d_interfaces := [] |}.
  eexists. split. { split; [reflexivity|]. split; [repeat constructor|]. split; [|constructor]. constructor; [|constructor]. split; [reflexivity|]. split; [reflexivity|]. split; [reflexivity|]. exists (tri_region [0; 1; 2]). repeat split. }
  split. { split; [repeat constructor|]. split; [repeat constructor|]. split; [repeat constructor|]. split; [|split]; repeat constructor; cbn; discriminate. }
  split; [reflexivity|]. split; [reflexivity|]. eexists _, _, _. split; [vm_compute; reflexivity|]. split; [vm_compute; reflexivity|]. split; [vm_compute; reflexivity|]. split; [vm_compute; reflexivity|]. reflexivity.
Qed.
Print Assumptions C60_contact_refuted.

(* ---- elements that are searched for ------------------------------------------------------------ *)
Lemma single_In : forall els nb nodes f, In f (single els nb nodes) <->
  exists e, nth_error els e = Some f /\ length (nth e nb []) = 1 /\ forall j, In j f -> In j nodes.
Proof.
  intros els nb nodes f. unfold single. rewrite in_map_iff. split.
  - intros ((e & g) & <- & H). apply filter_In in H. destruct H as (H & C). apply andb_prop in C. destruct C as (C1 & C2). cbn [fst snd] in *. exists e.
    assert (X : nth_error els e = Some g).
    { clear - H. assert (G : forall off l, In (e, g) (combine (seq off (length l)) l) -> exists i, e = off + i /\ nth_error l i = Some g).
      { intros off l. revert off. induction l as [|a l IH]; intros off I; [destruct I|]. destruct I as [I|I]; [injection I as <- <-; exists 0; split; [lia|reflexivity]|].
        destruct (IH _ I) as (i & -> & E). exists (S i). split; [lia|exact E]. }
      destruct (G 0 els H) as (i & -> & E). exact E. }
    split; [exact X|]. split; [apply Nat.eqb_eq; exact C1|]. intros j Hj. rewrite forallb_forall in C2. specialize (C2 j Hj). unfold mem_nat in C2.
    apply existsb_exists in C2. destruct C2 as (k & Hk & Ek). apply Nat.eqb_eq in Ek. subst k. exact Hk.
  - intros (e & X & L & A). exists (e, f). split; [reflexivity|]. apply filter_In. split.
    + assert (G : forall off l i, nth_error l i = Some f -> In (off + i, f) (combine (seq off (length l)) l)).
      { intros off l. revert off. induction l as [|a l IH]; intros off [|i] E; try discriminate.
        - injection E as ->. left. f_equal. lia.
        - right. replace (off + S i) with (S off + i) by lia. apply IH. exact E. }
      exact (G 0 els e X).
    + cbn [fst snd]. rewrite L, Nat.eqb_refl. apply forallb_forall. intros j Hj. apply existsb_exists. exists j. split; [exact (A j Hj)|apply Nat.eqb_refl].
Qed.
(* an element on the border of the cells: it is the side of exactly one cell *)
Definition on_border (cells : list (list nat)) (f : list nat) : Prop :=
  exists t, (exists c, nth_error cells t = Some c /\ face f c) /\ forall t', (exists c, nth_error cells t' = Some c /\ face f c) -> t' = t.
Lemma border_length : forall cells f p, cells_at cells f p -> (length p = 1 <-> on_border cells f).
Proof.
  intros cells f p (ND & H). split.
  - destruct p as [|t [|t2 p]]; try discriminate. intros _. exists t. split; [apply H; left; reflexivity|]. intros t' Ht. apply H in Ht. destruct Ht as [->|[]]. reflexivity.
  - intros (t & Ht & U). apply H in Ht. destruct p as [|a p]; [destruct Ht|]. destruct p as [|b p]; [reflexivity|]. exfalso.
    assert (a = t) by (apply U; apply H; left; reflexivity). assert (b = t) by (apply U; apply H; right; left; reflexivity). subst.
    apply NoDup_cons_iff in ND. apply (proj1 ND). left. reflexivity.
Qed.
(* An interface given by pairs of nodes is written by the elements of the border of its regions all of whose nodes are nodes of
   the interface: edges of a 2D region, triangles of a 3D region, and no others. *)
Theorem C60_search_partial : forall dim r nodes, complete_region (r_edges r) (r_tris r) (r_tets r) ->
  finalize_region dim (r_edges r) (r_tris r) (r_tets r) = Adjacency.Finished (r_adj r) ->
  (r_tris r <> [] -> forall f, In f (find_edges r nodes) <-> In f (r_edges r) /\ on_border (r_tris r) f /\ forall j, In j f -> In j nodes) /\
  (r_tets r <> [] -> forall f, In f (find_triangles r nodes) <-> In f (r_tris r) /\ on_border (r_tets r) f /\ forall j, In j f -> In j nodes).
Proof.
  intros dim r nodes CR FIN. pose proof (C50_connections dim _ _ _ CR) as K. cbv zeta in K. rewrite FIN in K. destruct K as (_ & CN).
  assert (G : forall els cells nb, (forall e f, nth_error els e = Some f -> cells_at cells f (nth e nb [])) ->
     forall f, In f (single els nb nodes) <-> In f els /\ on_border cells f /\ forall j, In j f -> In j nodes).
  { intros els cells nb H f. rewrite single_In. split.
    - intros (e & X & L & A). split; [eapply nth_error_In; exact X|]. split; [|exact A]. apply (border_length _ _ _ (H e f X)). exact L.
    - intros (I & B & A). apply In_nth_error in I. destruct I as (e & X). exists e. split; [exact X|]. split; [|exact A]. apply (border_length _ _ _ (H e f X)). exact B. }
  split; intros N.
  - apply G. exact (cn_edge_tris _ _ _ _ CN N).
  - apply G. exact (cn_tri_tets _ _ _ _ CN N).
Qed.
Print Assumptions C60_search_partial.
(* two triangles with a common edge: all four nodes are nodes of the interface, the inner edge is not found *)
Example C60_search_case : exists r, complete_region (r_edges r) (r_tris r) (r_tets r) /\
  finalize_region 2 (r_edges r) (r_tris r) (r_tets r) = Adjacency.Finished (r_adj r) /\ r_tris r <> [] /\ find_edges r [0; 1; 2; 3] = [[0; 1]; [0; 2]; [1; 3]; [2; 3]].
Proof.
  destruct (finalize_region 2 [[0; 1]; [0; 2]; [1; 2]; [1; 3]; [2; 3]] [[0; 1; 2]; [1; 2; 3]] []) as [a| |] eqn:E; [|vm_compute in E; discriminate|vm_compute in E; discriminate].
  exists {| r_nodes := [0; 1; 2; 3]; r_edges := [[0; 1]; [0; 2]; [1; 2]; [1; 3]; [2; 3]]; r_tris := [[0; 1; 2]; [1; 2; 3]]; r_tets := []; r_adj := a |}.
  cbn [r_edges r_tris r_tets r_adj]. split; [|split; [exact E|split; [discriminate|]]].
  - constructor.
    + split; [repeat constructor; cbn; intuition congruence|]. repeat constructor; cbn; intuition congruence.
    + split; [repeat constructor; cbn; intuition congruence|]. repeat constructor; cbn; intuition congruence.
    + split; constructor.
    + intros f c I L A Fc. destruct f as [|x [|y [|z f]]]; try discriminate. destruct Fc as (rest & Pm).
      assert (N : NoDup c) by (destruct I as [<-|[<-|[]]]; repeat constructor; cbn; intuition congruence).
      assert (Ix : In x c) by (apply (Permutation.Permutation_in _ Pm); left; reflexivity). assert (Iy : In y c) by (apply (Permutation.Permutation_in _ Pm); right; left; reflexivity).
      apply (Permutation.Permutation_NoDup (Permutation.Permutation_sym Pm)) in N. apply NoDup_cons_iff in N. destruct N as (N & _).
      assert (x <> y) by (intros ->; apply N; left; reflexivity).
      assert (x <= y) by (inversion A as [|? ? _ Fa]; subst; inversion Fa; assumption).
      destruct I as [<-|[<-|[]]]; cbn in Ix, Iy; destruct Ix as [<-|[<-|[<-|[]]]]; destruct Iy as [<-|[<-|[<-|[]]]]; try lia; cbn; auto 10.
    + intros f c [].
  - vm_compute in E. injection E as <-. reflexivity.
Qed.
