(* The numbered system, as needed where results are stored. *)
From Coq Require Import String List Bool Arith Lia ZArith.
From Verif Require Import StrMap EqTable EqTableProofs NodeKeeper NodeKeeperProofs Numbering NumberingProofs.
Import ListNotations.
Open Scope Z_scope.

Lemma number_regions_same : forall regs x, same_device regs (fst (fst (number_regions x regs))).
Proof.
  induction regs as [|[n r] t IH]; intros x; cbn [number_regions]; [constructor|]. destruct (t_num (r_table r)) as [|m].
  - specialize (IH x). destruct (number_regions x t) as [[t' y] h]. cbn [fst] in *. constructor; [split; [reflexivity|split; reflexivity]|exact IH].
  - specialize (IH (w64 (region_max (mkRg (r_nodes r) (r_table r) x) + 1))). destruct (number_regions _ t) as [[t' y] h]. cbn [fst] in *.
    constructor; [split; [reflexivity|split; reflexivity]|exact IH].
Qed.
Lemma number_devices_same : forall devs x, same_devs devs (fst (number_devices x devs)).
Proof.
  induction devs as [|[n d] t IH]; intros x; cbn [number_devices]; [constructor|]. unfold number_device.
  pose proof (number_regions_same d x) as Sd. destruct (number_regions x d) as [[d' y] h]. cbn [fst] in Sd.
  match goal with |- context [number_devices ?e t] => specialize (IH e); destruct (number_devices e t) as [t' z] end. cbn [fst] in *.
  constructor; [split; [reflexivity|exact Sd]|exact IH].
Qed.
(* what numbering leaves of the circuit *)
Definition circuit_numbered (k k' : keeper) (n : nat) : Prop :=
  (k_nodes k = [] /\ k' = k) \/
  (k_nodes k <> [] /\ sorted (k_nodes k') /\ k_alias k' = k_alias k /\ (k_min k' + k_count k' = n)%nat /\ k_count k' = length (solved_names (k_nodes k)) /\ keys (k_nodes k') = keys (k_nodes k) /\
   forall s, find s (k_nodes k') = option_map (fun nd => mkNode (n_type nd) (n_upd nd)
       (if is_ground nd then None else position s (solved_names (k_nodes k)))) (find s (k_nodes k))).
Lemma numbered : forall s, reachable s -> total s < 2 ^ 64 -> exists s', number_system s = (s', Some (total s)) /\
  same_devs (s_devs s) (s_devs s') /\ circuit_numbered (s_ckt s) (s_ckt s') (Z.to_nat (total s)).
Proof.
  intros s Rs Tot. destruct (c13_lemma s Rs Tot) as (s' & E & _). exists s'. split; [exact E|].
  destruct Rs as (Sd & Sr & ccs & Ck). pose proof E as E'. fold M in Tot.
  assert (G : forall d dv n r, In (d, dv) (s_devs s) -> In (n, r) dv -> good (r_table r)).
  { intros d dv n r H1 H2. apply In_find in H1; [|assumption]. destruct (Sr d dv H1) as (S1 & S2).
    apply In_find in H2; [|assumption]. destruct (S2 n r H2) as (cs & ->). apply run_good. }
  set (T1 := sum (map (fun d => dsize (snd d)) (s_devs s))).
  assert (ET : total s = T1 + Z.of_nat (length (solved_names (k_nodes (s_ckt s))))) by reflexivity.
  assert (P1 : 0 <= T1).
  { unfold T1. generalize (s_devs s). induction s0 as [|p l IHl]; cbn; [lia|]. pose proof (dsize_nonneg (snd p)). unfold sum in IHl. lia. }
  pose proof (number_devices_spec (s_devs s) 0 G ltac:(lia)) as HD. fold T1 in HD. specialize (HD ltac:(lia)).
  pose proof (number_devices_same (s_devs s) 0) as Sm. unfold number_system in E. destruct (number_devices 0 (s_devs s)) as [devs e]. cbn [fst] in Sm.
  destruct HD as (_ & Ee & _ & _). assert (e = T1) by lia. subst e.
  pose proof (crun_kinv ccs k_new kinv_new) as I. rewrite <- Ck in I. set (k := s_ckt s) in *.
  destruct (k_nodes k) as [|p0 t0] eqn:En.
  - injection E as <- _. split; [exact Sm|]. left. split; [exact En|reflexivity].
  - assert (Hne : k_nodes k <> []) by congruence. destruct I as (A & B & C & D). destruct C as [(C & _)|C]; [congruence|]. rewrite <- En in *.
    assert (Fk : full k) by (split; [exact A|split; [exact B|split; [exact C|exact D]]]).
    destruct (set_numbers_ok k (Z.to_nat T1) Fk) as (k' & Ek & F' & Ea & Em & Ec & Ekeys & Fs).
    rewrite Z.add_0_l, Ek in E. injection E as <- _. split; [exact Sm|]. right. cbn [s_ckt]. split; [exact Hne|]. split; [apply F'|]. split; [exact Ea|].
    split; [rewrite Em, Ec, ET; lia|]. split; [exact Ec|]. split; [exact Ekeys|exact Fs].
Qed.
(* the table of a region of a numbered system *)
Lemma numbered_table : forall s s', reachable s -> same_devs (s_devs s) (s_devs s') ->
  sorted (s_devs s') /\ (forall d dv, In (d, dv) (s_devs s') -> sorted dv) /\
  (forall d dv r rg, In (d, dv) (s_devs s') -> In (r, rg) dv -> good (r_table rg) /\ sorted (t_eqs (r_table rg)) /\
     find d (s_devs s') = Some dv /\ find r dv = Some rg /\ exists dv0 rg0, find d (s_devs s) = Some dv0 /\ find r dv0 = Some rg0 /\ r_table rg = r_table rg0 /\ r_nodes rg = r_nodes rg0) /\
  (forall d r, (exists dv rg, find d (s_devs s) = Some dv /\ find r dv = Some rg) -> exists dv rg, In (d, dv) (s_devs s') /\ In (r, rg) dv).
Proof.
  intros s s' (Sd & Sr & _) Sm.
  assert (Sd' : sorted (s_devs s')) by (unfold sorted in *; rewrite <- (Forall2_keys _ _ _ Sm); exact Sd).
  assert (Fd : forall d, match find d (s_devs s), find d (s_devs s') with Some v, Some w => same_device v w | None, None => True | _, _ => False end) by (intros d; apply Forall2_find; exact Sm).
  assert (Sr' : forall d dv, In (d, dv) (s_devs s') -> sorted dv).
  { intros d dv H. apply In_find in H; [|exact Sd']. specialize (Fd d). rewrite H in Fd. destruct (find d (s_devs s)) as [dv0|] eqn:E; [|destruct Fd].
    destruct (Sr d dv0 E) as (S1 & _). unfold sorted in *. rewrite <- (Forall2_keys _ _ _ Fd). exact S1. }
  split; [exact Sd'|]. split; [exact Sr'|]. split.
  - intros d dv r rg H1 H2. pose proof (In_find _ _ _ Sd' H1) as F1. pose proof (In_find _ _ _ (Sr' d dv H1) H2) as F2.
    specialize (Fd d). rewrite F1 in Fd. destruct (find d (s_devs s)) as [dv0|] eqn:E; [|destruct Fd].
    pose proof (Forall2_find _ _ _ r Fd) as Fr. rewrite F2 in Fr. destruct (find r dv0) as [rg0|] eqn:E2; [|destruct Fr].
    destruct Fr as (Fn & Ft). destruct (Sr d dv0 E) as (_ & S2). destruct (S2 r rg0 E2) as (cs & Er).
    assert (Gd : good (r_table rg) /\ sorted (t_eqs (r_table rg))).
    { rewrite <- Ft, Er. split; [apply run_good|]. pose proof (run_inv cs (@empty unit) [] (fun _ => None) 0%nat inv_empty) as H.
      destruct (run 0 empty cs) as [t log]. destruct H as (id' & I). exact (i_se _ _ _ _ I). }
    split; [apply Gd|]. split; [apply Gd|]. split; [exact F1|]. split; [exact F2|]. exists dv0, rg0. auto.
  - intros d r (dv & rg & H1 & H2). specialize (Fd d). rewrite H1 in Fd. destruct (find d (s_devs s')) as [dv0|] eqn:E; [|destruct Fd].
    pose proof (Forall2_find _ _ _ r Fd) as Fr. rewrite H2 in Fr. destruct (find r dv0) as [rg0|] eqn:E2; [|destruct Fr].
    exists dv0, rg0. split; apply find_In; assumption.
Qed.
