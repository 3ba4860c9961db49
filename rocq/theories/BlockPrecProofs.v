From Coq Require Import String List ZArith Reals Bool Lia Lra Permutation Sorted.
From Verif Require Import StrMap EqTable EqTableProofs NodeKeeper NodeKeeperProofs Numbering NumberingProofs BlockPrec BlockPrecSpec.
Import ListNotations.
Open Scope Z_scope.
Local Arguments Nat.eqb : simpl never.
Local Arguments Z.eqb : simpl never.
Local Arguments Z.leb : simpl never.
Local Arguments Z.ltb : simpl never.

(* ---- blocks in order ---------------------------------------------------------------------- *)
Inductive chain : Z -> list block -> Z -> Prop :=
| chain_nil : forall x, chain x [] x
| chain_cons : forall x b t y, b_min b = x -> b_min b <= b_max b -> chain (b_max b + 1) t y -> chain x (b :: t) y.
Lemma chain_le : forall x l y, chain x l y -> x <= y.
Proof. intros x l y H. induction H; lia. Qed.
Lemma chain_In : forall x l y b, chain x l y -> In b l -> x <= b_min b <= b_max b /\ b_max b < y.
Proof.
  intros x l y b H. induction H; intros Hi; [destruct Hi|]. apply chain_le in H1 as L. destruct Hi as [<-|Hi]; [lia|]. specialize (IHchain Hi). lia.
Qed.
Lemma chain_app : forall x a y b z, chain x a y -> chain y b z -> chain x (a ++ b) z.
Proof. intros x a y b z H. induction H; intros Hb; cbn; [exact Hb|]. apply chain_cons; auto. Qed.
Lemma chain_insert : forall x b t y, chain x (b :: t) y -> insert b t = Some (b :: t).
Proof.
  intros x b t y H. inversion H as [|? ? ? ? E Hb Hc]; subst. destruct t as [|a t]; [reflexivity|]. cbn. inversion Hc; subst.
  destruct (Z.ltb_spec (b_min b) (b_min a)); [reflexivity|lia].
Qed.
Lemma chain_sort : forall x l y, chain x l y -> sort_blocks l = Some l.
Proof. intros x l y H. induction H; [reflexivity|]. cbn. rewrite IHchain. eapply chain_insert. apply chain_cons; eassumption. Qed.
Lemma chain_assign : forall size l x y i f, chain x l y -> y <= size ->
  exists g, assign size i l f = Ok g /\
    (forall j k, g j = Some k <-> (exists b n, nth_error l n = Some b /\ k = (i + n)%nat /\ b_min b <= j <= b_max b) \/ ((~ exists b, In b l /\ b_min b <= j <= b_max b) /\ f j = Some k)).
Proof.
  intros size l x y i f H Hs. revert i f. induction H; intros i f.
  - exists f. split; [reflexivity|]. intros j k. split.
    + intros E. right. split; [intros (b & [] & _)|exact E].
    + intros [(b & n & E & _)|(_ & E)]; [destruct n; discriminate|exact E].
  - cbn. apply chain_le in H1 as L. destruct (Z.leb_spec size (b_max b)); [lia|]. rewrite andb_false_r.
    destruct (IHchain Hs (S i) (fun j => if (b_min b <=? j) && (j <=? b_max b) then Some i else f j)) as (g & E & Hg).
    exists g. split; [exact E|]. intros j k. rewrite Hg. clear Hg E. split.
    + intros [(b' & n & E1 & -> & Hj)|(N & E1)].
      * left. exists b', (S n). split; [exact E1|]. split; [lia|exact Hj].
      * destruct (Z.leb_spec (b_min b) j); destruct (Z.leb_spec j (b_max b)); cbn [andb] in E1;
          try (right; split; [intros (b' & [<-|Hi] & Hj); [lia|]; apply N; exists b'; auto|exact E1]).
        injection E1 as <-. left. exists b, 0%nat. split; [reflexivity|]. lia.
    + intros [(b' & n & E1 & -> & Hj)|(N & E1)].
      * destruct n as [|n].
        -- cbn in E1. injection E1 as <-. right. split.
           ++ intros (b' & Hi & Hj'). pose proof (chain_In _ _ _ _ H1 Hi). lia.
           ++ destruct (Z.leb_spec (b_min b) j); destruct (Z.leb_spec j (b_max b)); try lia. cbn. f_equal. lia.
        -- left. exists b', n. split; [exact E1|]. split; [lia|exact Hj].
      * right. split; [intros (b' & Hi & Hj); apply N; exists b'; cbn; auto|].
        destruct (Z.leb_spec (b_min b) j); destruct (Z.leb_spec j (b_max b)); cbn [andb]; try exact E1.
        exfalso. apply N. exists b. cbn. split; [auto|lia].
Qed.
Lemma chain_unique : forall x l y n n' b b' j, chain x l y -> nth_error l n = Some b -> nth_error l n' = Some b' -> b_min b <= j <= b_max b -> b_min b' <= j <= b_max b' -> n = n'.
Proof.
  intros x l y n n' b b' j H. revert n n'. induction H; intros n n' E E' J J'; [destruct n; discriminate|].
  destruct n as [|n], n' as [|n']; cbn in E, E'; [reflexivity| | |f_equal; eauto]; exfalso.
  - injection E as <-. apply nth_error_In in E'. pose proof (chain_In _ _ _ _ H1 E'). lia.
  - injection E' as <-. apply nth_error_In in E. pose proof (chain_In _ _ _ _ H1 E). lia.
Qed.

(* ---- the blocks of a region, of all regions --------------------------------------------------- *)
Definition populated (rg : region) : Prop := t_num (r_table rg) <> 0%nat -> r_nodes rg <> 0%nat.
Lemma region_chain : forall rg, good (r_table rg) -> populated rg -> 0 <= r_base rg -> r_base rg + size_of rg < M -> t_num (r_table rg) <> 0%nat ->
  chain (r_base rg) (region_blocks rg) (r_base rg + size_of rg).
Proof.
  intros rg (g1 & _) Pop B0 B1 Nz. unfold region_blocks. specialize (Pop Nz).
  assert (Sz : size_of rg = Z.of_nat (t_num (r_table rg)) * Z.of_nat (r_nodes rg)) by (unfold size_of; rewrite g1; reflexivity).
  assert (Lt : r_base rg < m1) by (unfold m1; fold M; nia).
  destruct (Z.eqb_spec (r_base rg) m1) as [|_]; [lia|]. rewrite Sz in *. set (n := Z.of_nat (r_nodes rg)) in *.
  assert (G : forall k a, (a + k <= t_num (r_table rg))%nat ->
     chain (r_base rg + Z.of_nat a * n) (map (fun i => let eqmin := w64 (r_base rg + Z.of_nat i * n) in mkB eqmin (w64 (eqmin + n - 1)) (r_base rg) (region_max rg)) (seq a k)) (r_base rg + Z.of_nat (a + k) * n)).
  { induction k as [|k IH]; intros a Ha; cbn [seq map].
    - rewrite Nat.add_0_r. constructor.
    - assert (Ba : r_base rg + Z.of_nat a * n + n <= r_base rg + Z.of_nat (t_num (r_table rg)) * n) by nia.
      assert (w64 (r_base rg + Z.of_nat a * n) = r_base rg + Z.of_nat a * n) as W1 by (apply w64_small; nia).
      assert (w64 (r_base rg + Z.of_nat a * n + n - 1) = r_base rg + Z.of_nat a * n + n - 1) as W2 by (apply w64_small; nia).
      cbv zeta. rewrite W1, W2. apply chain_cons; cbn [b_min b_max]; [reflexivity|lia|].
      replace (r_base rg + Z.of_nat a * n + n - 1 + 1) with (r_base rg + Z.of_nat (S a) * n) by lia.
      replace (a + S k)%nat with (S a + k)%nat by lia. apply IH. lia. }
  specialize (G (t_num (r_table rg)) 0%nat ltac:(lia)). rewrite Z.mul_0_l, Z.add_0_r in G. exact G.
Qed.
Lemma region_none : forall rg, t_num (r_table rg) = 0%nat -> region_blocks rg = [].
Proof. intros rg T. unfold region_blocks. rewrite T. destruct (r_base rg =? m1); reflexivity. Qed.
Lemma create_flat : forall devs, create_blocks devs = flat_map (fun p => region_blocks (snd p)) (flat devs).
Proof.
  intros devs. unfold create_blocks, flat. induction devs as [|[d dv] t IH]; [reflexivity|]. cbn. rewrite flat_map_app, <- IH. f_equal.
  clear. induction dv as [|p dv IH]; [reflexivity|]. cbn. f_equal. exact IH.
Qed.
Lemma laid_chain : forall (l : list (string * string * region)) x y, laid x l y -> (forall k r, In (k, r) l -> good (r_table r) /\ populated r /\ (t_num (r_table r) <> 0%nat -> 0 <= r_base r < M)) -> 0 <= x -> y < M ->
  chain x (flat_map (fun p => region_blocks (snd p)) l) y.
Proof.
  intros l x y H. induction H; intros Hl X Y; [constructor| |]; cbn [flat_map snd]; destruct (Hl k r (or_introl eq_refl)) as (G & P & B).
  - specialize (IHlaid (fun k0 r0 Hi => Hl k0 r0 (or_intror Hi)) X Y).
    assert (T : t_num (r_table r) = 0%nat). { destruct (Nat.eq_dec (t_num (r_table r)) 0) as [|N]; [assumption|]. specialize (P N). exfalso. unfold size_of in H. rewrite <- (proj1 G) in H. nia. }
    rewrite region_none by exact T. exact IHlaid.
  - pose proof (size_nonneg r). pose proof (laid_le _ _ _ H0). specialize (IHlaid (fun k0 r0 Hi => Hl k0 r0 (or_intror Hi)) ltac:(lia) Y).
    destruct (Nat.eq_dec (t_num (r_table r)) 0) as [T|T].
    + assert (Z0 : size_of r = 0) by (unfold size_of; rewrite <- (proj1 G), T; reflexivity). rewrite Z0, Z.add_0_r in IHlaid.
      rewrite region_none by exact T. exact IHlaid.
    + eapply chain_app; [|exact IHlaid]. rewrite <- H. apply region_chain; auto; lia.
Qed.

(* ---- the numbered system ------------------------------------------------------------------------- *)
Lemma layout : forall s s' N, reachable s -> total s < 2 ^ 64 -> populated_devs (s_devs s) -> number_system s = (s', Some N) ->
  exists T1, T1 <= N /\ N = total s /\ laid 0 (flat (s_devs s')) T1 /\ chain 0 (create_blocks (s_devs s')) T1 /\
    sorted (s_devs s') /\ (forall d dv, find d (s_devs s') = Some dv -> sorted dv) /\ NoDup (map fst (flat (s_devs s'))) /\
    (forall k r, In (k, r) (flat (s_devs s')) -> good (r_table r) /\ populated r /\ (t_num (r_table r) <> 0%nat -> 0 <= r_base r < M)) /\ T1 < M.
Proof.
  intros s s' N Hr Tot Pop Hn. destruct (c13_lemma s Hr Tot) as (s2 & E2 & _). rewrite Hn in E2. injection E2 as <- ->.
  destruct Hr as (Sd & Sr & ccs & Ck). fold M in Tot.
  assert (G : forall d dv n r, In (d, dv) (s_devs s) -> In (n, r) dv -> good (r_table r)).
  { intros d dv n r H1 H2. apply In_find in H1; [|assumption]. destruct (Sr d dv H1) as (S1 & S2).
    apply In_find in H2; [|assumption]. destruct (S2 n r H2) as (cs & ->). apply run_good. }
  set (T1 := sum (map (fun d => dsize (snd d)) (s_devs s))).
  assert (ET : total s = T1 + Z.of_nat (length (solved_names (k_nodes (s_ckt s))))) by reflexivity.
  assert (P1 : 0 <= T1).
  { unfold T1. generalize (s_devs s). induction s0 as [|p l IHl]; cbn; [lia|]. pose proof (dsize_nonneg (snd p)). unfold sum in IHl. lia. }
  pose proof (number_devices_spec (s_devs s) 0 G ltac:(lia)) as HD. fold T1 in HD. specialize (HD ltac:(lia)).
  unfold number_system in Hn. destruct (number_devices 0 (s_devs s)) as [devs e]. destruct HD as (L & Ee & Sm & Bs).
  assert (Ed : s_devs s' = devs).
  { destruct (k_nodes (s_ckt s)) as [|p t]; [injection Hn as <- _; reflexivity|]. destruct (set_node_numbers (s_ckt s) (Z.to_nat e)) as [k ok]. injection Hn as <- _. reflexivity. }
  rewrite Ed. assert (Ee2 : e = T1) by lia. subst e. exists T1.
  assert (Sd' : sorted devs) by (unfold sorted in *; rewrite <- (Forall2_keys _ _ _ Sm); exact Sd).
  assert (Fd : forall d, match find d (s_devs s), find d devs with Some v, Some w => same_device v w | None, None => True | _, _ => False end).
  { intros d. apply Forall2_find. exact Sm. }
  assert (Sr' : forall d dv, find d devs = Some dv -> sorted dv).
  { intros d dv H. specialize (Fd d). rewrite H in Fd. destruct (find d (s_devs s)) as [dv0|] eqn:E; [|destruct Fd].
    destruct (Sr d dv0 E) as (S1 & _). unfold sorted in *. rewrite <- (Forall2_keys _ _ _ Fd). exact S1. }
  assert (Fl : forall k r, In (k, r) (flat devs) -> good (r_table r) /\ populated r /\ (t_num (r_table r) <> 0%nat -> 0 <= r_base r < M)).
  { intros (d & r) rg Hf. pose proof (Bs _ _ Hf) as Hb. apply flat_In in Hf; [|exact Sd'|exact Sr']. destruct Hf as (dv & H1 & H2).
    change (find (V:=device) d devs = Some dv) in H1. specialize (Fd d). rewrite H1 in Fd. destruct (find d (s_devs s)) as [dv0|] eqn:E; [|destruct Fd].
    pose proof (Forall2_find _ _ _ r Fd) as Fr. rewrite H2 in Fr. destruct (find r dv0) as [rg0|] eqn:E2; [|destruct Fr].
    destruct Fr as (F1 & F2). pose proof (G d dv0 r rg0 (find_In _ _ _ E) (find_In _ _ _ E2)) as Gg. rewrite F2 in Gg.
    split; [exact Gg|]. split; [|exact Hb]. intros Nz. rewrite <- F1. apply (Pop d dv0 r rg0 E E2). rewrite F2. intros Z. rewrite (proj1 Gg), Z in Nz. apply Nz. reflexivity. }
  split; [lia|]. split; [reflexivity|]. split; [exact L|]. split; [rewrite create_flat; apply laid_chain; [exact L|exact Fl|lia|lia]|].
  split; [exact Sd'|]. split; [exact Sr'|]. split; [|split; [exact Fl|lia]].
  apply flat_NoDup; [exact Sd'|]. intros d dv Hx. apply In_find in Hx; [|exact Sd']. eapply Sr'; exact Hx.
Qed.

(* ---- the block of an unknown -------------------------------------------------------------------- *)
(* the row of an unknown lies in a block; the blocks of two unknowns agree iff they belong to the same equation *)
Section Rows.
Variables (s s' : system) (N : Z).
Hypothesis (Hr : reachable s) (Tot : total s < 2 ^ 64) (Pop : populated_devs (s_devs s)) (Hn : number_system s = (s', Some N)).
Lemma bulk_row : forall d r e i v, is_unknown s (UBulk d r e i) -> row_of s' (UBulk d r e i) = Some v ->
  exists rg idx, In (d, r, rg) (flat (s_devs s')) /\ equation_index (r_table rg) e = Some idx /\ (idx < t_num (r_table rg))%nat /\ (i < r_nodes rg)%nat /\
    v = r_base rg + Z.of_nat idx * Z.of_nat (r_nodes rg) + Z.of_nat i /\ r_base rg <= v < r_base rg + size_of rg /\
    region_max rg = r_base rg + size_of rg - 1 /\ 0 <= r_base rg /\ r_base rg + size_of rg <= N.
Proof.
  intros d r e i v Hu Hv. destruct (layout s s' N Hr Tot Pop Hn) as (T1 & T1a & T1b & L & C & Sd & Sr & ND & Fl & T1c).
  destruct (c13_lemma s Hr Tot) as (s2 & E2 & Eu & _). rewrite Hn in E2. injection E2 as <- _. apply Eu in Hu.
  cbn in Hu. destruct Hu as (dv & rg & H1 & H2 & H3 & H4).
  assert (Hf : In (d, r, rg) (flat (s_devs s'))) by (apply flat_In; [exact Sd|exact Sr|]; exists dv; auto).
  destruct (Fl _ _ Hf) as ((g1 & g2 & g3 & g4 & g5) & P & B).
  cbn in Hv. rewrite H1, H2 in Hv. destruct (equation_index (r_table rg) e) as [idx|] eqn:Ei; [|discriminate].
  pose proof (g2 _ _ Ei) as Li. specialize (B ltac:(lia)).
  assert (Es : size_of rg = Z.of_nat (t_num (r_table rg)) * Z.of_nat (r_nodes rg)) by (unfold size_of; rewrite g1; reflexivity).
  pose proof (mul_lt (Z.of_nat idx) (Z.of_nat i) (Z.of_nat (t_num (r_table rg))) (Z.of_nat (r_nodes rg)) ltac:(lia) ltac:(lia)) as Hm.
  destruct (laid_In _ _ _ _ _ L Hf ltac:(lia)) as (B1 & B2).
  unfold region_row in Hv. destruct (Nat.ltb_spec idx (t_num (r_table rg))); [|lia].
  destruct (Z.eqb_spec (r_base rg) m1) as [Em|_]; [unfold m1 in Em; fold M in Em; lia|]. injection Hv as <-.
  rewrite w64_small by lia. exists rg, idx. repeat split; auto; try lia. unfold region_max. rewrite <- Es. rewrite w64_small; rewrite (w64_small (r_base rg + size_of rg)); lia.
Qed.
Lemma block_of_bulk : forall rg idx k, In (k, rg) (flat (s_devs s')) -> (idx < t_num (r_table rg))%nat -> r_nodes rg <> 0%nat ->
  In (mkB (r_base rg + Z.of_nat idx * Z.of_nat (r_nodes rg)) (r_base rg + Z.of_nat idx * Z.of_nat (r_nodes rg) + Z.of_nat (r_nodes rg) - 1) (r_base rg) (region_max rg)) (create_blocks (s_devs s')).
Proof.
  intros rg idx k Hf Li Nn. destruct (layout s s' N Hr Tot Pop Hn) as (T1 & T1a & T1b & L & C & Sd & Sr & ND & Fl & T1c).
  destruct (Fl _ _ Hf) as ((g1 & _) & P & B). specialize (B ltac:(lia)).
  assert (Es : size_of rg = Z.of_nat (t_num (r_table rg)) * Z.of_nat (r_nodes rg)) by (unfold size_of; rewrite g1; reflexivity).
  assert (Hm : (Z.of_nat idx + 1) * Z.of_nat (r_nodes rg) <= size_of rg) by (rewrite Es; nia).
  destruct (laid_In _ _ _ _ _ L Hf ltac:(nia)) as (B1 & B2).
  rewrite create_flat. apply in_flat_map. exists (k, rg). split; [exact Hf|]. cbn [snd]. unfold region_blocks.
  destruct (Z.eqb_spec (r_base rg) m1) as [Em|_]; [unfold m1 in Em; fold M in Em; nia|].
  apply in_map_iff. exists idx. split; [|apply in_seq; lia]. cbv zeta. rewrite (w64_small (r_base rg + _)) by nia. rewrite w64_small by nia. reflexivity.
Qed.
(* every block comes from a region *)
Lemma block_from : forall b, In b (create_blocks (s_devs s')) -> exists d r rg idx, In (d, r, rg) (flat (s_devs s')) /\ (idx < t_num (r_table rg))%nat /\ r_nodes rg <> 0%nat /\
  b = mkB (r_base rg + Z.of_nat idx * Z.of_nat (r_nodes rg)) (r_base rg + Z.of_nat idx * Z.of_nat (r_nodes rg) + Z.of_nat (r_nodes rg) - 1) (r_base rg) (region_max rg).
Proof.
  intros b Hb. destruct (layout s s' N Hr Tot Pop Hn) as (T1 & T1a & T1b & L & C & Sd & Sr & ND & Fl & T1c).
  rewrite create_flat in Hb. apply in_flat_map in Hb. destruct Hb as (((d & r) & rg) & Hf & Hb). cbn [snd] in Hb. unfold region_blocks in Hb.
  destruct (Z.eqb_spec (r_base rg) m1) as [Em|_]; [destruct Hb|]. apply in_map_iff in Hb. destruct Hb as (idx & <- & Hi). apply in_seq in Hi.
  destruct (Fl _ _ Hf) as ((g1 & _) & P & B). specialize (B ltac:(lia)). specialize (P ltac:(lia)).
  assert (Es : size_of rg = Z.of_nat (t_num (r_table rg)) * Z.of_nat (r_nodes rg)) by (unfold size_of; rewrite g1; reflexivity).
  assert (Hm : (Z.of_nat idx + 1) * Z.of_nat (r_nodes rg) <= size_of rg) by (rewrite Es; nia).
  destruct (laid_In _ _ _ _ _ L Hf ltac:(nia)) as (B1 & B2).
  exists d, r, rg, idx. split; [exact Hf|]. split; [lia|]. split; [exact P|]. cbv zeta. rewrite (w64_small (r_base rg + _)) by nia. rewrite w64_small by nia. reflexivity.
Qed.

Definition has_block (f : Z -> option nat) (v : Z) (k : nat) (b : block) : Prop := f v = Some k /\ nth_error (create_blocks (s_devs s')) k = Some b /\ b_min b <= v <= b_max b.
Lemma block_map : exists f, sort_blocks (create_blocks (s_devs s')) = Some (create_blocks (s_devs s')) /\ assign N 0 (create_blocks (s_devs s')) (fun _ => None) = Ok f /\
  (forall d r e i v, is_unknown s (UBulk d r e i) -> row_of s' (UBulk d r e i) = Some v -> exists k b, has_block f v k b) /\
  (forall n v, is_unknown s (UCircuit n) -> row_of s' (UCircuit n) = Some v -> f v = None) /\
  (forall u u' v v', is_unknown s u -> is_unknown s u' -> row_of s' u = Some v -> row_of s' u' = Some v' -> (f v = f v' <-> same_equation u u')) /\
  (forall d r e i u' v v' k b, is_unknown s (UBulk d r e i) -> is_unknown s u' -> row_of s' (UBulk d r e i) = Some v -> row_of s' u' = Some v' -> has_block f v k b ->
     (b_lo b <= v' <= b_hi b <-> same_part (UBulk d r e i) u')).
Proof.
  destruct (layout s s' N Hr Tot Pop Hn) as (T1 & T1a & T1b & L & C & Sd & Sr & ND & Fl & T1c).
  destruct (chain_assign N _ _ _ 0%nat (fun _ => None) C T1a) as (f & Ef & Hf).
  destruct (c13_lemma s Hr Tot) as (s2 & E2 & Eu & _ & Inj & _). rewrite Hn in E2. injection E2 as <- _.
  assert (Hf' : forall j k, f j = Some k <-> exists b, nth_error (create_blocks (s_devs s')) k = Some b /\ b_min b <= j <= b_max b).
  { intros j k. rewrite Hf. split; [intros [(b & n & E & -> & J)|(_ & E)]; [exists b; auto|discriminate]|intros (b & E & J); left; exists b, k; auto]. }
  clear Hf. exists f. split; [eapply chain_sort; exact C|]. split; [exact Ef|].
  assert (HB : forall d r e i v, is_unknown s (UBulk d r e i) -> row_of s' (UBulk d r e i) = Some v ->
    exists rg idx k b, In (d, r, rg) (flat (s_devs s')) /\ equation_index (r_table rg) e = Some idx /\ (i < r_nodes rg)%nat /\ has_block f v k b /\
      b = mkB (r_base rg + Z.of_nat idx * Z.of_nat (r_nodes rg)) (r_base rg + Z.of_nat idx * Z.of_nat (r_nodes rg) + Z.of_nat (r_nodes rg) - 1) (r_base rg) (region_max rg)).
  { intros d r e i v Hu Hv. destruct (bulk_row d r e i v Hu Hv) as (rg & idx & F1 & F2 & F3 & F4 & -> & _).
    pose proof (block_of_bulk rg idx _ F1 F3 ltac:(lia)) as Hb. apply In_nth_error in Hb. destruct Hb as (k & Hk).
    exists rg, idx, k. eexists. split; [exact F1|]. split; [exact F2|]. split; [exact F4|]. split; [|reflexivity].
    split; [|split; [exact Hk|cbn; lia]]. apply Hf'. eexists. split; [exact Hk|]. cbn. lia. }
  assert (HC : forall n v, is_unknown s (UCircuit n) -> row_of s' (UCircuit n) = Some v -> f v = None).
  { intros n v Hu Hv. destruct (f v) as [k|] eqn:E; [|reflexivity]. exfalso. apply Hf' in E. destruct E as (b & Hk & J).
    apply nth_error_In in Hk. destruct (block_from b Hk) as (d & r & rg & idx & F1 & F2 & F3 & ->). cbn [b_min b_max] in J.
    destruct (Fl _ _ F1) as ((g1 & g2 & g3 & g4 & g5) & P & B). specialize (B ltac:(lia)). destruct (g3 idx F2) as (e & He).
    set (i := Z.to_nat (v - (r_base rg + Z.of_nat idx * Z.of_nat (r_nodes rg)))).
    pose proof F1 as F1'. apply flat_In in F1'; [|exact Sd|exact Sr]. destruct F1' as (dv & K1 & K2). change (find (V:=device) d (s_devs s') = Some dv) in K1.
    assert (Hu2 : is_unknown s' (UBulk d r e i)).
    { cbn. exists dv, rg. split; [exact K1|]. split; [exact K2|]. split; [apply g5; congruence|]. unfold i. lia. }
    assert (Es : size_of rg = Z.of_nat (t_num (r_table rg)) * Z.of_nat (r_nodes rg)) by (unfold size_of; rewrite g1; reflexivity).
    assert (Hm : (Z.of_nat idx + 1) * Z.of_nat (r_nodes rg) <= size_of rg) by (rewrite Es; nia).
    destruct (laid_In _ _ _ _ _ L F1 ltac:(nia)) as (B1 & B2).
    assert (Hv2 : row_of s' (UBulk d r e i) = Some v).
    { cbn. rewrite K1, K2, He. unfold region_row. destruct (Nat.ltb_spec idx (t_num (r_table rg))); [|lia].
      destruct (Z.eqb_spec (r_base rg) m1) as [Em|_]; [unfold m1 in Em; fold M in Em; nia|]. f_equal. unfold i. rewrite w64_small; nia. }
    apply Eu in Hu2. pose proof (Inj _ _ _ Hu Hu2 Hv Hv2). discriminate. }
  split; [intros d r e i v Hu Hv; destruct (HB d r e i v Hu Hv) as (rg & idx & k & b & _ & _ & _ & H & _); exists k, b; exact H|].
  split; [exact HC|]. split.
  - intros [d r e i|n] [d' r' e' i'|n'] v v' Hu Hu' Hv Hv'.
    + destruct (HB _ _ _ _ _ Hu Hv) as (rg & idx & k & b & F1 & F2 & F3 & (H1 & H2 & H3) & Eb).
      destruct (HB _ _ _ _ _ Hu' Hv') as (rg' & idx' & k' & b' & F1' & F2' & F3' & (H1' & H2' & H3') & Eb').
      rewrite H1, H1'. cbn [same_equation]. split.
      * intros Ek. injection Ek as <-. rewrite H2 in H2'. injection H2' as E. rewrite E in Eb.
        destruct (bulk_row _ _ _ _ _ Hu Hv) as (rg1 & idx1 & G1 & G2 & _ & _ & _ & G3 & G4 & _).
        destruct (bulk_row _ _ _ _ _ Hu' Hv') as (rg2 & idx2 & G1' & G2' & _ & _ & _ & G3' & G4' & _).
        assert (U : forall d r x y, In (d, r, x) (flat (s_devs s')) -> In (d, r, y) (flat (s_devs s')) -> x = y).
        { intros d0 r0 x y Q1 Q2. apply flat_In in Q1; [|exact Sd|exact Sr]. apply flat_In in Q2; [|exact Sd|exact Sr]. destruct Q1 as (? & Q1 & Q1'). destruct Q2 as (? & Q2 & Q2'). congruence. }
        rewrite (U _ _ _ _ G1 F1) in *. rewrite (U _ _ _ _ G1' F1') in *.
        rewrite Eb in Eb'. injection Eb' as J1 J2 J3 J4.
        assert (Er : (d, r, rg) = (d', r', rg')).
        { apply (laid_disjoint _ _ _ L ND (d, r) rg (d', r') rg' v F1 F1'); [exact G3|]. lia. }
        injection Er as -> -> ->. split; [reflexivity|]. split; [reflexivity|]. assert (idx = idx') by nia. subst idx'.
        destruct (Fl _ _ F1) as ((_ & _ & _ & g4 & _) & _ & _). exact (g4 _ _ _ F2 F2').
      * intros (-> & -> & ->). assert (rg' = rg).
        { apply flat_In in F1; [|exact Sd|exact Sr]. apply flat_In in F1'; [|exact Sd|exact Sr]. destruct F1 as (? & Q1 & Q1'). destruct F1' as (? & Q2 & Q2'). congruence. }
        subst rg'. assert (idx' = idx) by congruence. subst idx'. rewrite <- Eb' in Eb. subst b'.
        f_equal. eapply (chain_unique _ _ _ k k' b b v C); try eassumption. 
    + rewrite (HC _ _ Hu' Hv'). destruct (HB _ _ _ _ _ Hu Hv) as (rg & idx & k & b & F1 & F2 & F3 & (H1 & _) & _). rewrite H1. split; [discriminate|intros []].
    + rewrite (HC _ _ Hu Hv). destruct (HB _ _ _ _ _ Hu' Hv') as (rg & idx & k & b & F1 & F2 & F3 & (H1 & _) & _). rewrite H1. split; [discriminate|intros []].
    + rewrite (HC _ _ Hu Hv), (HC _ _ Hu' Hv'). cbn. tauto.
  - intros d r e i u' v v' k b Hu Hu' Hv Hv' (H1 & H2 & H3).
    destruct (HB _ _ _ _ _ Hu Hv) as (rg & idx & k1 & b1 & F1 & F2 & F3 & (H1' & H2' & H3') & Eb).
    assert (k1 = k) by congruence. subst k1. assert (Eb2 : b = b1) by congruence. rewrite Eb2, Eb. cbn [b_lo b_hi].
    destruct (bulk_row _ _ _ _ _ Hu Hv) as (rg1 & idx1 & G1 & G2 & _ & _ & _ & G3 & G4 & _).
    assert (U : forall d r x y, In (d, r, x) (flat (s_devs s')) -> In (d, r, y) (flat (s_devs s')) -> x = y).
    { intros d0 r0 x y Q1 Q2. apply flat_In in Q1; [|exact Sd|exact Sr]. apply flat_In in Q2; [|exact Sd|exact Sr]. destruct Q1 as (? & Q1 & Q1'). destruct Q2 as (? & Q2 & Q2'). congruence. }
    rewrite (U _ _ _ _ G1 F1) in *. rewrite G4. destruct u' as [d' r' e' i'|n'].
    + destruct (bulk_row _ _ _ _ _ Hu' Hv') as (rg2 & idx2 & G1' & G2' & _ & _ & _ & G3' & G4' & _). cbn. split.
      * intros J. assert (Er : (d, r, rg) = (d', r', rg2)) by (apply (laid_disjoint _ _ _ L ND (d, r) rg (d', r') rg2 v' F1 G1'); lia). injection Er as -> -> _. auto.
      * intros (-> & ->). rewrite (U _ _ _ _ G1' F1) in *. lia.
    + cbn. split; [|intros []]. intros J.
      (* a row of the circuit in a region's range lies in one of its blocks *)
      pose proof (HC _ _ Hu' Hv') as Hc. destruct (Fl _ _ F1) as ((g1 & g2 & _) & P & B).
      assert (Es : size_of rg = Z.of_nat (t_num (r_table rg)) * Z.of_nat (r_nodes rg)) by (unfold size_of; rewrite g1; reflexivity).
      assert (Nz : 0 < Z.of_nat (r_nodes rg)) by lia.
      set (q := (v' - r_base rg) / Z.of_nat (r_nodes rg)). set (m := (v' - r_base rg) mod Z.of_nat (r_nodes rg)).
      pose proof (Z.div_mod (v' - r_base rg) (Z.of_nat (r_nodes rg)) ltac:(lia)) as DM. fold q m in DM.
      pose proof (Z.mod_pos_bound (v' - r_base rg) (Z.of_nat (r_nodes rg)) Nz) as MB. fold m in MB.
      assert (Q : 0 <= q < Z.of_nat (t_num (r_table rg))) by nia.
      pose proof (block_of_bulk rg (Z.to_nat q) _ F1 ltac:(lia) ltac:(lia)) as Hb. apply In_nth_error in Hb. destruct Hb as (k2 & Hk2).
      assert (f v' = Some k2); [|congruence]. apply Hf'. eexists. split; [exact Hk2|]. cbn [b_min b_max]. rewrite Z2Nat.id by lia. nia.
Qed.
End Rows.
