From Coq Require Import String List ZArith Lia Bool.
From Verif Require Import StrMap EqTable EqTableProofs NodeKeeper NodeKeeperProofs Numbering.
Import ListNotations.
Open Scope Z_scope.

(* ---- specification ------------------------------------------------------------- *)
(* the unknowns that a system has *)
Definition is_unknown (s : system) (u : unknown) : Prop :=
  match u with
  | UBulk d r e i => exists dv rg, find d (s_devs s) = Some dv /\ find r dv = Some rg /\
       In e (keys (t_eqs (r_table rg))) /\ (i < r_nodes rg)%nat
  | UCircuit n => exists nd, find n (k_nodes (s_ckt s)) = Some nd /\ is_ground nd = false
  end.
Definition size_of (r : region) : Z := Z.of_nat (length (t_eqs (r_table r))) * Z.of_nat (r_nodes r).
(* the exact number of unknowns *)
Definition sum (l : list Z) : Z := fold_right Z.add 0 l.
Definition total (s : system) : Z :=
  sum (map (fun d => sum (map (fun r => size_of (snd r)) (snd d))) (s_devs s)) +
  Z.of_nat (length (solved_names (k_nodes (s_ckt s)))).
(* systems that commands can build: maps are maps, tables and circuit come from commands *)
Definition reachable (s : system) : Prop :=
  sorted (s_devs s) /\
  (forall d dv, find d (s_devs s) = Some dv -> sorted dv /\
     forall r rg, find r dv = Some rg -> exists cs, r_table rg = fst (run 0 empty cs)) /\
  exists cs, s_ckt s = crun k_new cs.

(* ---- table facts ----------------------------------------------------------------- *)
Definition good (t : table unit) : Prop :=
  t_num t = length (t_eqs t) /\
  (forall n i, equation_index t n = Some i -> (i < t_num t)%nat) /\
  (forall i, (i < t_num t)%nat -> exists n, equation_index t n = Some i) /\
  (forall n m i, equation_index t n = Some i -> equation_index t m = Some i -> n = m) /\
  (forall n, In n (keys (t_eqs t)) <-> equation_index t n <> None).
Lemma run_good : forall cs, good (fst (run 0 (@empty unit) cs)).
Proof.
  intros cs. pose proof (run_inv cs empty [] (fun _ => None) 0%nat inv_empty) as H.
  destruct (run 0 empty cs) as [t log]. destruct H as (id' & I). cbn [fst].
  set (o := fold_left order_step log []) in *.
  assert (E : forall n, equation_index t n = position n o) by exact (i_idx _ _ _ _ I).
  split; [rewrite (i_num _ _ _ _ I); apply I|]. split; [|split; [|split]].
  - intros n i H. rewrite E in H. apply position_bound in H. rewrite (i_num _ _ _ _ I). apply nth_error_Some. congruence.
  - intros i Hi. rewrite (i_num _ _ _ _ I) in Hi. destruct (nth_error o i) as [n|] eqn:En; [|apply nth_error_None in En; lia].
    exists n. rewrite E. apply nth_position; [apply I|exact En].
  - intros n m i H1 H2. rewrite E in H1, H2. apply position_bound in H1, H2. congruence.
  - intros n. rewrite <- find_keys, <- (i_names _ _ _ _ I), E. pose proof (position_None n o) as P.
    destruct (position n o) as [i|]; split; try congruence.
    + intros _. destruct (in_dec string_dec n o); [assumption|]. apply P in n0. discriminate.
    + intros H. exfalso. apply P; [reflexivity|exact H].
Qed.

(* ---- layout ------------------------------------------------------------------------ *)
Section Layout.
Context {K : Type}.
Inductive laid : Z -> list (K * region) -> Z -> Prop :=
| laid_nil : forall x, laid x [] x
| laid_none : forall x y k r t, size_of r = 0 -> laid x t y -> laid x ((k, r) :: t) y
| laid_some : forall x y k r t, r_base r = x -> laid (x + size_of r) t y -> laid x ((k, r) :: t) y.
Lemma size_nonneg : forall r, 0 <= size_of r.
Proof. intros r. unfold size_of. nia. Qed.
Lemma laid_le : forall x l y, laid x l y -> x <= y.
Proof. intros x l y H. induction H; try lia. pose proof (size_nonneg r). lia. Qed.
Lemma laid_app : forall x a y b z, laid x a y -> laid y b z -> laid x (a ++ b) z.
Proof. intros x a y b z H. induction H; intros Hb; cbn; [exact Hb|apply laid_none; auto|apply laid_some; auto]. Qed.
(* bounds of one block *)
Lemma laid_In : forall x l y k r, laid x l y -> In (k, r) l -> size_of r <> 0 -> x <= r_base r /\ r_base r + size_of r <= y.
Proof.
  intros x l y k r H. induction H; intros Hi Hs; [destruct Hi| |].
  - destruct Hi as [E|Hi]; [injection E as -> ->; contradiction|auto].
  - pose proof (laid_le _ _ _ H0). pose proof (size_nonneg r0). destruct Hi as [E|Hi]; [injection E as -> ->; lia|].
    destruct (IHlaid Hi Hs). lia.
Qed.
Lemma laid_disjoint : forall x l y, laid x l y -> NoDup (map fst l) ->
  forall k r k' r' v, In (k, r) l -> In (k', r') l ->
  r_base r <= v < r_base r + size_of r -> r_base r' <= v < r_base r' + size_of r' -> (k, r) = (k', r').
Proof.
  intros x l y H. induction H; intros ND k1 r1 k2 r2 v H1 H2 V1 V2; [destruct H1| |];
    inversion ND as [|a b Hk Ht]; subst.
  - destruct H1 as [E1|H1]; [injection E1 as -> ->; lia|]. destruct H2 as [E2|H2]; [injection E2 as -> ->; lia|]. eauto.
  - destruct H1 as [E1|H1], H2 as [E2|H2].
    + congruence.
    + injection E1 as -> ->. destruct (laid_In _ _ _ _ _ H0 H2 ltac:(lia)). lia.
    + injection E2 as -> ->. destruct (laid_In _ _ _ _ _ H0 H1 ltac:(lia)). lia.
    + eauto.
Qed.
Lemma laid_cover : forall x l y v, laid x l y -> x <= v < y ->
  exists k r, In (k, r) l /\ r_base r <= v < r_base r + size_of r.
Proof.
  intros x l y v H. induction H; intros V; [lia| |].
  - destruct (IHlaid V) as (k0 & r0 & H1 & H2). exists k0, r0. split; [right; exact H1|exact H2].
  - destruct (Z_lt_dec v (x + size_of r)) as [L|L].
    + exists k, r. split; [left; reflexivity|]. lia.
    + destruct (IHlaid ltac:(lia)) as (k0 & r0 & H1 & H2). exists k0, r0. split; [right; exact H1|exact H2].
Qed.
End Layout.

(* ---- numbering is a layout ------------------------------------------------------------ *)
Definition M : Z := 2 ^ 64.
Lemma M_val : M = 18446744073709551616. Proof. reflexivity. Qed.
Lemma w64_small : forall x, 0 <= x < M -> w64 x = x.
Proof. intros x H. apply Z.mod_small. exact H. Qed.
Lemma w64_step : forall a, 0 <= a < M -> w64 (w64 (w64 a - 1) + 1) = a.
Proof.
  intros a H. unfold w64. fold M. rewrite (Z.mod_small a) by exact H. rewrite Zplus_mod_idemp_l.
  replace (a - 1 + 1) with a by lia. apply Z.mod_small. exact H.
Qed.

(* numbering keeps everything but the bases *)
Definition same_region (r r' : region) : Prop := r_nodes r = r_nodes r' /\ r_table r = r_table r'.
Definition same_device (d d' : device) : Prop := Forall2 (fun p q => fst p = fst q /\ same_region (snd p) (snd q)) d d'.

Lemma number_regions_spec : forall regs x, (forall n r, In (n, r) regs -> good (r_table r)) ->
  0 <= x -> x + sum (map (fun r => size_of (snd r)) regs) < M ->
  let '(t, y, h) := number_regions x regs in
  laid x t y /\ y = x + sum (map (fun r => size_of (snd r)) regs) /\ same_device regs t /\
  (h = false -> y = x) /\ (forall n r, In (n, r) t -> t_num (r_table r) <> 0%nat -> 0 <= r_base r < M).
Proof.
  induction regs as [|[n r] t IH]; intros x G Hx Hb; cbn [number_regions].
  - split; [constructor|]. split; [cbn; lia|]. split; [constructor|]. split; [auto|]. intros ? ? [].
  - cbn [map sum fold_right snd] in Hb. fold (sum (map (fun r => size_of (snd r)) t)) in Hb.
    pose proof (size_nonneg r) as Sr.
    assert (Sg : forall l : device, 0 <= sum (map (fun r => size_of (snd r)) l)).
    { induction l as [|p l IHl]; cbn; [lia|]. pose proof (size_nonneg (snd p)). unfold sum in IHl. lia. }
    assert (Gr : good (r_table r)) by (apply (G n); left; reflexivity).
    assert (Gt : forall n r, In (n, r) t -> good (r_table r)) by (intros n0 r0 Hi; apply (G n0); right; exact Hi).
    destruct (t_num (r_table r)) as [|m] eqn:Em.
    + assert (Z0 : size_of r = 0) by (unfold size_of; rewrite <- (proj1 Gr), Em; reflexivity).
      specialize (IH x Gt Hx ltac:(lia)). destruct (number_regions x t) as [[t' y] h].
      destruct IH as (A & B & C & D & E). split; [apply laid_none; assumption|].
      split; [cbn [map sum fold_right snd]; fold (sum (map (fun r => size_of (snd r)) t)); lia|].
      split; [constructor; [split; [reflexivity|split; reflexivity]|exact C]|]. split; [exact D|].
      intros n0 r0 [H|H] H0; [injection H as -> ->; congruence|eauto].
    + set (r' := mkRg (r_nodes r) (r_table r) x). assert (S' : size_of r' = size_of r) by reflexivity.
      assert (St : w64 (region_max r' + 1) = x + size_of r).
      { unfold region_max, r'. cbn [r_base r_table r_nodes]. rewrite w64_step; unfold size_of.
        - rewrite (proj1 Gr). reflexivity.
        - rewrite (proj1 Gr). fold (size_of r). specialize (Sg t). lia. }
      rewrite St. specialize (IH (x + size_of r) Gt ltac:(lia) ltac:(lia)). destruct (number_regions (x + size_of r) t) as [[t' y] h].
      destruct IH as (A & B & C & D & E). split; [apply laid_some; [reflexivity|exact A]|].
      split; [cbn [map sum fold_right snd]; fold (sum (map (fun r => size_of (snd r)) t)); lia|].
      split; [constructor; [split; [reflexivity|split; reflexivity]|exact C]|]. split; [discriminate|].
      intros n0 r0 [H|H] H0; [injection H as <- <-; change (r_base r') with x; specialize (Sg t); lia|eauto].
Qed.

Definition flat (devs : smap device) : list (string * string * region) :=
  flat_map (fun d => map (fun r => (fst d, fst r, snd r)) (snd d)) devs.
Lemma laid_map : forall {K L} (f : K -> L) x l y, laid x l y -> laid x (map (fun p => (f (fst p), snd p)) l) y.
Proof. intros K L f x l y H. induction H; cbn; [constructor|apply laid_none; assumption|apply laid_some; assumption]. Qed.

Definition dsize (d : device) : Z := sum (map (fun r => size_of (snd r)) d).
Lemma dsize_nonneg : forall d, 0 <= dsize d.
Proof. intros d. unfold dsize. induction d as [|p l IH]; cbn; [lia|]. pose proof (size_nonneg (snd p)). unfold sum in IH. lia. Qed.
Definition same_devs (a b : smap device) : Prop := Forall2 (fun p q => fst p = fst q /\ same_device (snd p) (snd q)) a b.

Lemma number_devices_spec : forall devs x, (forall d dv n r, In (d, dv) devs -> In (n, r) dv -> good (r_table r)) ->
  0 <= x -> x + sum (map (fun d => dsize (snd d)) devs) < M ->
  let (t, y) := number_devices x devs in
  laid x (flat t) y /\ y = x + sum (map (fun d => dsize (snd d)) devs) /\ same_devs devs t /\
  (forall k r, In (k, r) (flat t) -> t_num (r_table r) <> 0%nat -> 0 <= r_base r < M).
Proof.
  induction devs as [|[n d] t IH]; intros x G Hx Hb; cbn [number_devices].
  - split; [constructor|]. split; [cbn; lia|]. split; [constructor|]. intros ? ? [].
  - cbn [map sum fold_right snd] in Hb. fold (sum (map (fun d => dsize (snd d)) t)) in Hb.
    assert (Sg : forall l : smap device, 0 <= sum (map (fun d => dsize (snd d)) l)).
    { induction l as [|p l IHl]; cbn; [lia|]. pose proof (dsize_nonneg (snd p)). unfold sum in IHl. lia. }
    specialize (Sg t). pose proof (dsize_nonneg d) as Sd.
    pose proof (number_regions_spec d x (fun n0 r0 H => G n d n0 r0 (or_introl eq_refl) H) Hx) as HR.
    fold (dsize d) in HR. specialize (HR ltac:(lia)). unfold number_device.
    destruct (number_regions x d) as [[d' y] h]. destruct HR as (A & B & C & D & E).
    assert (Nx : (if (if h then w64 (y - 1) else m1) =? m1 then x else w64 ((if h then w64 (y - 1) else m1) + 1)) = y).
    { destruct h.
      - destruct (Z.eqb_spec (w64 (y - 1)) m1) as [Ee|Ee].
        + assert (y = 0); [|lia]. destruct (Z.eq_dec y 0) as [|N]; [assumption|]. rewrite w64_small in Ee by lia.
          unfold m1 in Ee. fold M in Ee. lia.
        + pose proof (w64_step y ltac:(lia)) as W. rewrite (w64_small y) in W by lia. exact W.
      - rewrite Z.eqb_refl. symmetry. auto. }
    rewrite Nx. specialize (IH y (fun d0 dv n0 r0 H1 H2 => G d0 dv n0 r0 (or_intror H1) H2) ltac:(lia) ltac:(lia)).
    destruct (number_devices y t) as [t' z]. destruct IH as (A' & B' & C' & D').
    split; [cbn [flat flat_map fst snd]; eapply laid_app; [|exact A']|].
    { pose proof (laid_map (fun r => (n, r)) _ _ _ A) as L. exact L. }
    split; [cbn [map sum fold_right snd]; fold (sum (map (fun d => dsize (snd d)) t)); lia|].
    split; [constructor; [split; [reflexivity|exact C]|exact C']|].
    intros k r Hi Hn. cbn [flat flat_map fst snd] in Hi. apply in_app_or in Hi. destruct Hi as [Hi|Hi]; [|eauto].
    apply in_map_iff in Hi. destruct Hi as ((n0 & r0) & Eq & Hi). cbn in Eq. injection Eq as <- <-. eauto.
Qed.

(* ---- lookups --------------------------------------------------------------------------- *)
Lemma Forall2_find : forall {V W} (R : V -> W -> Prop) (a : smap V) (b : smap W) k,
  Forall2 (fun p q => fst p = fst q /\ R (snd p) (snd q)) a b ->
  match find k a, find k b with Some v, Some w => R v w | None, None => True | _, _ => False end.
Proof.
  intros V W R a b k H. induction H as [|[k1 v] [k2 u] a b (E & Hr) H IH]; cbn; [exact I|].
  cbn in E. subst k2. destruct (String.eqb k k1); [exact Hr|exact IH].
Qed.
Lemma Forall2_keys : forall {V W} (R : V -> W -> Prop) (a : smap V) (b : smap W),
  Forall2 (fun p q => fst p = fst q /\ R (snd p) (snd q)) a b -> keys a = keys b.
Proof. intros V W R a b H. induction H as [|p q a b (E & _) H IH]; cbn; [reflexivity|]. f_equal; assumption. Qed.

Lemma flat_In : forall devs d r rg, sorted devs -> (forall d dv, find d devs = Some dv -> sorted dv) ->
  (In (d, r, rg) (flat devs) <-> exists dv, find d devs = Some dv /\ find r dv = Some rg).
Proof.
  intros devs d r rg Sd Sr. unfold flat. rewrite in_flat_map. split.
  - intros ((d0 & dv) & H1 & H2). cbn in H2. apply in_map_iff in H2. destruct H2 as ((r0 & g) & E & H2). cbn in E. injection E as -> -> ->.
    apply In_find in H1; [|assumption]. exists dv. split; [exact H1|]. apply In_find; [|exact H2]. eapply Sr; exact H1.
  - intros (dv & H1 & H2). exists (d, dv). split; [apply find_In; exact H1|]. cbn. apply in_map_iff. exists (r, rg). split; [reflexivity|].
    apply find_In; exact H2.
Qed.
Lemma NoDup_app_disj : forall {A} (a b : list A), NoDup a -> NoDup b -> (forall x, In x a -> ~ In x b) -> NoDup (a ++ b).
Proof.
  intros A a b Ha Hb. induction Ha as [|x l Hx Hl IH]; intros Hd; cbn; [exact Hb|]. constructor.
  - intros Hi. apply in_app_or in Hi. destruct Hi as [Hi|Hi]; [contradiction|]. apply (Hd x); [left; reflexivity|exact Hi].
  - apply IH. intros y Hy. apply Hd. right. exact Hy.
Qed.
Lemma flat_NoDup : forall devs, sorted devs -> (forall d dv, In (d, dv) devs -> sorted dv) -> NoDup (map fst (flat devs)).
Proof.
  intros devs Hs Hd. apply sorted_NoDup in Hs. induction devs as [|[d dv] t IH]; cbn; [constructor|].
  cbn in Hs. inversion Hs as [|a b Hk Ht]; subst. rewrite map_app, map_map. cbn. apply NoDup_app_disj.
  - specialize (Hd d dv (or_introl eq_refl)). apply sorted_NoDup in Hd. unfold keys in Hd.
    replace (map (fun x : string * region => (d, fst x)) dv) with (map (pair d) (map fst dv)) by (rewrite map_map; reflexivity).
    clear IH. induction Hd as [|z l Hz Hl IHl]; cbn; constructor; [|exact IHl]. intros Hi. apply in_map_iff in Hi. destruct Hi as (q & E & Hq).
    injection E as ->. contradiction.
  - exact (IH Ht (fun d0 dv0 H => Hd d0 dv0 (or_intror H))).
  - intros p Hp Hi. apply in_map_iff in Hp. destruct Hp as (x & <- & _). 
    apply in_map_iff in Hi. destruct Hi as (((a & b) & c) & E & Hi). cbn in E. injection E as -> ->.
    unfold flat in Hi. apply in_flat_map in Hi. destruct Hi as ((d1 & dv1) & H1 & H2). cbn in H2. apply in_map_iff in H2.
    destruct H2 as (q & E & _). injection E as -> _ _. apply Hk. apply in_map_iff. exists (d, dv1). auto.
Qed.

(* rows of one region *)
Lemma mul_lt : forall i k n m, 0 <= i < n -> 0 <= k < m -> 0 <= i * m + k < n * m.
Proof. intros. nia. Qed.
Lemma mul_inj : forall i k i' k' m, 0 <= k < m -> 0 <= k' < m -> i * m + k = i' * m + k' -> i = i' /\ k = k'.
Proof. intros. assert (i = i') by nia. subst. split; lia. Qed.

Lemma c13_lemma : forall s, reachable s -> total s < 2 ^ 64 ->
  exists s', number_system s = (s', Some (total s)) /\
    (forall u, is_unknown s' u <-> is_unknown s u) /\
    (forall u, is_unknown s u -> exists v, row_of s' u = Some v /\ 0 <= v < total s) /\
    (forall u u' v, is_unknown s u -> is_unknown s u' -> row_of s' u = Some v -> row_of s' u' = Some v -> u = u') /\
    (forall v, 0 <= v < total s -> exists u, is_unknown s u /\ row_of s' u = Some v) /\
    (forall g n, find g (k_nodes (s_ckt s)) = Some n -> is_ground n = true -> row_of s' (UCircuit g) = None).
Proof.
  intros s (Sd & Sr & ccs & Ck) Tot. fold M in Tot.
  assert (G : forall d dv n r, In (d, dv) (s_devs s) -> In (n, r) dv -> good (r_table r)).
  { intros d dv n r H1 H2. apply In_find in H1; [|assumption]. destruct (Sr d dv H1) as (S1 & S2).
    apply In_find in H2; [|assumption]. destruct (S2 n r H2) as (cs & ->). apply run_good. }
  set (T1 := sum (map (fun d => dsize (snd d)) (s_devs s))).
  assert (ET : total s = T1 + Z.of_nat (length (solved_names (k_nodes (s_ckt s))))) by reflexivity.
  assert (P1 : 0 <= T1).
  { unfold T1. generalize (s_devs s). induction s0 as [|p l IHl]; cbn; [lia|]. pose proof (dsize_nonneg (snd p)). unfold sum in IHl. lia. }
  pose proof (number_devices_spec (s_devs s) 0 G ltac:(lia)) as HD. fold T1 in HD. specialize (HD ltac:(lia)).
  unfold number_system. destruct (number_devices 0 (s_devs s)) as [devs e]. destruct HD as (L & Ee & Sm & Bs).
  assert (Ee' : e = T1) by lia. clear Ee. subst e.
  (* lookups in the numbered devices *)
  assert (Sd' : sorted devs) by (unfold sorted in *; rewrite <- (Forall2_keys _ _ _ Sm); exact Sd).
  assert (Fd : forall d, match find d (s_devs s), find d devs with Some v, Some w => same_device v w | None, None => True | _, _ => False end).
  { intros d. apply Forall2_find. exact Sm. }
  assert (Sr' : forall d dv, find d devs = Some dv -> sorted dv).
  { intros d dv H. specialize (Fd d). rewrite H in Fd. destruct (find d (s_devs s)) as [dv0|] eqn:E; [|destruct Fd].
    destruct (Sr d dv0 E) as (S1 & _). unfold sorted in *. rewrite <- (Forall2_keys _ _ _ Fd). exact S1. }
  assert (ND : NoDup (map fst (flat devs))).
  { apply flat_NoDup; [exact Sd'|]. intros d dv H. apply In_find in H; [|exact Sd']. eapply Sr'; exact H. }
  assert (Ug : forall k d r e i, is_unknown (mkSys devs k) (UBulk d r e i) <-> is_unknown s (UBulk d r e i)).
  { intros k d r e i. cbn. specialize (Fd d). split.
    - intros (dv & rg & H1 & H2 & H3 & H4). rewrite H1 in Fd. destruct (find d (s_devs s)) as [dv0|] eqn:E; [|destruct Fd].
      pose proof (Forall2_find _ _ _ r Fd) as Fr. rewrite H2 in Fr. destruct (find r dv0) as [rg0|] eqn:E2; [|destruct Fr].
      destruct Fr as (F1 & F2). exists dv0, rg0. rewrite F1, F2. auto.
    - intros (dv & rg & H1 & H2 & H3 & H4). rewrite H1 in Fd. destruct (find d devs) as [dv0|] eqn:E; [|destruct Fd].
      pose proof (Forall2_find _ _ _ r Fd) as Fr. rewrite H2 in Fr. destruct (find r dv0) as [rg0|] eqn:E2; [|destruct Fr].
      destruct Fr as (F1 & F2). exists dv0, rg0. rewrite <- F1, <- F2. auto. }
  assert (Gd : forall d dv r rg, find d devs = Some dv -> find r dv = Some rg -> good (r_table rg)).
  { intros d dv r rg H1 H2. specialize (Fd d). rewrite H1 in Fd. destruct (find d (s_devs s)) as [dv0|] eqn:E; [|destruct Fd].
    pose proof (Forall2_find _ _ _ r Fd) as Fr. rewrite H2 in Fr. destruct (find r dv0) as [rg0|] eqn:E2; [|destruct Fr].
    destruct Fr as (_ & <-). eapply G; [apply find_In; exact E|apply find_In; exact E2]. }
  (* the row of a bulk unknown *)
  assert (Rb : forall k d r e i, is_unknown s (UBulk d r e i) ->
     exists rg idx, In (d, r, rg) (flat devs) /\ equation_index (r_table rg) e = Some idx /\ (idx < length (t_eqs (r_table rg)))%nat /\ (i < r_nodes rg)%nat /\
       row_of (mkSys devs k) (UBulk d r e i) = Some (r_base rg + (Z.of_nat idx * Z.of_nat (r_nodes rg) + Z.of_nat i)) /\
       r_base rg <= r_base rg + (Z.of_nat idx * Z.of_nat (r_nodes rg) + Z.of_nat i) < r_base rg + size_of rg /\
       0 <= r_base rg /\ r_base rg + size_of rg <= T1).
  { intros k d r e i Hu. apply (Ug k) in Hu. cbn in Hu. destruct Hu as (dv & rg & H1 & H2 & H3 & H4).
    pose proof (Gd _ _ _ _ H1 H2) as (g1 & g2 & g3 & g4 & g5). apply g5 in H3.
    destruct (equation_index (r_table rg) e) as [idx|] eqn:Ei; [|congruence]. pose proof (g2 _ _ Ei) as Hlt.
    assert (Hf : In (d, r, rg) (flat devs)) by (apply flat_In; [exact Sd'|exact Sr'|]; exists dv; auto).
    pose proof (Bs _ _ Hf ltac:(lia)) as Hb.
    pose proof (mul_lt (Z.of_nat idx) (Z.of_nat i) (Z.of_nat (t_num (r_table rg))) (Z.of_nat (r_nodes rg)) ltac:(lia) ltac:(lia)) as Hm.
    assert (Es : size_of rg = Z.of_nat (t_num (r_table rg)) * Z.of_nat (r_nodes rg)) by (unfold size_of; rewrite g1; reflexivity).
    destruct (laid_In _ _ _ _ _ L Hf ltac:(lia)) as (B1 & B2).
    exists rg, idx. split; [exact Hf|]. split; [exact Ei|]. split; [rewrite <- g1; exact Hlt|]. split; [exact H4|].
    split; [|lia]. cbn. rewrite H1, H2, Ei. unfold region_row. destruct (Nat.ltb_spec idx (t_num (r_table rg))); [|lia].
    destruct (Z.eqb_spec (r_base rg) m1) as [Em|_]; [unfold m1 in Em; fold M in Em; lia|].
    f_equal. rewrite w64_small by lia. lia. }
  (* circuit *)
  assert (Ct : exists k', (match k_nodes (s_ckt s) with
       | [] => (mkSys devs (s_ckt s), Some T1)
       | _ => let (k, ok) := set_node_numbers (s_ckt s) (Z.to_nat T1) in
              (mkSys devs k, if ok then Some (w64 (w64 (w64 (Z.of_nat (k_min k) + Z.of_nat (k_count k)) - 1) + 1)) else None)
       end) = (mkSys devs k', Some (total s)) /\
     (forall n, is_unknown (mkSys devs k') (UCircuit n) <-> is_unknown s (UCircuit n)) /\
     (forall n, is_unknown s (UCircuit n) -> exists i, nth_error (solved_names (k_nodes (s_ckt s))) i = Some n /\
         row_of (mkSys devs k') (UCircuit n) = Some (T1 + Z.of_nat i)) /\
     (forall i n, nth_error (solved_names (k_nodes (s_ckt s))) i = Some n -> is_unknown s (UCircuit n)) /\
     NoDup (solved_names (k_nodes (s_ckt s))) /\
     (forall g n, find g (k_nodes (s_ckt s)) = Some n -> is_ground n = true -> row_of (mkSys devs k') (UCircuit g) = None)).
  { pose proof (crun_kinv ccs k_new kinv_new) as I. rewrite <- Ck in I. set (k := s_ckt s) in *.
    destruct (k_nodes k) as [|p0 t0] eqn:En.
    - exists k. split; [rewrite ET; cbn; f_equal; f_equal; lia|]. split; [reflexivity|].
      split; [intros n H; exfalso; cbn in H; fold k in H; rewrite En in H; destruct H as (nd & H & _); discriminate|].
      split; [intros [|i] n H; discriminate|]. split; [constructor|]. intros g n H. discriminate.
    - rewrite <- En in ET |- *. destruct I as (A & B & C & D). destruct C as [(C & _)|C]; [congruence|].
      assert (Fk : full k) by (split; [exact A|split; [exact B|split; [exact C|exact D]]]).
      destruct (set_numbers_ok k (Z.to_nat T1) Fk) as (k' & Ek & F' & Ea & Em & Ec & Ekeys & Fs).
      rewrite Ek. exists k'. rewrite En. rewrite <- En. rewrite Em, Ec, Z2Nat.id, <- ET by exact P1.
      split; [rewrite w64_step by lia; reflexivity|].
      split.
      { intros n. cbn. fold k. rewrite Fs. destruct (find n (k_nodes k)) as [nd|]; cbn; split.
        - intros (x & H & Hg). injection H as <-. exists nd. split; [reflexivity|exact Hg].
        - intros (x & H & Hg). injection H as <-. eexists. split; [reflexivity|exact Hg].
        - intros (x & H & _). discriminate.
        - intros (x & H & _). discriminate. }
      split.
      { intros n Hu. cbn in Hu. fold k in Hu. destruct Hu as (nd & Hn & Hg).
        assert (Hi : In n (solved_names (k_nodes k))) by (apply solved_In; [exact A|]; exists nd; auto).
        cbn. rewrite Fs, Hn. cbn. rewrite Hg. destruct (position n (solved_names (k_nodes k))) as [i|] eqn:Ep.
        - exists i. apply position_bound in Ep. split; [exact Ep|]. rewrite Em, Z2Nat.id by exact P1.
          assert (i < length (solved_names (k_nodes k)))%nat by (apply nth_error_Some; congruence).
          rewrite w64_small by lia. f_equal. lia.
        - apply position_None in Ep. contradiction. }
      split.
      { intros i n H. apply nth_error_In in H. apply solved_In in H; [|exact A]. cbn. fold k. exact H. }
      split; [apply solved_NoDup; exact A|].
      intros g n Hg Hgr. cbn. rewrite Fs, Hg. cbn. rewrite Hgr. reflexivity. }
  destruct Ct as (k' & Es & Uc & Rc & Sc & NDc & Gc). exists (mkSys devs k').
  split; [exact Es|]. split; [|split; [|split; [|split]]].
  - intros [d r e i|n]; [apply Ug|apply Uc].
  - intros [d r e i|n] Hu.
    + destruct (Rb k' d r e i Hu) as (rg & idx & _ & _ & _ & _ & Hr & Hb & Hb2 & Hb3). eexists. split; [exact Hr|]. lia.
    + destruct (Rc n Hu) as (i & Hi & Hr). exists (T1 + Z.of_nat i). split; [exact Hr|].
      assert (i < length (solved_names (k_nodes (s_ckt s))))%nat by (apply nth_error_Some; congruence). lia.
  - intros [d r e i|n] [d' r' e' i'|n'] v Hu Hu' Hr Hr'.
    + destruct (Rb k' d r e i Hu) as (rg & idx & Hf & Hi & Hl & Hn & Hr1 & Hb & Hb2 & Hb3).
      destruct (Rb k' d' r' e' i' Hu') as (rg' & idx' & Hf' & Hi' & Hl' & Hn' & Hr1' & Hb' & Hb2' & Hb3').
      rewrite Hr in Hr1. rewrite Hr' in Hr1'. injection Hr1 as E1. injection Hr1' as E2. rewrite <- E1 in Hb. rewrite <- E2 in Hb'.
      pose proof (laid_disjoint _ _ _ L ND _ _ _ _ v Hf Hf' Hb Hb') as Eq. injection Eq as -> -> ->.
      destruct (mul_inj (Z.of_nat idx) (Z.of_nat i) (Z.of_nat idx') (Z.of_nat i') (Z.of_nat (r_nodes rg')) ltac:(lia) ltac:(lia) ltac:(lia)) as (Q1 & Q2).
      apply Nat2Z.inj in Q1, Q2. subst. f_equal. apply flat_In in Hf; [|exact Sd'|exact Sr']. destruct Hf as (dv & K1 & K2).
      destruct (Gd _ _ _ _ K1 K2) as (_ & _ & _ & g4 & _). eapply g4; eassumption.
    + exfalso. destruct (Rb k' d r e i Hu) as (rg & idx & _ & _ & _ & _ & Hr1 & Hb & Hb2 & Hb3).
      destruct (Rc n' Hu') as (j & _ & Hr2). rewrite Hr in Hr1. rewrite Hr' in Hr2. injection Hr1 as E1. injection Hr2 as E2. lia.
    + exfalso. destruct (Rb k' d' r' e' i' Hu') as (rg & idx & _ & _ & _ & _ & Hr1 & Hb & Hb2 & Hb3).
      destruct (Rc n Hu) as (j & _ & Hr2). rewrite Hr' in Hr1. rewrite Hr in Hr2. injection Hr1 as E1. injection Hr2 as E2. lia.
    + destruct (Rc n Hu) as (j & Hj & Hr1). destruct (Rc n' Hu') as (j' & Hj' & Hr1').
      rewrite Hr in Hr1. rewrite Hr' in Hr1'. injection Hr1 as E1. injection Hr1' as E2. assert (j = j') by lia. subst j'. congruence.
  - intros v Hv. destruct (Z_lt_dec v T1) as [Hlt|Hge].
    + destruct (laid_cover _ _ _ v L ltac:(lia)) as ((d & r) & rg & Hf & Hb).
      pose proof Hf as Hf0. apply flat_In in Hf0; [|exact Sd'|exact Sr']. destruct Hf0 as (dv & K1 & K2).
      destruct (Gd _ _ _ _ K1 K2) as (g1 & g2 & g3 & g4 & g5).
      assert (Es' : size_of rg = Z.of_nat (t_num (r_table rg)) * Z.of_nat (r_nodes rg)) by (unfold size_of; rewrite g1; reflexivity).
      set (q := (v - r_base rg) / Z.of_nat (r_nodes rg)). set (m := (v - r_base rg) mod Z.of_nat (r_nodes rg)).
      assert (Nz : 0 < Z.of_nat (r_nodes rg)) by nia.
      pose proof (Z.div_mod (v - r_base rg) (Z.of_nat (r_nodes rg)) ltac:(lia)) as DM. fold q m in DM.
      pose proof (Z.mod_pos_bound (v - r_base rg) (Z.of_nat (r_nodes rg)) Nz) as MB. fold m in MB.
      assert (Q : 0 <= q < Z.of_nat (t_num (r_table rg))) by nia.
      destruct (g3 (Z.to_nat q) ltac:(lia)) as (e & He).
      assert (Hu : is_unknown s (UBulk d r e (Z.to_nat m))).
      { apply (Ug k'). cbn. exists dv, rg. split; [exact K1|]. split; [exact K2|]. split; [|lia]. apply g5. congruence. }
      exists (UBulk d r e (Z.to_nat m)). split; [exact Hu|].
      destruct (Rb k' _ _ _ _ Hu) as (rg' & idx & Hf' & Hi & _ & _ & Hr & _).
      apply flat_In in Hf'; [|exact Sd'|exact Sr']. destruct Hf' as (dv' & K1' & K2'). assert (dv' = dv) by congruence. subst dv'.
      assert (rg' = rg) by congruence. subst rg'. rewrite Hr. f_equal. assert (idx = Z.to_nat q) by congruence. subst idx. nia.
    + destruct (nth_error (solved_names (k_nodes (s_ckt s))) (Z.to_nat (v - T1))) as [n|] eqn:En.
      * pose proof (Sc _ _ En) as Hu. exists (UCircuit n). split; [exact Hu|]. destruct (Rc n Hu) as (j & Hj & Hr). rewrite Hr. f_equal.
        assert (j = Z.to_nat (v - T1)). { eapply NoDup_nth_error; [exact NDc|apply nth_error_Some; congruence|congruence]. } lia.
      * apply nth_error_None in En. lia.
  - exact Gc.
Qed.
