(* The complex system is loaded: its real part is the static part, its imaginary part the
   time part times the angular frequency. *)
From Coq Require Import String List Bool Arith Lia Reals Lra ZArith.
From Verif Require Import StrMap EqTable NodeKeeper Numbering Assembly AssemblyProofs Load LoadProofs SmallSignal.
Import ListNotations.
Open Scope list_scope.
Open Scope nat_scope.
Local Arguments Nat.ltb : simpl never.
Local Arguments Nat.eqb : simpl never.
Notation cC := (cF rF).

(* a part of the complex numbers *)
Record part (h : R * R -> R) : Prop := mkPart { p_real : forall scl v, h (s_mul cC scl (v, 0%R)) = (h scl * v)%R }.
Lemma part_re : part fst. Proof. constructor. intros [a b] v. cbn. ring. Qed.
Lemma part_im : part snd. Proof. constructor. intros [a b] v. cbn. ring. Qed.
Section Part.
Variable h : R * R -> R.
Hypothesis Hh : part h.
Definition pmat (m : mat_list (R * R)) : mat_list R := map (fun p => (fst (fst p), snd (fst p), h (snd p))) m.
Definition psys (s : Load.system (R * R)) : Load.system R := mkSys (pmat (sy_ops s)) (map h (sy_rhs s)).
Definition pout (o : out (Load.system (R * R))) : out (Load.system R) := match o with OK s => OK (psys s) | Throw => Throw | UB => UB end.
Lemma part_add_entry : forall n s r c v, add_entry n (psys s) r c (h v) = pout (add_entry n s r c v).
Proof.
  intros n s r c v. unfold add_entry. destruct ((r <? n) && (c <? n))%bool; [|reflexivity]. cbn [pout]. unfold psys, pmat. cbn [sy_ops sy_rhs].
  rewrite map_app. reflexivity.
Qed.
Lemma part_bind : forall o (f : Load.system (R * R) -> out (Load.system (R * R))) g, (forall s, g (psys s) = pout (f s)) -> Load.bind (pout o) g = pout (Load.bind o f).
Proof. intros [s| |] f g H; cbn; [apply H|reflexivity|reflexivity]. Qed.
Lemma part_load_matrix : forall n scl off m s, load_matrix rF n m (h scl) off (psys s) = pout (load_matrix cC n (cmat rF m) scl off s).
Proof.
  intros n scl off. induction m as [|[[r c] v] t IH]; intros s; [reflexivity|]. cbn [load_matrix cmat map fst snd].
  change (s_mul rF (h scl) v) with (h scl * v)%R. rewrite <- (p_real h Hh). rewrite part_add_entry. apply part_bind. exact IH.
Qed.
Lemma part_load_matrix_perm : forall n pv scl m s, load_matrix_perm rF n pv m (h scl) (psys s) = pout (load_matrix_perm cC n pv (cmat rF m) scl s).
Proof.
  intros n pv scl. induction m as [|[[r c] v] t IH]; intros s; [reflexivity|]. cbn [load_matrix_perm cmat map fst snd].
  destruct (nth_error pv r) as [[[row|] keep]|]; [|apply IH|reflexivity].
  change (s_mul rF (h scl) v) with (h scl * v)%R. rewrite <- (p_real h Hh). rewrite part_add_entry. apply part_bind. intros s1.
  destruct keep.
  - rewrite part_add_entry. apply part_bind. exact IH.
  - cbn [Load.bind]. exact (IH s1).
Qed.
Definition bare_device (d : Load.device R) : Load.device R := mkDev (d_perms d) (d_bm d) [] (d_m d) [].
Definition bare (p : parts R) : parts R :=
  mkParts (map bare_device (p_devices p)) (option_map (fun c => (fst c, (fst (snd c), []))) (p_circuit p)) (p_pm p) [] (p_m p) [].
Lemma part_load_devices : forall n pv scl ds s, load_devices rF n pv (map bare_device ds) (h scl) (psys s) = pout (load_devices cC n pv (map (matrix_only_device rF) ds) scl s).
Proof.
  intros n pv scl. induction ds as [|d t IH]; intros s; [reflexivity|]. cbn [load_devices map bare_device matrix_only_device d_bm d_bv d_m d_v].
  rewrite part_load_matrix. apply part_bind. intros s1. cbn [load_rhs Load.bind]. rewrite part_load_matrix_perm. apply part_bind.
  intros s2. cbn [load_rhs_perm Load.bind]. apply IH.
Qed.
Lemma part_load_system : forall n pv p scl s, load_system rF n pv (bare p) (h scl) (psys s) = pout (load_system cC n pv (matrix_only rF p) scl s).
Proof.
  intros n pv p scl s. unfold load_system. cbn [bare matrix_only p_devices p_circuit p_pm p_pv p_m p_v]. rewrite part_load_devices. apply part_bind. intros s1.
  assert (X : load_circuit rF n (option_map (fun c => (fst c, (fst (snd c), []))) (p_circuit p)) (h scl) (psys s1) =
              pout (load_circuit cC n (option_map (fun c => (fst c, (cmat rF (fst (snd c)), []))) (p_circuit p)) scl s1)).
  { unfold load_circuit. destruct (p_circuit p) as [[off [m v]]|]; [|reflexivity]. cbn [option_map fst snd]. rewrite part_load_matrix. apply part_bind. intros s2. reflexivity. }
  rewrite X. apply part_bind. intros s2. rewrite part_load_matrix_perm. apply part_bind. intros s3. cbn [load_rhs_perm Load.bind].
  rewrite part_load_matrix. apply part_bind. intros s4. reflexivity.
Qed.
End Part.

Lemma bare_in : forall n p, parts_in n p -> parts_in n (bare p).
Proof.
  intros n p (Hd & Hc & A & B & C & D). split; [|split; [|split; [exact A|split; [intros r x []|split; [exact C|intros r x []]]]]].
  - intros d Hi. cbn in Hi. apply in_map_iff in Hi. destruct Hi as (d0 & <- & Hi). destruct (Hd d0 Hi) as (P & Q & _ & T & _).
    split; [exact P|]. split; [exact Q|]. split; [intros r x []|]. split; [exact T|intros r x []].
  - intros off m v E. cbn in E. destruct (p_circuit p) as [[off' [m' v']]|]; [|discriminate]. injection E as <- <- <-.
    destruct (Hc off' m' v' eq_refl) as (P & _). split; [exact P|intros r x []].
Qed.
Lemma bare_entry : forall dest p row col, system_entry dest (bare p) row col = system_entry dest p row col.
Proof.
  intros dest p row col. unfold system_entry. cbn [bare p_devices p_circuit p_pm p_m]. rewrite rsum_map. cbn [bare_device d_bm d_m].
  destruct (p_circuit p) as [[off [m v]]|]; reflexivity.
Qed.
Lemma bare_row : forall dest p row, system_row dest (bare p) row = 0%R.
Proof.
  intros dest p row. unfold system_row. cbn [bare p_devices p_circuit p_pv p_v]. rewrite rsum_map. cbn [bare_device d_bv d_v].
  rewrite (rsum_zero (fun a => (row_sum [] row + moved_row dest [] row)%R)) by (intros; unfold row_sum, moved_row; cbn; lra).
  unfold moved_row, row_sum. cbn [rsum]. destruct (p_circuit p) as [[off [m v]]|]; cbn [option_map fst snd]; [unfold shift_row, row_sum; cbn [map rsum]|]; lra.
Qed.

(* an entry of the complex matrix *)
Definition re_entry (m : mat_list (R * R)) (row col : nat) : R := entry (pmat fst m) row col.
Definition im_entry (m : mat_list (R * R)) (row col : nat) : R := entry (pmat snd m) row col.

Lemma load_ac_ok : forall n dc time w, parts_in n dc -> parts_in n time ->
  exists pv sy, load_ac rF n dc time w = OK (pv, sy) /\ represents n pv (destinations (decisions (p_devices dc))) /\ pv_in n pv /\
    sy_rhs sy = repeat (0%R, 0%R) n /\
    (forall row col, re_entry (sy_ops sy) row col = system_entry (destinations (decisions (p_devices dc))) dc row col /\
                     im_entry (sy_ops sy) row col = (w * system_entry (destinations (decisions (p_devices dc))) time row col)%R).
Proof.
  intros n dc time w Hd Ht. destruct (perms_ok n dc Hd) as (pv & Ep). pose proof (perms_pv_in n dc pv Hd Ep) as Hin.
  pose proof (perms_represent _ _ _ Ep) as Hr. set (dest := destinations (decisions (p_devices dc))) in *.
  set (s0 := mkSys [] (repeat (0%R, 0%R) n) : Load.system (R * R)).
  assert (L0 : forall h, length (sy_rhs (psys h s0)) = n) by (intros h; cbn; rewrite map_length, repeat_length; reflexivity).
  destruct (load_system_ok n pv (bare dc) 1%R (psys fst s0) Hin (bare_in n dc Hd) (L0 fst)) as (a1 & Ea1 & La1).
  pose proof (part_load_system fst part_re n pv dc (1%R, 0%R) s0) as P1. cbn [fst] in P1. rewrite Ea1 in P1.
  destruct (load_system cC n pv (matrix_only rF dc) (1%R, 0%R) s0) as [s1| |] eqn:E1; try discriminate. cbn [pout] in P1. injection P1 as P1.
  pose proof (part_load_system snd part_im n pv dc (1%R, 0%R) s0) as Q1. cbn [snd] in Q1. rewrite E1 in Q1. cbn [pout] in Q1.
  assert (L1 : length (sy_rhs (psys fst s1)) = n) by (rewrite <- P1; exact La1).
  destruct (load_system_ok n pv (bare time) 0%R (psys fst s1) Hin (bare_in n time Ht) L1) as (a2 & Ea2 & La2).
  pose proof (part_load_system fst part_re n pv time (0%R, w) s1) as P2. cbn [fst] in P2. rewrite Ea2 in P2.
  destruct (load_system cC n pv (matrix_only rF time) (0%R, w) s1) as [s2| |] eqn:E2; try discriminate. cbn [pout] in P2. injection P2 as P2.
  pose proof (part_load_system snd part_im n pv time (0%R, w) s1) as Q2. cbn [snd] in Q2. rewrite E2 in Q2. cbn [pout] in Q2.
  exists pv, s2. split.
  { unfold load_ac. rewrite Ep. cbn [Load.bind].
    change (load_system cC n pv (matrix_only rF dc) (s_one rF, s_zero rF) (mkSys [] (repeat (s_zero cC) n)) = OK s1) in E1. rewrite E1. cbn [Load.bind].
    change (load_system cC n pv (matrix_only rF time) (s_zero rF, w) s1 = OK s2) in E2. rewrite E2. reflexivity. }
  split; [exact Hr|]. split; [exact Hin|].
  destruct (load_system_effect n pv dest Hr (bare dc) _ _ _ Ea1) as (l1 & A1 & B1). rewrite P1 in l1, A1, B1.
  destruct (load_system_effect n pv dest Hr (bare dc) _ _ _ Q1) as (l1' & A1' & B1').
  destruct (load_system_effect n pv dest Hr (bare time) _ _ _ Ea2) as (l2 & A2 & B2). rewrite P2 in l2, A2, B2.
  destruct (load_system_effect n pv dest Hr (bare time) _ _ _ Q2) as (l2' & A2' & B2').
  split.
  - assert (Len : length (sy_rhs s2) = n) by (rewrite P2 in La2; cbn [psys sy_rhs] in La2; rewrite map_length in La2; exact La2).
    apply (nth_ext _ _ (0%R, 0%R) (0%R, 0%R)); [rewrite Len, repeat_length; reflexivity|]. intros i Hi.
    rewrite nth_repeat.
    assert (X : forall h (s : Load.system (R * R)), h (0%R, 0%R) = 0%R -> rhs_at (psys h s) i = h (nth i (sy_rhs s) (0%R, 0%R))).
    { intros h s Z. unfold rhs_at. cbn [psys sy_rhs]. etransitivity; [|exact (map_nth h (sy_rhs s) (0%R, 0%R) i)]. rewrite Z. reflexivity. }
    assert (Y : nth i (sy_rhs s0) (0%R, 0%R) = (0%R, 0%R)) by (unfold s0; cbn [sy_rhs]; apply nth_repeat).
    specialize (B1 i). specialize (B2 i). specialize (B1' i). specialize (B2' i). rewrite bare_row in *. rewrite !X in * by reflexivity. rewrite Y in *.
    cbn [fst snd] in *. destruct (nth i (sy_rhs s2) (0%R, 0%R)) as [a b]. cbn [fst snd] in *. f_equal; lra.
  - intros row col. specialize (A1 row col). specialize (A2 row col). specialize (A1' row col). specialize (A2' row col). rewrite bare_entry in *.
    unfold re_entry, im_entry. cbn [psys sy_ops] in *. assert (Z : forall h, entry (pmat h (sy_ops s0)) row col = 0%R) by reflexivity.
    change (sy_ops s0) with (@nil (nat * nat * (R * R))) in *. rewrite Z in *. split; lra.
Qed.
