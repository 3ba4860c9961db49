(* Specification and proofs for get_matrix_and_rhs (C66). *)
From Coq Require Import Ascii String List Bool Arith Lia ZArith Reals Lra.
From Verif Require Import StrMap Assembly AssemblyProofs AssemblyJacobian Load LoadProofs CMatrix CMatrixSpec CMatrixRun CMatrixProperties Export.
Import ListNotations.
Open Scope R_scope.
Open Scope nat_scope.
Open Scope list_scope.
Local Arguments Nat.eqb : simpl never.
Local Arguments Nat.ltb : simpl never.

(* ---- specification -------------------------------------------------------------------- *)
Definition riszero (v : R) : bool := if Req_EM_T v 0%R then true else false.
(* the value of position (r, c) of a matrix in compressed column (isCRM: row) format; what is not stored is zero *)
Definition stored (isCRM : bool) (x : compressed_system R) (r c : nat) (v : R) : Prop :=
  (exists p, slot isCRM (x_ap x) (x_ai x) r c p /\ (forall q, slot isCRM (x_ap x) (x_ai x) r c q -> q = p) /\ nth_error (x_av x) p = Some v) \/
  ((forall p, ~ slot isCRM (x_ap x) (x_ai x) r c p) /\ v = 0%R).
(* a complete system of dimension n whose entries and right hand side are a and b *)
Definition system_is (isCRM : bool) (n : nat) (x : compressed_system R) (a : nat -> nat -> R) (b : nat -> R) : Prop :=
  well_formed n (x_ap x) (x_ai x) /\ length (x_av x) = length (x_ai x) /\ length (x_rhs x) = n /\
  (forall r c, r < n -> c < n -> stored isCRM x r c (a r c)) /\
  (forall r, r < n -> nth_error (x_rhs x) r = Some (b r)).

(* ---- proofs ---------------------------------------------------------------------------- *)
Lemma laws_R : scalar_laws R 0%R Rplus riszero.
Proof.
  unfold scalar_laws, riszero. split; [destruct (Req_EM_T 0 0); [reflexivity|contradiction]|]. split; [intros; lra|].
  intros a v _ H. destruct (Req_EM_T (a + v) 0) as [E|]; [exact E|discriminate].
Qed.
Definition conts (ops : mat_list R) : list (contribution R) := map (fun '(r, c, v) => (false, r, c, v)) ops.
Lemma conts_add : forall ops, concat (map (contributions R) (add_all ops)) = conts ops.
Proof. induction ops as [|[[r c] v] t IH]; [reflexivity|]. cbn. f_equal. exact IH. Qed.
Lemma since_acc : forall ops acc,
  fold_left (fun acc o => match o with Clear _ => [] | _ => acc ++ contributions R o end) (add_all ops) acc = acc ++ conts ops.
Proof.
  induction ops as [|[[r c] v] t IH]; intros acc; [cbn; rewrite app_nil_r; reflexivity|]. refine (eq_trans (IH _) _). rewrite <- app_assoc. reflexivity.
Qed.
Lemma since_add : forall ops, since_clear R (add_all ops) = conts ops.
Proof. intros. unfold since_clear. rewrite since_acc. reflexivity. Qed.
Lemma since_second : forall a b, since_clear R ((add_all a ++ [Finalize R; Clear R]) ++ add_all b) = conts b.
Proof.
  intros. unfold since_clear. rewrite !fold_left_app. cbn [fold_left]. rewrite since_acc. reflexivity.
Qed.
Lemma sum_fold : forall l z, fold_left Rplus l z = (z + rsum (fun x => x) l)%R.
Proof. induction l as [|a t IH]; intros z; cbn; [lra|]. rewrite IH. lra. Qed.
Lemma conts_sum : forall ops r c,
  fold_left Rplus (map snd (filter (for_key R riszero false r c) (conts ops))) 0%R = entry ops r c.
Proof.
  intros ops r c. rewrite sum_fold, Rplus_0_l. unfold entry.
  induction ops as [|[[a b] v] t IH]; cbn [conts map filter rsum]; [reflexivity|].
  fold (conts t). unfold for_key at 1. cbn [Bool.eqb andb fst snd]. rewrite (Nat.eqb_sym r a), (Nat.eqb_sym c b).
  destruct ((a =? r) && (b =? c))%bool eqn:E; cbn [andb].
  - unfold riszero at 1. destruct (Req_EM_T v 0) as [->|]; cbn [negb map rsum snd]; rewrite IH; lra.
  - rewrite IH. lra.
Qed.
Lemma touched_entry : forall ops r c, entry ops r c <> 0%R -> touched R riszero (add_all ops) r c = true.
Proof.
  intros ops r c H. unfold touched. rewrite conts_add. destruct (existsb _ _) eqn:E; [reflexivity|]. exfalso. apply H.
  rewrite <- conts_sum. replace (filter (for_key R riszero false r c) (conts ops)) with (@nil (contribution R)); [reflexivity|].
  symmetry. induction (conts ops) as [|e t IH]; [reflexivity|]. cbn [existsb] in E. apply orb_false_iff in E. destruct E as (A & B).
  apply orb_false_iff in A. cbn [filter]. rewrite (proj1 A). exact (IH B).
Qed.
Definition ops_in (n : nat) (ops : mat_list R) : Prop := forall r c v, In (r, c, v) ops -> r < n /\ c < n.
Lemma conts_In : forall ops ch r c v, In (ch, r, c, v) (conts ops) -> ch = false /\ In (r, c, v) ops.
Proof.
  intros ops ch r c v H. unfold conts in H. apply in_map_iff in H. destruct H as ([[a b] w] & E & Hi). injection E as <- <- <- <-. split; [reflexivity|exact Hi].
Qed.

(* ---- the operations that Load emits are in range ------------------------------------------- *)
Lemma add_entry_in : forall n (s s' : sys) r c v, Load.add_entry n s r c v = OK s' -> ops_in n (sy_ops s) -> ops_in n (sy_ops s').
Proof.
  intros n s s' r c v H I. unfold Load.add_entry in H. destruct ((r <? n) && (c <? n))%bool eqn:E; [|discriminate]. injection H as <-.
  apply andb_true_iff in E. destruct E as (A & B). apply Nat.ltb_lt in A, B. intros a b x Hi. cbn [sy_ops] in Hi. apply in_app_or in Hi.
  destruct Hi as [Hi|[Hi|[]]]; [exact (I a b x Hi)|]. injection Hi as <- <- _. split; assumption.
Qed.
Lemma add_rhs_in : forall n (s s' : sys) r v, add_rhs rF s r v = OK s' -> ops_in n (sy_ops s) -> ops_in n (sy_ops s').
Proof.
  intros n s s' r v H I. unfold add_rhs in H. destruct (nth_error _ _); [|discriminate]. destruct (set_nth _ _ _); [|discriminate]. injection H as <-. exact I.
Qed.
Lemma load_matrix_in : forall n scl off m s s', load_matrix rF n m scl off s = OK s' -> ops_in n (sy_ops s) -> ops_in n (sy_ops s').
Proof.
  intros n scl off. induction m as [|[[r c] v] t IH]; intros s s' H I; cbn [load_matrix] in H; [injection H as <-; exact I|].
  apply bind_OK in H. destruct H as (s1 & H1 & H2). exact (IH _ _ H2 (add_entry_in _ _ _ _ _ _ H1 I)).
Qed.
Lemma load_rhs_in : forall n scl off v s s', load_rhs rF v scl off s = OK s' -> ops_in n (sy_ops s) -> ops_in n (sy_ops s').
Proof.
  intros n scl off. induction v as [|[r x] t IH]; intros s s' H I; cbn [load_rhs] in H; [injection H as <-; exact I|].
  apply bind_OK in H. destruct H as (s1 & H1 & H2). exact (IH _ _ H2 (add_rhs_in _ _ _ _ _ H1 I)).
Qed.
Lemma load_matrix_perm_in : forall n pv scl m s s', load_matrix_perm rF n pv m scl s = OK s' -> ops_in n (sy_ops s) -> ops_in n (sy_ops s').
Proof.
  intros n pv scl. induction m as [|[[r c] v] t IH]; intros s s' H I; cbn [load_matrix_perm] in H; [injection H as <-; exact I|].
  destruct (nth_error pv r) as [[[row|] keep]|]; [|exact (IH _ _ H I)|discriminate].
  apply bind_OK in H. destruct H as (s1 & H1 & H2). apply bind_OK in H2. destruct H2 as (s2 & H2 & H3).
  apply (IH _ _ H3). pose proof (add_entry_in _ _ _ _ _ _ H1 I) as I1.
  destruct keep; [exact (add_entry_in _ _ _ _ _ _ H2 I1)|injection H2 as <-; exact I1].
Qed.
Lemma load_rhs_perm_in : forall n pv scl v s s', load_rhs_perm rF pv v scl s = OK s' -> ops_in n (sy_ops s) -> ops_in n (sy_ops s').
Proof.
  intros n pv scl. induction v as [|[r x] t IH]; intros s s' H I; cbn [load_rhs_perm] in H; [injection H as <-; exact I|].
  destruct (nth_error pv r) as [[[row|] keep]|]; [|exact (IH _ _ H I)|discriminate].
  apply bind_OK in H. destruct H as (s1 & H1 & H2). apply bind_OK in H2. destruct H2 as (s2 & H2 & H3).
  apply (IH _ _ H3). pose proof (add_rhs_in n _ _ _ _ H1 I) as I1.
  destruct keep; [exact (add_rhs_in n _ _ _ _ H2 I1)|injection H2 as <-; exact I1].
Qed.
Lemma load_devices_in : forall n pv scl ds s s', load_devices rF n pv ds scl s = OK s' -> ops_in n (sy_ops s) -> ops_in n (sy_ops s').
Proof.
  intros n pv scl. induction ds as [|d t IH]; intros s s' H I; cbn [load_devices] in H; [injection H as <-; exact I|].
  apply bind_OK in H. destruct H as (s1 & H1 & H2). apply bind_OK in H2. destruct H2 as (s2 & H2 & H3).
  apply bind_OK in H3. destruct H3 as (s3 & H3 & H4). apply bind_OK in H4. destruct H4 as (s4 & H4 & H5).
  apply (IH _ _ H5), (load_rhs_perm_in _ _ _ _ _ _ H4), (load_matrix_perm_in _ _ _ _ _ _ H3), (load_rhs_in _ _ _ _ _ _ H2), (load_matrix_in _ _ _ _ _ _ H1), I.
Qed.
Lemma load_system_in : forall n pv p scl s s', load_system rF n pv p scl s = OK s' -> ops_in n (sy_ops s) -> ops_in n (sy_ops s').
Proof.
  intros n pv p scl s s' H I. unfold load_system in H.
  apply bind_OK in H. destruct H as (s1 & H1 & H2). apply bind_OK in H2. destruct H2 as (s2 & H2 & H3).
  apply bind_OK in H3. destruct H3 as (s3 & H3 & H4). apply bind_OK in H4. destruct H4 as (s4 & H4 & H5).
  apply bind_OK in H5. destruct H5 as (s5 & H5 & H6).
  apply (load_rhs_in _ _ _ _ _ _ H6), (load_matrix_in _ _ _ _ _ _ H5), (load_rhs_perm_in _ _ _ _ _ _ H4), (load_matrix_perm_in _ _ _ _ _ _ H3).
  pose proof (load_devices_in _ _ _ _ _ _ H1 I) as I1. unfold load_circuit in H2. destruct (p_circuit p) as [[off [m v]]|].
  - apply bind_OK in H2. destruct H2 as (sa & Ha & Hb). exact (load_rhs_in _ _ _ _ _ _ Hb (load_matrix_in _ _ _ _ _ _ Ha I1)).
  - injection H2 as <-. exact I1.
Qed.
Lemma run_app : forall a b m, run R 0%R Rplus riszero (a ++ b) m =
  match run R 0%R Rplus riszero a m with Some m' => run R 0%R Rplus riszero b m' | None => None end.
Proof.
  unfold run. induction a as [|o t IH]; intros b m; cbn [app ofold]; [reflexivity|].
  destruct (step R 0%R Rplus riszero m o) as [m'|]; [apply IH|reflexivity].
Qed.
(* one load into an empty system *)
Lemma load_part : forall n p pv q, parts_in n q -> parts_in n p -> load_perms (identity n) (p_devices q) = OK pv ->
  exists s, load_system rF n pv p (s_one rF) (mkSys [] (repeat (s_zero rF) n)) = OK s /\ ops_in n (sy_ops s) /\ length (sy_rhs s) = n /\
  (forall r c, entry (sy_ops s) r c = system_entry (destinations (decisions (p_devices q))) p r c) /\
  (forall r, r < n -> nth_error (sy_rhs s) r = Some (- system_row (destinations (decisions (p_devices q))) p r)%R).
Proof.
  intros n p pv q Hq Hp Ep. pose proof (perms_pv_in n q pv Hq Ep) as Hin.
  destruct (load_system_ok n pv p (s_one rF) (mkSys [] (repeat (s_zero rF) n)) Hin Hp) as (s & Es & L); [cbn [sy_rhs]; apply repeat_length|].
  exists s. split; [exact Es|]. split; [apply (load_system_in _ _ _ _ _ _ Es); intros r c v []|]. split; [exact L|].
  destruct (load_system_effect n pv _ (perms_represent _ _ _ Ep) p _ _ _ Es) as (_ & A & B). split.
  - intros r c. rewrite A. unfold entry at 1. cbn [sy_ops rsum s_one rF]. lra.
  - intros r Hr. rewrite (nth_error_nth' (sy_rhs s) 0%R) by lia. f_equal. change (rhs_at s r = (- system_row (destinations (decisions (p_devices q))) p r)%R).
    rewrite B. unfold rhs_at. cbn [sy_rhs s_one s_zero rF].
    assert (Z : nth r (repeat 0%R n) 0%R = 0%R) by apply nth_repeat. rewrite Z. lra.
Qed.
Lemma in_range_add : forall n ops, ops_in n ops -> in_range R n (add_all ops).
Proof. intros n ops I ch r c v H. rewrite conts_add in H. apply conts_In in H. exact (I r c v (proj2 H)). Qed.
Lemma channels_add : forall ops cx, channels_ok R cx (add_all ops).
Proof. intros ops cx r c v H. rewrite conts_add in H. apply conts_In in H. destruct H as (E & _). discriminate. Qed.
Lemma no_clear : forall ops, ~ In (Clear R) (add_all ops).
Proof. intros ops H. unfold add_all in H. apply in_map_iff in H. destruct H as ([[r c] v] & E & _). discriminate. Qed.
(* what Finalize leaves, when the contributions since the last Clear are b *)
Lemma finalized : forall n isCRM ops b m rhs f, in_range R n ops ->
  run R 0%R Rplus riszero (ops ++ [Finalize R]) (mnew R n false isCRM) = Some m ->
  since_clear R ops = conts b -> length rhs = n -> (forall r, r < n -> nth_error rhs r = Some (f r)) ->
  system_is isCRM n (mkComp (ap R m) (ai R m) (ax R m false) rhs) (fun r c => entry b r c) f.
Proof.
  intros n isCRM ops b m rhs f Hin E Hs L Hf. pose proof laws_R as LR.
  destruct (C04_well_formed R 0%R Rplus riszero LR n false isCRM ops m Hin E) as (W & Lx).
  split; [exact W|]. split; [apply Lx; discriminate|]. split; [exact L|]. split; [|exact Hf].
  intros r c Hr Hc. destruct (C03_accumulation R 0%R Rplus riszero LR n false isCRM ops m Hin E r c Hr Hc) as (A & B).
  assert (V : accumulated R 0%R Rplus riszero ops false r c = entry b r c) by (unfold accumulated; rewrite Hs; apply conts_sum).
  destruct (touched R riszero ops r c).
  - destruct (A eq_refl) as (p & Sp & U & Vp). left. exists p. split; [exact Sp|]. split; [exact U|]. cbn [x_av]. rewrite <- V. apply Vp. discriminate.
  - destruct (B eq_refl) as (N & Z). right. split; [exact N|]. rewrite <- V. apply Z.
Qed.
Lemma export_ok : forall isCRM n dc time, parts_in n dc -> parts_in n time ->
  let dest := destinations (decisions (p_devices dc)) in
  (forall i, i < n -> system_entry dest dc i i <> 0%R) ->
  exists x pv, export rF riszero isCRM n dc time = OK x /\ load_perms (identity n) (p_devices dc) = OK pv /\
  system_is isCRM n (x_static x) (system_entry dest dc) (fun r => (- system_row dest dc r)%R) /\
  system_is isCRM n (x_dynamic x) (system_entry dest time) (fun r => (- system_row dest time r)%R) /\
  x_row x = map export_row pv /\ x_copy x = map export_copy pv /\ x_format x = (if isCRM then "csr" else "csc")%string.
Proof.
  intros isCRM n dc time Hd Ht dest Hdiag. destruct (perms_ok n dc Hd) as (pv & Ep).
  destruct (load_part n dc pv dc Hd Hd Ep) as (s1 & E1 & I1 & L1 & A1 & B1).
  destruct (load_part n time pv dc Hd Ht Ep) as (s2 & E2 & I2 & L2 & A2 & B2). fold dest in A1, B1, A2, B2.
  pose proof laws_R as LR.
  assert (R1 : in_range R n (add_all (sy_ops s1))) by (apply in_range_add; exact I1).
  assert (H1 : exists m1, run R 0%R Rplus riszero (add_all (sy_ops s1) ++ [Finalize R]) (mnew R n false isCRM) = Some m1).
  { apply (C06_safe_without_clear R 0%R Rplus riszero LR).
    - intros ch r c v H. rewrite map_app, concat_app in H. cbn in H. rewrite app_nil_r in H. exact (R1 ch r c v H).
    - intros r c v H. rewrite map_app, concat_app in H. cbn in H. rewrite app_nil_r in H. exact (channels_add (sy_ops s1) false r c v H).
    - intros H. apply in_app_or in H. destruct H as [H|[H|[]]]; [exact (no_clear _ H)|discriminate]. }
  destruct H1 as (m1 & H1).
  set (ops2 := (add_all (sy_ops s1) ++ [Finalize R; Clear R]) ++ add_all (sy_ops s2)).
  assert (C2 : concat (map (contributions R) ops2) = conts (sy_ops s1) ++ conts (sy_ops s2)).
  { unfold ops2. rewrite !map_app, !concat_app, !conts_add. cbn. rewrite app_nil_r. reflexivity. }
  assert (R2 : in_range R n ops2).
  { intros ch r c v H. rewrite C2 in H. apply in_app_or in H. destruct H as [H|H]; apply conts_In in H; [exact (I1 r c v (proj2 H))|exact (I2 r c v (proj2 H))]. }
  assert (H2 : exists m3, run R 0%R Rplus riszero (ops2 ++ [Finalize R]) (mnew R n false isCRM) = Some m3).
  { apply (C06_safe_partial R 0%R Rplus riszero LR).
    - intros ch r c v H. rewrite map_app, concat_app in H. cbn in H. rewrite app_nil_r in H. exact (R2 ch r c v H).
    - intros r c v H. rewrite map_app, concat_app in H. cbn in H. rewrite app_nil_r, C2 in H. apply in_app_or in H. destruct H as [H|H]; apply conts_In in H; destruct H; discriminate.
    - intros p q E. exists (add_all (sy_ops s1)). split.
      + assert (X : forall a b c d, ~ In (Clear R) a -> a ++ Clear R :: b = c ++ Clear R :: d -> ~ In (Clear R) b -> c = a).
        { induction a as [|z a IH]; intros b c d Na Eq Nb.
          - destruct c as [|y c]; [reflexivity|]. cbn in Eq. injection Eq as <- Eq. exfalso. apply Nb. rewrite Eq. apply in_or_app. right. left. reflexivity.
          - destruct c as [|y c]; cbn in Eq.
            + injection Eq as -> _. exfalso. apply Na. left. reflexivity.
            + injection Eq as <- Eq. f_equal. apply (IH b c d); [intro Hx; apply Na; right; exact Hx|exact Eq|exact Nb]. }
        symmetry. apply eq_sym. apply (X (add_all (sy_ops s1) ++ [Finalize R]) (add_all (sy_ops s2) ++ [Finalize R]) p q).
        * intros H. apply in_app_or in H. destruct H as [H|[H|[]]]; [exact (no_clear _ H)|discriminate].
        * rewrite <- E. unfold ops2. rewrite <- !app_assoc. reflexivity.
        * intros H. apply in_app_or in H. destruct H as [H|[H|[]]]; [exact (no_clear _ H)|discriminate].
      + intros i Hi. apply touched_entry. rewrite A1. exact (Hdiag i Hi). }
  destruct H2 as (m3 & H2).
  assert (M : exists m2, run R 0%R Rplus riszero [Clear R] m1 = Some m2 /\ run R 0%R Rplus riszero (add_all (sy_ops s2) ++ [Finalize R]) m2 = Some m3).
  { pose proof H2 as H3. unfold ops2 in H3.
    replace (((add_all (sy_ops s1) ++ [Finalize R; Clear R]) ++ add_all (sy_ops s2)) ++ [Finalize R])
      with ((add_all (sy_ops s1) ++ [Finalize R]) ++ ([Clear R] ++ (add_all (sy_ops s2) ++ [Finalize R]))) in H3 by (rewrite <- !app_assoc; reflexivity).
    rewrite run_app, H1 in H3. rewrite run_app in H3. destruct (run R 0%R Rplus riszero [Clear R] m1) as [m2|]; [|discriminate]. exists m2. split; [reflexivity|exact H3]. }
  destruct M as (m2 & M1 & M2).
  exists (mkExp (mkComp (ap R m1) (ai R m1) (ax R m1 false) (sy_rhs s1)) (mkComp (ap R m3) (ai R m3) (ax R m3 false) (sy_rhs s2)) (map export_row pv) (map export_copy pv) (if isCRM then "csr" else "csc")%string), pv.
  split; [|split; [exact Ep|]].
  - unfold export. rewrite Ep. cbn [bind]. unfold export_part. rewrite E1. cbn [bind].
    change (s_zero rF) with 0%R. change (s_add rF) with Rplus. rewrite H1. cbn [bind]. rewrite M1.
    change (repeat (s_zero rF) n) with (repeat 0%R n) in E2. rewrite E2. cbn [bind]. rewrite M2. reflexivity.
  - cbn [x_static x_dynamic x_row x_copy x_format]. split; [|split; [|auto]].
    + pose proof (finalized n isCRM (add_all (sy_ops s1)) (sy_ops s1) m1 (sy_rhs s1) (fun r => (- system_row dest dc r)%R) R1 H1 (since_add _) L1 B1) as (W & Lx & Lr & St & Rh).
      split; [exact W|]. split; [exact Lx|]. split; [exact Lr|]. split; [|exact Rh]. intros r c Hr Hc. rewrite <- A1. exact (St r c Hr Hc).
    + pose proof (finalized n isCRM ops2 (sy_ops s2) m3 (sy_rhs s2) (fun r => (- system_row dest time r)%R) R2 H2 (since_second _ _) L2 B2) as (W & Lx & Lr & St & Rh).
      split; [exact W|]. split; [exact Lx|]. split; [exact Lr|]. split; [|exact Rh]. intros r c Hr Hc. rewrite <- A2. exact (St r c Hr Hc).
Qed.
