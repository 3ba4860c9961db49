(* Specification and proofs for the loading of the global system (C18). *)
From Coq Require Import String List Bool Arith Lia Reals Lra.
From Verif Require Import Assembly AssemblyProofs AssemblyJacobian Load.
Import ListNotations.
Open Scope R_scope.
Open Scope nat_scope.
Open Scope list_scope.

(* ---- specification ------------------------------------------------------------------ *)
(* what the boundaries decided for a row: the last decision counts *)
Fixpoint decision (p : list (nat * pentry)) (r : nat) : option pentry :=
  match p with
  | nil => None
  | (k, e) :: t => match decision t r with Some e' => Some e' | None => if k =? r then Some e else None end
  end.
Definition decisions (ds : list (device R)) : list (nat * pentry) := flat_map d_perms ds.
(* the rows to which a bulk entry of row r is added *)
Definition destinations (p : list (nat * pentry)) (r : nat) : list nat :=
  match decision p r with
  | None => [r]
  | Some (None, _) => []
  | Some (Some t, false) => [t]
  | Some (Some t, true) => [t; r]
  end.
Definition count (row : nat) (l : list nat) : R := rsum (fun k => ind k row 1%R) l.
Section Spec.
Variable dest : nat -> list nat.
Definition moved_entry (m : mat_list R) (row col : nat) : R :=
  rsum (fun p => (count row (dest (fst (fst p))) * (if snd (fst p) =? col then snd p else 0))%R) m.
Definition moved_row (v : rhs_list R) (row : nat) : R := rsum (fun p => (count row (dest (fst p)) * snd p)%R) v.
Definition shift_entry (offset : nat) (m : mat_list R) (row col : nat) : R :=
  entry (map (fun p => (fst (fst p) + offset, snd (fst p) + offset, snd p)) m) row col.
Definition shift_row (offset : nat) (v : rhs_list R) (row : nat) : R := row_sum (map (fun p => (fst p + offset, snd p)) v) row.
Definition system_entry (p : parts R) (row col : nat) : R :=
  (rsum (fun d => entry (d_bm d) row col + moved_entry (d_m d) row col) (p_devices p) +
   match p_circuit p with Some (offset, (m, _)) => shift_entry offset m row col | None => 0 end +
   moved_entry (p_pm p) row col + entry (p_m p) row col)%R.
Definition system_row (p : parts R) (row : nat) : R :=
  (rsum (fun d => row_sum (d_bv d) row + moved_row (d_v d) row) (p_devices p) +
   match p_circuit p with Some (offset, (_, v)) => shift_row offset v row | None => 0 end +
   moved_row (p_pv p) row + row_sum (p_v p) row)%R.
End Spec.

(* ---- permutations -------------------------------------------------------------------- *)
Lemma set_nth_spec : forall {A} (l : list A) i a l', set_nth l i a = Some l' ->
  length l' = length l /\ i < length l /\ forall j, nth_error l' j = if j =? i then Some a else nth_error l j.
Proof.
  induction l as [|h t IH]; intros i a l' H; [destruct i; discriminate|]. destruct i as [|i]; cbn in H.
  - injection H as <-. cbn. split; [reflexivity|]. split; [lia|]. intros [|j]; reflexivity.
  - destruct (set_nth t i a) as [t'|] eqn:E; [|discriminate]. injection H as <-. destruct (IH _ _ _ E) as (L & B & N).
    cbn. split; [lia|]. split; [lia|]. intros [|j]; [reflexivity|]. cbn. apply N.
Qed.
Lemma set_nth_some : forall {A} (l : list A) i a, i < length l -> exists l', set_nth l i a = Some l'.
Proof.
  induction l as [|h t IH]; intros i a H; cbn in H; [lia|]. destruct i as [|i]; cbn; [eexists; reflexivity|].
  destruct (IH i a) as (t' & E); [lia|]. rewrite E. eexists; reflexivity.
Qed.
Lemma set_perms_spec : forall p pv pv', set_perms pv p = OK pv' -> length pv' = length pv /\
  (forall k e, In (k, e) p -> k < length pv) /\
  forall j, nth_error pv' j = match decision p j with Some e => Some e | None => nth_error pv j end.
Proof.
  induction p as [|[k e] t IH]; intros pv pv' H; cbn in H.
  - injection H as <-. split; [reflexivity|]. split; [intros k e []|]. reflexivity.
  - destruct (set_nth pv k e) as [pv1|] eqn:E; [|discriminate]. destruct (set_nth_spec _ _ _ _ E) as (L1 & B1 & N1).
    destruct (IH _ _ H) as (L & B & N). split; [lia|]. split.
    + intros k' e' [Eq|Hin]; [injection Eq as <- _; exact B1|]. rewrite <- L1. eapply B; exact Hin.
    + intros j. rewrite N. cbn. destruct (decision t j) as [e'|]; [reflexivity|]. rewrite N1, (Nat.eqb_sym j k). destruct (k =? j); reflexivity.
Qed.
Lemma set_perms_ok : forall p pv, (forall k e, In (k, e) p -> k < length pv) -> exists pv', set_perms pv p = OK pv'.
Proof.
  induction p as [|[k e] t IH]; intros pv H; cbn; [eexists; reflexivity|].
  destruct (set_nth_some pv k e) as (pv1 & E); [apply (H k e); left; reflexivity|]. rewrite E. apply IH.
  intros k' e' Hin. destruct (set_nth_spec _ _ _ _ E) as (-> & _). apply (H k' e'). right; exact Hin.
Qed.
Lemma decision_app : forall a b j, decision (a ++ b) j = match decision b j with Some e => Some e | None => decision a j end.
Proof.
  induction a as [|[k e] t IH]; intros b j; cbn; [destruct (decision b j); reflexivity|]. rewrite IH.
  destruct (decision b j); reflexivity.
Qed.
Lemma load_perms_spec : forall (ds : list (device R)) pv pv', load_perms pv ds = OK pv' -> length pv' = length pv /\
  (forall k e, In (k, e) (decisions ds) -> k < length pv) /\
  forall j, nth_error pv' j = match decision (decisions ds) j with Some e => Some e | None => nth_error pv j end.
Proof.
  induction ds as [|d t IH]; intros pv pv' H; cbn in H.
  - injection H as <-. split; [reflexivity|]. split; [intros k e []|]. reflexivity.
  - destruct (set_perms pv (d_perms d)) as [pv1| |] eqn:E; try discriminate. cbn in H.
    destruct (set_perms_spec _ _ _ E) as (L1 & B1 & N1). destruct (IH _ _ H) as (L & B & N). split; [lia|].
    unfold decisions in *. cbn [flat_map]. split.
    + intros k e Hin. apply in_app_or in Hin. destruct Hin as [Hin|Hin]; [eapply B1; exact Hin|]. rewrite <- L1. eapply B; exact Hin.
    + intros j. rewrite N, decision_app, N1. destruct (decision (flat_map d_perms t) j); reflexivity.
Qed.
Lemma load_perms_ok : forall (ds : list (device R)) pv, (forall k e, In (k, e) (decisions ds) -> k < length pv) -> exists pv', load_perms pv ds = OK pv'.
Proof.
  induction ds as [|d t IH]; intros pv H; cbn; [eexists; reflexivity|]. unfold decisions in H. cbn [flat_map] in H.
  destruct (set_perms_ok (d_perms d) pv) as (pv1 & E).
  { intros k e Hin. apply (H k e). apply in_or_app. left; exact Hin. }
  rewrite E. cbn. apply IH. intros k e Hin. destruct (set_perms_spec _ _ _ E) as (-> & _). apply (H k e), in_or_app. right; exact Hin.
Qed.
Lemma identity_nth : forall n j, j < n -> nth_error (identity n) j = Some (Some j, false).
Proof.
  intros n j H. unfold identity. rewrite nth_error_map. rewrite (nth_error_nth' (seq 0 n) 0) by (rewrite seq_length; exact H).
  rewrite seq_nth by exact H. reflexivity.
Qed.
Lemma identity_length : forall n, length (identity n) = n.
Proof. intros n. unfold identity. rewrite map_length, seq_length. reflexivity. Qed.

(* the permutation vector represents dest *)
Definition represents (n : nat) (pv : permvec) (dest : nat -> list nat) : Prop :=
  length pv = n /\ forall j, j < n -> exists e, nth_error pv j = Some e /\
  dest j = match e with (None, _) => [] | (Some t, k) => t :: (if k then [j] else []) end.
Lemma perms_represent : forall n ds pv, load_perms (identity n) ds = OK pv -> represents n pv (destinations (decisions ds)).
Proof.
  intros n ds pv H. destruct (load_perms_spec _ _ _ H) as (L & B & N). rewrite identity_length in L. split; [exact L|].
  intros j Hj. rewrite N. unfold destinations. destruct (decision (decisions ds) j) as [[[t|] [|]]|]; try (eexists; split; [reflexivity|reflexivity]).
  rewrite identity_nth by exact Hj. eexists. split; reflexivity.
Qed.

(* ---- loading --------------------------------------------------------------------------- *)
Notation sys := (system R).
Definition rhs_at (s : sys) (r : nat) : R := nth r (sy_rhs s) 0%R.
Lemma add_entry_spec : forall n (s s' : sys) r c v, add_entry n s r c v = OK s' ->
  sy_rhs s' = sy_rhs s /\ forall row col, entry (sy_ops s') row col = (entry (sy_ops s) row col + (if ((r =? row) && (c =? col))%bool then v else 0))%R.
Proof.
  intros n s s' r c v H. unfold add_entry in H. destruct (_ && _)%bool; [|discriminate]. injection H as <-. cbn [sy_ops sy_rhs]. split; [reflexivity|].
  intros row col. rewrite entry_app. unfold entry at 2. cbn. lra.
Qed.
Lemma add_entry_ok : forall n (s : sys) r c v, r < n -> c < n -> exists s', add_entry n s r c v = OK s'.
Proof. intros n s r c v Hr Hc. unfold add_entry. apply Nat.ltb_lt in Hr, Hc. rewrite Hr, Hc. eexists; reflexivity. Qed.
Lemma add_rhs_spec : forall (s s' : sys) r v, add_rhs rF s r v = OK s' ->
  sy_ops s' = sy_ops s /\ length (sy_rhs s') = length (sy_rhs s) /\ forall row, rhs_at s' row = (rhs_at s row + ind r row v)%R.
Proof.
  intros s s' r v H. unfold add_rhs in H. destruct (nth_error (sy_rhs s) r) as [x|] eqn:E; [|discriminate].
  destruct (set_nth (sy_rhs s) r _) as [l|] eqn:E2; [|discriminate]. injection H as <-. cbn. split; [reflexivity|].
  destruct (set_nth_spec _ _ _ _ E2) as (L & B & N). split; [exact L|]. intros row. unfold rhs_at. cbn [sy_rhs].
  rewrite !nth_default_eq || idtac. rewrite <- (nth_default_eq row l 0%R), <- (nth_default_eq row (sy_rhs s) 0%R). unfold nth_default.
  rewrite N. unfold ind. rewrite (Nat.eqb_sym r row). destruct (Nat.eqb_spec row r) as [->|D]; [|lra]. rewrite E. reflexivity.
Qed.
Lemma add_rhs_ok : forall (s : sys) r v, r < length (sy_rhs s) -> exists s', add_rhs rF s r v = OK s'.
Proof.
  intros s r v H. unfold add_rhs. destruct (nth_error (sy_rhs s) r) as [x|] eqn:E; [|apply nth_error_None in E; lia].
  destruct (set_nth_some (sy_rhs s) r (s_add rF x v) H) as (l & ->). eexists; reflexivity.
Qed.

(* effect of a step: matrix by a, right hand side by b *)
Definition effect (s s' : sys) (a : nat -> nat -> R) (b : nat -> R) : Prop :=
  length (sy_rhs s') = length (sy_rhs s) /\ (forall r c, entry (sy_ops s') r c = (entry (sy_ops s) r c + a r c)%R) /\
  forall r, rhs_at s' r = (rhs_at s r + b r)%R.
Lemma effect_refl : forall s, effect s s (fun _ _ => 0%R) (fun _ => 0%R).
Proof. intros s. split; [reflexivity|]. split; intros; lra. Qed.
Lemma effect_trans : forall s s1 s2 a b a' b', effect s s1 a b -> effect s1 s2 a' b' ->
  effect s s2 (fun r c => (a r c + a' r c)%R) (fun r => (b r + b' r)%R).
Proof.
  intros s s1 s2 a b a' b' (L & A & B) (L' & A' & B'). split; [congruence|]. split; intros; [rewrite A', A|rewrite B', B]; lra.
Qed.
Lemma effect_ext : forall s s' a b a' b', effect s s' a b -> (forall r c, a r c = a' r c) -> (forall r, b r = b' r) -> effect s s' a' b'.
Proof. intros s s' a b a' b' (L & A & B) H1 H2. split; [exact L|]. split; intros; [rewrite A, H1|rewrite B, H2]; reflexivity. Qed.
Lemma effect_entry : forall n s s' r c v, add_entry n s r c v = OK s' ->
  effect s s' (fun row col => if ((r =? row) && (c =? col))%bool then v else 0%R) (fun _ => 0%R).
Proof.
  intros n s s' r c v H. destruct (add_entry_spec _ _ _ _ _ _ H) as (E1 & E2). split; [rewrite E1; reflexivity|]. split; [exact E2|].
  intros row. unfold rhs_at. rewrite E1. lra.
Qed.
Lemma effect_rhs : forall s s' r v, add_rhs rF s r v = OK s' -> effect s s' (fun _ _ => 0%R) (fun row => ind r row v).
Proof.
  intros s s' r v H. destruct (add_rhs_spec _ _ _ _ H) as (E1 & E2 & E3). split; [exact E2|]. split; [|exact E3].
  intros row col. rewrite E1. lra.
Qed.
Lemma bind_OK : forall {A B} (o : out A) (f : A -> out B) b, bind o f = OK b -> exists a, o = OK a /\ f a = OK b.
Proof. intros A B [a| |] f b H; cbn in H; try discriminate. exists a. auto. Qed.

Lemma load_matrix_effect : forall n scl offset rcv s s', load_matrix rF n rcv scl offset s = OK s' ->
  effect s s' (fun r c => (scl * shift_entry offset rcv r c)%R) (fun _ => 0%R).
Proof.
  intros n scl offset. induction rcv as [|[[r c] v] t IH]; intros s s' H; cbn [load_matrix] in H.
  - injection H as <-. eapply effect_ext; [apply effect_refl| |reflexivity]. intros r c. unfold shift_entry, entry. cbn. lra.
  - destruct (bind_OK _ _ _ H) as (s1 & H1 & H2). eapply effect_ext; [exact (effect_trans _ _ _ _ _ _ _ (effect_entry _ _ _ _ _ _ H1) (IH _ _ H2))| |].
    + intros row col. unfold shift_entry, entry. cbn [map rsum fst snd s_mul rF]. destruct (_ && _)%bool; lra.
    + intros row. cbn. lra.
Qed.
Lemma load_rhs_effect : forall scl offset v s s', load_rhs rF v scl offset s = OK s' ->
  effect s s' (fun _ _ => 0%R) (fun r => (- (scl * shift_row offset v r))%R).
Proof.
  intros scl offset. induction v as [|[r x] t IH]; intros s s' H; cbn [load_rhs] in H.
  - injection H as <-. eapply effect_ext; [apply effect_refl|reflexivity|]. intros r. unfold shift_row, row_sum. cbn. lra.
  - destruct (bind_OK _ _ _ H) as (s1 & H1 & H2). eapply effect_ext; [exact (effect_trans _ _ _ _ _ _ _ (effect_rhs _ _ _ _ H1) (IH _ _ H2))| |].
    + intros row col. cbn. lra.
    + intros row. unfold shift_row, row_sum. cbn [map rsum fst snd]. unfold ind, rhssign. cbn [s_mul s_opp s_one rF]. destruct (_ =? _); lra.
Qed.
Lemma shift0_entry : forall m r c, shift_entry 0 m r c = entry m r c.
Proof.
  intros m r c. unfold shift_entry. f_equal. rewrite <- (map_id m) at 2. apply map_ext. intros [[a b] v]. cbn. rewrite !Nat.add_0_r. reflexivity.
Qed.
Lemma shift0_row : forall v r, shift_row 0 v r = row_sum v r.
Proof.
  intros v r. unfold shift_row. f_equal. rewrite <- (map_id v) at 2. apply map_ext. intros [a x]. cbn. rewrite Nat.add_0_r. reflexivity.
Qed.

Section Perm.
Variables (n : nat) (pv : permvec) (dest : nat -> list nat).
Hypothesis Rep : represents n pv dest.
Lemma dest_some : forall j e, nth_error pv j = Some e -> dest j = match e with (None, _) => [] | (Some t, k) => t :: (if k then [j] else []) end.
Proof.
  intros j e H. destruct Rep as (L & R). assert (Hj : j < n). { rewrite <- L. apply nth_error_Some. congruence. }
  destruct (R j Hj) as (e' & E & D). rewrite H in E. injection E as <-. exact D.
Qed.
Lemma load_matrix_perm_effect : forall scl rcv s s', load_matrix_perm rF n pv rcv scl s = OK s' ->
  effect s s' (fun r c => (scl * moved_entry dest rcv r c)%R) (fun _ => 0%R).
Proof.
  intros scl. induction rcv as [|[[r c] v] t IH]; intros s s' H; cbn [load_matrix_perm] in H.
  - injection H as <-. eapply effect_ext; [apply effect_refl| |reflexivity]. intros r c. unfold moved_entry. cbn. lra.
  - destruct (nth_error pv r) as [[[row|] keep]|] eqn:E; [| |discriminate]; pose proof (dest_some _ _ E) as D.
    + destruct (bind_OK _ _ _ H) as (s1 & H1 & H2). destruct (bind_OK _ _ _ H2) as (s2 & H3 & H4).
      pose proof (effect_entry _ _ _ _ _ _ H1) as E1. pose proof (IH _ _ H4) as E3. destruct keep.
      * pose proof (effect_entry _ _ _ _ _ _ H3) as E2. eapply effect_ext; [exact (effect_trans _ _ _ _ _ _ _ E1 (effect_trans _ _ _ _ _ _ _ E2 E3))| |].
        -- intros r' c'. unfold moved_entry. cbn [rsum fst snd]. rewrite D. unfold count, ind. cbn [rsum s_mul rF].
           destruct (row =? r'), (r =? r'), (c =? c'); cbn [andb]; lra.
        -- intros r'. cbn. lra.
      * injection H3 as <-. eapply effect_ext; [exact (effect_trans _ _ _ _ _ _ _ E1 E3)| |].
        -- intros r' c'. unfold moved_entry. cbn [rsum fst snd]. rewrite D. unfold count, ind. cbn [rsum s_mul rF].
           destruct (row =? r'), (c =? c'); cbn [andb]; lra.
        -- intros r'. cbn. lra.
    + eapply effect_ext; [exact (IH _ _ H)| |reflexivity]. intros r' c'. unfold moved_entry. cbn [rsum fst snd]. rewrite D. unfold count. cbn. lra.
Qed.
Lemma load_rhs_perm_effect : forall scl v s s', load_rhs_perm rF pv v scl s = OK s' ->
  effect s s' (fun _ _ => 0%R) (fun r => (- (scl * moved_row dest v r))%R).
Proof.
  intros scl. induction v as [|[r x] t IH]; intros s s' H; cbn [load_rhs_perm] in H.
  - injection H as <-. eapply effect_ext; [apply effect_refl|reflexivity|]. intros r. unfold moved_row. cbn. lra.
  - destruct (nth_error pv r) as [[[row|] keep]|] eqn:E; [| |discriminate]; pose proof (dest_some _ _ E) as D.
    + destruct (bind_OK _ _ _ H) as (s1 & H1 & H2). destruct (bind_OK _ _ _ H2) as (s2 & H3 & H4).
      pose proof (effect_rhs _ _ _ _ H1) as E1. pose proof (IH _ _ H4) as E3. destruct keep.
      * pose proof (effect_rhs _ _ _ _ H3) as E2. eapply effect_ext; [exact (effect_trans _ _ _ _ _ _ _ E1 (effect_trans _ _ _ _ _ _ _ E2 E3))| |].
        -- intros r' c'. cbn. lra.
        -- intros r'. unfold moved_row. cbn [rsum fst snd]. rewrite D. unfold count, ind, rhssign. cbn [rsum s_mul s_opp s_one rF].
           destruct (row =? r'), (r =? r'); lra.
      * injection H3 as <-. eapply effect_ext; [exact (effect_trans _ _ _ _ _ _ _ E1 E3)| |].
        -- intros r' c'. cbn. lra.
        -- intros r'. unfold moved_row. cbn [rsum fst snd]. rewrite D. unfold count, ind, rhssign. cbn [rsum s_mul s_opp s_one rF].
           destruct (row =? r'); lra.
    + eapply effect_ext; [exact (IH _ _ H)|reflexivity|]. intros r'. unfold moved_row. cbn [rsum fst snd]. rewrite D. unfold count. cbn. lra.
Qed.
Lemma load_devices_effect : forall scl ds s s', load_devices rF n pv ds scl s = OK s' ->
  effect s s' (fun r c => (scl * rsum (fun d => entry (d_bm d) r c + moved_entry dest (d_m d) r c) ds)%R)
              (fun r => (- (scl * rsum (fun d => row_sum (d_bv d) r + moved_row dest (d_v d) r) ds))%R).
Proof.
  intros scl. induction ds as [|d t IH]; intros s s' H; cbn [load_devices] in H.
  - injection H as <-. eapply effect_ext; [apply effect_refl| |]; intros; cbn; lra.
  - destruct (bind_OK _ _ _ H) as (s1 & H1 & H'). destruct (bind_OK _ _ _ H') as (s2 & H2 & H''). destruct (bind_OK _ _ _ H'') as (s3 & H3 & H''').
    destruct (bind_OK _ _ _ H''') as (s4 & H4 & H5).
    eapply effect_ext; [exact (effect_trans _ _ _ _ _ _ _ (load_matrix_effect _ _ _ _ _ _ H1) (effect_trans _ _ _ _ _ _ _ (load_rhs_effect _ _ _ _ _ H2)
      (effect_trans _ _ _ _ _ _ _ (load_matrix_perm_effect _ _ _ _ H3) (effect_trans _ _ _ _ _ _ _ (load_rhs_perm_effect _ _ _ _ H4) (IH _ _ H5)))))| |].
    + intros r c. cbv beta. rewrite shift0_entry. cbn [rsum]. lra.
    + intros r. cbv beta. rewrite shift0_row. cbn [rsum]. lra.
Qed.
Lemma load_system_effect : forall p scl s s', load_system rF n pv p scl s = OK s' ->
  effect s s' (fun r c => (scl * system_entry dest p r c)%R) (fun r => (- (scl * system_row dest p r))%R).
Proof.
  intros p scl s s' H. unfold load_system in H.
  destruct (bind_OK _ _ _ H) as (s1 & H1 & H'). destruct (bind_OK _ _ _ H') as (s2 & H2 & H''). destruct (bind_OK _ _ _ H'') as (s3 & H3 & H''').
  destruct (bind_OK _ _ _ H''') as (s4 & H4 & H''''). destruct (bind_OK _ _ _ H'''') as (s5 & H5 & H6).
  assert (E2 : effect s1 s2 (fun r c => (scl * match p_circuit p with Some (offset, (m, _)) => shift_entry offset m r c | None => 0 end)%R)
                           (fun r => (- (scl * match p_circuit p with Some (offset, (_, v)) => shift_row offset v r | None => 0 end))%R)).
  { unfold load_circuit in H2. destruct (p_circuit p) as [[offset [m v]]|].
    - destruct (bind_OK _ _ _ H2) as (sa & Ha & Hb).
      eapply effect_ext; [exact (effect_trans _ _ _ _ _ _ _ (load_matrix_effect _ _ _ _ _ _ Ha) (load_rhs_effect _ _ _ _ _ Hb))| |]; intros; cbn; lra.
    - injection H2 as <-. eapply effect_ext; [apply effect_refl| |]; intros; cbn; lra. }
  eapply effect_ext; [exact (effect_trans _ _ _ _ _ _ _ (load_devices_effect _ _ _ _ H1) (effect_trans _ _ _ _ _ _ _ E2
     (effect_trans _ _ _ _ _ _ _ (load_matrix_perm_effect _ _ _ _ H3) (effect_trans _ _ _ _ _ _ _ (load_rhs_perm_effect _ _ _ _ H4)
     (effect_trans _ _ _ _ _ _ _ (load_matrix_effect _ _ _ _ _ _ H5) (load_rhs_effect _ _ _ _ _ H6))))))| |].
  - intros r c. cbv beta. unfold system_entry. rewrite (shift0_entry (p_m p)). lra.
  - intros r. cbv beta. unfold system_row. rewrite (shift0_row (p_v p)). lra.
Qed.
End Perm.

(* ---- no failure when all rows are in range ------------------------------------------------ *)
Definition mat_in (n : nat) (m : mat_list R) : Prop := forall r c v, In (r, c, v) m -> r < n /\ c < n.
Definition rhs_in (n : nat) (v : rhs_list R) : Prop := forall r x, In (r, x) v -> r < n.
Definition perms_in (n : nat) (p : list (nat * pentry)) : Prop :=
  forall r t k, In (r, (t, k)) p -> r < n /\ match t with Some t => t < n | None => True end.
Definition parts_in (n : nat) (p : parts R) : Prop :=
  (forall d, In d (p_devices p) -> perms_in n (d_perms d) /\ mat_in n (d_bm d) /\ rhs_in n (d_bv d) /\ mat_in n (d_m d) /\ rhs_in n (d_v d)) /\
  (forall off m v, p_circuit p = Some (off, (m, v)) -> (forall r c x, In (r, c, x) m -> r + off < n /\ c + off < n) /\ forall r x, In (r, x) v -> r + off < n) /\
  mat_in n (p_pm p) /\ rhs_in n (p_pv p) /\ mat_in n (p_m p) /\ rhs_in n (p_v p).
Definition pv_in (n : nat) (pv : permvec) : Prop := length pv = n /\ forall j t k, nth_error pv j = Some (Some t, k) -> t < n.

Lemma load_matrix_ok : forall n scl offset m (s : sys), (forall r c x, In (r, c, x) m -> r + offset < n /\ c + offset < n) ->
  exists s', load_matrix rF n m scl offset s = OK s' /\ sy_rhs s' = sy_rhs s.
Proof.
  intros n scl offset. induction m as [|[[r c] v] t IH]; intros s H; cbn [load_matrix]; [eexists; split; reflexivity|].
  destruct (H r c v (or_introl eq_refl)) as (Hr & Hc). destruct (add_entry_ok n s _ _ (s_mul rF scl v) Hr Hc) as (s1 & E). rewrite E. cbn [bind].
  destruct (IH s1) as (s' & E' & Er); [intros; eapply H; right; eassumption|]. exists s'. split; [exact E'|].
  destruct (add_entry_spec _ _ _ _ _ _ E) as (Es & _). congruence.
Qed.
Lemma load_rhs_ok : forall scl offset v (s : sys), (forall r x, In (r, x) v -> r + offset < length (sy_rhs s)) ->
  exists s', load_rhs rF v scl offset s = OK s' /\ length (sy_rhs s') = length (sy_rhs s).
Proof.
  intros scl offset. induction v as [|[r v] t IH]; intros s H; cbn [load_rhs]; [eexists; split; reflexivity|].
  destruct (add_rhs_ok s (r + offset) (s_mul rF (s_mul rF scl (rhssign rF)) v)) as (s1 & E); [apply (H r v); left; reflexivity|]. rewrite E. cbn [bind].
  destruct (add_rhs_spec _ _ _ _ E) as (_ & L & _).
  destruct (IH s1) as (s' & E' & Er); [intros; rewrite L; eapply H; right; eassumption|]. exists s'. split; [exact E'|]. congruence.
Qed.
Lemma load_matrix_perm_ok : forall n pv scl m (s : sys), pv_in n pv -> mat_in n m ->
  exists s', load_matrix_perm rF n pv m scl s = OK s' /\ sy_rhs s' = sy_rhs s.
Proof.
  intros n pv scl m s (Lp & Tp). revert s. induction m as [|[[r c] v] t IH]; intros s H; cbn [load_matrix_perm]; [eexists; split; reflexivity|].
  destruct (H r c v (or_introl eq_refl)) as (Hr & Hc). assert (H' : mat_in n t) by (intros r' c' v' Hin; apply (H r' c' v'); right; exact Hin).
  destruct (nth_error pv r) as [[[row|] keep]|] eqn:E; [| |apply nth_error_None in E; lia].
  - destruct (add_entry_ok n s row c (s_mul rF scl v) (Tp _ _ _ E) Hc) as (s1 & E1). rewrite E1. cbn [bind].
    destruct (add_entry_spec _ _ _ _ _ _ E1) as (Es1 & _). destruct keep.
    + destruct (add_entry_ok n s1 r c (s_mul rF scl v) Hr Hc) as (s2 & E2). rewrite E2. cbn [bind].
      destruct (add_entry_spec _ _ _ _ _ _ E2) as (Es2 & _). destruct (IH s2 H') as (s' & E' & Er). exists s'. split; [exact E'|congruence].
    + cbn [bind]. destruct (IH s1 H') as (s' & E' & Er). exists s'. split; [exact E'|congruence].
  - apply IH. exact H'.
Qed.
Lemma load_rhs_perm_ok : forall n pv scl v (s : sys), pv_in n pv -> rhs_in n v -> length (sy_rhs s) = n ->
  exists s', load_rhs_perm rF pv v scl s = OK s' /\ length (sy_rhs s') = n.
Proof.
  intros n pv scl v s (Lp & Tp). revert s. induction v as [|[r v] t IH]; intros s H L; cbn [load_rhs_perm]; [exists s; split; [reflexivity|exact L]|].
  pose proof (H r v (or_introl eq_refl)) as Hr. assert (H' : rhs_in n t) by (intros r' v' Hin; apply (H r' v'); right; exact Hin).
  destruct (nth_error pv r) as [[[row|] keep]|] eqn:E; [| |apply nth_error_None in E; lia].
  - destruct (add_rhs_ok s row (s_mul rF (s_mul rF scl (rhssign rF)) v)) as (s1 & E1); [rewrite L; exact (Tp _ _ _ E)|]. rewrite E1. cbn [bind].
    destruct (add_rhs_spec _ _ _ _ E1) as (_ & Es1 & _). destruct keep.
    + destruct (add_rhs_ok s1 r (s_mul rF (s_mul rF scl (rhssign rF)) v)) as (s2 & E2); [lia|]. rewrite E2. cbn [bind].
      destruct (add_rhs_spec _ _ _ _ E2) as (_ & Es2 & _). apply IH; [exact H'|lia].
    + cbn [bind]. apply IH; [exact H'|lia].
  - apply IH; assumption.
Qed.
Lemma load_devices_ok : forall n pv scl ds (s : sys), pv_in n pv ->
  (forall d, In d ds -> mat_in n (d_bm d) /\ rhs_in n (d_bv d) /\ mat_in n (d_m d) /\ rhs_in n (d_v d)) -> length (sy_rhs s) = n ->
  exists s', load_devices rF n pv ds scl s = OK s' /\ length (sy_rhs s') = n.
Proof.
  intros n pv scl ds s Hp. revert s. induction ds as [|d t IH]; intros s H L; cbn [load_devices]; [exists s; auto|].
  destruct (H d (or_introl eq_refl)) as (A & B & C & D).
  destruct (load_matrix_ok n scl 0 (d_bm d) s) as (s1 & E1 & L1); [intros r c x Hin; rewrite !Nat.add_0_r; eapply A; exact Hin|]. rewrite E1. cbn [bind].
  destruct (load_rhs_ok scl 0 (d_bv d) s1) as (s2 & E2 & L2); [intros r x Hin; rewrite Nat.add_0_r, L1, L; eapply B; exact Hin|]. rewrite E2. cbn [bind].
  destruct (load_matrix_perm_ok n pv scl (d_m d) s2 Hp C) as (s3 & E3 & L3). rewrite E3. cbn [bind].
  destruct (load_rhs_perm_ok n pv scl (d_v d) s3 Hp D) as (s4 & E4 & L4); [congruence|]. rewrite E4. cbn [bind].
  apply IH; [|exact L4]. intros d' Hd'. apply H. right; exact Hd'.
Qed.
Lemma load_system_ok : forall n pv p scl (s : sys), pv_in n pv -> parts_in n p -> length (sy_rhs s) = n ->
  exists s', load_system rF n pv p scl s = OK s' /\ length (sy_rhs s') = n.
Proof.
  intros n pv p scl s Hp (Hd & Hc & A & B & C & D) L. unfold load_system.
  destruct (load_devices_ok n pv scl (p_devices p) s Hp) as (s1 & E1 & L1); [intros d Hin; apply (Hd d Hin)|exact L|]. rewrite E1. cbn [bind].
  assert (X : exists s2, load_circuit rF n (p_circuit p) scl s1 = OK s2 /\ length (sy_rhs s2) = n).
  { unfold load_circuit. destruct (p_circuit p) as [[off [m v]]|] eqn:Ec; [|exists s1; auto]. destruct (Hc off m v eq_refl) as (Hm & Hv).
    destruct (load_matrix_ok n scl off m s1 Hm) as (sa & Ea & La). rewrite Ea. cbn [bind].
    destruct (load_rhs_ok scl off v sa) as (sb & Eb & Lb); [intros r x Hin; rewrite La, L1; eapply Hv; exact Hin|]. exists sb. split; [exact Eb|congruence]. }
  destruct X as (s2 & E2 & L2). rewrite E2. cbn [bind].
  destruct (load_matrix_perm_ok n pv scl (p_pm p) s2 Hp A) as (s3 & E3 & L3). rewrite E3. cbn [bind].
  destruct (load_rhs_perm_ok n pv scl (p_pv p) s3 Hp B) as (s4 & E4 & L4); [congruence|]. rewrite E4. cbn [bind].
  destruct (load_matrix_ok n scl 0 (p_m p) s4) as (s5 & E5 & L5); [intros r c x Hin; rewrite !Nat.add_0_r; eapply C; exact Hin|]. rewrite E5. cbn [bind].
  destruct (load_rhs_ok scl 0 (p_v p) s5) as (s6 & E6 & L6); [intros r x Hin; rewrite Nat.add_0_r, L5, L4; eapply D; exact Hin|].
  exists s6. split; [exact E6|congruence].
Qed.
Lemma decision_in : forall p j e, decision p j = Some e -> In (j, e) p.
Proof.
  induction p as [|[k e'] t IH]; intros j e H; cbn in H; [discriminate|]. destruct (decision t j) as [e''|] eqn:E.
  - injection H as ->. right. apply IH. exact E.
  - destruct (Nat.eqb_spec k j) as [->|]; [|discriminate]. injection H as ->. left; reflexivity.
Qed.
Lemma perms_pv_in : forall n p pv, parts_in n p -> load_perms (identity n) (p_devices p) = OK pv -> pv_in n pv.
Proof.
  intros n p pv (Hd & _) H. destruct (load_perms_spec _ _ _ H) as (L & B & N). rewrite identity_length in L. split; [exact L|].
  intros j t k E. rewrite N in E. destruct (decision (decisions (p_devices p)) j) as [e|] eqn:Ed.
  - injection E as ->. apply decision_in in Ed. unfold decisions in Ed. apply in_flat_map in Ed. destruct Ed as (d & Hin & Hp).
    destruct (Hd d Hin) as (Hperm & _). exact (proj2 (Hperm _ _ _ Hp)).
  - assert (j < n). { rewrite <- (identity_length n). apply nth_error_Some. congruence. }
    rewrite identity_nth in E by assumption. injection E as <- _. assumption.
Qed.
Lemma perms_ok : forall n p, parts_in n p -> exists pv, load_perms (identity n) (p_devices p) = OK pv.
Proof.
  intros n p (Hd & _). apply load_perms_ok. intros k [t b] Hin. rewrite identity_length. unfold decisions in Hin. apply in_flat_map in Hin.
  destruct Hin as (d & Hin & Hp). destruct (Hd d Hin) as (Hperm & _). exact (proj1 (Hperm _ _ _ Hp)).
Qed.

(* ---- the loaded matrix is the Jacobian of minus the loaded right hand side ----------------- *)
Definition deriv_of (m : state -> mat_list R) (v : state -> rhs_list R) : Prop :=
  forall x r c, derivable_pt_lim (fun t => row_sum (v (upd x c t)) r) (x c) (entry (m x) r c).
Section Move.
Variable dest : nat -> list nat.
Lemma moved_row_dest : forall v row b, (forall p, In p v -> fst p < b) ->
  moved_row dest v row = rsum (fun r0 => (count row (dest r0) * row_sum v r0)%R) (seq 0 b).
Proof.
  intros v row b H. unfold moved_row, row_sum. induction v as [|[r x] t IH]; cbn [rsum].
  - symmetry. apply rsum_zero. intros; lra.
  - rewrite IH by (intros p Hp; apply H; right; exact Hp). cbn [fst snd].
    assert (Hr : r < b) by (apply (H (r, x)); left; reflexivity).
    transitivity (rsum (fun r0 => (count row (dest r0) * ind r r0 x + count row (dest r0) * rsum (fun p : nat * R => ind (fst p) r0 (snd p)) t)%R) (seq 0 b)).
    2: { apply rsum_ext. intros; lra. }
    rewrite rsum_plus. f_equal.
    assert (G : forall a n', a <= r < a + n' -> rsum (fun r0 => (count row (dest r0) * ind r r0 x)%R) (seq a n') = (count row (dest r) * x)%R).
    { intros a n'. revert a. induction n' as [|n' IHn]; intros a Ha; [lia|]. cbn [seq rsum]. unfold ind at 1. destruct (Nat.eqb_spec r a) as [->|D].
      - rewrite rsum_zero; [lra|]. intros j Hj. apply in_seq in Hj. unfold ind. destruct (Nat.eqb_spec a j); [lia|lra].
      - rewrite IHn by lia. lra. }
    symmetry. apply G. lia.
Qed.
Lemma moved_entry_dest : forall m row c b, (forall p, In p m -> fst (fst p) < b) ->
  moved_entry dest m row c = rsum (fun r0 => (count row (dest r0) * entry m r0 c)%R) (seq 0 b).
Proof.
  intros m row c b H.
  transitivity (moved_row dest (map (fun p => (fst (fst p), if snd (fst p) =? c then snd p else 0%R)) m) row).
  { unfold moved_row. rewrite rsum_map. apply rsum_ext. intros [[r0 c0] v0] _. reflexivity. }
  rewrite (moved_row_dest _ _ b).
  - apply rsum_ext. intros r0 _. f_equal. unfold row_sum, entry. rewrite rsum_map. apply rsum_ext. intros [[a c0] v0] _. cbn. unfold ind.
    destruct (a =? r0), (c0 =? c); reflexivity.
  - intros p Hp. apply in_map_iff in Hp. destruct Hp as (q & <- & Hq). cbn. apply H. exact Hq.
Qed.
End Move.
