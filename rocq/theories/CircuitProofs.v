From Coq Require Import String List Bool Arith Lia Reals Lra.
From Verif Require Import StrMap EqTableProofs NodeKeeper NodeKeeperProofs Assembly AssemblyProofs AssemblyJacobian AssemblyProperties ContactProofs Circuit CircuitInv CircuitSpec.
Import ListNotations.
Open Scope string_scope.
Open Scope list_scope.
Open Scope nat_scope.

(* ---- rows and entries with option numbers ------------------------------------- *)
Definition oeq (o : option nat) (r : nat) : bool := match o with Some i => i =? r | None => false end.
Definition orow (l : orhs R) (r : nat) : R := rsum (fun q => if oeq (fst q) r then snd q else 0%R) l.
Definition oent (m : omat R) (r c : nat) : R :=
  rsum (fun q : option nat * option nat * R => if oeq (fst (fst q)) r then (if oeq (snd (fst q)) c then snd q else 0%R) else 0%R) m.
Lemma all_rows_orow : forall l l', all_rows l = Some l' -> forall r, row_sum l' r = orow l r.
Proof.
  induction l as [|[[i|] v] t IH]; intros l' H r; cbn in H; try discriminate.
  - injection H as <-. reflexivity.
  - destruct (all_rows t) as [t'|]; [|discriminate]. injection H as <-.
    change (row_sum ((i, v) :: t') r) with ((ind i r v + row_sum t' r)%R). rewrite (IH t' eq_refl). reflexivity.
Qed.
Lemma all_entries_oent : forall m m', all_entries m = Some m' -> forall r c, entry m' r c = oent m r c.
Proof.
  induction m as [|[[[i|] [j|]] v] t IH]; intros m' H r c; cbn in H; try discriminate.
  - injection H as <-. reflexivity.
  - destruct (all_entries t) as [t'|]; [|discriminate]. injection H as <-.
    change (oent ((Some i, Some j, v) :: t) r c) with ((if i =? r then (if j =? c then v else 0) else 0) + oent t r c)%R. rewrite <- (IH t' eq_refl r c).
    unfold entry. cbn. destruct (i =? r); destruct (j =? c); reflexivity.
Qed.
Lemma all_rows_some : forall {A} (l : list (option nat * A)), (forall q, In q l -> fst q <> None) -> exists l', all_rows l = Some l' /\ forall r v, In (r, v) l' -> In (Some r, v) l.
Proof.
  intros A. induction l as [|[[i|] v] t IH]; intros H; cbn.
  - exists []. split; [reflexivity|]. intros r v [].
  - destruct IH as (t' & -> & E). { intros q Hq. apply H. right; exact Hq. } eexists. split; [reflexivity|].
    intros r x [Hx|Hx]; [injection Hx as <- <-; left; reflexivity|right; apply E; exact Hx].
  - exfalso. apply (H (None, v)); [left; reflexivity|reflexivity].
Qed.
Lemma all_entries_some : forall (m : omat R), (forall q, In q m -> fst (fst q) <> None /\ snd (fst q) <> None) ->
  exists m', all_entries m = Some m' /\ forall r c v, In (r, c, v) m' -> In (Some r, Some c, v) m.
Proof.
  induction m as [|[[[i|] [j|]] v] t IH]; intros H; cbn.
  - exists []. split; [reflexivity|]. intros r c v [].
  - destruct IH as (t' & -> & E). { intros q Hq. apply H. right; exact Hq. } eexists. split; [reflexivity|].
    intros r c x [Hx|Hx]; [injection Hx as <- <- <-; left; reflexivity|right; apply E; exact Hx].
  - exfalso. destruct (H (Some i, None, v)) as (_ & X); [left; reflexivity|]. apply X; reflexivity.
  - exfalso. destruct (H (None, Some j, v)) as (X & _); [left; reflexivity|]. apply X; reflexivity.
  - exfalso. destruct (H (None, None, v)) as (X & _); [left; reflexivity|]. apply X; reflexivity.
Qed.
Lemma orow_app : forall a b r, orow (a ++ b) r = (orow a r + orow b r)%R.
Proof. intros. apply rsum_app. Qed.
Lemma orow_flat_map : forall {A} (f : A -> orhs R) l r, orow (flat_map f l) r = rsum (fun a => orow (f a) r) l.
Proof. intros. apply rsum_flat_map. Qed.
Lemma oent_app : forall a b r c, oent (a ++ b) r c = (oent a r c + oent b r c)%R.
Proof. intros. apply rsum_app. Qed.
Lemma oent_flat_map : forall {A} (f : A -> omat R) l r c, oent (flat_map f l) r c = rsum (fun a => oent (f a) r c) l.
Proof. intros. apply rsum_flat_map. Qed.

(* weight of a node at a row *)
Definition at_row (n : node) (r : nat) : R := if is_ground n then 0%R else if oeq (n_num n) r then 1%R else 0%R.
Lemma orow_row1 : forall n v r, orow (row1 n v) r = (at_row n r * v)%R.
Proof. intros n v r. unfold row1, at_row. destruct (is_ground n); cbn; [lra|]. destruct (oeq (n_num n) r); lra. Qed.
Lemma oent_ent : forall a b v r c, oent (ent a b v) r c = (at_row a r * at_row b c * v)%R.
Proof.
  intros a b v r c. unfold ent, at_row. destruct (is_ground a); cbn; [lra|]. destruct (is_ground b); cbn; [destruct (oeq (n_num a) r); lra|].
  destruct (oeq (n_num a) r); destruct (oeq (n_num b) c); lra.
Qed.

(* ---- Jacobian: no condition on the nodes --------------------------------------- *)
Definition oupd (sol : solution R) (c : nat) (t : R) : solution R := fun o => if oeq o c then t else sol o.
Lemma d_terminal : forall sol c n, derivable_pt_lim (fun t => at_terminal rF (oupd sol c t) n) (sol (Some c)) (at_row n c).
Proof.
  intros sol c n. unfold at_terminal, at_row, oupd. destruct (is_ground n); [apply derivable_pt_lim_const|].
  destruct (oeq (n_num n) c); [apply derivable_pt_lim_id|apply derivable_pt_lim_const].
Qed.
Lemma d_raw : forall sol c n, derivable_pt_lim (fun t => oupd sol c t n) (sol (Some c)) (if oeq n c then 1 else 0)%R.
Proof. intros sol c n. unfold oupd. destruct (oeq n c); [apply derivable_pt_lim_id|apply derivable_pt_lim_const]. Qed.
Lemma deriv_eq : forall f g x d d', derivable_pt_lim f x d -> (forall t, g t = f t) -> d' = d -> derivable_pt_lim g x d'.
Proof.
  intros f g x d d' H E ->. intros eps He. destruct (H eps He) as (del & Hd). exists del. intros h Hh Hb. rewrite !E. apply Hd; assumption.
Qed.
Lemma d_lin : forall a f x d, derivable_pt_lim f x d -> derivable_pt_lim (fun t => a * f t)%R x (a * d)%R.
Proof. intros a f x d H. apply (derivable_pt_lim_scal f a x d H). Qed.
Lemma d_plus : forall f g x a b, derivable_pt_lim f x a -> derivable_pt_lim g x b -> derivable_pt_lim (fun t => f t + g t)%R x (a + b)%R.
Proof. intros f g x a b H K. exact (derivable_pt_lim_plus f g x a b H K). Qed.
Lemma dc_element_jacobian : forall sol e r c,
  derivable_pt_lim (fun t => orow (dc_rhs rF Rinv (oupd sol c t) e) r) (sol (Some c)) (oent (dc_mat rF Rinv e) r c).
Proof.
  intros sol [k n1 n2 ni] r c. unfold dc_rhs, dc_mat. cbn [e_kind e_n1 e_n2 e_int].
  pose proof (d_terminal sol c n1) as D1. pose proof (d_terminal sol c n2) as D2. pose proof (d_terminal sol c ni) as D3. pose proof (d_raw sol c (n_num ni)) as D4.
  destruct k as [x|x|x|x re im|x].
  - eapply deriv_eq.
    + apply (d_plus (fun t => (at_row n1 r - at_row n2 r) * / x * at_terminal rF (oupd sol c t) n1)%R (fun t => (at_row n2 r - at_row n1 r) * / x * at_terminal rF (oupd sol c t) n2)%R); apply d_lin; eassumption.
    + intros t. rewrite orow_app, !orow_row1. cbn [s_mul s_opp s_add s_zero s_one rF]. ring.
    + rewrite !oent_app, !oent_ent. cbn [s_mul s_opp s_add s_zero s_one rF]. ring.
  - eapply deriv_eq; [apply (derivable_pt_lim_const 0)|reflexivity|reflexivity].
  - eapply deriv_eq.
    + apply (d_plus (fun t => at_row ni r * (-1) * at_terminal rF (oupd sol c t) n1 + at_row ni r * at_terminal rF (oupd sol c t) n2)%R (fun t => (at_row n1 r - at_row n2 r) * at_terminal rF (oupd sol c t) ni)%R).
      * apply (d_plus (fun t => at_row ni r * (-1) * at_terminal rF (oupd sol c t) n1)%R (fun t => at_row ni r * at_terminal rF (oupd sol c t) n2)%R); apply d_lin; eassumption.
      * apply d_lin; eassumption.
    + intros t. rewrite !orow_app, !orow_row1. cbn [s_mul s_opp s_add s_zero s_one rF]. ring.
    + rewrite !oent_app, !oent_ent. cbn [s_mul s_opp s_add s_zero s_one rF]. ring.
  - set (wi := if oeq (n_num ni) r then 1%R else 0%R).
    eapply deriv_eq.
    + apply (d_plus (fun t => wi * at_terminal rF (oupd sol c t) n1 + (wi * (-1) * at_terminal rF (oupd sol c t) n2 + wi * - x))%R (fun t => (at_row n1 r - at_row n2 r) * oupd sol c t (n_num ni))%R).
      * apply (d_plus (fun t => wi * at_terminal rF (oupd sol c t) n1)%R (fun t => (wi * (-1) * at_terminal rF (oupd sol c t) n2 + wi * - x))%R); [apply d_lin; eassumption|].
        apply (d_plus (fun t => (wi * (-1) * at_terminal rF (oupd sol c t) n2))%R (fun t => wi * - x)%R); [apply d_lin; eassumption|apply derivable_pt_lim_const].
      * apply d_lin; eassumption.
    + intros t. rewrite !orow_app, !orow_row1. unfold orow. cbn. fold wi. destruct (oeq (n_num ni) r); unfold wi; ring.
    + rewrite !oent_app. unfold oent, at_row, wi. destruct (is_ground n1), (is_ground n2), (oeq (n_num ni) r) eqn:E1, (oeq (n_num ni) c) eqn:E2; cbn [rsum fst snd]; rewrite ?E1, ?E2;
      destruct (oeq (n_num n1) r), (oeq (n_num n2) r), (oeq (n_num n1) c), (oeq (n_num n2) c); cbn; lra.
  - eapply deriv_eq; [apply (derivable_pt_lim_const (orow (row1 n1 (- x) ++ row1 n2 x) r))|reflexivity|reflexivity].
Qed.
Lemma tr_element_jacobian : forall sol e r c,
  derivable_pt_lim (fun t => orow (tr_rhs rF 1%R (oupd sol c t) e) r) (sol (Some c)) (oent (tr_mat rF 1%R e) r c).
Proof.
  intros sol [k n1 n2 ni] r c. unfold tr_rhs, tr_mat. cbn [e_kind e_n1 e_n2 e_int].
  pose proof (d_terminal sol c n1) as D1. pose proof (d_terminal sol c n2) as D2. pose proof (d_terminal sol c ni) as D3.
  destruct k as [x|x|x|x re im|x]; try (eapply deriv_eq; [apply (derivable_pt_lim_const 0)|reflexivity|reflexivity]).
  - eapply deriv_eq.
    + apply (d_plus (fun t => (at_row n1 r - at_row n2 r) * x * at_terminal rF (oupd sol c t) n1)%R (fun t => (at_row n2 r - at_row n1 r) * x * at_terminal rF (oupd sol c t) n2)%R); apply d_lin; eassumption.
    + intros t. rewrite orow_app, !orow_row1. cbn [s_mul s_opp s_add s_zero s_one rF]. ring.
    + rewrite !oent_app, !oent_ent. cbn [s_mul s_opp s_add s_zero s_one rF]. ring.
  - eapply deriv_eq; [apply (d_lin (at_row ni r * x)); exact D3|intros t; rewrite orow_row1; cbn [s_mul s_opp s_add s_zero s_one rF]; ring|rewrite oent_ent; cbn [s_mul s_opp s_add s_zero s_one rF]; ring].
Qed.

(* ---- rows by node names -------------------------------------------------------- *)
Section Rows.
Variable c : ckt R.
Hypothesis Rd : ready c.
Notation tab := (k_nodes (c_nodes c)).
Notation ins := (string * inst R)%type.

Lemma pointed_voltage : forall sol s, at_terminal rF sol (pointed c s) = voltage c sol s.
Proof. intros sol s. unfold at_terminal, pointed, voltage, is_gnd, unknown. destruct (find s tab); reflexivity. Qed.
Lemma pointed_unknown : forall s, n_num (pointed c s) = unknown c s.
Proof. intros s. unfold pointed, unknown. destruct (find s tab); reflexivity. Qed.
Definition live (s : string) (r : nat) : Prop := exists n, find s tab = Some n /\ is_ground n = false /\ n_num n = Some r.
Lemma at_row_live : forall s s' r, live s r -> at_row (pointed c s') r = if String.eqb s' s then 1%R else 0%R.
Proof.
  intros s s' r (n & E & G & N). unfold at_row, pointed. destruct (find s' tab) as [m|] eqn:E'.
  - destruct (String.eqb_spec s' s) as [->|Ne].
    + assert (m = n) by congruence. subst m. rewrite G, N. cbn. rewrite Nat.eqb_refl. reflexivity.
    + destruct (is_ground m) eqn:Gm; [reflexivity|]. destruct (rd_num c Rd _ _ E' Gm) as (i & Ni & _). rewrite Ni. cbn.
      destruct (Nat.eqb_spec i r) as [->|]; [|reflexivity]. exfalso. apply Ne. eapply (rd_inj c Rd); eassumption.
  - cbn. destruct (String.eqb_spec s' s) as [->|]; [congruence|reflexivity].
Qed.
Lemma at_row_dead : forall r, (forall s, ~ live s r) -> forall s', at_row (pointed c s') r = 0%R.
Proof.
  intros r D s'. unfold at_row. destruct (is_ground (pointed c s')) eqn:G; [reflexivity|].
  unfold pointed in *. destruct (find s' tab) as [m|] eqn:E; [|discriminate].
  destruct (rd_num c Rd _ _ E G) as (i & Ni & _). rewrite Ni. cbn. destruct (Nat.eqb_spec i r) as [->|]; [|reflexivity].
  exfalso. apply (D s'). exists m. auto.
Qed.

(* per element: current, and residual of its branch equation *)
Definition cur (sol : solution R) (hist : list (R * solution R)) (p : ins) : R :=
  match i_kind (snd p) with
  | KR r => (drop c sol p * / r)%R
  | KC x => (x * rate hist (fun y => drop c y p))%R
  | KL _ | KV _ _ _ => sol (unknown c (internal (fst p)))
  | KI j => (- j)%R
  end.
Definition branch (sol : solution R) (hist : list (R * solution R)) (p : ins) : R :=
  match i_kind (snd p) with
  | KL l => (l * rate hist (fun y => y (unknown c (internal (fst p)))) - drop c sol p)%R
  | KV v _ _ => (drop c sol p - v)%R
  | _ => 0%R
  end.
Lemma rate_scal : forall a hist f, rate hist (fun x => (a * f x)%R) = (a * rate hist f)%R.
Proof. intros a hist f. unfold rate. rewrite <- rsum_scal. apply rsum_ext. intros h _. ring. Qed.
Lemma rate_ext : forall hist f g, (forall x, f x = g x) -> rate hist f = rate hist g.
Proof. intros hist f g E. unfold rate. apply rsum_ext. intros h _. rewrite E. reflexivity. Qed.
Lemma rate_zero : forall hist, rate hist (fun _ => 0%R) = 0%R.
Proof. intros hist. unfold rate. apply rsum_zero. intros; ring. Qed.
Lemma rate_rsum : forall {A} hist (f : solution R -> A -> R) l, rate hist (fun x => rsum (f x) l) = rsum (fun a => rate hist (fun x => f x a)) l.
Proof.
  intros A hist f l. unfold rate. rewrite <- rsum_swap. apply rsum_ext. intros h _. rewrite <- rsum_scal. reflexivity.
Qed.
Lemma element_row : forall sol hist p r, In p (c_insts c) ->
  (orow (dc_rhs rF Rinv sol (elem_of c p)) r + rate hist (fun x => orow (tr_rhs rF 1%R x (elem_of c p)) r))%R =
  (at_row (pointed c (i_n1 (snd p))) r * cur sol hist p - at_row (pointed c (i_n2 (snd p))) r * cur sol hist p
   + (if has_current (i_kind (snd p)) then at_row (pointed c (internal (fst p))) r else 0) * branch sol hist p)%R.
Proof.
  intros sol hist p r Hp. unfold dc_rhs, tr_rhs, elem_of. cbn [e_kind e_n1 e_n2 e_int]. unfold cur, branch, drop.
  pose proof (ready_internal c p Rd Hp) as Ri. destruct p as [nm [k n1 n2]]. cbn [fst snd i_kind i_n1 i_n2] in *.
  rewrite !pointed_voltage.
  destruct k as [x|x|x|x re im|x]; cbn [has_current needs_internal] in *.
  - rewrite orow_app, !orow_row1. rewrite (rate_ext hist _ (fun _ => 0%R)) by reflexivity. rewrite rate_zero. cbn [s_mul s_opp s_add s_zero s_one rF]. ring.
  - rewrite (rate_ext hist _ (fun y => (x * (at_row (pointed c n1) r - at_row (pointed c n2) r)) * (voltage c y n1 - voltage c y n2))%R).
    2:{ intros y. rewrite orow_app, !orow_row1, !pointed_voltage. cbn [s_mul s_opp s_add s_zero s_one rF]. ring. }
    rewrite rate_scal. cbn [orow rsum]. ring.
  - destruct (Ri eq_refl) as (n & En & Gn).
    assert (Iv : forall y, voltage c y (internal nm) = y (unknown c (internal nm))).
    { intros y. unfold voltage, is_gnd. rewrite En, Gn. reflexivity. }
    rewrite (rate_ext hist _ (fun y => (x * at_row (pointed c (internal nm)) r) * y (unknown c (internal nm)))%R).
    2:{ intros y. rewrite orow_row1, pointed_voltage, Iv. cbn [s_mul s_opp s_add s_zero s_one rF]. ring. }
    rewrite rate_scal, !orow_app, !orow_row1, Iv. cbn [s_mul s_opp s_add s_zero s_one rF]. ring.
  - destruct (Ri eq_refl) as (n & En & Gn).
    rewrite (rate_ext hist _ (fun _ => 0%R)) by reflexivity. rewrite rate_zero, pointed_unknown, !orow_app, !orow_row1.
    cbn [s_mul s_opp s_add s_zero s_one rF]. unfold orow. cbn [rsum fst snd].
    assert (Ha : at_row (pointed c (internal nm)) r = if oeq (unknown c (internal nm)) r then 1%R else 0%R).
    { unfold at_row, pointed, unknown. rewrite En, Gn. reflexivity. }
    rewrite Ha. destruct (oeq (unknown c (internal nm)) r); ring.
  - rewrite orow_app, !orow_row1. rewrite (rate_ext hist _ (fun _ => 0%R)) by reflexivity. rewrite rate_zero. cbn [s_mul s_opp s_add s_zero s_one rF]. ring.
Qed.

Definition orow_total (sol : solution R) (hist : list (R * solution R)) (r : nat) : R :=
  (orow (flat_map (dc_rhs rF Rinv sol) (elems c)) r + rate hist (fun x => orow (flat_map (tr_rhs rF 1%R x) (elems c)) r))%R.
Lemma orow_total_sum : forall sol hist r, orow_total sol hist r =
  rsum (fun p => (at_row (pointed c (i_n1 (snd p))) r * cur sol hist p - at_row (pointed c (i_n2 (snd p))) r * cur sol hist p
   + (if has_current (i_kind (snd p)) then at_row (pointed c (internal (fst p))) r else 0) * branch sol hist p)%R) (c_insts c).
Proof.
  intros sol hist r. unfold orow_total, elems.
  rewrite (rate_ext hist _ (fun x => rsum (fun p => orow (tr_rhs rF 1%R x (elem_of c p)) r) (c_insts c))).
  2:{ intros x. rewrite orow_flat_map, rsum_map. reflexivity. }
  rewrite rate_rsum, orow_flat_map, rsum_map, <- rsum_plus. apply rsum_ext. intros p Hp. apply element_row; exact Hp.
Qed.
Lemma needs_has : forall k : kind R, needs_internal k = has_current k. Proof. intros []; reflexivity. Qed.

Lemma rsum_single : forall {A} (f : A -> R) l p, NoDup l -> In p l -> (forall q, In q l -> q <> p -> f q = 0%R) -> rsum f l = f p.
Proof.
  intros A f l p. induction l as [|a t IH]; intros ND Hp Z; [destruct Hp|]. inversion ND as [|x y N1 N2]; subst. cbn [rsum]. destruct Hp as [->|Hp].
  - rewrite rsum_zero; [ring|]. intros q Hq. apply Z; [right; exact Hq|]. intros ->. contradiction.
  - rewrite IH; auto; [|intros q Hq; apply Z; right; exact Hq]. rewrite (Z a); [ring|left; reflexivity|]. intros ->. contradiction.
Qed.
Lemma insts_NoDup : NoDup (c_insts c).
Proof. apply (NoDup_map_inv fst). exact (sorted_NoDup _ (rd_sorted c Rd)). Qed.
Lemma insts_inj : forall p q, In p (c_insts c) -> In q (c_insts c) -> fst p = fst q -> p = q.
Proof.
  intros [a x] [b y] Hp Hq E. cbn in E. subst b. f_equal. apply In_find in Hp; [|exact (rd_sorted c Rd)]. apply In_find in Hq; [|exact (rd_sorted c Rd)]. congruence.
Qed.

Lemma branch_row : forall sol hist p r, no_clash c -> In p (c_insts c) -> has_current (i_kind (snd p)) = true ->
  live (internal (fst p)) r -> orow_total sol hist r = branch sol hist p.
Proof.
  intros sol hist p r NC Hp Hc L. rewrite orow_total_sum. rewrite (rsum_single _ _ p insts_NoDup Hp).
  - rewrite Hc, !(at_row_live _ _ _ L). destruct (NC p p Hp Hp Hc) as (N1 & N2).
    destruct (String.eqb_spec (i_n1 (snd p)) (internal (fst p))); [contradiction|].
    destruct (String.eqb_spec (i_n2 (snd p)) (internal (fst p))); [contradiction|]. rewrite String.eqb_refl. ring.
  - intros q Hq Nq. rewrite !(at_row_live _ _ _ L). destruct (NC p q Hp Hq Hc) as (N1 & N2).
    destruct (String.eqb_spec (i_n1 (snd q)) (internal (fst p))); [contradiction|].
    destruct (String.eqb_spec (i_n2 (snd q)) (internal (fst p))); [contradiction|].
    destruct (String.eqb_spec (internal (fst q)) (internal (fst p))) as [E|]; [|destruct (has_current (i_kind (snd q))); ring].
    exfalso. apply Nq, insts_inj; auto. apply internal_inj. exact E.
Qed.
Lemma leaving_row : forall sol hist s r, (forall p, In p (c_insts c) -> has_current (i_kind (snd p)) = true -> s <> internal (fst p)) ->
  live s r -> orow_total sol hist r = rsum (fun p => ((if String.eqb (i_n1 (snd p)) s then cur sol hist p else 0) - (if String.eqb (i_n2 (snd p)) s then cur sol hist p else 0))%R) (c_insts c).
Proof.
  intros sol hist s r N L. rewrite orow_total_sum. apply rsum_ext. intros p Hp. rewrite !(at_row_live _ _ _ L).
  assert (E : (if has_current (i_kind (snd p)) then if String.eqb (internal (fst p)) s then 1 else 0 else 0)%R = 0%R).
  { destruct (has_current (i_kind (snd p))) eqn:Hc; [|reflexivity]. destruct (String.eqb_spec (internal (fst p)) s) as [E|]; [|reflexivity].
    exfalso. apply (N p Hp Hc). congruence. }
  rewrite E. destruct (String.eqb (i_n1 (snd p)) s), (String.eqb (i_n2 (snd p)) s); ring.
Qed.

Lemma law_cur : forall sol hist p i, In p (c_insts c) -> no_short c ->
  (has_current (i_kind (snd p)) = true -> i = sol (unknown c (internal (fst p)))) ->
  (law (i_kind (snd p)) (drop c sol p) i (rate hist (fun x => drop c x p)) (rate hist (fun x => x (unknown c (internal (fst p))))) <->
   i = cur sol hist p /\ (has_current (i_kind (snd p)) = true -> branch sol hist p = 0%R)).
Proof.
  intros sol hist p i Hp NS Hi. pose proof (fun r => NS p r Hp) as NSp. unfold law, cur, branch. destruct (i_kind (snd p)) as [x|x|x|x re im|x]; cbn [has_current] in *.
  - specialize (NSp x eq_refl). split.
    + intros E. split; [|discriminate]. rewrite E. field. exact NSp.
    + intros (-> & _). field. exact NSp.
  - split; [intros ->; split; [reflexivity|discriminate]|intros (-> & _); reflexivity].
  - specialize (Hi eq_refl). split; [intros E; split; [exact Hi|intros _; lra]|intros (_ & E); specialize (E eq_refl); lra].
  - specialize (Hi eq_refl). split; [intros E; split; [exact Hi|intros _; lra]|intros (_ & E); specialize (E eq_refl); lra].
  - split; [intros ->; split; [reflexivity|discriminate]|intros (-> & _); reflexivity].
Qed.

Lemma live_key : forall s, In s (keys tab) -> is_gnd c s = false -> exists r, live s r.
Proof.
  intros s Hs G. unfold is_gnd in G. destruct (find s tab) as [n|] eqn:E; [|discriminate].
  destruct (rd_num c Rd _ _ E G) as (i & Ni & _). exists i, n. auto.
Qed.
Lemma live_gnd : forall s r, live s r -> In s (keys tab) /\ is_gnd c s = false.
Proof. intros s r (n & E & G & N). split; [apply find_keys; congruence|]. unfold is_gnd. rewrite E. exact G. Qed.

Lemma kirchhoff_orow : forall sol hist, no_clash c -> no_short c ->
  ((forall r, orow_total sol hist r = 0%R) <-> exists i, currents c sol i /\ kcl c i /\ laws c sol i hist).
Proof.
  intros sol hist NC NS. split.
  - intros Z.
    set (i := fun nm => match find nm (c_insts c) with Some x => cur sol hist (nm, x) | None => 0%R end).
    assert (Ei : forall p, In p (c_insts c) -> i (fst p) = cur sol hist p).
    { intros [nm x] Hp. unfold i. cbn. rewrite (In_find _ _ _ (rd_sorted c Rd) Hp). reflexivity. }
    exists i. split; [|split].
    + intros p Hp Hc. rewrite Ei by exact Hp. unfold cur. destruct (i_kind (snd p)); cbn in Hc; try discriminate; reflexivity.
    + intros s Hs G. destruct (live_key s Hs G) as (r & L).
      assert (E : leaving c i s = rsum (fun p => ((if String.eqb (i_n1 (snd p)) s then cur sol hist p else 0) - (if String.eqb (i_n2 (snd p)) s then cur sol hist p else 0))%R) (c_insts c)).
      { apply rsum_ext. intros p Hp. rewrite Ei by exact Hp. reflexivity. }
      destruct (Exists_dec (fun p : ins => has_current (i_kind (snd p)) = true /\ s = internal (fst p)) (c_insts c)) as [X|X].
      { intros p. destruct (has_current (i_kind (snd p))); [|right; intros (A & _); discriminate].
        destruct (string_dec s (internal (fst p))); [left; auto|right; intros (_ & A); contradiction]. }
      * apply Exists_exists in X. destruct X as (p & Hp & Hc & ->). rewrite E. apply rsum_zero. intros q Hq.
        destruct (NC p q Hp Hq Hc) as (N1 & N2).
        destruct (String.eqb_spec (i_n1 (snd q)) (internal (fst p))); [contradiction|].
        destruct (String.eqb_spec (i_n2 (snd q)) (internal (fst p))); [contradiction|]. ring.
      * rewrite E, <- (leaving_row sol hist s r); [apply Z| |exact L]. intros p Hp Hc Es. apply X, Exists_exists. exists p. auto.
    + intros p Hp. apply law_cur; [exact Hp|exact NS| |].
      * intros Hc. rewrite Ei by exact Hp. unfold cur. destruct (i_kind (snd p)); cbn in Hc; try discriminate; reflexivity.
      * split; [apply Ei; exact Hp|]. intros Hc. destruct (ready_internal c p Rd Hp) as (n & En & Gn); [rewrite needs_has; exact Hc|].
        destruct (rd_num c Rd _ _ En Gn) as (r & Nr & _). rewrite <- (branch_row sol hist p r NC Hp Hc); [apply Z|]. exists n. auto.
  - intros (i & Cu & K & La) r.
    assert (Lp : forall p, In p (c_insts c) -> i (fst p) = cur sol hist p /\ (has_current (i_kind (snd p)) = true -> branch sol hist p = 0%R)).
    { intros p Hp. apply law_cur; [exact Hp|exact NS|exact (Cu p Hp)|exact (La p Hp)]. }
    assert (Dl : forall s, {live s r} + {~ live s r}).
    { intros s. unfold live. destruct (find s tab) as [n|]; [|right; intros (n & A & _); discriminate].
      destruct (is_ground n) eqn:G; [right; intros (m & A & B & _); congruence|].
      destruct (n_num n) as [j|] eqn:Nj; [|right; intros (m & A & _ & B); congruence].
      destruct (Nat.eq_dec j r) as [->|N]; [left; exists n; auto|right; intros (m & A & _ & B); congruence]. }
    destruct (Exists_dec (fun s => live s r) (keys tab) Dl) as [X|X].
    + apply Exists_exists in X. destruct X as (s & Hs & L). destruct (live_gnd s r L) as (_ & G). pose proof (K s Hs G) as Ks.
      rewrite orow_total_sum.
      transitivity (leaving c i s + rsum (fun p => (if has_current (i_kind (snd p)) then at_row (pointed c (internal (fst p))) r else 0) * branch sol hist p)%R (c_insts c))%R.
      * unfold leaving. rewrite <- rsum_plus. apply rsum_ext. intros p Hp. rewrite !(at_row_live _ _ _ L). rewrite (proj1 (Lp p Hp)).
        destruct (String.eqb (i_n1 (snd p)) s), (String.eqb (i_n2 (snd p)) s); ring.
      * rewrite Ks, rsum_zero; [ring|]. intros p Hp. destruct (has_current (i_kind (snd p))) eqn:Hc; [|ring]. rewrite (proj2 (Lp p Hp) Hc). ring.
    + rewrite orow_total_sum. apply rsum_zero. intros p Hp.
      assert (D : forall s, ~ live s r). { intros s L. apply X, Exists_exists. exists s. split; [exact (proj1 (live_gnd s r L))|exact L]. }
      rewrite !(at_row_dead r D). destruct (has_current (i_kind (snd p))); ring.
Qed.

(* ---- no row of a ground node is produced ------------------------------------------ *)
Lemma row1_some : forall s (v : R) q, has_node (c_nodes c) s -> In q (row1 (pointed c s) v) -> exists r, fst q = Some r /\ r < k_count (c_nodes c).
Proof.
  intros s v q (n & E) H. unfold row1, pointed in H. rewrite E in H. destruct (is_ground n) eqn:G; [destruct H|]. destruct H as [<-|[]].
  destruct (rd_num c Rd _ _ E G) as (i & Ni & Li). exists i. cbn. auto.
Qed.
Definition small (o : option nat) : Prop := exists r, o = Some r /\ r < k_count (c_nodes c).
Lemma small_pointed : forall s, has_node (c_nodes c) s -> is_ground (pointed c s) = false -> small (n_num (pointed c s)).
Proof. intros s (n & E) G. unfold pointed in *. rewrite E in *. exact (rd_num c Rd _ _ E G). Qed.
Lemma ent_some : forall s s' (v : R) q, has_node (c_nodes c) s -> has_node (c_nodes c) s' -> In q (ent (pointed c s) (pointed c s') v) -> small (fst (fst q)) /\ small (snd (fst q)).
Proof.
  intros s s' v q Hs Hs' H. unfold ent in H. destruct (is_ground (pointed c s)) eqn:G; [destruct H|]. destruct (is_ground (pointed c s')) eqn:G'; [destruct H|].
  destruct H as [<-|[]]. cbn. split; apply small_pointed; assumption.
Qed.
Lemma elem_some : forall sol p, In p (c_insts c) ->
  (forall q, In q (dc_rhs rF Rinv sol (elem_of c p)) -> small (fst q)) /\
  (forall q, In q (tr_rhs rF 1%R sol (elem_of c p)) -> small (fst q)) /\
  (forall q, In q (ac_rhs (elem_of c p)) -> small (fst q)) /\
  (forall q, In q (dc_mat rF Rinv (elem_of c p)) -> small (fst (fst q)) /\ small (snd (fst q))) /\
  (forall q, In q (tr_mat rF 1%R (elem_of c p)) -> small (fst (fst q)) /\ small (snd (fst q))).
Proof.
  intros sol p Hp. destruct (rd_inst c Rd p Hp) as (H1 & H2 & H3). pose proof (ready_internal c p Rd Hp) as Ri.
  destruct p as [nm [k n1 n2]]. unfold elem_of. cbn [fst snd i_kind i_n1 i_n2] in *.
  unfold dc_rhs, tr_rhs, ac_rhs, dc_mat, tr_mat. cbn [e_kind e_n1 e_n2 e_int].
  assert (Hi : needs_internal k = true -> small (n_num (pointed c (internal nm)))).
  { intros X. destruct (Ri X) as (n & E & G). apply small_pointed; [exists n; exact E|]. unfold pointed. rewrite E. exact G. }
  destruct k as [x|x|x|x re im|x]; cbn [needs_internal] in *;
    (split; [|split; [|split; [|split]]]);
    intros q Hq; rewrite ?in_app_iff in Hq; cbn [In] in Hq;
    repeat match goal with
    | H : _ \/ _ |- _ => destruct H as [H|H]
    | H : False |- _ => destruct H
    | H : In _ (row1 _ _) |- _ => refine (row1_some _ _ _ _ H); auto
    | H : In _ (ent _ _ _) |- _ => refine (ent_some _ _ _ _ _ _ H); auto
    | H : (_, _) = _ |- _ => subst q; cbn; auto
    end.
  - destruct (is_ground (pointed c n1)) eqn:G1; [destruct Hq|]. destruct Hq as [<-|[<-|[]]]; cbn; split; auto; apply small_pointed; assumption.
  - destruct (is_ground (pointed c n2)) eqn:G1; [destruct Hq|]. destruct Hq as [<-|[<-|[]]]; cbn; split; auto; apply small_pointed; assumption.
Qed.
End Rows.
