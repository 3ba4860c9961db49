(* Small-signal analysis: the complex system of the circuit is the phasor circuit. *)
From Coq Require Import String List Bool Arith Lia Reals Lra.
From Verif Require Import StrMap NodeKeeper Assembly AssemblyProofs ContactProofs Circuit CircuitInv CircuitSpec CircuitProofs.
Import ListNotations.
Open Scope list_scope.
Open Scope nat_scope.

Definition oprod (m : omat R) (x : solution R) (r : nat) : R :=
  rsum (fun q : option nat * option nat * R => if oeq (fst (fst q)) r then (snd q * x (snd (fst q)))%R else 0%R) m.
Lemma all_entries_oprod : forall m m' x, all_entries m = Some m' -> forall r, product m' x r = oprod m x r.
Proof.
  induction m as [|[[[i|] [j|]] v] t IH]; intros m' x H r; cbn in H; try discriminate.
  - injection H as <-. reflexivity.
  - destruct (all_entries t) as [t'|]; [|discriminate]. injection H as <-.
    change (oprod ((Some i, Some j, v) :: t) x r) with ((if i =? r then v * x (Some j) else 0) + oprod t x r)%R. rewrite <- (IH t' x eq_refl r). reflexivity.
Qed.
Lemma oprod_app : forall a b x r, oprod (a ++ b) x r = (oprod a x r + oprod b x r)%R.
Proof. intros. apply rsum_app. Qed.
Lemma oprod_flat_map : forall {A} (f : A -> omat R) l x r, oprod (flat_map f l) x r = rsum (fun a => oprod (f a) x r) l.
Proof. intros. apply rsum_flat_map. Qed.
Lemma oprod_ent : forall a b v x r, oprod (ent a b v) x r = (at_row a r * (v * at_terminal rF x b))%R.
Proof.
  intros a b v x r. unfold ent, at_row, at_terminal. destruct (is_ground a); cbn; [lra|]. destruct (is_ground b); cbn; [destruct (oeq (n_num a) r); lra|].
  destruct (oeq (n_num a) r); lra.
Qed.
(* a source replaced by a given value *)
Definition source (f : R -> R -> R) (k : kind R) : kind R :=
  match k with KV _ re im => KV (f re im) re im | KI _ => KI 0%R | _ => k end.
Definition resource (f : R -> R -> R) (e : elem R) : elem R := mkElem (source f (e_kind e)) (e_n1 e) (e_n2 e) (e_int e).
Definition ac_value (f : R -> R -> R) (e : elem R) (r : nat) : R :=
  match e_kind e with KV _ re im => if oeq (n_num (e_int e)) r then f re im else 0%R | _ => 0%R end.
Lemma dc_product : forall f e x r, orow (dc_rhs rF Rinv x (resource f e)) r = (oprod (dc_mat rF Rinv e) x r - ac_value f e r)%R.
Proof.
  intros f [k n1 n2 ni] x r. unfold dc_rhs, dc_mat, resource, source, ac_value. cbn [e_kind e_n1 e_n2 e_int].
  destruct k as [a|a|a|a re im|a]; cbn [e_kind e_n1 e_n2 e_int].
  - rewrite !orow_app, !orow_row1, !oprod_app, !oprod_ent. cbn [s_mul s_opp s_add s_zero s_one rF]. ring.
  - cbn. ring.
  - rewrite !orow_app, !orow_row1, !oprod_app, !oprod_ent. cbn [s_mul s_opp s_add s_zero s_one rF]. ring.
  - rewrite !orow_app, !orow_row1, !oprod_app. unfold at_row, at_terminal. unfold orow, oprod. cbn [s_mul s_opp s_add s_zero s_one rF].
    destruct (is_ground n1), (is_ground n2); cbn [rsum fst snd]; destruct (oeq (n_num ni) r), (oeq (n_num n1) r), (oeq (n_num n2) r); lra.
  - rewrite !orow_app, !orow_row1. cbn. ring.
Qed.
Lemma tr_product : forall f e x r, orow (tr_rhs rF 1%R x (resource f e)) r = oprod (tr_mat rF 1%R e) x r.
Proof.
  intros f [k n1 n2 ni] x r. unfold tr_rhs, tr_mat, resource, source. cbn [e_kind e_n1 e_n2 e_int].
  destruct k as [a|a|a|a re im|a]; cbn [e_kind e_n1 e_n2 e_int]; try reflexivity.
  - rewrite !orow_app, !orow_row1, !oprod_app, !oprod_ent. cbn [s_mul s_opp s_add s_zero s_one rF]. ring.
  - rewrite !orow_row1, !oprod_ent. cbn [s_mul s_opp s_add s_zero s_one rF]. ring.
Qed.

Definition with_source (f : R -> R -> R) (c : ckt R) : ckt R :=
  mkCkt (c_nodes c) (map (fun p => (fst p, mkInst (source f (i_kind (snd p))) (i_n1 (snd p)) (i_n2 (snd p)))) (c_insts c)).
Lemma with_source_elems : forall f c, elems (with_source f c) = map (resource f) (elems c).
Proof. intros f c. unfold elems, with_source. cbn. rewrite !map_map. reflexivity. Qed.
Lemma has_current_source : forall f k, has_current (source f k) = has_current k. Proof. intros f []; reflexivity. Qed.
Lemma with_source_In : forall f c q, In q (c_insts (with_source f c)) -> exists p, In p (c_insts c) /\ q = (fst p, mkInst (source f (i_kind (snd p))) (i_n1 (snd p)) (i_n2 (snd p))).
Proof. intros f c q H. cbn in H. apply in_map_iff in H. destruct H as (p & <- & Hp). exists p. auto. Qed.
Lemma with_source_ready : forall f c, ready c -> ready (with_source f c).
Proof.
  intros f c [A B C D E G]. constructor; try assumption.
  - unfold sorted, keys, with_source in *. cbn. rewrite map_map. exact A.
  - intros q Hq. apply with_source_In in Hq. destruct Hq as (p & Hp & ->). destruct (B p Hp) as (X & Y & Z).
    split; [exact X|]. split; [exact Y|]. cbn [fst snd i_kind]. rewrite needs_has, has_current_source, <- needs_has. exact Z.
Qed.
Lemma with_source_clash : forall f c, no_clash c -> no_clash (with_source f c).
Proof.
  intros f c NC p q Hp Hq Hc. apply with_source_In in Hp, Hq. destruct Hp as (p' & Hp & ->). destruct Hq as (q' & Hq & ->). cbn [fst snd i_kind i_n1 i_n2] in *.
  rewrite has_current_source in Hc. exact (NC p' q' Hp Hq Hc).
Qed.
Lemma with_source_short : forall f c, no_short c -> no_short (with_source f c).
Proof.
  intros f c NS p r Hp E. apply with_source_In in Hp. destruct Hp as (p' & Hp & ->). cbn in E. apply (NS p' r Hp). destruct (i_kind (snd p')); cbn in E; congruence.
Qed.

Lemma set_rhs_sum : forall (g : R * R -> R) l f off r, NoDup (map fst l) -> (forall r', In r' (map fst l) -> g (f (r' + off)) = 0%R) ->
  g (set_rhs f off l (r + off)) = (g (f (r + off)%nat) + rsum (fun q => if (fst q =? r)%nat then g (snd q) else 0%R) l)%R.
Proof.
  intros g l. induction l as [|[a v] t IH]; intros f off r ND Z; cbn [set_rhs rsum fst snd]; [ring|].
  inversion ND as [|x y N1 N2]; subst. rewrite IH; [|exact N2|].
  - destruct (Nat.eqb_spec a r) as [->|N].
    + rewrite Nat.eqb_refl. rewrite (Z r) by (left; reflexivity). ring.
    + destruct (Nat.eqb_spec (r + off) (a + off)); [lia|]. ring.
  - intros r' Hr'. destruct (Nat.eqb_spec (r' + off) (a + off)) as [E|]; [assert (r' = a) by lia; subst; contradiction|]. apply Z. right; exact Hr'.
Qed.

Section AC.
Variable c : ckt R.
Hypothesis Rd : ready c.
Lemma ac_list : exists l, assemble_ac c = Some l /\ NoDup (map fst l) /\
  forall g : R * R -> R, forall r, rsum (fun q => if fst q =? r then g (snd q) else 0%R) l = rsum (fun e => ac_value (fun re im => g (re, im)) e r) (elems c).
Proof.
  unfold assemble_ac, elems. assert (Sub : forall p, In p (c_insts c) -> In p (c_insts c)) by auto.
  assert (ND : NoDup (c_insts c)) by (apply insts_NoDup; exact Rd).
  assert (St : forall q r v, forall l, (forall p, In p l -> In p (c_insts c)) -> In q (flat_map (@ac_rhs R) (map (elem_of c) l)) -> q = (Some r, v) ->
     exists p, In p l /\ unknown c (internal (fst p)) = Some r /\ has_current (i_kind (snd p)) = true).
  { intros q r v l Hl Hq E. apply in_flat_map in Hq. destruct Hq as (e & He & Hq). apply in_map_iff in He. destruct He as (p & <- & Hp).
    unfold ac_rhs, elem_of in Hq. cbn in Hq. destruct (i_kind (snd p)) as [| | |x re im|] eqn:Ek; try destruct Hq as [Hq|[]]; try destruct Hq.
    exists p. split; [exact Hp|]. rewrite Ek. split; [|reflexivity]. rewrite <- pointed_unknown. congruence. }
  revert Sub ND. generalize (c_insts c) at 1 3 4 5. intros l. induction l as [|p l IH]; intros Sub ND; cbn [map flat_map].
  - exists []. split; [reflexivity|]. split; [constructor|]. reflexivity.
  - inversion ND as [|x y N1 N2]; subst. destruct IH as (t & Et & Nt & St'); [intros q Hq; apply Sub; right; exact Hq|exact N2|].
    assert (Hp : In p (c_insts c)) by (apply Sub; left; reflexivity).
    destruct (i_kind (snd p)) as [x|x|x|x re im|x] eqn:Ek;
      try (assert (A : ac_rhs (elem_of c p) = []) by (unfold ac_rhs, elem_of; cbn [e_kind]; rewrite Ek; reflexivity);
           assert (V : forall f r, ac_value f (elem_of c p) r = 0%R) by (intros f r; unfold ac_value, elem_of; cbn [e_kind]; rewrite Ek; reflexivity);
           rewrite A; exists t; split; [exact Et|]; split; [exact Nt|]; intros g r; cbn [rsum]; rewrite V, St'; lra).
    assert (A : ac_rhs (elem_of c p) = [(n_num (pointed c (internal (fst p))), (re, im))]) by (unfold ac_rhs, elem_of; cbn [e_kind]; rewrite Ek; reflexivity).
    assert (V : forall f r, ac_value f (elem_of c p) r = if oeq (n_num (pointed c (internal (fst p)))) r then f re im else 0%R)
      by (intros f r; unfold ac_value, elem_of; cbn [e_kind]; rewrite Ek; reflexivity).
    rewrite A.
    destruct (ready_internal c p Rd Hp) as (n & En & Gn); [rewrite Ek; reflexivity|].
    destruct (rd_num c Rd _ _ En Gn) as (i & Ni & _).
    assert (Ui : n_num (pointed c (internal (fst p))) = Some i) by (unfold pointed; rewrite En; exact Ni).
    cbn [app all_rows]. rewrite Ui, Et. cbn [option_map]. eexists. split; [reflexivity|]. split.
    + cbn [map fst]. constructor; [|exact Nt]. intros Hi. apply in_map_iff in Hi. destruct Hi as ((r & v) & E & Hv). cbn in E. subst r.
      assert (Hin : In (Some i, v) (flat_map (@ac_rhs R) (map (elem_of c) l))).
      { clear - Et Hv. revert t Et Hv. generalize (flat_map (@ac_rhs R) (map (elem_of c) l)). intros m. induction m as [|[[j|] w] m IHm]; intros t Et Hv; cbn in Et; try discriminate.
        - injection Et as <-. destruct Hv.
        - destruct (all_rows m) as [m'|]; [|discriminate]. injection Et as <-. destruct Hv as [E|Hv]; [injection E as -> ->; left; reflexivity|right; eapply IHm; [reflexivity|exact Hv]]. }
      destruct (St _ i v l (fun q Hq => Sub q (or_intror Hq)) Hin eq_refl) as (q & Hq & Uq & Hc).
      assert (Hq' : In q (c_insts c)) by (apply Sub; right; exact Hq).
      destruct (ready_internal c q Rd Hq') as (m & Em & Gm); [rewrite needs_has; exact Hc|].
      assert (X : internal (fst p) = internal (fst q)).
      { eapply (rd_inj c Rd); try eassumption. unfold unknown in Uq. rewrite Em in Uq. exact Uq. }
      apply internal_inj in X. apply N1. replace p with q; [exact Hq|]. symmetry. apply (insts_inj c Rd); assumption.
    + intros g r. cbn [rsum fst snd]. rewrite St', V, Ui. reflexivity.
Qed.

Lemma phasor_orow : forall w xr xi start, no_clash c -> no_short c ->
  exists l, assemble_ac c = Some l /\
  ((forall r, (oprod (flat_map (dc_mat rF Rinv) (elems c)) xr r - w * oprod (flat_map (tr_mat rF 1%R) (elems c)) xi r)%R = fst (set_rhs (fun _ => (0%R, 0%R)) start l (r + start)) /\
              (oprod (flat_map (dc_mat rF Rinv) (elems c)) xi r + w * oprod (flat_map (tr_mat rF 1%R) (elems c)) xr r)%R = snd (set_rhs (fun _ => (0%R, 0%R)) start l (r + start)))
   <-> exists ir ii, currents c xr ir /\ currents c xi ii /\ kcl c ir /\ kcl c ii /\
        forall p, In p (c_insts c) -> phasor_law w (i_kind (snd p)) (drop c xr p) (drop c xi p) (ir (fst p)) (ii (fst p))).
Proof.
  intros w xr xi start NC NS. destruct ac_list as (l & El & ND & Sl). exists l. split; [exact El|].
  assert (Row : forall f x y a r, orow_total (with_source f c) x [(a, y)] r =
    (oprod (flat_map (dc_mat rF Rinv) (elems c)) x r + a * oprod (flat_map (tr_mat rF 1%R) (elems c)) y r - rsum (fun e => ac_value f e r) (elems c))%R).
  { intros f x y a r. unfold orow_total, rate. rewrite with_source_elems. cbn [rsum fst snd]. rewrite !orow_flat_map, !oprod_flat_map, !rsum_map.
    rewrite (rsum_ext _ (fun e => oprod (dc_mat rF Rinv e) x r + (-1) * ac_value f e r)%R) by (intros e _; rewrite dc_product; ring).
    rewrite (rsum_ext (fun e => orow (tr_rhs rF 1%R y (resource f e)) r) (fun e => oprod (tr_mat rF 1%R e) y r)) by (intros e _; apply tr_product).
    rewrite rsum_plus, rsum_scal. ring. }
  pose proof (fun f x h => kirchhoff_orow (with_source f c) (with_source_ready f c Rd) x h (with_source_clash f c NC) (with_source_short f c NS)) as K.
  pose proof (fun r => set_rhs_sum fst l (fun _ => (0%R, 0%R)) start r ND (fun _ _ => eq_refl)) as Fr.
  pose proof (fun r => set_rhs_sum snd l (fun _ => (0%R, 0%R)) start r ND (fun _ _ => eq_refl)) as Fi.
  transitivity ((forall r, orow_total (with_source (fun re _ => re) c) xr [((- w)%R, xi)] r = 0%R) /\ (forall r, orow_total (with_source (fun _ im => im) c) xi [(w, xr)] r = 0%R)).
  { split.
    - intros H. split; intros r; destruct (H r) as (H1 & H2); rewrite Row.
      + rewrite Fr, Sl in H1. cbn [fst] in H1. lra.
      + rewrite Fi, Sl in H2. cbn [snd] in H2. lra.
    - intros (H1 & H2) r. specialize (H1 r). specialize (H2 r). rewrite Row in H1, H2. rewrite Fr, Fi, !Sl. cbn [fst snd]. split; lra. }
  rewrite !K.
  assert (Cur : forall f x i, currents (with_source f c) x i <-> currents c x i).
  { intros f x i. unfold currents. split; intros H p Hp Hc.
    - apply (H (fst p, mkInst (source f (i_kind (snd p))) (i_n1 (snd p)) (i_n2 (snd p)))); [cbn; apply in_map_iff; exists p; auto|]. cbn. rewrite has_current_source. exact Hc.
    - apply with_source_In in Hp. destruct Hp as (p' & Hp & ->). cbn in *. rewrite has_current_source in Hc. exact (H p' Hp Hc). }
  assert (Kcl : forall f i, kcl (with_source f c) i <-> kcl c i).
  { intros f i. unfold kcl, leaving. cbn [c_insts c_nodes with_source]. split; intros H s Hs G; specialize (H s Hs G); (refine (eq_trans _ H)); rewrite rsum_map; reflexivity. }
  assert (Laws : forall f x i h, laws (with_source f c) x i h <-> forall p, In p (c_insts c) ->
      law (source f (i_kind (snd p))) (drop c x p) (i (fst p)) (rate h (fun y => drop c y p)) (rate h (fun y => y (unknown c (internal (fst p)))))).
  { intros f x i h. unfold laws. split; intros H p Hp.
    - exact (H (fst p, mkInst (source f (i_kind (snd p))) (i_n1 (snd p)) (i_n2 (snd p))) (in_map (fun p => (fst p, mkInst (source f (i_kind (snd p))) (i_n1 (snd p)) (i_n2 (snd p)))) _ _ Hp)).
    - apply with_source_In in Hp. destruct Hp as (p' & Hp & ->). exact (H p' Hp). }
  split.
  - intros ((ir & A1 & A2 & A3) & ii & B1 & B2 & B3). exists ir, ii. rewrite Cur in A1, B1. rewrite Kcl in A2, B2. rewrite Laws in A3, B3.
    split; [exact A1|]. split; [exact B1|]. split; [exact A2|]. split; [exact B2|].
    intros p Hp. specialize (A3 p Hp). specialize (B3 p Hp). specialize (A1 p Hp). specialize (B1 p Hp). unfold rate in *. cbn [rsum fst snd] in *.
    unfold phasor_law. destruct (i_kind (snd p)); cbn [source law has_current] in *; try (specialize (A1 eq_refl); specialize (B1 eq_refl); rewrite A1, B1); split; lra.
  - intros (ir & ii & A1 & B1 & A2 & B2 & L). split; [exists ir|exists ii]; rewrite Cur, Kcl, Laws; (split; [assumption|split; [assumption|]]);
      intros p Hp; specialize (L p Hp); specialize (A1 p Hp); specialize (B1 p Hp); unfold rate; cbn [rsum fst snd];
      unfold phasor_law in L; destruct (i_kind (snd p)); cbn [source law has_current] in *; try (specialize (A1 eq_refl); specialize (B1 eq_refl); rewrite A1, B1 in L); destruct L; lra.
Qed.
End AC.
