(* C47: interfaces. *)
From Coq Require Import String List Bool Arith Lia Reals Lra.
From Verif Require Import StrMap EqTable EqTableProofs Assembly AssemblyProofs AssemblyResidual AssemblyJacobian AssemblyProperties Load LoadProofs Contact ContactProofs ContactJacobian Interface InterfaceProofs.
Import ListNotations.
Open Scope R_scope.
Open Scope nat_scope.
Open Scope list_scope.

(* a pair of nodes is coupled iff neither node is claimed, for the equation of its side,
   by a contact of its region or by another interface *)
Theorem C47_active : forall cs is i e p, i_r0 i <> i_r1 i -> (active_pair cs is i e p = true <->
  ~ taken_by_contact cs (i_r0 i) (e_name0 e) (p_c0 p) /\ ~ taken_by_interface is i (i_r0 i) (e_name0 e) (p_c0 p) /\
  ~ taken_by_contact cs (i_r1 i) (e_name1 e) (p_c1 p) /\ ~ taken_by_interface is i (i_r1 i) (e_name1 e) (p_c1 p)).
Proof.
  intros cs is i e p N. rewrite active_pair_iff. unfold side1. destruct (String.eqb_spec (i_r1 i) (i_r0 i)) as [E|E]; [exfalso; apply N; symmetry; exact E|tauto].
Qed.
Print Assumptions C47_active.

(* the nodes that a coupled pair changes: region, equation, coordinate *)
Definition changes (i : interface) (e : ieq) (p : ipair) (rg eq : string) (ci : nat) : Prop :=
  (rg = i_r0 i /\ eq = e_name0 e /\ ci = p_c0 p) \/ (rg = i_r1 i /\ eq = e_name1 e /\ ci = p_c1 p).
(* no node is changed by two interfaces, or by an interface and a contact equation: bulk
   equations are redirected at most once, never from or into a row that a contact
   or another interface treats *)
Theorem C47_exclusive : forall cs is i j e e' p q rg eq ci, In i is -> In j is -> i_name i <> i_name j ->
  i_r0 i <> i_r1 i -> i_r0 j <> i_r1 j -> In e (i_eqs i) -> In e' (i_eqs j) -> In p (i_pairs i) -> In q (i_pairs j) ->
  active_pair cs is i e p = true -> active_pair cs is j e' q = true -> changes i e p rg eq ci -> changes j e' q rg eq ci -> False.
Proof.
  intros cs is i j e e' p q rg eq ci Hi Hj Nm Ri Rj He He' Hp Hq Ap Aq Cp Cq.
  apply (C47_active cs is i e p Ri) in Ap. destruct Ap as (_ & A0 & _ & A1).
  assert (T : taken_by_interface is i rg eq ci).
  { exists j. split; [exact Hj|]. split; [intros E; apply Nm; symmetry; exact E|]. destruct Cq as [(-> & -> & ->)|(-> & -> & ->)].
    - split; [exists q; auto|]. exists e'. split; [exact He'|]. left. auto.
    - split; [exists q; auto|]. exists e'. split; [exact He'|]. right. auto. }
  destruct Cp as [(E1 & E2 & E3)|(E1 & E2 & E3)]; subst; contradiction.
Qed.
Print Assumptions C47_exclusive.
Theorem C47_contacts_first : forall cs is i e p c rg eq, i_r0 i <> i_r1 i -> active_pair cs is i e p = true ->
  In c cs -> k_region c = rg -> In eq (k_eqs c) -> forall ci, In ci (k_nodes c) -> ~ changes i e p rg eq ci.
Proof.
  intros cs is i e p c rg eq Ri A Hc Er He ci Hn C. apply (C47_active cs is i e p Ri) in A. destruct A as (A0 & _ & A1 & _).
  destruct C as [(E1 & E2 & E3)|(E1 & E2 & E3)]; subst; [apply A0|apply A1]; exists c; auto.
Qed.
Print Assumptions C47_contacts_first.
(* a node shared by two interfaces with the equation is coupled by neither: its region is
   left without any coupling there *)
Theorem C47_shared_refuted : exists is i j e ci, In i is /\ In j is /\ In e (i_eqs i) /\ In e (i_eqs j) /\
  (exists p, In p (i_pairs i) /\ p_c0 p = ci) /\ (exists p, In p (i_pairs j) /\ p_c0 p = ci) /\
  forall o p, In o is -> In p (i_pairs o) -> touches o ci -> (p_c0 p = ci \/ p_c1 p = ci) -> forall e', In e' (i_eqs o) -> active_pair [] is o e' p = false.
Proof.
  set (e := mkIEq "c" "e" "e" "m" CONTINUOUS).
  set (i := mkIface "i" "a" "b" [mkPair 5 0 5 0; mkPair 6 1 6 1] [e]). set (j := mkIface "j" "a" "c" [mkPair 5 0 5 0; mkPair 7 2 7 1] [e]).
  exists [i; j], i, j, e, 5. split; [cbn; auto|]. split; [cbn; auto|]. split; [cbn; auto|]. split; [cbn; auto|].
  split; [exists (mkPair 5 0 5 0); cbn; auto|]. split; [exists (mkPair 5 0 5 0); cbn; auto|].
  intros o p Ho Hp _ Hc e' He'. destruct Ho as [<-|[<-|[]]]; cbn in He'; destruct He' as [<-|[]]; cbn in Hp; destruct Hp as [<-|[<-|[]]]; try reflexivity; cbn in Hc; lia.
Qed.
Print Assumptions C47_shared_refuted.

(* ---- rows --------------------------------------------------------------------------------- *)
Theorem C47_rows : forall r0 r1 st surface name0 name1 model act pairs i0 i1, row_index r0 name0 = Some i0 -> row_index r1 name1 = Some i1 ->
  forall ty t m v row, interface_assemble rF r0 r1 st surface name0 name1 model act pairs ty t = OK (m, v) ->
  row_sum v row = interface_residual r0 r1 st surface model act pairs i0 i1 ty t row.
Proof. intros r0 r1 st surface name0 name1 model act pairs i0 i1 H0 H1. exact (interface_row r0 r1 st surface name0 name1 model act pairs i0 i1 H0 H1). Qed.
Print Assumptions C47_rows.

Lemma eqnum_inj : forall (r : region R) i n n', eqnum r i n = eqnum r i n' -> n = n'.
Proof. intros r i n n' H. unfold eqnum in H. lia. Qed.
Lemma over_pick : forall act (node : ipair -> nat) (h : nat -> ipair -> R) pairs k0 k p, NoDup (map node pairs) ->
  In (k, p) (numbered k0 pairs) -> act p = true ->
  rsum (fun kp => if act (snd kp) then (if node (snd kp) =? node p then h (fst kp) (snd kp) else 0%R) else 0%R) (numbered k0 pairs) = h k p.
Proof.
  intros act node h. induction pairs as [|q t IH]; intros k0 k p ND Hi Ha; [destruct Hi|]. cbn [numbered rsum map fst snd] in *. inversion ND as [|? ? Hq NDt]; subst.
  destruct Hi as [E|Hi].
  - injection E as -> ->. rewrite Ha, Nat.eqb_refl, rsum_zero; [lra|]. intros [k' p'] Hk. cbn [fst snd]. destruct (act p'); [|reflexivity].
    destruct (Nat.eqb_spec (node p') (node p)) as [E|]; [|reflexivity]. exfalso. apply Hq. rewrite <- E. apply in_map. exact (numbered_in _ _ _ _ Hk).
  - rewrite (IH (k0 + 1) k p NDt Hi Ha). destruct (Nat.eqb_spec (node q) (node p)) as [E|].
    + exfalso. apply Hq. rewrite E. apply in_map. exact (numbered_in _ _ _ _ Hi).
    + destruct (act q); lra.
Qed.
Lemma in_numbered : forall p pairs k0, In p pairs -> exists k, In (k, p) (numbered k0 pairs).
Proof. intros p. induction pairs as [|q t IH]; intros k0 H; [destruct H|]. destruct H as [->|H]; [exists k0; left; reflexivity|]. destruct (IH (k0 + 1) H) as (k & Hk). exists k. right. exact Hk. Qed.
Lemma decision_none : forall (l : list (nat * pentry)) r, (forall k e, In (k, e) l -> k <> r) -> decision l r = None.
Proof.
  induction l as [|[k e] t IH]; intros r H; [reflexivity|]. cbn [decision]. rewrite IH by (intros k' e' Hi; apply (H k' e'); right; exact Hi).
  destruct (Nat.eqb_spec k r); [exfalso; exact (H k e (or_introl eq_refl) e0)|reflexivity].
Qed.
Lemma decision_pick : forall (src tgt : ipair -> nat) keep l p, NoDup (map src l) -> In p l ->
  decision (map (fun p => (src p, (Some (tgt p), keep))) l) (src p) = Some (Some (tgt p), keep).
Proof.
  intros src tgt keep. induction l as [|q t IH]; intros p ND H; [destruct H|]. cbn [map decision]. cbn [map] in ND. inversion ND as [|? ? Hq NDt]; subst.
  destruct H as [->|H]; [|rewrite (IH p NDt H); reflexivity].
  rewrite decision_none; [rewrite Nat.eqb_refl; reflexivity|]. intros k e Hi ->. apply in_map_iff in Hi. destruct Hi as (q & Eq & Hq'). injection Eq as Ek _.
  apply Hq. rewrite <- Ek. apply in_map. exact Hq'.
Qed.

(* What the rows of a coupled pair hold in the end: the contribution of the interface
   equation and the bulk contributions v (of both regions) after redirection.  a and b
   are the decisions of the other boundaries; they concern other rows (C47_exclusive,
   C47_contacts_first).  The rows of the two regions differ (C13). *)
Section Balance.
Variables (r0 r1 : region R) (st : istore (S := R)) (surface name0 name1 model : string) (act : ipair -> bool) (pairs : list ipair) (i0 i1 : nat).
Variables (ty : etype) (m : mat_list R) (vi v : rhs_list R) (a ps b : list (nat * pentry)).
Definition interface_row_of (row : nat) : Prop := exists p, In p pairs /\ act p = true /\ (row = eqnum r0 i0 (p_n0 p) \/ row = eqnum r1 i1 (p_n1 p)).
Definition clean (l : list (nat * pentry)) : Prop := forall k e, In (k, e) l -> ~ interface_row_of k /\ (forall t, fst e = Some t -> ~ interface_row_of t).
Definition held (row : nat) : R := (row_sum vi row + moved_row (destinations (a ++ ps ++ b)) v row)%R.
End Balance.
Theorem C47_balance : forall r0 r1 st surface name0 name1 model act pairs i0 i1 ty m vi v a ps b,
  row_index r0 name0 = Some i0 -> row_index r1 name1 = Some i1 -> model <> ""%string ->
  NoDup (map p_n0 pairs) -> NoDup (map p_n1 pairs) ->
  (forall p q, In p pairs -> In q pairs -> eqnum r0 i0 (p_n0 p) <> eqnum r1 i1 (p_n1 q)) ->
  clean r0 r1 act pairs i0 i1 a -> clean r0 r1 act pairs i0 i1 b ->
  interface_perms r0 r1 st surface name0 name1 model act pairs ty DC = OK ps ->
  interface_assemble rF r0 r1 st surface name0 name1 model act pairs ty DC = OK (m, vi) ->
  forall k p, In (k, p) (numbered 0 pairs) -> act p = true ->
  let held := held vi v a ps b in
  let F0 := row_sum v (eqnum r0 i0 (p_n0 p)) in let F1 := row_sum v (eqnum r1 i1 (p_n1 p)) in
  let M := val st model k in let s0 := val (rg_node r0) surface (p_n0 p) in let s1 := val (rg_node r1) surface (p_n1 p) in
  match ty with
  | CONTINUOUS => held (eqnum r0 i0 (p_n0 p)) = F0 + F1 /\ held (eqnum r1 i1 (p_n1 p)) = M
  | FLUXTERM => held (eqnum r0 i0 (p_n0 p)) = F0 + M * s0 /\ held (eqnum r1 i1 (p_n1 p)) = F1 - M * s1
  | HYBRID => held (eqnum r0 i0 (p_n0 p)) = F0 + F1 /\ held (eqnum r1 i1 (p_n1 p)) = F1 - M * s1
  end%R.
Proof.
  intros r0 r1 st surface name0 name1 model act pairs i0 i1 ty m vi v a ps b H0 H1 Hm ND0 ND1 Hne Ca Cb Hps Ha k p Hk Hact held F0 F1 M s0 s1.
  assert (Hin : In p pairs) by exact (numbered_in _ _ _ _ Hk).
  assert (Gm : given model = true) by (unfold given; destruct (String.eqb_spec model ""); [contradiction|reflexivity]).
  pose proof (interface_perms_eq r0 r1 st surface name0 name1 model act pairs i0 i1 H0 H1 ty DC ps Hps) as Eps. rewrite Gm in Eps. cbn [andb] in Eps.
  pose proof (fun row => interface_row r0 r1 st surface name0 name1 model act pairs i0 i1 H0 H1 ty DC m vi row Ha) as Er.
  set (R0 := eqnum r0 i0 (p_n0 p)) in *. set (R1 := eqnum r1 i1 (p_n1 p)) in *.
  set (dest := destinations (a ++ ps ++ b)) in *.
  assert (Sep01 : R0 <> R1) by (apply Hne; exact Hin).
  assert (NDs : NoDup (map (row1 r1 i1) (filter act pairs))).
  { unfold row1. clear - ND1. induction pairs as [|q t IH]; [constructor|]. cbn [map filter] in *. inversion ND1 as [|? ? Hq NDt]; subst. destruct (act q); [|apply IH; exact NDt].
    cbn [map]. constructor; [|apply IH; exact NDt]. intros Hi. apply in_map_iff in Hi. destruct Hi as (q' & E & Hq'). apply eqnum_inj in E. apply Hq. rewrite <- E. apply in_map.
    apply filter_In in Hq'. tauto. }
  (* decisions *)
  assert (Ra : forall r, interface_row_of r0 r1 act pairs i0 i1 r -> decision a r = None).
  { intros r Hr. apply decision_none. intros k' e' Hi ->. exact (proj1 (Ca r e' Hi) Hr). }
  assert (Rb : forall r, interface_row_of r0 r1 act pairs i0 i1 r -> decision b r = None).
  { intros r Hr. apply decision_none. intros k' e' Hi ->. exact (proj1 (Cb r e' Hi) Hr). }
  assert (Rin : forall r, interface_row_of r0 r1 act pairs i0 i1 r -> dest r = destinations ps r).
  { intros r Hr. unfold dest, destinations. rewrite !decision_app, (Rb r Hr), (Ra r Hr). destruct (decision ps r); reflexivity. }
  assert (IR0 : forall q, In q pairs -> act q = true -> interface_row_of r0 r1 act pairs i0 i1 (eqnum r0 i0 (p_n0 q))) by (intros q Hq Hq'; exists q; auto).
  assert (IR1 : forall q, In q pairs -> act q = true -> interface_row_of r0 r1 act pairs i0 i1 (eqnum r1 i1 (p_n1 q))) by (intros q Hq Hq'; exists q; auto).
  assert (Pout : forall r, ~ interface_row_of r0 r1 act pairs i0 i1 r -> decision ps r = None).
  { intros r Hr. apply decision_none. intros k' e' Hi ->. rewrite Eps in Hi. destruct ty; try destruct Hi;
    apply in_map_iff in Hi; destruct Hi as (q & E & Hq); apply filter_In in Hq; injection E as E _; apply Hr; exists q; unfold row1 in E; intuition. }
  assert (Rout : forall r, ~ interface_row_of r0 r1 act pairs i0 i1 r -> forall t, In t (dest r) -> ~ interface_row_of r0 r1 act pairs i0 i1 t).
  { intros r Hr t Ht. unfold dest, destinations in Ht. rewrite !decision_app, (Pout r Hr) in Ht. destruct (decision b r) as [[o kp]|] eqn:Db.
    - destruct (Cb r (o, kp) (decision_in _ _ _ Db)) as (_ & C). cbn [fst] in C. destruct o as [t0|]; [|destruct Ht].
      destruct kp; cbn in Ht; intuition; subst; eauto.
    - destruct (decision a r) as [[o kp]|] eqn:Da; [|cbn in Ht; destruct Ht as [<-|[]]; exact Hr].
      destruct (Ca r (o, kp) (decision_in _ _ _ Da)) as (_ & C). cbn [fst] in C. destruct o as [t0|]; [|destruct Ht].
      destruct kp; cbn in Ht; intuition; subst; eauto. }
  assert (Cout : forall r R, interface_row_of r0 r1 act pairs i0 i1 R -> ~ interface_row_of r0 r1 act pairs i0 i1 r -> count R (dest r) = 0%R).
  { intros r R HR Hr. apply rsum_zero. intros t Ht. unfold ind. destruct (Nat.eqb_spec t R) as [->|]; [exfalso; exact (Rout r Hr R Ht HR)|reflexivity]. }
  (* the interface's own contributions *)
  assert (Own1 : forall h : nat -> ipair -> R, over act pairs (fun k q => ind (row1 r1 i1 q) R1 (h k q)) = h k p).
  { intros h. rewrite <- (over_pick act p_n1 h pairs 0 k p ND1 Hk Hact). unfold over. apply rsum_ext. intros [k' q] _. cbn [fst snd]. unfold ind, row1, R1.
    destruct (act q); [|reflexivity]. destruct (Nat.eqb_spec (eqnum r1 i1 (p_n1 q)) (eqnum r1 i1 (p_n1 p))) as [E|E]; destruct (Nat.eqb_spec (p_n1 q) (p_n1 p)) as [E'|E']; try reflexivity.
    - exfalso. apply E'. exact (eqnum_inj _ _ _ _ E).
    - exfalso. apply E. rewrite E'. reflexivity. }
  assert (Own0 : forall h : nat -> ipair -> R, over act pairs (fun k q => ind (row0 r0 i0 q) R0 (h k q)) = h k p).
  { intros h. rewrite <- (over_pick act p_n0 h pairs 0 k p ND0 Hk Hact). unfold over. apply rsum_ext. intros [k' q] _. cbn [fst snd]. unfold ind, row0, R0.
    destruct (act q); [|reflexivity]. destruct (Nat.eqb_spec (eqnum r0 i0 (p_n0 q)) (eqnum r0 i0 (p_n0 p))) as [E|E]; destruct (Nat.eqb_spec (p_n0 q) (p_n0 p)) as [E'|E']; try reflexivity.
    - exfalso. apply E'. exact (eqnum_inj _ _ _ _ E).
    - exfalso. apply E. rewrite E'. reflexivity. }
  assert (Other10 : forall h : nat -> ipair -> R, over act pairs (fun k q => ind (row1 r1 i1 q) R0 (h k q)) = 0%R).
  { intros h. apply rsum_zero. intros [k' q] Hq. cbn [fst snd]. destruct (act q); [|reflexivity]. unfold ind, row1, R0.
    destruct (Nat.eqb_spec (eqnum r1 i1 (p_n1 q)) (eqnum r0 i0 (p_n0 p))) as [E|]; [|reflexivity]. exfalso. apply (Hne p q Hin (numbered_in _ _ _ _ Hq)). symmetry. exact E. }
  assert (Other01 : forall h : nat -> ipair -> R, over act pairs (fun k q => ind (row0 r0 i0 q) R1 (h k q)) = 0%R).
  { intros h. apply rsum_zero. intros [k' q] Hq. cbn [fst snd]. destruct (act q); [|reflexivity]. unfold ind, row0, R1.
    destruct (Nat.eqb_spec (eqnum r0 i0 (p_n0 q)) (eqnum r1 i1 (p_n1 p))) as [E|]; [|reflexivity]. exfalso. apply (Hne q p (numbered_in _ _ _ _ Hq) Hin). exact E. }
  assert (Over_plus : forall h h' : nat -> ipair -> R, over act pairs (fun k q => (h k q + h' k q)%R) = (over act pairs h + over act pairs h')%R).
  { intros h h'. unfold over. rewrite <- rsum_plus. apply rsum_ext. intros [k' q] _. cbn [fst snd]. destruct (act q); lra. }
  (* moved bulk rows from the multiplicities *)
  assert (Mv : forall R c0 c1, (forall r, count R (dest r) = ind r R0 c0 + ind r R1 c1)%R -> moved_row dest v R = (c0 * F0 + c1 * F1)%R).
  { intros R c0 c1 Hc. unfold moved_row, F0, F1, row_sum. clear - Hc. induction v as [|[r x] t IH]; cbn [rsum fst snd]; [lra|]. rewrite IH, Hc. unfold ind. destruct (r =? R0), (r =? R1); lra. }
  assert (Cases : forall r, interface_row_of r0 r1 act pairs i0 i1 r \/ ~ interface_row_of r0 r1 act pairs i0 i1 r).
  { intros r. unfold interface_row_of. clear. induction pairs as [|q t IH]; [right; intros (q & [] & _)|].
    destruct IH as [(q' & A & B)|N]; [left; exists q'; split; [right; exact A|exact B]|].
    destruct (act q) eqn:E; [destruct (Nat.eq_dec r (eqnum r0 i0 (p_n0 q))) as [D|D]; [left; exists q; split; [left; reflexivity|auto]|]; destruct (Nat.eq_dec r (eqnum r1 i1 (p_n1 q))) as [D'|D']; [left; exists q; split; [left; reflexivity|auto]|]|];
    right; intros (q' & [<-|A] & B & C); try (apply N; exists q'; auto); try congruence; intuition. }
  assert (Iq : forall r, interface_row_of r0 r1 act pairs i0 i1 r -> exists q, In q pairs /\ act q = true /\ ((r = eqnum r0 i0 (p_n0 q) /\ (r = R0 <-> q = p)) \/ (r = eqnum r1 i1 (p_n1 q) /\ (r = R1 <-> q = p)))).
  { intros r (q & A & B & [C|C]); exists q; (split; [exact A|]); (split; [exact B|]); [left|right]; (split; [exact C|]); split; intros E.
    - subst r. unfold R0 in E. apply eqnum_inj in E. clear - ND0 A Hin E. induction pairs as [|z t IH]; [destruct A|]. cbn [map] in ND0. inversion ND0 as [|? ? Z NDt]; subst.
      destruct A as [->|A], Hin as [->|Hin]; auto; exfalso; apply Z; [rewrite E|rewrite <- E]; apply in_map; assumption.
    - subst q. exact C.
    - subst r. unfold R1 in E. apply eqnum_inj in E. clear - ND1 A Hin E. induction pairs as [|z t IH]; [destruct A|]. cbn [map] in ND1. inversion ND1 as [|? ? Z NDt]; subst.
      destruct A as [->|A], Hin as [->|Hin]; auto; exfalso; apply Z; [rewrite E|rewrite <- E]; apply in_map; assumption.
    - subst q. exact C. }
  assert (P0 : forall q, In q pairs -> act q = true -> decision ps (eqnum r0 i0 (p_n0 q)) = None).
  { intros q Hq _. apply decision_none. intros k' e' Hi E. rewrite Eps in Hi. destruct ty; try destruct Hi;
    apply in_map_iff in Hi; destruct Hi as (q' & E' & Hq'); apply filter_In in Hq'; injection E' as E' _; apply (Hne q q' Hq (proj1 Hq')); unfold row1 in E'; congruence. }
  unfold held, InterfaceProperties.held. fold dest.
  destruct ty.
  - assert (P1 : forall q, In q pairs -> act q = true -> decision ps (eqnum r1 i1 (p_n1 q)) = Some (Some (eqnum r0 i0 (p_n0 q)), false)).
    { intros q Hq Hq'. rewrite Eps. exact (decision_pick (row1 r1 i1) (row0 r0 i0) false _ q NDs (proj2 (filter_In _ _ _) (conj Hq Hq'))). }
    assert (D0 : forall q, In q pairs -> act q = true -> dest (eqnum r0 i0 (p_n0 q)) = [eqnum r0 i0 (p_n0 q)]) by (intros q Hq Hq'; rewrite (Rin _ (IR0 q Hq Hq')); unfold destinations; rewrite (P0 q Hq Hq'); reflexivity).
    assert (D1 : forall q, In q pairs -> act q = true -> dest (eqnum r1 i1 (p_n1 q)) = [eqnum r0 i0 (p_n0 q)]) by (intros q Hq Hq'; rewrite (Rin _ (IR1 q Hq Hq')); unfold destinations; rewrite (P1 q Hq Hq'); reflexivity).
    rewrite !Er. cbn [interface_residual]. rewrite Gm. split.
    + rewrite (Other10 (fun k q => val st model k)). rewrite (Mv R0 1%R 1%R); [lra|]. intros r. destruct (Cases r) as [I|N].
      * destruct (Iq r I) as (q & Hq & Aq & [(E & Q)|(E & Q)]); subst r.
        -- rewrite (D0 q Hq Aq). unfold count, ind. cbn [rsum]. destruct (Nat.eqb_spec (eqnum r0 i0 (p_n0 q)) R0); destruct (Nat.eqb_spec (eqnum r0 i0 (p_n0 q)) R1) as [E1|]; try lra; exfalso; exact (Hne q p Hq Hin E1).
        -- rewrite (D1 q Hq Aq). unfold count, ind. cbn [rsum].
           destruct (Nat.eqb_spec (eqnum r1 i1 (p_n1 q)) R0) as [E0|]; [exfalso; apply (Hne p q Hin Hq); symmetry; exact E0|].
           destruct (Nat.eqb_spec (eqnum r1 i1 (p_n1 q)) R1) as [E1|E1].
           ++ apply Q in E1. subst q. fold R0. rewrite Nat.eqb_refl. lra.
           ++ destruct (Nat.eqb_spec (eqnum r0 i0 (p_n0 q)) R0) as [E0|]; [|lra]. exfalso. apply E1. apply Q.
              destruct (Iq _ (IR0 q Hq Aq)) as (q' & Hq' & Aq' & [(E & Q')|(E & _)]); [|exfalso; exact (Hne q q' Hq Hq' E)].
              assert (q' = p) by (apply Q'; exact E0). subst q'. apply eqnum_inj in E. clear - ND0 Hq Hin E.
              induction pairs as [|z t IH]; [destruct Hq|]. cbn [map] in ND0. inversion ND0 as [|? ? Z NDt]; subst.
              destruct Hq as [->|A], Hin as [->|Hin]; auto; exfalso; apply Z; [rewrite E|rewrite <- E]; apply in_map; assumption.
      * rewrite (Cout r R0 (IR0 p Hin Hact) N). unfold ind. destruct (Nat.eqb_spec r R0) as [->|]; [exfalso; apply N; exact (IR0 p Hin Hact)|]. destruct (Nat.eqb_spec r R1) as [->|]; [exfalso; apply N; exact (IR1 p Hin Hact)|]. lra.
    + rewrite (Own1 (fun k q => val st model k)). rewrite (Mv R1 0%R 0%R); [unfold M; lra|]. intros r. unfold ind. rewrite !Tauto.if_same, Rplus_0_r. destruct (Cases r) as [I|N].
      * destruct (Iq r I) as (q & Hq & Aq & [(E & Q)|(E & Q)]); subst r; [rewrite (D0 q Hq Aq)|rewrite (D1 q Hq Aq)]; unfold count, ind; cbn [rsum];
        (destruct (Nat.eqb_spec (eqnum r0 i0 (p_n0 q)) R1) as [E1|]; [exfalso; exact (Hne q p Hq Hin E1)|lra]).
      * exact (Cout r R1 (IR1 p Hin Hact) N).
  - rewrite !Er. cbn [interface_residual]. rewrite Gm, !Over_plus.
    assert (D : forall r, interface_row_of r0 r1 act pairs i0 i1 r -> dest r = [r]) by (intros r Hr; rewrite (Rin r Hr); unfold destinations; rewrite Eps; reflexivity).
    assert (Id : forall R, interface_row_of r0 r1 act pairs i0 i1 R -> moved_row dest v R = row_sum v R).
    { intros R HR. unfold moved_row, row_sum. apply rsum_ext. intros [r x] _. cbn [fst snd]. destruct (Cases r) as [I|N].
      - rewrite (D r I). unfold count, ind. cbn [rsum]. destruct (r =? R); lra.
      - rewrite (Cout r R HR N). unfold ind. destruct (Nat.eqb_spec r R) as [->|]; [contradiction|lra]. }
    rewrite (Id R0 (IR0 p Hin Hact)), (Id R1 (IR1 p Hin Hact)). fold F0 F1. split.
    + rewrite (Own0 (fun k q => (val st model k * val (rg_node r0) surface (p_n0 q))%R)), Other10. fold M s0. lra.
    + rewrite Other01, (Own1 (fun k q => (- (val st model k * val (rg_node r1) surface (p_n1 q)))%R)). fold M s1. lra.
  - assert (P1 : forall q, In q pairs -> act q = true -> decision ps (eqnum r1 i1 (p_n1 q)) = Some (Some (eqnum r0 i0 (p_n0 q)), true)).
    { intros q Hq Hq'. rewrite Eps. exact (decision_pick (row1 r1 i1) (row0 r0 i0) true _ q NDs (proj2 (filter_In _ _ _) (conj Hq Hq'))). }
    assert (D0 : forall q, In q pairs -> act q = true -> dest (eqnum r0 i0 (p_n0 q)) = [eqnum r0 i0 (p_n0 q)]) by (intros q Hq Hq'; rewrite (Rin _ (IR0 q Hq Hq')); unfold destinations; rewrite (P0 q Hq Hq'); reflexivity).
    assert (D1 : forall q, In q pairs -> act q = true -> dest (eqnum r1 i1 (p_n1 q)) = [eqnum r0 i0 (p_n0 q); eqnum r1 i1 (p_n1 q)]) by (intros q Hq Hq'; rewrite (Rin _ (IR1 q Hq Hq')); unfold destinations; rewrite (P1 q Hq Hq'); reflexivity).
    rewrite !Er. cbn [interface_residual]. rewrite Gm. split.
    + rewrite Other10. rewrite (Mv R0 1%R 1%R); [lra|]. intros r. destruct (Cases r) as [I|N].
      * destruct (Iq r I) as (q & Hq & Aq & [(E & Q)|(E & Q)]); subst r.
        -- rewrite (D0 q Hq Aq). unfold count, ind. cbn [rsum]. destruct (Nat.eqb_spec (eqnum r0 i0 (p_n0 q)) R0); destruct (Nat.eqb_spec (eqnum r0 i0 (p_n0 q)) R1) as [E1|]; try lra; exfalso; exact (Hne q p Hq Hin E1).
        -- rewrite (D1 q Hq Aq). unfold count, ind. cbn [rsum].
           destruct (Nat.eqb_spec (eqnum r1 i1 (p_n1 q)) R0) as [E0|]; [exfalso; apply (Hne p q Hin Hq); symmetry; exact E0|].
           destruct (Nat.eqb_spec (eqnum r1 i1 (p_n1 q)) R1) as [E1|E1].
           ++ apply Q in E1. subst q. fold R0. rewrite Nat.eqb_refl. lra.
           ++ destruct (Nat.eqb_spec (eqnum r0 i0 (p_n0 q)) R0) as [E0|]; [|lra]. exfalso. apply E1. apply Q.
              destruct (Iq _ (IR0 q Hq Aq)) as (q' & Hq' & Aq' & [(E & Q')|(E & _)]); [|exfalso; exact (Hne q q' Hq Hq' E)].
              assert (q' = p) by (apply Q'; exact E0). subst q'. apply eqnum_inj in E. clear - ND0 Hq Hin E.
              induction pairs as [|z t IH]; [destruct Hq|]. cbn [map] in ND0. inversion ND0 as [|? ? Z NDt]; subst.
              destruct Hq as [->|A], Hin as [->|Hin]; auto; exfalso; apply Z; [rewrite E|rewrite <- E]; apply in_map; assumption.
      * rewrite (Cout r R0 (IR0 p Hin Hact) N). unfold ind. destruct (Nat.eqb_spec r R0) as [->|]; [exfalso; apply N; exact (IR0 p Hin Hact)|]. destruct (Nat.eqb_spec r R1) as [->|]; [exfalso; apply N; exact (IR1 p Hin Hact)|]. lra.
    + rewrite (Own1 (fun k q => (- (val st model k * val (rg_node r1) surface (p_n1 q)))%R)). rewrite (Mv R1 0%R 1%R); [fold M s1; lra|]. intros r. destruct (Cases r) as [I|N].
      * destruct (Iq r I) as (q & Hq & Aq & [(E & Q)|(E & Q)]); subst r; [rewrite (D0 q Hq Aq)|rewrite (D1 q Hq Aq)]; unfold count, ind; cbn [rsum];
        (destruct (Nat.eqb_spec (eqnum r0 i0 (p_n0 q)) R1) as [E1|]; [exfalso; exact (Hne q p Hq Hin E1)|]).
        -- destruct (_ =? R0); lra.
        -- destruct (Nat.eqb_spec (eqnum r1 i1 (p_n1 q)) R0) as [E0|]; [exfalso; apply (Hne p q Hin Hq); symmetry; exact E0|]. lra.
      * rewrite (Cout r R1 (IR1 p Hin Hact) N). unfold ind. destruct (Nat.eqb_spec r R0) as [->|]; [exfalso; apply N; exact (IR0 p Hin Hact)|]. destruct (Nat.eqb_spec r R1) as [->|]; [exfalso; apply N; exact (IR1 p Hin Hact)|]. lra.
Qed.
Print Assumptions C47_balance.

(* conservation: an interface flux leaves one side and enters the other; for continuous
   and hybrid equations the balances of both sides are added in the row of region 0 *)
Corollary C47_conservation : forall r0 r1 st surface name0 name1 model act pairs i0 i1 ty m vi v a ps b,
  row_index r0 name0 = Some i0 -> row_index r1 name1 = Some i1 -> model <> ""%string ->
  NoDup (map p_n0 pairs) -> NoDup (map p_n1 pairs) ->
  (forall p q, In p pairs -> In q pairs -> eqnum r0 i0 (p_n0 p) <> eqnum r1 i1 (p_n1 q)) ->
  clean r0 r1 act pairs i0 i1 a -> clean r0 r1 act pairs i0 i1 b ->
  interface_perms r0 r1 st surface name0 name1 model act pairs ty DC = OK ps ->
  interface_assemble rF r0 r1 st surface name0 name1 model act pairs ty DC = OK (m, vi) ->
  forall k p, In (k, p) (numbered 0 pairs) -> act p = true ->
  val (rg_node r0) surface (p_n0 p) = val (rg_node r1) surface (p_n1 p) ->
  (* in a solution *)
  held vi v a ps b (eqnum r0 i0 (p_n0 p)) = 0%R -> held vi v a ps b (eqnum r1 i1 (p_n1 p)) = 0%R ->
  (row_sum v (eqnum r0 i0 (p_n0 p)) + row_sum v (eqnum r1 i1 (p_n1 p)))%R = 0%R /\
  match ty with
  | CONTINUOUS => val st model k = 0%R
  | FLUXTERM | HYBRID => row_sum v (eqnum r1 i1 (p_n1 p)) = (val st model k * val (rg_node r1) surface (p_n1 p))%R
  end.
Proof.
  intros r0 r1 st surface name0 name1 model act pairs i0 i1 ty m vi v a ps b H0 H1 Hm ND0 ND1 Hne Ca Cb Hps Ha k p Hk Hact Es Z0 Z1.
  pose proof (C47_balance r0 r1 st surface name0 name1 model act pairs i0 i1 ty m vi v a ps b H0 H1 Hm ND0 ND1 Hne Ca Cb Hps Ha k p Hk Hact) as B. cbv zeta in B.
  rewrite Z0, Z1 in B. destruct ty; destruct B as (B0 & B1); rewrite ?Es in *; split; lra.
Qed.
Print Assumptions C47_conservation.

(* ---- matrix ------------------------------------------------------------------------------- *)
(* the entries of an interface equation are the derivatives of its contributions *)
Theorem C47_jacobian : forall f0 f1 ist surface name0 name1 model act pairs i0 i1,
  equation_index (f_table f0) name0 = Some i0 -> equation_index (f_table f1) name1 = Some i1 ->
  unique_columns f0 -> unique_columns f1 -> separate f0 f1 ->
  (forall p, In p pairs -> p_n0 p < m_nodes (f_mesh f0) /\ p_n1 p < m_nodes (f_mesh f1)) ->
  interface_exact f0 f1 ist pairs model -> fixed (f_node f0) surface -> fixed (f_node f1) surface ->
  forall ty t x m v, interface_assemble rF (reg f0 x) (reg f1 x) (at_state ist x) surface name0 name1 model act pairs ty t = OK (m, v) ->
  forall row c, derivable_pt_lim
    (fun u => interface_residual (reg f0 (upd x c u)) (reg f1 (upd x c u)) (at_state ist (upd x c u)) surface model act pairs i0 i1 ty t row) (x c) (entry m row c).
Proof.
  intros f0 f1 ist surface name0 name1 model act pairs i0 i1 H0 H1 U0 U1 Sp Hp HX F0 F1.
  exact (interface_jacobian f0 f1 ist surface name0 name1 model act pairs i0 i1 H0 H1 U0 U1 Sp Hp HX F0 F1).
Qed.
Print Assumptions C47_jacobian.

(* two regions of two nodes; node 1 of the first and node 0 of the second coincide; the
   interface model is the difference of the two potentials *)
Definition side (base : nat) : family := mkFam jm base (fst (run 0 empty jcs)) ex_geom
  (fun s => if String.eqb s "SurfaceArea" then Some (fun _ _ => 3%R) else None) (fun _ => None) (fun _ => None).
Definition jump : sstore := fun s => if String.eqb s "g" then Some (fun x _ => (x 1%nat - x 2%nat)%R)
  else if String.eqb s "g:u@r0" then Some (fun _ _ => 1%R) else if String.eqb s "g:u@r1" then Some (fun _ _ => (-1)%R) else None.
Lemma side_col : forall base c var j, is_col (side base) c var j <-> var = "u"%string /\ c = base + j /\ j < 2.
Proof.
  intros base c var j. unfold is_col. split.
  - intros (Hv & Hj & idx & Hc & E). cbn in Hv, Hj. destruct Hv as [<-|[]]. vm_compute in Hc. injection Hc as <-. unfold fnum in E. cbn in E. split; [reflexivity|]. lia.
  - intros (-> & -> & Hj). split; [cbn; auto|]. split; [exact Hj|]. exists 0. split; [reflexivity|]. unfold fnum. cbn. lia.
Qed.
Example C47_exact : forall x ty, let pairs := [mkPair 5 1 5 0] in
  interface_exact (side 0) (side 2) jump pairs "g" /\ separate (side 0) (side 2) /\ unique_columns (side 0) /\ unique_columns (side 2) /\
  fixed (f_node (side 0)) "SurfaceArea" /\ exists m v, interface_assemble rF (reg (side 0) x) (reg (side 2) x) (at_state jump x) "SurfaceArea" "e" "e" "g" (fun _ => true) pairs ty DC = OK (m, v) /\
  exists ps, interface_perms (reg (side 0) x) (reg (side 2) x) (at_state jump x) "SurfaceArea" "e" "e" "g" (fun _ => true) pairs ty DC = OK ps.
Proof.
  intros x ty pairs. split; [|split; [|split; [|split; [|split]]]].
  - intros g Hg y k p Hi c. vm_compute in Hg. injection Hg as <-. destruct Hi as [Hi|[]]. injection Hi as <- <-. cbn [p_n0 p_n1].
    assert (D : derivable_pt_lim (fun t => (upd y c t 1%nat - upd y c t 2%nat)%R) (y c) ((if 1 =? c then 1 else 0) - (if 2 =? c then 1 else 0))%R).
    { apply (derivable_pt_lim_minus (fun t => upd y c t 1%nat) (fun t => upd y c t 2%nat)); apply d_upd. }
    split; [|split].
    + intros var j H. apply side_col in H. destruct H as (-> & -> & Hj). unfold dval. cbn. destruct j as [|[|j]]; [| |lia]; cbn in *; match goal with |- derivable_pt_lim _ _ ?l => match type of D with derivable_pt_lim _ _ ?l' => replace l with l' by lra end end; exact D.
    + intros var j H. apply side_col in H. destruct H as (-> & -> & Hj). unfold dval. cbn. destruct j as [|[|j]]; [| |lia]; cbn in *; match goal with |- derivable_pt_lim _ _ ?l => match type of D with derivable_pt_lim _ _ ?l' => replace l with l' by lra end end; exact D.
    + intros N. assert (N1 : c <> 1) by (intros ->; apply (proj1 (N "u"%string 1)); apply side_col; repeat split; lia).
      assert (N2 : c <> 2) by (intros ->; apply (proj2 (N "u"%string 0)); apply side_col; repeat split; lia).
      destruct (Nat.eqb_spec 1 c); [lia|]. destruct (Nat.eqb_spec 2 c); [lia|]. replace 0%R with (0 - 0)%R by lra. exact D.
  - intros c v j v' j' H H'. apply side_col in H. apply side_col in H'. lia.
  - split; [cbn; constructor; [intros []|constructor]|]. intros var var' idx Hv Hv' _ _. cbn in Hv, Hv'. destruct Hv as [<-|[]]. destruct Hv' as [<-|[]]. reflexivity.
  - split; [cbn; constructor; [intros []|constructor]|]. intros var var' idx Hv Hv' _ _. cbn in Hv, Hv'. destruct Hv as [<-|[]]. destruct Hv' as [<-|[]]. reflexivity.
  - intros g Hg. vm_compute in Hg. injection Hg as <-. reflexivity.
  - destruct ty; eexists; eexists; (split; [cbv -[INR Rmult Ropp IZR Rplus Rminus]; reflexivity|]); eexists; cbv -[INR Rmult Ropp IZR Rplus Rminus]; reflexivity.
Qed.
Example C47_three : let e := mkIEq "c" "e" "e" "g" CONTINUOUS in let i := mkIface "i" "a" "b" [mkPair 5 0 5 0; mkPair 6 1 6 1; mkPair 7 2 7 2] [e] in
  let j := mkIface "j" "b" "c" [mkPair 7 2 7 0] [e] in
  map (active_pair [mkContact "k" "a" [5] ["e"%string]] [i; j] i e) (i_pairs i) = [false; true; false].
Proof. reflexivity. Qed.
