(* Proofs: a validated one dimensional mesh gives a valid device *)
From Coq Require Import String List Bool Arith ZArith Lia Reals Lra Sorting.Sorted Sorting.Permutation.
From Verif Require Import StrMap MeshLine MeshLineProofs MeshLineSpec.
Import ListNotations.
Open Scope nat_scope.

(* c to e *)
Inductive linked : nat -> list span -> nat -> Prop :=
| linked_nil : forall c, linked c [] c
| linked_cons : forall a t e, i0 a < i1 a -> linked (i1 a) t e -> linked (i0 a) (a :: t) e.
Lemma cover_linked : forall e ifs l c c', cover e ifs c l = Ok c' -> linked c l c' /\ Forall (fun s => i1 s = e \/ In (i1 s) ifs) l.
Proof.
  intros e ifs. induction l as [|a t IH]; intros c c' H; cbn [cover] in H. { injection H as <-. split; constructor. }
  destruct (negb (Nat.ltb (i0 a) (i1 a))) eqn:E1; [discriminate|]. destruct (negb (Nat.eqb c (i0 a))) eqn:E2; [discriminate|].
  destruct (negb (Nat.eqb (i1 a) e) && negb (existsb (Nat.eqb (i1 a)) ifs)) eqn:E3; [discriminate|].
  apply negb_false_iff in E1, E2. apply Nat.ltb_lt in E1. apply Nat.eqb_eq in E2. subst c. destruct (IH _ _ H) as [A B]. split; [constructor; assumption|].
  constructor; [|exact B]. apply andb_false_iff in E3. destruct E3 as [E3|E3]; apply negb_false_iff in E3.
  - left. now apply Nat.eqb_eq in E3.
  - right. apply existsb_exists in E3. destruct E3 as (x & Hx & Ex). apply Nat.eqb_eq in Ex. now subst.
Qed.
Lemma linked_le : forall c l e, linked c l e -> c <= e.
Proof. intros c l e H. induction H; lia. Qed.
Lemma linked_lt : forall c l e, linked c l e -> l <> [] -> c < e.
Proof. intros c l e H N. destruct H; [congruence|]. apply linked_le in H0. lia. Qed.
Definition cells_of (r : dregion) : list (nat * nat) := map (fun e => (nth (fst e) (d_nodes r) 0, nth (snd e) (d_nodes r) 0)) (d_edges r).
Lemma mk_dregion_interval : forall s, i0 s < i1 s ->
  d_nodes (mk_dregion s) = seq (i0 s) (S (i1 s - i0 s)) /\ d_edges (mk_dregion s) = map (fun j => (j, S j)) (seq 0 (i1 s - i0 s)).
Proof.
  intros s H. unfold mk_dregion. cbn [d_nodes d_edges]. split; [f_equal; lia|]. rewrite <- seq_shift, map_map. apply map_ext.
  intros j. cbn. now rewrite Nat.sub_0_r.
Qed.
Lemma shift_cells : forall n i, map (fun j => (i + j, S (i + j))) (seq 0 n) = map (fun k => (k, S k)) (seq i n).
Proof.
  induction n as [|n IH]; intros i; [reflexivity|]. cbn [seq map]. f_equal; [f_equal; lia|].
  rewrite <- (IH (S i)). rewrite <- seq_shift, map_map. apply map_ext. intros j. f_equal; lia.
Qed.
Lemma cells_span : forall s, i0 s < i1 s -> cells_of (mk_dregion s) = map (fun k => (k, S k)) (seq (i0 s) (i1 s - i0 s)).
Proof.
  intros s H. unfold cells_of. destruct (mk_dregion_interval s H) as [-> ->]. rewrite map_map.
  transitivity (map (fun j => (i0 s + j, S (i0 s + j))) (seq 0 (i1 s - i0 s))).
  - apply map_ext_in. intros j Hj. apply in_seq in Hj. cbn [fst snd]. rewrite !seq_nth by lia. f_equal. lia.
  - apply shift_cells.
Qed.
Lemma linked_cells : forall c l e, linked c l e -> flat_map cells_of (map mk_dregion l) = map (fun k => (k, S k)) (seq c (e - c)).
Proof.
  intros c l e H. induction H as [c|a t e H K IH]. { now rewrite Nat.sub_diag. }
  cbn [map flat_map]. rewrite IH, (cells_span a H), <- map_app. f_equal. pose proof (linked_le _ _ _ K).
  replace (e - i0 a) with ((i1 a - i0 a) + (e - i1 a)) by lia. rewrite seq_app. do 2 f_equal. lia.
Qed.
Lemma linked_in : forall c l e s, linked c l e -> In s l -> i0 s < i1 s.
Proof. intros c l e s H. induction H as [c|a t e H K IH]; intros []; [subst; exact H|auto]. Qed.
Lemma linked_first : forall c a t e, linked c (a :: t) e -> i0 a = c /\ i0 a < i1 a /\ linked (i1 a) t e.
Proof. intros c a t e H. inversion H; subst. auto. Qed.
Lemma linked_last : forall c l e, linked c l e -> l <> [] -> exists t s, l = (t ++ [s])%list /\ i1 s = e /\ i0 s < i1 s.
Proof.
  intros c l e H. induction H as [c|a t e H K IH]; intros N; [congruence|]. destruct t as [|b t].
  - inversion K; subst. exists [], a. auto.
  - destruct IH as (t' & s & -> & E & F); [discriminate|]. exists (a :: t'), s. auto.
Qed.

(* contacts, interfaces *)
Lemma set_interfaces_facts : forall t l names used ps, set_interfaces t names used l = Ok ps ->
  Forall2 (fun a p => find (ntag a) t = Some p) l ps /\ NoDup ps /\ (forall p, In p ps -> ~ In p used).
Proof.
  intros t. induction l as [|a l IH]; intros names used ps H; cbn [set_interfaces] in H. { injection H as <-. split; [constructor|]. split; [constructor|]. intros p []. }
  destruct (existsb (String.eqb (nname a)) names); [discriminate|]. destruct (find (ntag a) t) as [p|] eqn:F; [|discriminate].
  destruct (existsb (Nat.eqb p) used) eqn:U; [discriminate|]. apply rbind_Ok in H. destruct H as (ps' & E & H). injection H as <-.
  destruct (IH _ _ _ E) as (A & B & C). split; [constructor; assumption|]. split.
  - constructor; [|exact B]. intros I. apply (C p I). now left.
  - intros q [<-|I] J; [|now apply (C q I); right]. apply not_true_iff_false in U. apply U. apply existsb_exists. exists p. split; [exact J|apply Nat.eqb_refl].
Qed.
Lemma find_interface_in : forall p l a, find_interface p l = Some a -> In (a, p) l.
Proof.
  intros p. induction l as [|[b q] l IH]; intros a H; cbn [find_interface] in H; [discriminate|]. destruct (Nat.eqb_spec p q) as [->|N].
  - injection H as ->. now left. - right. auto.
Qed.
Lemma find_interface_some : forall p l a, In (a, p) l -> NoDup (map snd l) -> find_interface p l = Some a.
Proof.
  intros p. induction l as [|[b q] l IH]; intros a H N; [destruct H|]. cbn [find_interface map snd] in *. inversion N as [|? ? Ni N']; subst.
  destruct H as [[= -> ->]|H]; [now rewrite Nat.eqb_refl|]. destruct (Nat.eqb_spec p q) as [->|Nq]; [|auto].
  exfalso. apply Ni. change q with (snd (a, q)). now apply in_map.
Qed.
Lemma combine_facts : forall A B (P : A -> B -> Prop) l ps, Forall2 P l ps -> forall a p, In (a, p) (combine l ps) -> P a p /\ In a l.
Proof.
  intros A B P l ps H. induction H as [|x y l ps Hx H IH]; intros a p; [intros []|]. cbn [combine]. intros [[= -> ->]|I]; [split; [exact Hx|now left]|].
  destruct (IH a p I). split; [assumption|now right].
Qed.
Lemma combine_all : forall A B (P : A -> B -> Prop) l ps, Forall2 P l ps -> forall a, In a l -> exists p, In (a, p) (combine l ps) /\ In p ps.
Proof.
  intros A B P l ps H. induction H as [|x y l ps Hx H IH]; intros a; [intros []|]. cbn [combine]. intros [->|I]; [exists y; split; now left|].
  destruct (IH a I) as (p & A1 & A2). exists p. split; now right.
Qed.
Lemma combine_snd : forall A B (P : A -> B -> Prop) l ps, Forall2 P l ps -> map snd (combine l ps) = ps.
Proof. intros A B P l ps H. induction H; [reflexivity|]. cbn [combine map snd]. now rewrite IHForall2. Qed.
Lemma combine_index : forall A B (P : A -> B -> Prop) l ps, Forall2 P l ps -> forall p, In p ps -> exists a, In (a, p) (combine l ps).
Proof.
  intros A B P l ps H. induction H as [|x y l ps Hx H IH]; intros p; [intros []|]. cbn [combine]. intros [->|I]; [exists x; now left|].
  destruct (IH p I) as (a & A1). exists a. now right.
Qed.

(* the junctions *)
Definition span_at (l : list span) (k : nat) (s : span) : Prop := nth_error l k = Some s.
Lemma linked_junction : forall l c e k s s', linked c l e -> nth_error l k = Some s -> nth_error l (S k) = Some s' -> i1 s = i0 s' /\ i1 s < e.
Proof.
  induction l as [|a t IH]; intros c e k s s' H A B; [destruct k; discriminate|]. destruct (linked_first _ _ _ _ H) as (_ & L & K).
  destruct k as [|k]; cbn [nth_error] in *.
  - injection A as ->. destruct t as [|b t]; [discriminate|]. cbn in B. injection B as ->. destruct (linked_first _ _ _ _ K) as (Q & L' & K').
    split; [now symmetry|]. apply linked_le in K'. lia.
  - eapply IH; eassumption.
Qed.
Lemma linked_start : forall l c e s, linked c l e -> In s l -> i0 s <> c -> exists k s', nth_error l k = Some s' /\ nth_error l (S k) = Some s.
Proof.
  intros l c e s H. induction H as [c|a t e H K IH]; intros I N; [destruct I|]. destruct I as [->|I]; [congruence|].
  destruct t as [|b t]; [destruct I|]. destruct (linked_first _ _ _ _ K) as (Q & _). destruct I as [->|I]; [exists 0, a; split; reflexivity|].
  destruct (Nat.eq_dec (i0 s) (i1 a)) as [E|E].
  - (* impossible *) exfalso. assert (X : forall c l e, linked c l e -> In s l -> c <= i0 s) by (clear; intros c l e H; induction H as [c|a t e H K IH]; intros []; [subst; lia|apply IH in H0; lia]).
    destruct (linked_first _ _ _ _ K) as (_ & L & K2). specialize (X _ _ _ K2 I). lia.
  - destruct (IH (or_intror I) E) as (k & s' & A & B). exists (S k), s'. split; assumption.
Qed.
Lemma mk_interfaces_facts : forall ifs l i, (forall k s s', nth_error l k = Some s -> nth_error l (S k) = Some s' -> exists a, In (a, i1 s) ifs) -> NoDup (map snd ifs) ->
  exists ds, mk_interfaces ifs i l = Ok ds /\ length ds = length l - 1 /\
    (forall k s s', nth_error l k = Some s -> nth_error l (S k) = Some s' ->
       exists a, In (a, i1 s) ifs /\ nth_error ds k = Some (mkdinterface (nname a) (i + k) (S (i + k)) (i1 s - i0 s) 0)).
Proof.
  intros ifs l. induction l as [|a t IH]; intros i H N.
  - exists []. split; [reflexivity|]. split; [reflexivity|]. intros [|k]; discriminate.
  - destruct t as [|b t].
    + exists []. split; [reflexivity|]. split; [reflexivity|]. intros [|k] s s' A B; cbn in B; [discriminate|]. destruct k; discriminate.
    + cbn [mk_interfaces]. destruct (H 0 a b eq_refl eq_refl) as (n & Hn). rewrite (find_interface_some _ _ _ Hn N).
      destruct (IH (S i)) as (ds & E & L & F); [intros k s s' A B; exact (H (S k) s s' A B)|exact N|].
      cbn [mk_interfaces] in E. rewrite E. cbn [rbind]. eexists. split; [reflexivity|]. split; [cbn [length] in *; lia|].
      intros [|k] s s' A B.
      * cbn in A, B. injection A as <-. exists n. split; [exact Hn|]. cbn [nth_error]. now rewrite Nat.add_0_r.
      * destruct (F k s s' A B) as (x & X1 & X2). exists x. split; [exact X1|]. cbn [nth_error]. rewrite X2. do 2 f_equal; lia.
Qed.

Lemma rmap_F2 : forall A B (f : A -> res B) l ys, rmap f l = Ok ys -> Forall2 (fun x y => f x = Ok y) l ys.
Proof.
  intros A B f. induction l as [|a t IH]; intros ys H; cbn [rmap] in H; [injection H as <-; constructor|].
  apply rbind_Ok in H. destruct H as (b & E & H). apply rbind_Ok in H. destruct H as (bs & E2 & H). injection H as <-. constructor; auto.
Qed.
Lemma sortTags_facts : forall t r s, sortTags t r = Ok s -> sname s = rname r /\ i0 s < i1 s /\
  ((find (rtag0 r) t = Some (i0 s) /\ find (rtag1 r) t = Some (i1 s)) \/ (find (rtag1 r) t = Some (i0 s) /\ find (rtag0 r) t = Some (i1 s))).
Proof.
  intros t r s H. unfold sortTags in H. destruct (find (rtag0 r) t) as [a|]; [|discriminate]. destruct (find (rtag1 r) t) as [b|]; [|discriminate].
  destruct (Nat.eqb_spec a b) as [|N]; [discriminate|]. destruct (Nat.ltb_spec b a) as [L|L]; injection H as <-; cbn [sname i0 i1]; (split; [reflexivity|]); (split; [lia|]); auto.
Qed.
Lemma distinct_spec : forall l, distinct l = true <-> NoDup l.
Proof.
  induction l as [|a t IH]; cbn [distinct]; [split; [constructor|reflexivity]|]. rewrite andb_true_iff, IH, negb_true_iff, <- not_true_iff_false. split.
  - intros [A B]. constructor; [|exact B]. intros I. apply A. apply existsb_exists. exists a. split; [exact I|apply String.eqb_refl].
  - intros N. inversion N as [|? ? A B]; subst. split; [|exact B]. intros X. apply existsb_exists in X. destruct X as (x & I & E). apply String.eqb_eq in E. now subst.
Qed.

Lemma seq_last : forall n a, last (seq a (S n)) 0 = a + n.
Proof. induction n as [|n IH]; intros a; [cbn; lia|]. change (last (seq a (S (S n))) 0) with (last (seq (S a) (S n)) 0). rewrite IH. lia. Qed.
Lemma seq_nth_error : forall n a k, k < n -> nth_error (seq a n) k = Some (a + k).
Proof. intros n a k H. rewrite (nth_error_nth' _ 0) by (rewrite seq_length; exact H). now rewrite seq_nth. Qed.

Section F.
Variable sort_lines : list (@line R) -> list (@line R).
Variable sort_regions : list span -> list span.
Hypothesis lines_perm : forall l, Permutation (sort_lines l) l.
Hypothesis regions_perm : forall l, Permutation (sort_regions l) l.

Lemma finalize_valid : forall fuel m m', m_grid m = fresh -> Forall spaced (m_lines m) -> finalize rN sort_lines sort_regions fuel m = (Ok tt, m') ->
  Permutation (m_lines m') (m_lines m) /\ m_regions m' = m_regions m /\ m_contacts m' = m_contacts m /\ m_interfaces m' = m_interfaces m /\
  (NoDup (map rname (m_regions m)) -> NoDup (map nname (m_contacts m)) -> exists d, instantiate m' = Ok d) /\
  forall d, instantiate m' = Ok d -> dv_coords d = locs (m_grid m') /\ valid_device (m_lines m) (m_regions m) (m_contacts m) (m_interfaces m) d.
Proof.
  intros fuel m m' Hg Hs H. unfold finalize in H. destruct (m_final m); [discriminate|]. destruct (Nat.ltb (length (m_lines m)) 2); [discriminate|].
  rewrite Hg in H. destruct (set_locations rN fuel fresh (sort_lines (m_lines m))) as [g| | |] eqn:E1; try discriminate.
  destruct (rmap (sortTags (t2i g)) (m_regions m)) as [rs| | |] eqn:E2; try discriminate.
  destruct (sanity g (m_contacts m) (m_interfaces m) (sort_regions rs)) as [[cs ifs]| | |] eqn:E3; try discriminate.
  injection H as <-. cbn [m_lines m_regions m_contacts m_interfaces m_grid m_spans m_cidx m_iidx m_final].
  split; [apply lines_perm|]. do 3 (split; [reflexivity|]).
  assert (Hs' : Forall spaced (sort_lines (m_lines m))).
  { rewrite Forall_forall in *. intros x Hx. apply Hs. eapply Permutation_in; [apply lines_perm|exact Hx]. }
  destruct (set_locations_facts _ _ _ E1 Hs') as (D1 & _ & D3 & D4). destruct (distributed_increasing _ _ D1) as [D5 D6].
  assert (AT : forall s i, find s (t2i g) = Some i -> at_line (m_lines m) (locs g) s i /\ i < length (locs g)).
  { intros s i F. destruct (D3 s i F) as (b & B1 & B2 & _ & B3). split; [|apply nth_error_Some; congruence].
    exists b. split; [|split; assumption]. eapply Permutation_in; [apply lines_perm|exact B1]. }
  apply rmap_F2 in E2. set (sp := sort_regions rs) in *. assert (Psp : Permutation sp rs) by apply regions_perm. clearbody sp.
  unfold sanity in E3. destruct (m_contacts m) as [|c0 [|c1 [|]]] eqn:Ec; try discriminate.
  destruct (find (ntag c0) (t2i g)) as [p0|] eqn:F0; [|discriminate]. destruct (find (ntag c1) (t2i g)) as [p1|] eqn:F1; [|discriminate].
  destruct (Nat.eqb p0 p1) eqn:N01; [discriminate|]. set (n := length (locs g) - 1) in *.
  destruct (negb (Nat.eqb p0 0 && Nat.eqb p1 n || Nat.eqb p1 0 && Nat.eqb p0 n)) eqn:EE; [discriminate|].
  apply rbind_Ok in E3. destruct E3 as (ifs' & Ei & E3). apply rbind_Ok in E3. destruct E3 as (cpos & Ecv & E3).
  destruct (negb (Nat.eqb cpos n) && negb (match sp with [] => true | _ => false end)) eqn:Ed; [discriminate|].
  destruct (existsb (Nat.eqb 0) ifs' || existsb (Nat.eqb n) ifs') eqn:Ee; [discriminate|].
  destruct sp as [|s0 sps] eqn:Esp; [discriminate|]. rewrite <- ?Esp in *.
  destruct (forallb _ (seq 0 (length (locs g)))) eqn:Ef; [|discriminate]. injection E3 as <- <-. rename ifs' into ifs.
  assert (Nsp : sp <> []) by (rewrite Esp; discriminate).
  assert (Ecp : cpos = n). { try rewrite Esp in Ed. cbn [negb] in Ed. rewrite andb_true_r in Ed. apply negb_false_iff in Ed. now apply Nat.eqb_eq. }
  subst cpos. destruct (cover_linked _ _ _ _ _ Ecv) as [LK CV]. destruct (set_interfaces_facts _ _ _ _ _ Ei) as (I1 & I2 & _).
  apply orb_false_elim in Ee. destruct Ee as [Ee0 Een].
  assert (No : forall q ll, existsb (Nat.eqb q) ll = false -> ~ In q ll).
  { intros q ll X I. apply not_true_iff_false in X. apply X. apply existsb_exists. exists q. split; [exact I|apply Nat.eqb_refl]. }
  apply No in Ee0, Een. pose proof (linked_lt _ _ _ LK Nsp) as N0.
  apply negb_false_iff in EE.
  assert (CE : (p0 = 0 /\ p1 = n) \/ (p1 = 0 /\ p0 = n)).
  { apply orb_true_iff in EE. destruct EE as [EE|EE]; apply andb_true_iff in EE; destruct EE as [X Y]; apply Nat.eqb_eq in X, Y; auto. }
  set (L := combine (m_interfaces m) ifs).
  assert (NL : NoDup (map snd L)). { unfold L. rewrite (combine_snd _ _ _ _ _ I1). exact I2. }
  destruct (mk_interfaces_facts L sp 0) as (ds & X1 & X2 & X3); [|exact NL|].
  { intros k s s' A B. destruct (linked_junction _ _ _ _ _ _ LK A B) as [_ Lt]. rewrite Forall_forall in CV.
    destruct (CV s (nth_error_In _ _ A)) as [Q|Q]; [lia|]. exact (combine_index _ _ _ _ _ I1 _ Q). }
  assert (DN : forall s, In s sp -> exists x, In x (m_regions m) /\ sortTags (t2i g) x = Ok s).
  { intros s I. apply (Permutation_in _ Psp) in I. clear - I E2. induction E2 as [|x y l ys Hx E2 IH]; [destruct I|]. destruct I as [->|I].
    - exists x. split; [now left|exact Hx]. - destruct (IH I) as (z & A & B). exists z. split; [now right|exact B]. }
  assert (NM : Permutation (map sname sp) (map rname (m_regions m))).
  { apply Permutation_trans with (map sname rs); [now apply Permutation_map|]. clear - E2. induction E2 as [|x y l ys Hx E2 IH]; [constructor|].
    cbn [map]. destruct (sortTags_facts _ _ _ Hx) as (-> & _). now constructor. }
  unfold instantiate. cbn [m_final negb m_spans m_contacts m_interfaces m_iidx m_cidx m_grid]. rewrite ?Ec. fold L. rewrite X1. cbn [rbind].
  split.
  { intros A B. rewrite (proj2 (distinct_spec (map sname sp))). 2:{ apply (Permutation_NoDup (Permutation_sym NM)). exact A. }
    rewrite (proj2 (distinct_spec _) B). cbn [andb negb]. eexists. reflexivity. }
  intros d Hd. destruct (negb (distinct (map sname sp) && distinct (map nname [c0; c1]))); [discriminate|]. injection Hd as <-. cbn [dv_coords]. split; [reflexivity|].
  assert (GN : forall k s j, nth_error sp k = Some s -> j <= i1 s - i0 s -> forall cts is, node_of (mkdevice (locs g) (map mk_dregion sp) cts is) k j (i0 s + j)).
  { intros k s j A Hj cts is. exists (mk_dregion s). cbn [dv_regions]. split; [now apply map_nth_error|].
    destruct (mk_dregion_interval s (linked_in _ _ _ _ LK (nth_error_In _ _ A))) as [-> _]. apply seq_nth_error. lia. }
  destruct (linked_last _ _ _ LK Nsp) as (spt & sl & Esl & Isl & Lsl).
  assert (Esl' : nth_error sp (length sp - 1) = Some sl).
  { rewrite Esl, app_length. cbn [length]. replace (length spt + 1 - 1) with (length spt) by lia. rewrite nth_error_app2 by lia. now rewrite Nat.sub_diag. }
  assert (Es0 : nth_error sp 0 = Some s0) by (rewrite Esp; reflexivity).
  assert (Is0 : i0 s0 = 0) by (rewrite Esp in LK; apply linked_first in LK; tauto).
  assert (Rv : rev sp = sl :: rev spt) by (rewrite Esl, rev_app_distr; reflexivity).
  assert (CT : forall c p, p = 0 \/ p = n -> forall cts is, dc_name (mk_contact sp c p) = nname c /\
     node_of (mkdevice (locs g) (map mk_dregion sp) cts is) (dc_region (mk_contact sp c p)) (dc_node (mk_contact sp c p)) p).
  { intros c p Hp cts is. unfold mk_contact. destruct (Nat.eqb_spec p 0) as [->|Np].
    - cbn [dc_name dc_region dc_node]. split; [reflexivity|]. replace 0 with (i0 s0 + 0) at 3 by lia. apply GN; [exact Es0|lia].
    - destruct Hp as [Hp|Hp]; [congruence|]. subst p. rewrite Rv. cbn [dc_name dc_region dc_node]. split; [reflexivity|].
      replace n with (i0 sl + (i1 sl - i0 sl)) at 1 by lia. apply GN; [exact Esl'|lia]. }
  assert (P0 : p0 = 0 \/ p0 = n) by tauto. assert (P1 : p1 = 0 \/ p1 = n) by tauto.
  constructor; cbn [dv_coords dv_regions dv_contacts dv_interfaces].
  - exact D5.
  - fold cells_of. transitivity (flat_map cells_of (map mk_dregion sp)); [reflexivity|]. rewrite (linked_cells _ _ _ LK). now rewrite Nat.sub_0_r.
  - intros r I. apply in_map_iff in I. destruct I as (s & <- & I). pose proof (linked_in _ _ _ _ LK I) as Q. exists (i0 s), (i1 s - i0 s). split; [lia|]. now apply mk_dregion_interval.
  - rewrite map_map. exact NM.
  - intros r I. apply in_map_iff in I. destruct I as (s & <- & I). destruct (DN s I) as (x & Ix & Ex). exists x. split; [exact Ix|].
    destruct (sortTags_facts _ _ _ Ex) as (Nx & Lx & Tx). split; [now symmetry|]. cbn zeta. destruct (mk_dregion_interval s Lx) as [-> _].
    rewrite seq_last. cbn [seq hd]. replace (i0 s + (i1 s - i0 s)) with (i1 s) by lia.
    destruct Tx as [[A B]|[A B]]; [left|right]; split; now apply AT.
  - cbn [combine map fst snd]. repeat apply Forall2_cons; try apply Forall2_nil.
    + destruct (CT c0 p0 P0 (map (fun p => mk_contact sp (fst p) (snd p)) (combine [c0; c1] [p0; p1])) ds) as [A B]. split; [exact A|]. exists p0. split; [exact B|]. now apply AT.
    + destruct (CT c1 p1 P1 (map (fun p => mk_contact sp (fst p) (snd p)) (combine [c0; c1] [p0; p1])) ds) as [A B]. split; [exact A|]. exists p1. split; [exact B|]. now apply AT.
  - exists (mk_contact sp c0 p0), (mk_contact sp c1 p1). split; [reflexivity|]. fold n.
    destruct (CT c0 p0 P0 (map (fun p => mk_contact sp (fst p) (snd p)) (combine [c0; c1] [p0; p1])) ds) as [_ B0].
    destruct (CT c1 p1 P1 (map (fun p => mk_contact sp (fst p) (snd p)) (combine [c0; c1] [p0; p1])) ds) as [_ B1].
    destruct CE as [[Q0 Q1]|[Q1 Q0]]; [left|right]; split; first [rewrite <- Q0; exact B0|rewrite <- Q1; exact B1|rewrite <- Q0 at 3; exact B0|rewrite <- Q1 at 3; exact B1|idtac].
    all: try (rewrite Q0 in B0; rewrite Q1 in B1; try rewrite Q0; try rewrite Q1; assumption).
  - rewrite X2, map_length. reflexivity.
  - intros k j Hk. assert (Lk : k < length ds) by (apply nth_error_Some; congruence). rewrite X2 in Lk.
    destruct (nth_error sp k) as [s|] eqn:A; [|apply nth_error_None in A; lia]. destruct (nth_error sp (S k)) as [s'|] eqn:B; [|apply nth_error_None in B; lia].
    destruct (X3 k s s' A B) as (a & Ia & Ea). rewrite Hk in Ea. injection Ea as ->. cbn [di_r0 di_r1 di_n0 di_n1 di_name Nat.add].
    split; [reflexivity|]. split; [reflexivity|]. exists (i1 s), a. destruct (linked_junction _ _ _ _ _ _ LK A B) as [J1 J2].
    pose proof (linked_in _ _ _ _ LK (nth_error_In _ _ A)) as Q. destruct (combine_facts _ _ _ _ _ I1 _ _ Ia) as [Fa Ja].
    split. { replace (i1 s) with (i0 s + (i1 s - i0 s)) at 2 by lia. apply GN; [exact A|lia]. }
    split. { replace (i1 s) with (i0 s' + 0) by lia. apply GN; [exact B|lia]. }
    split; [exact Ja|]. split; [reflexivity|]. now apply AT.
  - intros a Ia. destruct (combine_all _ _ _ _ _ I1 a Ia) as (p & Ip & Jp). fold L in Ip.
    destruct (combine_facts _ _ _ _ _ I1 _ _ Ip) as [Fp _]. destruct (AT _ _ Fp) as [_ Lp]. rewrite forallb_forall in Ef.
    specialize (Ef p). rewrite in_seq in Ef. specialize (Ef (conj (Nat.le_0_l p) Lp)). apply orb_true_iff in Ef.
    assert (Ef' : existsb (fun r => Nat.eqb (i0 r) p) sp = true).
    { destruct Ef as [Ef|Ef]; [|exact Ef]. apply negb_true_iff in Ef. exfalso. exact (No _ _ Ef Jp). }
    apply existsb_exists in Ef'. destruct Ef' as (s' & Is & Es). apply Nat.eqb_eq in Es.
    assert (Np : i0 s' <> 0) by (rewrite Es; intros ->; contradiction).
    destruct (linked_start _ _ _ _ LK Is Np) as (k & s & A & B). destruct (linked_junction _ _ _ _ _ _ LK A B) as [J1 J2].
    destruct (X3 k s s' A B) as (b & Ib & Eb). exists (mkdinterface (nname b) (0 + k) (S (0 + k)) (i1 s - i0 s) 0). split; [now apply nth_error_In in Eb|].
    cbn [di_name]. assert (i1 s = p) by lia. subst p. pose proof (find_interface_some _ _ _ Ip NL) as G1. rewrite H in *. pose proof (find_interface_some _ _ _ Ib NL) as G2. congruence.
Qed.
End F.
