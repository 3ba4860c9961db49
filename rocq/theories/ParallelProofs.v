From Coq Require Import ZArith List Bool Lia FinFun.
From Coq Require Import ZifyBool ZifyNat.
From Verif Require Import Parallel.
Import ListNotations.
Open Scope Z_scope.

(* chunks b l e: consecutive nonempty chunks from b to e *)
Fixpoint tiles (b : Z) (l : list (Z * Z)) (e : Z) : Prop :=
  match l with
  | [] => b = e
  | (b', e') :: r => b' = b /\ b < e' /\ tiles e' r e
  end.

Lemma wrap_small x : 0 <= x < 2 ^ 64 -> wrap x = x.
Proof. intros H. apply Z.mod_small. exact H. Qed.

Lemma sched_tiles : forall fuel vlen step b e,
  1 <= vlen < 2 ^ 63 -> 0 <= step -> 2 * step <= vlen -> (step = 0 -> e = vlen) ->
  0 <= b -> b <= e <= vlen -> (b = e -> b = vlen) -> (Z.to_nat (vlen - b) < fuel)%nat ->
  exists l, sched fuel vlen step b e = Some l /\ tiles b l vlen.
Proof.
  induction fuel as [|fuel IH]; intros vlen step b e Hv Hs Hs2 H0 Hb Hbe Heq Hf; [lia|].
  cbn [sched]. destruct (Z.ltb_spec b e) as [Hlt|Hge].
  - cbv zeta. rewrite (wrap_small (e + step)) by lia.
    set (e2 := if wrap (vlen - 2) <? e + step then vlen else e + step).
    assert (He2 : e <= e2 <= vlen /\ (e = e2 -> e = vlen) /\ (step = 0 -> e2 = vlen)).
    { unfold e2. destruct (Z.eq_dec vlen 1) as [->|Hne].
      - assert (step = 0) by lia. assert (e = 1) by lia. destruct (wrap (1 - 2) <? e + step); lia.
      - rewrite wrap_small by lia. destruct (Z.ltb_spec (vlen - 2) (e + step)); lia. }
    destruct (IH vlen step e e2) as (l & E & T); try lia.
    rewrite E. exists ((b, e) :: l). split; [reflexivity|]. cbn. lia || (split; [reflexivity|split; [lia|exact T]]).
  - exists []. split; [reflexivity|]. cbn. lia.
Qed.

Lemma sched_mono : forall fuel fuel' vlen step b e l, (fuel <= fuel')%nat ->
  sched fuel vlen step b e = Some l -> sched fuel' vlen step b e = Some l.
Proof.
  induction fuel as [|fuel IH]; intros fuel' vlen step b e l Hf H; [discriminate|].
  destruct fuel' as [|fuel']; [lia|]. cbn [sched] in *.
  destruct (b <? e); [|exact H]. cbv zeta in *.
  match goal with |- context [sched fuel' ?a ?b ?c ?d] => destruct (sched fuel a b c d) as [l'|] eqn:E; [|discriminate];
    rewrite (IH fuel' a b c d l') by (lia || exact E) end. exact H.
Qed.

Lemma chunks_tiles threads vlen : 1 < threads -> 1 <= vlen < 2 ^ 63 ->
  exists l, (forall fuel, (S (Z.to_nat vlen) <= fuel)%nat -> chunks fuel threads vlen = Some l) /\ tiles 0 l vlen.
Proof.
  intros Ht Hv. unfold chunks. cbv zeta.
  assert (Hs : 0 <= vlen / threads) by (apply Z.div_pos; lia).
  assert (Hs2 : 2 * (vlen / threads) <= vlen).
  { pose proof (Z.mul_div_le vlen threads ltac:(lia)). nia. }
  destruct (sched_tiles (S (Z.to_nat vlen)) vlen (vlen / threads) 0
    (if vlen / threads =? 0 then vlen else vlen / threads)) as (l & E & T); try lia.
  - destruct (Z.eqb_spec (vlen / threads) 0); lia.
  - destruct (Z.eqb_spec (vlen / threads) 0); lia.
  - destruct (Z.eqb_spec (vlen / threads) 0); lia.
  - exists l. split; [|exact T]. intros fuel Hf. eapply sched_mono; [exact Hf|exact E].
Qed.

(* number of chunks *)
Lemma sched_count : forall fuel vlen step b e l k,
  1 <= step -> 2 <= vlen < 2 ^ 63 -> step <= vlen -> 0 <= b -> b <= e <= vlen -> 0 <= k ->
  vlen - 1 - e <= k * step -> 
  sched fuel vlen step b e = Some l -> Z.of_nat (length l) <= k + 1 + (if e <? vlen then 1 else 0).
Proof.
  induction fuel as [|fuel IH]; intros vlen step b e l k Hs Hv Hsv Hb Hbe Hk Hrem H; [discriminate|].
  cbn [sched] in H. destruct (Z.ltb_spec b e) as [Hlt|Hge].
  - cbv zeta in H. rewrite (wrap_small (e + step)), (wrap_small (vlen - 2)) in H by lia.
    destruct (Z.ltb_spec (vlen - 2) (e + step)) as [Hx|Hx].
    + destruct (sched fuel vlen step e vlen) as [l'|] eqn:E; [|discriminate].
      injection H as <-. cbn [length].
      assert (L : (length l' <= (if (e <? vlen)%Z then 1 else 0))%nat).
      { destruct fuel as [|fuel']; [discriminate|]. cbn [sched] in E.
        destruct (Z.ltb_spec e vlen).
        - cbv zeta in E. rewrite (wrap_small (vlen + step)), (wrap_small (vlen - 2)) in E by lia.
          destruct (Z.ltb_spec (vlen - 2) (vlen + step)); [|lia].
          destruct (sched fuel' vlen step vlen vlen) as [l''|] eqn:E2; [|discriminate].
          injection E as <-. destruct fuel'; [discriminate|]. cbn [sched] in E2.
          rewrite Z.ltb_irrefl in E2. injection E2 as <-. cbn. lia.
        - injection E as <-. cbn. lia. }
      destruct (Z.ltb_spec e vlen); lia.
    + destruct (sched fuel vlen step e (e + step)) as [l'|] eqn:E; [|discriminate].
      injection H as <-. cbn [length].
      assert (1 <= k) by nia.
      specialize (IH vlen step e (e + step) l' (k - 1)). 
      assert (Z.of_nat (length l') <= k - 1 + 1 + (if e + step <? vlen then 1 else 0)) by (apply IH; try lia; exact E).
      destruct (Z.ltb_spec (e + step) vlen), (Z.ltb_spec e vlen); lia.
  - injection H as <-. cbn [length]. destruct (e <? vlen); lia.
Qed.

(* the length of each chunk fits; total number is below twice the thread count *)
Lemma chunks_count fuel threads vlen l : 1 < threads -> 1 <= vlen < 2 ^ 63 ->
  chunks fuel threads vlen = Some l -> Z.of_nat (length l) < 2 * threads.
Proof.
  intros Ht Hv H. unfold chunks in H. cbv zeta in H.
  pose proof (Z.div_mod vlen threads ltac:(lia)) as DM.
  pose proof (Z.mod_pos_bound vlen threads ltac:(lia)) as MB.
  set (step := vlen / threads) in *. set (md := vlen mod threads) in *.
  assert (Hs0 : 0 <= step) by (apply Z.div_pos; lia).
  destruct (Z.eqb_spec step 0) as [E0|Hne].
  - rewrite E0 in H. destruct fuel as [|fuel]; [discriminate|]. cbn [sched] in H.
    destruct (Z.ltb_spec 0 vlen); [|lia]. cbv zeta in H.
    rewrite Z.add_0_r in H. rewrite (wrap_small vlen) in H by lia.
    assert (Hsame : (if wrap (vlen - 2) <? vlen then vlen else vlen) = vlen) by (destruct (_ <? _); reflexivity).
    rewrite Hsame in H. destruct (sched fuel vlen 0 vlen vlen) as [l'|] eqn:E; [|discriminate].
    injection H as <-. destruct fuel; [discriminate|]. cbn [sched] in E. rewrite Z.ltb_irrefl in E.
    injection E as <-. cbn [length]. lia.
  - assert (1 <= step) by lia.
    (* vlen - 1 - step <= k * step with k = 2*threads - 3 *)
    assert (vlen <= 2 * threads * step - 0) by nia.
    assert (step <= vlen) by nia. assert (2 <= vlen) by nia.
    assert (Hk : vlen - 1 - step <= (2 * threads - 3) * step).
    { assert (md <= threads - 1) by lia. nia. }
    pose proof (sched_count fuel vlen step 0 step l (2 * threads - 3) ltac:(lia) ltac:(lia) ltac:(lia) ltac:(lia) ltac:(lia) ltac:(lia) Hk H).
    destruct (step <? vlen); lia.
Qed.

Lemma in_range b e i : In i (range b e) <-> b <= i < e.
Proof.
  unfold range. rewrite in_map_iff. split.
  - intros (k & <- & Hk). apply in_seq in Hk. lia.
  - intros H. exists (Z.to_nat (i - b)). split; [lia|]. apply in_seq. lia.
Qed.
Lemma NoDup_range b e : NoDup (range b e).
Proof.
  unfold range. apply Injective_map_NoDup; [|apply seq_NoDup].
  intros x y H. lia.
Qed.

Lemma tiles_cover l : forall b e i, tiles b l e ->
  (exists c, In c l /\ fst c <= i < snd c) <-> b <= i < e.
Proof.
  induction l as [|[b' e'] l IH]; intros b e i H; cbn in H.
  - subst. split; [intros (c & [] & _)|lia].
  - destruct H as (-> & Hlt & T). specialize (IH e' e i T). split.
    + intros (c & [<-|Hc] & Hi).
      * cbn in Hi. assert (e' <= e). { clear - T. revert e' T. induction l as [|[b2 e2] l IH]; intros e' T; cbn in T; [lia|]. destruct T as (_ & ? & T). specialize (IH _ T). lia. } lia.
      * assert (e' <= i < e) by (apply IH; eauto). lia.
    + intros Hi. destruct (Z_lt_le_dec i e').
      * exists (b, e'). split; [left; reflexivity|cbn; lia].
      * destruct (proj2 IH) as (c & Hc & Hi2); [lia|]. exists c. split; [right; exact Hc|exact Hi2].
Qed.

Lemma tiles_disjoint l : forall b e k k' c c' i, tiles b l e ->
  nth_error l k = Some c -> nth_error l k' = Some c' ->
  fst c <= i < snd c -> fst c' <= i < snd c' -> k = k'.
Proof.
  induction l as [|[b' e'] l IH]; intros b e k k' c c' i H Hc Hc' Hi Hi'.
  - destruct k; discriminate.
  - cbn in H. destruct H as (-> & Hlt & T).
    assert (Hge : forall k c, nth_error l k = Some c -> e' <= fst c).
    { intros k0 c0 H0. apply nth_error_In in H0.
      clear - T H0. revert e' T. induction l as [|[b2 e2] l IH]; intros e' T; [destruct H0|].
      cbn in T. destruct T as (-> & ? & T). destruct H0 as [<-|H0]; [cbn; lia|]. specialize (IH H0 _ T). lia. }
    destruct k as [|k], k' as [|k']; cbn in Hc, Hc'.
    + reflexivity.
    + injection Hc as <-. specialize (Hge _ _ Hc'). cbn in Hi. lia.
    + injection Hc' as <-. specialize (Hge _ _ Hc). cbn in Hi'. lia.
    + f_equal. eapply IH; eauto.
Qed.

Lemma NoDup_snoc {A} (l : list A) a : NoDup l -> ~ In a l -> NoDup (l ++ [a]).
Proof.
  induction l as [|x l IH]; intros ND NI; [repeat constructor; auto|].
  inversion ND; subst. cbn. constructor.
  - intros H. apply in_app_or in H. destruct H as [H|[->|[]]]; [contradiction|]. apply NI. left. reflexivity.
  - apply IH; [assumption|]. intros H. apply NI. right. exact H.
Qed.

Lemma NoDup_worker c : NoDup (worker c).
Proof.
  unfold worker. constructor.
  - intros H. apply in_app_or in H. destruct H as [H|[H|[]]]; [|discriminate].
    apply in_map_iff in H. destruct H as (j & H & _). discriminate.
  - apply NoDup_snoc.
    + apply Injective_map_NoDup; [|apply NoDup_range]. intros x y H. congruence.
    + intros H. apply in_map_iff in H. destruct H as (j & H & _). discriminate.
Qed.

Lemma in_worker c i : In (AElem i) (worker c) <-> fst c <= i < snd c.
Proof.
  unfold worker. split.
  - intros [H|H]; [discriminate|].
    apply in_app_or in H. destruct H as [H|[H|[]]]; [|discriminate].
    apply in_map_iff in H. destruct H as (j & [= ->] & H). now apply in_range in H.
  - intros H. right. apply in_or_app. left. apply in_map. now apply in_range.
Qed.

Lemma worker_split_elem c i x y : worker c = x ++ AElem i :: y -> In AClear x /\ ~ In ARead x.
Proof.
  intros E. pose proof (NoDup_worker c) as ND. split.
  - destruct x as [|a x]; [discriminate|]. injection E as <- _. left. reflexivity.
  - intros H.
    assert (In ARead (AElem i :: y)).
    { assert (L : last (worker c) AClear = ARead).
      { unfold worker. rewrite app_comm_cons. apply last_last. }
      rewrite E in L. destruct y as [|b y] using rev_ind.
      - rewrite last_last in L. discriminate.
      - rewrite app_comm_cons, app_assoc, last_last in L. subst b. right. apply in_or_app. right. left. reflexivity. }
    rewrite E in ND. apply in_split in H. destruct H as (u & v & ->).
    rewrite <- app_assoc in ND. cbn in ND. apply NoDup_remove_2 in ND. apply ND.
    apply in_or_app. right. apply in_or_app. right. exact H0.
Qed.
Lemma worker_split_read c x y : worker c = x ++ ARead :: y -> In AClear x.
Proof. intros E. destruct x as [|a x]; [discriminate|]. injection E as <- _. left. reflexivity. Qed.
Lemma worker_split_clear c x y : worker c = x ++ AClear :: y -> x = [].
Proof.
  intros E. destruct x as [|a x]; [reflexivity|]. pose proof (NoDup_worker c) as ND. rewrite E in ND.
  injection E as <- _. apply NoDup_remove_2 in ND. exfalso. apply ND. left. reflexivity.
Qed.

Section ExecProofs.
  Variable V : Type.
  Variable f : Z -> V -> V.
  Variable exc manual : Z -> V -> bool.
  Notation act := (act V f exc manual).
  Notation run := (run V f exc manual).

  Variable cs : list (Z * Z).
  Variables (b0 e0 : Z).
  Hypothesis T : tiles b0 cs e0.
  Let ws := map worker cs.

  Lemma ws_nth k : (k < length cs)%nat -> exists c, nth_error cs k = Some c /\ nth k ws [] = worker c.
  Proof.
    intros H. destruct (nth_error cs k) as [c|] eqn:E.
    - exists c. split; [reflexivity|]. unfold ws. apply nth_error_nth. rewrite nth_error_map, E. reflexivity.
    - apply nth_error_None in E. lia.
  Qed.

  Lemma proj_app k p q : proj k (p ++ q) = proj k p ++ proj k q.
  Proof. unfold proj. now rewrite filter_app, map_app. Qed.

  Lemma in_proj k a tr : In a (proj k tr) <-> In (k, a) tr.
  Proof.
    unfold proj. rewrite in_map_iff. split.
    - intros ([k' a'] & <- & H). apply filter_In in H. destruct H as [H E]. cbn in *.
      apply Nat.eqb_eq in E. now subst.
    - intros H. exists (k, a). split; [reflexivity|]. apply filter_In. split; [exact H|]. cbn. apply Nat.eqb_refl.
  Qed.

  (* an element occurs once in a whole trace *)
  Lemma elem_once p k i q : interleaving ws (p ++ (k, AElem i) :: q) ->
    forall k', ~ In (k', AElem i) p.
  Proof.
    intros [Hk Hp] k' Hin.
    assert (Kk : (k < length cs)%nat).
    { specialize (Hk (k, AElem i)). unfold ws in Hk. rewrite map_length in Hk. apply Hk. apply in_or_app. right. left. reflexivity. }
    assert (Kk' : (k' < length cs)%nat).
    { specialize (Hk (k', AElem i)). unfold ws in Hk. rewrite map_length in Hk. apply Hk. apply in_or_app. left. exact Hin. }
    destruct (ws_nth k Kk) as (c & E & W). destruct (ws_nth k' Kk') as (c' & E' & W').
    assert (Lk : (k < length ws)%nat) by (unfold ws; rewrite map_length; exact Kk).
    assert (Lk' : (k' < length ws)%nat) by (unfold ws; rewrite map_length; exact Kk').
    pose proof (Hp k Lk) as P. pose proof (Hp k' Lk') as P'. rewrite W in P. rewrite W' in P'.
    assert (I1 : fst c <= i < snd c).
    { apply in_worker. rewrite <- P. apply in_proj. apply in_or_app. right. left. reflexivity. }
    assert (I2 : fst c' <= i < snd c').
    { apply in_worker. rewrite <- P'. apply in_proj. apply in_or_app. left. exact Hin. }
    assert (k = k') by (eapply tiles_disjoint; eauto). subst k'.
    rewrite proj_app in P. unfold proj at 2 in P. cbn [filter fst] in P. rewrite Nat.eqb_refl in P.
    cbn [map snd] in P. fold (proj k q) in P.
    apply in_proj in Hin. apply in_split in Hin. destruct Hin as (x & y & Hxy). rewrite Hxy in P.
    pose proof (NoDup_worker c) as ND.
    rewrite <- P in ND. rewrite <- app_assoc in ND. apply NoDup_remove_2 in ND. apply ND.
    apply in_or_app. right. cbn. apply in_or_app. right. left. reflexivity.
  Qed.

  (* the thread of an element in the trace is the one whose chunk contains it *)
  Lemma elem_in_range tr k i : interleaving ws tr -> In (k, AElem i) tr -> b0 <= i < e0.
  Proof.
    intros [Hk Hp] H. pose proof (Hk _ H) as Lk. cbn in Lk.
    assert (Kk : (k < length cs)%nat) by (unfold ws in Lk; rewrite map_length in Lk; exact Lk).
    destruct (ws_nth k Kk) as (c & E & W). pose proof (Hp k Lk) as P. rewrite W in P.
    apply in_proj in H. rewrite P in H. apply in_worker in H.
    apply (tiles_cover cs b0 e0 i T). exists c. split; [eapply nth_error_In; exact E|exact H].
  Qed.
  Lemma elem_covered tr i : interleaving ws tr -> b0 <= i < e0 -> exists k, (k < length cs)%nat /\ In (k, AElem i) tr.
  Proof.
    intros [Hk Hp] H. apply (tiles_cover cs b0 e0 i T) in H. destruct H as (c & Hc & Hi).
    apply In_nth_error in Hc. destruct Hc as [k E].
    assert (Kk : (k < length cs)%nat) by (apply nth_error_Some; rewrite E; discriminate).
    exists k. split; [exact Kk|]. apply in_proj.
    assert (Lk : (k < length ws)%nat) by (unfold ws; rewrite map_length; exact Kk).
    rewrite (Hp k Lk). destruct (ws_nth k Kk) as (c' & E' & W). rewrite W.
    assert (c' = c) by congruence. subst c'. apply in_worker. exact Hi.
  Qed.

  Variables (m0 : Z -> V) (hw0 pf0 : nat -> bool) (sh0 : bool).
  Let s0 := {| mem := m0; hw := hw0; shared := sh0; pflag := pf0 |}.
  Definition raises (i : Z) : bool := exc i (m0 i) || manual i (m0 i).

  Definition doneb (i : Z) (p : list (nat * action)) : bool :=
    existsb (fun x => match snd x with AElem j => Z.eqb j i | _ => false end) p.

  Lemma doneb_true i p : doneb i p = true <-> exists k, In (k, AElem i) p.
  Proof.
    unfold doneb. rewrite existsb_exists. split.
    - intros ([k a] & H & E). cbn in E. destruct a; try discriminate. apply Z.eqb_eq in E. subst. eauto.
    - intros [k H]. exists (k, AElem i). split; [exact H|]. cbn. apply Z.eqb_refl.
  Qed.

  Record Pinv (p : list (nat * action)) : Prop := {
    i_mem : forall i, mem _ (run p s0) i = if doneb i p then f i (m0 i) else m0 i;
    (* exceptions of elements computed so far by k are in its status word *)
    i_hw : forall k i, In (k, AElem i) p -> raises i = true -> hw _ (run p s0) k = true;
    i_hw2 : forall k, In (k, AClear) p -> hw _ (run p s0) k = true -> exists i, doneb i p = true /\ raises i = true;
    i_sh : shared _ (run p s0) = true -> sh0 = true \/ exists i, doneb i p = true /\ raises i = true;
    i_pf : forall k i, In (k, AElem i) p -> raises i = true -> In (k, ARead) p -> pflag _ (run p s0) k = true;
    i_pf2 : forall k, In (k, ARead) p -> pflag _ (run p s0) k = true -> sh0 = true \/ exists i, doneb i p = true /\ raises i = true
  }.

  (* within one worker: AClear comes first, ARead last *)
  Lemma prog_order p k a q : interleaving ws (p ++ (k, a) :: q) ->
    match a with
    | AClear => (forall b, ~ In (k, b) p)
    | AElem i => In (k, AClear) p /\ ~ In (k, ARead) p
    | ARead => In (k, AClear) p
    end.
  Proof.
    intros [Hk Hp].
    assert (Lk : (k < length ws)%nat).
    { apply (Hk (k, a)). apply in_or_app. right. left. reflexivity. }
    assert (Kk : (k < length cs)%nat) by (unfold ws in Lk; rewrite map_length in Lk; exact Lk).
    destruct (ws_nth k Kk) as (c & E & W). pose proof (Hp k Lk) as P. rewrite W in P.
    rewrite proj_app in P. unfold proj at 2 in P. cbn [filter fst] in P. rewrite Nat.eqb_refl in P.
    cbn [map snd] in P. fold (proj k q) in P.
    destruct a as [|i|].
    - intros b Hb. symmetry in P. apply worker_split_clear in P. apply in_proj in Hb. rewrite P in Hb. destruct Hb.
    - symmetry in P. apply worker_split_elem in P. destruct P as [P1 P2]. split; [now apply in_proj|].
      intros H. apply P2. now apply in_proj.
    - symmetry in P. apply worker_split_read in P. now apply in_proj.
  Qed.

  Lemma run_snoc p x s : run (p ++ [x]) s = act (run p s) x.
  Proof. unfold Parallel.run. now rewrite fold_left_app. Qed.
  Lemma doneb_snoc i p x : doneb i (p ++ [x]) = doneb i p || match snd x with AElem j => Z.eqb j i | _ => false end.
  Proof. unfold doneb. rewrite existsb_app. cbn. now rewrite orb_false_r. Qed.

  Lemma Pinv_step p x q : interleaving ws (p ++ x :: q) -> Pinv p -> Pinv (p ++ [x]).
  Proof.
    intros HI I. destruct x as [k a]. pose proof (prog_order p k a q HI) as PO.
    destruct I as [Imem Ihw Ihw2 Ish Ipf Ipf2].
    assert (Up : forall i, doneb i p = true -> doneb i (p ++ [(k, a)]) = true).
    { intros i H. rewrite doneb_snoc, H. reflexivity. }
    assert (Upx : (exists i, doneb i p = true /\ raises i = true) -> exists i, doneb i (p ++ [(k, a)]) = true /\ raises i = true).
    { intros (i & H1 & H2). exists i. auto. }
    assert (Upy : (sh0 = true \/ exists i, doneb i p = true /\ raises i = true) -> sh0 = true \/ exists i, doneb i (p ++ [(k, a)]) = true /\ raises i = true).
    { intros [H|H]; auto. }
    destruct a as [|i|]; constructor; rewrite ?run_snoc; cbn [act Parallel.act mem hw shared pflag].
    - intros j. rewrite Imem, doneb_snoc. cbn. now rewrite orb_false_r.
    - intros k' i H R. apply in_app_or in H. destruct H as [H|[[=]|[]]].
      unfold setN. destruct (Nat.eqb_spec k' k) as [->|]; [exfalso; eapply PO; exact H|eauto].
    - intros k' H. unfold setN. destruct (Nat.eqb_spec k' k) as [->|Hne]; [discriminate|].
      intros Hh. apply in_app_or in H. destruct H as [H|[[= ->]|[]]]; [|congruence]. apply Upx. eauto.
    - discriminate.
    - intros k' i H R Rd. apply in_app_or in H. destruct H as [H|[[=]|[]]].
      apply in_app_or in Rd. destruct Rd as [Rd|[[=]|[]]]. eauto.
    - intros k' H Hp. apply in_app_or in H. destruct H as [H|[[=]|[]]]. apply Upy. eauto.
    - (* AElem *)
      assert (Ei : mem _ (run p s0) i = m0 i).
      { rewrite Imem. destruct (doneb i p) eqn:D; [|reflexivity]. apply doneb_true in D. destruct D as [k' D].
        exfalso. eapply elem_once; eauto. }
      intros j. unfold setZ. rewrite doneb_snoc. cbn [snd]. rewrite (Z.eqb_sym i j).
      destruct (Z.eqb_spec j i) as [->|Hne].
      + rewrite Ei, orb_true_r. reflexivity.
      + rewrite orb_false_r. apply Imem.
    - assert (Ei : mem _ (run p s0) i = m0 i).
      { rewrite Imem. destruct (doneb i p) eqn:D; [|reflexivity]. apply doneb_true in D. destruct D as [k' D].
        exfalso. eapply elem_once; eauto. }
      rewrite Ei. intros k' j H R. unfold setN.
      apply in_app_or in H. destruct H as [H|[[= -> ->]|[]]].
      + destruct (Nat.eqb_spec k' k) as [->|]; [|eauto]. rewrite (Ihw k j H R). reflexivity.
      + rewrite Nat.eqb_refl. unfold raises in R. destruct (hw _ (run p s0) k'); [reflexivity|exact R].
    - assert (Ei : mem _ (run p s0) i = m0 i).
      { rewrite Imem. destruct (doneb i p) eqn:D; [|reflexivity]. apply doneb_true in D. destruct D as [k' D].
        exfalso. eapply elem_once; eauto. }
      rewrite Ei. intros k' H. unfold setN. destruct (Nat.eqb_spec k' k) as [->|Hne].
      + intros Hh. destruct (hw _ (run p s0) k) eqn:Hk.
        * apply Upx. apply (Ihw2 k); [apply PO|exact Hk].
        * exists i. rewrite doneb_snoc. cbn [snd]. rewrite Z.eqb_refl, orb_true_r. split; [reflexivity|exact Hh].
      + intros Hh. apply Upx. apply (Ihw2 k'); [|exact Hh].
        apply in_app_or in H. destruct H as [H|[[=]|[]]]. exact H.
    - assert (Ei : mem _ (run p s0) i = m0 i).
      { rewrite Imem. destruct (doneb i p) eqn:D; [|reflexivity]. apply doneb_true in D. destruct D as [k' D].
        exfalso. eapply elem_once; eauto. }
      rewrite Ei. intros H. destruct (shared _ (run p s0)) eqn:Hs.
      + apply Upy. auto.
      + right. exists i. rewrite doneb_snoc. cbn [snd]. rewrite Z.eqb_refl, orb_true_r. split; [reflexivity|].
        unfold raises. cbn in H. rewrite H. apply orb_true_r.
    - intros k' j H R Rd. apply in_app_or in Rd. destruct Rd as [Rd|[[=]|[]]].
      apply in_app_or in H. destruct H as [H|[[= -> ->]|[]]]; [eauto|].
      exfalso. apply PO. exact Rd.
    - intros k' H Hp. apply in_app_or in H. destruct H as [H|[[=]|[]]]. apply Upy. eauto.
    - intros j. rewrite Imem, doneb_snoc. cbn. now rewrite orb_false_r.
    - intros k' j H R. apply in_app_or in H. destruct H as [H|[[=]|[]]]. eauto.
    - intros k' H Hh. apply in_app_or in H. destruct H as [H|[[=]|[]]]. apply Upx. eauto.
    - intros H. apply Upy. auto.
    - intros k' j H R Rd. apply in_app_or in H. destruct H as [H|[[=]|[]]].
      unfold setN. destruct (Nat.eqb_spec k' k) as [->|Hne].
      + rewrite (Ihw k j H R). reflexivity.
      + apply in_app_or in Rd. destruct Rd as [Rd|[[= ->]|[]]]; [|congruence]. eauto.
    - intros k' H. unfold setN. destruct (Nat.eqb_spec k' k) as [->|Hne].
      + intros Hh. apply orb_true_iff in Hh. destruct Hh as [Hh|Hh].
        * right. apply Upx. eauto.
        * apply Upy. auto.
      + intros Hp. apply in_app_or in H. destruct H as [H|[[= ->]|[]]]; [|congruence]. apply Upy. eauto.
  Qed.

  Lemma Pinv_all tr : interleaving ws tr -> Pinv tr.
  Proof.
    intros HI. assert (G : forall q p, tr = p ++ q -> Pinv p).
    { intros q p. revert q. induction p as [|x p IH] using rev_ind; intros q E.
      - constructor; cbn; try (intros; contradiction); auto.
      - rewrite <- app_assoc in E. cbn in E. apply (Pinv_step p x q).
        + rewrite <- E. exact HI.
        + eapply IH. exact E. }
    apply (G [] tr). now rewrite app_nil_r.
  Qed.

  Lemma threaded_mem tr : interleaving ws tr -> forall i,
    mem _ (run tr s0) i = if (b0 <=? i) && (i <? e0) then f i (m0 i) else m0 i.
  Proof.
    intros HI i. rewrite (i_mem _ (Pinv_all tr HI)).
    destruct (doneb i tr) eqn:D.
    - apply doneb_true in D. destruct D as [k D]. apply (elem_in_range tr k i HI) in D.
      destruct (Z.leb_spec b0 i), (Z.ltb_spec i e0); try lia. reflexivity.
    - destruct (Z.leb_spec b0 i), (Z.ltb_spec i e0); try reflexivity.
      destruct (elem_covered tr i HI) as (k & _ & H1); [lia|].
      assert (doneb i tr = true) by (apply doneb_true; eauto). congruence.
  Qed.

  Lemma read_in tr k : interleaving ws tr -> (k < length cs)%nat -> In (k, ARead) tr.
  Proof.
    intros [Hk Hp] Kk. apply in_proj.
    assert (Lk : (k < length ws)%nat) by (unfold ws; rewrite map_length; exact Kk).
    rewrite (Hp k Lk). destruct (ws_nth k Kk) as (c & E & W). rewrite W. unfold worker.
    right. apply in_or_app. right. left. reflexivity.
  Qed.

  Lemma flag_true tr : interleaving ws tr ->
    (exists i, b0 <= i < e0 /\ raises i = true) ->
    existsb (pflag _ (run tr s0)) (seq 0 (length cs)) = true.
  Proof.
    intros HI (i & Hi & R). destruct (elem_covered tr i HI Hi) as (k & Kk & H).
    apply existsb_exists. exists k. split; [apply in_seq; lia|].
    eapply (i_pf _ (Pinv_all tr HI)); eauto. apply read_in; assumption.
  Qed.
  Lemma flag_only tr : interleaving ws tr ->
    existsb (pflag _ (run tr s0)) (seq 0 (length cs)) = true ->
    sh0 = true \/ exists i, b0 <= i < e0 /\ raises i = true.
  Proof.
    intros HI H. apply existsb_exists in H. destruct H as (k & Hk & H). apply in_seq in Hk.
    apply (i_pf2 _ (Pinv_all tr HI)) in H; [|apply read_in; [assumption|lia]].
    destruct H as [H|(i & D & R)]; [auto|]. right. exists i. split; [|exact R].
    apply doneb_true in D. destruct D as [k' D]. eapply elem_in_range; eauto.
  Qed.
  Lemma shared_only tr : interleaving ws tr ->
    shared _ (run tr s0) = true ->
    sh0 = true \/ exists i, b0 <= i < e0 /\ raises i = true.
  Proof.
    intros HI H. apply (i_sh _ (Pinv_all tr HI)) in H.
    destruct H as [H|(i & D & R)]; [auto|]. right. exists i. split; [|exact R].
    apply doneb_true in D. destruct D as [k' D]. eapply elem_in_range; eauto.
  Qed.
End ExecProofs.

  Lemma existsb_eqb_range i b e : existsb (Z.eqb i) (range b e) = (b <=? i) && (i <? e).
  Proof.
    destruct (existsb (Z.eqb i) (range b e)) eqn:E.
    - apply existsb_exists in E. destruct E as (x & Hx & E). apply Z.eqb_eq in E. subst x.
      apply in_range in Hx. lia.
    - destruct (Z.leb_spec b i), (Z.ltb_spec i e); try reflexivity.
      assert (existsb (Z.eqb i) (range b e) = true); [|congruence].
      apply existsb_exists. exists i. split; [apply in_range; lia|apply Z.eqb_refl].
  Qed.

Section Serial.
  Variable V : Type.
  Variable f : Z -> V -> V.
  Variable exc manual : Z -> V -> bool.

  Lemma serial_spec l : NoDup l -> forall m,
    (forall i, mmem _ (fold_left (serial_elem V f exc manual) l m) i = if existsb (Z.eqb i) l then f i (mmem _ m i) else mmem _ m i) /\
    mhw _ (fold_left (serial_elem V f exc manual) l m) =
      mhw _ m || existsb (fun i => exc i (mmem _ m i) || manual i (mmem _ m i)) l /\
    (mshared _ (fold_left (serial_elem V f exc manual) l m) =
      mshared _ m || existsb (fun i => manual i (mmem _ m i)) l).
  Proof.
    induction l as [|a l IH]; intros ND m; cbn [fold_left existsb].
    - split; [reflexivity|]. rewrite !orb_false_r. auto.
    - inversion ND as [|? ? NI ND']; subst.
      destruct (IH ND' (serial_elem V f exc manual m a)) as (I1 & I2 & I3).
      assert (Hsame : forall i, In i l -> mmem _ (serial_elem V f exc manual m a) i = mmem _ m i).
      { intros i Hi. cbn. unfold setZ. destruct (Z.eqb_spec i a) as [->|]; [contradiction|reflexivity]. }
      split; [|split].
      + intros i. rewrite I1. destruct (Z.eqb_spec i a) as [->|Hne]; cbn [orb].
        * assert (existsb (Z.eqb a) l = false) as ->.
          { destruct (existsb (Z.eqb a) l) eqn:E; [|reflexivity]. apply existsb_exists in E.
            destruct E as (x & Hx & E). apply Z.eqb_eq in E. subst. contradiction. }
          cbn. unfold setZ. rewrite Z.eqb_refl. reflexivity.
        * cbn. unfold setZ. apply Z.eqb_neq in Hne. rewrite Hne. reflexivity.
      + rewrite I2. cbn [serial_elem mhw]. rewrite <- !orb_assoc. do 3 f_equal.
        assert (X : forall l0, (forall i, In i l0 -> In i l) ->
          existsb (fun i => exc i (mmem _ (serial_elem V f exc manual m a) i) || manual i (mmem _ (serial_elem V f exc manual m a) i)) l0 =
          existsb (fun i => exc i (mmem _ m i) || manual i (mmem _ m i)) l0).
        { induction l0 as [|b l0 IH0]; intros Hs; [reflexivity|]. cbn [existsb].
          rewrite Hsame by (apply Hs; left; reflexivity). rewrite IH0; [reflexivity|]. intros; apply Hs; right; assumption. }
        apply X. auto.
      + rewrite I3. cbn [serial_elem mshared]. rewrite <- !orb_assoc. do 2 f_equal.
        assert (X : forall l0, (forall i, In i l0 -> In i l) ->
          existsb (fun i => manual i (mmem _ (serial_elem V f exc manual m a) i)) l0 =
          existsb (fun i => manual i (mmem _ m i)) l0).
        { induction l0 as [|b l0 IH0]; intros Hs; [reflexivity|]. cbn [existsb].
          rewrite Hsame by (apply Hs; left; reflexivity). rewrite IH0; [reflexivity|]. intros; apply Hs; right; assumption. }
        apply X. auto.
  Qed.

  Lemma c07_lemma threads vlen fuel cs tr hw0 pf0 m :
    1 < threads -> 1 <= vlen < 2 ^ 63 ->
    chunks fuel threads vlen = Some cs ->
    interleaving (map worker cs) tr ->
    (mshared _ m = true -> mhw _ m = true) ->
    let t := threaded_result V f exc manual cs tr hw0 pf0 m in
    let s := serial_result V f exc manual vlen m in
    (forall i, mmem _ t i = mmem _ s i) /\ check_fpe _ t = check_fpe _ s /\
    (mshared _ t = true -> mhw _ t = true).
  Proof.
    intros Ht Hv Hc HI Hinv t s.
    destruct (chunks_tiles threads vlen Ht Hv) as (l & El & T).
    assert (cs = l).
    { destruct (Nat.le_ge_cases (S (Z.to_nat vlen)) fuel) as [H|H].
      - rewrite (El fuel H) in Hc. now injection Hc.
      - unfold chunks in *. eapply sched_mono in Hc; [|exact H]. specialize (El _ (le_n _)).
        cbv zeta in El. rewrite Hc in El. now injection El. }
    subst l. clear El.
    pose proof (serial_spec (range 0 vlen) (NoDup_range _ _) m) as (S1 & S2 & S3).
    fold (serial_result V f exc manual vlen m) in S1, S2, S3. fold s in S1, S2, S3.
    assert (EX : existsb (fun i => exc i (mmem _ m i) || manual i (mmem _ m i)) (range 0 vlen) = true <->
      exists i, 0 <= i < vlen /\ raises V exc manual (mmem _ m) i = true).
    { rewrite existsb_exists. split; intros (i & H1 & H2); exists i; (split; [now apply in_range|exact H2]). }
    assert (SHEX : mshared _ s = true -> mshared _ m = true \/ exists i, 0 <= i < vlen /\ raises V exc manual (mmem _ m) i = true).
    { rewrite S3. intros H. apply orb_true_iff in H. destruct H as [H|H]; [auto|].
      right. apply existsb_exists in H. destruct H as (i & H1 & H2). exists i. split; [now apply in_range|].
      unfold raises. rewrite H2. apply orb_true_r. }
    unfold t, threaded_result, finish. cbn [mmem mhw mshared].
    split; [|split].
    - intros i. rewrite (threaded_mem V f exc manual cs 0 vlen T (mmem _ m) hw0 pf0 (mshared _ m) tr HI).
      rewrite S1, existsb_eqb_range. reflexivity.
    - unfold check_fpe. cbn [mmem mhw mshared].
      set (fl := existsb _ _). set (sh := shared _ _).
      assert (F1 : (exists i, 0 <= i < vlen /\ raises V exc manual (mmem _ m) i = true) -> fl = true).
      { intros H. apply (flag_true V f exc manual cs 0 vlen T (mmem _ m) hw0 pf0 (mshared _ m) tr HI H). }
      assert (F2 : fl = true -> mshared _ m = true \/ exists i, 0 <= i < vlen /\ raises V exc manual (mmem _ m) i = true).
      { apply (flag_only V f exc manual cs 0 vlen T (mmem _ m) hw0 pf0 (mshared _ m) tr HI). }
      assert (F3 : sh = true -> mshared _ m = true \/ exists i, 0 <= i < vlen /\ raises V exc manual (mmem _ m) i = true).
      { apply (shared_only V f exc manual cs 0 vlen T (mmem _ m) hw0 pf0 (mshared _ m) tr HI). }
      rewrite S2. destruct (mhw _ m) eqn:Hm; [reflexivity|].
      assert (Hsm : mshared _ m = false) by (destruct (mshared _ m); [discriminate (Hinv eq_refl)|reflexivity]).
      rewrite Hsm in *. cbn [orb] in *.
      destruct (existsb _ (range 0 vlen)) eqn:E.
      + rewrite (F1 (proj1 EX eq_refl)). reflexivity.
      + assert (N : ~ exists i, 0 <= i < vlen /\ raises V exc manual (mmem _ m) i = true).
        { intros H. apply EX in H. congruence. }
        assert (fl = false) as ->. { destruct fl; [|reflexivity]. destruct (F2 eq_refl) as [H|H]; [discriminate|contradiction]. }
        assert (sh = false) as ->. { destruct sh; [|reflexivity]. destruct (F3 eq_refl) as [H|H]; [discriminate|contradiction]. }
        destruct (mshared _ s) eqn:Es; [|reflexivity]. destruct (SHEX eq_refl) as [H|H]; [discriminate|contradiction].
    - intros H. apply orb_true_iff in H. destruct H as [H|H]; [|rewrite H; apply orb_true_r].
      apply (shared_only V f exc manual cs 0 vlen T (mmem _ m) hw0 pf0 (mshared _ m) tr HI) in H.
      destruct H as [H|H]; [rewrite (Hinv H); reflexivity|].
      rewrite (flag_true V f exc manual cs 0 vlen T (mmem _ m) hw0 pf0 (mshared _ m) tr HI H). apply orb_true_r.
  Qed.
End Serial.

Section Outcome.
  Variable V : Type.
  Variable f : Z -> V -> V.
  Variable exc manual : Z -> V -> bool.
  Lemma serial_mem vlen m i : mmem _ (serial_result V f exc manual vlen m) i =
    if (0 <=? i) && (i <? vlen) then f i (mmem _ m i) else mmem _ m i.
  Proof.
    destruct (serial_spec V f exc manual (range 0 vlen) (NoDup_range _ _) m) as (S1 & _ & _).
    unfold serial_result. rewrite S1, existsb_eqb_range. reflexivity.
  Qed.
  Lemma serial_check vlen m : check_fpe _ (serial_result V f exc manual vlen m) = true <->
    check_fpe _ m = true \/ exists i, 0 <= i < vlen /\ (exc i (mmem _ m i) = true \/ manual i (mmem _ m i) = true).
  Proof.
    destruct (serial_spec V f exc manual (range 0 vlen) (NoDup_range _ _) m) as (_ & S2 & S3).
    fold (serial_result V f exc manual vlen m) in S2, S3.
    unfold check_fpe. rewrite S2, S3, !orb_true_iff, !existsb_exists. split.
    - intros [[H|(i & H1 & H2)]|[H|(i & H1 & H2)]]; auto; right; exists i; apply in_range in H1; split; auto.
      apply orb_true_iff in H2. exact H2.
    - intros [[H|H]|(i & H1 & H2)]; auto. left. right. exists i. split; [now apply in_range|].
      apply orb_true_iff. exact H2.
  Qed.
  Lemma outcome_lemma threads task vlen m m' : 0 <= task -> 0 <= vlen < 2 ^ 63 ->
    (mshared _ m = true -> mhw _ m = true) ->
    outcome V f exc manual threads task vlen m m' ->
    (forall i, mmem _ m' i = if (0 <=? i) && (i <? vlen) then f i (mmem _ m i) else mmem _ m i) /\
    (check_fpe _ m' = true <->
      check_fpe _ m = true \/ exists i, 0 <= i < vlen /\ (exc i (mmem _ m i) = true \/ manual i (mmem _ m i) = true)) /\
    (mshared _ m' = true -> mhw _ m' = true).
  Proof.
    intros Ht Hv Hi [Hs|fuel cs tr hw0 pf0 Hs Hc HI].
    - split; [apply serial_mem|]. split; [apply serial_check|].
      destruct (serial_spec V f exc manual (range 0 vlen) (NoDup_range _ _) m) as (_ & S2 & S3).
      fold (serial_result V f exc manual vlen m) in S2, S3. rewrite S2, S3.
      intros H. apply orb_true_iff in H. destruct H as [H|H]; [rewrite (Hi H); reflexivity|].
      apply orb_true_iff. right. apply existsb_exists in H. destruct H as (i & H1 & H2).
      apply existsb_exists. exists i. split; [exact H1|]. rewrite H2. apply orb_true_r.
    - unfold threaded in Hs. apply andb_true_iff in Hs. destruct Hs as [Hs1 Hs2].
      apply Z.ltb_lt in Hs1, Hs2.
      destruct (c07_lemma V f exc manual threads vlen fuel cs tr hw0 pf0 m Hs1 ltac:(lia) Hc HI Hi) as (A & B & C).
      split; [|split; [|exact C]].
      + intros i. rewrite A. apply serial_mem.
      + rewrite B. apply serial_check.
  Qed.
End Outcome.

Lemma seq_interleaving : forall (ws : list (list action)) k0,
  let tr := concat (map (fun kw => map (pair (fst kw)) (snd kw)) (combine (seq k0 (length ws)) ws)) in
  (forall x, In x tr -> (k0 <= fst x < k0 + length ws)%nat) /\
  forall k, (k < length ws)%nat -> proj (k0 + k) tr = nth k ws [].
Proof.
  induction ws as [|w ws IH]; intros k0; cbn [length seq combine map concat].
  - split; [intros x []|intros; lia].
  - specialize (IH (S k0)). cbv zeta in *. destruct IH as [IH1 IH2]. cbn [fst snd].
    assert (PS : proj k0 (map (pair k0) w) = w).
    { clear. unfold proj. induction w as [|a w IH]; [reflexivity|]. cbn. rewrite Nat.eqb_refl. cbn. now rewrite IH. }
    assert (PO : forall k, k <> k0 -> proj k (map (pair k0) w) = []).
    { clear. intros k Hk. unfold proj. induction w as [|a w IH]; [reflexivity|]. cbn.
      destruct (Nat.eqb_spec k0 k); [congruence|]. exact IH. }
    split.
    + intros x H. apply in_app_or in H. destruct H as [H|H].
      * apply in_map_iff in H. destruct H as (a & <- & _). cbn. lia.
      * specialize (IH1 x H). lia.
    + intros k Hk. rewrite proj_app. destruct k as [|k].
      * rewrite Nat.add_0_r, PS. cbn [nth].
        match goal with |- w ++ proj k0 ?tr = w => assert (E : proj k0 tr = []) end.
        { match goal with |- ?x = [] => destruct x as [|a r] eqn:Er; [reflexivity|] end.
          assert (In a (a :: r)) as H by (left; reflexivity). rewrite <- Er in H. apply in_proj in H.
          apply IH1 in H. cbn in H. lia. }
        rewrite E. apply app_nil_r.
      * rewrite (PO (k0 + S k)%nat) by lia. cbn [app nth].
        replace (k0 + S k)%nat with (S k0 + k)%nat by lia. apply IH2. lia.
Qed.

Lemma outcome_exists V f exc manual threads task vlen m : 0 <= task -> 0 <= vlen < 2 ^ 63 ->
  exists m', outcome V f exc manual threads task vlen m m'.
Proof.
  intros Ht Hv. destruct (threaded threads task vlen) eqn:E.
  - pose proof E as E0. unfold threaded in E. apply andb_true_iff in E. destruct E as [E1 E2].
    apply Z.ltb_lt in E1, E2. destruct (chunks_tiles threads vlen E1 ltac:(lia)) as (l & Hl & _).
    pose proof (seq_interleaving (map worker l) 0) as S. cbv zeta in S. destruct S as [S1 S2].
    eexists. eapply (out_threaded V f exc manual threads task vlen m _ _ _ (fun _ => false) (fun _ => false)).
    + exact E0.
    + apply (Hl _ (le_n _)).
    + split; [|exact S2]. intros x Hx. specialize (S1 x Hx). lia.
  - eexists. apply (out_serial V f exc manual). exact E.
Qed.
