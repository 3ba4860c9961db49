(* Proofs about the adjacency lists of a region. *)
From Coq Require Import List Bool Arith Lia Permutation Sorting.Sorted.
Import ListNotations.
Require Import Verif.Adjacency Verif.LoaderSpec.
Local Arguments Nat.ltb : simpl never.
Local Arguments Nat.leb : simpl never.
Local Arguments Nat.eqb : simpl never.

(* ---- intersections *)
Lemma inter_nil_r : forall l, inter l [] = [].
Proof. destruct l; reflexivity. Qed.
Lemma inter_cons : forall x t1 y t2, inter (x :: t1) (y :: t2) =
  if x <? y then inter t1 (y :: t2) else if y <? x then inter (x :: t1) t2 else x :: inter t1 t2.
Proof. reflexivity. Qed.
Lemma inter_spec : forall a b, ascending a -> ascending b ->
  (forall x, In x (inter a b) <-> In x a /\ In x b) /\ ascending (inter a b) /\ (NoDup a -> NoDup (inter a b)).
Proof.
  induction a as [|x t1 IHa]; intros b.
  - intros _ _. cbn. split; [tauto|]. split; constructor.
  - induction b as [|y t2 IHb]; intros Sa Sb.
    + rewrite inter_nil_r. split; [cbn; tauto|]. split; [constructor|intros _; constructor].
    + rewrite inter_cons. inversion Sa as [|? ? Sa1 Sa2]; subst. inversion Sb as [|? ? Sb1 Sb2]; subst.
      rewrite Forall_forall in Sa2, Sb2.
      destruct (Nat.ltb_spec x y) as [L|L]; [|destruct (Nat.ltb_spec y x) as [L2|L2]].
      * destruct (IHa (y :: t2) Sa1 Sb) as (H1 & H2 & H3). split; [|split; [exact H2|]].
        -- intros z. rewrite H1. cbn. split; [tauto|]. intros [[->|I] J]; [|tauto].
           exfalso. destruct J as [->|J]; [lia|]. specialize (Sb2 _ J). lia.
        -- intros N. inversion N; subst. auto.
      * destruct (IHb Sa Sb1) as (H1 & H2 & H3). split; [|split; [exact H2|exact H3]].
        intros z. rewrite H1. cbn. split; [tauto|]. intros [I [->|J]]; [|tauto].
        exfalso. destruct I as [->|I]; [lia|]. specialize (Sa2 _ I). lia.
      * assert (x = y) by lia. subst y. destruct (IHa t2 Sa1 Sb1) as (H1 & H2 & H3). split; [|split].
        -- intros z. cbn. rewrite H1. split; [tauto|]. intros [[->|I] [E|J]]; auto; tauto.
        -- constructor; [exact H2|]. apply Forall_forall. intros z Hz. apply H1 in Hz. apply Sa2, Hz.
        -- intros N. inversion N; subst. constructor; [rewrite H1; tauto|auto].
Qed.

(* ---- elements at a node *)
Lemma numbered_In : forall (l : list simplex) i s, In (i, s) (numbered l) <-> nth_error l i = Some s.
Proof.
  intros l i s. unfold numbered.
  assert (G : forall (l : list simplex) b, In (i, s) (combine (seq b (length l)) l) <-> b <= i /\ nth_error l (i - b) = Some s).
  { induction l0 as [|x t IH]; intros b; cbn [length seq combine].
    - cbn. split; [tauto|]. intros [_ H]. destruct (i - b); discriminate.
    - cbn [In]. rewrite IH. split.
      + intros [E|[L H]].
        * injection E as <- <-. split; [lia|]. rewrite Nat.sub_diag. reflexivity.
        * split; [lia|]. replace (i - b) with (S (i - S b)) by lia. exact H.
      + intros [L H]. destruct (Nat.eq_dec b i) as [->|N].
        * left. rewrite Nat.sub_diag in H. cbn in H. injection H as ->. reflexivity.
        * right. split; [lia|]. replace (i - b) with (S (i - S b)) in H by lia. exact H. }
  rewrite G, Nat.sub_0_r. split; [tauto|]. split; [lia|assumption].
Qed.
Lemma times_pos : forall n s, 0 < times n s <-> In n s.
Proof.
  intros n s. unfold times. induction s as [|x t IH]; cbn; [lia|].
  destruct (Nat.eqb_spec n x) as [->|N]; cbn; [split; [auto|lia]|]. rewrite IH. split; [auto|]. intros [E|H]; [congruence|exact H].
Qed.
Lemma times_NoDup : forall n s, NoDup s -> times n s <= 1.
Proof.
  intros n s. unfold times. induction s as [|x t IH]; intros N; cbn; [lia|]. inversion N; subst.
  destruct (Nat.eqb_spec n x) as [->|]; cbn; [|auto].
  assert (length (filter (Nat.eqb x) t) = 0); [|lia]. 
  destruct (filter (Nat.eqb x) t) as [|y r] eqn:E; [reflexivity|].
  assert (I : In y (filter (Nat.eqb x) t)) by (rewrite E; left; reflexivity).
  apply filter_In in I. destruct I as [I J]. apply Nat.eqb_eq in J. subst. contradiction.
Qed.
Lemma at_node_In : forall l n i, In i (at_node l n) <-> exists s, nth_error l i = Some s /\ In n s.
Proof.
  intros l n i. unfold at_node. rewrite in_flat_map. split.
  - intros ([j s] & I & J). cbn [fst snd] in J. apply numbered_In in I.
    destruct (times n s) as [|k] eqn:T; [destruct J|]. apply repeat_spec in J. subst j.
    exists s. split; [exact I|]. apply times_pos. lia.
  - intros (s & E & I). exists (i, s). split; [apply numbered_In, E|]. cbn [fst snd]. apply times_pos in I.
    destruct (times n s); [lia|left; reflexivity].
Qed.
Lemma at_node_gen : forall n (l : list simplex) b,
  ascending (flat_map (fun p => repeat (fst p) (times n (snd p))) (combine (seq b (length l)) l)) /\
  Forall (fun i => b <= i) (flat_map (fun p => repeat (fst p) (times n (snd p))) (combine (seq b (length l)) l)) /\
  (Forall (@NoDup nat) l -> NoDup (flat_map (fun p => repeat (fst p) (times n (snd p))) (combine (seq b (length l)) l))).
Proof.
  intros n. induction l as [|s t IH]; intros b; cbn [length seq combine flat_map].
  - split; [constructor|]. split; [constructor|intros _; constructor].
  - destruct (IH (S b)) as (H1 & H2 & H3). cbn [fst snd].
    set (r := flat_map _ _) in *. clearbody r.
    assert (F : Forall (fun i => b <= i) r) by (eapply Forall_impl; [|exact H2]; cbn; intros; lia).
    split; [|split].
    + induction (times n s) as [|k IHk]; cbn; [exact H1|]. constructor; [exact IHk|].
      apply Forall_app. split; [|exact F]. apply Forall_forall. intros x I. apply repeat_spec in I. lia.
    + apply Forall_app. split; [|exact F]. apply Forall_forall. intros x I. apply repeat_spec in I. lia.
    + intros N. inversion N as [|? ? N1 N2]; subst. pose proof (times_NoDup n s N1) as T.
      destruct (times n s) as [|[|k]]; [apply H3, N2| |lia]. cbn. constructor; [|apply H3, N2].
      intros I. rewrite Forall_forall in H2. specialize (H2 _ I). lia.
Qed.
Lemma at_node_sorted : forall l n, ascending (at_node l n).
Proof. intros. apply (at_node_gen n l 0). Qed.
Lemma at_node_NoDup : forall l n, Forall (@NoDup nat) l -> NoDup (at_node l n).
Proof. intros. apply (at_node_gen n l 0). assumption. Qed.

(* ---- elements around a face *)
Lemma around_gen : forall l f acc, ascending acc ->
  let r := fold_left (fun acc m => inter acc (at_node l m)) f acc in
  ascending r /\ (NoDup acc -> NoDup r) /\ forall i, In i r <-> In i acc /\ forall n, In n f -> In i (at_node l n).
Proof.
  intros l. induction f as [|m f IH]; intros acc A; cbn.
  - split; [exact A|]. split; [auto|]. intros i. split; [intros H; split; [exact H|intros n []]|tauto].
  - destruct (inter_spec acc (at_node l m) A (at_node_sorted l m)) as (H1 & H2 & H3).
    destruct (IH _ H2) as (G1 & G2 & G3). cbv zeta in *. split; [exact G1|]. split; [auto|].
    intros i. rewrite G3, H1. split.
    + intros [[Ia Im] H]. split; [exact Ia|]. intros n [<-|I]; auto.
    + intros [Ia H]. split; [split; [exact Ia|apply H; left; reflexivity]|]. intros n I. apply H. right. exact I.
Qed.
Lemma around_spec : forall l f, f <> [] ->
  ascending (around l f) /\ (Forall (@NoDup nat) l -> NoDup (around l f)) /\
  forall i, In i (around l f) <-> exists s, nth_error l i = Some s /\ forall n, In n f -> In n s.
Proof.
  intros l [|n f] N; [congruence|]. cbn [around].
  destruct (around_gen l f (at_node l n) (at_node_sorted l n)) as (H1 & H2 & H3). cbv zeta in *.
  split; [exact H1|]. split; [intros F; apply H2, at_node_NoDup, F|].
  intros i. rewrite H3, at_node_In. split.
  - intros [(s & E & I) H]. exists s. split; [exact E|]. intros m [<-|J]; [exact I|].
    apply H in J. apply at_node_In in J. destruct J as (s' & E' & J). congruence.
  - intros (s & E & H). split; [exists s; split; [exact E|apply H; left; reflexivity]|].
    intros m J. apply at_node_In. exists s. split; [exact E|apply H; right; exact J].
Qed.
(* a set of nodes without repetition contained in another is a face of it *)
Lemma incl_face : forall f s, NoDup f -> (forall n, In n f -> In n s) -> face f s.
Proof.
  induction f as [|x f IH]; intros s N H.
  - exists s. apply Permutation_refl.
  - inversion N; subst. assert (I : In x s) by (apply H; left; reflexivity). apply in_split in I. destruct I as (l1 & l2 & ->).
    destruct (IH (l1 ++ l2)) as [r P]; [assumption| |].
    + intros n I. assert (J : In n (l1 ++ x :: l2)) by (apply H; right; exact I).
      apply in_app_iff in J. apply in_app_iff. destruct J as [J|[->|J]]; auto. contradiction.
    + exists r. cbn. apply Permutation_cons_app, P.
Qed.
Lemma face_incl : forall f s n, face f s -> In n f -> In n s.
Proof. intros f s n [r P] I. apply (Permutation_in _ P), in_app_iff. left. exact I. Qed.
Lemma around_face : forall l f, f <> [] -> NoDup f ->
  forall i, In i (around l f) <-> exists s, nth_error l i = Some s /\ face f s.
Proof.
  intros l f N D i. destruct (around_spec l f N) as (_ & _ & H). rewrite H. split; intros (s & E & F); exists s; (split; [exact E|]).
  - apply incl_face; assumption.
  - intros n. apply face_incl, F.
Qed.

(* ---- tables *)
Lemma set_nth_length : forall A (l : list A) i x, length (set_nth l i x) = length l.
Proof. induction l as [|y t IH]; intros [|i] x; cbn; auto. Qed.
Lemma nth_set_nth : forall A (l : list A) i j x d, nth j (set_nth l i x) d = if (j =? i) && (i <? length l) then x else nth j l d.
Proof.
  induction l as [|y t IH]; intros i j x d.
  - destruct i; cbn; rewrite andb_false_r; reflexivity.
  - destruct i as [|i], j as [|j]; cbn [set_nth nth].
    + reflexivity. + reflexivity. + reflexivity.
    + rewrite IH. cbn [length].
      destruct (Nat.eqb_spec j i), (Nat.eqb_spec (S j) (S i)), (Nat.ltb_spec i (length t)), (Nat.ltb_spec (S i) (S (length t))); try lia; reflexivity.
Qed.
Definition shaped (t : table) (n w : nat) : Prop := length t = n /\ forall i, i < n -> length (nth i t []) = w.
Lemma set_cell_shaped : forall t n w i j v, shaped t n w -> shaped (set_cell t i j v) n w.
Proof.
  intros t n w i j v [L H]. split; [unfold set_cell; rewrite set_nth_length; exact L|].
  intros k K. unfold set_cell. rewrite nth_set_nth.
  destruct (Nat.eqb_spec k i) as [->|]; cbn [andb]; [|apply H, K].
  destruct (i <? length t); [rewrite set_nth_length|]; apply H, K.
Qed.
Lemma cell_set_cell : forall t n w i j v a b, shaped t n w -> a < n -> b < w ->
  cell (set_cell t i j v) a b = if (a =? i) && (b =? j) then Some v else cell t a b.
Proof.
  intros t n w i j v a b [L H] A B. unfold cell, set_cell. rewrite nth_set_nth, L.
  destruct (Nat.eqb_spec a i) as [->|]; cbn [andb]; [|reflexivity].
  destruct (Nat.ltb_spec i n); [|lia]. rewrite nth_set_nth, (H i A).
  destruct (Nat.eqb_spec b j) as [->|]; cbn [andb]; [|reflexivity].
  destruct (Nat.ltb_spec j w); [reflexivity|lia].
Qed.
Lemma fold_cells : forall ws t n w a b, shaped t n w -> a < n -> b < w ->
  let r := fold_left (fun acc x => set_cell acc (fst (fst x)) (snd (fst x)) (snd x)) ws t in
  shaped r n w /\
  ((forall v, ~ In (a, b, v) ws) -> cell r a b = cell t a b) /\
  (forall v, In (a, b, v) ws -> (forall v', In (a, b, v') ws -> v' = v) -> cell r a b = Some v).
Proof.
  induction ws as [|[[i j] x] ws IH]; intros t n w a b S A B; cbn [fold_left fst snd].
  - cbv zeta. split; [exact S|]. split; [reflexivity|intros v []].
  - destruct (IH (set_cell t i j x) n w a b (set_cell_shaped _ _ _ _ _ _ S) A B) as (H1 & H2 & H3).
    cbv zeta in H1, H2, H3 |- *. split; [exact H1|]. split.
    + intros N. rewrite H2 by (intros v I; apply (N v); right; exact I). rewrite (cell_set_cell t n w) by assumption.
      destruct (Nat.eqb_spec a i) as [->|]; [|reflexivity]. destruct (Nat.eqb_spec b j) as [->|]; [|reflexivity].
      exfalso. apply (N x). left. reflexivity.
    + intros v I U.
      (* is there a later write to this cell? *)
      assert (DEC : In (a, b, v) ws \/ ~ exists v', In (a, b, v') ws).
      { assert (D : {In (a, b, v) ws} + {~ In (a, b, v) ws}).
        { apply in_dec. intros [[p q] r] [[p' q'] r']. destruct (Nat.eq_dec p p'), (Nat.eq_dec q q'), (Nat.eq_dec r r'); subst; auto; right; congruence. }
        destruct D as [D|D]; [left; exact D|right]. intros [v' I']. assert (v' = v) by (apply U; right; exact I'). subst. contradiction. }
      destruct DEC as [D|D].
      * apply H3; [exact D|]. intros v' I'. apply U. right. exact I'.
      * rewrite H2 by (intros v' I'; apply D; exists v'; exact I'). rewrite (cell_set_cell t n w) by assumption.
        destruct I as [E|I]; [|exfalso; apply D; exists v; exact I]. injection E as <- <- <-. rewrite !Nat.eqb_refl. reflexivity.
Qed.
Lemma repeat_shaped : forall n w, shaped (repeat (repeat None w) n) n w.
Proof.
  intros n w. split; [apply repeat_length|]. intros i I.
  rewrite (nth_indep _ [] (repeat None w)) by (rewrite repeat_length; exact I). rewrite nth_repeat. apply repeat_length.
Qed.

(* ---- the node that is not on the face *)
Lemma existsb_In : forall n l, existsb (Nat.eqb n) l = true <-> In n l.
Proof.
  intros n l. rewrite existsb_exists. split.
  - intros (x & I & E). apply Nat.eqb_eq in E. subst. exact I.
  - intros I. exists n. split; [exact I|apply Nat.eqb_refl].
Qed.
Lemma first_out_spec : forall f c j, first_out f c = Some j <->
  j < length c /\ ~ In (nth j c 0) f /\ forall k, k < j -> In (nth k c 0) f.
Proof.
  intros f. induction c as [|n c IH]; intros j; cbn [first_out length].
  - split; [discriminate|lia].
  - destruct (existsb (Nat.eqb n) f) eqn:E.
    + apply existsb_In in E. destruct (first_out f c) as [k|] eqn:F; cbn [option_map].
      * destruct j as [|j].
        -- split; [discriminate|]. intros (_ & N & _). cbn in N. contradiction.
        -- assert (Q : Some k = Some j <-> Some (S k) = Some (S j)) by (split; intros H; injection H as ->; reflexivity).
           rewrite <- Q, (IH j). cbn [nth]. split.
           ++ intros (A & B & C). split; [lia|]. split; [exact B|]. intros [|m] M; [exact E|apply C; lia].
           ++ intros (A & B & C). split; [lia|]. split; [exact B|]. intros m M. apply (C (S m)). lia.
      * split; [discriminate|]. intros (A & B & C). destruct j as [|j]; [contradiction|].
        assert (F' : first_out f c = Some j).
        { rewrite F. apply IH. split; [lia|]. split; [exact B|]. intros m M. apply (C (S m)). lia. }
        congruence.
    + assert (N : ~ In n f) by (intros I; apply existsb_In in I; congruence). split.
      * intros H. injection H as <-. split; [lia|]. split; [exact N|]. intros k K. lia.
      * intros (A & B & C). destruct j as [|j]; [reflexivity|]. exfalso. apply N. apply (C 0). lia.
Qed.
(* f has one node less than c: the first node of c outside f is the only one *)
Lemma without_spec : forall f c j, NoDup f -> NoDup c -> length c = S (length f) -> j < length c ->
  (face f c /\ first_out f c = Some j <-> Permutation (nth j c 0 :: f) c).
Proof.
  intros f c j Nf Nc L J. split.
  - intros [F O]. apply first_out_spec in O. destruct O as (_ & O & _). apply NoDup_Permutation_bis.
    + constructor; assumption.
    + cbn. lia.
    + intros n [<-|I]; [apply nth_In, J|eapply face_incl; eassumption].
  - intros P. split.
    + exists [nth j c 0]. eapply Permutation_trans; [apply Permutation_sym, Permutation_cons_append|exact P].
    + apply first_out_spec. split; [exact J|].
      assert (N2 : NoDup (nth j c 0 :: f)) by (apply (Permutation_NoDup (Permutation_sym P)), Nc). inversion N2; subst.
      split; [assumption|]. intros k K.
      assert (I : In (nth k c 0) (nth j c 0 :: f)) by (apply (Permutation_in _ (Permutation_sym P)), nth_In; lia).
      destruct I as [E|I]; [|exact I]. exfalso. apply (NoDup_nth c 0) in E; auto; lia.
Qed.

(* ---- the faces of the cells *)
Section Opposite.
Variables (w : nat) (faces cells : list simplex).
Hypothesis HF : Forall (fun f => length f = w /\ NoDup f /\ ascending f) faces.
Hypothesis HC : Forall (fun c => length c = S w /\ NoDup c) cells.
Hypothesis NF : NoDup faces.
Hypothesis W : 0 < w.
Lemma face_of_index : forall i f, nth_error faces i = Some f -> length f = w /\ NoDup f /\ ascending f.
Proof. intros i f E. rewrite Forall_forall in HF. apply HF. eapply nth_error_In, E. Qed.
Lemma cell_of_index : forall i f, nth_error cells i = Some f -> length f = S w /\ NoDup f.
Proof. intros i f E. rewrite Forall_forall in HC. apply HC. eapply nth_error_In, E. Qed.
Lemma writes_In : forall t j i, In (t, j, i) (writes faces cells (map (around cells) faces)) <->
  exists f c, nth_error faces i = Some f /\ nth_error cells t = Some c /\ j < S w /\ Permutation (nth j c 0 :: f) c.
Proof.
  intros t j i. unfold writes. rewrite in_flat_map. split.
  - intros ([i' f] & I & J). apply numbered_In in I. cbn [fst snd] in J. rewrite in_flat_map in J.
    destruct J as (t' & It & J).
    rewrite (nth_error_nth (map (around cells) faces) i' [] (x := around cells f)) in It by (rewrite nth_error_map, I; reflexivity).
    destruct (face_of_index _ _ I) as (Lf & Df & Af).
    assert (Nf : f <> []) by (intros ->; cbn in Lf; lia).
    apply (around_face cells f Nf Df) in It. destruct It as (c & Ec & Fc).
    destruct (first_out f (nth t' cells [])) as [j'|] eqn:O; [|destruct J]. destruct J as [E|[]]. injection E as -> -> ->.
    rewrite (nth_error_nth cells t [] Ec) in O.
    destruct (cell_of_index _ _ Ec) as (Lc & Dc).
    assert (J : j < length c) by (apply first_out_spec in O; apply O).
    exists f, c. split; [exact I|]. split; [exact Ec|]. split; [lia|].
    apply (without_spec f c j Df Dc); [lia|exact J|]. split; assumption.
  - intros (f & c & Ef & Ec & J & P). exists (i, f). split; [apply numbered_In, Ef|]. cbn [fst snd].
    destruct (face_of_index _ _ Ef) as (Lf & Df & Af). destruct (cell_of_index _ _ Ec) as (Lc & Dc).
    apply (without_spec f c j Df Dc) in P; [|lia|lia]. destruct P as [F O].
    rewrite in_flat_map. exists t. split.
    + rewrite (nth_error_nth (map (around cells) faces) i [] (x := around cells f)) by (rewrite nth_error_map, Ef; reflexivity).
      apply around_face; [intros ->; cbn in Lf; lia|exact Df|]. exists c. auto.
    + rewrite (nth_error_nth cells t [] Ec), O. left. reflexivity.
Qed.
Lemma asc_perm_eq : forall l l', ascending l -> ascending l' -> Permutation l l' -> l = l'.
Proof.
  induction l as [|x t IH]; intros l' H H' P.
  - symmetry. apply Permutation_nil, P.
  - destruct l' as [|y t']; [apply Permutation_sym, Permutation_nil in P; discriminate|].
    inversion H as [|? ? H1 H2]; subst. inversion H' as [|? ? H3 H4]; subst.
    rewrite Forall_forall in H2, H4.
    assert (E : x = y).
    { assert (Ix : In x (y :: t')) by (apply (Permutation_in _ P); left; reflexivity).
      assert (Iy : In y (x :: t)) by (apply (Permutation_in _ (Permutation_sym P)); left; reflexivity).
      destruct Ix as [E|Ix]; [auto|]. destruct Iy as [E|Iy]; [auto|].
      specialize (H2 _ Iy). specialize (H4 _ Ix). lia. }
    subst y. f_equal. apply IH; auto. eapply Permutation_cons_inv; exact P.
Qed.
(* slot j of a cell is the face without its node j, if there is such a face *)
Lemma opposite_spec : forall t c j i f, nth_error cells t = Some c -> j < S w ->
  nth_error faces i = Some f -> Permutation (nth j c 0 :: f) c ->
  cell (opposite (S w) faces cells (map (around cells) faces)) t j = Some i.
Proof.
  intros t c j i f Ec J Ef P. unfold opposite.
  assert (T : t < length cells) by (apply nth_error_Some; congruence).
  destruct (fold_cells (writes faces cells (map (around cells) faces)) (repeat (repeat None (S w)) (length cells)) (length cells) (S w) t j) as (_ & _ & H).
  { apply repeat_shaped. } { exact T. } { exact J. }
  cbv zeta in H. apply H.
  - apply writes_In. exists f, c. auto.
  - intros i' I. apply writes_In in I. destruct I as (f' & c' & Ef' & Ec' & _ & P'). rewrite Ec in Ec'. injection Ec' as <-.
    assert (f' = f).
    { destruct (face_of_index _ _ Ef) as (_ & _ & A). destruct (face_of_index _ _ Ef') as (_ & _ & A').
      apply asc_perm_eq; auto. apply (Permutation_cons_inv (a := nth j c 0)).
      eapply Permutation_trans; [exact P'|apply Permutation_sym, P]. }
    subst f'. apply (proj1 (NoDup_nth_error faces) NF); [apply nth_error_Some; congruence|congruence].
Qed.
Lemma opposite_shaped : shaped (opposite (S w) faces cells (map (around cells) faces)) (length cells) (S w).
Proof.
  unfold opposite. destruct (length cells) eqn:E.
  - (* no cells: nothing is written *)
    assert (WN : writes faces cells (map (around cells) faces) = []).
    { destruct (writes faces cells (map (around cells) faces)) as [|[[t j] i] ws] eqn:Q; [reflexivity|].
      assert (I : In (t, j, i) (writes faces cells (map (around cells) faces))) by (rewrite Q; left; reflexivity).
      apply writes_In in I. destruct I as (f & c & _ & Ec & _). destruct cells; [destruct t; discriminate|discriminate]. }
    rewrite WN. cbn. split; [reflexivity|]. intros i I. lia.
  - destruct (fold_cells (writes faces cells (map (around cells) faces)) (repeat (repeat None (S w)) (S n)) (S n) (S w) 0 0) as (H & _); [|lia|lia|exact H].
    apply repeat_shaped.
Qed.
End Opposite.
