(* Proofs about the decomposition of elements. *)
From Coq Require Import String List Bool Arith Lia Permutation Sorting.Sorted.
Import ListNotations.
Require Import Verif.StrMap Verif.Adjacency Verif.Loader Verif.LoaderSpec.
Local Arguments Nat.ltb : simpl never.
Local Arguments Nat.leb : simpl never.
Local Arguments Nat.eqb : simpl never.

(* ---- sorting numbers *)
Lemma ninsert_perm : forall x l, Permutation (ninsert x l) (x :: l).
Proof.
  intros x. induction l as [|y t IH]; cbn; [apply Permutation_refl|].
  destruct (x <=? y); [apply Permutation_refl|].
  eapply Permutation_trans; [apply perm_skip, IH|apply perm_swap].
Qed.
Lemma nsort_perm : forall l, Permutation (nsort l) l.
Proof.
  induction l as [|x t IH]; cbn; [apply Permutation_refl|].
  eapply Permutation_trans; [apply ninsert_perm|apply perm_skip, IH].
Qed.
Lemma ninsert_sorted : forall x l, ascending l -> ascending (ninsert x l).
Proof.
  intros x. induction l as [|y t IH]; cbn; intros H.
  - constructor; [constructor|constructor].
  - destruct (Nat.leb_spec x y).
    + constructor; [exact H|]. inversion H as [|? ? H1 H2]; subst. constructor; [exact H0|].
      eapply Forall_impl; [|exact H2]. cbn. intros; lia.
    + inversion H as [|? ? H1 H2]; subst. constructor; [apply IH, H1|].
      apply Forall_forall. intros z Hz. apply (Permutation_in _ (ninsert_perm x t)) in Hz.
      destruct Hz as [<-|Hz]; [lia|]. rewrite Forall_forall in H2. apply H2, Hz.
Qed.
Lemma nsort_sorted : forall l, ascending (nsort l).
Proof. induction l as [|x t IH]; cbn; [constructor|apply ninsert_sorted, IH]. Qed.
Lemma sorted_perm_eq : forall l l', ascending l -> ascending l' -> Permutation l l' -> l = l'.
Proof.
  induction l as [|x t IH]; intros l' H H' P.
  - symmetry. apply Permutation_nil, P.
  - destruct l' as [|y t']; [apply Permutation_sym, Permutation_nil in P; discriminate|].
    inversion H as [|? ? H1 H2]; subst. inversion H' as [|? ? H3 H4]; subst.
    rewrite Forall_forall in H2, H4.
    assert (E : x = y).
    { assert (Ix : In x (y :: t')) by (apply (Permutation_in _ P); left; reflexivity).
      assert (Iy : In y (x :: t)) by (apply (Permutation_in _ (Permutation_sym P)); left; reflexivity).
      destruct Ix as [E|Ix]; [auto|]. destruct Iy as [E|Iy]; [auto|].
      specialize (H2 _ Iy). specialize (H4 _ Ix). lia. }
    subst y. f_equal. apply IH; auto. eapply Permutation_cons_inv; exact P.
Qed.
Lemma mk_edge_sort : forall i j, mk_edge i j = nsort [i; j].
Proof.
  intros. unfold mk_edge. cbn [nsort fold_right ninsert]. destruct (Nat.ltb_spec j i), (Nat.leb_spec i j); try lia; reflexivity.
Qed.

(* ---- the lexicographic order on elements with the same number of nodes *)
Lemma same_spec : forall a b, same a b = true <-> a = b.
Proof.
  induction a as [|x a IH]; intros [|y b]; cbn; split; intros H; try discriminate; auto.
  - apply andb_prop in H. destruct H as [H1 H2]. apply Nat.eqb_eq in H1. apply IH in H2. subst. reflexivity.
  - injection H as -> ->. rewrite Nat.eqb_refl. cbn. apply IH. reflexivity.
Qed.
Lemma lex_irrefl : forall a, lex a a = false.
Proof. induction a as [|x a IH]; cbn; [reflexivity|]. rewrite Nat.ltb_irrefl, Nat.eqb_refl. exact IH. Qed.
Lemma lex_total : forall a b, length a = length b -> lex a b = false -> lex b a = false -> a = b.
Proof.
  induction a as [|x a IH]; intros [|y b] L; cbn in *; try discriminate; auto.
  destruct (Nat.ltb_spec x y); [discriminate|]. destruct (Nat.ltb_spec y x); [discriminate|].
  assert (x = y) by lia. subst y. rewrite !Nat.eqb_refl. intros H1 H2. f_equal. apply IH; auto.
Qed.
Lemma lex_le_trans : forall a b c, length a = length b -> length b = length c ->
  lex b a = false -> lex c b = false -> lex c a = false.
Proof.
  induction a as [|x a IH]; intros [|y b] [|z c] L1 L2; cbn in *; try discriminate; auto.
  destruct (Nat.ltb_spec y x); [discriminate|]. destruct (Nat.ltb_spec z y); [discriminate|].
  destruct (Nat.ltb_spec z x); [lia|]. intros H3 H4.
  destruct (Nat.eqb_spec z x); [|reflexivity]. assert (y = x) by lia. subst. rewrite !Nat.eqb_refl in *.
  eapply IH; [| |exact H3|exact H4]; lia.
Qed.
Lemma lex_asym : forall a b, lex a b = true -> lex b a = false.
Proof.
  induction a as [|x a IH]; intros [|y b]; cbn; try discriminate; auto.
  destruct (Nat.ltb_spec x y).
  - intros _. destruct (Nat.ltb_spec y x); [lia|]. destruct (Nat.eqb_spec y x); [lia|reflexivity].
  - destruct (Nat.eqb_spec x y); [|discriminate]. subst. intros H1. rewrite Nat.ltb_irrefl, Nat.eqb_refl. apply IH, H1.
Qed.

Lemma sinsert_perm : forall x l, Permutation (sinsert x l) (x :: l).
Proof.
  intros x. induction l as [|y t IH]; cbn; [apply Permutation_refl|].
  destruct (lex x y); [apply Permutation_refl|].
  eapply Permutation_trans; [apply perm_skip, IH|apply perm_swap].
Qed.
Lemma ssort_perm : forall l, Permutation (ssort l) l.
Proof.
  induction l as [|x t IH]; cbn; [apply Permutation_refl|].
  eapply Permutation_trans; [apply sinsert_perm|apply perm_skip, IH].
Qed.
Definition lexle (a b : simplex) := lex b a = false.
Lemma ssort_sorted : forall k l, Forall (fun s => length s = k) l -> StronglySorted lexle (ssort l).
Proof.
  intros k. induction l as [|x t IH]; intros F; [constructor|].
  inversion F as [|? ? Lx F1]; subst. specialize (IH F1).
  assert (G : Forall (fun s => length s = length x) (ssort t)).
  { apply Forall_forall. intros s Hs. apply (Permutation_in _ (ssort_perm t)) in Hs. rewrite Forall_forall in F1. auto. }
  cbn. fold (ssort t). revert IH G. generalize (ssort t) as l. clear F F1 t.
  induction l as [|y l IHl]; intros H G; cbn; [constructor; constructor|].
  inversion G as [|? ? Ly G1]; subst. inversion H as [|? ? H1 H2]; subst.
  destruct (lex x y) eqn:E.
  - constructor; [exact H|]. constructor; [apply lex_asym, E|].
    rewrite Forall_forall in H2, G1 |- *. intros z Hz. unfold lexle.
    eapply (lex_le_trans x y z); [lia| |apply lex_asym, E|apply (H2 z Hz)]. rewrite (G1 z Hz). lia.
  - constructor; [apply IHl; auto|]. apply Forall_forall. intros z Hz.
    apply (Permutation_in _ (sinsert_perm x l)) in Hz. destruct Hz as [<-|Hz]; [exact E|].
    rewrite Forall_forall in H2. apply H2, Hz.
Qed.
Lemma unique_In : forall x l, In x (unique l) <-> In x l.
Proof.
  intros x. induction l as [|y t IH]; cbn; [tauto|].
  destruct (unique t) as [|z t'] eqn:E.
  - rewrite <- IH. cbn. tauto.
  - destruct (same y z) eqn:S.
    + apply same_spec in S. subst z. rewrite <- IH. cbn. tauto.
    + rewrite <- IH. cbn. tauto.
Qed.
Lemma unique_hd : forall t y, hd_error (unique (y :: t)) = Some y.
Proof.
  intros t y. cbn. destruct (unique t) as [|z t'] eqn:E; [reflexivity|].
  destruct (same y z) eqn:S; [|reflexivity]. apply same_spec in S. subst. reflexivity.
Qed.
(* after sorting, equal elements are adjacent *)
Lemma unique_sorted_NoDup : forall k l, Forall (fun s => length s = k) l -> StronglySorted lexle l -> NoDup (unique l).
Proof.
  intros k. induction l as [|y t IH]; intros F H; [constructor|].
  inversion F as [|? ? Ly F1]; subst. inversion H as [|? ? H1 H2]; subst. specialize (IH F1 H1).
  change (unique (y :: t)) with (match unique t with y0 :: t' => if same y y0 then y0 :: t' else y :: y0 :: t' | [] => [y] end).
  destruct (unique t) as [|z t'] eqn:E; [constructor; [intros []|constructor]|].
  destruct (same y z) eqn:S; [exact IH|]. constructor; [|exact IH].
  intros I. assert (I2 : In y (unique t)) by (rewrite E; exact I). clear I. rename I2 into I. apply (proj1 (unique_In y t)) in I.
  (* y occurs in t; z is the head of t; y <= z <= y *)
  destruct t as [|w t]; [destruct I|].
  assert (Ez : z = w). { assert (Q : hd_error (z :: t') = Some w) by (rewrite <- E; apply unique_hd). injection Q as ->. reflexivity. }
  subst w. apply in_inv in I. destruct I as [I|I].
  - subst z. rewrite (proj2 (same_spec y y) eq_refl) in S. discriminate.
  - inversion H1 as [|? ? H3 H4]; subst. inversion H2; subst. rewrite Forall_forall in H4, F1.
    assert (y = z).
    { apply lex_total; [symmetry; apply F1; left; reflexivity| |].
      - apply (H4 y I). - assumption. }
    subst. rewrite (proj2 (same_spec z z) eq_refl) in S. discriminate.
Qed.
Lemma sort_unique_In : forall x l, In x (sort_unique l) <-> In x l.
Proof.
  intros. unfold sort_unique. rewrite unique_In. split; apply Permutation_in; [|apply Permutation_sym]; apply ssort_perm.
Qed.
Lemma sort_unique_NoDup : forall k l, Forall (fun s => length s = k) l -> NoDup (sort_unique l).
Proof.
  intros k l F. apply (unique_sorted_NoDup k).
  - apply Forall_forall. intros s Hs. apply (Permutation_in _ (ssort_perm l)) in Hs. rewrite Forall_forall in F. auto.
  - apply ssort_sorted with k, F.
Qed.
Lemma unique_sorted : forall l, StronglySorted lexle l -> StronglySorted lexle (unique l).
Proof.
  induction l as [|y t IH]; intros H; [constructor|].
  inversion H as [|? ? H1 H2]; subst. specialize (IH H1). cbn.
  destruct (unique t) as [|z t'] eqn:E; [constructor; constructor|].
  destruct (same y z); [exact IH|]. constructor; [exact IH|].
  apply Forall_forall. intros w Hw.
  assert (I2 : In w (unique t)) by (rewrite E; exact Hw). apply (proj1 (unique_In w t)) in I2. rewrite Forall_forall in H2. auto.
Qed.
(* the nodes come out in ascending order *)
Lemma sort_unique_ascending : forall l, Forall (fun s => length s = 1) l ->
  StronglySorted lt (map (fun s => nth_ s 0) (sort_unique l)).
Proof.
  intros l F. pose proof (sort_unique_NoDup 1 l F) as N.
  assert (G : Forall (fun s => length s = 1) (sort_unique l)).
  { apply Forall_forall. intros s Hs. apply (proj1 (sort_unique_In s l)) in Hs. rewrite Forall_forall in F. auto. }
  assert (S : StronglySorted lexle (sort_unique l)) by (apply unique_sorted, ssort_sorted with 1, F).
  revert N G S. generalize (sort_unique l) as m. induction m as [|x t IH]; intros N G S; cbn; [constructor|].
  inversion N as [|? ? N1 N2]; subst. inversion G as [|? ? G1 G2]; subst. inversion S as [|? ? S1 S2]; subst.
  constructor; [apply IH; auto|]. apply Forall_forall. intros n Hn. apply in_map_iff in Hn. destruct Hn as (s & <- & Hs).
  rewrite Forall_forall in G2, S2. specialize (G2 s Hs). specialize (S2 s Hs).
  destruct x as [|a [|]]; cbn in G1; try discriminate. destruct s as [|b [|]]; cbn in G2; try discriminate.
  unfold lexle in S2. cbn in S2 |- *. unfold nth_. cbn.
  destruct (Nat.ltb_spec b a); [discriminate|]. destruct (Nat.eq_dec a b); [subst; contradiction|lia].
Qed.

(* ---- faces *)
Lemma face_refl : forall s, face s s.
Proof. intros s. exists []. rewrite app_nil_r. apply Permutation_refl. Qed.
Lemma face_trans : forall f g s, face f g -> face g s -> face f s.
Proof.
  intros f g s [r1 P1] [r2 P2]. exists (r1 ++ r2). rewrite app_assoc.
  eapply Permutation_trans; [apply Permutation_app_tail, P1|exact P2].
Qed.
Lemma face_perm_l : forall f f' s, Permutation f f' -> face f s -> face f' s.
Proof.
  intros f f' s P [r Q]. exists r. eapply Permutation_trans; [apply Permutation_app_tail, Permutation_sym, P|exact Q].
Qed.
Lemma face_perm_r : forall f s s', Permutation s s' -> face f s -> face f s'.
Proof. intros f s s' P [r Q]. exists r. eapply Permutation_trans; [exact Q|exact P]. Qed.
Lemma face_length : forall f s, face f s -> length f <= length s.
Proof. intros f s [r P]. apply Permutation_length in P. rewrite app_length in P. lia. Qed.
Lemma face_In : forall f s n, face f s -> In n f -> In n s.
Proof. intros f s n [r P] I. apply (Permutation_in _ P). apply in_or_app. left. exact I. Qed.
(* between a face and an element there is a face of every size *)
Lemma face_step : forall f s, face f s -> length f < length s ->
  exists g, ascending g /\ length g = S (length f) /\ face f g /\ face g s.
Proof.
  intros f s [r P] L. destruct r as [|x r].
  - apply Permutation_length in P. rewrite app_nil_r in P. lia.
  - exists (nsort (f ++ [x])). split; [apply nsort_sorted|]. split.
    + rewrite (Permutation_length (nsort_perm _)), app_length. cbn. lia.
    + split.
      * exists [x]. apply Permutation_sym, nsort_perm.
      * exists r. eapply Permutation_trans; [apply Permutation_app_tail, nsort_perm|]. rewrite <- app_assoc. exact P.
Qed.
(* an ascending face with one node less is the element without one of its nodes *)
Lemma face_pred : forall f s, ascending f -> ascending s -> face f s -> length s = S (length f) ->
  exists l1 x l2, s = l1 ++ x :: l2 /\ f = l1 ++ l2.
Proof.
  intros f s Af As [r P] L.
  destruct r as [|x [|y r]]; pose proof (Permutation_length P) as Q; rewrite app_length in Q; cbn in Q; try lia.
  assert (I : In x s) by (apply (Permutation_in _ P), in_or_app; right; left; reflexivity).
  apply in_split in I. destruct I as (l1 & l2 & ->). exists l1, x, l2. split; [reflexivity|].
  apply sorted_perm_eq; [exact Af| |].
  - clear -As. revert As. induction l1 as [|y l1 IH]; cbn; intros H; inversion H as [|? ? H1 H2]; subst; [exact H1|].
    constructor; [apply IH, H1|]. apply Forall_app in H2. destruct H2 as [H2 H3]. inversion H3; subst. apply Forall_app. auto.
  - pose proof (Permutation_app_inv f [] l1 l2 x P) as R. rewrite app_nil_r in R. exact R.
Qed.
Lemma asc3 : forall a b c, ascending [a; b; c] <-> a <= b /\ b <= c.
Proof.
  intros. split.
  - intros H. inversion H as [|? ? H1 H2]; subst. inversion H1 as [|? ? H3 H4]; subst. inversion H2; subst. inversion H4; subst. auto.
  - intros [H1 H2]. constructor; [constructor; [constructor; [constructor|constructor]|constructor; [lia|constructor]]|].
    constructor; [lia|]. constructor; [lia|constructor].
Qed.
Lemma asc_sort : forall l, ascending l -> nsort l = l.
Proof. intros. apply sorted_perm_eq; [apply nsort_sorted|assumption|apply nsort_perm]. Qed.

Lemma asc_sub : forall l1 x l2, ascending (l1 ++ x :: l2) -> ascending (l1 ++ l2).
Proof.
  induction l1 as [|y l1 IH]; cbn; intros x l2 H; inversion H as [|? ? H1 H2]; subst; [exact H1|].
  constructor; [eapply IH, H1|]. apply Forall_app in H2. destruct H2 as [H2 H3]. inversion H3; subst. apply Forall_app. auto.
Qed.
Lemma faces_of_spec : forall s f, length s = 4 -> ascending s ->
  (In f (faces_of s) <-> length f = 3 /\ ascending f /\ face f s).
Proof.
  intros s f L A. destruct s as [|a [|b [|c [|d [|]]]]]; cbn in L; try discriminate. clear L.
  assert (E : faces_of [a; b; c; d] = [[a; b; c]; [a; b; d]; [a; c; d]; [b; c; d]]).
  { unfold faces_of, mk_triangle, nth_. cbn [nth].
    pose proof (asc_sub [a; b; c] d [] A) as H1. pose proof (asc_sub [a; b] c [d] A) as H2.
    pose proof (asc_sub [a] b [c; d] A) as H3. pose proof (asc_sub [] a [b; c; d] A) as H4. cbn in H1, H2, H3, H4.
    rewrite (asc_sort _ H1), (asc_sort _ H2), (asc_sort _ H3), (asc_sort _ H4). reflexivity. }
  rewrite E. split.
  - intros I.
    assert (exists l1 x l2, [a; b; c; d] = l1 ++ x :: l2 /\ f = l1 ++ l2) as (l1 & x & l2 & E1 & E2).
    { destruct I as [<-|[<-|[<-|[<-|[]]]]].
      - exists [a; b; c], d, []. auto. - exists [a; b], c, [d]. auto. - exists [a], b, [c; d]. auto. - exists [], a, [b; c; d]. auto. }
    subst f. split; [|split].
    + apply (f_equal (@length nat)) in E1. rewrite app_length in *. cbn in E1. lia.
    + rewrite E1 in A. eapply asc_sub, A.
    + rewrite E1. exists [x]. rewrite <- app_assoc. apply Permutation_app_head. apply Permutation_sym, Permutation_cons_append.
  - intros (L & Af & F). destruct (face_pred f _ Af A F) as (l1 & x & l2 & E1 & ->); [cbn; lia|].
    destruct l1 as [|y1 [|y2 [|y3 [|y4 l1]]]]; cbn in E1; injection E1 as; subst; cbn; auto 6.
    destruct l1; discriminate.
Qed.
Lemma edges_of_spec : forall s f, length s = 3 -> ascending s ->
  (In f (edges_of s) <-> length f = 2 /\ ascending f /\ face f s).
Proof.
  intros s f L A. destruct s as [|a [|b [|c [|]]]]; cbn in L; try discriminate. clear L.
  assert (E : edges_of [a; b; c] = [[a; b]; [a; c]; [b; c]]).
  { unfold edges_of, nth_. cbn [nth]. rewrite !mk_edge_sort.
    pose proof (asc_sub [a; b] c [] A) as H1. pose proof (asc_sub [a] b [c] A) as H2.
    pose proof (asc_sub [] a [b; c] A) as H3. cbn in H1, H2, H3.
    rewrite (asc_sort _ H1), (asc_sort _ H2), (asc_sort _ H3). reflexivity. }
  rewrite E. split.
  - intros I.
    assert (exists l1 x l2, [a; b; c] = l1 ++ x :: l2 /\ f = l1 ++ l2) as (l1 & x & l2 & E1 & E2).
    { destruct I as [<-|[<-|[<-|[]]]].
      - exists [a; b], c, []. auto. - exists [a], b, [c]. auto. - exists [], a, [b; c]. auto. }
    subst f. split; [|split].
    + apply (f_equal (@length nat)) in E1. rewrite app_length in *. cbn in E1. lia.
    + rewrite E1 in A. eapply asc_sub, A.
    + rewrite E1. exists [x]. rewrite <- app_assoc. apply Permutation_app_head. apply Permutation_sym, Permutation_cons_append.
  - intros (L & Af & F). destruct (face_pred f _ Af A F) as (l1 & x & l2 & E1 & ->); [cbn; lia|].
    destruct l1 as [|y1 [|y2 [|y3 l1]]]; cbn in E1; injection E1 as; subst; cbn; auto 6.
    destruct l1; discriminate.
Qed.
Lemma nodes_of_spec : forall s f, length s = 2 -> (In f (nodes_of s) <-> length f = 1 /\ ascending f /\ face f s).
Proof.
  intros s f L. destruct s as [|a [|b [|]]]; cbn in L; try discriminate. clear L.
  unfold nodes_of, mk_node, nth_. cbn [nth]. split.
  - intros [<-|[<-|[]]]; (split; [reflexivity|split; [constructor; constructor|]]).
    + exists [b]. apply Permutation_refl. + exists [a]. apply perm_swap.
  - intros (L & _ & F). destruct f as [|x [|]]; cbn in L; try discriminate.
    pose proof (face_In _ _ x F (or_introl eq_refl)) as [->|[->|[]]]; cbn; auto.
Qed.

(* ---- decomposition *)
Definition wf (k : nat) (s : simplex) : Prop := length s = k /\ ascending s.
Record wf_shapes (s : shapes) : Prop := {
  wf_p : Forall (wf 1) (Points s); wf_l : Forall (wf 2) (Lines s);
  wf_t : Forall (wf 3) (Triangles s); wf_tt : Forall (wf 4) (Tetrahedra s) }.
Definition all_of (s : shapes) : list simplex := Points s ++ Lines s ++ Triangles s ++ Tetrahedra s.

Lemma wf_len : forall k l, Forall (wf k) l -> Forall (fun s => length s = k) l.
Proof. intros. eapply Forall_impl; [|eassumption]. intros a [H1 _]; exact H1. Qed.
Lemma part_own : forall k l f, Forall (wf k) l -> (part_of k l f <-> In f l).
Proof.
  intros k l f F. split.
  - intros (L & A & s & I & Fa). rewrite Forall_forall in F. destruct (F s I) as [Ls As].
    destruct Fa as [r P]. pose proof (Permutation_length P) as Q. rewrite app_length in Q.
    destruct r; [|cbn in Q; lia]. rewrite app_nil_r in P. rewrite (sorted_perm_eq f s A As P). exact I.
  - intros I. rewrite Forall_forall in F. destruct (F f I) as [Lf Af]. split; [exact Lf|split; [exact Af|]].
    exists f. split; [exact I|apply face_refl].
Qed.
Lemma part_of_app : forall k a b f, part_of k (a ++ b) f <-> part_of k a f \/ part_of k b f.
Proof.
  intros. unfold part_of. split.
  - intros (L & A & s & I & F). apply in_app_iff in I. destruct I; [left|right]; eauto 6.
  - intros [(L & A & s & I & F)|(L & A & s & I & F)]; (split; [exact L|split; [exact A|exists s; split; [apply in_app_iff; auto|exact F]]]).
Qed.
(* going down one dimension *)
Lemma part_down : forall k els f, Forall (fun s => S k <= length s) els ->
  (part_of k els f <-> length f = k /\ ascending f /\ exists g, part_of (S k) els g /\ face f g).
Proof.
  intros k els f B. split.
  - intros (L & A & s & I & F). split; [exact L|split; [exact A|]]. rewrite Forall_forall in B. specialize (B s I).
    destruct (face_step f s F) as (g & Ag & Lg & F1 & F2); [lia|].
    exists g. split; [split; [lia|split; [exact Ag|exists s; auto]]|exact F1].
  - intros (L & A & g & (Lg & Ag & s & I & F2) & F1). split; [exact L|split; [exact A|]]. exists s. split; [exact I|eapply face_trans; eassumption].
Qed.
Lemma too_small : forall k els f, Forall (fun s => length s < k) els -> ~ part_of k els f.
Proof.
  intros k els f B (L & A & s & I & F). rewrite Forall_forall in B. specialize (B s I). apply face_length in F. lia.
Qed.

Section Decompose.
Variable s : shapes.
Hypothesis W : wf_shapes s.
Let d := decompose s.
Lemma dec_tets : forall f, In f (Tetrahedra d) <-> part_of 4 (all_of s) f.
Proof.
  intros f. unfold d, decompose, all_of. cbn [Tetrahedra]. rewrite sort_unique_In, !part_of_app, (part_own 4 _ f (wf_tt s W)).
  assert (N1 : ~ part_of 4 (Points s) f) by (apply too_small; eapply Forall_impl; [|apply (wf_p s W)]; intros a [H _]; lia).
  assert (N2 : ~ part_of 4 (Lines s) f) by (apply too_small; eapply Forall_impl; [|apply (wf_l s W)]; intros a [H _]; lia).
  assert (N3 : ~ part_of 4 (Triangles s) f) by (apply too_small; eapply Forall_impl; [|apply (wf_t s W)]; intros a [H _]; lia).
  tauto.
Qed.
Lemma dec_tets_wf : Forall (wf 4) (Tetrahedra d).
Proof. apply Forall_forall. intros f I. apply dec_tets in I. destruct I as (L & A & _). split; auto. Qed.
Lemma dec_tris : forall f, In f (Triangles d) <-> part_of 3 (all_of s) f.
Proof.
  intros f. unfold d, decompose. cbn [Triangles]. rewrite sort_unique_In, in_app_iff.
  change (sort_unique (Tetrahedra s)) with (Tetrahedra d). unfold all_of. rewrite !part_of_app, (part_own 3 _ f (wf_t s W)).
  assert (N1 : ~ part_of 3 (Points s) f) by (apply too_small; eapply Forall_impl; [|apply (wf_p s W)]; intros a [H _]; lia).
  assert (N2 : ~ part_of 3 (Lines s) f) by (apply too_small; eapply Forall_impl; [|apply (wf_l s W)]; intros a [H _]; lia).
  assert (Q : In f (flat_map faces_of (Tetrahedra d)) <-> part_of 3 (Tetrahedra s) f).
  { rewrite (part_down 3 (Tetrahedra s) f) by (eapply Forall_impl; [|apply (wf_tt s W)]; intros a [H _]; lia).
    rewrite in_flat_map. split.
    - intros (t & It & If). pose proof dec_tets_wf as WF. rewrite Forall_forall in WF. destruct (WF t It) as [Lt At].
      apply (faces_of_spec t f Lt At) in If. destruct If as (L & A & F). split; [exact L|split; [exact A|]].
      exists t. split; [|exact F]. apply (proj2 (part_own 4 _ t (wf_tt s W))). apply (proj1 (sort_unique_In t (Tetrahedra s))), It.
    - intros (L & A & g & Pg & F). apply (part_own 4 _ g (wf_tt s W)) in Pg. exists g.
      assert (It : In g (Tetrahedra d)) by (apply (proj2 (sort_unique_In g (Tetrahedra s))), Pg).
      split; [exact It|]. pose proof dec_tets_wf as WF. rewrite Forall_forall in WF. destruct (WF g It) as [Lt At].
      apply (faces_of_spec g f Lt At). auto. }
  tauto.
Qed.
Lemma dec_tris_wf : Forall (wf 3) (Triangles d).
Proof. apply Forall_forall. intros f I. apply dec_tris in I. destruct I as (L & A & _). split; auto. Qed.
Lemma dec_lines : forall f, In f (Lines d) <-> part_of 2 (all_of s) f.
Proof.
  intros f. unfold d, decompose. cbn [Lines]. rewrite sort_unique_In, in_app_iff.
  change (sort_unique (Triangles s ++ flat_map faces_of (sort_unique (Tetrahedra s)))) with (Triangles d).
  unfold all_of. rewrite !part_of_app, (part_own 2 _ f (wf_l s W)).
  assert (N1 : ~ part_of 2 (Points s) f) by (apply too_small; eapply Forall_impl; [|apply (wf_p s W)]; intros a [H _]; lia).
  assert (Q : In f (flat_map edges_of (Triangles d)) <-> part_of 2 (Triangles s ++ Tetrahedra s) f).
  { rewrite (part_down 2 (Triangles s ++ Tetrahedra s) f)
      by (apply Forall_app; split; (eapply Forall_impl; [|apply (wf_t s W) || apply (wf_tt s W)]; intros a [H _]; lia)).
    assert (T : forall g, part_of 3 (Triangles s ++ Tetrahedra s) g <-> In g (Triangles d)).
    { intros g. rewrite dec_tris. unfold all_of. rewrite !part_of_app.
      assert (~ part_of 3 (Points s) g) by (apply too_small; eapply Forall_impl; [|apply (wf_p s W)]; intros a [H _]; lia).
      assert (~ part_of 3 (Lines s) g) by (apply too_small; eapply Forall_impl; [|apply (wf_l s W)]; intros a [H0 _]; lia).
      tauto. }
    rewrite in_flat_map. pose proof dec_tris_wf as WF. rewrite Forall_forall in WF. split.
    - intros (t & It & If). destruct (WF t It) as [Lt At].
      apply (edges_of_spec t f Lt At) in If. destruct If as (L & A & F). split; [exact L|split; [exact A|]].
      exists t. split; [apply T, It|exact F].
    - intros (L & A & g & Pg & F). apply T in Pg. exists g. split; [exact Pg|]. destruct (WF g Pg) as [Lt At].
      apply (edges_of_spec g f Lt At). auto. }
  rewrite part_of_app in Q. tauto.
Qed.
Lemma dec_lines_wf : Forall (wf 2) (Lines d).
Proof. apply Forall_forall. intros f I. apply dec_lines in I. destruct I as (L & A & _). split; auto. Qed.
Lemma dec_points : forall f, In f (Points d) <-> part_of 1 (all_of s) f.
Proof.
  intros f. unfold d, decompose. cbn [Points]. rewrite sort_unique_In, in_app_iff.
  change (sort_unique (Lines s ++ flat_map edges_of (sort_unique (Triangles s ++ flat_map faces_of (sort_unique (Tetrahedra s)))))) with (Lines d).
  unfold all_of. rewrite part_of_app, (part_own 1 _ f (wf_p s W)).
  assert (Q : In f (flat_map nodes_of (Lines d)) <-> part_of 1 (Lines s ++ Triangles s ++ Tetrahedra s) f).
  { rewrite (part_down 1 (Lines s ++ Triangles s ++ Tetrahedra s) f)
      by (apply Forall_app; split; [|apply Forall_app; split];
          (eapply Forall_impl; [|apply (wf_l s W) || apply (wf_t s W) || apply (wf_tt s W)]; intros a [H _]; lia)).
    assert (T : forall g, part_of 2 (Lines s ++ Triangles s ++ Tetrahedra s) g <-> In g (Lines d)).
    { intros g. rewrite dec_lines. unfold all_of. rewrite (part_of_app 2 (Points s)).
      assert (~ part_of 2 (Points s) g) by (apply too_small; eapply Forall_impl; [|apply (wf_p s W)]; intros a [H _]; lia).
      tauto. }
    rewrite in_flat_map. pose proof dec_lines_wf as WF. rewrite Forall_forall in WF. split.
    - intros (t & It & If). destruct (WF t It) as [Lt At].
      apply (nodes_of_spec t f Lt) in If. destruct If as (L & A & F). split; [exact L|split; [exact A|]].
      exists t. split; [apply T, It|exact F].
    - intros (L & A & g & Pg & F). apply T in Pg. exists g. split; [exact Pg|]. destruct (WF g Pg) as [Lt At].
      apply (nodes_of_spec g f Lt). auto. }
  tauto.
Qed.
Lemma dec_points_wf : Forall (wf 1) (Points d).
Proof. apply Forall_forall. intros f I. apply dec_points in I. destruct I as (L & A & _). split; auto. Qed.
Lemma dec_NoDup : NoDup (Points d) /\ NoDup (Lines d) /\ NoDup (Triangles d) /\ NoDup (Tetrahedra d).
Proof.
  assert (D : forall k l, Forall (wf k) (sort_unique l) -> NoDup (sort_unique l)).
  { intros k l F. apply sort_unique_NoDup with k. apply Forall_forall. intros x I. rewrite Forall_forall in F.
    apply (F x). apply (proj2 (sort_unique_In x l)), I. }
  split; [|split; [|split]]; eapply D.
  - apply dec_points_wf. - apply dec_lines_wf. - apply dec_tris_wf. - apply dec_tets_wf.
Qed.
End Decompose.
