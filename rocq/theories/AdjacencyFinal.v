(* FinalizeMesh on complete regions. *)
From Coq Require Import List Bool Arith Lia Permutation Sorting.Sorted.
Import ListNotations.
Require Import Verif.Adjacency Verif.LoaderSpec Verif.AdjacencySpec Verif.AdjacencyProofs.
Local Arguments Nat.ltb : simpl never.
Local Arguments Nat.leb : simpl never.
Local Arguments Nat.eqb : simpl never.

Lemma face_without : forall f c, NoDup c -> length c = S (length f) -> face f c -> exists j, j < length c /\ opposite_to f c j.
Proof.
  intros f c N L [r P]. pose proof (Permutation_length P) as Q. rewrite app_length in Q.
  destruct r as [|n [|? ?]]; cbn in Q; try lia.
  assert (I : In n c) by (apply (Permutation_in _ P), in_app_iff; right; left; reflexivity).
  apply (In_nth _ _ 0) in I. destruct I as (j & J & E). exists j. split; [exact J|]. unfold opposite_to. rewrite E.
  eapply Permutation_trans; [apply Permutation_cons_append|exact P].
Qed.
Lemma opposite_face : forall f c j, opposite_to f c j -> face f c.
Proof. intros f c j P. exists [nth j c 0]. eapply Permutation_trans; [apply Permutation_sym, Permutation_cons_append|exact P]. Qed.

Fixpoint removed (c : list nat) (j : nat) : list nat :=
  match c, j with [], _ => [] | _ :: t, 0 => t | n :: t, S j => n :: removed t j end.
Lemma removed_perm : forall c j, j < length c -> opposite_to (removed c j) c j.
Proof.
  unfold opposite_to. induction c as [|n c IH]; intros [|j] J; cbn in *; try lia; [apply Permutation_refl|].
  eapply Permutation_trans; [apply perm_swap|]. apply perm_skip, IH. lia.
Qed.
Lemma removed_incl : forall c j x, In x (removed c j) -> In x c.
Proof. induction c as [|n c IH]; intros [|j] x; cbn; auto. intros [H|H]; eauto. Qed.
Lemma removed_asc : forall c j, ascending c -> ascending (removed c j).
Proof.
  induction c as [|n c IH]; intros [|j] A; cbn; auto; inversion A as [|? ? A1 A2]; subst; [exact A1|].
  constructor; [apply IH, A1|]. rewrite Forall_forall in A2 |- *. intros x I. apply A2, (removed_incl _ _ _ I).
Qed.
Lemma removed_length : forall c j, j < length c -> S (length (removed c j)) = length c.
Proof. induction c as [|n c IH]; intros [|j] J; cbn in *; try lia. rewrite IH; lia. Qed.

(* ---- the rows of a complete table *)
Lemma row_full : forall (row : list (option nat)) , (forall j, j < length row -> nth j row None <> None) -> exists l, row = map Some l.
Proof.
  induction row as [|x t IH]; intros H; [exists []; reflexivity|].
  destruct IH as [l ->]. { intros j J. apply (H (S j)). cbn. lia. }
  destruct x as [x|]; [exists (x :: l); reflexivity|]. exfalso. apply (H 0); cbn; [lia|reflexivity].
Qed.
Section Rows.
Variables (w : nat) (faces cells : list simplex).
Hypothesis SF : simplices w faces.
Hypothesis SC : simplices (S w) cells.
Hypothesis HS : has_sides w faces cells.
Hypothesis W : 0 < w.
Let tab := opposite (S w) faces cells (map (around cells) faces).
Local Lemma HF : Forall (fun f => length f = w /\ NoDup f /\ ascending f) faces. Proof. apply SF. Qed.
Local Lemma HC : Forall (fun c => length c = S w /\ NoDup c) cells.
Proof. destruct SC as [_ H]. eapply Forall_impl; [|exact H]. cbn. intros c (A & B & _). auto. Qed.
Lemma side_of : forall t c j, nth_error cells t = Some c -> j < S w ->
  exists i f, nth_error faces i = Some f /\ opposite_to f c j /\ cell tab t j = Some i.
Proof.
  intros t c j E J. destruct SC as [_ H]. rewrite Forall_forall in H. destruct (H c (nth_error_In _ _ E)) as (L & D & A).
  assert (J' : j < length c) by lia.
  assert (I : In (removed c j) faces).
  { apply (HS (removed c j) c); [apply (nth_error_In _ _ E)| |apply removed_asc, A|apply (opposite_face _ _ j), removed_perm, J'].
    pose proof (removed_length c j J'). lia. }
  apply In_nth_error in I. destruct I as [i Ei]. exists i, (removed c j). split; [exact Ei|]. split; [apply removed_perm, J'|].
  apply (opposite_spec w faces cells HF HC (proj1 SF) W t c j i (removed c j)); auto. apply removed_perm, J'.
Qed.
Lemma side_iff : forall t c j i, nth_error cells t = Some c -> j < S w ->
  (cell tab t j = Some i <-> exists f, nth_error faces i = Some f /\ opposite_to f c j).
Proof.
  intros t c j i E J. split.
  - intros Q. destruct (side_of t c j E J) as (i' & f & Ef & P & Q'). rewrite Q in Q'. injection Q' as <-. exists f. auto.
  - intros (f & Ef & P). apply (opposite_spec w faces cells HF HC (proj1 SF) W t c j i f); auto.
Qed.
Lemma row_spec : forall t c, nth_error cells t = Some c -> exists l, nth t tab [] = map Some l /\ length l = S w /\
  Forall2 (fun i j => exists f, nth_error faces i = Some f /\ opposite_to f c j) l (seq 0 (S w)).
Proof.
  intros t c E. assert (T : t < length cells) by (apply nth_error_Some; congruence).
  destruct (opposite_shaped w faces cells HF HC W) as [L H]. specialize (H t T). fold tab in L, H.
  destruct (row_full (nth t tab [])) as [l El].
  { intros j J. rewrite H in J. destruct (side_of t c j E J) as (i & f & _ & _ & Q). unfold cell in Q. rewrite Q. discriminate. }
  exists l. assert (Ll : length l = S w) by (rewrite El, map_length in H; exact H).
  split; [exact El|]. split; [exact Ll|].
  assert (G : forall j, j < S w -> exists f, nth_error faces (nth j l 0) = Some f /\ opposite_to f c j).
  { intros j J. apply (side_iff t c j (nth j l 0) E J). unfold cell. rewrite El.
    rewrite (nth_indep _ None (Some 0)) by (rewrite map_length; lia). apply map_nth. }
  clear - G Ll. revert l Ll G. generalize (S w) as n.
  assert (K : forall n l b, length l = n ->
    (forall j, j < n -> exists f, nth_error faces (nth j l 0) = Some f /\ opposite_to f c (b + j)) ->
    Forall2 (fun i j => exists f, nth_error faces i = Some f /\ opposite_to f c j) l (seq b n)).
  { induction n as [|n IH]; intros [|x l] b Ll G; try discriminate; cbn [seq]; [constructor|]. constructor.
    - specialize (G 0 (Nat.lt_0_succ n)). rewrite Nat.add_0_r in G. exact G.
    - apply IH; [cbn in Ll; lia|]. intros j J. destruct (G (S j)) as (f & F1 & F2); [lia|]. exists f.
      split; [exact F1|]. replace (S b + j) with (b + S j) by lia. exact F2. }
  intros n l Ll G. apply K; assumption.
Qed.
Lemma on_triangle_full : forall l e, on_triangle (map Some l) e = Some (existsb (fun x => x =? e) l).
Proof. induction l as [|x l IH]; intros e; cbn; [reflexivity|]. destruct (x =? e); [reflexivity|apply IH]. Qed.
Lemma row_faces : forall t c i f, nth_error cells t = Some c -> nth_error faces i = Some f ->
  exists b, on_triangle (nth t tab []) i = Some b /\ (b = true <-> face f c).
Proof.
  intros t c i f E Ef. destruct (row_spec t c E) as (l & El & Ll & F2). rewrite El, on_triangle_full. eexists. split; [reflexivity|].
  rewrite existsb_exists. split.
  - intros (x & I & Q). apply Nat.eqb_eq in Q. subst x. clear - F2 I Ef. induction F2 as [|x j l s H F2 IH]; [destruct I|].
    destruct I as [->|I]; [|auto]. destruct H as (f' & E' & P). rewrite Ef in E'. injection E' as <-. apply (opposite_face _ _ _ P).
  - intros F. exists i. split; [|apply Nat.eqb_refl].
    destruct SC as [_ H]. rewrite Forall_forall in H. destruct (H c (nth_error_In _ _ E)) as (Lc & D & A).
    pose proof HF as G. rewrite Forall_forall in G. destruct (G f (nth_error_In _ _ Ef)) as (Lf & _).
    destruct (face_without f c D) as (j & J & P); [lia|exact F|].
    assert (Q : cell tab t j = Some i) by (apply (side_iff t c j i E); [lia|exists f; auto]).
    unfold cell in Q. rewrite El in Q. rewrite (nth_indep _ None (Some 0)) in Q by (rewrite map_length; lia). rewrite map_nth in Q.
    injection Q as <-. apply nth_In. lia.
Qed.
End Rows.

(* ---- the two faces at an edge of a tetrahedron *)
Definition opp_of (tris : list simplex) (edge : simplex) (f : nat) : option nat :=
  match first_out edge (nth f tris []) with Some k => nth_error (nth f tris []) k | None => None end.
Lemma faces_with_full : forall te tris edge e (b : nat -> bool) fs j,
  (forall f, In f fs -> on_triangle (nth f te []) e = Some (b f)) ->
  faces_with te tris edge e (map Some fs) j =
  Some (flat_map (fun p => if b (snd p) then [(fst p, snd p, opp_of tris edge (snd p))] else []) (combine (seq j (length fs)) fs)).
Proof.
  intros te tris edge e b. induction fs as [|f fs IH]; intros j H; [reflexivity|].
  cbn [map faces_with length seq combine flat_map fst snd].
  rewrite (H f (or_introl eq_refl)), (IH (S j)) by (intros g I; apply H; right; exact I).
  fold (opp_of tris edge f). destruct (b f); reflexivity.
Qed.
Lemma F2_count : forall (b : nat -> bool) (g : nat -> bool) (o : nat -> option nat) fs ns j, Forall2 (fun f n => b f = g n) fs ns ->
  length (flat_map (fun p => if b (snd p) then [(fst p, snd p, o (snd p))] else []) (combine (seq j (length fs)) fs)) = length (filter g ns).
Proof.
  intros b g o fs ns j F. revert j. induction F as [|f n fs ns E F IH]; intros j; [reflexivity|].
  cbn [length seq combine flat_map filter fst snd]. rewrite app_length, IH, E. destruct (g n); reflexivity.
Qed.
Lemma filter_length_perm : forall (g : nat -> bool) l l', Permutation l l' -> length (filter g l) = length (filter g l').
Proof. intros g l l' P. induction P; cbn; repeat match goal with |- context [if ?x then _ else _] => destruct x end; cbn; congruence. Qed.
Lemma filter_none : forall A (g : A -> bool) l, (forall x, In x l -> g x = false) -> filter g l = [].
Proof. induction l as [|x l IH]; intros H; cbn; [reflexivity|]. rewrite (H x (or_introl eq_refl)). apply IH. intros y I. apply H. right. exact I. Qed.
Lemma filter_all : forall A (g : A -> bool) l, (forall x, In x l -> g x = true) -> filter g l = l.
Proof. induction l as [|x l IH]; intros H; cbn; [reflexivity|]. rewrite (H x (or_introl eq_refl)). f_equal. apply IH. intros y I. apply H. right. exact I. Qed.
Lemma NoDup_app_out : forall (l r : list nat) x, NoDup (l ++ r) -> In x r -> ~ In x l.
Proof.
  induction l as [|y l IH]; intros r x N I J; [destruct J|]. cbn in N. inversion N; subst. destruct J as [->|J].
  - apply H1, in_app_iff. right. exact I.
  - eapply IH; eassumption.
Qed.
Lemma outside_count : forall e c, NoDup c -> face e c -> length (filter (fun n => negb (existsb (Nat.eqb n) e)) c) + length e = length c.
Proof.
  intros e c N [r P]. rewrite <- (filter_length_perm _ _ _ P), filter_app, app_length.
  rewrite filter_none, filter_all.
  - rewrite <- (Permutation_length P), app_length. cbn. lia.
  - intros x I. destruct (existsb (Nat.eqb x) e) eqn:E; [|reflexivity]. exfalso. apply existsb_In in E.
    apply (Permutation_NoDup (Permutation_sym P)) in N. exact (NoDup_app_out _ _ _ N I E).
  - intros x I. apply existsb_In in I. rewrite I. reflexivity.
Qed.

Section Tets.
Variables (edges tris tets : list simplex).
Hypothesis CR : complete_region edges tris tets.
Let te := opposite 3 edges tris (map (around tris) edges).
Let tt := opposite 4 tris tets (map (around tets) tris).
Definition good_data (d : edgedata) (e : nat) (edge c : list nat) : Prop :=
  ed_edge d = e /\ length (ed_faces d) = 2 /\ NoDup (map (fun x => fst (fst x)) (ed_faces d)) /\
  forall j f o, In (j, f, o) (ed_faces d) -> exists s n, nth_error tris f = Some s /\ j < 4 /\ opposite_to s c j /\
    o = Some n /\ Permutation (n :: edge) s.
Lemma flat_slots : forall (b : nat -> bool) (o : nat -> option nat) fs j,
  let l := flat_map (fun p => if b (snd p) then [(fst p, snd p, o (snd p))] else []) (combine (seq j (length fs)) fs) in
  NoDup (map (fun x => fst (fst x)) l) /\
  forall x f y, In (x, f, y) l <-> j <= x /\ nth_error fs (x - j) = Some f /\ b f = true /\ y = o f.
Proof.
  intros b o. induction fs as [|g fs IH]; intros j; cbn [length seq combine flat_map fst snd]; cbv zeta.
  - split; [constructor|]. intros x f y. split; [intros []|]. intros (_ & H & _). destruct (x - j); discriminate.
  - destruct (IH (S j)) as [H1 H2]. set (r := flat_map _ _) in *. clearbody r. cbv zeta in *. split.
    + destruct (b g); [|exact H1]. cbn. constructor; [|exact H1]. intros I. apply in_map_iff in I.
      destruct I as ([[x f] y] & E & I). cbn in E. subst x. apply H2 in I. lia.
    + intros x f y. rewrite in_app_iff, H2. split.
      * intros [I|(A & B & C)].
        -- destruct (b g) eqn:Bg; [|destruct I]. destruct I as [E|[]]. injection E as <- <- <-.
           rewrite Nat.sub_diag. auto.
        -- split; [lia|]. replace (x - j) with (S (x - S j)) by lia. auto.
      * intros (A & B & C & D). destruct (Nat.eq_dec x j) as [->|N].
        -- left. rewrite Nat.sub_diag in B. cbn in B. injection B as ->. rewrite C, D. left. reflexivity.
        -- right. split; [lia|]. replace (x - j) with (S (x - S j)) in B by lia. auto.
Qed.
Lemma one_pair : forall e edge t c, nth_error edges e = Some edge -> nth_error tets t = Some c -> face edge c ->
  exists l, faces_with te tris edge e (nth t tt []) 0 = Some l /\ length l = 2 /\ good_data {| ed_edge := e; ed_faces := l |} e edge c.
Proof.
  intros e edge t c Ee Et F. destruct CR as [SE ST SQ H2 H3].
  destruct (row_spec 3 tris tets ST SQ H3 ltac:(lia) t c Et) as (fs & Efs & Lfs & FF). fold tt in Efs.
  pose proof SE as [NE FE]. rewrite Forall_forall in FE. destruct (FE edge (nth_error_In _ _ Ee)) as (Le & De & Ae).
  destruct SQ as [NQ FQ]. rewrite Forall_forall in FQ. destruct (FQ c (nth_error_In _ _ Et)) as (Lc & Dc & Ac).
  set (b := fun f => match nth_error tris f with Some s => forallb (fun n => existsb (Nat.eqb n) s) edge | None => false end).
  assert (BT : forall f s, nth_error tris f = Some s -> (b f = true <-> face edge s)).
  { intros f s E. unfold b. rewrite E, forallb_forall. split.
    - intros H. apply incl_face; [exact De|]. intros n I. apply existsb_In, H, I.
    - intros G n I. apply existsb_In, (face_incl _ _ _ G I). }
  assert (OT : forall f, In f fs -> on_triangle (nth f te []) e = Some (b f)).
  { intros f I. assert (G : exists s, nth_error tris f = Some s).
    { clear - FF I. induction FF as [|x j l q H F2 IH]; [destruct I|]. destruct I as [->|I]; [|auto].
      destruct H as (s & H & _). exists s. exact H. }
    destruct G as [s G]. destruct (row_faces 2 edges tris SE ST H2 ltac:(lia) f s e edge G Ee) as (b' & Q & R).
    fold te in Q. rewrite Q. f_equal. pose proof (BT f s G) as R2. destruct b', (b f); auto; [symmetry; apply R2, R|apply R, R2]; reflexivity. }
  rewrite Efs, (faces_with_full te tris edge e b fs 0 OT). eexists. split; [reflexivity|].
  assert (SL := flat_slots b (opp_of tris edge) fs 0). cbv zeta in SL. destruct SL as [S1 S2].
  assert (LEN : length (flat_map (fun p => if b (snd p) then [(fst p, snd p, opp_of tris edge (snd p))] else []) (combine (seq 0 (length fs)) fs)) = 2).
  { rewrite (F2_count b (fun n => negb (existsb (Nat.eqb n) edge)) (opp_of tris edge) fs c 0).
    - pose proof (outside_count edge c Dc F). lia.
    - (* the face in slot j has the edge iff node j is not on it *)
      assert (G : forall l i0, Forall2 (fun i j => exists f, nth_error tris i = Some f /\ opposite_to f c j) l (seq i0 (length l)) ->
        forall c2, (forall j, j < length l -> nth_error c2 j = nth_error c (i0 + j)) -> length c2 = length l -> i0 + length l <= length c ->
        Forall2 (fun f n => b f = negb (existsb (Nat.eqb n) edge)) l c2).
      { induction l as [|f l IH]; intros i0 FF' c2 HC2 L2 LB.
        - destruct c2; [constructor|discriminate].
        - destruct c2 as [|n c2]; [discriminate|]. cbn [length seq] in FF'. inversion FF' as [|? ? ? ? Hf Hr]; subst. constructor.
          + destruct Hf as (s & Es & P). unfold opposite_to in P.
            assert (En : nth i0 c 0 = n).
            { specialize (HC2 0 ltac:(cbn; lia)). cbn in HC2. rewrite Nat.add_0_r in HC2. symmetry in HC2. apply nth_error_nth, HC2. }
            rewrite En in P. pose proof (Permutation_NoDup (Permutation_sym P) Dc) as N2. inversion N2 as [|? ? N3 N4]; subst.
            destruct (existsb (Nat.eqb (nth i0 c 0)) edge) eqn:X; cbn.
            * apply existsb_In in X. destruct (b f) eqn:Bf; [|reflexivity]. exfalso. apply (BT f s Es) in Bf.
              apply N3. exact (face_incl _ _ _ Bf X).
            * apply (BT f s Es). apply incl_face; [exact De|]. intros m I.
              pose proof (Permutation_in _ (Permutation_sym P) (face_incl _ _ _ F I)) as J. destruct J as [<-|J]; [|exact J].
              exfalso. apply existsb_In in I. congruence.
          + apply (IH (S i0)); [exact Hr| | cbn in L2; lia | cbn in LB; lia].
            intros j J. specialize (HC2 (S j) ltac:(cbn; lia)). cbn in HC2. rewrite HC2. f_equal. lia. }
      apply (G fs 0); [rewrite Lfs; exact FF|intros; reflexivity|lia|lia]. }
  split; [exact LEN|]. split; [reflexivity|]. split; [exact LEN|]. split; [exact S1|].
  cbn [ed_faces]. intros j f o I. apply S2 in I. destruct I as (_ & Ej & Bf & ->). rewrite Nat.sub_0_r in Ej.
  assert (J : j < length fs) by (apply nth_error_Some; congruence).
  assert (G : exists s, nth_error tris f = Some s /\ opposite_to s c j).
  { clear - FF Ej Lfs. revert FF. rewrite <- Lfs. clear Lfs. 
    assert (K : forall fs i0 j, nth_error fs j = Some f -> Forall2 (fun i j => exists f, nth_error tris i = Some f /\ opposite_to f c j) fs (seq i0 (length fs)) -> 
      exists s, nth_error tris f = Some s /\ opposite_to s c (i0 + j)).
    { clear. induction fs as [|g fs IH]; intros i0 j E FF; [destruct j; discriminate|]. cbn [length seq] in FF. inversion FF as [|? ? ? ? H1 H2]; subst.
      destruct j as [|j]; cbn in E; [injection E as ->; rewrite Nat.add_0_r; exact H1|].
      destruct (IH (S i0) j E H2) as (s & A & B). exists s. split; [exact A|]. replace (i0 + S j) with (S i0 + j) by lia. exact B. }
    intros FF. apply (K fs 0 j Ej FF). }
  destruct G as (s & Es & P). exists s.
  destruct ST as [NT FT]. rewrite Forall_forall in FT. destruct (FT s (nth_error_In _ _ Es)) as (Ls & Ds & As).
  pose proof (proj1 (BT f s Es) Bf) as Fs. destruct (face_without edge s Ds) as (k & K & Pk); [lia|exact Fs|].
  assert (O : first_out edge s = Some k) by (apply (without_spec edge s k De Ds); [lia|exact K|exact Pk]).
  exists (nth k s 0). split; [exact Es|]. split; [lia|]. split; [exact P|]. split; [|exact Pk].
  unfold opp_of. rewrite (nth_error_nth tris f [] Es), O. apply nth_error_nth'. exact K.
Qed.
Lemma edge_data_spec : forall pairs acc,
  Forall (fun p => exists edge c, nth_error edges (fst p) = Some edge /\ nth_error tets (snd p) = Some c /\ face edge c) pairs ->
  length acc = length tets ->
  exists d, edge_data edges tris te tt pairs acc = Finished d /\ length d = length tets /\
  forall t c, nth_error tets t = Some c -> exists ds, nth t d [] = nth t acc [] ++ ds /\
    Forall2 (fun e x => exists edge, nth_error edges e = Some edge /\ good_data x e edge c)
      (map fst (filter (fun p => snd p =? t) pairs)) ds.
Proof.
  induction pairs as [|[e t] rest IH]; intros acc F L.
  - exists acc. split; [reflexivity|]. split; [exact L|]. intros t c E. exists []. split; [symmetry; apply app_nil_r|constructor].
  - inversion F as [|? ? (edge & c & Ee & Et & Fc) F']; subst. cbn [fst snd] in *. cbn [edge_data].
    destruct (one_pair e edge t c Ee Et Fc) as (l & E1 & E2 & E3).
    rewrite (nth_error_nth edges e [] Ee), E1, E2.
    change (2 <? 2) with false. change (2 =? 2) with true. cbv iota.
    set (acc' := set_nth acc t _). destruct (IH acc' F') as (d & Ed & Ld & Hd); [unfold acc'; rewrite set_nth_length; exact L|].
    exists d. split; [exact Ed|]. split; [exact Ld|]. intros t' c' Et'. destruct (Hd t' c' Et') as (ds & A & B).
    assert (T' : t' < length tets) by (apply nth_error_Some; congruence).
    assert (N : nth t' acc' [] = nth t' acc [] ++ if t =? t' then [{| ed_edge := e; ed_faces := l |}] else []).
    { unfold acc'. rewrite nth_set_nth, L. rewrite (Nat.eqb_sym t t'). destruct (Nat.eqb_spec t' t) as [->|]; cbn [andb]; [|rewrite app_nil_r; reflexivity].
      destruct (Nat.ltb_spec t (length tets)); [reflexivity|lia]. }
    rewrite N in A. cbn [filter snd]. destruct (Nat.eqb_spec t t') as [<-|NE].
    + rewrite Et in Et'. injection Et' as <-. exists ({| ed_edge := e; ed_faces := l |} :: ds). split; [rewrite A, <- app_assoc; reflexivity|].
      cbn [map fst]. constructor; [exists edge; split; [exact Ee|exact E3]|exact B].
    + rewrite app_nil_r in A. exists ds. split; [exact A|exact B].
Qed.
End Tets.
