(* Evaluation of model expressions: proofs *)
From Coq Require Import String List Bool Arith Lia.
From Verif Require Import StrMap ModelData ModelDataProperties ModelExpr ModelExprSpec.
Import ListNotations.
Open Scope list_scope.

Lemma nth_error_put_at : forall {A} (l : list A) i v j, i < length l ->
  nth_error (put_at l i v) j = if j =? i then Some v else nth_error l j.
Proof.
  intros A. unfold put_at. induction l as [|x l IH]; intros i v j Hi; cbn in Hi; [lia|].
  destruct i as [|i]; cbn [firstn skipn app].
  - destruct j; reflexivity.
  - destruct j as [|j]; [reflexivity|]. cbn [nth_error]. rewrite IH by lia. reflexivity.
Qed.
Lemma map_nth_repeat : forall {A} (v z : A) n l, Forall (fun e => e < n) l -> map (fun e => nth e (repeat v n) z) l = repeat v (length l).
Proof.
  intros A v z n l H. induction H as [|e l He _ IH]; [reflexivity|]. cbn [map length repeat]. f_equal; [|exact IH].
  rewrite nth_indep with (d' := v) by (rewrite repeat_length; exact He). apply nth_repeat.
Qed.
Lemma existsb_repeat : forall {A} (f : A -> bool) v n, n <> 0 -> existsb f (repeat v n) = f v.
Proof.
  intros A f v n H. destruct (f v) eqn:E.
  - apply existsb_exists. exists v. split; [|exact E]. destruct n; [congruence|left; reflexivity].
  - clear H. induction n; [reflexivity|]. cbn. rewrite E. exact IHn.
Qed.
Lemma nth_repeat_lt : forall {A} (v d : A) n i, i < n -> nth i (repeat v n) d = v.
Proof. intros A v d n i H. rewrite nth_indep with (d' := v) by (rewrite repeat_length; exact H). apply nth_repeat. Qed.
Lemma Forall2_nth_map : forall {A B} (l : list A) (f : A -> B), Forall2 (fun a b => b = f a) l (map f l).
Proof. intros A B l f. induction l; constructor; auto. Qed.
Lemma map_combine_repeat_r : forall {A B C} (f : A -> B -> C) (l : list A) v, map (fun q => f (fst q) (snd q)) (combine l (repeat v (length l))) = map (fun x => f x v) l.
Proof. intros A B C f l v. induction l as [|x l IH]; [reflexivity|]. cbn [length repeat combine map fst snd]. rewrite IH. reflexivity. Qed.
Lemma map_combine_repeat_l : forall {A B C} (f : A -> B -> C) (l : list B) v, map (fun q => f (fst q) (snd q)) (combine (repeat v (length l)) l) = map (fun x => f v x) l.
Proof. intros A B C f l v. induction l as [|x l IH]; [reflexivity|]. cbn [length repeat combine map fst snd]. rewrite IH. reflexivity. Qed.
Lemma existsb_combine_repeat_r : forall {A B} (f : A -> B -> bool) (l : list A) v, existsb (fun q => f (fst q) (snd q)) (combine l (repeat v (length l))) = existsb (fun x => f x v) l.
Proof. intros A B f l v. induction l as [|x l IH]; [reflexivity|]. cbn [length repeat combine existsb fst snd]. rewrite IH. reflexivity. Qed.
Lemma existsb_combine_repeat_l : forall {A B} (f : A -> B -> bool) (l : list B) v, existsb (fun q => f (fst q) (snd q)) (combine (repeat v (length l)) l) = existsb (fun x => f v x) l.
Proof. intros A B f l v. induction l as [|x l IH]; [reflexivity|]. cbn [length repeat combine existsb fst snd]. rewrite IH. reflexivity. Qed.

Lemma F2_len : forall {A B} {P : A -> B -> Prop} {l l'}, Forall2 P l l' -> length l = length l'.
Proof. intros A B P l l' H. induction H; cbn; congruence. Qed.

Ltac hk H := try rewrite (H Node) by discriminate; try rewrite (H Edge) by discriminate; try rewrite (H Tri) by discriminate; try rewrite (H Tet) by discriminate.
Section P.
Variable V : Type.
Variables (zero one : V) (add mul : V -> V -> V) (is0 : V -> bool) (lt : V -> V -> bool).
Variables (bad_add bad_mul : V -> V -> bool).
Variable of_nat : nat -> V.
Variable fn : string -> nat -> option (list V -> V * bool).
Variable var : string -> option V.
Variable ntri : nat.
Variables (tri_edge tet_edge : list nat).
Variable key : expr V -> string.
Variable len : kind -> nat.
Variables (mix_tri mix_tet vec : bool).
Variable rho : string -> option (kind * list V).
Variable defs : string -> option (expr V).
Variable rank : string -> nat.

Local Notation join := (join mix_tri mix_tet).
Local Notation up := (up V zero tri_edge tet_edge).
Local Notation lift2 := (lift2 V zero tri_edge tet_edge mix_tri mix_tet).
Local Notation kinds := (kinds V mix_tri mix_tet).
Local Notation elem := (elem V zero tri_edge tet_edge).
Local Notation sem := (sem V zero one add mul is0 lt bad_add bad_mul fn var tri_edge tet_edge len mix_tri mix_tet vec rho).
Local Notation apply := (apply V zero add lt fn tri_edge tet_edge len mix_tri mix_tet vec).
Local Notation reduce := (reduce V zero add lt vec).
Local Notation product := (product V zero mul is0 bad_mul tri_edge tet_edge mix_tri mix_tet).
Local Notation total := (total V zero add bad_add tri_edge tet_edge mix_tri mix_tet).
Local Notation assign := (assign V zero tri_edge tet_edge len mix_tri mix_tet).
Local Notation models := (models V).
Local Notation st := (st V).
Local Notation data := (data V).
Local Notation cell := (cell V).
Local Notation elems := (elems V).
Local Notation op_equal := (op_equal V zero ntri tri_edge tet_edge).
Local Notation ext_math := (ext_math V zero add mul lt bad_mul of_nat fn ntri tri_edge tet_edge).
Local Notation conv := (conv V zero ntri tri_edge tet_edge).
Local Notation eval := (eval V zero one add mul is0 lt bad_add bad_mul of_nat fn var ntri tri_edge tet_edge key len).

(* the mesh, the models and the names of the cached expressions *)
Definition mesh_ok : Prop :=
  length tri_edge = 3 * ntri /\ len Tri = length tri_edge /\ len Tet = length tet_edge /\
  Forall (fun e => e < len Edge) tri_edge /\ Forall (fun e => e < len Edge) tet_edge /\
  (mix_tri = true -> tri_edge <> []) /\ (mix_tet = true -> tet_edge <> [] /\ length tet_edge = 6 * ntri).
Definition sum_law : Prop := forall v n, bad_mul v (of_nat n) = false /\ mul v (of_nat n) = fold_left add (repeat v n) zero.
(* rho gives every model values of the right length, and solves the definitions, which are not circular *)
Definition rho_ok : Prop :=
  (forall n k l, rho n = Some (k, l) -> length l = len k /\ len k <> 0) /\
  (forall n e, defs n = Some e -> exists k l v, rho n = Some (k, l) /\ sem e = Some v /\ assign k v = Some l) /\
  (forall n e m, defs n = Some e -> In m (models e) -> rank m < rank n).

Hypothesis Hmesh : mesh_ok.
Hypothesis Hsum : vec = true -> sum_law.
Hypothesis Hrho : rho_ok.
Hypothesis Hkey : forall e e', key e = key e' -> e = e'.

(* what a cell, an object and a state mean *)
Definition rep (k : kind) (c : cell) (l : list V) : Prop := elems c = l /\ length l = len k /\ len k <> 0.
Definition den (s : st) (d : data) (v : val V) : Prop :=
  match d, v with
  | Dbl x, Sc y => x = y
  | Dat k p, Fl k' l => k = k' /\ exists c, nth_error (heap s) p = Some c /\ rep k c l
  | _, _ => False
  end.
Definition locs (s : st) (p : nat) : Prop := exists k kk, In (k, Dat kk p) (cache s).
Definition cache_ok (s : st) : Prop := forall k d, In (k, d) (cache s) -> exists e v, k = key e /\ sem e = Some v /\ den s d v.
Definition mods_ok (s : st) : Prop := sorted (mods s) /\ forall n,
  match find n (mods s) with
  | None => rho n = None
  | Some m => exists l, rho n = Some (m_kind m, l) /\
      match m_body m with
      | Done c => elems c = l
      | Pending e => m_idx m = [] /\ defs n = Some e
      end
  end.
Definition ok_st (s : st) : Prop := cache_ok s /\ mods_ok s /\ err s = false.
(* s0 -> s: the objects of s0 are unchanged; the cache refers to objects of the cache of s0 or to new ones *)
Definition reach (s0 s : st) : Prop :=
  (exists h, heap s = heap s0 ++ h) /\ (forall p, locs s p -> locs s0 p \/ length (heap s0) <= p) /\ ok_st s.
Definition own (s0 s : st) (d : data) : Prop := forall k p, d = Dat k p -> length (heap s0) <= p < length (heap s) /\ ~ locs s p.
Definition seen (s0 : st) (d : data) : Prop := forall k p, d = Dat k p -> locs s0 p \/ length (heap s0) <= p.

Lemma len_tri : mix_tri = true -> len Tri <> 0.
Proof. intros E. destruct Hmesh as (_ & E1 & _ & _ & _ & H & _). rewrite E1. specialize (H E). destruct tri_edge; [congruence|discriminate]. Qed.
Lemma len_tet : mix_tet = true -> len Tet <> 0.
Proof. intros E. destruct Hmesh as (_ & _ & E1 & _ & _ & _ & H). rewrite E1. destruct (H E) as [H' _]. destruct tet_edge; [congruence|discriminate]. Qed.

(* join *)
Definition lifted (j : kind) : Prop := (j = Tri /\ mix_tri = true) \/ (j = Tet /\ mix_tet = true).
Lemma join_cases : forall a b j, join a b = Some j ->
  (a = j /\ b = j) \/ (a = Edge /\ b = j /\ lifted j) \/ (b = Edge /\ a = j /\ lifted j).
Proof.
  unfold ModelExprSpec.join, lifted. intros [] [] j H; try discriminate; try (inversion H; subst; auto; fail);
  destruct mix_tri eqn:E1, mix_tet eqn:E2; try discriminate; inversion H; subst; auto 10.
Qed.
Lemma up_same : forall j l, up j j l = l. Proof. intros [] l; reflexivity. Qed.
Lemma up_length : forall j l, lifted j -> length (up j Edge l) = len j.
Proof.
  intros j l [[-> _]|[-> _]]; cbn [ModelExprSpec.up ModelExprSpec.slots]; rewrite map_length; destruct Hmesh as (_ & E1 & E2 & _); auto.
Qed.
Lemma lifted_len : forall j, lifted j -> len j <> 0.
Proof. intros j [[-> E]|[-> E]]; [exact (len_tri E)|exact (len_tet E)]. Qed.
Lemma conv_rep : forall j c l, lifted j -> elems c = l -> length l = len Edge -> exists c', conv j c = Some c' /\ rep j c' (up j Edge l).
Proof.
  intros j c l Hj Ec El. assert (L := up_length j l Hj). assert (N := lifted_len j Hj).
  destruct Hmesh as (M1 & M2 & M3 & M4 & M5 & M6 & M7).
  destruct c as [v n|l0]; cbn [ModelData.elems] in Ec; subst l.
  - rewrite repeat_length in El. subst n. destruct Hj as [[-> E]|[-> E]]; cbn [ModelExpr.conv]; eexists; (split; [reflexivity|]).
    + unfold rep. split; [|split; [exact L|exact N]]. cbn [ModelData.elems ModelExprSpec.up ModelExprSpec.slots]. rewrite map_nth_repeat by exact M4. rewrite M1. reflexivity.
    + unfold rep. split; [|split; [exact L|exact N]]. cbn [ModelData.elems ModelExprSpec.up ModelExprSpec.slots]. rewrite map_nth_repeat by exact M5. destruct (M7 E) as [_ ->]. reflexivity.
  - destruct Hj as [[-> E]|[-> E]]; unfold ModelExpr.conv.
    + specialize (M6 E). eexists. split; [destruct tri_edge; [congruence|reflexivity]|]. split; [|split; [exact L|exact N]].
      cbn [ModelData.elems ModelExprSpec.up ModelExprSpec.slots]. destruct tri_edge; [congruence|reflexivity].
    + destruct (M7 E) as [M8 _]. eexists. split; [destruct tet_edge; [congruence|reflexivity]|]. split; [|split; [exact L|exact N]].
      cbn [ModelData.elems ModelExprSpec.up ModelExprSpec.slots]. destruct tet_edge; [congruence|reflexivity].
Qed.
(* states *)
Lemma den_heap : forall s s' d v, (forall k p, d = Dat k p -> forall c, nth_error (heap s) p = Some c -> nth_error (heap s') p = Some c) -> den s d v -> den s' d v.
Proof.
  intros s s' [|x|k p] [y|k' l] H D; cbn [den] in *; auto. destruct D as [E (c & Hc & R)]. split; [exact E|]. exists c. split; [|exact R]. exact (H k p eq_refl c Hc).
Qed.
Lemma den_app : forall s s' d v h, heap s' = heap s ++ h -> den s d v -> den s' d v.
Proof.
  intros s s' d v h E. apply den_heap. intros k p _ c Hc. rewrite E. rewrite nth_error_app1; [exact Hc|]. apply nth_error_Some. congruence.
Qed.
Lemma den_lt : forall s k p v, den s (Dat k p) v -> p < length (heap s).
Proof. intros s k p [y|k' l] D; cbn in D; [contradiction|]. destruct D as [_ (c & Hc & _)]. apply nth_error_Some. congruence. Qed.
Lemma get_nth : forall (s : st) p c, nth_error (heap s) p = Some c -> get V s p = c.
Proof. intros s p c H. unfold get. apply nth_error_nth with (d := Vals []) in H. exact H. Qed.
Lemma locs_lt : forall s p, cache_ok s -> locs s p -> p < length (heap s).
Proof. intros s p H (k & kk & Hin). destruct (H _ _ Hin) as (e & v & _ & _ & D). exact (den_lt _ _ _ _ D). Qed.
Lemma reach_refl : forall s, ok_st s -> reach s s.
Proof. intros s H. split; [exists []; symmetry; apply app_nil_r|]. split; auto. Qed.
Lemma reach_trans : forall a b c, reach a b -> reach b c -> reach a c.
Proof.
  intros a b c ((h1 & E1) & L1 & O1) ((h2 & E2) & L2 & O2). split; [|split; [|exact O2]].
  - exists (h1 ++ h2). rewrite E2, E1. apply app_assoc_reverse.
  - intros p Hp. destruct (L2 p Hp) as [H|H]; [exact (L1 p H)|]. right. rewrite E1, app_length in H. lia.
Qed.
Lemma seen_trans : forall a b d, reach a b -> seen b d -> seen a d.
Proof.
  intros a b d ((h1 & E1) & L1 & O1) H k p E. destruct (H k p E) as [H'|H']; [exact (L1 p H')|]. right. rewrite E1, app_length in H'. lia.
Qed.

(* an object that belongs to the loop may change *)
Lemma set_fpe_reach : forall s0 s b, reach s0 s -> reach s0 (set_fpe V s b).
Proof. intros s0 s b H. exact H. Qed.
Lemma change_own : forall s0 s p c b, reach s0 s -> length (heap s0) <= p < length (heap s) -> ~ locs s p ->
  reach s0 (mkSt (put_at (heap s) p c) (cache s) (mods s) (err s) b).
Proof.
  intros s0 s p c b ((h & E) & L & (C & M & Er)) Hp N. split; [|split].
  - exists (put_at h (p - length (heap s0)) c). cbn [heap]. rewrite E. unfold put_at. rewrite firstn_app, skipn_app.
    rewrite firstn_all2 by lia. rewrite skipn_all2 by lia. rewrite <- app_assoc. reflexivity.
  - intros q Hq. exact (L q Hq).
  - split; [|split; [exact M|exact Er]]. intros k d Hin. cbn [cache] in Hin. destruct (C k d Hin) as (e & v & E1 & E2 & D). exists e, v. split; [exact E1|]. split; [exact E2|].
    apply (den_heap s); [|exact D]. intros kk q -> cc Hc. cbn [heap]. rewrite nth_error_put_at by lia. destruct (Nat.eqb_spec q p) as [->|_]; [|exact Hc].
    exfalso. apply N. exists k, kk. exact Hin.
Qed.
Lemma new_obj : forall s0 s c, reach s0 s -> reach s0 (fst (alloc V s c)).
Proof.
  intros s0 s c ((h & E) & L & (C & M & Er)). split; [|split].
  - exists (h ++ [c]). cbn. rewrite E. apply app_assoc_reverse.
  - exact L.
  - split; [|split; [exact M|exact Er]]. intros k d Hin. destruct (C k d Hin) as (e & v & E1 & E2 & D). exists e, v. split; [exact E1|]. split; [exact E2|].
    apply (den_app s) with (h := [c]); [reflexivity|exact D].
Qed.
Lemma new_own : forall s0 s c k, reach s0 s -> own s0 (fst (alloc V s c)) (Dat k (snd (alloc V s c))).
Proof.
  intros s0 s c k ((h & E) & L & (C & M & Er)) k' p' H. inversion H; subst k' p'. cbn. split.
  - rewrite app_length. cbn. rewrite E, app_length. lia.
  - intros Hl. assert (X := locs_lt s _ C Hl). lia.
Qed.
Lemma nth_new : forall (s : st) c, nth_error (heap (fst (alloc V s c))) (snd (alloc V s c)) = Some c.
Proof. intros s c. cbn. rewrite nth_error_app2 by lia. rewrite Nat.sub_diag. reflexivity. Qed.
Lemma own_lt : forall s0 s k p, own s0 s (Dat k p) -> length (heap s0) <= p < length (heap s) /\ ~ locs s p.
Proof. intros s0 s k p H. exact (H k p eq_refl). Qed.

(* operations *)
Lemma each_combine : forall op (a b : list V), each V op a b = map (fun q => op (fst q) (snd q)) (combine a b).
Proof. intros. reflexivity. Qed.
Lemma op_data_rep : forall op bad j c d l l', rep j c l -> rep j d l' ->
  existsb (fun q => bad (fst q) (snd q)) (combine l l') = false ->
  exists c', op_data V op c d = Some c' /\ rep j c' (map (fun q => op (fst q) (snd q)) (combine l l')) /\ bad_data V bad c d = false.
Proof.
  intros op bad j c d l l' (E1 & L1 & N) (E2 & L2 & _) B.
  destruct (op_data_each V op c d) as (c' & H1 & H2). { rewrite E1, E2. congruence. }
  exists c'. split; [exact H1|]. split.
  - split; [rewrite H2, E1, E2; reflexivity|]. split; [|exact N]. rewrite map_length, combine_length, L1, L2. apply Nat.min_id.
  - assert (LL : length l' = length l) by congruence.
    assert (N1 : length l <> 0) by congruence.
    destruct c as [u n|a], d as [v m|b']; cbn [bad_data bad_scalar ModelData.elems] in *; rewrite <- ?E1, <- ?E2 in *; try exact B.
    + assert (Q : repeat v m = repeat v (length (repeat u n))) by (rewrite <- LL, repeat_length; reflexivity).
      rewrite Q in B. rewrite (existsb_combine_repeat_r bad) in B. rewrite (existsb_repeat (fun x => bad x v)) in B; [exact B|]. rewrite repeat_length in N1. exact N1.
    + assert (Q : repeat v m = repeat v (length a)) by (rewrite <- LL, repeat_length; reflexivity).
      rewrite Q in B. rewrite (existsb_combine_repeat_r bad) in B. exact B.
Qed.
Lemma op_cell_ok : forall s0 s op bad j p c d l l' b, reach s0 s -> fpe s = false -> own s0 s (Dat j p) -> nth_error (heap s) p = Some c ->
  rep j c l -> rep j d l' -> existsb (fun q => bad (fst q) (snd q)) (combine l l') = b -> b = false ->
  exists s', op_cell V op bad s p d (Dat j p) = (s', Ok (Dat j p)) /\ reach s0 s' /\ fpe s' = false /\ own s0 s' (Dat j p) /\
    den s' (Dat j p) (Fl j (map (fun q => op (fst q) (snd q)) (combine l l'))).
Proof.
  intros s0 s op bad j p c d l l' b R F O Hc R1 R2 B ->. destruct (op_data_rep op bad j c d l l' R1 R2 B) as (c' & E & R3 & B').
  unfold op_cell. rewrite (get_nth s p c Hc), E, B'. destruct (own_lt _ _ _ _ O) as [Hp N]. eexists. split; [reflexivity|].
  unfold raise, set_fpe, set_heap. cbn [heap cache mods err fpe]. rewrite F.
  split; [exact (change_own s0 s p c' false R Hp N)|]. split; [reflexivity|]. split.
  - intros k q H. inversion H; subst k q. cbn [heap]. rewrite put_at_length. split; [exact Hp|exact N].
  - cbn [den heap]. split; [reflexivity|]. exists c'. split; [|exact R3]. rewrite nth_error_put_at by lia. rewrite Nat.eqb_refl. reflexivity.
Qed.
Lemma kind_eqb_eq : forall a b, kind_eqb a b = true <-> a = b.
Proof. intros [] []; cbn; split; congruence. Qed.
Lemma kind_eqb_refl : forall a, kind_eqb a a = true. Proof. intros []; reflexivity. Qed.

Lemma op_equal_ok : forall s0 s op bad a b va vb v, reach s0 s -> fpe s = false -> den s a va -> den s b vb -> own s0 s a ->
  (forall k q k' p, b = Dat k q -> a = Dat k' p -> p <> q) -> lift2 op bad va vb = Some v ->
  exists s' d, op_equal op bad s a b = (s', Ok d) /\ reach s0 s' /\ fpe s' = false /\ own s0 s' d /\ den s' d v.
Proof.
  intros s0 s op bad a b va vb v R F Da Db O NE H.
  destruct a as [|x|k p], va as [x'|k1 l1]; try (cbn in Da; contradiction);
  destruct b as [|y|k' q], vb as [y'|k2 l2]; try (cbn in Db; contradiction).
  - cbn in Da, Db. subst x' y'. cbn [ModelExprSpec.lift2] in H. destruct (bad x y) eqn:B; [discriminate|]. inversion H; subst v.
    eexists. eexists. cbn [ModelExpr.op_equal]. split; [reflexivity|]. unfold raise, set_fpe. cbn [fpe]. rewrite F, B. split; [exact R|]. split; [reflexivity|]. split; [|reflexivity].
    intros k p E. discriminate.
  - cbn in Da. subst x'. destruct Db as [<- (c & Hc & Rc)]. cbn [ModelExprSpec.lift2] in H. destruct (existsb (fun y => bad x y) l2) eqn:B; [discriminate|]. inversion H; subst v.
    cbn [ModelExpr.op_equal]. rewrite (get_nth s q c Hc).
    set (nc := Uni x (clen V c)).
    assert (Rn : rep k' nc (repeat x (length l2))).
    { destruct Rc as (E & L & N). unfold nc. split; [cbn; rewrite clen_elems, E; reflexivity|]. split; [rewrite repeat_length; exact L|exact N]. }
    assert (R' := new_obj s0 s nc R). assert (O' := new_own s0 s nc k' R). assert (Hn := nth_new s nc). destruct (alloc V s nc) as [s1 p1] eqn:EA. cbn [fst snd] in *.
    assert (F1 : fpe s1 = false) by (inversion EA; exact F).
    destruct (op_cell_ok s0 s1 op bad k' p1 nc c (repeat x (length l2)) l2 false R' F1 O' Hn Rn Rc) as (s' & E1 & E2 & E3 & E4 & E5).
    { rewrite existsb_combine_repeat_l. exact B. } { reflexivity. }
    exists s', (Dat k' p1). split; [exact E1|]. split; [exact E2|]. split; [exact E3|]. split; [exact E4|]. rewrite map_combine_repeat_l in E5. exact E5.
  - destruct Da as [<- (c & Hc & Rc)]. cbn in Db. subst y'. cbn [ModelExprSpec.lift2] in H. destruct (existsb (fun x => bad x y) l1) eqn:B; [discriminate|]. inversion H; subst v.
    cbn [ModelExpr.op_equal]. rewrite (get_nth s p c Hc). destruct (own_lt _ _ _ _ O) as [Hp N]. eexists. eexists. split; [reflexivity|].
    assert (B' : bad_scalar V bad c y = false).
    { destruct Rc as (E & L & Nz). destruct c as [u n|l0]; cbn in E |- *; subst l1; [|exact B]. rewrite existsb_repeat in B; [exact B|]. rewrite repeat_length in L. congruence. }
    rewrite B'. unfold raise, set_fpe, set_heap. cbn [heap cache mods err fpe]. rewrite F.
    split; [exact (change_own s0 s p _ false R Hp N)|]. split; [reflexivity|]. split.
    + intros k0 q0 E. inversion E; subst k0 q0. cbn [heap]. rewrite put_at_length. split; [exact Hp|exact N].
    + cbn [den heap]. split; [reflexivity|]. eexists. split; [rewrite nth_error_put_at by lia; rewrite Nat.eqb_refl; reflexivity|].
      destruct Rc as (E & L & Nz). split; [rewrite op_scalar_each, E; reflexivity|]. split; [rewrite map_length; exact L|exact Nz].
  - destruct Da as [<- (c & Hc & Rc)]. destruct Db as [<- (d & Hd & Rd)]. cbn [ModelExprSpec.lift2] in H.
    destruct (join k k') as [j|] eqn:J; [|discriminate]. destruct (existsb _ (combine (up j k l1) (up j k' l2))) eqn:B; [discriminate|]. inversion H; subst v. clear H.
    cbn [ModelExpr.op_equal]. destruct (join_cases k k' j J) as [[-> ->]|[(-> & -> & Hj)|(-> & -> & Hj)]].
    + rewrite kind_eqb_refl. rewrite !up_same in *. rewrite (get_nth s q d Hd).
      destruct (op_cell_ok s0 s op bad j p c d l1 l2 false R F O Hc Rc Rd B eq_refl) as (s' & E1 & E2 & E3 & E4 & E5). exists s', (Dat j p). auto.
    + rewrite up_same in *. destruct Rc as (Ec & Lc & _). destruct (conv_rep j c l1 Hj Ec Lc) as (c' & CV & Rc').
      assert (R' := new_obj s0 s c' R). assert (O' := new_own s0 s c' j R). assert (Hn := nth_new s c').
      rewrite (get_nth s p c Hc), (get_nth s q d Hd), CV. destruct (alloc V s c') as [s1 p1] eqn:EA. cbn [fst snd] in *.
      assert (F1 : fpe s1 = false) by (inversion EA; exact F).
      destruct (op_cell_ok s0 s1 op bad j p1 c' d (up j Edge l1) l2 false R' F1 O' Hn Rc' Rd B eq_refl) as (s' & E1 & E2 & E3 & E4 & E5).
      exists s', (Dat j p1). split; [|auto]. destruct Hj as [[-> _]|[-> _]]; cbn [kind_eqb]; exact E1.
    + rewrite up_same in *. destruct Rd as (Ed & Ld & _). destruct (conv_rep j d l2 Hj Ed Ld) as (d' & CV & Rd').
      rewrite (get_nth s q d Hd), CV.
      destruct (op_cell_ok s0 s op bad j p c d' l1 (up j Edge l2) false R F O Hc Rc Rd' B eq_refl) as (s' & E1 & E2 & E3 & E4 & E5).
      exists s', (Dat j p). split; [|auto]. destruct Hj as [[-> _]|[-> _]]; cbn [kind_eqb]; exact E1.
Qed.

(* functions *)
Definition arep (a : arg V) (v : val V) : Prop :=
  match a, v with
  | ANum x, Sc y => x = y
  | ACell k c, Fl k' l => k = k' /\ rep k c l
  | _, _ => False
  end.
Local Notation get_args := (get_args V).
Lemma get_args_ok : forall s argv vs, Forall2 (den s) argv vs -> exists args, get_args s argv = Some args /\ Forall2 arep args vs.
Proof.
  intros s argv vs H. induction H as [|d v argv vs D _ (args & E & IH)]; [exists []; split; [reflexivity|constructor]|].
  cbn [ModelExpr.get_args]. rewrite E.
  destruct d as [|x|k p], v as [y|k' l]; try (cbn in D; contradiction); cbn [arg_of].
  - eexists. split; [reflexivity|]. constructor; [exact D|exact IH].
  - destruct D as [E1 (c & Hc & R)]. eexists. split; [reflexivity|]. constructor; [|exact IH]. split; [exact E1|]. rewrite (get_nth s p c Hc). exact R.
Qed.
Lemma kinds_cases : forall vs r, kinds vs = Some r ->
  match r with
  | None => forall k l, ~ In (Fl k l) vs
  | Some j => (forall k l, In (Fl k l) vs -> k = j \/ (k = Edge /\ lifted j)) /\ (exists l, In (Fl j l) vs)
  end.
Proof.
  induction vs as [|v vs IH]; intros r H; cbn [ModelExprSpec.kinds] in H.
  - inversion H; subst r. intros k l [].
  - destruct v as [x|k0 l0].
    + specialize (IH r H). destruct r as [j|].
      * destruct IH as [A (l & B)]. split; [intros k l' [E|E]; [discriminate|exact (A k l' E)]|exists l; right; exact B].
      * intros k l [E|E]; [discriminate|exact (IH k l E)].
    + destruct (kinds vs) as [r'|] eqn:E; [|discriminate]. specialize (IH r' eq_refl). destruct r' as [j'|]; cbn [meet] in H.
      * destruct (join k0 j') as [j|] eqn:J; [|discriminate]. inversion H; subst r. destruct IH as [A (l & B)].
        destruct (join_cases _ _ _ J) as [[-> ->]|[(-> & -> & Hj)|(-> & -> & Hj)]].
        -- split; [intros k l' [F|F]; [inversion F; auto|exact (A k l' F)]|]. exists l. right. exact B.
        -- split; [intros k l' [F|F]; [inversion F; auto|exact (A k l' F)]|]. exists l. right. exact B.
        -- split; [|exists l0; left; reflexivity]. intros k l' [F|F]; [inversion F; auto|]. destruct (A k l' F) as [->|[-> _]]; auto.
      * inversion H; subst r. split; [|exists l0; left; reflexivity]. intros k l' [F|F]; [inversion F; auto|]. exfalso. exact (IH k l' F).
Qed.
Lemma has_kind_iff : forall k args vs, Forall2 arep args vs -> (has_kind V k args = true <-> exists l, In (Fl k l) vs).
Proof.
  intros k args vs H. induction H as [|a v args vs D _ IH]; [split; [discriminate|intros (l & [])]|].
  unfold has_kind in *. cbn [existsb]. rewrite orb_true_iff, IH. clear IH.
  destruct a as [x|k1 c], v as [y|k2 l]; try (cbn in D; contradiction).
  - split; [intros [E|(l & E)]; [discriminate|exists l; right; exact E]|intros (l & [E|E]); [discriminate|right; exists l; exact E]].
  - destruct D as [<- _]. rewrite kind_eqb_eq. split.
    + intros [->|(l' & E)]; [exists l; left; reflexivity|exists l'; right; exact E].
    + intros (l' & [E|E]); [left; inversion E; reflexivity|right; exists l'; exact E].
Qed.
Lemma has_kind_false : forall k args vs, Forall2 arep args vs -> (forall l, ~ In (Fl k l) vs) -> has_kind V k args = false.
Proof. intros k args vs H N. destruct (has_kind V k args) eqn:E; [|reflexivity]. exfalso. apply (has_kind_iff k args vs H) in E. destruct E as (l & E). exact (N l E). Qed.
Lemma all_num_none : forall args vs, Forall2 arep args vs -> (forall k l, ~ In (Fl k l) vs) -> all_num V args = true /\ map (at_elem V zero 0) args = map (elem Node 0) vs.
Proof.
  intros args vs H. induction H as [|a v args vs D _ IH]; intros N; [split; reflexivity|].
  destruct IH as [I1 I2]; [intros k l Hin; exact (N k l (or_intror Hin))|].
  destruct a as [x|k c], v as [y|k' l]; try (cbn in D; contradiction); [|exfalso; exact (N k' l (or_introl eq_refl))].
  cbn in D. subst y. split; [exact I1|]. cbn [map]. rewrite I2. reflexivity.
Qed.
Lemma all_num_some : forall args vs k l, Forall2 arep args vs -> In (Fl k l) vs -> all_num V args = false.
Proof.
  intros args vs k l H. induction H as [|a v args vs D _ IH]; intros Hin; [contradiction|]. unfold all_num in *. cbn [forallb].
  destruct a as [x|k1 c], v as [y|k2 l2]; try (cbn in D; contradiction); [|reflexivity]. destruct Hin as [E|Hin]; [discriminate|]. apply IH. exact Hin.
Qed.
(* the arguments, all of kind j *)
Definition at_kind (j : kind) (a : arg V) (v : val V) : Prop :=
  match a, v with
  | ANum x, Sc y => x = y
  | ACell k c, Fl k' l => k = j /\ rep j c (up j k' l)
  | _, _ => False
  end.
Lemma arep_at_kind : forall j args vs, Forall2 arep args vs -> (forall k l, In (Fl k l) vs -> k = j) -> Forall2 (at_kind j) args vs.
Proof.
  intros j args vs H. induction H as [|a v args vs D _ IH]; intros N; [constructor|]. constructor; [|apply IH; intros k l Hin; exact (N k l (or_intror Hin))].
  destruct a as [x|k1 c], v as [y|k2 l2]; try (cbn in D; contradiction); [exact D|]. destruct D as [<- R]. assert (k1 = j) as -> by exact (N k1 l2 (or_introl eq_refl)).
  split; [reflexivity|]. rewrite up_same. exact R.
Qed.
Lemma conv_all_ok : forall j args vs, lifted j -> Forall2 arep args vs -> (forall k l, In (Fl k l) vs -> k = j \/ (k = Edge /\ lifted j)) ->
  exists args', conv_all V zero ntri tri_edge tet_edge j args = Some args' /\ Forall2 (at_kind j) args' vs.
Proof.
  intros j args vs Hj H. induction H as [|a v args vs D _ IH]; intros N; [exists []; split; [reflexivity|constructor]|].
  destruct IH as (args' & E & F); [intros k l Hin; exact (N k l (or_intror Hin))|].
  destruct a as [x|k1 c], v as [y|k2 l2]; try (cbn in D; contradiction); cbn [conv_all].
  - rewrite E. eexists. split; [reflexivity|]. constructor; [exact D|exact F].
  - destruct D as [<- R]. destruct (N k1 l2 (or_introl eq_refl)) as [->|[-> _]].
    + rewrite E. exists (ACell j c :: args'). split; [destruct Hj as [[-> _]|[-> _]]; reflexivity|]. constructor; [|exact F]. split; [reflexivity|]. rewrite up_same. exact R.
    + destruct R as (Ec & Lc & _). destruct (conv_rep j c l2 Hj Ec Lc) as (c' & CV & Rc'). rewrite CV, E. eexists. split; [reflexivity|]. constructor; [|exact F]. split; [reflexivity|exact Rc'].
Qed.
Lemma at_kind_has : forall j args vs, Forall2 (at_kind j) args vs -> forall k, k <> j -> has_kind V k args = false.
Proof.
  intros j args vs H k N. induction H as [|a v args vs D _ IH]; [reflexivity|]. unfold has_kind in *. cbn [existsb]. rewrite IH, orb_false_r.
  destruct a as [x|k1 c], v as [y|k2 l2]; try (cbn in D; contradiction); [reflexivity|]. destruct D as [-> _]. destruct (kind_eqb k j) eqn:E; [|reflexivity]. apply kind_eqb_eq in E. contradiction.
Qed.
Lemma at_kind_in : forall j args vs k l, Forall2 (at_kind j) args vs -> In (Fl k l) vs -> has_kind V j args = true /\ all_num V args = false.
Proof.
  intros j args vs k l H. induction H as [|a v args vs D _ IH]; intros Hin; [contradiction|]. unfold has_kind, all_num in *. cbn [existsb forallb].
  destruct a as [x|k1 c], v as [y|k2 l2]; try (cbn in D; contradiction).
  - destruct Hin as [E|Hin]; [discriminate|]. exact (IH Hin).
  - destruct D as [-> _]. rewrite kind_eqb_refl. split; reflexivity.
Qed.
Lemma vlen_acc : forall j args vs n, Forall2 (at_kind j) args vs -> n = len j ->
  fold_left (fun n a => match a with ACell _ c => clen V c | _ => n end) args n = len j.
Proof.
  intros j args vs n H. revert n. induction H as [|a v args vs D _ IH]; intros n E; [exact E|]. cbn [fold_left]. apply IH.
  destruct a as [x|k1 c], v as [y|k2 l2]; try (cbn in D; contradiction); [exact E|]. destruct D as [_ (Ec & L & _)]. rewrite clen_elems, Ec. exact L.
Qed.
Lemma vlen_ok : forall j args vs k l, Forall2 (at_kind j) args vs -> In (Fl k l) vs -> vlen V args = len j.
Proof.
  intros j args vs k l H. unfold vlen. generalize 0. induction H as [|a v args vs D F IH]; intros n Hin; [contradiction|]. cbn [fold_left].
  destruct a as [x|k1 c], v as [y|k2 l2]; try (cbn in D; contradiction).
  - destruct Hin as [E|Hin]; [discriminate|]. exact (IH n Hin).
  - destruct D as [_ (Ec & L & _)]. apply vlen_acc with (vs := vs); [exact F|]. rewrite clen_elems, Ec. exact L.
Qed.
Lemma at_elem_ok : forall j args vs i, Forall2 (at_kind j) args vs -> i < len j -> map (at_elem V zero i) args = map (elem j i) vs.
Proof.
  intros j args vs i H Hi. induction H as [|a v args vs D _ IH]; [reflexivity|]. cbn [map]. rewrite IH. f_equal.
  destruct a as [x|k1 c], v as [y|k2 l2]; try (cbn in D; contradiction); [exact D|]. destruct D as [_ (Ec & L & _)]. cbn [at_elem ModelExprSpec.elem]. rewrite <- Ec.
  destruct c as [u n|l]; cbn [ModelData.elems]; [|reflexivity]. symmetry. apply nth_repeat_lt. rewrite <- Ec in L. cbn in L. rewrite repeat_length in L. lia.
Qed.
Lemma uniform_const : forall args i, forallb (uniform_arg V) args = true -> map (at_elem V zero i) args = map (at_elem V zero 0) args.
Proof.
  induction args as [|a args IH]; intros i H; [reflexivity|]. cbn [forallb] in H. apply andb_prop in H. destruct H as [H1 H2]. cbn [map]. rewrite (IH i H2). f_equal.
  destruct a as [x|k [u n|l]]; try reflexivity. discriminate.
Qed.
Lemma fold_same : forall (f : V -> V -> bool) n v, fold_left (fun m y => if f m y then y else m) (repeat v n) v = v.
Proof. intros f n v. induction n; [reflexivity|]. cbn [repeat fold_left]. destruct (f v v); exact IHn. Qed.

Lemma seen_own : forall s0 s d, own s0 s d -> seen s0 d.
Proof. intros s0 s d H k p E. destruct (H k p E) as [H1 _]. right. lia. Qed.
Definition fresh_kind (args : list (arg V)) : kind := if has_kind V Node args then Node else if has_kind V Edge args then Edge else if has_kind V Tri args then Tri else Tet.
Lemma fresh_kind_ok : forall j args vs k l, Forall2 (at_kind j) args vs -> In (Fl k l) vs -> fresh_kind args = j.
Proof.
  intros j args vs k l H Hin. destruct (at_kind_in j args vs k l H Hin) as [T _]. unfold fresh_kind.
  destruct j; rewrite ?T; hk (at_kind_has _ _ _ H); reflexivity.
Qed.
(* the part of EvaluateExternalMath after the conversions *)
Lemma ext_tail : forall s0 s cx f args vs j k l g v, reach s0 s -> fpe s = false -> c_idx cx = [] ->
  Forall2 (at_kind j) args vs -> In (Fl k l) vs -> len j <> 0 ->
  (let rows := map (fun i => g (map (elem j i) vs)) (seq 0 (len j)) in if existsb snd rows then None else reduce f j (map fst rows)) = Some v ->
  exists s' d,
   (let k := fresh_kind args in
    let n := vlen V args in
    let uni := forallb (uniform_arg V) args in
    let ev i := fst (g (map (at_elem V zero i) args)) in
    let bad i := snd (g (map (at_elem V zero i) args)) in
    let out := match c_idx cx with
               | [] => if uni then Uni (ev 0) n else Vals (map ev (seq 0 n))
               | idx => Vals (at_indexes V zero ev 0 n (if kind_eqb (c_kind cx) k then idx else []))
               end in
    let flag := match c_idx cx with
                | [] => if uni then bad 0 else existsb bad (seq 0 n)
                | idx => if uni then bad 0 else kind_eqb (c_kind cx) k && existsb (fun i => existsb (Nat.eqb i) idx && bad i) (seq 0 n)
                end in
    let s := raise V s flag in
    if err s then (s, Ok Inv)
    else if is_vec f then
      let l := match out with Uni v _ => [v] | Vals l => l end in
      if String.eqb f "vec_sum" then
        match out with
        | Uni v n => (raise V s (bad_mul v (of_nat n)), Ok (Dbl (mul v (of_nat n))))
        | Vals l => (s, Ok (Dbl (fold_left add l zero)))
        end
      else match fold_max V (if String.eqb f "vec_max" then lt else fun a b => lt b a) l with
           | Some v => (s, Ok (Dbl v))
           | None => (s, UB)
           end
    else let '(s, p) := alloc V s out in (s, Ok (Dat k p))) = (s', Ok d) /\
  reach s0 s' /\ fpe s' = false /\ own s0 s' d /\ den s' d v.
Proof.
  intros s0 s cx f args vs j k l g v R F C A Hin N H. rewrite C, (fresh_kind_ok j args vs k l A Hin), (vlen_ok j args vs k l A Hin).
  cbn zeta in *.
  destruct (existsb snd (map (fun i => g (map (elem j i) vs)) (seq 0 (len j)))) eqn:B; [discriminate|].
  (* the rows *)
  assert (Row : forall i, In i (seq 0 (len j)) -> g (map (elem j i) vs) = g (map (at_elem V zero i) args)).
  { intros i Hi. apply in_seq in Hi. rewrite (at_elem_ok j args vs i A) by lia. reflexivity. }
  rewrite (map_ext_in _ _ _ Row) in B, H. clear Row. rewrite map_map in H.
  set (uni := forallb (uniform_arg V) args) in *.
  set (out := if uni then Uni (fst (g (map (at_elem V zero 0) args))) (len j) else Vals (map (fun i => fst (g (map (at_elem V zero i) args))) (seq 0 (len j)))).
  assert (Ro : rep j out (map (fun i => fst (g (map (at_elem V zero i) args))) (seq 0 (len j)))).
  { unfold rep, out. rewrite map_length, seq_length. split; [|split; [reflexivity|exact N]]. destruct uni eqn:U; [|reflexivity]. cbn [ModelData.elems].
    transitivity (map (fun _ : nat => fst (g (map (at_elem V zero 0) args))) (seq 0 (len j))).
    - rewrite (map_const V). rewrite seq_length. reflexivity.
    - apply map_ext. intros i. rewrite (uniform_const args i U). reflexivity. }
  assert (Fl0 : (if uni then snd (g (map (at_elem V zero 0) args)) else existsb (fun i => snd (g (map (at_elem V zero i) args))) (seq 0 (len j))) = false).
  { rewrite <- B.
    assert (X : existsb snd (map (fun i => g (map (at_elem V zero i) args)) (seq 0 (len j))) = existsb (fun i => snd (g (map (at_elem V zero i) args))) (seq 0 (len j))).
    { generalize (seq 0 (len j)). intros q. induction q as [|i q IH]; [reflexivity|]. cbn [map existsb]. rewrite IH. reflexivity. }
    rewrite X. destruct uni eqn:U; [|reflexivity]. rewrite B in X. symmetry.
    rewrite <- X. symmetry. destruct (snd (g (map (at_elem V zero 0) args))) eqn:Y; [|reflexivity]. exfalso.
    assert (In 0 (seq 0 (len j))) as I0 by (apply in_seq; lia).
    assert (existsb (fun i => snd (g (map (at_elem V zero i) args))) (seq 0 (len j)) = true) as T by (apply existsb_exists; exists 0; split; [exact I0|exact Y]). congruence. }
  rewrite Fl0. fold out. clear Fl0 B.
  assert (R1 : reach s0 (raise V s false)) by (unfold raise; apply set_fpe_reach; exact R).
  assert (F1 : fpe (raise V s false) = false) by (unfold raise, set_fpe; cbn [fpe]; rewrite F; reflexivity).
  assert (E1 : err (raise V s false) = false) by (destruct R as (_ & _ & _ & _ & E); exact E).
  rewrite E1. generalize dependent (raise V s false). intros s1 R1 F1 E1. clear R F s. rename s1 into s.
  destruct Ro as (Eo & Lo & _). unfold ModelExprSpec.reduce in H. unfold is_vec.
  assert (OD : forall x, own s0 s (Dbl x)) by (intros x k0 p0 E0; discriminate).
  destruct (String.eqb f "vec_sum") eqn:S1; cbn [orb].
  - destruct vec eqn:EV; [|discriminate]. destruct (Hsum eq_refl (fst (g (map (at_elem V zero 0) args))) (len j)) as [Hs1 Hs2].
    inversion H; subst v. clear H. unfold out in *. destruct uni; cbn [ModelData.elems] in Eo.
    + rewrite Hs1, Hs2, Eo. eexists. eexists. split; [reflexivity|]. split; [unfold raise; apply set_fpe_reach; exact R1|]. split; [unfold raise, set_fpe; cbn [fpe]; rewrite F1; reflexivity|].
      split; [intros k0 p0 E0; discriminate|reflexivity].
    + eexists. eexists. split; [reflexivity|]. split; [exact R1|]. split; [exact F1|]. split; [apply OD|reflexivity].
  - destruct (String.eqb f "vec_max") eqn:S2; cbn [orb].
    + unfold best in H. rewrite <- Eo in H. unfold out in *. clear out. destruct uni; cbn [ModelData.elems] in *.
      * destruct (len j) as [|n]; [congruence|]. cbn [repeat option_map] in H. rewrite fold_same in H. inversion H; subst v. cbn [fold_max fold_left]. eexists. eexists. split; [reflexivity|]. split; [exact R1|]. split; [exact F1|]. split; [apply OD|reflexivity].
      * unfold fold_max. destruct (map _ (seq 0 (len j))) as [|x0 t0]; [discriminate|]. cbn [option_map] in H. inversion H; subst v.
        eexists. eexists. split; [reflexivity|]. split; [exact R1|]. split; [exact F1|]. split; [apply OD|reflexivity].
    + destruct (String.eqb f "vec_min") eqn:S3; cbn [orb].
      * unfold best in H. rewrite <- Eo in H. unfold out in *. clear out. destruct uni; cbn [ModelData.elems] in *.
        -- destruct (len j) as [|n]; [congruence|]. cbn [repeat option_map] in H. rewrite (fold_same (fun a b => lt b a)) in H. inversion H; subst v. cbn [fold_max fold_left]. eexists. eexists. split; [reflexivity|]. split; [exact R1|]. split; [exact F1|]. split; [apply OD|reflexivity].
        -- unfold fold_max. destruct (map _ (seq 0 (len j))) as [|x0 t0]; [discriminate|]. cbn [option_map] in H. inversion H; subst v.
           eexists. eexists. split; [reflexivity|]. split; [exact R1|]. split; [exact F1|]. split; [apply OD|reflexivity].
      * inversion H; subst v. assert (R2 := new_obj s0 s out R1). assert (O2 := new_own s0 s out j R1). assert (N2 := nth_new s out).
        destruct (alloc V s out) as [s2 p2] eqn:EA. cbn [fst snd] in *. eexists. eexists. split; [reflexivity|]. split; [exact R2|].
        split; [inversion EA; exact F1|]. split; [exact O2|]. cbn [den]. split; [reflexivity|]. exists out. split; [exact N2|].
        split; [exact Eo|]. split; [exact Lo|exact N].
Qed.
Lemma in_kind : forall vs j k l, kinds vs = Some (Some j) -> In (Fl k l) vs -> k = j \/ (k = Edge /\ lifted j).
Proof. intros vs j k l H. apply kinds_cases in H. cbn in H. destruct H as [H _]. apply H. Qed.
Lemma elem_len : forall vs j args, kinds vs = Some (Some j) -> Forall2 arep args vs -> len j <> 0.
Proof.
  intros vs j args H A. apply kinds_cases in H. cbn in H. destruct H as [_ (l & H)].
  induction A as [|a v args vs D _ IH]; [contradiction|]. destruct H as [->|H]; [|exact (IH H)].
  destruct a as [x|k c]; cbn in D; [contradiction|]. destruct D as [-> (_ & _ & N)]. exact N.
Qed.
Lemma ext_math_ok : forall s0 s cx f argv vs v, reach s0 s -> fpe s = false -> c_idx cx = [] -> Forall2 (den s) argv vs ->
  apply f vs = Some v ->
  exists s' d, ext_math cx s f argv = (s', Ok d) /\ reach s0 s' /\ fpe s' = false /\ own s0 s' d /\ den s' d v.
Proof.
  intros s0 s cx f argv vs v R F C D H. destruct (get_args_ok s argv vs D) as (args & G & A).
  unfold ModelExprSpec.apply in H. destruct vs as [|v0 vs']; [discriminate|]. remember (v0 :: vs') as vs eqn:Evs.
  destruct (fn f (length vs)) as [g|] eqn:Fn; [|discriminate]. destruct (kinds vs) as [r|] eqn:K; [|discriminate].
  unfold ModelExpr.ext_math. destruct argv as [|d0 argv']; [subst vs; inversion D|]. clear Evs.
  cbv iota beta. rewrite G. clear G D.
  assert (Ln : length args = length vs) by exact (F2_len A).
  destruct r as [j|].
  - assert (Nj := elem_len vs j args K A). assert (KC := kinds_cases vs _ K). cbn in KC. destruct KC as [KA (lj & KB)].
    assert (HK : forall k, k <> j -> k <> Edge -> has_kind V k args = false).
    { intros k N1 N2. apply has_kind_false with (vs := vs); [exact A|]. intros l Hin. destruct (KA k l Hin) as [->|[-> _]]; contradiction. }
    assert (HJ : has_kind V j args = true) by (apply (has_kind_iff j args vs A); exists lj; exact KB).
    assert (Main : exists args', (if has_kind V Edge args then if has_kind V Tri args then conv_all V zero ntri tri_edge tet_edge Tri args else if has_kind V Tet args then conv_all V zero ntri tri_edge tet_edge Tet args else Some args else Some args) = Some args' /\ Forall2 (at_kind j) args' vs /\
       (has_kind V Node args && (has_kind V Edge args || has_kind V Tri args || has_kind V Tet args) = false) /\ (negb (has_kind V Edge args) && has_kind V Tet args && has_kind V Tri args = false)).
    { destruct (has_kind V Edge args) eqn:HE.
      - destruct j.
        + apply (has_kind_iff Edge args vs A) in HE. destruct HE as (l & HE). destruct (KA Edge l HE) as [E|[_ [[E _]|[E _]]]]; discriminate.
        + hk HK. exists args. split; [reflexivity|]. split; [|split; reflexivity]. apply arep_at_kind; [exact A|]. intros k l Hin. destruct (KA k l Hin) as [->|[-> _]]; reflexivity.
        + rewrite HJ. hk HK. apply (has_kind_iff Edge args vs A) in HE. destruct HE as (l & HE). destruct (KA Edge l HE) as [E|[_ L]]; [discriminate|].
          destruct (conv_all_ok Tri args vs L A KA) as (args' & E1 & E2). exists args'. auto.
        + rewrite HJ. hk HK. apply (has_kind_iff Edge args vs A) in HE. destruct HE as (l & HE). destruct (KA Edge l HE) as [E|[_ L]]; [discriminate|].
          destruct (conv_all_ok Tet args vs L A KA) as (args' & E1 & E2). exists args'. auto.
      - exists args. split; [reflexivity|]. split.
        + apply arep_at_kind; [exact A|]. intros k l Hin. destruct (KA k l Hin) as [->|[-> _]]; [reflexivity|]. exfalso. assert (has_kind V Edge args = true) by (apply (has_kind_iff Edge args vs A); exists l; exact Hin). congruence.
        + destruct j; rewrite ?HJ; hk HK; rewrite ?andb_false_r, ?orb_false_r; split; try reflexivity; congruence. }
    destruct Main as (args' & M1 & M2 & M3 & M4). rewrite M3, M4, M1.
    assert (M5 : has_kind V Tri args' && has_kind V Tet args' = false).
    { destruct j; try (rewrite (at_kind_has _ _ _ M2 Tri) by discriminate; reflexivity). rewrite (at_kind_has _ _ _ M2 Tet) by discriminate. apply andb_false_r. }
    rewrite M5. assert (Ln' : length args' = length vs) by exact (F2_len M2). rewrite Ln', Fn.
    destruct (at_kind_in j args' vs j lj M2 KB) as [_ AN]. rewrite AN.
    assert (H' : (let rows := map (fun i => g (map (elem j i) vs)) (seq 0 (len j)) in if existsb snd rows then None else reduce f j (map fst rows)) = Some v).
    { exact H. }
    exact (ext_tail s0 s cx f args' vs j j lj g v R F C M2 KB Nj H').
  - assert (KC := kinds_cases vs _ K). cbn in KC. destruct (all_num_none args vs A KC) as [AN E0].
    assert (HK : forall k, has_kind V k args = false) by (intros k; apply has_kind_false with (vs := vs); [exact A|exact (KC k)]).
    rewrite !HK. cbn [andb negb]. rewrite Ln, Fn, AN, E0.
    assert (H' : (if snd (g (map (elem Node 0) vs)) then None else Some (Sc (fst (g (map (elem Node 0) vs))))) = Some v).
    { exact H. }
    destruct (g (map (elem Node 0) vs)) as [y b] eqn:Eg. cbn [fst snd] in H'. destruct b; [discriminate|]. inversion H'; subst v.
    assert (Er : err s = false) by (destruct R as (_ & _ & _ & _ & E); exact E). rewrite Er.
    eexists. eexists. split; [reflexivity|]. split; [unfold raise; apply set_fpe_reach; exact R|]. split; [unfold raise, set_fpe; cbn [fpe]; rewrite F; reflexivity|].
    split; [intros k0 p0 E1; discriminate|reflexivity].
Qed.

(* evaluation *)
Definition post (s s' : st) (d : data) (v : val V) : Prop := reach s s' /\ fpe s' = false /\ den s' d v /\ seen s d.
Definition good (stk : list string) (cx : ctx) (e : expr V) : Prop := forall s v, ok_st s -> sem e = Some v ->
  exists N s' d, (forall fuel, N <= fuel -> eval fuel stk cx s e = (s', Ok d)) /\ post s s' d v.

Lemma lookup_in : forall k (c : list (string * data)) d, lookup V k c = Some d -> In (k, d) c.
Proof.
  intros k c d. induction c as [|[k' d'] c IH]; cbn [lookup]; [discriminate|]. destruct (String.eqb_spec k k') as [->|_]; [|intros H; right; exact (IH H)].
  intros H. inversion H. left. reflexivity.
Qed.
Lemma finish_ok : forall e v s s1 d, post s s1 d v -> sem e = Some v ->
  exists s2, finish V key s1 e (Ok d) = (s2, Ok d) /\ post s s2 d v.
Proof.
  intros e v s s1 d (R & F & D & Sn) E. unfold finish. rewrite F.
  exists (set_cache V s1 ((key e, d) :: cache s1)). split; [destruct d; [destruct v; contradiction|reflexivity|reflexivity]|].
  split; [|split; [exact F|split; [exact D|exact Sn]]]. destruct R as (H & L & (C & M & Er)). split; [exact H|]. split.
  - intros p (k & kk & [Hin|Hin]); [inversion Hin; subst d; exact (Sn kk p eq_refl)|]. apply L. exists k, kk. exact Hin.
  - split; [|split; [exact M|exact Er]]. intros k0 d0 [Hin|Hin]; [inversion Hin; subst k0 d0; exists e, v; auto|]. exact (C k0 d0 Hin).
Qed.
Lemma own_reach : forall s0 s s' d, own s0 s d -> reach s s' -> own s0 s' d.
Proof.
  intros s0 s s' d H ((h & E) & L & _) k p Ed. destruct (H k p Ed) as [Hp N]. split; [rewrite E, app_length; lia|].
  intros Hl. destruct (L p Hl) as [H1|H1]; [exact (N H1)|lia].
Qed.
Lemma den_reach : forall s s' d v, den s d v -> reach s s' -> den s' d v.
Proof. intros s s' d v D ((h & E) & _). exact (den_app s s' d v h E D). Qed.
(* an object that is not the one of the loop *)
Lemma apart : forall s0 s x, seen s x -> forall a, own s0 s a -> forall k q k' p, x = Dat k q -> a = Dat k' p -> p <> q.
Proof.
  intros s0 s x Sn a O k q k' p E1 E2 ->. destruct (O k' q E2) as [H1 H2]. destruct (Sn k q E1) as [H|H]; [exact (H2 H)|lia].
Qed.
Lemma den_inv : forall s v, ~ den s Inv v. Proof. intros s [x|k l] H; exact H. Qed.

Lemma prod_ok : forall stk cx l, Forall (good stk cx) l -> forall s0 s out va v, reach s0 s -> fpe s = false -> den s out va -> own s0 s out ->
  product va (map sem l) = Some v ->
  exists N s' d, (forall fuel, N <= fuel -> prod_loop V zero mul is0 bad_mul ntri tri_edge tet_edge (eval fuel stk cx) s out l = (s', Ok d)) /\
    reach s0 s' /\ fpe s' = false /\ den s' d v /\ own s0 s' d.
Proof.
  intros stk cx l H. induction H as [|e l G _ IH]; intros s0 s out va v R F D O E; cbn [map ModelExprSpec.product] in E.
  - inversion E; subst v. exists 0, s, out. cbn [prod_loop]. auto.
  - destruct (sem e) as [x|] eqn:Ex; [|discriminate].
    destruct (G s x) as (N1 & s1 & d1 & V1 & (R1 & F1 & D1 & Sn1)); [destruct R as (_ & _ & R); exact R|exact Ex|].
    assert (R01 := reach_trans _ _ _ R R1). assert (Da := den_reach _ _ _ _ D R1). assert (O1 := own_reach _ _ _ _ O R1).
    destruct (ModelExprSpec.is_zero V is0 x) eqn:Z.
    + destruct x as [w|k l0]; [|discriminate]. cbn in Z. destruct d1 as [|w'|k p]; try (cbn in D1; contradiction). cbn in D1. subst w'.
      inversion E; subst v. exists N1, s1, (Dbl zero). split; [|split; [exact R01|split; [exact F1|split; [reflexivity|intros k p Hd; discriminate]]]].
      intros fuel Hf. cbn [prod_loop]. rewrite (V1 fuel Hf). rewrite Z. reflexivity.
    + destruct (lift2 mul bad_mul va x) as [y|] eqn:L2; [|discriminate].
      destruct (op_equal_ok s0 s1 mul bad_mul out d1 va x y R01 F1 Da D1 O1) as (s2 & d2 & E2 & R2 & F2 & O2 & D2); [|exact L2|].
      { assert (Sn : forall a, own s0 s a -> forall k q k' p, d1 = Dat k q -> a = Dat k' p -> p <> q) by exact (apart s0 s d1 Sn1). exact (Sn out O). }
      destruct (IH s0 s2 d2 y v R2 F2 D2 O2 E) as (N2 & s3 & d3 & V3 & P3).
      exists (N1 + N2), s3, d3. split; [|exact P3]. intros fuel Hf. cbn [prod_loop]. rewrite (V1 fuel) by lia.
      destruct d1 as [|w|k p]; [destruct (den_inv _ _ D1)| |].
      * destruct x as [w'|k l0]; [|contradiction]. cbn in D1. subst w'. cbn in Z. rewrite Z, E2. apply V3. lia.
      * rewrite E2. apply V3. lia.
Qed.
Lemma sum_ok : forall stk cx l, Forall (good stk cx) l -> forall s0 s out va v, reach s0 s -> fpe s = false -> den s out va -> own s0 s out ->
  total va (map sem l) = Some v ->
  exists N s' d, (forall fuel, N <= fuel -> sum_loop V zero add bad_add ntri tri_edge tet_edge (eval fuel stk cx) s out l = (s', Ok d)) /\
    reach s0 s' /\ fpe s' = false /\ den s' d v /\ own s0 s' d.
Proof.
  intros stk cx l H. induction H as [|e l G _ IH]; intros s0 s out va v R F D O E; cbn [map ModelExprSpec.total] in E.
  - inversion E; subst v. exists 0, s, out. cbn [sum_loop]. auto.
  - destruct (sem e) as [x|] eqn:Ex; [|discriminate].
    destruct (G s x) as (N1 & s1 & d1 & V1 & (R1 & F1 & D1 & Sn1)); [destruct R as (_ & _ & R); exact R|exact Ex|].
    assert (R01 := reach_trans _ _ _ R R1). assert (Da := den_reach _ _ _ _ D R1). assert (O1 := own_reach _ _ _ _ O R1).
    destruct (lift2 add bad_add va x) as [y|] eqn:L2; [|discriminate].
    destruct (op_equal_ok s0 s1 add bad_add out d1 va x y R01 F1 Da D1 O1) as (s2 & d2 & E2 & R2 & F2 & O2 & D2); [exact (apart s0 s d1 Sn1 out O)|exact L2|].
    destruct (IH s0 s2 d2 y v R2 F2 D2 O2 E) as (N2 & s3 & d3 & V3 & P3).
    exists (N1 + N2), s3, d3. split; [|exact P3]. intros fuel Hf. cbn [sum_loop]. rewrite (V1 fuel) by lia. rewrite E2. apply V3. lia.
Qed.
Lemma args_ok : forall stk cx l, Forall (good stk cx) l -> forall s0 s acc va vs, reach s0 s -> fpe s = false -> Forall2 (den s) acc va ->
  all (map sem l) = Some vs ->
  exists N s' ds, (forall fuel, N <= fuel -> args_loop V (eval fuel stk cx) s acc l = (s', Ok ds)) /\
    reach s0 s' /\ fpe s' = false /\ Forall2 (den s') ds (rev va ++ vs).
Proof.
  intros stk cx l H. induction H as [|e l G _ IH]; intros s0 s acc va vs R F D E; cbn [map all] in E.
  - inversion E; subst vs. exists 0, s, (rev acc). rewrite app_nil_r. split; [reflexivity|]. split; [exact R|]. split; [exact F|].
    clear - D. induction D as [|d v acc va H _ IH]; [constructor|]. cbn [rev]. apply Forall2_app; [exact IH|]. constructor; [exact H|constructor].
  - destruct (sem e) as [x|] eqn:Ex; [|discriminate]. destruct (all (map sem l)) as [t|] eqn:Et; [|discriminate]. inversion E; subst vs.
    destruct (G s x) as (N1 & s1 & d1 & V1 & (R1 & F1 & D1 & Sn1)); [destruct R as (_ & _ & R); exact R|exact Ex|].
    assert (R01 := reach_trans _ _ _ R R1).
    destruct (IH s0 s1 (d1 :: acc) (x :: va) t R01 F1) as (N2 & s2 & ds & V2 & R2 & F2 & D2); [|reflexivity|].
    { constructor; [exact D1|]. clear - D R1. induction D as [|d v acc va H _ IH]; constructor; [exact (den_reach _ _ _ _ H R1)|exact IH]. }
    exists (N1 + N2), s2, ds. split; [|split; [exact R2|split; [exact F2|]]].
    + intros fuel Hf. cbn [args_loop]. rewrite (V1 fuel) by lia. apply V2. lia.
    + cbn [rev] in D2. rewrite <- app_assoc in D2. exact D2.
Qed.

(* the values a model gets *)
Lemma model_cell_ok : forall s k d v l e, den s d v -> assign k v = Some l -> length l = len k -> len k <> 0 ->
  exists c, model_cell V zero ntri tri_edge tet_edge len s (mkMd k [] (Pending e)) d = Ok c /\ elems c = l.
Proof.
  intros s k d v l e D A L N. destruct d as [|x|k1 p], v as [y|k2 l2]; try (cbn in D; contradiction).
  - cbn in D. subst y. cbn [ModelExprSpec.assign] in A. inversion A; subst l. eexists. split; reflexivity.
  - destruct D as [<- (c & Hc & Rc)]. cbn [ModelExprSpec.assign] in A. destruct (join k k1) as [j|] eqn:J; [|discriminate].
    destruct (kind_eqb j k) eqn:Ej; [|discriminate]. apply kind_eqb_eq in Ej. subst j. inversion A; subst l. clear A.
    unfold model_cell. cbn [m_kind m_idx]. rewrite (get_nth s p c Hc). destruct Rc as (Ec & Lc & _).
    destruct (join_cases _ _ _ J) as [[_ ->]|[(-> & -> & [[Hj _]|[Hj _]])|(-> & _ & Hj)]]; try discriminate.
    + rewrite kind_eqb_refl, up_same. eexists. split; [reflexivity|]. destruct c as [w n|l0]; [|exact Ec]. cbn in Ec |- *. rewrite <- Ec in Lc. rewrite repeat_length in Lc. congruence.
    + destruct (conv_rep k c l2 Hj Ec Lc) as (c' & CV & (E' & L' & _)). rewrite CV.
      assert (kind_eqb Edge k = false /\ negb (node_edge k) = true) as [-> ->] by (destruct Hj as [[-> _]|[-> _]]; split; reflexivity).
      cbn [andb kind_eqb]. destruct c' as [w n|l0]; [|eexists; split; [reflexivity|exact E']]. eexists. split; [reflexivity|].
      cbn [ModelData.elems] in E' |- *. rewrite <- E' in L'. rewrite repeat_length in L'. rewrite <- L'. exact E'.
Qed.

(* values have the length of their kind *)
Definition vwf (v : val V) : Prop := match v with Sc _ => True | Fl k l => length l = len k /\ len k <> 0 end.
Lemma den_vwf : forall s d v, den s d v -> vwf v.
Proof. intros s [|x|k p] [y|k' l] D; cbn in D; try contradiction; [constructor|]. destruct D as [<- (c & _ & (_ & L & N))]. split; assumption. Qed.

Section Ind.
Variable P : expr V -> Prop.
Hypothesis HC : forall v, P (Const v).
Hypothesis HV : forall s, P (Var s).
Hypothesis HM : forall s, P (Model s).
Hypothesis HP : forall l, Forall P l -> P (Prod l).
Hypothesis HS : forall l, Forall P l -> P (Sum l).
Hypothesis HI : forall t a, P t -> P a -> P (If t a).
Hypothesis HE : forall t a b, P t -> P a -> P b -> P (IfElse t a b).
Hypothesis HF : forall f l, Forall P l -> P (Fun f l).
Fixpoint expr_ind' (e : expr V) : P e :=
  let go := fix go l : Forall P l := match l with [] => Forall_nil P | x :: t => @Forall_cons _ P x t (expr_ind' x) (go t) end in
  match e with
  | Const v => HC v
  | Var s => HV s
  | Model s => HM s
  | Prod l => HP l (go l)
  | Sum l => HS l (go l)
  | If t a => HI t a (expr_ind' t) (expr_ind' a)
  | IfElse t a b => HE t a b (expr_ind' t) (expr_ind' a) (expr_ind' b)
  | Fun f l => HF f l (go l)
  end.
End Ind.

Lemma own_dbl : forall s0 s x, own s0 s (Dbl x). Proof. intros s0 s x k p E. discriminate. Qed.
(* one step of eval_function *)
Lemma step_good : forall stk cx e s v,
  ok_st s -> sem e = Some v ->
  (exists N s1 d, (forall fuel, N <= fuel -> forall r, r = (s1, Ok d) ->
      lookup V (key e) (cache (set_fpe V s false)) = None -> eval (S fuel) stk cx s e = finish V key s1 e (Ok d)) /\ post (set_fpe V s false) s1 d v) ->
  exists N s' d, (forall fuel, N <= fuel -> eval fuel stk cx s e = (s', Ok d)) /\ post s s' d v.
Proof.
  intros stk cx e s v O E (N & s1 & d & H & P).
  destruct (lookup V (key e) (cache (set_fpe V s false))) as [d0|] eqn:Lk.
  - assert (X := lookup_in _ _ _ Lk). destruct O as (C & M & Er). destruct (C (key e) d0 X) as (e' & v' & K & E' & D). apply Hkey in K. subst e'. rewrite E in E'. inversion E'; subst v'.
    exists 1, (set_fpe V s false), d0. split.
    + intros fuel Hf. destruct fuel as [|fuel]; [lia|]. cbn [ModelExpr.eval]. rewrite Lk. reflexivity.
    + split; [apply set_fpe_reach; apply reach_refl; split; auto|]. split; [reflexivity|]. split; [exact D|]. intros k p ->. left. exists (key e), k. exact X.
  - destruct (finish_ok e v _ _ _ P E) as (s2 & F2 & P2). exists (S N), s2, d. split; [|exact P2].
    intros fuel Hf. destruct fuel as [|fuel]; [lia|]. rewrite (H fuel) with (r := (s1, Ok d)); [exact F2|lia|reflexivity|reflexivity].
Qed.
Theorem eval_correct : forall R e, (forall m, In m (models e) -> rank m < R) -> forall stk cx,
  (forall x, In x stk -> R <= rank x) -> c_idx cx = [] -> good stk cx e.
Proof.
  intros R. induction R as [R IHR] using lt_wf_ind. intros e. induction e as [w|x|n|l IH|l IH|t a IHt IHa|t a b IHt IHa IHb|f l IH] using expr_ind';
    intros HR stk cx HS HX s v O E; apply step_good with (1 := O) (2 := E);
    assert (O' : ok_st (set_fpe V s false)) by exact O; assert (R0 := reach_refl _ O'); set (s0 := set_fpe V s false) in *;
    assert (F0 : fpe s0 = false) by reflexivity.
  - cbn in E. inversion E; subst v. exists 0, s0, (Dbl w). split.
    + intros fuel _ r -> Lk. cbn [ModelExpr.eval]. fold s0. rewrite Lk. reflexivity.
    + split; [exact R0|]. split; [exact F0|]. split; [reflexivity|intros k p H; discriminate].
  - cbn in E. destruct (var x) as [w|] eqn:Ev; [|discriminate]. cbn in E. inversion E; subst v. exists 0, s0, (Dbl w). split.
    + intros fuel _ r -> Lk. cbn [ModelExpr.eval]. fold s0. rewrite Lk, Ev. reflexivity.
    + split; [exact R0|]. split; [exact F0|]. split; [reflexivity|intros k p H; discriminate].
  - (* models *)
    destruct O' as (C & M & Er). assert (Mn := proj2 M n). cbn [ModelExprSpec.sem] in E. destruct (find n (mods s0)) as [m|] eqn:Fm.
    + destruct Mn as (l & Rn & B). rewrite Rn in E. inversion E; subst v. clear E. destruct Hrho as (W1 & W2 & W3). destruct (W1 n _ _ Rn) as [Ll Nl].
      assert (Nstk : existsb (String.eqb n) stk = false).
      { destruct (existsb (String.eqb n) stk) eqn:Ex; [|reflexivity]. exfalso. apply existsb_exists in Ex. destruct Ex as (x & Hx & Ex). apply String.eqb_eq in Ex. subst x.
        assert (X := HS n Hx). assert (Y := HR n (or_introl eq_refl)). lia. }
      destruct (m_body m) as [c|e'] eqn:Bm.
      * assert (R1 := new_obj s0 s0 c R0). assert (O1 := new_own s0 s0 c (m_kind m) R0). assert (N1 := nth_new s0 c). destruct (alloc V s0 c) as [s1 p1] eqn:EA. cbn [fst snd] in *.
        exists 0, s1, (Dat (m_kind m) p1). split.
        -- intros fuel _ r -> Lk. cbn [ModelExpr.eval]. fold s0. rewrite Lk, Fm, Nstk, Bm, EA. reflexivity.
        -- split; [exact R1|]. split; [inversion EA; exact F0|]. split; [|exact (seen_own _ _ _ O1)]. cbn [den]. split; [reflexivity|]. exists c. split; [exact N1|]. split; [exact B|]. split; assumption.
      * destruct B as [Ix Dn]. destruct (W2 n e' Dn) as (k & l' & v' & Rn' & Es & As). rewrite Rn in Rn'. inversion Rn'; subst k l'. clear Rn'.
        assert (Hn : rank n < R) by (apply HR; left; reflexivity).
        assert (O1 : ok_st (set_err V s0 false)) by (split; [exact C|split; [exact M|reflexivity]]).
        destruct (IHR (rank n) Hn e' (fun q Hq => W3 n e' q Dn Hq) (n :: stk) (mkCx (m_kind m) (m_idx m))) with (s := set_err V s0 false) (v := v') as (N & s1 & d & Ev & (R1 & F1 & D1 & Sn1)).
        { intros x [<-|Hx]; [lia|]. assert (X := HS x Hx). lia. } { exact Ix. } { exact O1. } { exact Es. }
        destruct R1 as (H1 & L1 & (C1 & M1 & E1)).
        destruct m as [mk mi mb]. cbn [m_kind m_idx m_body] in *. subst mi mb.
        set (s2 := set_err V s1 (err s0)).
        assert (D2 : den s2 d v') by exact D1.
        destruct (model_cell_ok s2 mk d v' l e' D2 As Ll Nl) as (c & MC & Ec).
        assert (Er0 : err s0 = false) by exact Er.
        (* the model may have been calculated meanwhile: it has the same kind *)
        set (s3 := set_mods V s2 (put n (mkMd mk [] (Done c)) (mods s2))).
        assert (M3 : mods_ok s3).
        { destruct M1 as [Ms M1]. split; [apply put_sorted; exact Ms|]. intros x. unfold s3. cbn [set_mods mods]. rewrite find_put by exact Ms. destruct (String.eqb_spec x n) as [->|_]; [exists l; split; [exact Rn|exact Ec]|exact (M1 x)]. }
        assert (R3 : reach s0 s3).
        { split; [exact H1|]. split; [exact L1|]. split; [exact C1|]. split; [exact M3|exact Er0]. }
        assert (R4 := new_obj s0 s3 c R3). assert (O4 := new_own s0 s3 c mk R3). assert (N4 := nth_new s3 c). destruct (alloc V s3 c) as [s4 p4] eqn:EA. cbn [fst snd] in *.
        exists N, s4, (Dat mk p4). split.
        -- intros fuel Hf r -> Lk. cbn [ModelExpr.eval]. fold s0. rewrite Lk, Fm, Nstk. cbn [m_body m_kind m_idx]. rewrite (Ev fuel Hf). fold s2. rewrite MC. fold s3. rewrite EA. reflexivity.
        -- split; [exact R4|]. split; [inversion EA; exact F1|]. split; [|exact (seen_own _ _ _ O4)]. cbn [den]. split; [reflexivity|]. exists c. split; [exact N4|]. split; [exact Ec|]. split; assumption.
    + rewrite Mn in E. inversion E; subst v. exists 0, s0, (Dbl zero). split.
      * intros fuel _ r -> Lk. cbn [ModelExpr.eval]. fold s0. rewrite Lk, Fm. reflexivity.
      * split; [exact R0|]. split; [exact F0|]. split; [reflexivity|intros k p H; discriminate].
  - cbn [ModelExprSpec.sem] in E. destruct (prod_ok stk cx l) with (s0 := s0) (s := s0) (out := @Dbl V one) (va := @Sc V one) (v := v) as (N & s1 & d & Ev & R1 & F1 & D1 & O1); auto.
    { rewrite Forall_forall in *. intros e He. apply (IH e He); auto. intros m Hm. apply HR. cbn. apply in_flat_map. exists e. auto. } { reflexivity. } { apply own_dbl. }
    exists N, s1, d. split; [|split; [exact R1|split; [exact F1|split; [exact D1|exact (seen_own _ _ _ O1)]]]].
    intros fuel Hf r -> Lk. cbn [ModelExpr.eval]. fold s0. rewrite Lk, (Ev fuel Hf). reflexivity.
  - cbn [ModelExprSpec.sem] in E. destruct (sum_ok stk cx l) with (s0 := s0) (s := s0) (out := @Dbl V zero) (va := @Sc V zero) (v := v) as (N & s1 & d & Ev & R1 & F1 & D1 & O1); auto.
    { rewrite Forall_forall in *. intros e He. apply (IH e He); auto. intros m Hm. apply HR. cbn. apply in_flat_map. exists e. auto. } { reflexivity. } { apply own_dbl. }
    exists N, s1, d. split; [|split; [exact R1|split; [exact F1|split; [exact D1|exact (seen_own _ _ _ O1)]]]].
    intros fuel Hf r -> Lk. cbn [ModelExpr.eval]. fold s0. rewrite Lk, (Ev fuel Hf). reflexivity.
  - cbn [ModelExprSpec.sem] in E. destruct (sem t) as [vt|] eqn:Et; [|discriminate]. destruct vt as [w|]; [|discriminate].
    assert (Gt : good stk cx t) by (apply IHt; auto; intros m Hm; apply HR; cbn; apply in_or_app; auto).
    assert (Ga : good stk cx a) by (apply IHa; auto; intros m Hm; apply HR; cbn; apply in_or_app; auto).
    destruct (Gt s0 _ O' Et) as (N1 & s1 & d1 & V1 & (R1 & F1 & D1 & Sn1)). destruct d1 as [|w'|]; try (cbn in D1; contradiction). cbn in D1. subst w'.
    destruct (is0 w) eqn:Z.
    + inversion E; subst v. exists N1, s1, (Dbl zero). split; [|split; [exact R1|split; [exact F1|split; [reflexivity|intros k p H; discriminate]]]].
      intros fuel Hf r -> Lk. cbn [ModelExpr.eval]. fold s0. rewrite Lk, (V1 fuel Hf), Z. reflexivity.
    + destruct (Ga s1 v) as (N2 & s2 & d2 & V2 & (R2 & F2 & D2 & Sn2)); [destruct R1 as (_ & _ & R1); exact R1|exact E|].
      exists (N1 + N2), s2, d2. split; [|split; [exact (reach_trans _ _ _ R1 R2)|split; [exact F2|split; [exact D2|exact (seen_trans _ _ _ R1 Sn2)]]]].
      intros fuel Hf r -> Lk. cbn [ModelExpr.eval]. fold s0. rewrite Lk, (V1 fuel) by lia. rewrite Z. rewrite (V2 fuel) by lia. reflexivity.
  - cbn [ModelExprSpec.sem] in E. destruct (sem t) as [vt|] eqn:Et; [|discriminate].
    assert (Gt : good stk cx t) by (apply IHt; auto; intros m Hm; apply HR; cbn; apply in_or_app; auto).
    assert (Ga : good stk cx a) by (apply IHa; auto; intros m Hm; apply HR; cbn; apply in_or_app; right; apply in_or_app; auto).
    assert (Gb : good stk cx b) by (apply IHb; auto; intros m Hm; apply HR; cbn; apply in_or_app; right; apply in_or_app; auto).
    destruct (Gt s0 _ O' Et) as (N1 & s1 & d1 & V1 & (R1 & F1 & D1 & Sn1)). destruct vt as [w|kt lt0].
    + destruct d1 as [|w'|]; try (cbn in D1; contradiction). cbn in D1. subst w'.
      assert (G2 : exists N2 s2 d2, (forall fuel, N2 <= fuel -> (if is0 w then eval fuel stk cx s1 b else eval fuel stk cx s1 a) = (s2, Ok d2)) /\ post s1 s2 d2 v).
      { destruct (is0 w); [apply (Gb s1 v)|apply (Ga s1 v)]; try exact E; destruct R1 as (_ & _ & R1); exact R1. }
      destruct G2 as (N2 & s2 & d2 & V2 & (R2 & F2 & D2 & Sn2)).
      exists (N1 + N2), s2, d2. split; [|split; [exact (reach_trans _ _ _ R1 R2)|split; [exact F2|split; [exact D2|exact (seen_trans _ _ _ R1 Sn2)]]]].
      intros fuel Hf r -> Lk. cbn [ModelExpr.eval]. fold s0. rewrite Lk, (V1 fuel) by lia. rewrite (V2 fuel) by lia. reflexivity.
    + destruct (sem a) as [va|] eqn:Ea; [|discriminate]. destruct (sem b) as [vb|] eqn:Eb; [|discriminate].
      destruct (args_ok stk cx [a; b]) with (s0 := s0) (s := s1) (acc := [d1]) (va := [Fl kt lt0]) (vs := [va; vb]) as (N2 & s2 & ds & V2 & R2 & F2 & D2); auto.
      { cbn [map all]. rewrite Ea, Eb. reflexivity. }
      cbn [rev app] in D2. destruct (ext_math_ok s0 s2 cx "ifelse" ds _ v R2 F2 HX D2 E) as (s3 & d3 & E3 & R3 & F3 & O3 & D3).
      exists (N1 + N2), s3, d3. split; [|split; [exact R3|split; [exact F3|split; [exact D3|exact (seen_own _ _ _ O3)]]]].
      intros fuel Hf r -> Lk. cbn [ModelExpr.eval]. fold s0. rewrite Lk, (V1 fuel) by lia. rewrite (V2 fuel) by lia.
      destruct d1 as [|w'|]; try (cbn in D1; contradiction). rewrite E3. reflexivity.
  - cbn [ModelExprSpec.sem] in E. destruct (all (map sem l)) as [vs|] eqn:Ea; [|discriminate].
    destruct (args_ok stk cx l) with (s0 := s0) (s := s0) (acc := @nil data) (va := @nil (val V)) (vs := vs) as (N2 & s2 & ds & V2 & R2 & F2 & D2); auto.
    { rewrite Forall_forall in *. intros e He. apply (IH e He); auto. intros m Hm. apply HR. cbn. apply in_flat_map. exists e. auto. }
    cbn [rev app] in D2. destruct (ext_math_ok s0 s2 cx f ds vs v R2 F2 HX D2 E) as (s3 & d3 & E3 & R3 & F3 & O3 & D3).
    exists N2, s3, d3. split; [|split; [exact R3|split; [exact F3|split; [exact D3|exact (seen_own _ _ _ O3)]]]].
    intros fuel Hf r -> Lk. cbn [ModelExpr.eval]. fold s0. rewrite Lk, (V2 fuel) by lia. rewrite E3. reflexivity.
Qed.
End P.
