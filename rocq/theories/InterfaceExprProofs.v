(* Evaluation of the expressions of interface models: proofs *)
From Coq Require Import Ascii String List Bool Arith Lia.
From Verif Require Import ModelData ModelDataProperties ModelExpr ModelExprProofs InterfaceExpr InterfaceExprSpec InterfaceExprNames.
Import ListNotations.
Open Scope list_scope.

Lemma map_seq_nth : forall {A B} (f : A -> B) (z : A) (l : list A), map (fun i => f (nth i l z)) (seq 0 (length l)) = map f l.
Proof.
  intros A B f z l. induction l as [|x l IH]; [reflexivity|]. cbn [length seq map nth]. f_equal. rewrite <- seq_shift, map_map. exact IH.
Qed.
Lemma nth_combine : forall {A B} (a : list A) (b : list B) x y i, length a = length b -> nth i (combine a b) (x, y) = (nth i a x, nth i b y).
Proof.
  induction a as [|u a IH]; intros [|w b] x y i L; try discriminate; [destruct i; reflexivity|]. destruct i as [|i]; [reflexivity|]. cbn. apply IH. cbn in L. lia.
Qed.
Lemma map_seq_combine : forall {A B} (f : A -> A -> B) (z : A) (a b : list A), length a = length b ->
  map (fun i => f (nth i a z) (nth i b z)) (seq 0 (length a)) = map (fun q => f (fst q) (snd q)) (combine a b).
Proof.
  intros A B f z a b L. assert (Lc : length (combine a b) = length a) by (rewrite combine_length; lia).
  rewrite <- Lc. rewrite <- (map_seq_nth (fun q => f (fst q) (snd q)) (z, z) (combine a b)).
  apply map_ext. intros i. rewrite nth_combine by exact L. reflexivity.
Qed.
Lemma existsb_map : forall {A B} (p : B -> bool) (f : A -> B) l, existsb p (map f l) = existsb (fun x => p (f x)) l.
Proof. intros A B p f l. induction l as [|x l IH]; [reflexivity|]. cbn. rewrite IH. reflexivity. Qed.
Lemma existsb_seq_nth : forall {A} (p : A -> bool) (z : A) (l : list A), existsb (fun i => p (nth i l z)) (seq 0 (length l)) = existsb p l.
Proof.
  intros A p z l. transitivity (existsb (fun b : bool => b) (map (fun i => p (nth i l z)) (seq 0 (length l)))); [rewrite existsb_map; reflexivity|].
  rewrite (map_seq_nth p z l), existsb_map. reflexivity.
Qed.
Lemma existsb_seq_combine : forall {A} (p : A -> A -> bool) (z : A) (a b : list A), length a = length b ->
  existsb (fun i => p (nth i a z) (nth i b z)) (seq 0 (length a)) = existsb (fun q => p (fst q) (snd q)) (combine a b).
Proof.
  intros A p z a b L. transitivity (existsb (fun b : bool => b) (map (fun i => p (nth i a z) (nth i b z)) (seq 0 (length a)))); [rewrite existsb_map; reflexivity|].
  rewrite (map_seq_combine p z a b L), existsb_map. reflexivity.
Qed.

Section P.
Variable V : Type.
Variables (zero one : V) (add mul : V -> V -> V) (is0 : V -> bool) (lt same : V -> V -> bool).
Variables (bad_add bad_mul : V -> V -> bool).
Variable fn : string -> nat -> option (list V -> V * bool).
Variable key : expr V -> string.
Variable par : bool -> string -> option V.
Variable circuit : string -> option V.
Variable imodel : string -> option (expr V).
Variable nmodel : bool -> string -> option (list V).
Variable nodes : bool -> list nat.
Variable var : string -> option V.
Variable rho : string -> option (list V).
Variable rank : string -> nat.
Definition n := length (nodes false).
Local Notation val := (val V).
Local Notation elem := (elem V zero).
Local Notation lift2 := (lift2 V zero n).
Local Notation apply := (apply V zero add lt fn n).
Local Notation sem := (sem V zero one add mul is0 lt bad_add bad_mul fn n var rho).
Local Notation product := (product V zero mul is0 bad_mul n).
Local Notation total := (total V zero add bad_add n).
Local Notation model_is := (model_is V zero one add mul is0 lt bad_add bad_mul fn n var rho imodel nmodel nodes).
Local Notation uses := (uses V).
Local Notation st := (st V).
Local Notation data := (data V).
Local Notation cell := (cell V).
Local Notation op_equal := (op_equal V).
Local Notation ext_math := (ext_math V zero add lt fn).
Local Notation eval := (eval V zero one add mul is0 lt same bad_add bad_mul fn key par circuit imodel nmodel nodes).

Hypothesis Hnodes : length (nodes true) = length (nodes false).
Hypothesis Hvar : forall s v, var s = Some v -> var_is V same par circuit s v.
Hypothesis Hrho : forall m l, rho m = Some l -> model_is m l.
Hypothesis Hrank : forall m e x, rho m <> None -> imodel m = Some e -> In x (uses e) -> rank x < rank m.
Hypothesis Hkey : forall e e', key e = key e' -> e = e'.

Definition den (s : st) (d : data) (v : val) : Prop :=
  match d, v with
  | Dbl x, Sc y => x = y
  | Dat p, Fl l => nth_error (heap s) p = Some (Vals l) /\ length l = n
  | _, _ => False
  end.
Definition locs (s : st) (p : nat) : Prop := exists k, In (k, Dat p) (cache s).
Definition cache_ok (s : st) : Prop := forall k d, In (k, d) (cache s) -> exists e v, k = key e /\ sem e = Some v /\ den s d v.
Definition ok_st (s : st) : Prop := cache_ok s /\ err s = false /\ said s = false.
(* s0 -> s: the objects of s0 are unchanged; the cache refers to objects of the cache of s0 or to new ones *)
Definition reach (s0 s : st) : Prop :=
  (exists h, heap s = heap s0 ++ h) /\ (forall p, locs s p -> locs s0 p \/ length (heap s0) <= p) /\ ok_st s.
Definition own (s0 s : st) (d : data) : Prop := forall p, d = Dat p -> length (heap s0) <= p < length (heap s) /\ ~ locs s p.
Definition seen (s0 : st) (d : data) : Prop := forall p, d = Dat p -> locs s0 p \/ length (heap s0) <= p.

Lemma den_heap : forall s s' d v, (forall p, d = Dat p -> forall c, nth_error (heap s) p = Some c -> nth_error (heap s') p = Some c) -> den s d v -> den s' d v.
Proof.
  intros s s' [|x|p] [y|l] H D; cbn [den] in *; auto. destruct D as [E L]. split; [exact (H p eq_refl _ E)|exact L].
Qed.
Lemma den_app : forall s s' d v h, heap s' = heap s ++ h -> den s d v -> den s' d v.
Proof.
  intros s s' d v h E. apply den_heap. intros p _ c Hc. rewrite E. rewrite nth_error_app1; [exact Hc|]. apply nth_error_Some. congruence.
Qed.
Lemma den_lt : forall s p v, den s (Dat p) v -> p < length (heap s).
Proof. intros s p [y|l] D; cbn in D; [contradiction|]. destruct D as [E _]. apply nth_error_Some. congruence. Qed.
Lemma get_nth : forall (s : st) p c, nth_error (heap s) p = Some c -> get V s p = c.
Proof. intros s p c H. unfold get. apply nth_error_nth with (d := Vals []) in H. exact H. Qed.
Lemma locs_lt : forall s p, cache_ok s -> locs s p -> p < length (heap s).
Proof. intros s p H (k & Hin). destruct (H _ _ Hin) as (e & v & _ & _ & D). exact (den_lt _ _ _ D). Qed.
Lemma reach_refl : forall s, ok_st s -> reach s s.
Proof. intros s H. split; [exists []; symmetry; apply List.app_nil_r|]. split; auto. Qed.
Lemma reach_trans : forall a b c, reach a b -> reach b c -> reach a c.
Proof.
  intros a b c ((h1 & E1) & L1 & O1) ((h2 & E2) & L2 & O2). split; [|split; [|exact O2]].
  - exists (h1 ++ h2). rewrite E2, E1. apply app_assoc_reverse.
  - intros p Hp. destruct (L2 p Hp) as [H|H]; [exact (L1 p H)|]. right. rewrite E1, app_length in H. lia.
Qed.
Lemma seen_trans : forall a b d, reach a b -> seen b d -> seen a d.
Proof.
  intros a b d ((h1 & E1) & L1 & O1) H p E. destruct (H p E) as [H'|H']; [exact (L1 p H')|]. right. rewrite E1, app_length in H'. lia.
Qed.
Lemma change_own : forall s0 s p c b, reach s0 s -> length (heap s0) <= p < length (heap s) -> ~ locs s p ->
  reach s0 (mkSt (put_at (heap s) p c) (cache s) (err s) b (said s)).
Proof.
  intros s0 s p c b ((h & E) & L & (C & Er)) Hp N. split; [|split].
  - exists (put_at h (p - length (heap s0)) c). cbn [heap]. rewrite E. unfold put_at. rewrite firstn_app, skipn_app.
    rewrite firstn_all2 by lia. rewrite skipn_all2 by lia. rewrite <- app_assoc. reflexivity.
  - intros q Hq. exact (L q Hq).
  - split; [|exact Er]. intros k d Hin. cbn [cache] in Hin. destruct (C k d Hin) as (e & v & E1 & E2 & D). exists e, v. split; [exact E1|]. split; [exact E2|].
    apply (den_heap s); [|exact D]. intros q -> cc Hc. cbn [heap]. rewrite nth_error_put_at by lia. destruct (Nat.eqb_spec q p) as [->|_]; [|exact Hc].
    exfalso. apply N. exists k. exact Hin.
Qed.
Lemma new_obj : forall s0 s c, reach s0 s -> reach s0 (fst (alloc V s c)).
Proof.
  intros s0 s c ((h & E) & L & (C & Er)). split; [|split].
  - exists (h ++ [c]). cbn. rewrite E. apply app_assoc_reverse.
  - exact L.
  - split; [|exact Er]. intros k d Hin. destruct (C k d Hin) as (e & v & E1 & E2 & D). exists e, v. split; [exact E1|]. split; [exact E2|].
    apply (den_app s) with (h := [c]); [reflexivity|exact D].
Qed.
Lemma new_own : forall s0 s c, reach s0 s -> own s0 (fst (alloc V s c)) (Dat (snd (alloc V s c))).
Proof.
  intros s0 s c ((h & E) & L & (C & Er)) p' H. inversion H; subst p'. cbn. split.
  - rewrite app_length. cbn. rewrite E, app_length. lia.
  - intros Hl. assert (X := locs_lt s _ C Hl). lia.
Qed.
Lemma nth_new : forall (s : st) c, nth_error (heap (fst (alloc V s c))) (snd (alloc V s c)) = Some c.
Proof. intros s c. cbn. rewrite nth_error_app2 by lia. rewrite Nat.sub_diag. reflexivity. Qed.
Lemma own_dbl : forall s0 s x, own s0 s (Dbl x). Proof. intros s0 s x p E. discriminate. Qed.
Lemma seen_own : forall s0 s d, own s0 s d -> seen s0 d.
Proof. intros s0 s d H p E. destruct (H p E) as [H1 _]. right. lia. Qed.
Lemma own_reach : forall s0 s s' d, own s0 s d -> reach s s' -> own s0 s' d.
Proof.
  intros s0 s s' d H ((h & E) & L & _) p Ed. destruct (H p Ed) as [Hp N]. split; [rewrite E, app_length; lia|].
  intros Hl. destruct (L p Hl) as [H1|H1]; [exact (N H1)|lia].
Qed.
Lemma den_reach : forall s s' d v, den s d v -> reach s s' -> den s' d v.
Proof. intros s s' d v D ((h & E) & _). exact (den_app s s' d v h E D). Qed.
Lemma apart : forall s0 s x, seen s x -> forall a, own s0 s a -> forall q p, x = Dat q -> a = Dat p -> p <> q.
Proof.
  intros s0 s x Sn a O q p E1 E2 ->. destruct (O q E2) as [H1 H2]. destruct (Sn q E1) as [H|H]; [exact (H2 H)|lia].
Qed.
(* a new object with values *)
Lemma fresh : forall s0 s l, reach s0 s -> length l = n ->
  exists s' p, alloc V s (Vals l) = (s', p) /\ reach s0 s' /\ fpe s' = fpe s /\ own s0 s' (Dat p) /\ den s' (Dat p) (Fl l).
Proof.
  intros s0 s l R L. assert (R1 := new_obj s0 s (Vals l) R). assert (O1 := new_own s0 s (Vals l) R). assert (N1 := nth_new s (Vals l)).
  destruct (alloc V s (Vals l)) as [s1 p1] eqn:EA. cbn [fst snd] in *. exists s1, p1. split; [reflexivity|]. split; [exact R1|].
  split; [inversion EA; reflexivity|]. split; [exact O1|]. split; assumption.
Qed.

Lemma op_cell_ok : forall s0 s op bad p c d l, reach s0 s -> fpe s = false -> own s0 s (Dat p) -> nth_error (heap s) p = Some c ->
  op_data V op c d = Some (Vals l) -> bad_cell V bad c d = false -> length l = n ->
  exists s', op_cell V op bad s p d = (s', Ok (Dat p)) /\ reach s0 s' /\ fpe s' = false /\ own s0 s' (Dat p) /\ den s' (Dat p) (Fl l).
Proof.
  intros s0 s op bad p c d l R F O Hc E B L. unfold op_cell. rewrite (get_nth s p c Hc), E, B. destruct (O p eq_refl) as [Hp N].
  eexists. split; [reflexivity|]. unfold raise, set_fpe, set_heap. cbn [heap cache err fpe said]. rewrite F.
  split; [exact (change_own s0 s p _ false R Hp N)|]. split; [reflexivity|]. split.
  - intros q H. inversion H; subst q. cbn [heap]. rewrite put_at_length. split; [exact Hp|exact N].
  - cbn [den heap]. split; [|exact L]. rewrite nth_error_put_at by lia. rewrite Nat.eqb_refl. reflexivity.
Qed.
Lemma op_equal_ok : forall s0 s op bad a b va vb v, reach s0 s -> fpe s = false -> den s a va -> den s b vb -> own s0 s a ->
  lift2 op bad va vb = Some v ->
  exists s' d, op_equal op bad s a b = (s', Ok d) /\ reach s0 s' /\ fpe s' = false /\ own s0 s' d /\ den s' d v.
Proof.
  intros s0 s op bad a b va vb v R F Da Db O H.
  destruct a as [|x|p], va as [x'|l1]; try (cbn in Da; contradiction);
  destruct b as [|y|q], vb as [y'|l2]; try (cbn in Db; contradiction); unfold InterfaceExprSpec.lift2 in H; cbn [InterfaceExpr.op_equal].
  - cbn in Da, Db. subst x' y'. destruct (bad x y) eqn:B; [discriminate|]. inversion H; subst v.
    eexists. eexists. split; [reflexivity|]. unfold raise, set_fpe. cbn [fpe]. rewrite F. split; [exact R|]. split; [reflexivity|]. split; [apply own_dbl|reflexivity].
  - cbn in Da. subst x'. destruct Db as [Hq Lq]. rewrite (get_nth s q _ Hq). cbn [clen].
    cbn [InterfaceExprSpec.elem] in H. rewrite <- Lq in H. rewrite (existsb_seq_nth (fun w => bad x w) zero l2) in H. rewrite (map_seq_nth (fun w => op x w) zero l2) in H.
    destruct (existsb _ l2) eqn:B; [discriminate|]. inversion H; subst v.
    assert (R' := new_obj s0 s (Uni x (length l2)) R). assert (O' := new_own s0 s (Uni x (length l2)) R). assert (Hn := nth_new s (Uni x (length l2))).
    destruct (alloc V s (Uni x (length l2))) as [s1 p1] eqn:EA. cbn [fst snd] in *.
    assert (F1 : fpe s1 = false) by (inversion EA; exact F).
    destruct (op_cell_ok s0 s1 op bad p1 (Uni x (length l2)) (Vals l2) (map (fun w => op x w) l2) R' F1 O' Hn) as (s' & E1 & P).
    { cbn [op_data elems]. rewrite zip_each by (rewrite repeat_length; reflexivity). cbn [option_map]. f_equal. f_equal. rewrite each_combine. apply map_combine_repeat_l. }
    { cbn [bad_cell elems]. rewrite existsb_combine_repeat_l. exact B. }
    { rewrite map_length. exact Lq. }
    exists s', (Dat p1). split; [exact E1|exact P].
  - destruct Da as [Hp Lp]. cbn in Db. subst y'.
    cbn [InterfaceExprSpec.elem] in H. rewrite <- Lp in H. rewrite (existsb_seq_nth (fun w => bad w y) zero l1) in H. rewrite (map_seq_nth (fun w => op w y) zero l1) in H.
    destruct (existsb _ l1) eqn:B; [discriminate|]. inversion H; subst v.
    destruct (op_cell_ok s0 s op bad p (Vals l1) (Uni y 1) (map (fun w => op w y) l1) R F O Hp) as (s' & E1 & P); [reflexivity|exact B|rewrite map_length; exact Lp|].
    exists s', (Dat p). split; [exact E1|exact P].
  - destruct Da as [Hp Lp]. destruct Db as [Hq Lq]. rewrite (get_nth s q _ Hq).
    assert (LL : length l1 = length l2) by congruence.
    cbn [InterfaceExprSpec.elem] in H. rewrite <- Lp in H. rewrite (existsb_seq_combine bad zero l1 l2 LL) in H. rewrite (map_seq_combine op zero l1 l2 LL) in H.
    destruct (existsb _ (combine l1 l2)) eqn:B; [discriminate|]. inversion H; subst v.
    destruct (op_cell_ok s0 s op bad p (Vals l1) (Vals l2) (map (fun w => op (fst w) (snd w)) (combine l1 l2)) R F O Hp) as (s' & E1 & P).
    { cbn [op_data elems]. rewrite zip_each by (symmetry; exact LL). reflexivity. } { exact B. } { rewrite map_length, combine_length. lia. }
    exists s', (Dat p). split; [exact E1|exact P].
Qed.

(* names *)
Lemma eval_var_ok : forall s m v, var m = Some v -> eval_var V same par circuit s m = (s, Ok (Dbl v)).
Proof.
  intros s m v H. apply Hvar in H. unfold eval_var. destruct H as [i x v Hr P|i x v Hr P C|v w Pl P1 P2 S|i v Pl P C].
  - apply region_name_iff in Hr. rewrite Hr, P. reflexivity.
  - apply region_name_iff in Hr. rewrite Hr, P, C. reflexivity.
  - apply region_name_none in Pl. rewrite Pl, P1, P2, S. reflexivity.
  - apply region_name_none in Pl. rewrite Pl, C. destruct i; rewrite P; [destruct (par false m)|]; reflexivity.
Qed.

(* functions *)
Definition arep (a : arg V) (v : val) : Prop :=
  match a, v with
  | ANum x, Sc y => x = y
  | ACell c, Fl l => c = Vals l /\ length l = n
  | _, _ => False
  end.
Lemma get_args_ok : forall s argv vs, Forall2 (den s) argv vs -> exists args, get_args V s argv = Some args /\ Forall2 arep args vs.
Proof.
  intros s argv vs H. induction H as [|d v argv vs D _ (args & E & IH)]; [exists []; split; [reflexivity|constructor]|].
  destruct d as [|x|p], v as [y|l]; try (cbn in D; contradiction); cbn [get_args]; rewrite E; cbn [option_map].
  - eexists. split; [reflexivity|]. constructor; [exact D|exact IH].
  - destruct D as [Hp L]. eexists. split; [reflexivity|]. constructor; [|exact IH]. split; [exact (get_nth s p _ Hp)|exact L].
Qed.
Lemma all_num_ok : forall args vs, Forall2 arep args vs -> all_num V args = forallb (is_number V) vs.
Proof.
  intros args vs H. induction H as [|a v args vs D _ IH]; [reflexivity|]. unfold all_num in *. cbn [forallb]. rewrite IH.
  destruct a as [x|c], v as [y|l]; try (cbn in D; contradiction); reflexivity.
Qed.
Lemma at_elem_ok : forall args vs i, Forall2 arep args vs -> map (at_elem V zero i) args = map (elem i) vs.
Proof.
  intros args vs i H. induction H as [|a v args vs D _ IH]; [reflexivity|]. cbn [map]. rewrite IH. f_equal.
  destruct a as [x|c], v as [y|l]; try (cbn in D; contradiction); [exact D|]. destruct D as [-> _]. reflexivity.
Qed.
Lemma uniform_ok : forall args vs, Forall2 arep args vs -> forallb (uniform_arg V) args = forallb (is_number V) vs.
Proof.
  intros args vs H. induction H as [|a v args vs D _ IH]; [reflexivity|]. cbn [forallb]. rewrite IH.
  destruct a as [x|c], v as [y|l]; try (cbn in D; contradiction); [reflexivity|]. destruct D as [-> _]. reflexivity.
Qed.
Lemma vlen_ok : forall args vs, Forall2 arep args vs -> forallb (is_number V) vs = false -> vlen V args = n.
Proof.
  intros args vs H. unfold vlen. generalize 0. assert (G : forall m, m = n \/ forallb (is_number V) vs = false ->
    fold_left (fun k a => match a with ACell c => clen V c | _ => k end) args m = n); [|intros m E; apply G; right; exact E].
  induction H as [|a v args vs D _ IH]; intros m E; [destruct E as [E|E]; [exact E|discriminate]|]. cbn [fold_left]. apply IH.
  destruct a as [x|c], v as [y|l]; try (cbn in D; contradiction).
  - cbn in E. exact E.
  - destruct D as [-> L]. left. exact L.
Qed.
Lemma ext_math_ok : forall s0 s f argv vs v, reach s0 s -> fpe s = false -> Forall2 (den s) argv vs -> apply f vs = Some v ->
  exists s' d, ext_math s f argv = (s', Ok d) /\ reach s0 s' /\ fpe s' = false /\ own s0 s' d /\ den s' d v.
Proof.
  intros s0 s f argv vs v R F D H. destruct (get_args_ok s argv vs D) as (args & G & A).
  unfold InterfaceExprSpec.apply in H. unfold InterfaceExpr.ext_math.
  assert (Er : err s = false) by (destruct R as (_ & _ & _ & E & _); exact E).
  destruct D as [|d0 v0 argv vs D0 D]; [discriminate|]. rewrite G. assert (Ln : length args = length (v0 :: vs)) by exact (F2_len A). rewrite Ln.
  destruct (fn f (length (v0 :: vs))) as [g|]; [|discriminate].
  rewrite (all_num_ok _ _ A). destruct (forallb (is_number V) (v0 :: vs)) eqn:Num.
  - rewrite (at_elem_ok _ _ 0 A). cbn zeta in H |- *. destruct (snd (g (map (elem 0) (v0 :: vs)))) eqn:B; [discriminate|]. inversion H; subst v.
    rewrite Er. eexists. eexists. split; [reflexivity|]. unfold raise, set_fpe. cbn [fpe]. rewrite F. split; [exact R|]. split; [reflexivity|]. split; [apply own_dbl|reflexivity].
  - rewrite (uniform_ok _ _ A), Num, (vlen_ok _ _ A Num).
    assert (Rw : forall i, g (map (at_elem V zero i) args) = g (map (elem i) (v0 :: vs))) by (intros i; rewrite (at_elem_ok _ _ i A); reflexivity).
    cbn zeta in H |- *. rewrite existsb_map, map_map in H.
    assert (E1 : existsb (fun i => snd (g (map (at_elem V zero i) args))) (seq 0 n) = existsb (fun i => snd (g (map (elem i) (v0 :: vs)))) (seq 0 n)).
    { generalize (seq 0 n). intros qs. clear H. induction qs as [|i qs IH]; [reflexivity|]. cbn [existsb]. rewrite IH, Rw. reflexivity. }
    assert (E2 : map (fun i => fst (g (map (at_elem V zero i) args))) (seq 0 n) = map (fun i => fst (g (map (elem i) (v0 :: vs)))) (seq 0 n)).
    { apply map_ext. intros i. rewrite Rw. reflexivity. }
    rewrite E1, E2. destruct (existsb _ (seq 0 n)); [discriminate|].
    set (l := map (fun i => fst (g (map (elem i) (v0 :: vs)))) (seq 0 n)) in *.
    assert (Ll : length l = n) by (unfold l; rewrite map_length; apply seq_length). clearbody l.
    unfold raise. rewrite F. cbn [orb]. set (s1 := set_fpe V s false).
    assert (R1 : reach s0 s1) by exact R. assert (Er1 : err s1 = false) by exact Er. rewrite Er1.
    unfold reduce in H.
    destruct (String.eqb f "vec_sum").
    { inversion H; subst v. exists s1, (Dbl (fold_left add l zero)). split; [reflexivity|]. split; [exact R1|]. split; [reflexivity|]. split; [apply own_dbl|reflexivity]. }
    destruct (String.eqb f "vec_max").
    { destruct l as [|x t]; [discriminate|]. cbn [best extreme option_map] in *. inversion H; subst v. eexists. eexists. split; [reflexivity|]. split; [exact R1|]. split; [reflexivity|]. split; [apply own_dbl|reflexivity]. }
    destruct (String.eqb f "vec_min").
    { destruct l as [|x t]; [discriminate|]. cbn [best extreme option_map] in *. inversion H; subst v. eexists. eexists. split; [reflexivity|]. split; [exact R1|]. split; [reflexivity|]. split; [apply own_dbl|reflexivity]. }
    inversion H; subst v. destruct (fresh s0 s1 l R1 Ll) as (s' & p & EA & R2 & F2 & O2 & D2). rewrite EA. exists s', (Dat p).
    split; [reflexivity|]. split; [exact R2|]. split; [rewrite F2; reflexivity|]. split; assumption.
Qed.

(* evaluation *)
Definition post (s s' : st) (d : data) (v : val) : Prop := reach s s' /\ fpe s' = false /\ den s' d v /\ seen s d.
Definition good (stk : list string) (e : expr V) : Prop := forall s v, ok_st s -> sem e = Some v ->
  exists N s' d, (forall fuel, N <= fuel -> eval fuel stk s e = (s', Ok d)) /\ post s s' d v.
Lemma lookup_in : forall k (c : list (string * data)) d, lookup V k c = Some d -> In (k, d) c.
Proof.
  intros k c d. induction c as [|[k' d'] c IH]; cbn [lookup]; [discriminate|]. destruct (String.eqb_spec k k') as [->|_]; [|intros H; right; exact (IH H)].
  intros H. inversion H. left. reflexivity.
Qed.
Lemma finish_ok : forall e v s s1 d, post s s1 d v -> sem e = Some v ->
  exists s2, finish V key s1 e (Ok d) = (s2, Ok d) /\ post s s2 d v.
Proof.
  intros e v s s1 d (R & F & D & Sn) E. unfold finish. rewrite F.
  exists (set_cache V s1 ((key e, d) :: cache s1)). split; [destruct d; [destruct v; contradiction|reflexivity|reflexivity]|].
  split; [|split; [exact F|split; [exact D|exact Sn]]]. destruct R as (H & L & (C & Er)). split; [exact H|]. split.
  - intros p (k & [Hin|Hin]); [inversion Hin; subst d; exact (Sn p eq_refl)|]. apply L. exists k. exact Hin.
  - split; [|exact Er]. intros k0 d0 [Hin|Hin]; [inversion Hin; subst k0 d0; exists e, v; auto|]. exact (C k0 d0 Hin).
Qed.
Lemma den_inv : forall s v, ~ den s Inv v. Proof. intros s [x|l] H; exact H. Qed.
Lemma reach_ok : forall a b, reach a b -> ok_st b. Proof. intros a b (_ & _ & O). exact O. Qed.
Lemma prod_ok : forall stk l, Forall (good stk) l -> forall s0 s out va v, reach s0 s -> fpe s = false -> den s out va -> own s0 s out ->
  product va (map sem l) = Some v ->
  exists N s' d, (forall fuel, N <= fuel -> prod_loop V zero mul is0 bad_mul (eval fuel stk) s out l = (s', Ok d)) /\
    reach s0 s' /\ fpe s' = false /\ den s' d v /\ own s0 s' d.
Proof.
  intros stk l H. induction H as [|e l G _ IH]; intros s0 s out va v R F D O E; cbn [map InterfaceExprSpec.product] in E.
  - inversion E; subst v. exists 0, s, out. cbn [prod_loop]. auto.
  - destruct (sem e) as [x|] eqn:Ex; [|discriminate].
    destruct (G s x) as (N1 & s1 & d1 & V1 & (R1 & F1 & D1 & Sn1)); [exact (reach_ok _ _ R)|exact Ex|].
    assert (R01 := reach_trans _ _ _ R R1). assert (Da := den_reach _ _ _ _ D R1). assert (O1 := own_reach _ _ _ _ O R1).
    assert (Z : match d1 with Dbl w => is0 w | _ => false end = match x with Sc w => is0 w | _ => false end).
    { destruct d1 as [|w|p], x as [w'|l0]; try (cbn in D1; contradiction); [cbn in D1; subst; reflexivity|reflexivity]. }
    destruct (match x with Sc w => is0 w | _ => false end) eqn:Zx.
    + inversion E; subst v. exists N1, s1, (Dbl zero). split; [|split; [exact R01|split; [exact F1|split; [reflexivity|apply own_dbl]]]].
      intros fuel Hf. cbn [prod_loop]. rewrite (V1 fuel Hf), Z. reflexivity.
    + destruct (lift2 mul bad_mul va x) as [y|] eqn:L2; [|discriminate].
      destruct (op_equal_ok s0 s1 mul bad_mul out d1 va x y R01 F1 Da D1 O1 L2) as (s2 & d2 & E2 & R2 & F2 & O2 & D2).
      destruct (IH s0 s2 d2 y v R2 F2 D2 O2 E) as (N2 & s3 & d3 & V3 & P3).
      exists (N1 + N2), s3, d3. split; [|exact P3]. intros fuel Hf. cbn [prod_loop]. rewrite (V1 fuel) by lia. rewrite Z, E2. apply V3. lia.
Qed.
Lemma sum_ok : forall stk l, Forall (good stk) l -> forall s0 s out va v, reach s0 s -> fpe s = false -> den s out va -> own s0 s out ->
  total va (map sem l) = Some v ->
  exists N s' d, (forall fuel, N <= fuel -> sum_loop V add bad_add (eval fuel stk) s out l = (s', Ok d)) /\
    reach s0 s' /\ fpe s' = false /\ den s' d v /\ own s0 s' d.
Proof.
  intros stk l H. induction H as [|e l G _ IH]; intros s0 s out va v R F D O E; cbn [map InterfaceExprSpec.total] in E.
  - inversion E; subst v. exists 0, s, out. cbn [sum_loop]. auto.
  - destruct (sem e) as [x|] eqn:Ex; [|discriminate].
    destruct (G s x) as (N1 & s1 & d1 & V1 & (R1 & F1 & D1 & Sn1)); [exact (reach_ok _ _ R)|exact Ex|].
    assert (R01 := reach_trans _ _ _ R R1). assert (Da := den_reach _ _ _ _ D R1). assert (O1 := own_reach _ _ _ _ O R1).
    destruct (lift2 add bad_add va x) as [y|] eqn:L2; [|discriminate].
    destruct (op_equal_ok s0 s1 add bad_add out d1 va x y R01 F1 Da D1 O1 L2) as (s2 & d2 & E2 & R2 & F2 & O2 & D2).
    destruct (IH s0 s2 d2 y v R2 F2 D2 O2 E) as (N2 & s3 & d3 & V3 & P3).
    exists (N1 + N2), s3, d3. split; [|exact P3]. intros fuel Hf. cbn [sum_loop]. rewrite (V1 fuel) by lia. rewrite E2. apply V3. lia.
Qed.
Lemma args_ok : forall stk l, Forall (good stk) l -> forall s0 s acc va vs, reach s0 s -> fpe s = false -> Forall2 (den s) acc va ->
  all (map sem l) = Some vs ->
  exists N s' ds, (forall fuel, N <= fuel -> args_loop V (eval fuel stk) s acc l = (s', Ok ds)) /\
    reach s0 s' /\ fpe s' = false /\ Forall2 (den s') ds (rev va ++ vs).
Proof.
  intros stk l H. induction H as [|e l G _ IH]; intros s0 s acc va vs R F D E; cbn [map all] in E.
  - inversion E; subst vs. exists 0, s, (rev acc). rewrite List.app_nil_r. split; [reflexivity|]. split; [exact R|]. split; [exact F|].
    clear - D. induction D as [|d v acc va H _ IH]; [constructor|]. cbn [rev]. apply Forall2_app; [exact IH|]. constructor; [exact H|constructor].
  - destruct (sem e) as [x|] eqn:Ex; [|discriminate]. destruct (all (map sem l)) as [t|] eqn:Et; [|discriminate]. inversion E; subst vs.
    destruct (G s x) as (N1 & s1 & d1 & V1 & (R1 & F1 & D1 & Sn1)); [exact (reach_ok _ _ R)|exact Ex|].
    assert (R01 := reach_trans _ _ _ R R1).
    destruct (IH s0 s1 (d1 :: acc) (x :: va) t R01 F1) as (N2 & s2 & ds & V2 & R2 & F2 & D2); [|reflexivity|].
    { constructor; [exact D1|]. clear - D R1. induction D as [|d v acc va H _ IH]; constructor; [exact (den_reach _ _ _ _ H R1)|exact IH]. }
    exists (N1 + N2), s2, ds. split; [|split; [exact R2|split; [exact F2|]]].
    + intros fuel Hf. cbn [args_loop]. rewrite (V1 fuel) by lia. apply V2. lia.
    + cbn [rev] in D2. rewrite <- app_assoc in D2. exact D2.
Qed.

(* the values a model gets *)
Lemma model_cell_ok : forall s d v, den s d v -> model_cell V nodes s d = Ok (Vals (per_node V zero n v)).
Proof.
  intros s d v D. destruct d as [|x|p], v as [y|l]; try (cbn in D; contradiction); unfold per_node.
  - cbn in D. subst y. cbn [model_cell InterfaceExprSpec.elem]. fold n. do 2 f_equal. rewrite <- (seq_length n 0) at 1. induction (seq 0 n) as [|i q IH]; [reflexivity|]. cbn. rewrite IH. reflexivity.
  - destruct D as [Hp L]. cbn [model_cell InterfaceExprSpec.elem]. rewrite (get_nth s p _ Hp). do 2 f_equal. rewrite <- L.
    transitivity (map (fun x : V => x) l); [symmetry; apply List.map_id|]. symmetry. exact (map_seq_nth (fun x => x) zero l).
Qed.
Lemma per_node_len : forall v, length (per_node V zero n v) = n.
Proof. intros v. unfold per_node. rewrite map_length. apply seq_length. Qed.

Lemma step_good : forall stk e s v,
  ok_st s -> sem e = Some v ->
  (exists N s1 d, (forall fuel, N <= fuel -> forall r, r = (s1, Ok d) ->
      lookup V (key e) (cache (set_fpe V s false)) = None -> eval (S fuel) stk s e = finish V key s1 e (Ok d)) /\ post (set_fpe V s false) s1 d v) ->
  exists N s' d, (forall fuel, N <= fuel -> eval fuel stk s e = (s', Ok d)) /\ post s s' d v.
Proof.
  intros stk e s v O E (N & s1 & d & H & P).
  destruct (lookup V (key e) (cache (set_fpe V s false))) as [d0|] eqn:Lk.
  - assert (X := lookup_in _ _ _ Lk). destruct O as (C & Er). destruct (C (key e) d0 X) as (e' & v' & K & E' & D). apply Hkey in K. subst e'. rewrite E in E'. inversion E'; subst v'.
    exists 1, (set_fpe V s false), d0. split.
    + intros fuel Hf. destruct fuel as [|fuel]; [lia|]. cbn [InterfaceExpr.eval]. rewrite Lk. reflexivity.
    + split; [exact (reach_refl s (conj C Er))|]. split; [reflexivity|]. split; [exact D|]. intros p ->. left. exists (key e). exact X.
  - destruct (finish_ok e v _ _ _ P E) as (s2 & F2 & P2). exists (S N), s2, d. split; [|exact P2].
    intros fuel Hf. destruct fuel as [|fuel]; [lia|]. rewrite (H fuel) with (r := (s1, Ok d)); [exact F2|lia|reflexivity|reflexivity].
Qed.
Theorem eval_correct : forall R e, (forall m, In m (uses e) -> rank m < R) -> forall stk,
  (forall x, In x stk -> R <= rank x) -> good stk e.
Proof.
  intros R. induction R as [R IHR] using lt_wf_ind. intros e. induction e as [w|x|m|l IH|l IH|t a IHt IHa|t a b IHt IHa IHb|f l IH] using expr_ind';
    intros HR stk HS s v O E; apply step_good with (1 := O) (2 := E);
    assert (O' : ok_st (set_fpe V s false)) by exact O; assert (R0 := reach_refl _ O'); set (s0 := set_fpe V s false) in *;
    assert (F0 : fpe s0 = false) by reflexivity.
  - cbn in E. inversion E; subst v. exists 0, s0, (Dbl w). split.
    + intros fuel _ r -> Lk. cbn [InterfaceExpr.eval]. fold s0. rewrite Lk. reflexivity.
    + split; [exact R0|]. split; [exact F0|]. split; [reflexivity|intros p H; discriminate].
  - cbn in E. destruct (var x) as [w|] eqn:Ev; [|discriminate]. cbn in E. inversion E; subst v. exists 0, s0, (Dbl w). split.
    + intros fuel _ r -> Lk. cbn [InterfaceExpr.eval]. fold s0. rewrite Lk, (eval_var_ok s0 x w Ev). reflexivity.
    + split; [exact R0|]. split; [exact F0|]. split; [reflexivity|intros p H; discriminate].
  - (* models *)
    cbn [InterfaceExprSpec.sem] in E. destruct (rho m) as [l|] eqn:Rm; [|discriminate]. cbn in E. inversion E; subst v. clear E.
    assert (Mi := Hrho m l Rm). unfold InterfaceExprSpec.model_is in Mi. destruct (imodel m) as [e'|] eqn:Im.
    + destruct Mi as (v' & Es & El).
      assert (Nstk : existsb (String.eqb m) stk = false).
      { destruct (existsb (String.eqb m) stk) eqn:Ex; [|reflexivity]. exfalso. apply existsb_exists in Ex. destruct Ex as (x & Hx & Ex). apply String.eqb_eq in Ex. subst x.
        assert (X := HS m Hx). assert (Y := HR m (or_introl eq_refl)). lia. }
      assert (Hn : rank m < R) by (apply HR; left; reflexivity).
      assert (Nn : rho m <> None) by congruence.
      assert (O1 : ok_st (set_err V s0 false)) by (destruct O' as (C & _ & Sd); split; [exact C|split; [reflexivity|exact Sd]]).
      destruct (IHR (rank m) Hn e' (fun q Hq => Hrank m e' q Nn Im Hq) (m :: stk)) with (s := set_err V s0 false) (v := v') as (N & s1 & d & Ev & (R1 & F1 & D1 & Sn1)).
      { intros x [<-|Hx]; [lia|]. assert (X := HS x Hx). lia. } { exact O1. } { exact Es. }
      destruct R1 as (H1 & L1 & (C1 & E1 & S1)).
      set (s2 := set_err V (set_said V s1 (said s1 || err s1)) (err s0)).
      assert (MC := model_cell_ok s2 d v' D1). rewrite <- El in MC.
      assert (Er0 : err s0 = false) by (destruct O' as (_ & Er & _); exact Er).
      assert (R2 : reach s0 s2).
      { split; [exact H1|]. split; [exact L1|]. split; [exact C1|]. split; [exact Er0|]. unfold s2. cbn. rewrite E1, S1. reflexivity. }
      assert (Ll : length l = n) by (rewrite El; apply per_node_len).
      destruct (fresh s0 s2 l R2 Ll) as (s4 & p4 & EA & R4 & F4 & O4 & D4).
      exists N, s4, (Dat p4). split.
      * intros fuel Hf r -> Lk. cbn [InterfaceExpr.eval]. fold s0. rewrite Lk, Im, Nstk, (Ev fuel Hf). fold s2. rewrite MC, EA. reflexivity.
      * split; [exact R4|]. split; [rewrite F4; exact F1|]. split; [exact D4|exact (seen_own _ _ _ O4)].
    + destruct Mi as (i & x & vals & Hr & Nm & El). apply region_name_iff in Hr.
      assert (Ll : length l = n) by (rewrite El, map_length; destruct i; [exact Hnodes|reflexivity]).
      destruct (fresh s0 s0 l R0 Ll) as (s4 & p4 & EA & R4 & F4 & O4 & D4).
      exists 0, s4, (Dat p4). split.
      * intros fuel _ r -> Lk. cbn [InterfaceExpr.eval]. fold s0. rewrite Lk, Im, Hr, Nm, <- El, EA. reflexivity.
      * split; [exact R4|]. split; [rewrite F4; exact F0|]. split; [exact D4|exact (seen_own _ _ _ O4)].
  - cbn [InterfaceExprSpec.sem] in E. destruct (prod_ok stk l) with (s0 := s0) (s := s0) (out := @Dbl V one) (va := @Sc V one) (v := v) as (N & s1 & d & Ev & R1 & F1 & D1 & O1); auto.
    { rewrite Forall_forall in *. intros e He. apply (IH e He); auto. intros m Hm. apply HR. cbn. apply in_flat_map. exists e. auto. } { reflexivity. } { apply own_dbl. }
    exists N, s1, d. split; [|split; [exact R1|split; [exact F1|split; [exact D1|exact (seen_own _ _ _ O1)]]]].
    intros fuel Hf r -> Lk. cbn [InterfaceExpr.eval]. fold s0. rewrite Lk, (Ev fuel Hf). reflexivity.
  - cbn [InterfaceExprSpec.sem] in E. destruct (sum_ok stk l) with (s0 := s0) (s := s0) (out := @Dbl V zero) (va := @Sc V zero) (v := v) as (N & s1 & d & Ev & R1 & F1 & D1 & O1); auto.
    { rewrite Forall_forall in *. intros e He. apply (IH e He); auto. intros m Hm. apply HR. cbn. apply in_flat_map. exists e. auto. } { reflexivity. } { apply own_dbl. }
    exists N, s1, d. split; [|split; [exact R1|split; [exact F1|split; [exact D1|exact (seen_own _ _ _ O1)]]]].
    intros fuel Hf r -> Lk. cbn [InterfaceExpr.eval]. fold s0. rewrite Lk, (Ev fuel Hf). reflexivity.
  - cbn [InterfaceExprSpec.sem] in E. destruct (sem t) as [vt|] eqn:Et; [|discriminate]. destruct vt as [w|]; [|discriminate].
    assert (Gt : good stk t) by (apply IHt; auto; intros m Hm; apply HR; cbn; apply in_or_app; auto).
    assert (Ga : good stk a) by (apply IHa; auto; intros m Hm; apply HR; cbn; apply in_or_app; auto).
    destruct (Gt s0 _ O' Et) as (N1 & s1 & d1 & V1 & (R1 & F1 & D1 & Sn1)). destruct d1 as [|w'|]; try (cbn in D1; contradiction). cbn in D1. subst w'.
    destruct (is0 w) eqn:Z.
    + inversion E; subst v. exists N1, s1, (Dbl zero). split; [|split; [exact R1|split; [exact F1|split; [reflexivity|intros p H; discriminate]]]].
      intros fuel Hf r -> Lk. cbn [InterfaceExpr.eval]. fold s0. rewrite Lk, (V1 fuel Hf), Z. reflexivity.
    + destruct (Ga s1 v) as (N2 & s2 & d2 & V2 & (R2 & F2 & D2 & Sn2)); [exact (reach_ok _ _ R1)|exact E|].
      exists (N1 + N2), s2, d2. split; [|split; [exact (reach_trans _ _ _ R1 R2)|split; [exact F2|split; [exact D2|exact (seen_trans _ _ _ R1 Sn2)]]]].
      intros fuel Hf r -> Lk. cbn [InterfaceExpr.eval]. fold s0. rewrite Lk, (V1 fuel) by lia. rewrite Z. rewrite (V2 fuel) by lia. reflexivity.
  - cbn [InterfaceExprSpec.sem] in E. destruct (sem t) as [vt|] eqn:Et; [|discriminate].
    assert (Gt : good stk t) by (apply IHt; auto; intros m Hm; apply HR; cbn; apply in_or_app; auto).
    assert (Ga : good stk a) by (apply IHa; auto; intros m Hm; apply HR; cbn; apply in_or_app; right; apply in_or_app; auto).
    assert (Gb : good stk b) by (apply IHb; auto; intros m Hm; apply HR; cbn; apply in_or_app; right; apply in_or_app; auto).
    destruct (Gt s0 _ O' Et) as (N1 & s1 & d1 & V1 & (R1 & F1 & D1 & Sn1)). destruct vt as [w|lt0].
    + destruct d1 as [|w'|]; try (cbn in D1; contradiction). cbn in D1. subst w'.
      assert (G2 : exists N2 s2 d2, (forall fuel, N2 <= fuel -> (if is0 w then eval fuel stk s1 b else eval fuel stk s1 a) = (s2, Ok d2)) /\ post s1 s2 d2 v).
      { destruct (is0 w); [apply (Gb s1 v)|apply (Ga s1 v)]; try exact E; exact (reach_ok _ _ R1). }
      destruct G2 as (N2 & s2 & d2 & V2 & (R2 & F2 & D2 & Sn2)).
      exists (N1 + N2), s2, d2. split; [|split; [exact (reach_trans _ _ _ R1 R2)|split; [exact F2|split; [exact D2|exact (seen_trans _ _ _ R1 Sn2)]]]].
      intros fuel Hf r -> Lk. cbn [InterfaceExpr.eval]. fold s0. rewrite Lk, (V1 fuel) by lia. rewrite (V2 fuel) by lia. reflexivity.
    + destruct (sem a) as [va|] eqn:Ea; [|discriminate]. destruct (sem b) as [vb|] eqn:Eb; [|discriminate].
      destruct (args_ok stk [a; b]) with (s0 := s0) (s := s1) (acc := [d1]) (va := [Fl lt0]) (vs := [va; vb]) as (N2 & s2 & ds & V2 & R2 & F2 & D2); auto.
      { cbn [map all]. rewrite Ea, Eb. reflexivity. }
      cbn [rev app] in D2. destruct (ext_math_ok s0 s2 "ifelse" ds _ v R2 F2 D2 E) as (s3 & d3 & E3 & R3 & F3 & O3 & D3).
      exists (N1 + N2), s3, d3. split; [|split; [exact R3|split; [exact F3|split; [exact D3|exact (seen_own _ _ _ O3)]]]].
      intros fuel Hf r -> Lk. cbn [InterfaceExpr.eval]. fold s0. rewrite Lk, (V1 fuel) by lia. rewrite (V2 fuel) by lia.
      destruct d1 as [|w'|]; try (cbn in D1; contradiction). rewrite E3. reflexivity.
  - cbn [InterfaceExprSpec.sem] in E. destruct (all (map sem l)) as [vs|] eqn:Ea; [|discriminate].
    destruct (args_ok stk l) with (s0 := s0) (s := s0) (acc := @nil data) (va := @nil val) (vs := vs) as (N2 & s2 & ds & V2 & R2 & F2 & D2); auto.
    { rewrite Forall_forall in *. intros e He. apply (IH e He); auto. intros m Hm. apply HR. cbn. apply in_flat_map. exists e. auto. }
    cbn [rev app] in D2. destruct (ext_math_ok s0 s2 f ds vs v R2 F2 D2 E) as (s3 & d3 & E3 & R3 & F3 & O3 & D3).
    exists N2, s3, d3. split; [|split; [exact R3|split; [exact F3|split; [exact D3|exact (seen_own _ _ _ O3)]]]].
    intros fuel Hf r -> Lk. cbn [InterfaceExpr.eval]. fold s0. rewrite Lk, (V2 fuel) by lia. rewrite E3. reflexivity.
Qed.
End P.
