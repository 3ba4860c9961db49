(* C28: how the values of a model are stored cannot be observed. *)
From Coq Require Import List Bool Arith Lia Reals Lra ZArith.
From Flocq Require Import IEEE754.BinarySingleNaN.
From Verif Require Import ModelData CMatrixFloat FloatLaws.
Import ListNotations.

Lemma put_at_map : forall {A B} (f : A -> B) l i v, map f (put_at l i v) = put_at (map f l) i (f v).
Proof.
  intros. unfold put_at. rewrite map_app, firstn_map. f_equal. rewrite skipn_map. destruct (skipn i l); reflexivity.
Qed.
Lemma put_at_length : forall {A} (l : list A) i v, length (put_at l i v) = length l.
Proof.
  intros A l i v. unfold put_at. transitivity (length (firstn i l ++ skipn i l)); [|rewrite firstn_skipn; reflexivity].
  rewrite !app_length. f_equal. destruct (skipn i l); reflexivity.
Qed.
Lemma map_repeat' : forall {A B} (f : A -> B) x n, map f (repeat x n) = repeat (f x) n.
Proof. intros. induction n; cbn; congruence. Qed.

(* ---- the holder: the elements as last written, each in the precision it was written in ---- *)
Section H.
Variables (D X : Type) (d0 : D) (x0 : X) (up : D -> X) (down : X -> D).
Hypothesis down_up : forall d, down (up d) = d.      (* a double is exact in extended precision *)
Hypothesis up0 : up d0 = x0.
Local Notation hop := (hop D X).
Local Notation holder := (holder D X).
Definition elem : Type := D + X.
Definition as_d (e : elem) : D := match e with inl d => d | inr x => down x end.
Definition as_x (e : elem) : X := match e with inl d => up d | inr x => x end.
(* the specification: one element per position, written and read one by one *)
Definition spec_step (n : nat) (s : list elem) (o : hop) : list elem :=
  match o with
  | SetUniformD v => map (fun _ => inl v) s
  | SetUniformX v => map (fun _ => inr v) s
  | SetValueD i v => map (fun k => if k =? i then inl v else nth k s (inl d0)) (seq 0 n)
  | SetValueX i v => map (fun k => if k =? i then inr v else nth k s (inl d0)) (seq 0 n)
  | SetIndexesD idx f => map (fun k => if in_dec Nat.eq_dec k idx then inl (f k) else inl d0) (seq 0 n)
  | SetIndexesX idx f => map (fun k => if in_dec Nat.eq_dec k idx then inr (f k) else inr x0) (seq 0 n)
  | SetValuesD l => map inl l
  | SetValuesX l => map inr l
  | ReadD | ReadX => s
  | Clear => map (fun _ => inl d0) s
  end.
Definition wf_op (n : nat) (o : hop) : Prop :=
  match o with SetValuesD l => length l = n | SetValuesX l => length l = n | SetValueD i _ => i < n | SetValueX i _ => i < n | _ => True end.
Definition spec (n : nat) (l : list hop) : list elem := fold_left (spec_step n) l (repeat (inl d0) n).
Definition run (n : nat) (l : list hop) : holder := fold_left (hstep D X d0 x0 up down) l (new_holder D X d0 x0 n).
(* histories in which no single element is written after the whole was read in the precision other than the one it is
   stored in: p is the precision stored (true: extended), c tells that the other one has been read since *)
Fixpoint no_cross (p c : bool) (l : list hop) : Prop :=
  match l with
  | [] => True
  | o :: t => match o with
              | SetUniformD _ | SetIndexesD _ _ | SetValuesD _ | Clear => no_cross false false t
              | SetUniformX _ | SetIndexesX _ _ | SetValuesX _ => no_cross true false t
              | ReadD => no_cross p (c || p) t
              | ReadX => no_cross p (c || negb p) t
              | SetValueD _ _ => c = false /\ no_cross p c t
              | SetValueX _ _ => (p && c = false) /\ no_cross true false t
              end
  end.

Record ok (h : holder) (s : list elem) (p c : bool) : Prop := {
  ok_len : length s = len h;
  ok_ext : ext h = p;
  ok_uni : uni h = true -> c = false /\ dv h = [] /\ xv h = [] /\ forall e, In e s -> as_d e = du h /\ as_x e = xu h;
  ok_d : p = false -> forall e, In e s -> exists d, e = inl d;
  ok_vd : uni h = false -> p = false -> dv h = map as_d s /\ (xv h = [] \/ c = true /\ xv h = map as_x s);
  ok_vx : uni h = false -> p = true -> xv h = map as_x s /\ (dv h = [] \/ c = true /\ dv h = map as_d s) }.

Lemma nth_put_at : forall {A} (s : list A) i v d, map (fun k => if k =? i then v else nth k s d) (seq 0 (length s)) = put_at s i v.
Proof.
  intros A s i v d. apply nth_ext with (d := d) (d' := d); [rewrite map_length, seq_length, put_at_length; reflexivity|].
  intros k. rewrite map_length, seq_length. intros Hk.
  rewrite (nth_indep _ d (if 0 =? i then v else nth 0 s d)) by (rewrite map_length, seq_length; exact Hk).
  rewrite (map_nth (fun k => if k =? i then v else nth k s d) (seq 0 (length s)) 0 k), seq_nth by exact Hk. cbn [Nat.add]. clear -Hk.
  revert i s Hk. induction k as [|k IH]; intros i s Hk.
  - destruct s as [|a s]; [cbn in Hk; lia|]. destruct i; reflexivity.
  - destruct s as [|a s]; [cbn in Hk; lia|]. destruct i as [|i]; [reflexivity|]. cbn [Nat.eqb nth]. rewrite (IH i s) by (cbn in Hk; lia). reflexivity.
Qed.
Lemma put_at_out : forall {A} (s : list A) i v, length s <= i -> put_at s i v = s.
Proof. intros. unfold put_at. rewrite firstn_all2, skipn_all2 by exact H. apply app_nil_r. Qed.
Lemma In_put_at : forall {A} (s : list A) i v e, In e (put_at s i v) -> e = v \/ In e s.
Proof.
  intros A s i v e H. unfold put_at in H. apply in_app_or in H. destruct H as [H|H].
  - right. rewrite <- (firstn_skipn i s). apply in_or_app. auto.
  - destruct (skipn i s) as [|b t] eqn:E; [destruct H|]. destruct H as [<-|H]; [auto|]. right. rewrite <- (firstn_skipn i s), E. apply in_or_app. right. right. exact H.
Qed.
Lemma all_eq_repeat : forall {A B} (f : A -> B) s v, (forall e, In e s -> f e = v) -> map f s = repeat v (length s).
Proof. intros A B f s v H. induction s as [|a s IH]; cbn; [reflexivity|]. rewrite H by (left; reflexivity). rewrite IH; [reflexivity|]. intros e He. apply H. right. exact He. Qed.

Lemma expand_ok : forall h s p c, ok h s p c -> ok (expand D X d0 x0 h) s p c /\ uni (expand D X d0 x0 h) = false.
Proof.
  intros h s p c [L E U Dd Vd Vx]. unfold expand. destruct (uni h) eqn:Hu; [|split; [constructor; auto; rewrite Hu; auto|exact Hu]].
  destruct (U eq_refl) as (Hc & _ & _ & A). rewrite E. destruct p; (split; [constructor; cbn; auto|reflexivity]); try discriminate; intros _ _; (split; [|left; reflexivity]).
  - rewrite (all_eq_repeat as_x s (xu h)), L; [reflexivity|]. intros e He. exact (proj2 (A e He)).
  - rewrite (all_eq_repeat as_d s (du h)), L; [reflexivity|]. intros e He. exact (proj1 (A e He)).
Qed.
Lemma is_nil_false : forall {A} (l : list A), is_nil l = false -> l <> []. Proof. intros A [|]; discriminate. Qed.
Lemma as_d_x : forall e, down (as_x e) = as_d e. Proof. intros [d|x]; cbn; auto. Qed.
Lemma read_d_ok : forall h s p c, ok h s p c ->
  snd (read_d D X d0 x0 down h) = map as_d s /\ ok (fst (read_d D X d0 x0 down h)) s p (c || p).
Proof.
  intros h s p c O. destruct (expand_ok _ _ _ _ O) as [[L E U Dd Vd Vx] Hu]. unfold read_d. cbn [fst snd].
  set (h1 := expand D X d0 x0 h) in *. clearbody h1. rewrite E. destruct p; cbn [andb].
  - destruct (Vx Hu eq_refl) as [Hx Hd]. destruct (is_nil (dv h1)) eqn:N.
    + cbn. split; [rewrite Hx, map_map; apply map_ext; intros; apply as_d_x|]. constructor; cbn; auto; try (rewrite Hu; discriminate); try discriminate.
      intros _ _. split; [exact Hx|]. right. split; [apply orb_true_r|]. rewrite Hx, map_map. apply map_ext. intros; apply as_d_x.
    + cbn. destruct Hd as [Hd|[Hc Hd]]; [rewrite Hd in N; discriminate|]. split; [exact Hd|]. rewrite Hc. constructor; auto; try (rewrite Hu; discriminate); try discriminate.
  - cbn. destruct (Vd Hu eq_refl) as [Hd Hx]. split; [exact Hd|]. rewrite orb_false_r. constructor; auto; rewrite Hu; discriminate.
Qed.
Lemma as_x_d : forall s, (forall e, In e s -> exists d, e = inl d) -> map up (map as_d s) = map as_x s.
Proof. intros s H. rewrite map_map. apply map_ext_in. intros e He. destruct (H e He) as [d ->]. reflexivity. Qed.
Lemma read_x_ok : forall h s p c, ok h s p c ->
  snd (read_x D X d0 x0 up h) = map as_x s /\ ok (fst (read_x D X d0 x0 up h)) s p (c || negb p).
Proof.
  intros h s p c O. destruct (expand_ok _ _ _ _ O) as [[L E U Dd Vd Vx] Hu]. unfold read_x. cbn [fst snd].
  set (h1 := expand D X d0 x0 h) in *. clearbody h1. rewrite E. destruct p; cbn [andb negb].
  - destruct (Vx Hu eq_refl) as [Hx Hd]. split; [exact Hx|]. rewrite orb_false_r. constructor; auto; rewrite Hu; discriminate.
  - destruct (Vd Hu eq_refl) as [Hd Hx]. destruct (is_nil (xv h1)) eqn:N.
    + cbn. split; [rewrite Hd; apply as_x_d; auto|]. constructor; cbn; auto; try (rewrite Hu; discriminate); try discriminate.
      intros _ _. split; [exact Hd|]. right. split; [apply orb_true_r|]. rewrite Hd. apply as_x_d; auto.
    + cbn. destruct Hx as [Hx|[Hc Hx]]; [rewrite Hx in N; discriminate|]. split; [exact Hx|]. rewrite Hc. constructor; auto; try (rewrite Hu; discriminate); try discriminate.
Qed.
Lemma mask_spec : forall {A} (z : A) n idx f (i : A -> elem), map i (mask z n idx f) = map (fun k => if in_dec Nat.eq_dec k idx then i (f k) else i z) (seq 0 n).
Proof.
  intros. unfold mask. rewrite map_map. apply map_ext. intros k. destruct (in_dec Nat.eq_dec k idx) as [H|H].
  - assert (E : existsb (Nat.eqb k) idx = true) by (apply existsb_exists; exists k; split; [exact H|apply Nat.eqb_refl]). rewrite E. reflexivity.
  - assert (E : existsb (Nat.eqb k) idx = false).
    { destruct (existsb (Nat.eqb k) idx) eqn:E; [|reflexivity]. apply existsb_exists in E. destruct E as (x & Hx & Ex). apply Nat.eqb_eq in Ex. subst. contradiction. }
    rewrite E. reflexivity.
Qed.
Lemma ok_vals_d : forall (h : holder) l, length l = len h -> forall b b', ok (mkH l b [] b' (len h) false false) (map inl l) false false.
Proof.
  intros h l L b b'. constructor; cbn; auto; try discriminate.
  - rewrite map_length. exact L.
  - intros _ e He. apply in_map_iff in He. destruct He as (d & <- & _). eauto.
  - intros _ _. split; [|auto]. rewrite map_map. cbn. symmetry. apply map_id.
Qed.
Lemma ok_vals_x : forall (h : holder) l, length l = len h -> forall b b', ok (mkH [] b l b' (len h) true false) (map inr l) true false.
Proof.
  intros h l L b b'. constructor; cbn; auto; try discriminate.
  - rewrite map_length. exact L.
  - intros _ _. split; [|auto]. rewrite map_map. cbn. symmetry. apply map_id.
Qed.
Lemma mask_length : forall {A} (z : A) n idx f, length (mask z n idx f) = n.
Proof. intros. unfold mask. rewrite map_length, seq_length. reflexivity. Qed.
Lemma ok_weak : forall h s p, ok h s p false -> uni h = false -> ok h s p true.
Proof.
  intros h s p [L E U Dd Vd Vx] Hu. constructor; auto; [rewrite Hu; discriminate| |]; intros A B.
  - destruct (Vd A B) as [? [?|[? ?]]]; [auto|discriminate].
  - destruct (Vx A B) as [? [?|[? ?]]]; [auto|discriminate].
Qed.
(* an element written in extended precision *)
Lemma set_x_ok : forall h s p c i e, ok h s p c -> p && c = false ->
  ok (let h := expand D X d0 x0 (to_ext D X up h) in mkH (dv h) (du h) (put_at (xv h) i (as_x e)) (xu h) (len h) (ext h) (uni h)) (put_at s i e) true false.
Proof.
  intros h s p c i e O Hpc.
  assert (O1 : ok (to_ext D X up h) s true false).
  { destruct O as [L E U Dd Vd Vx]. unfold to_ext. rewrite E. destruct p.
    - cbn in Hpc. subst c. constructor; auto; discriminate.
    - destruct (uni h) eqn:Hu.
      + destruct (U eq_refl) as (-> & A1 & A2 & A3). constructor; cbn; auto; discriminate.
      + destruct (Vd eq_refl eq_refl) as [Hd _]. constructor; cbn; auto; try discriminate. intros _ _. split; [|auto]. rewrite Hd. apply as_x_d. auto. }
  destruct (expand_ok _ _ _ _ O1) as [[L E U Dd Vd Vx] Hu]. cbv zeta. set (h1 := expand D X d0 x0 (to_ext D X up h)) in *. clearbody h1.
  destruct (Vx Hu eq_refl) as [Hx [Hd|[Hc _]]]; [|discriminate].
  constructor; cbn; auto; try discriminate; try (rewrite Hu; discriminate).
  - rewrite put_at_length. exact L.
  - intros _ _. split; [|auto]. rewrite Hx. symmetry. apply put_at_map.
Qed.
Lemma step_ok : forall h s p c o, ok h s p c -> wf_op (len h) o ->
  len (hstep D X d0 x0 up down h o) = len h /\
  forall t, no_cross p c (o :: t) -> exists p' c', no_cross p' c' t /\ ok (hstep D X d0 x0 up down h o) (spec_step (len h) s o) p' c'.
Proof.
  intros h s p c o O W. assert (L0 := ok_len _ _ _ _ O).
  assert (Lx : forall h1 : holder, len (expand D X d0 x0 h1) = len h1) by (intros h1; unfold expand; destruct (uni h1), (ext h1); reflexivity).
  assert (Lt : forall h1, len (to_ext D X up h1) = len h1) by (intros h1; unfold to_ext; destruct (ext h1), (uni h1); reflexivity).
  split.
  { destruct o; try reflexivity.
    - cbn. unfold set_value_d, set_value_x. destruct (len h <=? i); [reflexivity|]. destruct (ext h); cbn; rewrite Lx; [apply Lt|reflexivity].
    - cbn. unfold set_value_x. destruct (len h <=? i); [reflexivity|]. cbn. rewrite Lx. apply Lt.
    - cbn. unfold read_d. cbn. destruct (ext _ && _); cbn; apply Lx.
    - cbn. unfold read_x. cbn. destruct (negb _ && _); cbn; apply Lx. }
  intros t N. destruct o as [v|v|i v|i v|idx f|idx f|l|l| | |]; cbn [hstep spec_step no_cross wf_op] in *.
  - exists false, false. split; [exact N|]. constructor; cbn; auto; try discriminate.
    + rewrite map_length. exact L0.
    + intros _. repeat split; auto; apply in_map_iff in H; destruct H as (x & <- & _); reflexivity.
    + intros _ e He. apply in_map_iff in He. destruct He as (x & <- & _). eauto.
  - exists true, false. split; [exact N|]. constructor; cbn; auto; try discriminate.
    + rewrite map_length. exact L0.
    + intros _. repeat split; auto; apply in_map_iff in H; destruct H as (x & <- & _); reflexivity.
  - destruct N as [-> N]. exists p, false. split; [exact N|]. rewrite <- L0, nth_put_at. unfold set_value_d.
    destruct (len h <=? i) eqn:Hi; [apply Nat.leb_le in Hi; rewrite put_at_out by lia; exact O|]. apply Nat.leb_gt in Hi.
    rewrite (ok_ext _ _ _ _ O). destruct p.
    + unfold set_value_x. assert (Hi' : (len h <=? i) = false) by (apply Nat.leb_gt; exact Hi). rewrite Hi'. exact (set_x_ok h s true false i (inl v) O eq_refl).
    + destruct (expand_ok _ _ _ _ O) as [[L E U Dd Vd Vx] Hu]. set (h1 := expand D X d0 x0 h) in *. clearbody h1. destruct (Vd Hu eq_refl) as [Hd [Hx|[Hc _]]]; [|discriminate].
      constructor; cbn; auto; try discriminate; try (rewrite Hu; discriminate).
      * rewrite put_at_length. exact L.
      * intros _ e He. apply In_put_at in He. destruct He as [->|He]; eauto.
      * intros _ _. split; [|auto]. rewrite Hd. symmetry. apply (put_at_map as_d).
  - destruct N as [Hpc N]. unfold set_value_x. rewrite <- L0, nth_put_at. rewrite L0. destruct (len h <=? i) eqn:Hi.
    + apply Nat.leb_le in Hi. lia.
    + exists true, false. split; [exact N|]. exact (set_x_ok h s p c i (inr v) O Hpc).
  - exists false, false. split; [exact N|]. rewrite <- mask_spec. apply (ok_vals_d h). apply mask_length.
  - exists true, false. split; [exact N|]. rewrite <- mask_spec. apply (ok_vals_x h). apply mask_length.
  - exists false, false. split; [exact N|]. apply (ok_vals_d h). exact W.
  - exists true, false. split; [exact N|]. apply (ok_vals_x h). exact W.
  - exists p, (c || p). split; [exact N|]. exact (proj2 (read_d_ok h s p c O)).
  - exists p, (c || negb p). split; [exact N|]. exact (proj2 (read_x_ok h s p c O)).
  - exists false, false. split; [exact N|]. constructor; cbn; auto; try discriminate.
    + rewrite map_length. exact L0.
    + intros _. repeat split; auto; apply in_map_iff in H; destruct H as (x & <- & _); [reflexivity|exact up0].
    + intros _ e He. apply in_map_iff in He. destruct He as (x & <- & _). eauto.
Qed.

Lemma run_ok : forall l h s p c, ok h s p c -> Forall (wf_op (len h)) l -> no_cross p c l ->
  exists p' c', ok (fold_left (hstep D X d0 x0 up down) l h) (fold_left (spec_step (len h)) l s) p' c'.
Proof.
  intros l. induction l as [|o l IH]; intros h s p c O W N; cbn [fold_left]; [eauto|].
  inversion W as [|? ? W1 W2]; subst. destruct (step_ok h s p c o O W1) as [L S]. destruct (S l N) as (p' & c' & N' & O').
  assert (E := IH _ _ p' c' O' ltac:(rewrite L; exact W2) N'). rewrite L in E. exact E.
Qed.
Lemma new_ok : forall n, ok (new_holder D X d0 x0 n) (repeat (inl d0) n) false false.
Proof.
  intros n. constructor; cbn; auto; try discriminate.
  - apply repeat_length.
  - intros _. repeat split; auto; apply repeat_spec in H; subst e; [reflexivity|exact up0].
  - intros _ e He. apply repeat_spec in He. eauto.
Qed.
(* C28 for the values of a model, both precisions *)
Theorem C28_holder_partial : forall n l, Forall (wf_op n) l -> no_cross false false l ->
  snd (read_d D X d0 x0 down (run n l)) = map as_d (spec n l) /\
  snd (read_x D X d0 x0 up (run n l)) = map as_x (spec n l) /\
  (uni (run n l) = true -> forall e, In e (spec n l) -> as_d e = du (run n l) /\ as_x e = xu (run n l)).
Proof.
  intros n l W N. destruct (run_ok l (new_holder D X d0 x0 n) _ _ _ (new_ok n) W N) as (p & c & O).
  unfold run, spec. cbn [len] in O. split; [exact (proj1 (read_d_ok _ _ _ _ O))|]. split; [exact (proj1 (read_x_ok _ _ _ _ O))|].
  intros U e He. destruct (ok_uni _ _ _ _ O U) as (_ & _ & _ & A). exact (A e He).
Qed.
(* the default build: double precision only *)
Definition only_double (o : hop) : Prop :=
  match o with SetUniformX _ | SetValueX _ _ | SetIndexesX _ _ | SetValuesX _ | ReadX => False | _ => True end.
Corollary C28_holder_double : forall n l, Forall (wf_op n) l -> Forall only_double l ->
  snd (read_d D X d0 x0 down (run n l)) = map as_d (spec n l).
Proof.
  intros n l W A. apply (proj1 (C28_holder_partial n l W ltac:(
    clear W; induction l as [|o l IH]; [exact I|]; inversion A as [|? ? A1 A2]; subst; specialize (IH A2); destruct o; cbn in A1 |- *; auto; contradiction))).
Qed.
(* IsZero and IsOne: a model reported as constant has that value everywhere *)
Corollary C28_holder_const : forall n l is, Forall (wf_op n) l -> no_cross false false l -> is_const D X is (run n l) = true ->
  forall e, In e (spec n l) -> is (as_d e) = true.
Proof.
  intros n l is W N H e He. unfold is_const in H. apply andb_prop in H. destruct H as [U H].
  destruct (proj2 (proj2 (C28_holder_partial n l W N)) U e He) as [E _]. rewrite E. exact H.
Qed.
End H.

(* the premises hold: numbers z and z/10 for double, Z tenfold as extended *)
Definition ex_h := [SetUniformD 3%Z; SetValueD 1 7%Z; ReadD; SetValueX 0 55%Z; SetIndexesX [2] (fun k => Z.of_nat k); SetValueX 1 4%Z; ReadD; SetUniformD 6%Z].
Example C28_holder_ex : (forall d, (d * 10 / 10)%Z = d) /\ Forall (wf_op Z Z 3) ex_h /\ no_cross Z Z false false ex_h /\
  map (fun k => snd (read_d Z Z 0%Z 0%Z (fun x => x / 10)%Z (run Z Z 0%Z 0%Z (fun d => d * 10)%Z (fun x => x / 10)%Z 3 (firstn k ex_h)))) [1; 2; 4; 5; 8] =
  [[3; 3; 3]; [3; 7; 3]; [5; 7; 3]; [0; 0; 0]; [6; 6; 6]]%Z.
Proof.
  split; [intros d; apply Z.div_mul; discriminate|]. split; [unfold ex_h; repeat apply Forall_cons; try apply Forall_nil; cbn; auto; lia|]. split; [cbn; tauto|vm_compute; reflexivity].
Qed.
(* with extended precision an element written after the values were read in the other precision is lost:
   the double values 1, 2 are read in extended precision; element 0 becomes 5 in double precision; reading it in
   extended precision still gives 1 *)
Definition ex_stale : list (hop Z Z) := [SetValuesD [1; 2]%Z; ReadX; SetValueD 0 5%Z].
Theorem C28_extended_refuted :
  Forall (wf_op Z Z 2) ex_stale /\
  snd (read_d Z Z 0%Z 0%Z (fun x => x) (run Z Z 0%Z 0%Z (fun d => d) (fun x => x) 2 ex_stale)) = [5; 2]%Z /\
  snd (read_x Z Z 0%Z 0%Z (fun d => d) (run Z Z 0%Z 0%Z (fun d => d) (fun x => x) 2 ex_stale)) = [1; 2]%Z /\
  map (as_x Z Z (fun d => d)) (spec Z Z 0%Z 0%Z 2 ex_stale) = [5; 2]%Z.
Proof. split; [unfold ex_stale; repeat apply Forall_cons; try apply Forall_nil; cbn; auto|vm_compute; auto]. Qed.

(* ---- ScalarData: products and sums element by element ---- *)
Section S.
Variable V : Type.
Variables (zero one : V) (add mul : V -> V -> V) (is0 is1 : V -> bool).
Local Notation elems := (elems V).
(* the specification, on lists of elements *)
Definition each (op : V -> V -> V) (a b : list V) : list V := map (fun p => op (fst p) (snd p)) (combine a b).
Definition meaning (s : list V) (o : sop V) : list V :=
  match o with
  | TimesData d => each mul s (elems d)
  | TimesScalar v => map (fun x => mul x v) s
  | PlusData d | PlusModel d => each add s (elems d)
  | PlusScalar v => map (fun x => add x v) s
  | Assign i v => map (fun k => if k =? i then v else nth k s zero) (seq 0 (length s))
  end.
Definition same_size (n : nat) (o : sop V) : Prop :=
  match o with TimesData d | PlusData d | PlusModel d => length (elems d) = n | _ => True end.
Record laws : Prop := {
  l_is0 : forall x, is0 x = true -> x = zero; l_is1 : forall x, is1 x = true -> x = one;
  l_0x : forall x, mul zero x = zero; l_x0 : forall x, mul x zero = zero; l_1x : forall x, mul one x = x; l_x1 : forall x, mul x one = x;
  l_add0 : forall x, add zero x = x; l_addx0 : forall x, add x zero = x }.
Lemma each_repeat : forall op a v n, length a = n -> each op a (repeat v n) = map (fun x => op x v) a.
Proof. intros op a. induction a as [|x a IH]; intros v n L; subst n; cbn; [reflexivity|]. f_equal. apply IH. reflexivity. Qed.
Lemma each_repeat_l : forall op b v n, length b = n -> each op (repeat v n) b = map (fun x => op v x) b.
Proof. intros op b. induction b as [|x b IH]; intros v n L; subst n; cbn; [reflexivity|]. f_equal. apply IH. reflexivity. Qed.
Lemma zip_each : forall op a b, length b = length a -> zip V op a b = Some (each op a b).
Proof. intros op a. induction a as [|x a IH]; intros [|y b] L; try discriminate; cbn; [reflexivity|]. rewrite IH by (cbn in L; lia). reflexivity. Qed.
Lemma op_data_each : forall op c d, length (elems d) = length (elems c) -> exists c', op_data V op c d = Some c' /\ elems c' = each op (elems c) (elems d).
Proof.
  intros op [u n|l] [v m|k] L; cbn [ModelData.elems op_data op_scalar] in *; rewrite ?repeat_length in L; subst.
  - eexists; split; [reflexivity|]. cbn [ModelData.elems]. rewrite each_repeat by apply repeat_length. symmetry. apply (map_repeat' (fun x => op x v)).
  - rewrite zip_each by (rewrite repeat_length; reflexivity). eexists; split; reflexivity.
  - eexists; split; [reflexivity|]. cbn [ModelData.elems]. symmetry. apply each_repeat. reflexivity.
  - rewrite zip_each by exact L. eexists; split; reflexivity.
Qed.
Lemma op_scalar_each : forall op c v, elems (op_scalar V op c v) = map (fun x => op x v) (elems c).
Proof. intros op [u n|l] v; cbn; [symmetry; apply (map_repeat' (fun x => op x v))|reflexivity]. Qed.
Hypothesis Lw : laws.
Lemma is_zero_elems : forall c, is_zero V is0 c = true -> elems c = repeat zero (length (elems c)).
Proof. intros [v n|l] H; cbn in *; [|discriminate]. rewrite repeat_length, (l_is0 Lw v H). reflexivity. Qed.
Lemma is_one_elems : forall c, is_one V is1 c = true -> elems c = repeat one (length (elems c)).
Proof. intros [v n|l] H; cbn in *; [|discriminate]. rewrite repeat_length, (l_is1 Lw v H). reflexivity. Qed.
Lemma map_const : forall {A} (l : list A) (v : V), map (fun _ => v) l = repeat v (length l).
Proof. intros A l v. induction l; cbn; congruence. Qed.
Lemma map_same : forall (f : V -> V) l, (forall x, f x = x) -> map f l = l.
Proof. intros f l H. rewrite <- (map_id l) at 2. apply map_ext. exact H. Qed.
Lemma clen_elems : forall c, clen V c = length (elems c). Proof. intros [v n|l]; cbn; [rewrite repeat_length|]; reflexivity. Qed.
Lemma sstep_ok : forall c o, same_size (length (elems c)) o -> exists c', sstep V zero add mul is0 is1 c o = Some c' /\ elems c' = meaning (elems c) o.
Proof.
  assert (P : forall c d, length (elems d) = length (elems c) -> (if is_zero V is0 c then Some d else op_data V add c d) = Some d ->
     is_zero V is0 c = true -> elems d = each add (elems c) (elems d)).
  { intros c d L _ H. rewrite (is_zero_elems _ H), each_repeat_l by exact L. symmetry. apply map_same. apply (l_add0 Lw). }
  intros c o Sz. destruct o as [d|v|d|d|v|i v]; cbn [sstep meaning same_size] in *.
  - unfold times_data. destruct (is_zero V is0 c) eqn:Z0; [|destruct (is_one V is1 d) eqn:O1; [|destruct (is_zero V is0 d) eqn:Z1; [|destruct (is_one V is1 c) eqn:O0]]]; cbn [orb].
    + eexists; split; [reflexivity|]. rewrite (is_zero_elems _ Z0). rewrite each_repeat_l by exact Sz. rewrite (map_ext _ (fun _ => zero)) by apply (l_0x Lw). rewrite map_const, Sz. reflexivity.
    + eexists; split; [reflexivity|]. rewrite (is_one_elems _ O1), each_repeat by (rewrite Sz; reflexivity). symmetry. apply map_same. apply (l_x1 Lw).
    + eexists; split; [reflexivity|]. rewrite (is_zero_elems _ Z1), each_repeat by (rewrite Sz; reflexivity). rewrite (map_ext _ (fun _ => zero)) by apply (l_x0 Lw). rewrite map_const, <- clen_elems. reflexivity.
    + eexists; split; [reflexivity|]. rewrite (is_one_elems _ O0), each_repeat_l by exact Sz. symmetry. apply map_same. apply (l_1x Lw).
    + apply op_data_each. exact Sz.
  - eexists; split; [reflexivity|]. unfold times_scalar. destruct (is_zero V is0 c) eqn:Z0; [|destruct (is1 v) eqn:O1; [|destruct (is0 v) eqn:Z1; [|destruct (is_one V is1 c) eqn:O0]]]; cbn [orb].
    + rewrite (is_zero_elems _ Z0), map_repeat', (l_0x Lw). reflexivity.
    + rewrite (l_is1 Lw v O1). symmetry. apply map_same. apply (l_x1 Lw).
    + rewrite (l_is0 Lw v Z1). rewrite (map_ext _ (fun _ => zero)) by apply (l_x0 Lw). rewrite map_const, <- clen_elems. reflexivity.
    + rewrite (is_one_elems _ O0), map_repeat', (l_1x Lw), <- clen_elems. reflexivity.
    + apply op_scalar_each.
  - unfold plus_data. destruct (is_zero V is0 c) eqn:Z0; [|destruct (is_zero V is0 d) eqn:Z1].
    + eexists; split; [reflexivity|]. rewrite (is_zero_elems _ Z0), each_repeat_l by exact Sz. symmetry. apply map_same. apply (l_add0 Lw).
    + eexists; split; [reflexivity|]. rewrite (is_zero_elems _ Z1), each_repeat by (rewrite Sz; reflexivity). symmetry. apply map_same. apply (l_addx0 Lw).
    + apply op_data_each. exact Sz.
  - unfold plus_model. destruct (is_zero V is0 c) eqn:Z0.
    + eexists; split; [reflexivity|]. rewrite (is_zero_elems _ Z0), each_repeat_l by exact Sz. symmetry. apply map_same. apply (l_add0 Lw).
    + apply op_data_each. exact Sz.
  - eexists; split; [reflexivity|]. unfold plus_scalar. destruct (is0 v) eqn:Z1; [rewrite (l_is0 Lw v Z1); symmetry; apply map_same; apply (l_addx0 Lw)|].
    destruct c as [u n|l]; [destruct (is0 u) eqn:Z0|]; try apply op_scalar_each. cbn. rewrite map_repeat', (l_is0 Lw u Z0), (l_add0 Lw). reflexivity.
  - eexists; split; [reflexivity|]. unfold assign. cbn. symmetry. apply nth_put_at.
Qed.
(* the length of the data never changes, so that the sizes of a history can be checked beforehand *)
Lemma meaning_length : forall s o, same_size (length s) o -> length (meaning s o) = length s.
Proof.
  intros s o H. destruct o; cbn in *; unfold each; rewrite ?map_length, ?combine_length, ?seq_length; lia.
Qed.
Definition srun (c : cell V) (l : list (sop V)) : option (cell V) :=
  fold_left (fun c o => match c with Some c => sstep V zero add mul is0 is1 c o | None => None end) l (Some c).
Lemma srun_ok : forall l c, Forall (same_size (length (elems c))) l -> exists c', srun c l = Some c' /\ elems c' = fold_left meaning l (elems c).
Proof.
  unfold srun. intros l. induction l as [|o l IH]; intros c H; cbn [fold_left]; [eauto|]. inversion H as [|? ? H1 H2]; subst.
  destruct (sstep_ok c o H1) as (c1 & E & Em). rewrite E. rewrite <- Em. apply IH. rewrite Em, meaning_length by exact H1. exact H2.
Qed.
End S.
(* C28: any history of products and sums, exact arithmetic *)
Definition r0 (x : R) : bool := if Req_EM_T x 0 then true else false.
Definition r1 (x : R) : bool := if Req_EM_T x 1 then true else false.
Lemma rlaws : laws R 0%R 1%R Rplus Rmult r0 r1.
Proof. constructor; intros; unfold r0, r1 in *; try (destruct (Req_EM_T x _); [assumption|discriminate]); ring. Qed.
Theorem C28_values : forall l c, Forall (same_size R (length (elems R c))) l ->
  exists c', srun R 0%R Rplus Rmult r0 r1 c l = Some c' /\ elems R c' = fold_left (meaning R 0%R Rplus Rmult) l (elems R c).
Proof. intros l c H. apply (srun_ok R 0%R 1%R Rplus Rmult r0 r1 rlaws l c H). Qed.
(* ... so that two objects with the same elements cannot be told apart, however they are stored *)
Theorem C28_representation : forall l c d, elems R c = elems R d -> Forall (same_size R (length (elems R c))) l ->
  exists c' d', srun R 0%R Rplus Rmult r0 r1 c l = Some c' /\ srun R 0%R Rplus Rmult r0 r1 d l = Some d' /\ elems R c' = elems R d'.
Proof.
  intros l c d E H. destruct (C28_values l c H) as (c' & Ec & Vc). rewrite E in H. destruct (C28_values l d H) as (d' & Ed & Vd).
  exists c', d'. rewrite Vc, Vd, E. auto.
Qed.
Theorem C28_vec_sum : forall c, vec_sum R 0%R Rplus Rmult INR c = fold_left Rplus (elems R c) 0%R.
Proof.
  intros [v n|l]; cbn; [|reflexivity].
  assert (G : forall n a, fold_left Rplus (repeat v n) a = (a + v * INR n)%R).
  { clear n. intros n. induction n as [|n IH]; intros a; cbn [repeat fold_left]; [cbn; ring|]. rewrite IH, S_INR. ring. }
  rewrite G. ring.
Qed.
Example C28_values_ex : Forall (same_size R 2) [TimesData (Vals [3; 4]%R); PlusScalar 2%R; TimesData (Uni 0%R 2); Assign 1 5%R; PlusModel (Uni 1%R 2)].
Proof. repeat apply Forall_cons; try apply Forall_nil; cbn; auto. Qed.

(* double precision *)
Definition dz (x : double) : bool := match x with B754_zero _ => true | _ => false end.
Definition d1 (x : double) : bool := match Bcompare x done with Some Eq => true | _ => false end.
Local Notation dstep := (sstep double dzero dadd dmul dz d1).
Local Notation dmeaning := (meaning double dzero dadd dmul).
Definition dinf : double := B754_infinity false.
(* a uniform zero times infinity is 0; the same values stored one by one give NaN *)
Theorem C28_double_infinity_refuted : elems double (Uni dzero 1) = elems double (Vals [dzero]) /\
  option_map (elems double) (dstep (Uni dzero 1) (TimesData (Vals [dinf]))) = Some [dzero] /\
  option_map (elems double) (dstep (Vals [dzero]) (TimesData (Vals [dinf]))) = Some [B754_nan].
Proof. split; [reflexivity|split; vm_compute; reflexivity]. Qed.
(* the sum of ten times 0.1 depends on the storage *)
Definition dtenth : double := Bdiv mode_NE (binary_normalize 53 1024 eq_refl eq_refl mode_NE 1 0 false) (binary_normalize 53 1024 eq_refl eq_refl mode_NE 10 0 false).
Definition dnat (n : nat) : double := binary_normalize 53 1024 eq_refl eq_refl mode_NE (Z.of_nat n) 0 false.
Theorem C28_double_sum_refuted : elems double (Uni dtenth 10) = elems double (Vals (repeat dtenth 10)) /\
  Bcompare (vec_sum double dzero dadd dmul dnat (Vals (repeat dtenth 10))) (vec_sum double dzero dadd dmul dnat (Uni dtenth 10)) = Some Lt.
Proof. split; [reflexivity|vm_compute; reflexivity]. Qed.
(* for finite values one operation agrees with the elements up to the sign of zero *)
Definition same (x y : double) : Prop := x = y \/ dz x = true /\ dz y = true.
Definition finite_op (o : sop double) : Prop :=
  match o with
  | TimesData d | PlusData d | PlusModel d => Forall (fun x => is_finite x = true) (elems double d)
  | TimesScalar v | PlusScalar v => is_finite v = true
  | Assign _ _ => True
  end.
Lemma same_mul_l : forall x y, dz x = true -> is_finite y = true -> same x (dmul x y).
Proof. intros [sx| | |] y Hx Hy; try discriminate. destruct y as [sy| | |sy my ey]; try discriminate; right; split; reflexivity. Qed.
Lemma same_mul_r : forall x y, is_finite x = true -> dz y = true -> same dzero (dmul x y).
Proof. intros x [sy| | |] Hx Hy; try discriminate. destruct x as [sx| | |sx mx ex]; try discriminate; right; split; reflexivity. Qed.
Lemma same_add_l : forall x y, dz x = true -> same y (dadd x y).
Proof. intros [sx| | |] y Hx; try discriminate. destruct y as [sy|sy| |sy my ey]; [right; split; destruct sx, sy; reflexivity|left; reflexivity..]. Qed.
Lemma same_add_r : forall x y, dz y = true -> same x (dadd x y).
Proof. intros x [sy| | |] Hy; try discriminate. destruct x as [sx|sx| |sx mx ex]; [right; split; destruct sx, sy; reflexivity|left; reflexivity..]. Qed.
Lemma d1_done : forall x, d1 x = true -> x = done.
Proof.
  intros x H. unfold d1 in H. destruct x as [s|s| |s m e B]; try (destruct s; discriminate); [discriminate|].
  set (x := B754_finite s m e B : double) in *.
  rewrite (Bcompare_correct 53 1024 x done) in H by reflexivity. destruct (Raux.Rcompare (B2R x) (B2R done)) eqn:C; try discriminate.
  apply Raux.Rcompare_Eq_inv in C. apply B2R_inj; [|reflexivity|exact C]. 
  reflexivity.
Qed.
Lemma dmul_r_one : forall x, dmul x done = x.
Proof.
  intros x. destruct x as [s|s| |s m e H]; try (destruct s; reflexivity); [reflexivity|].
  set (x := B754_finite s m e H : double).
  pose proof (Bmult_correct 53 1024 _ _ mode_NE x done) as C.
  unfold done in C. rewrite Bone_correct, Rmult_1_r in C.
  rewrite Generic_fmt.round_generic in C; [|apply Generic_fmt.valid_rnd_N|apply (generic_format_B2R 53 1024)].
  rewrite Raux.Rlt_bool_true in C by apply abs_B2R_lt_emax. destruct C as (C1 & C2 & C3).
  assert (F : is_finite (Bmult mode_NE x (Bone : double)) = true) by (rewrite C2; reflexivity).
  apply B2R_Bsign_inj; [exact F|reflexivity|exact C1|].
  unfold dmul, done. rewrite C3; [|destruct (Bmult mode_NE x (Bone : double)); try reflexivity; discriminate].
  rewrite Bsign_Bone. destruct (Bsign x); reflexivity.
Qed.
Lemma F2_map : forall (f g : double -> double) (P : double -> Prop) l, Forall P l -> (forall x, P x -> same (f x) (g x)) -> Forall2 same (map f l) (map g l).
Proof. intros f g P l H E. induction H; cbn; constructor; auto. Qed.
Lemma F2_eq : forall l l', l = l' -> Forall2 same l l'.
Proof. intros l l' <-. induction l; constructor; auto. left. reflexivity. Qed.
Lemma Forall_all : forall l : list double, Forall (fun _ => True) l. Proof. intros l. induction l; constructor; auto. Qed.
Lemma dz_elems : forall c, is_zero double dz c = true -> exists z, dz z = true /\ elems double c = repeat z (length (elems double c)).
Proof. intros [v n|l] H; cbn in *; [|discriminate]. exists v. rewrite repeat_length. auto. Qed.
Lemma d1_elems : forall c, is_one double d1 c = true -> elems double c = repeat done (length (elems double c)).
Proof. intros [v n|l] H; cbn in *; [|discriminate]. rewrite repeat_length, (d1_done v H). reflexivity. Qed.
Lemma repeat_map : forall (v : double) (l : list double), repeat v (length l) = map (fun _ => v) l.
Proof. intros v l. induction l as [|a l IH]; cbn; [reflexivity|]. rewrite IH. reflexivity. Qed.
Theorem C28_double_step : forall c o, same_size double (length (elems double c)) o ->
  Forall (fun x => is_finite x = true) (elems double c) -> finite_op o ->
  exists c', dstep c o = Some c' /\ Forall2 same (elems double c') (dmeaning (elems double c) o).
Proof.
  intros c o Sz Fc Fo. destruct o as [d|v|d|d|v|i v]; cbn [sstep meaning same_size finite_op] in *.
  - unfold times_data. destruct (is_zero double dz c) eqn:Z0; [|destruct (is_one double d1 d) eqn:O1; [|destruct (is_zero double dz d) eqn:Z1; [|destruct (is_one double d1 c) eqn:O0]]]; cbn [orb].
    + eexists; split; [reflexivity|]. destruct (dz_elems _ Z0) as (z & Hz & E). rewrite E, each_repeat_l by exact Sz. rewrite <- Sz, repeat_map.
      apply (F2_map _ _ _ _ Fo). intros x Hx. apply same_mul_l; assumption.
    + eexists; split; [reflexivity|]. rewrite (d1_elems _ O1), each_repeat by (rewrite Sz; reflexivity). apply F2_eq. symmetry. apply map_same. exact dmul_r_one.
    + eexists; split; [reflexivity|]. destruct (dz_elems _ Z1) as (z & Hz & E). rewrite E, each_repeat by (rewrite Sz; reflexivity). change (elems double (Uni dzero (clen double c))) with (repeat dzero (clen double c)). rewrite clen_elems, repeat_map.
      apply (F2_map _ _ _ _ Fc). intros x Hx. apply same_mul_r; assumption.
    + eexists; split; [reflexivity|]. rewrite (d1_elems _ O0), each_repeat_l by exact Sz. apply F2_eq. symmetry. apply map_same. exact dmul_one.
    + destruct (op_data_each double dmul c d Sz) as (c' & E & Em). exists c'. split; [exact E|]. apply F2_eq. exact Em.
  - eexists; split; [reflexivity|]. unfold times_scalar. destruct (is_zero double dz c) eqn:Z0; [|destruct (d1 v) eqn:O1; [|destruct (dz v) eqn:Z1; [|destruct (is_one double d1 c) eqn:O0]]]; cbn [orb].
    + destruct (dz_elems _ Z0) as (z & Hz & E). rewrite E, map_repeat'. rewrite !repeat_map. apply (F2_map _ _ _ _ (Forall_all _)). intros x _. apply same_mul_l; assumption.
    + rewrite (d1_done v O1). apply F2_eq. symmetry. apply map_same. exact dmul_r_one.
    + change (elems double (Uni dzero (clen double c))) with (repeat dzero (clen double c)). rewrite clen_elems, repeat_map. apply (F2_map _ _ _ _ Fc). intros x Hx. apply same_mul_r; assumption.
    + rewrite (d1_elems _ O0), map_repeat', dmul_one, <- clen_elems. apply F2_eq. reflexivity.
    + apply F2_eq. apply op_scalar_each.
  - unfold plus_data. destruct (is_zero double dz c) eqn:Z0; [|destruct (is_zero double dz d) eqn:Z1].
    + eexists; split; [reflexivity|]. destruct (dz_elems _ Z0) as (z & Hz & E). rewrite E, each_repeat_l by exact Sz. rewrite <- (map_id (elems double d)) at 1.
      apply (F2_map _ _ _ _ (Forall_all _)). intros x _. apply same_add_l; assumption.
    + eexists; split; [reflexivity|]. destruct (dz_elems _ Z1) as (z & Hz & E). rewrite E, each_repeat by (rewrite Sz; reflexivity). rewrite <- (map_id (elems double c)) at 1.
      apply (F2_map _ _ _ _ (Forall_all _)). intros x _. apply same_add_r; assumption.
    + destruct (op_data_each double dadd c d Sz) as (c' & E & Em). exists c'. split; [exact E|]. apply F2_eq. exact Em.
  - unfold plus_model. destruct (is_zero double dz c) eqn:Z0.
    + eexists; split; [reflexivity|]. destruct (dz_elems _ Z0) as (z & Hz & E). rewrite E, each_repeat_l by exact Sz. rewrite <- (map_id (elems double d)) at 1.
      apply (F2_map _ _ _ _ (Forall_all _)). intros x _. apply same_add_l; assumption.
    + destruct (op_data_each double dadd c d Sz) as (c' & E & Em). exists c'. split; [exact E|]. apply F2_eq. exact Em.
  - eexists; split; [reflexivity|]. unfold plus_scalar. destruct (dz v) eqn:Z1.
    + rewrite <- (map_id (elems double c)) at 1. apply (F2_map _ _ _ _ (Forall_all _)). intros x _. apply same_add_r; assumption.
    + destruct c as [u n|l]; [destruct (dz u) eqn:Z0|]; try (apply F2_eq; apply op_scalar_each). cbn. rewrite map_repeat'. 
      clear Fc Sz. induction n as [|n IH]; cbn; constructor; [apply same_add_l; assumption|exact IH].
  - eexists; split; [reflexivity|]. apply F2_eq. unfold assign. cbn. symmetry. apply nth_put_at.
Qed.
Example C28_double_step_ex : same_size double 2 (TimesData (Vals [dtenth; done])) /\ finite_op (TimesData (Vals [dtenth; done])) /\
  Forall (fun x => is_finite x = true) (elems double (Uni dtenth 2)).
Proof. cbn. repeat split; repeat apply Forall_cons; try apply Forall_nil; vm_compute; reflexivity. Qed.
Print Assumptions C28_holder_partial.
Print Assumptions C28_holder_double.
Print Assumptions C28_holder_const.
Print Assumptions C28_extended_refuted.
Print Assumptions C28_values.
Print Assumptions C28_representation.
Print Assumptions C28_vec_sum.
Print Assumptions C28_double_infinity_refuted.
Print Assumptions C28_double_sum_refuted.
Print Assumptions C28_double_step.
