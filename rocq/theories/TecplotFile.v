(* C68: the variables of a Tecplot file, and the file. *)
From Coq Require Import Ascii String List Bool Arith ZArith Lia.
Import ListNotations.
Require Verif.StrMap.
Require Import Verif.Tecplot Verif.TecplotSpec Verif.TecplotProofs.
Local Arguments Nat.ltb : simpl never.
Local Arguments Nat.leb : simpl never.
Local Arguments Nat.eqb : simpl never.
Open Scope string_scope.
Open Scope list_scope.
Open Scope nat_scope.
Local Notation text := (list ascii).
Local Notation chars := list_ascii_of_string.
Opaque width.

(* ---- the first display of a name ---- *)
Section First.
Variables (M St : Type) (step : St -> string * M -> St) (status : string -> St -> option display) (inv : St -> Prop) (ok : string -> bool) (shown : M -> display).
Hypothesis step_ok : forall s p, inv s -> inv (step s p) /\ forall n, status n (step s p) = match status n s with Some d => Some d | None => if String.eqb n (fst p) && ok n then Some (shown (snd p)) else None end.
Definition looked (n : string) (l : list (string * M)) : option display := option_map (fun p => shown (snd p)) (List.find (fun p => String.eqb n (fst p) && ok n) l).
Lemma fold_status : forall l s, inv s -> inv (fold_left step l s) /\ forall n, status n (fold_left step l s) = match status n s with Some d => Some d | None => looked n l end.
Proof.
  induction l as [|p l IH]; intros s Hs; [split; [exact Hs|]; intros n; cbn; destruct (status n s); reflexivity|].
  destruct (step_ok s p Hs) as [H1 H2]. destruct (IH (step s p) H1) as [H3 H4]. split; [exact H3|]. intros n. cbn [fold_left]. rewrite H4, H2. unfold looked. cbn [List.find].
  destruct (status n s); [reflexivity|]. destruct (String.eqb n (fst p) && ok n); reflexivity.
Qed.
Variable Rg : Type.
Variable models : Rg -> list (string * M).
Lemma fold_regions : forall rs s, fold_left (fun s r => fold_left step (models r) s) rs s = fold_left step (flat_map models rs) s.
Proof. induction rs as [|r rs IH]; intros s; [reflexivity|]. cbn [fold_left flat_map]. rewrite IH, fold_left_app. reflexivity. Qed.
Lemma find_app : forall (X : Type) (f : X -> bool) a b, List.find f (a ++ b) = match List.find f a with Some x => Some x | None => List.find f b end.
Proof. intros X f. induction a as [|x a IH]; intros b; [reflexivity|]. cbn. destruct (f x); [reflexivity|apply IH]. Qed.
Lemma find_name : forall n (l : list (string * M)) m, ok n = true -> NoDup (map fst l) -> In (n, m) l -> List.find (fun p => String.eqb n (fst p) && ok n) l = Some (n, m).
Proof.
  intros n l m K. induction l as [|[k v] l IH]; intros D I; [destruct I|]. inversion_clear D as [|? ? N D']. cbn [List.find fst]. destruct I as [E|I].
  - injection E as -> ->. rewrite String.eqb_refl, K. reflexivity.
  - destruct (String.eqb_spec n k) as [->|]; [exfalso; apply N; change k with (fst (k, m)); apply in_map, I|]. cbn [andb]. apply IH; assumption.
Qed.
Lemma find_missing : forall n (l : list (string * M)), ~ In n (map fst l) -> List.find (fun p => String.eqb n (fst p) && ok n) l = None.
Proof.
  intros n l. induction l as [|[k v] l IH]; intros H; [reflexivity|]. cbn [List.find fst]. destruct (String.eqb_spec n k) as [->|]; [exfalso; apply H; left; reflexivity|]. cbn [andb]. apply IH. intros C. apply H. right. exact C.
Qed.
Lemma looked_iff : forall n rs d, Forall (fun r => NoDup (map fst (models r))) rs ->
  (looked n (flat_map models rs) = Some d <-> ok n = true /\ exists before r after m, rs = before ++ r :: after /\ (forall q, In q before -> ~ In n (map fst (models q))) /\ In (n, m) (models r) /\ shown m = d).
Proof.
  intros n rs d D. unfold looked. split.
  - induction rs as [|r rs IH]; [discriminate|]. inversion_clear D as [|? ? Dr Drs]. cbn [flat_map]. rewrite find_app.
    destruct (List.find (fun p => String.eqb n (fst p) && ok n) (models r)) as [[k m]|] eqn:Ef.
    + intros H. injection H as <-. apply List.find_some in Ef. destruct Ef as [I Hb]. apply andb_prop in Hb. destruct Hb as [Hn Hk]. apply String.eqb_eq in Hn. cbn in Hn. subst k. split; [exact Hk|].
      exists [], r, rs, m. split; [reflexivity|]. split; [intros q []|]. split; [exact I|reflexivity].
    + intros H. destruct (IH Drs H) as (K & b & r' & a & m & -> & Hb & I & Hd). split; [exact K|]. exists (r :: b), r', a, m. split; [reflexivity|]. split; [|split; assumption].
      intros q [<-|Iq]; [|apply Hb, Iq]. intros C. apply in_map_iff in C. destruct C as ([k v] & Ek & Iv). cbn in Ek. subst k. rewrite (find_name n (models r) v K Dr Iv) in Ef. discriminate.
  - intros (K & b & r & a & m & -> & Hb & I & Hd). apply Forall_app in D. destruct D as [_ D]. inversion_clear D as [|? ? Dr _].
    assert (Skip : List.find (fun p => String.eqb n (fst p) && ok n) (flat_map models b) = None).
    { clear -Hb. induction b as [|q b IH]; [reflexivity|]. cbn [flat_map]. rewrite find_app, find_missing by (apply Hb; left; reflexivity). apply IH. intros q' I. apply Hb. right. exact I. }
    rewrite flat_map_app, find_app, Skip. cbn [flat_map]. rewrite find_app, (find_name n (models r) m K Dr I). cbn. rewrite Hd. reflexivity.
Qed.
End First.

Lemma has_add : forall n k (s : StrMap.smap unit), StrMap.sorted s -> StrMap.has n (add k s) = String.eqb n k || StrMap.has n s.
Proof. intros n k s H. unfold add, StrMap.has. rewrite StrMap.find_put by exact H. destruct (String.eqb n k); reflexivity. Qed.
Lemma add_sorted : forall k (s : StrMap.smap unit), StrMap.sorted s -> StrMap.sorted (add k s).
Proof. intros. apply StrMap.put_sorted. assumption. Qed.

Section Collect.
Variable A : Type.
Variable include : string -> bool.
(* node models *)
Definition node_status (n : string) (s : StrMap.smap unit * StrMap.smap unit) : option display := if StrMap.has n (snd s) then Some Scalar else if StrMap.has n (fst s) then Some NoDisplay else None.
Definition node_inv (s : StrMap.smap unit * StrMap.smap unit) : Prop := StrMap.sorted (fst s) /\ StrMap.sorted (snd s) /\ forall n, StrMap.has n (fst s) = true -> StrMap.has n (snd s) = false.
Definition node_shown (m : display * values A) : display := match fst m with NoDisplay => NoDisplay | _ => Scalar end.
Definition node_ok (n : string) : bool := negb (coordinate n) && include n.
Lemma node_step : forall s p, node_inv s -> node_inv (collect_node A include s p) /\
  forall n, node_status n (collect_node A include s p) = match node_status n s with Some d => Some d | None => if String.eqb n (fst p) && node_ok n then Some (node_shown (snd p)) else None end.
Proof.
  intros [nd sc] [k [d v]] (S1 & S2 & Dj). cbn [fst snd] in S1, S2, Dj. unfold collect_node, node_shown, node_status, node_ok. cbn [fst snd].
  destruct (coordinate k) eqn:Ck.
  { split; [split; [exact S1|]; split; [exact S2|exact Dj]|]. intros n. cbn [fst snd]. destruct (StrMap.has n sc); [reflexivity|]. destruct (StrMap.has n nd); [reflexivity|]. destruct (String.eqb_spec n k) as [->|]; [rewrite Ck|]; reflexivity. }
  destruct (include k) eqn:Ik; cbn [negb].
  2: { split; [split; [exact S1|]; split; [exact S2|exact Dj]|]. intros n. cbn [fst snd]. destruct (StrMap.has n sc); [reflexivity|]. destruct (StrMap.has n nd); [reflexivity|]. destruct (String.eqb_spec n k) as [->|]; [rewrite Ik, andb_false_r|]; reflexivity. }
  assert (Old : forall n, (if StrMap.has n sc then Some Scalar else if StrMap.has n nd then Some NoDisplay else None) = match (if StrMap.has n sc then Some Scalar else if StrMap.has n nd then Some NoDisplay else None) with Some d => Some d | None => None end).
  { intros n. destruct (StrMap.has n sc); [reflexivity|]. destruct (StrMap.has n nd); reflexivity. }
  destruct d; cbn [fst snd].
  1: destruct (StrMap.has k sc) eqn:Hk. 3: destruct (StrMap.has k nd) eqn:Hk. 5: destruct (StrMap.has k nd) eqn:Hk.
  all: split; [unfold node_inv; cbn [fst snd]; repeat (apply conj; [first [assumption | apply add_sorted; assumption]|]); intros n; try rewrite has_add by assumption; destruct (String.eqb_spec n k) as [->|Nk]; cbn [orb]; auto; congruence|].
  all: intros n; cbn [fst snd]; try rewrite has_add by assumption; specialize (Dj n); destruct (String.eqb_spec n k) as [->|Nk]; cbn [orb andb]; rewrite ?Ck, ?Ik; cbn [negb andb];
    match goal with |- context [StrMap.has ?x _] => destruct (StrMap.has x sc) eqn:E1; destruct (StrMap.has x nd) eqn:E2 end;
    try reflexivity; try congruence; specialize (Dj eq_refl); congruence.
Qed.
(* edge models *)
Notation set3 := (StrMap.smap unit * StrMap.smap unit * StrMap.smap unit)%type.
Definition edge_status (n : string) (s : set3) : option display :=
  if StrMap.has n (snd s) then Some Vector else if StrMap.has n (snd (fst s)) then Some Scalar else if StrMap.has n (fst (fst s)) then Some NoDisplay else None.
Definition edge_inv (s : set3) : Prop := StrMap.sorted (fst (fst s)) /\ StrMap.sorted (snd (fst s)) /\ StrMap.sorted (snd s) /\
  (forall n, StrMap.has n (fst (fst s)) = true -> StrMap.has n (snd (fst s)) = false /\ StrMap.has n (snd s) = false) /\
  (forall n, StrMap.has n (snd (fst s)) = true -> StrMap.has n (snd s) = false).
Lemma edge_step : forall s p, edge_inv s -> edge_inv (collect_edge A include s p) /\
  forall n, edge_status n (collect_edge A include s p) = match edge_status n s with Some d => Some d | None => if String.eqb n (fst p) && include n then Some (em_display A (snd p)) else None end.
Proof.
  intros [[nd sc] ve] [k m] (S1 & S2 & S3 & D1 & D2). cbn [fst snd] in S1, S2, S3, D1, D2. unfold collect_edge, edge_status. cbn [fst snd].
  assert (Old : forall n, (StrMap.has n ve = true \/ StrMap.has n sc = true \/ StrMap.has n nd = true) \/ (StrMap.has n ve = false /\ StrMap.has n sc = false /\ StrMap.has n nd = false)).
  { intros n. destruct (StrMap.has n ve), (StrMap.has n sc), (StrMap.has n nd); auto. }
  destruct (include k) eqn:Ik; cbn [negb].
  2: { split; [split; [exact S1|]; split; [exact S2|]; split; [exact S3|]; split; [exact D1|exact D2]|]. intros n. cbn [fst snd]. destruct (StrMap.has n ve); [reflexivity|]. destruct (StrMap.has n sc); [reflexivity|]. destruct (StrMap.has n nd); [reflexivity|].
       destruct (String.eqb_spec n k) as [->|]; [rewrite Ik|]; reflexivity. }
  assert (Dk1 := D1 k). assert (Dk2 := D2 k).
  destruct (em_display A m); destruct (StrMap.has k nd) eqn:Hn; destruct (StrMap.has k sc) eqn:Hs; destruct (StrMap.has k ve) eqn:Hv; cbn [fst snd];
    try (destruct (Dk1 eq_refl); discriminate); try (discriminate (Dk2 eq_refl)).
  all: split; [unfold edge_inv; cbn [fst snd]; do 3 (apply conj; [first [assumption | apply add_sorted; assumption]|]); apply conj; intros n; specialize (D1 n); specialize (D2 n);
    rewrite ?has_add by assumption; destruct (String.eqb_spec n k) as [->|Nk]; cbn [orb]; rewrite ?Hn, ?Hs, ?Hv; auto; congruence|].
  all: intros n; cbn [fst snd]; rewrite ?has_add by assumption; destruct (String.eqb_spec n k) as [->|Nk]; cbn [orb andb]; rewrite ?Hn, ?Hs, ?Hv, ?Ik; auto.
  all: destruct (StrMap.has n ve); [reflexivity|]; destruct (StrMap.has n sc); [reflexivity|]; destruct (StrMap.has n nd); reflexivity.
Qed.
(* element models *)
Lemma element_step : forall l s, StrMap.sorted s -> StrMap.sorted (fold_left (collect_element A include) l s) /\
  forall n, StrMap.has n (fold_left (collect_element A include) l s) = true <-> StrMap.has n s = true \/ include n = true /\ exists v, In (n, (Scalar, v)) l.
Proof.
  induction l as [|[k [d v]] l IH]; intros s Hs.
  - split; [exact Hs|]. intros n. split; [intros H; left; exact H|]. intros [H|(_ & v & [])]. exact H.
  - cbn [fold_left]. set (s' := collect_element A include s (k, (d, v))). assert (P : StrMap.sorted s' /\ forall n, StrMap.has n s' = StrMap.has n s || (String.eqb n k && include n && match d with Scalar => true | _ => false end)).
    { unfold s', collect_element. cbn [fst snd]. destruct (include k) eqn:Ik; cbn [negb].
      - destruct d; (split; [first [exact Hs|apply add_sorted, Hs]|]); intros n; rewrite ?has_add by exact Hs; destruct (String.eqb_spec n k) as [->|]; rewrite ?Ik; cbn; rewrite ?orb_false_r, ?orb_true_r; reflexivity.
      - split; [exact Hs|]. intros n. destruct (String.eqb_spec n k) as [->|]; rewrite ?Ik; cbn; rewrite orb_false_r; reflexivity. }
    destruct P as [P1 P2]. clearbody s'. destruct (IH s' P1) as [I1 I2]. split; [exact I1|]. intros n. rewrite I2, P2. split.
    + intros [H|(K & w & I)]; [|right; split; [exact K|]; exists w; right; exact I]. apply orb_prop in H. destruct H as [H|H]; [left; exact H|]. right.
      apply andb_prop in H. destruct H as [H Hd]. apply andb_prop in H. destruct H as [Hn K]. apply String.eqb_eq in Hn. subst n. split; [exact K|]. exists v. left. destruct d; try discriminate. reflexivity.
    + intros [H|(K & w & [E|I])].
      * left. rewrite H. reflexivity.
      * injection E as -> -> ->. left. rewrite String.eqb_refl, K. apply orb_true_r.
      * right. split; [exact K|]. exists w. exact I.
Qed.

Variable regions : StrMap.smap (region A).
Notation rs := (map snd regions).
Hypothesis nodup : Forall (fun r => NoDup (map fst (r_node_models A r)) /\ NoDup (map fst (r_edge_models A r))) rs.
Notation nodes := (fst (fst (collect A include regions))).
Notation edges := (fst (snd (fst (collect A include regions)))).
Notation vectors := (snd (snd (fst (collect A include regions)))).
Notation elements := (snd (collect A include regions)).
Lemma coordinate_spec : forall n, coordinate n = false <-> ~ In n ["x"; "y"; "z"].
Proof.
  intros n. unfold coordinate. cbn [In]. destruct (String.eqb_spec n "x"), (String.eqb_spec n "y"), (String.eqb_spec n "z"); cbn; subst; split; intros H; try discriminate; try reflexivity; try (exfalso; apply H; auto; fail); intuition congruence.
Qed.
Lemma nodes_spec : StrMap.sorted nodes /\ forall n, In n (StrMap.keys nodes) <-> ~ In n ["x"; "y"; "z"] /\ include n = true /\ first_display A (r_node_models A) node_shown n rs Scalar.
Proof.
  unfold collect. cbn [fst snd]. rewrite (fold_regions _ _ (collect_node A include) _ (r_node_models A)).
  destruct (fold_status _ _ (collect_node A include) node_status node_inv node_ok node_shown node_step (flat_map (r_node_models A) rs) ([], [])) as [(Q1 & Q2 & Q3) Q4].
  { split; [constructor|]. split; [constructor|]. intros n H. discriminate H. }
  split; [exact Q2|]. intros n. rewrite <- StrMap.has_keys. specialize (Q4 n). change (node_status n ([], [])) with (@None display) in Q4. cbn beta iota in Q4.
  pose proof (looked_iff _ node_ok node_shown _ (r_node_models A) n rs Scalar) as LI.
  assert (F1 : Forall (fun r => NoDup (map fst (r_node_models A r))) rs) by (eapply Forall_impl; [|exact nodup]; intros r [H _]; exact H). specialize (LI F1). rewrite <- Q4 in LI.
  transitivity (node_status n (fold_left (collect_node A include) (flat_map (r_node_models A) rs) ([], [])) = Some Scalar).
  - unfold node_status. destruct (StrMap.has n (snd (fold_left (collect_node A include) (flat_map (r_node_models A) rs) ([], [])))); [split; reflexivity|]. split; [discriminate|].
    destruct (StrMap.has n (fst (fold_left (collect_node A include) (flat_map (r_node_models A) rs) ([], [])))); discriminate.
  - rewrite LI. unfold node_ok. rewrite andb_true_iff, negb_true_iff, coordinate_spec. tauto.
Qed.
Lemma edges_spec : StrMap.sorted edges /\ StrMap.sorted vectors /\ (forall n, In n (StrMap.keys edges) <-> include n = true /\ first_display A (r_edge_models A) (em_display A) n rs Scalar) /\
  forall n, In n (StrMap.keys vectors) <-> include n = true /\ first_display A (r_edge_models A) (em_display A) n rs Vector.
Proof.
  unfold collect. cbn [fst snd]. rewrite (fold_regions _ _ (collect_edge A include) _ (r_edge_models A)).
  destruct (fold_status _ _ (collect_edge A include) edge_status edge_inv include (em_display A) edge_step (flat_map (r_edge_models A) rs) ([], [], [])) as [(Q1 & Q2 & Q3 & Q5 & Q6) Q4].
  { split; [constructor|]. split; [constructor|]. split; [constructor|]. split; intros n H; discriminate H. }
  set (s := fold_left (collect_edge A include) (flat_map (r_edge_models A) rs) ([], [], [])) in *.
  split; [exact Q2|]. split; [exact Q3|].
  assert (F1 : Forall (fun r => NoDup (map fst (r_edge_models A r))) rs) by (eapply Forall_impl; [|exact nodup]; intros r [_ H]; exact H).
  split; intros n; rewrite <- StrMap.has_keys; specialize (Q4 n); change (edge_status n ([], [], [])) with (@None display) in Q4; cbn beta iota in Q4.
  - pose proof (looked_iff _ include (em_display A) _ (r_edge_models A) n rs Scalar F1) as LI. rewrite <- Q4 in LI. rewrite <- LI. unfold edge_status. split.
    + intros H. rewrite H, (Q6 n H). reflexivity.
    + destruct (StrMap.has n (snd s)); [discriminate|]. destruct (StrMap.has n (snd (fst s))); [reflexivity|]. destruct (StrMap.has n (fst (fst s))); discriminate.
  - pose proof (looked_iff _ include (em_display A) _ (r_edge_models A) n rs Vector F1) as LI. rewrite <- Q4 in LI. rewrite <- LI. unfold edge_status. split.
    + intros H. rewrite H. reflexivity.
    + destruct (StrMap.has n (snd s)); [reflexivity|]. destruct (StrMap.has n (snd (fst s))); [discriminate|]. destruct (StrMap.has n (fst (fst s))); discriminate.
Qed.
Lemma elements_spec : StrMap.sorted elements /\ forall n, In n (StrMap.keys elements) <-> include n = true /\ exists r v, In r rs /\ In (n, (Scalar, v)) (r_element_models A r).
Proof.
  unfold collect. cbn [fst snd]. rewrite (fold_regions _ _ (collect_element A include) _ (r_element_models A)). destruct (element_step (flat_map (r_element_models A) rs) []) as [Q1 Q2]; [constructor|].
  split; [exact Q1|]. intros n. rewrite <- StrMap.has_keys, Q2. split.
  - intros [H|(K & v & I)]; [discriminate H|]. apply in_flat_map in I. destruct I as (r & Ir & Iv). split; [exact K|]. exists r, v. split; assumption.
  - intros (K & r & v & Ir & Iv). right. split; [exact K|]. exists v. apply in_flat_map. exists r. split; assumption.
Qed.
End Collect.

Section File.
Variable A : Type.
Variable null : A.
Variable show : A -> text.
Variable dim : nat.
Variable include : string -> bool.
Variable regions : StrMap.smap (region A).
Hypothesis show_wordy : forall a, wordy (show a).
Hypothesis show_short : forall a, length (show a) < width.
Hypothesis Dim : dim = 1 \/ dim = 2 \/ dim = 3.
Hypothesis Regions : Forall (region_of A dim) (map snd regions).
Hypothesis Consistent : consistent A (map snd regions).
Notation rs := (map snd regions).
Notation value := (column_values A null).
Lemma nodup_names : Forall (fun r => NoDup (map fst (r_node_models A r)) /\ NoDup (map fst (r_edge_models A r))) rs.
Proof. eapply Forall_impl; [|exact Regions]. intros r P. destruct (p_names A dim r P) as (N1 & N2 & _). split; assumption. Qed.
Definition columns (nk ek vk lk : list string) : list column :=
  (map Coordinate (axes dim) ++ map AtNodes nk ++ map EdgesAtNodes ek ++ flat_map (fun n => map (fun k => VectorAtNodes k n) (seq 0 dim)) vk) ++ map AtElements lk.
Lemma axes_names : axes dim = map axis_name (seq 0 dim).
Proof. destruct Dim as [-> | [-> | ->]]; reflexivity. Qed.
Lemma columns_variables : forall nk ek vk lk, map variable (columns nk ek vk lk) = (axes dim ++ nk ++ ek ++ flat_map (vector_names dim) vk) ++ lk.
Proof.
  assert (I : forall f : string -> column, (forall n, variable (f n) = n) -> forall l, map variable (map f l) = l) by (intros f H l; rewrite map_map, (map_ext _ (fun x => x) H); apply map_id).
  intros. unfold columns. rewrite !map_app, !I by reflexivity. do 4 f_equal. rewrite !flat_map_concat_map, concat_map, map_map. f_equal. apply map_ext. intros n.
  unfold vector_names. rewrite axes_names, !map_map. reflexivity.
Qed.
Lemma width_of : forall (r : region A) n (v : values A), sized A n v -> length (expand A n v) = n.
Proof. intros r n [a | l] H; [apply repeat_length|exact H]. Qed.
Lemma nodal_length : forall r c, region_of A dim r -> match c with AtElements _ => False | _ => True end -> length (value r c) = r_nodes A r.
Proof.
  intros r c P H. destruct c as [n|n|n|k n|n]; try destruct H; cbn [column_values].
  1,2: destruct (StrMap.find n (r_node_models A r)) as [[d v]|] eqn:Ef; [apply (width_of r), (proj1 (p_node A dim r P n d v (find_in _ _ _ _ Ef)))|apply repeat_length].
  - destruct (StrMap.find n (r_edge_models A r)) as [m|] eqn:Ef; [apply (width_of r), (proj1 (p_edge A dim r P n m (find_in _ _ _ _ Ef)))|apply repeat_length].
  - destruct (StrMap.find n (r_edge_models A r)) as [m|] eqn:Ef; [rewrite map_length; apply (proj2 (p_edge A dim r P n m (find_in _ _ _ _ Ef)))|apply repeat_length].
Qed.
Lemma element_length : forall r n, region_of A dim r -> length (value r (AtElements n)) = length (r_elements A r).
Proof. intros r n P. cbn [column_values]. destruct (StrMap.find n (r_element_models A r)) as [[d v]|] eqn:Ef; [apply (width_of r), (p_element A dim r P n d v (find_in _ _ _ _ Ef))|apply repeat_length]. Qed.
Lemma corners_dim : corners (zone_type dim) = Some (S dim).
Proof. destruct Dim as [-> | [-> | ->]]; reflexivity. Qed.
Lemma flat_map_map : forall (X Y Z : Type) (f : X -> Y) (g : Y -> list Z) l, flat_map g (map f l) = flat_map (fun x => g (f x)) l.
Proof. intros. rewrite !flat_map_concat_map, map_map. reflexivity. Qed.
Lemma flat_map_flat_map : forall (X Y Z : Type) (f : X -> list Y) (g : Y -> list Z) l, flat_map g (flat_map f l) = flat_map (fun x => flat_map g (f x)) l.
Proof. intros X Y Z f g. induction l as [|x l IH]; [reflexivity|]. cbn. rewrite flat_map_app, IH. reflexivity. Qed.
Lemma zone_ok : forall n r nk ek vk lk, In r rs -> (forall m, In m vk -> forall e, In (m, e) (r_edge_models A r) -> em_display A e = Vector) -> (dim = 1 -> lk = []) ->
  let cs := columns nk ek vk lk in
  let cell := seq (length (axes dim ++ nk ++ ek ++ flat_map (vector_names dim) vk) + 1) (length lk) in
  exists z, write_zone A null show dim nk ek vk lk cell (n, r) = Some z /\ z_title z = n /\ z_nodes z = r_nodes A r /\ z_elements z = length (r_elements A r) /\
    read_zone (map variable cs) z = Some (map (fun c => map show (value r c)) cs, r_elements A r).
Proof.
  intros n r nk ek vk lk Ir V One cs cell. assert (P : region_of A dim r) by (rewrite Forall_forall in Regions; apply Regions, Ir).
  assert (Pe : Forall (fun e => e <> []) (r_elements A r)) by (eapply Forall_impl; [|apply (p_elements A dim r P)]; intros [|a e] H; [discriminate H|discriminate]).
  unfold write_zone.
  match goal with |- context [option_map _ ?b] => assert (W : writes b (flat_map (fun c => map show (value r c)) cs ++ flat_map (map node_word) (r_elements A r))) end.
  { unfold cs, columns. rewrite !flat_map_app, <- !app_assoc.
    apply writes_both. { rewrite flat_map_map. apply writes_blocks. intros m _. apply (writes_node A null show show_wordy show_short r m). }
    apply writes_both. { rewrite flat_map_map. apply writes_blocks. intros m _. apply (writes_node A null show show_wordy show_short r m). }
    apply writes_both. { rewrite flat_map_map. apply writes_blocks. intros m _. apply (writes_edge A null show show_wordy show_short r m). }
    apply writes_both.
    { rewrite flat_map_flat_map. apply writes_blocks. intros m Im. rewrite flat_map_map. apply (writes_vectors A null show show_wordy show_short dim r m Dim). intros e Ef. split; [apply (V m Im e), find_in, Ef|].
      pose proof (proj2 (p_edge A dim r P m e (find_in _ _ _ _ Ef))) as L. pose proof (p_nodes A dim r P) as G. intros C. rewrite C in L. cbn in L. lia. }
    apply writes_both; [|apply (writes_elements _ Pe)]. rewrite flat_map_map. destruct Dim as [D | [D | D]]; rewrite D; cbn [Nat.eqb orb].
    - rewrite (One D). apply writes_nil.
    - change ((2 =? 2) || (2 =? 3)) with true. apply writes_blocks. intros m _. apply (writes_element A null show show_wordy show_short r m).
    - change ((3 =? 2) || (3 =? 3)) with true. apply writes_blocks. intros m _. apply (writes_element A null show show_wordy show_short r m). }
  destruct W as (t & Et & Wt). rewrite Et. cbn [option_map]. eexists. split; [reflexivity|]. cbn [z_title z_nodes z_elements]. do 3 (split; [reflexivity|]).
  unfold read_zone. cbn [z_type z_body z_elements]. rewrite corners_dim. specialize (Wt []). rewrite !List.app_nil_r in Wt. rewrite Wt.
  rewrite (read_columns_words A show _ (value r) cs 1).
  - rewrite read_elements_words by (apply (p_elements A dim r P)). reflexivity.
  - intros i c Ei. cbn [z_cell z_elements z_nodes]. unfold cell. set (a := length (axes dim ++ nk ++ ek ++ flat_map (vector_names dim) vk)).
    assert (La : a = length (map Coordinate (axes dim) ++ map AtNodes nk ++ map EdgesAtNodes ek ++ flat_map (fun n => map (fun k => VectorAtNodes k n) (seq 0 dim)) vk)).
    { unfold a. pose proof (columns_variables nk ek vk []) as CV. unfold columns in CV. cbn [map] in CV. rewrite !List.app_nil_r in CV. rewrite <- CV, map_length. reflexivity. }
    unfold cs, columns in Ei. destruct (le_lt_dec a i) as [Cell|Node].
    + rewrite nth_error_app2 in Ei by (rewrite <- La; exact Cell). assert (B : i - a < length lk). { rewrite <- La in Ei. assert (Q : nth_error (map AtElements lk) (i - a) <> None) by (rewrite Ei; discriminate). apply nth_error_Some in Q. rewrite map_length in Q. exact Q. }
      apply nth_error_In in Ei. apply in_map_iff in Ei. destruct Ei as (m & <- & _). rewrite element_length by exact P.
      assert (existsb (Nat.eqb (1 + i)) (seq (a + 1) (length lk)) = true) as ->; [|reflexivity]. apply existsb_exists. exists (1 + i). split; [apply in_seq; lia|apply Nat.eqb_refl].
    + rewrite nth_error_app1 in Ei by (rewrite <- La; exact Node). rewrite nodal_length; [|exact P|].
      * assert (existsb (Nat.eqb (1 + i)) (seq (a + 1) (length lk)) = false) as ->; [|reflexivity]. apply not_true_iff_false. intros C. apply existsb_exists in C. destruct C as (j & Ij & Ej). apply in_seq in Ij. apply Nat.eqb_eq in Ej. lia.
      * apply nth_error_In in Ei. rewrite !in_app_iff in Ei. destruct Ei as [Ei|[Ei|[Ei|Ei]]]; try (apply in_map_iff in Ei; destruct Ei as (m & <- & _); exact Logic.I).
        apply in_flat_map in Ei. destruct Ei as (m & _ & Ei). apply in_map_iff in Ei. destruct Ei as (j & <- & _). exact Logic.I.
Qed.
Lemma zones_ok : forall (f : string * region A -> option zone) (ok : string * region A -> zone -> Prop) l, (forall p, In p l -> exists z, f p = Some z /\ ok p z) -> exists zs, all_zones A f l = Some zs /\ Forall2 ok l zs.
Proof.
  intros f ok. induction l as [|p l IH]; intros H; [exists []; split; [reflexivity|constructor]|]. destruct (H p (or_introl eq_refl)) as (z & Ez & Oz). destruct IH as (zs & Es & Os); [intros q I; apply H; right; exact I|].
  exists (z :: zs). cbn [all_zones]. rewrite Ez, Es. split; [reflexivity|]. constructor; assumption.
Qed.
Lemma first_shown : forall n, first_display A (r_node_models A) (node_shown A) n rs Scalar <-> first_display A (r_node_models A) fst n rs Scalar.
Proof.
  intros n. split; intros (b & r & a & m & E & Hb & I & Hd); exists b, r, a, m; split; try exact E; split; try exact Hb; split; try exact I.
  - assert (P : region_of A dim r) by (rewrite Forall_forall in Regions; apply Regions; rewrite E; apply in_or_app; right; left; reflexivity). destruct m as [d v]. unfold node_shown in Hd. cbn [fst] in *.
    pose proof (proj2 (p_node A dim r P n d v I)) as N. destruct d; [discriminate|reflexivity|congruence].
  - unfold node_shown. rewrite Hd. reflexivity.
Qed.
Lemma NoDup_app' : forall (X : Type) (a b : list X), NoDup a -> NoDup b -> (forall x, In x a -> ~ In x b) -> NoDup (a ++ b).
Proof.
  intros X a b Ha Hb D. induction Ha as [|x a N Ha IH]; [exact Hb|]. cbn. constructor.
  - intros C. apply in_app_or in C. destruct C as [C|C]; [exact (N C)|]. exact (D x (or_introl eq_refl) C).
  - apply IH. intros y I. apply D. right. exact I.
Qed.
Lemma NoDup_map' : forall (X Y : Type) (f : X -> Y) l, (forall x y, f x = f y -> x = y) -> NoDup l -> NoDup (map f l).
Proof.
  intros X Y f l J H. induction H as [|x l N H IH]; [constructor|]. cbn. constructor; [|exact IH]. intros C. apply in_map_iff in C. destruct C as (y & E & I). apply J in E. subst y. exact (N I).
Qed.
Theorem file_ok : forall title, exists f cs, write_tecplot A null show title dim include regions = Some f /\ f_title f = title /\
  f_variables f = map variable cs /\ NoDup cs /\ (forall c, In c cs <-> column_of A dim include rs c) /\
  Forall2 (fun '(n, r) z => z_title z = n /\ z_nodes z = r_nodes A r /\ z_elements z = length (r_elements A r) /\
    read_zone (f_variables f) z = Some (map (fun c => map show (value r c)) cs, r_elements A r)) regions (f_zones f).
Proof.
  intros title. unfold write_tecplot.
  destruct (nodes_spec A include regions nodup_names) as [S1 N1]. destruct (edges_spec A include regions nodup_names) as (S2 & S3 & N2 & N3). destruct (elements_spec A include regions) as [S4 N4].
  destruct (collect A include regions) as [[nodes [edges vectors]] elements]. cbn [fst snd] in *.
  set (nk := StrMap.keys nodes) in *. set (ek := StrMap.keys edges) in *. set (vk := StrMap.keys vectors) in *. set (lk := StrMap.keys elements) in *.
  assert (One : dim = 1 -> lk = []).
  { intros D. destruct lk as [|m lk'] eqn:El; [reflexivity|exfalso]. destruct (proj1 (N4 m) (or_introl eq_refl)) as (_ & r & v & Ir & Iv). rewrite Forall_forall in Regions. rewrite (p_line A dim r (Regions r Ir) D) in Iv. exact Iv. }
  destruct (zones_ok (write_zone A null show dim nk ek vk lk (seq (length (axes dim ++ nk ++ ek ++ flat_map (vector_names dim) vk) + 1) (length lk)))
    (fun '(n, r) z => z_title z = n /\ z_nodes z = r_nodes A r /\ z_elements z = length (r_elements A r) /\
      read_zone (map variable (columns nk ek vk lk)) z = Some (map (fun c => map show (value r c)) (columns nk ek vk lk), r_elements A r)) regions) as (zs & Ez & Oz).
  { intros [n r] Ip. assert (Ir : In r rs) by (change r with (snd (n, r)); apply in_map, Ip). apply (zone_ok n r nk ek vk lk Ir); [|exact One].
    intros m Im e Ie. apply N3 in Im. exact (Consistent m (proj2 Im) r e Ir Ie). }
  rewrite Ez. cbn [option_map]. eexists. exists (columns nk ek vk lk). split; [reflexivity|]. cbn [f_title f_variables f_zones]. split; [reflexivity|]. rewrite columns_variables. split; [reflexivity|]. split.
  { assert (D1 : NoDup nk) by apply StrMap.sorted_NoDup, S1. assert (D2 : NoDup ek) by apply StrMap.sorted_NoDup, S2. assert (D3 : NoDup vk) by apply StrMap.sorted_NoDup, S3. assert (D4 : NoDup lk) by apply StrMap.sorted_NoDup, S4.
    unfold columns. apply NoDup_app'; [apply NoDup_app'; [|apply NoDup_app'; [|apply NoDup_app'|]|]| |].
    - apply NoDup_map'; [congruence|]. destruct Dim as [-> | [-> | ->]]; repeat constructor; cbn; intuition discriminate.
    - apply NoDup_map'; [congruence|exact D1].
    - apply NoDup_map'; [congruence|exact D2].
    - clear -D3. induction D3 as [|m vk N D3 IH]; [constructor|]. cbn [flat_map]. apply NoDup_app'; [apply NoDup_map'; [congruence|apply seq_NoDup]|exact IH|].
      intros c I1 I2. apply in_map_iff in I1. destruct I1 as (k & <- & _). apply in_flat_map in I2. destruct I2 as (m' & I2 & I3). apply in_map_iff in I3. destruct I3 as (k' & E & _). injection E as _ ->. exact (N I2).
    - intros c I1 I2. apply in_map_iff in I1. destruct I1 as (k & <- & _). apply in_flat_map in I2. destruct I2 as (m' & _ & I3). apply in_map_iff in I3. destruct I3 as (k' & E & _). discriminate E.
    - intros c I1 I2. apply in_map_iff in I1. destruct I1 as (k & <- & _). apply in_app_or in I2. destruct I2 as [I2|I2]; [apply in_map_iff in I2; destruct I2 as (m & E & _); discriminate E|].
      apply in_flat_map in I2. destruct I2 as (m' & _ & I3). apply in_map_iff in I3. destruct I3 as (k' & E & _). discriminate E.
    - intros c I1 I2. apply in_map_iff in I1. destruct I1 as (k & <- & _). rewrite !in_app_iff in I2. destruct I2 as [I2|[I2|I2]]; try (apply in_map_iff in I2; destruct I2 as (m & E & _); discriminate E).
      apply in_flat_map in I2. destruct I2 as (m' & _ & I3). apply in_map_iff in I3. destruct I3 as (k' & E & _). discriminate E.
    - apply NoDup_map'; [congruence|exact D4].
    - intros c I1 I2. apply in_map_iff in I2. destruct I2 as (k & <- & _). rewrite !in_app_iff in I1. destruct I1 as [I1|[I1|[I1|I1]]]; try (apply in_map_iff in I1; destruct I1 as (m & E & _); discriminate E).
      apply in_flat_map in I1. destruct I1 as (m' & _ & I3). apply in_map_iff in I3. destruct I3 as (k' & E & _). discriminate E. }
  split.
  { intros c. unfold columns. rewrite !in_app_iff, in_flat_map, !in_map_iff.
    assert (Ax : forall a, In a (axes dim) <-> exists k, k < dim /\ a = axis_name k).
    { intros a. rewrite axes_names, in_map_iff. split; intros (k & H1 & H2); exists k; [apply in_seq in H2; split; [lia|congruence]|split; [congruence|apply in_seq; lia]]. }
    destruct c as [a|n|n|k n|n]; cbn [column_of].
    - rewrite <- Ax. split; [|intros H; left; left; exists a; split; [reflexivity|exact H]].
      intros [[(x & E & I)|[(x & E & _)|[(x & E & _)|(x & _ & I)]]]|(x & E & _)]; try discriminate E; [injection E as ->; exact I|]. apply in_map_iff in I. destruct I as (y & E & _). discriminate E.
    - rewrite <- first_shown, <- N1. split; [|intros H; left; right; left; exists n; split; [reflexivity|exact H]].
      intros [[(x & E & I)|[(x & E & I)|[(x & E & _)|(x & _ & I)]]]|(x & E & _)]; try discriminate E; [injection E as ->; exact I|]. apply in_map_iff in I. destruct I as (y & E & _). discriminate E.
    - rewrite <- N2. split; [|intros H; left; right; right; left; exists n; split; [reflexivity|exact H]].
      intros [[(x & E & I)|[(x & E & I)|[(x & E & I)|(x & _ & I)]]]|(x & E & _)]; try discriminate E; [injection E as ->; exact I|]. apply in_map_iff in I. destruct I as (y & E & _). discriminate E.
    - rewrite <- N3. split.
      + intros [[(x & E & I)|[(x & E & I)|[(x & E & I)|(x & Ix & I)]]]|(x & E & _)]; try discriminate E. apply in_map_iff in I. destruct I as (y & E & Iy). injection E as -> ->. apply in_seq in Iy. split; [lia|exact Ix].
      + intros [L I]. left. right. right. right. exists n. split; [exact I|]. apply in_map_iff. exists k. split; [reflexivity|apply in_seq; lia].
    - rewrite <- N4. split; [|intros H; right; exists n; split; [reflexivity|exact H]].
      intros [[(x & E & I)|[(x & E & I)|[(x & E & I)|(x & _ & I)]]]|(x & E & I)]; try discriminate E; [|injection E as ->; exact I]. apply in_map_iff in I. destruct I as (y & E & _). discriminate E. }
  rewrite columns_variables in Oz. exact Oz.
Qed.
End File.
