(* Sums over nodes, edges and elements. *)
From Coq Require Import List Arith Lia Reals Lra Permutation.
From Verif Require Import Adjacency LoaderSpec AdjacencySpec AdjacencyProofs AdjacencyFinal AdjacencyProperties Geometry GeometrySpec GeometryProofs Volume VolumeGeom VolumeSpec AssemblyProofs ContactProofs.
Import ListNotations.
Open Scope R_scope.
Open Scope nat_scope.
Local Arguments Nat.ltb : simpl never.
Local Arguments Nat.eqb : simpl never.

Lemma total_rsum : forall A (f : A -> R) l, total f l = rsum f l.
Proof. intros A f l. unfold total. induction l as [|x t IH]; cbn; [reflexivity|rewrite IH; reflexivity]. Qed.
Lemma opt_list_map : forall A (l : list A), opt_list (map Some l) = Some l.
Proof. induction l as [|x t IH]; cbn; [reflexivity|rewrite IH; reflexivity]. Qed.
Lemma opt_list_ext : forall A B (f : A -> option B) (g : A -> B) l, (forall x, In x l -> f x = Some (g x)) -> opt_list (map f l) = Some (map g l).
Proof.
  intros A B f g l H. induction l as [|x t IH]; [reflexivity|]. cbn [map opt_list]. rewrite (H x) by (left; reflexivity).
  rewrite IH; [reflexivity|]. intros y I. apply H. right. exact I.
Qed.
Lemma fold_left_rsum : forall l z, fold_left Rplus l z = (z + rsum (fun x => x) l)%R.
Proof. induction l as [|x t IH]; intros z; cbn; [lra|rewrite IH; lra]. Qed.
Lemma opt_sum_ext : forall A (f : A -> option R) (g : A -> R) l, (forall x, In x l -> f x = Some (g x)) -> opt_sum (map f l) = Some (rsum g l).
Proof.
  intros A f g l H. unfold opt_sum. rewrite (opt_list_ext _ _ f g l H). cbn [option_map]. f_equal.
  rewrite fold_left_rsum, rsum_map, Rplus_0_l. reflexivity.
Qed.
Lemma nth_error_concat : forall A w (L : list (list A)) t j, Forall (fun r => length r = w) L -> j < w -> nth_error (concat L) (w * t + j) = nth_error (nth t L []) j.
Proof.
  intros A w L. induction L as [|r L IH]; intros t j F J; cbn [concat].
  - destruct t; cbn [nth]; rewrite !(proj2 (nth_error_None _ _)) by (cbn [length]; lia); reflexivity.
  - inversion F as [|? ? Lr F']; subst. destruct t as [|t]; cbn [nth].
    + rewrite Nat.mul_0_r. cbn [Nat.add]. apply nth_error_app1. exact J.
    + rewrite nth_error_app2 by lia. rewrite <- (IH t j F' J). f_equal. lia.
Qed.
Lemma nth_map_seq : forall A (f : nat -> A) n t d, t < n -> nth t (map f (seq 0 n)) d = f t.
Proof.
  intros A f n t d H. rewrite (nth_indep _ d (f 0)) by (rewrite map_length, seq_length; exact H). rewrite map_nth, seq_nth by exact H. reflexivity.
Qed.
Lemma nth_error_map_seq : forall A (f : nat -> A) n t, t < n -> nth_error (map f (seq 0 n)) t = Some (f t).
Proof. intros A f n t H. rewrite (nth_error_nth' _ (f 0)) by (rewrite map_length, seq_length; exact H). rewrite nth_map_seq by exact H. reflexivity. Qed.
Lemma index_on_spec : forall l e, In e l -> exists j, index_on (map Some l) e = Some j /\ nth_error l j = Some e.
Proof.
  induction l as [|x t IH]; intros e I; [destruct I|]. cbn [map index_on]. destruct (Nat.eqb_spec x e) as [->|N].
  - exists 0. auto.
  - destruct I as [E|I]; [contradiction|]. destruct (IH e I) as (j & A & B). exists (S j). rewrite A. auto.
Qed.

(* a sum over a list without repetitions, as a sum over all indices *)
Definition isin (x : nat) (l : list nat) : bool := existsb (Nat.eqb x) l.
Lemma isin_In : forall x l, isin x l = true <-> In x l.
Proof. intros. unfold isin. rewrite existsb_exists. split; [intros (y & I & E); apply Nat.eqb_eq in E; subst; exact I|intros I; exists x; rewrite Nat.eqb_refl; auto]. Qed.
Lemma rsum_isin : forall (f : nat -> R) l n, NoDup l -> (forall x, In x l -> x < n) -> rsum f l = rsum (fun x => if isin x l then f x else 0%R) (seq 0 n).
Proof.
  intros f l n N B. rewrite <- rsum_filter. apply rsum_perm. apply NoDup_Permutation; [exact N|apply NoDup_filter, seq_NoDup|].
  intros x. rewrite filter_In, in_seq, isin_In. split; [intros I; split; [specialize (B x I); lia|exact I]|intros [_ I]; exact I].
Qed.

Section Gen.
Variables (ne nc w : nat) (es : nat -> list nat) (slots : nat -> list (option nat)) (ar : list (list nat)).
Hypothesis Hs : forall t, t < nc -> slots t = map Some (es t).
Hypothesis Hl : forall t, t < nc -> length (es t) = w /\ NoDup (es t).
Hypothesis Ha : forall e, e < ne -> NoDup (nth e ar []) /\ forall t, In t (nth e ar []) <-> t < nc /\ In e (es t).
Hypothesis He : forall t e, t < nc -> In e (es t) -> e < ne.

Definition vals (g : nat -> nat -> R) : list R := concat (map (fun t => map (g t) (es t)) (seq 0 nc)).
Lemma vals_nth : forall g t j e, t < nc -> nth_error (es t) j = Some e -> nth_error (vals g) (w * t + j) = Some (g t e).
Proof.
  intros g t j e T E. unfold vals. rewrite nth_error_concat.
  - rewrite nth_map_seq by exact T. apply map_nth_error. exact E.
  - rewrite Forall_forall. intros r I. apply in_map_iff in I. destruct I as (t' & <- & I). apply in_seq in I. rewrite map_length. apply Hl. lia.
  - destruct (Hl t T) as [L _]. rewrite <- L. apply nth_error_Some. congruence.
Qed.
Lemma on_edges : forall edges g, length edges = ne -> values_on_edges edges w ar slots (vals g) = Some (map (fun e => rsum (fun t => g t e) (nth e ar [])) (seq 0 ne)).
Proof.
  intros edges g L. unfold values_on_edges. rewrite L. apply opt_list_ext. intros e I. apply in_seq in I.
  apply opt_sum_ext. intros t J. destruct (Ha e ltac:(lia)) as [_ K]. apply K in J. destruct J as [T J]. rewrite Hs by exact T.
  destruct (index_on_spec _ _ J) as (j & A & B). rewrite A. apply vals_nth; assumption.
Qed.
Lemma double : forall (F : nat -> nat -> R), rsum (fun e => rsum (fun t => F t e) (nth e ar [])) (seq 0 ne) = rsum (fun t => rsum (fun e => F t e) (es t)) (seq 0 nc).
Proof.
  intros F. transitivity (rsum (fun e => rsum (fun t => if isin e (es t) then F t e else 0%R) (seq 0 nc)) (seq 0 ne)).
  - apply rsum_ext. intros e I. apply in_seq in I. destruct (Ha e ltac:(lia)) as [N K].
    rewrite (rsum_isin _ _ nc N) by (intros t J; apply K in J; lia). apply rsum_ext. intros t J. apply in_seq in J.
    destruct (isin t (nth e ar [])) eqn:E1, (isin e (es t)) eqn:E2; try reflexivity; exfalso.
    + apply isin_In, K in E1. destruct E1 as [_ E1]. apply isin_In in E1. congruence.
    + apply isin_In in E2. assert (In t (nth e ar [])) by (apply K; split; [lia|exact E2]). apply isin_In in H. congruence.
  - rewrite rsum_swap. apply rsum_ext. intros t J. apply in_seq in J. destruct (Hl t ltac:(lia)) as [_ N].
    symmetry. apply rsum_isin; [exact N|]. intros e I. apply (He t e); [lia|exact I].
Qed.
(* the volumes of the elements *)
Lemma elem_volumes_ok : forall pos edges factor g, length edges = ne ->
  elem_volumes pos edges w factor slots nc (vals g) = Some (vals (fun t e => edge_length pos (nth e edges []) * (g t e * factor))%R).
Proof.
  intros pos edges factor g L. unfold elem_volumes. unfold vals at 2.
  rewrite (opt_list_ext _ _ _ (fun t => map (fun e => edge_length pos (nth e edges []) * (g t e * factor))%R (es t))); [reflexivity|].
  intros t I. apply in_seq in I. assert (T : t < nc) by lia. rewrite (Hs t T). rewrite map_length.
  assert (E : combine (seq 0 (length (es t))) (map Some (es t)) = map (fun j => (j, Some (nth j (es t) 0))) (seq 0 (length (es t)))).
  { apply (nth_ext _ _ (0, None) (0, None)).
    - rewrite combine_length, !map_length, seq_length. lia.
    - intros j J. rewrite combine_length, map_length, seq_length in J. rewrite combine_nth by (rewrite map_length, seq_length; reflexivity).
      rewrite nth_map_seq by lia. rewrite seq_nth by lia. f_equal. rewrite (nth_indep _ None (Some 0)) by (rewrite map_length; lia). apply map_nth. }
  rewrite E, map_map.
  assert (E2 : map (fun e => (edge_length pos (nth e edges []) * (g t e * factor))%R) (es t) =
               map (fun j => (edge_length pos (nth (nth j (es t) 0%nat) edges []) * (g t (nth j (es t) 0%nat) * factor))%R) (seq 0 (length (es t)))).
  { apply (nth_ext _ _ 0%R 0%R); [rewrite !map_length, seq_length; reflexivity|]. intros j J. rewrite map_length in J. rewrite nth_map_seq by exact J.
    rewrite (nth_indep _ 0%R ((fun e => (edge_length pos (nth e edges []) * (g t e * factor))%R) 0)) by (rewrite map_length; exact J).
    rewrite (map_nth (fun e => (edge_length pos (nth e edges []) * (g t e * factor))%R)). reflexivity. }
  rewrite E2. apply opt_list_ext. intros j J. apply in_seq in J. cbn [fst snd].
  assert (Je : nth_error (es t) j = Some (nth j (es t) 0)) by (apply nth_error_nth'; lia).
  assert (EN : nth j (es t) 0 < ne) by (apply (He t); [exact T|apply (nth_error_In _ _ Je)]).
  rewrite (vals_nth g t j _ T Je). unfold edge_lengths.
  assert (EE : nth_error edges (nth j (es t) 0) = Some (nth (nth j (es t) 0) edges [])) by (apply nth_error_nth'; lia).
  rewrite (map_nth_error (edge_length pos) _ _ EE). reflexivity.
Qed.
End Gen.

Lemma numbered_map : forall l : list simplex, numbered l = map (fun i => (i, nth i l [])) (seq 0 (length l)).
Proof.
  intros l. unfold numbered. apply (nth_ext _ _ (0, []) (0, [])); [rewrite combine_length, map_length, seq_length; lia|].
  intros j J. rewrite combine_length, seq_length in J. rewrite combine_nth by (rewrite seq_length; reflexivity). rewrite nth_map_seq by lia. rewrite seq_nth by lia. reflexivity.
Qed.
Lemma rsum_repeat : forall (f : nat -> R) k x, rsum f (repeat x k) = (INR k * f x)%R.
Proof. intros f k x. induction k as [|k IH]; [cbn; lra|]. cbn [repeat rsum]. rewrite IH, S_INR. lra. Qed.
Lemma rsum_at_node : forall (f : nat -> R) l n, rsum f (at_node l n) = rsum (fun e => (INR (times n (nth e l [])) * f e)%R) (seq 0 (length l)).
Proof.
  intros f l n. unfold at_node. rewrite rsum_flat_map, numbered_map, rsum_map. cbn [fst snd]. apply rsum_ext. intros e _. apply rsum_repeat.
Qed.
Lemma at_node_bound : forall l n e, In e (at_node l n) -> e < length l.
Proof. intros l n e I. apply at_node_In in I. destruct I as (s & E & _). apply nth_error_Some. congruence. Qed.
Lemma node_values : forall pos (edges : list simplex) (EV : nat -> R),
  opt_list (map (fun n => opt_sum (map (nth_error (map EV (seq 0 (length edges)))) (at_node edges n))) (seq 0 (length pos))) =
  Some (map (fun n => rsum EV (at_node edges n)) (seq 0 (@length vec pos))).
Proof.
  intros pos edges EV. apply opt_list_ext. intros n _. apply opt_sum_ext. intros e I. apply nth_error_map_seq. apply (at_node_bound _ _ _ I).
Qed.
Lemma rsum_times : forall s N, (forall n, In n s -> n < N) -> rsum (fun n => INR (times n s)) (seq 0 N) = INR (length s).
Proof.
  induction s as [|x t IH]; intros N H; [cbn; apply rsum_zero; reflexivity|].
  transitivity (rsum (fun n => ((if Nat.eqb n x then 1 else 0) + INR (times n t))%R) (seq 0 N)).
  - apply rsum_ext. intros n _. unfold times. cbn [filter]. destruct (Nat.eqb n x); cbn [length]; [rewrite S_INR|]; lra.
  - rewrite rsum_plus, (IH N) by (intros; apply H; right; assumption).
    assert (X : x < N) by (apply H; left; reflexivity).
    rewrite (AssemblyResidual.rsum_seq_ind (fun _ => 1%R) x N 0) by lia. cbn [length]. rewrite S_INR. lra.
Qed.
