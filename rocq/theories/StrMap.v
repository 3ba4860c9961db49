(* std::map<std::string, V>: association lists with strictly increasing keys
   (std::string operator< is the lexicographic order of bytes = String.ltb). *)
From Coq Require Import String List Bool NArith Arith Lia Sorting.Sorted.
Import ListNotations.

Definition smap (V : Type) := list (string * V).

Section Map.
Context {V : Type}.
Fixpoint find (k : string) (m : smap V) : option V :=
  match m with
  | nil => None
  | (k', v) :: t => if String.eqb k k' then Some v else find k t
  end.
Definition has (k : string) (m : smap V) : bool := match find k m with Some _ => true | None => false end.
(* m[k] = v *)
Fixpoint put (k : string) (v : V) (m : smap V) : smap V :=
  match m with
  | nil => [(k, v)]
  | (k', v') :: t => match String.compare k k' with
                     | Eq => (k, v) :: t
                     | Lt => (k, v) :: m
                     | Gt => (k', v') :: put k v t
                     end
  end.
(* m.erase(k) *)
Fixpoint erase (k : string) (m : smap V) : smap V :=
  match m with
  | nil => nil
  | (k', v') :: t => if String.eqb k k' then t else (k', v') :: erase k t
  end.
Definition keys (m : smap V) : list string := map fst m.
Definition slt (a b : string) : Prop := String.compare a b = Lt.
Definition sorted (m : smap V) : Prop := StronglySorted slt (keys m).

Lemma compare_refl : forall a, String.compare a a = Eq.
Proof. intros a. induction a as [|x a IH]; cbn; [reflexivity|]. unfold Ascii.compare. rewrite N.compare_refl. exact IH. Qed.
Lemma slt_irrefl : forall a, ~ slt a a.
Proof. intros a H. unfold slt in H. rewrite compare_refl in H. discriminate. Qed.
Lemma ascii_compare_lt : forall a b, Ascii.compare a b = Lt <-> (Ascii.N_of_ascii a < Ascii.N_of_ascii b)%N.
Proof. intros. unfold Ascii.compare. apply N.compare_lt_iff. Qed.
Lemma slt_trans : forall a b c, slt a b -> slt b c -> slt a c.
Proof.
  unfold slt. induction a as [|x a IH]; intros [|y b] [|z c]; cbn; try discriminate; auto.
  destruct (Ascii.compare x y) eqn:E1; try discriminate; destruct (Ascii.compare y z) eqn:E2; try discriminate; intros H1 H2.
  - apply Ascii.compare_eq_iff in E1, E2. subst. assert (R : Ascii.compare z z = Eq) by (unfold Ascii.compare; apply N.compare_refl).
    rewrite R. eapply IH; eassumption.
  - apply Ascii.compare_eq_iff in E1. subst. rewrite E2. reflexivity.
  - apply Ascii.compare_eq_iff in E2. subst. rewrite E1. reflexivity.
  - apply ascii_compare_lt in E1, E2. assert (E : Ascii.compare x z = Lt) by (apply ascii_compare_lt; eapply N.lt_trans; eassumption).
    rewrite E. reflexivity.
Qed.
Lemma compare_gt : forall a b, String.compare a b = Gt -> slt b a.
Proof. intros a b H. unfold slt. rewrite String.compare_antisym, H. reflexivity. Qed.

Lemma find_In : forall k v m, find k m = Some v -> In (k, v) m.
Proof.
  intros k v. induction m as [|[k' v'] t IH]; cbn; [discriminate|].
  destruct (String.eqb_spec k k') as [->|]; [intros H; injection H as ->; auto|auto].
Qed.
Lemma find_keys : forall k m, find k m <> None <-> In k (keys m).
Proof.
  intros k. induction m as [|[k' v'] t IH]; cbn; [split; [congruence|intros []]|].
  destruct (String.eqb_spec k k') as [->|N]; [split; [auto|discriminate]|].
  rewrite IH. split; [auto|]. intros [E|E]; [congruence|exact E].
Qed.
Lemma has_keys : forall k m, has k m = true <-> In k (keys m).
Proof.
  intros. rewrite <- find_keys. unfold has. destruct (find k m); split; congruence.
Qed.

Lemma keys_put : forall k v m x, In x (keys (put k v m)) <-> x = k \/ In x (keys m).
Proof.
  intros k v. induction m as [|[k' v'] t IH]; intros x; cbn; [firstorder congruence|].
  destruct (String.compare k k') eqn:E; cbn.
  - apply String.compare_eq_iff in E. subst. firstorder congruence.
  - firstorder congruence.
  - rewrite IH. firstorder congruence.
Qed.
Lemma put_sorted : forall k v m, sorted m -> sorted (put k v m).
Proof.
  intros k v. unfold sorted. induction m as [|[k' v'] t IH]; intros H; cbn in *; [constructor; constructor|].
  inversion H as [|x y Ht Hf]; subst. rewrite Forall_forall in Hf.
  destruct (String.compare k k') eqn:E; cbn.
  - apply String.compare_eq_iff in E. subst. assumption.
  - constructor; [assumption|]. rewrite Forall_forall. intros x [<-|Hx]; [exact E|]. eapply slt_trans; [exact E|auto].
  - constructor; [auto|]. rewrite Forall_forall. intros x Hx. apply keys_put in Hx. destruct Hx as [->|Hx]; [apply compare_gt; exact E|auto].
Qed.
Lemma find_put : forall k v m x, sorted m -> find x (put k v m) = if String.eqb x k then Some v else find x m.
Proof.
  intros k v. unfold sorted. induction m as [|[k' v'] t IH]; intros x H; cbn in *.
  - destruct (String.eqb x k); reflexivity.
  - inversion H as [|a b Ht Hf]; subst. destruct (String.compare k k') eqn:E; cbn.
    + apply String.compare_eq_iff in E. subst. destruct (String.eqb x k'); reflexivity.
    + reflexivity.
    + rewrite IH by assumption. destruct (String.eqb_spec x k'), (String.eqb_spec x k); subst; try reflexivity.
      rewrite compare_refl in E. discriminate.
Qed.
Lemma keys_erase : forall k m x, sorted m -> (In x (keys (erase k m)) <-> x <> k /\ In x (keys m)).
Proof.
  intros k. unfold sorted. induction m as [|[k' v'] t IH]; intros x H; cbn in *; [firstorder|].
  inversion H as [|a b Ht Hf]; subst. rewrite Forall_forall in Hf.
  destruct (String.eqb_spec k k') as [->|N]; cbn.
  - split; [|firstorder congruence]. intros Hx. split; [|auto]. intros ->. exact (slt_irrefl _ (Hf _ Hx)).
  - rewrite IH by assumption. firstorder congruence.
Qed.
Lemma erase_incl : forall k m x, In x (erase k m) -> In x m.
Proof.
  intros k. induction m as [|[k' v'] t IH]; intros x; cbn; [auto|].
  destruct (String.eqb k k'); cbn; [auto|]. intros [H|H]; auto.
Qed.
Lemma erase_sorted : forall k m, sorted m -> sorted (erase k m).
Proof.
  intros k. unfold sorted. induction m as [|[k' v'] t IH]; intros H; cbn in *; [constructor|].
  inversion H as [|a b Ht Hf]; subst. destruct (String.eqb_spec k k'); cbn; [assumption|].
  constructor; [auto|]. rewrite Forall_forall in *. intros x Hx. apply Hf. unfold keys in *.
  apply in_map_iff in Hx. destruct Hx as (p & <- & Hp). apply in_map. eapply erase_incl; exact Hp.
Qed.
Lemma find_erase : forall k m x, sorted m -> find x (erase k m) = if String.eqb x k then None else find x m.
Proof.
  intros k. unfold sorted. induction m as [|[k' v'] t IH]; intros x H; cbn in *.
  - destruct (String.eqb x k); reflexivity.
  - inversion H as [|a b Ht Hf]; subst. rewrite Forall_forall in Hf.
    destruct (String.eqb_spec k k') as [->|N]; cbn.
    + destruct (String.eqb_spec x k') as [->|]; [|reflexivity].
      destruct (find k' t) eqn:E; [|reflexivity]. exfalso. apply (slt_irrefl k'). apply Hf.
      apply find_keys. congruence.
    + rewrite IH by assumption. destruct (String.eqb_spec x k'), (String.eqb_spec x k); subst; try reflexivity. congruence.
Qed.
Lemma sorted_NoDup : forall m, sorted m -> NoDup (keys m).
Proof.
  intros m. unfold sorted. induction (keys m) as [|k t IH]; intros H; [constructor|].
  inversion H as [|a b Ht Hf]; subst. rewrite Forall_forall in Hf. constructor; [|auto].
  intros Hk. exact (slt_irrefl _ (Hf _ Hk)).
Qed.
Lemma In_find : forall k v m, sorted m -> In (k, v) m -> find k m = Some v.
Proof.
  intros k v m H. apply sorted_NoDup in H. revert H. unfold keys. induction m as [|[k' v'] t IH]; cbn; intros H Hi; [destruct Hi|].
  inversion H as [|a b Hn Ht]; subst. destruct Hi as [E|Hi].
  - injection E as -> ->. rewrite String.eqb_refl. reflexivity.
  - destruct (String.eqb_spec k k') as [->|]; [|auto]. exfalso. apply Hn. change k' with (fst (k', v)). apply in_map. exact Hi.
Qed.
Lemma length_put_new : forall k v m, find k m = None -> length (put k v m) = S (length m).
Proof.
  intros k v. induction m as [|[k' v'] t IH]; cbn; intros H; [reflexivity|].
  destruct (String.eqb_spec k k') as [->|N]; [discriminate|].
  destruct (String.compare k k') eqn:E; cbn; auto. apply String.compare_eq_iff in E. contradiction.
Qed.
Lemma length_put_old : forall k v m, find k m <> None -> sorted m -> length (put k v m) = length m.
Proof.
  intros k v. unfold sorted. induction m as [|[k' v'] t IH]; cbn; intros H Hs; [congruence|].
  inversion Hs as [|a b Ht Hf]; subst. rewrite Forall_forall in Hf.
  destruct (String.compare k k') eqn:E; cbn; auto.
  - exfalso. destruct (String.eqb_spec k k') as [->|N]; [rewrite compare_refl in E; discriminate|].
    apply (slt_irrefl k). eapply slt_trans; [exact E|]. apply Hf. apply find_keys. exact H.
  - destruct (String.eqb_spec k k') as [->|N]; [rewrite compare_refl in E; discriminate|]. auto.
Qed.
Lemma length_erase : forall k m, find k m <> None -> S (length (erase k m)) = length m.
Proof.
  intros k. induction m as [|[k' v'] t IH]; cbn; intros H; [congruence|].
  destruct (String.eqb k k'); cbn; auto.
Qed.
End Map.

Lemma map_ext_sorted : forall V (m m' : smap V), sorted m -> sorted m' -> (forall k, find k m = find k m') -> m = m'.
Proof.
  intros V. unfold sorted. induction m as [|[k v] t IH]; intros [|[k' v'] t'] H H' E; cbn in *.
  - reflexivity.
  - specialize (E k'). cbn in E. rewrite String.eqb_refl in E. discriminate.
  - specialize (E k). cbn in E. rewrite String.eqb_refl in E. discriminate.
  - inversion H as [|a b Ht Hf]; subst. inversion H' as [|a' b' Ht' Hf']; subst. rewrite Forall_forall in Hf, Hf'.
    assert (K : k = k').
    { destruct (String.eqb_spec k k') as [->|N]; [reflexivity|].
      pose proof (E k) as E1. pose proof (E k') as E2. cbn in E1, E2. rewrite String.eqb_refl in E1, E2.
      destruct (String.eqb_spec k k'); [contradiction|]. destruct (String.eqb_spec k' k); [congruence|].
      assert (I1 : In k (keys t')) by (apply find_keys; congruence).
      assert (I2 : In k' (keys t)) by (apply find_keys; congruence).
      exfalso. apply (slt_irrefl k). eapply slt_trans; [apply Hf; exact I2|apply Hf'; exact I1]. }
    subst k'. f_equal.
    + specialize (E k). cbn in E. rewrite String.eqb_refl in E. congruence.
    + apply IH; auto. intros x. specialize (E x). cbn in E. destruct (String.eqb_spec x k) as [Ex|Ex]; [|exact E]; rewrite Ex.
      assert (N1 : find k t = None). { destruct (find k t) eqn:F; [|reflexivity]. exfalso. apply (slt_irrefl k). apply Hf. apply find_keys. congruence. }
      assert (N2 : find k t' = None). { destruct (find k t') eqn:F; [|reflexivity]. exfalso. apply (slt_irrefl k). apply Hf'. apply find_keys. congruence. }
      congruence.
Qed.
