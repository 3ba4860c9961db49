(* Lemmas about the parameter database of Params.v. *)
From Coq Require Import String List Bool.
From Verif Require Import StrMap Params.
Import ListNotations.
Open Scope string_scope.
Open Scope list_scope.

Section P.
Context {W R : Type}.
Notation gdata := (gdata W).

Definition wf2 {A} (m : smap (smap A)) : Prop := sorted m /\ (forall k x, find k m = Some x -> sorted x).
Record wf (g : gdata) : Prop := mkWf {
  wf_global : sorted (g_global g);
  wf_dev : wf2 (g_dev g);
  wf_reg : sorted (g_reg g) /\ (forall k x, find k (g_reg g) = Some x -> wf2 x) }.

Lemma sub_sorted : forall A k (m : smap (smap A)), wf2 m -> sorted (sub k m).
Proof. intros A k m [_ H]. unfold sub. destruct (find k m) as [x|] eqn:E; [exact (H _ _ E)|constructor]. Qed.
Lemma put2_wf : forall A k1 k2 (v : A) m, wf2 m -> wf2 (put2 k1 k2 v m).
Proof.
  intros A k1 k2 v m H. destruct H as [Hs Hx]. split; [apply put_sorted; exact Hs|].
  intros k x. unfold put2. rewrite find_put by exact Hs. destruct (String.eqb_spec k k1) as [->|N].
  - intros E. injection E as <-. apply put_sorted. apply sub_sorted. split; assumption.
  - apply Hx.
Qed.
Lemma find_sub_put2 : forall A k1 k2 (v : A) m a b, wf2 m ->
  find b (sub a (put2 k1 k2 v m)) = if String.eqb a k1 && String.eqb b k2 then Some v else find b (sub a m).
Proof.
  intros A k1 k2 v m a b H. assert (Hs := proj1 H). unfold put2, sub at 1. rewrite find_put by exact Hs.
  destruct (String.eqb_spec a k1) as [->|N]; cbn [andb].
  - rewrite find_put by (apply sub_sorted; exact H). reflexivity.
  - unfold sub. reflexivity.
Qed.

(* the three scopes, as total look-ups *)
Definition own_dev (g : gdata) d n := find n (sub d (g_dev g)).
Definition own_reg (g : gdata) d r n := find n (sub r (sub d (g_reg g))).
Lemma get_device_eq : forall (g : gdata) d n, get_device W g d n =
  match own_dev g d n with Some v => Some v | None => get_global W g n end.
Proof. intros. unfold get_device, own_dev, sub. destruct (find d (g_dev g)); reflexivity. Qed.
Lemma get_region_eq : forall (g : gdata) d r n, get_region W g d r n =
  match own_reg g d r n with Some v => Some v | None =>
  match own_dev g d n with Some v => Some v | None => get_global W g n end end.
Proof.
  intros. unfold get_region, own_reg. rewrite get_device_eq. unfold sub.
  destruct (find d (g_reg g)) as [m|]; cbn.
  - destruct (find r m) as [m'|]; cbn; [destruct (find n m')|]; try reflexivity; destruct (own_dev g d n); try reflexivity;
      destruct (get_global W g n); reflexivity.
  - destruct (own_dev g d n); [reflexivity|]. destruct (get_global W g n); reflexivity.
Qed.
Lemma region_shadows_eq : forall (g : gdata) d r n, region_shadows W g d r n = match own_reg g d r n with Some _ => true | None => false end.
Proof. intros. unfold region_shadows, own_reg, sub, has. destruct (find d (g_reg g)) as [m|]; cbn; [destruct (find r m)|]; reflexivity. Qed.
Lemma device_shadows_eq : forall (g : gdata) d n, device_shadows W g d n = match own_dev g d n with Some _ => true | None => false end.
Proof. intros. unfold device_shadows, own_dev, sub, has. destruct (find d (g_dev g)); reflexivity. Qed.

(* effect of the three stores on the scopes *)
Lemma own_reg_add : forall (g : gdata) (devs : devices R) d r n v d' r' n', wf g ->
  own_reg (fst (add_region W g devs d r n v)) d' r' n' =
  if String.eqb d' d && (String.eqb r' r && String.eqb n' n) then Some v else own_reg g d' r' n'.
Proof.
  intros g devs d r n v d' r' n' H. destruct (wf_reg g H) as [Hs Hx]. unfold add_region, own_reg. cbn [fst g_reg].
  unfold sub at 2. rewrite find_put by exact Hs.
  assert (Hd : wf2 (sub d (g_reg g))) by (unfold sub; destruct (find d (g_reg g)) as [x|] eqn:E; [exact (Hx _ _ E)|split; [constructor|discriminate]]).
  destruct (String.eqb_spec d' d) as [->|N]; cbn [andb].
  - rewrite find_sub_put2 by exact Hd. reflexivity.
  - reflexivity.
Qed.
Lemma own_dev_add : forall (g : gdata) (devs : devices R) d n v d' n', wf g ->
  own_dev (fst (add_device W g devs d n v)) d' n' = if String.eqb d' d && String.eqb n' n then Some v else own_dev g d' n'.
Proof. intros g devs d n v d' n' H. unfold add_device, own_dev. cbn [fst g_dev]. apply find_sub_put2. exact (wf_dev g H). Qed.
Lemma global_add : forall (g : gdata) (devs : devices R) n v n', wf g ->
  get_global W (fst (add_global W g devs n v)) n' = if String.eqb n' n then Some v else get_global W g n'.
Proof. intros g devs n v n' H. unfold add_global, get_global. cbn [fst g_global]. apply find_put. exact (wf_global g H). Qed.

Lemma add_region_wf : forall (g : gdata) (devs : devices R) d r n v, wf g -> wf (fst (add_region W g devs d r n v)).
Proof.
  intros g devs d r n v H. destruct (wf_reg g H) as [Hs Hx]. constructor; [exact (wf_global g H)|exact (wf_dev g H)|]. cbn. split; [apply put_sorted; exact Hs|].
  intros k x. rewrite find_put by exact Hs. destruct (String.eqb_spec k d) as [->|N]; [|apply Hx].
  intros E. injection E as <-. apply put2_wf. unfold sub. destruct (find d (g_reg g)) as [y|] eqn:F; [exact (Hx _ _ F)|split; [constructor|discriminate]].
Qed.
Lemma add_device_wf : forall (g : gdata) (devs : devices R) d n v, wf g -> wf (fst (add_device W g devs d n v)).
Proof. intros g devs d n v H. constructor; cbn; [exact (wf_global g H)|apply put2_wf; exact (wf_dev g H)|exact (wf_reg g H)]. Qed.
Lemma add_global_wf : forall (g : gdata) (devs : devices R) n v, wf g -> wf (fst (add_global W g devs n v)).
Proof. intros g devs n v H. constructor; cbn; [apply put_sorted; exact (wf_global g H)|exact (wf_dev g H)|exact (wf_reg g H)]. Qed.
Lemma delete_wf : forall (g : gdata) (devs : devices R) d, wf g -> wf (fst (delete_device W g devs d)).
Proof.
  intros g devs d H. destruct (wf_reg g H) as [Hs Hx]. destruct (wf_dev g H) as [Ds Dx]. constructor; cbn.
  - exact (wf_global g H).
  - split; [apply erase_sorted; exact Ds|]. intros k x. rewrite find_erase by exact Ds. destruct (String.eqb k d); [discriminate|apply Dx].
  - split; [apply erase_sorted; exact Hs|]. intros k x. rewrite find_erase by exact Hs. destruct (String.eqb k d); [discriminate|apply Hx].
Qed.
Lemma own_dev_delete : forall (g : gdata) (devs : devices R) d d' n, wf g ->
  own_dev (fst (delete_device W g devs d)) d' n = if String.eqb d' d then None else own_dev g d' n.
Proof.
  intros g devs d d' n H. unfold own_dev, sub. cbn. rewrite find_erase by exact (proj1 (wf_dev g H)). destruct (String.eqb d' d); reflexivity.
Qed.
Lemma own_reg_delete : forall (g : gdata) (devs : devices R) d d' r n, wf g ->
  own_reg (fst (delete_device W g devs d)) d' r n = if String.eqb d' d then None else own_reg g d' r n.
Proof.
  intros g devs d d' r n H. unfold own_reg, sub at 2. cbn. rewrite find_erase by exact (proj1 (wf_reg g H)). destruct (String.eqb d' d); reflexivity.
Qed.

(* which regions are signalled *)
Lemma signal_device_In : forall (g : gdata) (devs : devices R) d n d' r', In (d', r') (signal_device W g devs d n) <->
  d' = d /\ (exists rs, find d devs = Some rs /\ In r' (keys rs)) /\ own_reg g d r' n = None.
Proof.
  intros g devs d n d' r'. unfold signal_device. destruct (find d devs) as [rs|].
  - rewrite in_map_iff. split.
    + intros (x & E & Hx). injection E as <- <-. apply filter_In in Hx. destruct Hx as [Hx Hs]. rewrite region_shadows_eq in Hs.
      destruct (own_reg g d x n); [discriminate|]. repeat split; eauto.
    + intros (-> & (rs' & E & Hr) & Hn). injection E as <-. exists r'. split; [reflexivity|]. apply filter_In. split; [exact Hr|].
      rewrite region_shadows_eq, Hn. reflexivity.
  - split; [intros []|]. intros (_ & (rs & E & _) & _). discriminate.
Qed.
Lemma signal_global_In : forall (g : gdata) (devs : devices R) n d' r', In (d', r') (signal_global W g devs n) <->
  (exists rs, find d' devs = Some rs /\ In r' (keys rs)) /\ own_dev g d' n = None /\ own_reg g d' r' n = None.
Proof.
  intros g devs n d' r'. unfold signal_global. rewrite in_flat_map. split.
  - intros (d & Hd & Hi). rewrite device_shadows_eq in Hi. destruct (own_dev g d n) eqn:E; [destruct Hi|].
    apply signal_device_In in Hi. destruct Hi as (-> & He & Hr). auto.
  - intros ((rs & E & Hr) & Hd & Hn). exists d'. split; [apply find_keys; congruence|]. rewrite device_shadows_eq, Hd.
    apply signal_device_In. split; [reflexivity|]. split; [eauto|exact Hn].
Qed.
Lemma signal_region_In : forall (devs : devices R) d r d' r', In (d', r') (signal_region devs d r) <->
  d' = d /\ r' = r /\ (exists rs, find d devs = Some rs /\ In r (keys rs)).
Proof.
  intros devs d r d' r'. unfold signal_region. destruct (find d devs) as [rs|].
  - destruct (has r rs) eqn:E; cbn.
    + apply has_keys in E. split; [|intros (-> & -> & _); auto]. intros [X|[]]. injection X as <- <-. repeat split; eauto.
    + split; [intros []|]. intros (-> & -> & (x & F & Hk)). injection F as <-. apply has_keys in Hk. congruence.
  - split; [intros []|]. intros (_ & _ & (x & F & _)). discriminate.
Qed.
End P.
