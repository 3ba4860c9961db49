From Coq Require Import String List Bool Arith Lia.
From Verif Require Import StrMap EqTable.
Import ListNotations.

(* ---- specification: by the log of accepted commands ------------------------ *)
Section Spec.
Context {B : Type}.
(* names in the order in which they were introduced, after deletions *)
Definition order_step (o : list string) (c : cmd B) : list string :=
  match c with
  | Equation nm _ _ => if in_dec string_dec nm o then o else o ++ [nm]
  | DeleteEquation nm => remove string_dec nm o
  end.
Definition order (log : list (cmd B)) : list string := fold_left order_step log [].
(* variable and body last given for an equation *)
Definition given_step (g : string -> option (string * B)) (c : cmd B) : string -> option (string * B) :=
  match c with
  | Equation nm v b => fun x => if String.eqb x nm then Some (v, b) else g x
  | DeleteEquation nm => fun x => if String.eqb x nm then None else g x
  end.
Definition given (log : list (cmd B)) : string -> option (string * B) := fold_left given_step log (fun _ => None).
(* no accepted command gives an existing equation another variable *)
Fixpoint stable_from (g : string -> option (string * B)) (log : list (cmd B)) : Prop :=
  match log with
  | nil => True
  | c :: r => (match c with
               | Equation nm v _ => match g nm with Some (v', _) => v' = v | None => True end
               | DeleteEquation _ => True
               end) /\ stable_from (given_step g c) r
  end.
Definition stable (log : list (cmd B)) : Prop := stable_from (fun _ => None) log.
End Spec.

(* index of a name in a list *)
Fixpoint position (x : string) (l : list string) : option nat :=
  match l with
  | nil => None
  | y :: t => if String.eqb x y then Some 0 else option_map S (position x t)
  end.

Lemma position_None : forall x l, position x l = None <-> ~ In x l.
Proof.
  intros x. induction l as [|y t IH]; cbn; [tauto|].
  destruct (String.eqb_spec x y) as [->|N]; [split; [discriminate|tauto]|].
  destruct (position x t) eqn:E; cbn.
  - split; [discriminate|]. intros H. exfalso. apply H. right. destruct (in_dec string_dec x t); [assumption|]. apply IH in n0. discriminate.
  - split; [|reflexivity]. intros _ [H|H]; [congruence|]. apply IH; auto.
Qed.
Lemma position_app : forall x l y, position x (l ++ [y]) =
  match position x l with Some i => Some i | None => if String.eqb x y then Some (length l) else None end.
Proof.
  intros x. induction l as [|z t IH]; intros y; cbn.
  - destruct (String.eqb x y); reflexivity.
  - destruct (String.eqb x z); [reflexivity|]. rewrite IH. destruct (position x t); cbn; [reflexivity|].
    destruct (String.eqb x y); reflexivity.
Qed.
Lemma remove_notin : forall x l, ~ In x l -> remove string_dec x l = l.
Proof.
  intros x. induction l as [|y t IH]; cbn; intros H; [reflexivity|].
  destruct (string_dec x y); [exfalso; apply H; auto|]. f_equal. apply IH. auto.
Qed.
Lemma position_remove : forall l nm a x, NoDup l -> position nm l = Some a ->
  position x (remove string_dec nm l) =
   if String.eqb x nm then None else option_map (fun i => if a <? i then i - 1 else i) (position x l).
Proof.
  induction l as [|y t IH]; intros nm a x ND H; cbn in H; [discriminate|].
  inversion ND as [|p q Hy Ht]; subst. cbn [remove].
  destruct (String.eqb_spec nm y) as [->|N].
  - injection H as <-. destruct (string_dec y y); [|contradiction]. rewrite remove_notin by assumption.
    cbn [position]. destruct (String.eqb_spec x y) as [->|Nx]; [apply position_None; assumption|].
    destruct (position x t) as [i|]; cbn [option_map]; [|reflexivity].
    f_equal. destruct (Nat.ltb_spec 0 (S i)); lia.
  - destruct (position nm t) as [a'|] eqn:Ea; [|discriminate]. cbn in H. injection H as <-.
    destruct (string_dec nm y); [contradiction|]. cbn [position]. specialize (IH nm a' x Ht Ea).
    destruct (String.eqb_spec x y) as [->|Nx].
    + destruct (String.eqb_spec y nm); [congruence|]. cbn. reflexivity.
    + rewrite IH. destruct (String.eqb x nm); [reflexivity|].
      destruct (position x t) as [i|]; cbn [option_map]; [|reflexivity]. f_equal.
      destruct (Nat.ltb_spec a' i), (Nat.ltb_spec (S a') (S i)); lia.
Qed.
Lemma position_bound : forall x l i, position x l = Some i -> nth_error l i = Some x.
Proof.
  intros x. induction l as [|y t IH]; cbn; intros i H; [discriminate|].
  destruct (String.eqb_spec x y) as [->|]; [injection H as <-; reflexivity|].
  destruct (position x t) as [j|] eqn:E; [|discriminate]. injection H as <-. cbn. auto.
Qed.
Lemma nth_position : forall l i x, NoDup l -> nth_error l i = Some x -> position x l = Some i.
Proof.
  induction l as [|y t IH]; intros i x ND H; [destruct i; discriminate|].
  inversion ND as [|p q Hy Ht]; subst. cbn. destruct i as [|i]; cbn in H.
  - injection H as ->. rewrite String.eqb_refl. reflexivity.
  - destruct (String.eqb_spec x y) as [->|]; [exfalso; apply Hy; eapply nth_error_In; exact H|].
    rewrite (IH i x Ht H). reflexivity.
Qed.

(* ---- invariant ------------------------------------------------------------- *)
Section Inv.
Context {B : Type}.
Definition gv (q : eqn B) : string * B := (q_var q, q_body q).

Record inv (t : table B) (o : list string) (g : string -> option (string * B)) (id : nat) : Prop := {
  i_se : sorted (t_eqs t); i_si : sorted (t_idx t); i_sv : sorted (t_var t);
  i_nd : NoDup o;
  i_names : forall n, In n o <-> find n (t_eqs t) <> None;
  i_len : length o = length (t_eqs t);
  i_num : t_num t = length o;
  i_idx : forall n, find n (t_idx t) = position n o;
  i_giv : forall n, option_map gv (find n (t_eqs t)) = g n;
  i_nm : forall n q, find n (t_eqs t) = Some q -> q_name q = n /\ q_id q < id }.

Lemma inv_empty : inv empty [] (fun _ => None) 0.
Proof.
  constructor; cbn; try (constructor); try reflexivity; try discriminate; auto.
Qed.

Lemma find_map_snd : forall (f : nat -> nat) (m : smap nat) x, find x (map (fun p => (fst p, f (snd p))) m) = option_map f (find x m).
Proof.
  intros f. induction m as [|[k v] t IH]; intros x; cbn; [reflexivity|]. destruct (String.eqb x k); [reflexivity|apply IH].
Qed.
Lemma sorted_map_snd : forall (f : nat -> nat) (m : smap nat), sorted m -> sorted (map (fun p => (fst p, f (snd p))) m).
Proof. intros f m H. unfold sorted, keys in *. rewrite map_map. exact H. Qed.

Lemma NoDup_app_single : forall (l : list string) x, NoDup l -> ~ In x l -> NoDup (l ++ [x]).
Proof.
  induction l as [|y t IH]; cbn; intros x H Hx; [constructor; [intros []|constructor]|].
  inversion H as [|p q Hy Ht]; subst. constructor; [|apply IH; auto].
  intros Hi. apply in_app_or in Hi. destruct Hi as [Hi|[<-|[]]]; auto.
Qed.
Lemma remove_length_in : forall x (l : list string), NoDup l -> In x l -> S (length (remove string_dec x l)) = length l.
Proof.
  intros x. induction l as [|y t IH]; cbn; intros H Hi; [destruct Hi|].
  inversion H as [|p q Hy Ht]; subst. destruct (string_dec x y) as [->|N].
  - rewrite remove_notin by assumption. reflexivity.
  - destruct Hi as [E|Hi]; [congruence|]. cbn. f_equal. auto.
Qed.
Lemma NoDup_remove_str : forall x (l : list string), NoDup l -> NoDup (remove string_dec x l).
Proof.
  intros x. induction l as [|y t IH]; cbn; intros H; [constructor|].
  inversion H as [|p q Hy Ht]; subst. destruct (string_dec x y); [auto|]. constructor; [|auto].
  intros Hi. apply in_remove in Hi. tauto.
Qed.

Lemma exec_inv : forall t o g id c t' ok, inv t o g id -> exec id t c = (t', ok) ->
  if ok then inv t' (order_step o c) (given_step g c) (S id) else t' = t.
Proof.
  intros t o g id c t' ok I E. destruct c as [nm var b|nm]; cbn in E.
  - unfold add_equation in E. cbn [q_name q_var q_id] in E.
    destruct (find nm (t_eqs t)) as [oq|] eqn:Ef.
    + assert (Hin : In nm o) by (apply (i_names t o g id I); congruence).
      assert (Hid : q_id oq <> id) by (pose proof (i_nm t o g id I nm oq Ef); lia).
      destruct (Nat.eqb_spec (q_id oq) id) as [?|_]; [contradiction|].
      assert (G : forall v1, sorted v1 -> t_num t = t_num t -> 
         inv (mkT (put nm (mkQ nm var b id) (t_eqs t)) (t_idx t) v1 (t_num t)) (order_step o (Equation nm var b)) (given_step g (Equation nm var b)) (S id)).
      { intros v1 Hv _. cbn [order_step given_step]. destruct (in_dec string_dec nm o); [|contradiction].
        constructor; cbn [t_eqs t_idx t_var t_num].
        - apply put_sorted, I.
        - apply I.
        - exact Hv.
        - apply I.
        - intros n. rewrite (i_names _ _ _ _ I), find_put by apply I. destruct (String.eqb_spec n nm) as [->|]; [split; congruence|tauto].
        - rewrite length_put_old; [apply I|congruence|apply I].
        - apply I.
        - apply I.
        - intros n. rewrite find_put by apply I. destruct (String.eqb n nm); [reflexivity|apply I].
        - intros n q. rewrite find_put by apply I. destruct (String.eqb_spec n nm) as [->|].
          + intros H. injection H as <-. cbn. auto.
          + intros H. destruct (i_nm _ _ _ _ I n q H). split; [assumption|lia]. }
      destruct (String.eqb_spec (q_var oq) var) as [Ev|Ev]; cbn [negb] in E; injection E as <- <-.
      * apply G; [apply I|reflexivity].
      * apply G; [|reflexivity]. apply put_sorted, erase_sorted, I.
    + assert (Hin : ~ In nm o) by (intros H; apply (i_names t o g id I) in H; congruence).
      destruct (has var (t_var t)); injection E as <- <-; [reflexivity|].
      cbn [order_step given_step]. destruct (in_dec string_dec nm o) as [?|_]; [contradiction|].
      constructor; cbn [t_eqs t_idx t_var t_num].
      * apply put_sorted, I.
      * apply put_sorted, I.
      * apply put_sorted, I.
      * apply NoDup_app_single; [apply I|assumption].
      * intros n0. rewrite find_put by apply I. rewrite in_app_iff, (i_names _ _ _ _ I). cbn.
        destruct (String.eqb_spec n0 nm) as [->|N]; [split; [congruence|auto]|].
        split; [intros [H|[H|[]]]; congruence|auto].
      * rewrite app_length, length_put_new by assumption. cbn. rewrite (i_len _ _ _ _ I). lia.
      * rewrite app_length, length_put_new by assumption. cbn. rewrite (i_len _ _ _ _ I). lia.
      * intros n0. rewrite find_put by apply I. rewrite position_app, (i_idx _ _ _ _ I), (i_len _ _ _ _ I).
        destruct (String.eqb_spec n0 nm) as [->|N]; [|destruct (position n0 o); reflexivity].
        destruct (position nm o) eqn:Ep; [|reflexivity]. exfalso. apply position_bound, nth_error_In in Ep. contradiction.
      * intros n0. rewrite find_put by apply I. destruct (String.eqb n0 nm); [reflexivity|apply I].
      * intros n0 q. rewrite find_put by apply I. destruct (String.eqb_spec n0 nm) as [->|].
        -- intros H. injection H as <-. cbn. auto.
        -- intros H. destruct (i_nm _ _ _ _ I n0 q H). split; [assumption|lia].
  - destruct (find nm (t_eqs t)) as [q|] eqn:Ef; [|injection E as <- <-; reflexivity].
    destruct (i_nm _ _ _ _ I nm q Ef) as (En & _). unfold delete_equation in E. rewrite En, Ef in E.
    assert (Hin : In nm o) by (apply (i_names t o g id I); congruence).
    destruct (find nm (t_idx t)) as [a|] eqn:Ea.
    2: { injection E as <- <-. reflexivity. }
    destruct (find (q_var q) (t_var t)); injection E as <- <-; [|reflexivity].
    pose proof Ea as Ep. rewrite (i_idx _ _ _ _ I) in Ep. cbn [order_step given_step].
    constructor; cbn [t_eqs t_idx t_var t_num].
    * apply erase_sorted, I.
    * apply (sorted_map_snd (fun i => if a <? i then i - 1 else i)), erase_sorted, I.
    * apply erase_sorted, I.
    * apply NoDup_remove_str, I.
    * intros n0. rewrite find_erase by apply I. split.
      -- intros H. apply in_remove in H. destruct H as (H & N). destruct (String.eqb_spec n0 nm); [congruence|]. apply (i_names _ _ _ _ I). assumption.
      -- destruct (String.eqb_spec n0 nm); [congruence|]. intros H. apply in_in_remove; [assumption|]. apply (i_names _ _ _ _ I). assumption.
    * pose proof (remove_length_in nm o (i_nd _ _ _ _ I) Hin). pose proof (length_erase nm (t_eqs t) ltac:(congruence)).
      pose proof (i_len _ _ _ _ I). lia.
    * pose proof (remove_length_in nm o (i_nd _ _ _ _ I) Hin). pose proof (length_erase nm (t_eqs t) ltac:(congruence)).
      pose proof (i_len _ _ _ _ I). lia.
    * intros n0. rewrite (find_map_snd (fun i => if a <? i then i - 1 else i)), find_erase by apply I.
      rewrite (position_remove o nm a n0 (i_nd _ _ _ _ I) Ep), (i_idx _ _ _ _ I). destruct (String.eqb n0 nm); reflexivity.
    * intros n0. rewrite find_erase by apply I. destruct (String.eqb n0 nm); [reflexivity|apply I].
    * intros n0 q0. rewrite find_erase by apply I. destruct (String.eqb_spec n0 nm); [discriminate|].
      intros H. destruct (i_nm _ _ _ _ I n0 q0 H). split; [assumption|lia].
Qed.

Lemma run_inv : forall cs t o g id, inv t o g id ->
  let (t', l) := run id t cs in
  exists id', inv t' (fold_left order_step l o) (fold_left given_step l g) id'.
Proof.
  induction cs as [|c r IH]; intros t o g id I; cbn [run]; [exists id; exact I|].
  destruct (exec id t c) as [t1 ok] eqn:E. pose proof (exec_inv _ _ _ _ _ _ _ I E) as H. destruct ok.
  - specialize (IH t1 _ _ (S id) H). destruct (run (S id) t1 r) as [t2 l]. exact IH.
  - subst t1. assert (I2 : inv t o g (S id)).
    { destruct I. constructor; auto. intros n q Hq. destruct (i_nm0 n q Hq). split; [assumption|lia]. }
    specialize (IH t o g (S id) I2). destruct (run (S id) t r) as [t2 l]. exact IH.
Qed.

(* ---- variables ------------------------------------------------------------- *)
Definition assoc (t : table B) : Prop :=
  forall v e, find v (t_var t) = Some e <-> exists q, find e (t_eqs t) = Some q /\ q_var q = v.

Lemma exec_assoc : forall t o g id c t' ok, inv t o g id -> assoc t -> exec id t c = (t', ok) ->
  (ok = true -> match c with
     | Equation nm v _ => match g nm with Some (v', _) => v' = v | None => True end
     | DeleteEquation _ => True end) ->
  assoc t'.
Proof.
  intros t o g id c t' ok I A E Hst. destruct c as [nm var b|nm]; cbn in E.
  - unfold add_equation in E. cbn [q_name q_var q_id] in E.
    destruct (find nm (t_eqs t)) as [oq|] eqn:Ef.
    + assert (Hid : q_id oq <> id) by (pose proof (i_nm t o g id I nm oq Ef); lia).
      destruct (Nat.eqb_spec (q_id oq) id) as [?|_]; [contradiction|].
      pose proof (i_giv _ _ _ _ I nm) as Hg. rewrite Ef in Hg. cbn in Hg.
      assert (Eok : ok = true) by (destruct (String.eqb (q_var oq) var); cbn [negb] in E; injection E as _ <-; reflexivity).
      specialize (Hst Eok). rewrite <- Hg in Hst. cbn in Hst.
      rewrite Hst, String.eqb_refl in E. cbn [negb] in E. injection E as <- <-.
      intros v e. cbn [t_var t_eqs]. rewrite find_put by apply I. rewrite (A v e).
      destruct (String.eqb_spec e nm) as [->|]; [|reflexivity].
      rewrite Ef. split.
      * intros (q & H & Hv). injection H as <-. eexists. split; [reflexivity|]. cbn. congruence.
      * intros (q & H & Hv). injection H as <-. cbn in Hv. exists oq. split; [reflexivity|congruence].
    + destruct (has var (t_var t)) eqn:Eh; injection E as <- <-; [exact A|].
      unfold has in Eh. destruct (find var (t_var t)) eqn:Efv; [discriminate|].
      intros v e. cbn [t_var t_eqs]. rewrite !find_put by apply I.
      destruct (String.eqb_spec v var) as [->|Nv].
      * split.
        -- intros H. injection H as <-. rewrite String.eqb_refl. eexists. split; [reflexivity|reflexivity].
        -- intros (q & H & Hq). destruct (String.eqb_spec e nm) as [->|]; [reflexivity|].
           exfalso. assert (X : find var (t_var t) = Some e) by (apply A; exists q; auto). congruence.
      * rewrite (A v e). destruct (String.eqb_spec e nm) as [->|]; [|reflexivity].
        rewrite Ef. split; intros (q & H & Hq); [discriminate|]. injection H as <-. cbn in Hq. congruence.
  - destruct (find nm (t_eqs t)) as [q|] eqn:Ef; [|injection E as <- <-; exact A].
    destruct (i_nm _ _ _ _ I nm q Ef) as (En & _). unfold delete_equation in E. rewrite En, Ef in E.
    destruct (find nm (t_idx t)) as [a|]; [|injection E as <- <-; exact A].
    destruct (find (q_var q) (t_var t)) as [w|] eqn:Ew; injection E as <- <-; [|exact A].
    intros v e. cbn [t_var t_eqs]. rewrite !find_erase by apply I.
    destruct (String.eqb_spec v (q_var q)) as [->|Nv].
    + split; [discriminate|]. intros (q' & H & Hq). destruct (String.eqb_spec e nm) as [->|Ne]; [discriminate|].
      exfalso. assert (X1 : find (q_var q) (t_var t) = Some e) by (apply A; exists q'; auto).
      assert (X2 : find (q_var q) (t_var t) = Some nm) by (apply A; exists q; auto). congruence.
    + rewrite (A v e). destruct (String.eqb_spec e nm) as [->|]; [|reflexivity].
      rewrite Ef. split; intros (q' & H & Hq); [|discriminate]. injection H as <-. congruence.
Qed.

Lemma run_assoc : forall cs t o g id, inv t o g id -> assoc t ->
  let (t', l) := run id t cs in stable_from g l -> assoc t'.
Proof.
  induction cs as [|c r IH]; intros t o g id I A; cbn [run]; [auto|].
  destruct (exec id t c) as [t1 ok] eqn:E. pose proof (exec_inv _ _ _ _ _ _ _ I E) as H. destruct ok.
  - pose proof (fun X => exec_assoc _ _ _ _ _ _ _ I A E (fun _ => X)) as HA.
    pose proof (IH t1 _ _ (S id) H) as HI. destruct (run (S id) t1 r) as [t2 l]. cbn [stable_from].
    intros (S1 & S2). apply HI; [apply HA; exact S1|exact S2].
  - subst t1. assert (I2 : inv t o g (S id)).
    { destruct I. constructor; auto. intros n q Hq. destruct (i_nm0 n q Hq). split; [assumption|lia]. }
    specialize (IH t o g (S id) I2 A). destruct (run (S id) t r) as [t2 l]. exact IH.
Qed.
Lemma assoc_empty : assoc empty.
Proof. intros v e. cbn. split; [discriminate|]. intros (q & H & _). discriminate. Qed.

(* C14 *)
Lemma c14_lemma : forall cs : list (cmd B),
  let (t, log) := run 0 empty cs in
  (forall n, option_map (fun q => (q_var q, q_body q)) (find n (t_eqs t)) = given log n) /\
  t_num t = length (order log) /\ NoDup (order log) /\
  (forall n, In n (order log) <-> given log n <> None) /\
  (forall n, equation_index t n = position n (order log)).
Proof.
  intros cs. pose proof (run_inv cs empty [] (fun _ => None) 0 inv_empty) as H.
  destruct (run 0 empty cs) as [t log]. destruct H as (id' & I).
  split; [exact (i_giv _ _ _ _ I)|]. split; [exact (i_num _ _ _ _ I)|]. split; [exact (i_nd _ _ _ _ I)|].
  split; [|exact (i_idx _ _ _ _ I)].
  intros n. rewrite (i_names _ _ _ _ I n). unfold given. rewrite <- (i_giv _ _ _ _ I n).
  destruct (find n (t_eqs t)); cbn; split; congruence.
Qed.
(* C15 *)
Lemma c15_lemma : forall cs : list (cmd B),
  let (t, log) := run 0 empty cs in stable log ->
  forall v e, equation_of_variable t v = Some e <-> exists b, given log e = Some (v, b).
Proof.
  intros cs. pose proof (run_inv cs empty [] (fun _ => None) 0 inv_empty) as H.
  pose proof (run_assoc cs empty [] (fun _ => None) 0 inv_empty assoc_empty) as HA.
  destruct (run 0 empty cs) as [t log]. destruct H as (id' & I). intros Hs v e.
  unfold equation_of_variable. rewrite (HA Hs v e). unfold given. rewrite <- (i_giv _ _ _ _ I e). split.
  - intros (q & -> & <-). exists (q_body q). reflexivity.
  - intros (b & H). destruct (find e (t_eqs t)) as [q|]; [|discriminate]. exists q. split; [reflexivity|]. injection H as <- _. reflexivity.
Qed.
End Inv.
