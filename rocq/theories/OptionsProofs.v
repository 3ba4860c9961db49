(* Proofs for Options.v: what processing the options of a command does. *)
From Coq Require Import String List Bool ZArith Lia.
From Verif Require Import StrMap Options OptionsSpec.
Import ListNotations.
Open Scope string_scope.
Open Scope list_scope.

Lemma eqbF : forall a b : string, a <> b -> String.eqb a b = false.
Proof. intros a b H. apply String.eqb_neq. exact H. Qed.

Section P.
Variable F : Type.
Variables (f0 fmax fmin : F) (fz : Z -> option F) (is0 nonpos : F -> bool).
Variable repr : obj F -> string.
Variable float_text : string -> option F.
Variable int_text : string -> option Z.
Notation obj := (obj F).
Notation get_string := (get_string F repr).
Notation get_double := (get_double F fz float_text).
Notation text := (text F repr).
Notation number := (number F fz float_text).
Notation integer := (integer F repr int_text).
Notation fits := (fits F fz is0 repr float_text int_text).
Notation select := (select F fz is0 repr float_text int_text).

Lemma text_get : forall o, text o (get_string o).
Proof.
  intros o. destruct o; cbn; try (apply text_other; intros; discriminate); [constructor|].
  destruct (String.eqb_spec s ""); [subst; constructor|constructor; assumption].
Qed.
Lemma text_fun : forall o s, text o s -> s = get_string o.
Proof.
  intros o s H. destruct H as [s|s E| |o A B]; cbn; try reflexivity.
  - rewrite (eqbF _ _ E). reflexivity.
  - destruct o; try reflexivity; [destruct (A s); reflexivity|destruct (B s); reflexivity].
Qed.
Lemma number_get : forall o f, number o f <-> get_double o = Some f.
Proof.
  intros o f. split.
  - intros H. destruct H; cbn; auto.
  - destruct o as [|[]| | | | |]; cbn; intros H; try discriminate; try (constructor; assumption). injection H as ->. constructor.
Qed.
Lemma number_none : forall o, (forall f, ~ number o f) <-> get_double o = None.
Proof.
  intros o. split.
  - intros H. destruct (get_double o) eqn:E; [|reflexivity]. destruct (H f). apply number_get. exact E.
  - intros H f N. apply number_get in N. rewrite H in N. discriminate.
Qed.
Lemma integer_get : forall o z, integer o z -> get_long F repr int_text o = Some (as_long z).
Proof.
  intros o z H. destruct H as [z|s z E|s t z T E]; cbn; [reflexivity|rewrite E; reflexivity|].
  apply text_fun in T. cbn in T. rewrite <- T, E. reflexivity.
Qed.
Lemma get_integer_ : forall o r, get_long F repr int_text o = Some r -> exists z, integer o z /\ r = as_long z.
Proof.
  intros o r H. destruct o; cbn in H; try discriminate.
  - injection H as <-. eexists; split; [constructor|reflexivity].
  - destruct (int_text s) eqn:E; [|discriminate]. injection H as <-. eexists; split; [apply int_str; exact E|reflexivity].
  - destruct (int_text _) eqn:E in H; [|discriminate]. injection H as <-. eexists; split; [eapply int_bytes; [apply (text_get (PBytes s))|exact E]|reflexivity].
Qed.
Lemma integer_fun : forall o a b, integer o a -> integer o b -> a = b.
Proof.
  intros o a b H K. destruct H as [z|s z E|s t z T E]; inversion K as [z'|s' z' E'|s' t' z' T' E']; subst; try congruence.
  apply text_fun in T, T'. subst. congruence.
Qed.

Variable w : world.
Variable opts : list option_.
Hypothesis Ht : good_table opts.
Notation om := (option_map_ opts).

Lemma om_sorted : forall l m, sorted m -> sorted (fold_left (fun m o => put (o_name o) o m) l m).
Proof. induction l as [|o t IH]; intros m S; cbn; [exact S|]. apply IH. apply put_sorted. exact S. Qed.
Lemma om_find' : forall l m, sorted m -> NoDup (map o_name l) -> forall n,
  find n (fold_left (fun m o => put (o_name o) o m) l m)
  = match List.find (fun o => String.eqb (o_name o) n) l with Some o => Some o | None => find n m end.
Proof.
  induction l as [|o t IH]; intros m S N n; cbn; [reflexivity|].
  inversion N as [|x y Hx N']; subst.
  rewrite IH; [|apply put_sorted; exact S|exact N'].
  destruct (String.eqb_spec (o_name o) n) as [E|E].
  - destruct (List.find _ t) eqn:E1.
    + apply find_some in E1. destruct E1 as [I E2]. apply String.eqb_eq in E2. destruct Hx. rewrite E, <- E2. apply in_map. exact I.
    + rewrite find_put by exact S. rewrite <- E, String.eqb_refl. reflexivity.
  - destruct (List.find _ t); [reflexivity|]. rewrite find_put by exact S. rewrite eqbF by congruence. reflexivity.
Qed.
Lemma om_find : forall n o, find n om = Some o <-> In o opts /\ o_name o = n.
Proof.
  intros n o. unfold option_map_. destruct Ht as [N _]. rewrite om_find' by (try constructor; exact N). cbn.
  split.
  - destruct (List.find _ opts) eqn:E; [|discriminate]. intros H. injection H as <-. apply find_some in E. destruct E as [I E].
    split; [exact I|apply String.eqb_eq; exact E].
  - intros [I E]. clear Ht. revert N I. induction opts as [|a t IH]; intros N I; [destruct I|]. cbn in *. inversion N as [|x y Hx N']; subst.
    destruct I as [->|I]; [rewrite String.eqb_refl; reflexivity|].
    destruct (String.eqb_spec (o_name a) (o_name o)) as [E|E]; [|apply IH; assumption].
    destruct Hx. rewrite E. apply in_map. exact I.
Qed.

Lemma select_spec : forall kw sel, sorted kw -> sorted sel -> (forall n, In n (keys kw) -> find n sel = None) ->
  match select om kw sel with
  | Some sel' => sorted sel' /\ (forall n v, In (n, v) kw -> n <> "" -> exists o, In o opts /\ o_name o = n /\ fits (o_type o) v = true) /\
                 forall n, find n sel' = match find n kw with Some v => if String.eqb n "" then find n sel else Some v | None => find n sel end
  | None => exists n v, In (n, v) kw /\ n <> "" /\ forall o, In o opts -> o_name o = n -> fits (o_type o) v = false
  end.
Proof.
  induction kw as [|[k v] t IH]; intros sel Sk Ss D; cbn [Options.select].
  - split; [exact Ss|]. split; [intros n v []|reflexivity].
  - assert (St : sorted t) by (inversion Sk; subst; assumption).
    assert (Kt : ~ In k (keys t)) by (apply sorted_NoDup in Sk; cbn in Sk; inversion Sk; assumption).
    destruct (String.eqb_spec k "") as [E|E].
    + specialize (IH sel St Ss (fun n I => D n (or_intror I))).
      destruct (select om t sel) as [sel'|].
      * destruct IH as [A [B C]]. split; [exact A|]. split.
        -- intros n v' [I|I] Hn; [injection I as -> ->; destruct (Hn E)|apply (B n v' I Hn)].
        -- intros n. rewrite C. cbn. destruct (String.eqb_spec n k) as [->|N]; [|reflexivity].
           destruct (find k t) eqn:Ef; [destruct Kt; apply find_keys; congruence|]. rewrite E. reflexivity.
      * destruct IH as [n [v' [I [Hn H]]]]. exists n, v'. split; [right; exact I|]. split; assumption.
    + destruct (find k om) as [o|] eqn:Eo.
      * assert (H0 : find k sel = None) by (apply D; left; reflexivity). unfold has. rewrite H0.
        destruct (fits (o_type o) v) eqn:Ef.
        -- assert (D' : forall n, In n (keys t) -> find n (put k v sel) = None).
           { intros n I. rewrite find_put by exact Ss. destruct (String.eqb_spec n k) as [->|N]; [destruct (Kt I)|]. apply D. right. exact I. }
           specialize (IH (put k v sel) St (put_sorted _ _ _ Ss) D').
           destruct (select om t (put k v sel)) as [sel'|].
           ++ destruct IH as [A [B C]]. split; [exact A|]. split.
              ** intros n v' [I|I] Hn; [|apply (B n v' I Hn)]. injection I as <- <-. exists o. apply om_find in Eo. destruct Eo. auto.
              ** intros n. rewrite C, find_put by exact Ss. cbn. destruct (String.eqb_spec n k) as [->|N].
                 --- destruct (find k t) eqn:Et; [destruct Kt; apply find_keys; congruence|]. rewrite (eqbF _ _ E). reflexivity.
                 --- destruct (find n t); reflexivity.
           ++ destruct IH as [n [v' [I [Hn H]]]]. exists n, v'. split; [right; exact I|]. split; assumption.
        -- exists k, v. split; [left; reflexivity|]. split; [exact E|]. intros o' I En. 
           assert (o' = o) by (assert (X : find k om = Some o') by (apply om_find; auto); congruence). subst. exact Ef.
      * exists k, v. split; [left; reflexivity|]. split; [exact E|]. intros o' I En.
        assert (X : find k om = Some o') by (apply om_find; auto). congruence.
Qed.

Variable kw : smap obj.
Hypothesis Hk : sorted kw.
Notation has_value := (has_value F opts kw).
Notation given := (given F kw).
Notation holds := (holds F f0 fmax fmin fz (fun f => nonpos f = true) repr float_text w opts kw).

Variable sel : smap obj.
Hypothesis Hs : forall n, find n sel = match find n kw with Some v => if String.eqb n "" then None else Some v | None => None end.
Notation get_object := (get_object F om sel).

Lemma sel_given : forall n v, find n sel = Some v <-> In (n, v) kw /\ n <> "".
Proof.
  intros n v. rewrite Hs. split.
  - destruct (find n kw) eqn:E; [|discriminate]. destruct (String.eqb_spec n "") as [Z|Z]; [discriminate|]. intros H. injection H as ->. split; [apply find_In; exact E|exact Z].
  - intros [I Z]. rewrite (In_find _ _ _ Hk I), (eqbF _ _ Z). reflexivity.
Qed.
Lemma sel_not_given : forall n, find n sel = None <-> ~ given n.
Proof.
  intros n. split.
  - intros H [v [I Z]]. assert (X : find n sel = Some v) by (apply sel_given; auto). congruence.
  - intros H. destruct (find n sel) eqn:E; [|reflexivity]. apply sel_given in E. destruct H. exists o. exact E.
Qed.
Lemma object_value : forall n v, get_object n = Some v <-> has_value n v.
Proof.
  intros n v. unfold Options.get_object. split.
  - destruct (find n sel) eqn:E.
    + intros H. injection H as ->. apply sel_given in E. destruct E. apply hv_given; assumption.
    + destruct (find n om) eqn:Eo; [|discriminate]. intros H. injection H as <-. apply om_find in Eo. destruct Eo. apply sel_not_given in E.
      apply hv_default; assumption.
  - intros H. destruct H as [v I Z|o I E G].
    + assert (X : find n sel = Some v) by (apply sel_given; auto). rewrite X. reflexivity.
    + apply sel_not_given in G. rewrite G. assert (X : find n om = Some o) by (apply om_find; auto). rewrite X. reflexivity.
Qed.
Lemma object_some : forall n, In n (map o_name opts) -> exists v, get_object n = Some v.
Proof.
  intros n H. apply in_map_iff in H. destruct H as [o [E I]]. unfold Options.get_object. destruct (find n sel) as [v|]; [exists v; reflexivity|].
  assert (X : find n om = Some o) by (apply om_find; auto). rewrite X. eexists; reflexivity.
Qed.
Lemma string_text : forall n s, string_option F repr om sel n = Some s <-> text_of F repr opts kw n s.
Proof.
  intros n s. unfold string_option, text_of. split.
  - destruct (get_object n) as [v|] eqn:E; [|discriminate]. intros H. injection H as <-. exists v. split; [apply object_value; exact E|apply text_get].
  - intros [v [H T]]. apply object_value in H. rewrite H. cbn. rewrite (text_fun _ _ T). reflexivity.
Qed.
Lemma double_number : forall n f, double_option F f0 fmax fmin fz repr float_text om sel n = Some f <-> number_of F f0 fmax fmin fz repr float_text opts kw n f.
Proof.
  intros n f. unfold double_option. split.
  - destruct (get_object n) as [v|] eqn:E; [|discriminate]. apply object_value in E. cbn. intros H. injection H as <-.
    destruct (get_double v) eqn:Ed; [eapply no_number; [exact E|apply number_get; exact Ed]|].
    pose proof (proj2 (number_none v) Ed) as Z.
    destruct (String.eqb_spec (get_string v) "MAXDOUBLE") as [A|A]; [eapply no_max; [exact E|exact Z|rewrite <- A; apply text_get]|].
    destruct (String.eqb_spec (get_string v) "-MAXDOUBLE") as [B|B]; [eapply no_min; [exact E|exact Z|rewrite <- B; apply text_get]|].
    eapply no_zero; [exact E|exact Z|apply text_get|exact A|exact B].
  - intros H. destruct H as [v f H N|v H Z T|v H Z T|v s H Z T A B]; apply object_value in H; rewrite H; cbn.
    + apply number_get in N. rewrite N. reflexivity.
    + apply number_none in Z. rewrite Z. rewrite <- (text_fun _ _ T). reflexivity.
    + apply number_none in Z. rewrite Z. rewrite <- (text_fun _ _ T). reflexivity.
    + apply number_none in Z. rewrite Z. rewrite <- (text_fun _ _ T), (eqbF _ _ A), (eqbF _ _ B). reflexivity.
Qed.

Notation run_check := (run_check F f0 fmax fmin fz nonpos repr float_text w om sel).
Lemma string_some : forall n, In n (map o_name opts) -> exists s, string_option F repr om sel n = Some s.
Proof. intros n H. destruct (object_some n H) as [v E]. unfold string_option. rewrite E. eexists; reflexivity. Qed.
Lemma text_unique : forall n s t, text_of F repr opts kw n s -> text_of F repr opts kw n t -> s = t.
Proof. intros n s t A B. apply string_text in A, B. congruence. Qed.

Lemma mem_In : forall s l, mem s l = true <-> In s l.
Proof.
  intros s l. unfold mem. rewrite existsb_exists. split.
  - intros [x [I E]]. apply String.eqb_eq in E. subst. exact I.
  - intros I. exists s. split; [exact I|apply String.eqb_refl].
Qed.

Lemma part_check : forall n part, In n (map o_name opts) -> In "device" (map o_name opts) ->
  exists b, of_device F repr om sel w n part = Some b /\ (b = true <-> a_part F repr w opts kw part n).
Proof.
  intros n part Hn Hd. unfold of_device, not_empty.
  destruct (string_some _ Hd) as [d Ed]. destruct (string_some _ Hn) as [r Er]. rewrite Ed, Er. cbn [option_map obind].
  pose proof (proj1 (string_text _ _) Ed) as Td. pose proof (proj1 (string_text _ _) Er) as Tr.
  destruct (String.eqb_spec d "") as [Zd|Zd]; cbn [negb].
  { exists false. split; [reflexivity|]. split; [discriminate|]. intros [d' [r' [v [A [B [C _]]]]]]. rewrite (text_unique _ _ _ A Td) in C. congruence. }
  destruct (String.eqb_spec r "") as [Zr|Zr]; cbn [negb].
  { exists false. split; [reflexivity|]. split; [discriminate|]. intros [d' [r' [v [A [B [_ [C _]]]]]]]. rewrite (text_unique _ _ _ B Tr) in C. congruence. }
  eexists. split; [reflexivity|]. split.
  - destruct (find d (w_devices w)) as [v|] eqn:E; [|discriminate]. intros H. apply mem_In in H. exists d, r, v. auto 10.
  - intros [d' [r' [v [A [B [_ [_ [C D]]]]]]]]. rewrite (text_unique _ _ _ A Td) in C. rewrite (text_unique _ _ _ B Tr) in D. rewrite C. apply mem_In. exact D.
Qed.
Lemma mesh_check : forall n (f : string -> bool) (P : string -> Prop), In n (map o_name opts) -> (forall s, f s = true <-> P s) ->
  exists b, of_mesh F repr om sel n f = Some b /\ (b = true <-> exists s, text_of F repr opts kw n s /\ s <> "" /\ P s).
Proof.
  intros n f P Hn HP. unfold of_mesh. destruct (string_some _ Hn) as [s E]. rewrite E. cbn. eexists. split; [reflexivity|].
  pose proof (proj1 (string_text _ _) E) as T. rewrite andb_true_iff, negb_true_iff, String.eqb_neq, HP. split.
  - intros [A B]. exists s. auto.
  - intros [t [A B]]. rewrite (text_unique _ _ _ A T) in B. exact B.
Qed.

Lemma has_None : forall (A : Type) s (m : smap A), negb (has s m) = true <-> find s m = None.
Proof. intros A s m. unfold has. destruct (find s m); cbn; split; intros H; congruence. Qed.
Lemma has_Some : forall (A : Type) s (m : smap A), has s m = true <-> exists b, find s m = Some b.
Proof. intros A s m. unfold has. destruct (find s m) eqn:E; split; intros H; try congruence; [eexists; reflexivity|destruct H; congruence]. Qed.
Lemma run_check_spec : forall o c, In o opts -> o_check o = Some c -> exists b, run_check (o_name o) c = Some b /\ (b = true <-> holds (o_name o) c).
Proof.
  intros o c Ho Hc. assert (Hn : In (o_name o) (map o_name opts)) by (apply in_map; exact Ho).
  destruct Ht as [_ [_ Hneed]]. specialize (Hneed o c Ho Hc). set (n := o_name o) in *. clearbody n.
  destruct (string_some _ Hn) as [s Es]. pose proof (proj1 (string_text _ _) Es) as Ts.
  destruct c; cbn [Options.run_check OptionsSpec.holds].
  - destruct (object_some _ Hn) as [v Ev]. unfold double_option at 1. rewrite Ev. cbn [option_map]. eexists. split; [reflexivity|].
    match goal with |- negb (nonpos ?x) = true <-> _ => set (y := x) end.
    assert (D : double_option F f0 fmax fmin fz repr float_text om sel n = Some y) by (unfold double_option; rewrite Ev; reflexivity).
    rewrite negb_true_iff. split.
    + intros H. exists y. split; [apply double_number; exact D|congruence].
    + intros [f [A B]]. apply double_number in A. rewrite D in A. injection A as ->. destruct (nonpos f); congruence.
  - unfold not_empty. rewrite Es. cbn. eexists. split; [reflexivity|]. rewrite negb_true_iff, String.eqb_neq. split; [intros H; exists s; auto|].
    intros [t [A B]]. rewrite (text_unique _ _ _ A Ts) in B. exact B.
  - apply mesh_check; [exact Hn|]. intros. apply has_None.
  - destruct (mesh_check n (fun s => has s (w_meshes w)) (fun s => exists b, find s (w_meshes w) = Some b) Hn) as [b [A B]]; [intros; apply has_Some|].
    exists b. split; [exact A|]. rewrite B. split; [intros [t [X [Y [z Z]]]]; exists t, z; auto|intros [t [z [X [Y Z]]]]; exists t; eauto].
  - apply mesh_check; [exact Hn|]. intros t. destruct (find t (w_meshes w)) as [[]|]; cbn; split; congruence.
  - apply mesh_check; [exact Hn|]. intros t. destruct (find t (w_meshes w)) as [[]|]; cbn; split; congruence.
  - destruct (mesh_check n (fun s => has s (w_devices w)) (fun s => exists b, find s (w_devices w) = Some b) Hn) as [b [A B]]; [intros; apply has_Some|].
    exists b. split; [exact A|]. rewrite B. split; [intros [t [X [Y [z Z]]]]; exists t, z; auto|intros [t [z [X [Y Z]]]]; exists t; eauto].
  - apply (mesh_check n (fun s => negb (has s (w_devices w)))); [exact Hn|]. intros. apply has_None.
  - apply part_check; [exact Hn|]. apply Hneed. left. reflexivity.
  - apply part_check; [exact Hn|]. apply Hneed. left. reflexivity.
  - apply part_check; [exact Hn|]. apply Hneed. left. reflexivity.
  - destruct (string_some "region") as [r Er]; [apply Hneed; left; reflexivity|]. rewrite Es, Er. cbn. eexists. split; [reflexivity|].
    pose proof (proj1 (string_text _ _) Er) as Tr.
    split.
    + intros H. exists s, r. split; [exact Ts|]. split; [exact Tr|]. intros Z Y. subst. rewrite (eqbF _ _ Z) in H. discriminate.
    + intros [d [r' [A [B C]]]]. rewrite (text_unique _ _ _ A Ts) in C. rewrite (text_unique _ _ _ B Tr) in C.
      destruct (String.eqb_spec s "") as [->|]; cbn; [|reflexivity]. destruct (String.eqb_spec r "") as [|Z]; cbn; [reflexivity|]. destruct (C Z eq_refl).
Qed.
Lemma run_checks_spec : exists b, run_checks F f0 fmax fmin fz nonpos repr float_text w om sel opts = Some b /\
  (b = true <-> forall o c, In o opts -> o_check o = Some c -> holds (o_name o) c).
Proof.
  assert (G : forall l, incl l opts -> exists b, run_checks F f0 fmax fmin fz nonpos repr float_text w om sel l = Some b /\
    (b = true <-> forall o c, In o l -> o_check o = Some c -> holds (o_name o) c)); [|apply G; apply incl_refl].
  induction l as [|o t IH]; intros I; cbn.
  - exists true. split; [reflexivity|]. split; [intros _ o c []|reflexivity].
  - destruct (IH (fun x H => I x (or_intror H))) as [b [A B]]. destruct (o_check o) as [c|] eqn:Ec.
    + destruct (run_check_spec o c (I o (or_introl eq_refl)) Ec) as [b' [A' B']]. rewrite A', A. cbn. eexists. split; [reflexivity|].
      rewrite andb_true_iff, B, B'. split.
      * intros [X Y] o' c' [E|J] H; [subst o'; rewrite Ec in H; injection H as <-; exact X|apply Y; assumption].
      * intros H. split; [apply (H o c (or_introl eq_refl) Ec)|]. intros o' c' J K. apply (H o' c' (or_intror J) K).
    + exists b. split; [exact A|]. rewrite B. split; intros H o' c' J K; [|apply H; [right; exact J|exact K]].
      destruct J as [E|J]; [subst o'; congruence|apply H; assumption].
Qed.
End P.
