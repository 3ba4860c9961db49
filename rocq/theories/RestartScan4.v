(* What write_devices writes can be read: write_devices (RestartWrite.v) makes legible lexemes. *)
From Coq Require Import Ascii String List Bool Arith ZArith Lia.
Import ListNotations.
Require Import Verif.StrMap Verif.Adjacency Verif.Loader Verif.Restart Verif.RestartWrite Verif.RestartText Verif.RestartTextSpec.
Local Open Scope list_scope.

Definition of_theseb (l : list string) (c : ascii) : bool := existsb (fun s => existsb (Ascii.eqb c) (chars s)) l.
Lemma of_theseb_ok : forall l c, of_theseb l c = true -> of_these l c.
Proof.
  intros l c H. apply existsb_exists in H. destruct H as (s & Hs & H). apply existsb_exists in H. destruct H as (x & Hx & E). apply Ascii.eqb_eq in E. subst x.
  apply Exists_exists. exists s. auto.
Qed.

Section Legible.
Variable A : Type.
Variable show : A -> text.
Notation legible := (legible A show).
Notation lexs := (list (lexeme A)).
(* complete lines that leave the section as it is *)
Definition block (st : list sec) (l : lexs) : Prop := forall rest, legible st true rest -> legible st true (l ++ rest).
Lemma block_nil : forall st, block st [].
Proof. intros st rest H. exact H. Qed.
Lemma block_app : forall st a b, block st a -> block st b -> block st (a ++ b).
Proof. intros st a b HA HB rest H. rewrite <- app_assoc. apply HA, HB, H. Qed.
Lemma block_flat_map : forall X st (g : X -> lexs) l, Forall (fun x => block st (g x)) l -> block st (flat_map g l).
Proof. induction 1; cbn; [apply block_nil|apply block_app; assumption]. Qed.
Lemma block_if : forall st (b : bool) l, block st l -> block st (if b then l else []).
Proof. intros st [] l H; [exact H|apply block_nil]. Qed.
Lemma quiet_state : forall st, in_command st = false -> snd (lex A st (NL A)) = st.
Proof. intros st H. cbn. rewrite H. reflexivity. Qed.
Lemma legible_ints : forall st bol l rest, legible st false rest -> (l = [] -> legible st bol rest) -> legible st bol (map (index A) l ++ rest).
Proof.
  intros st bol l. revert bol. induction l as [|x l IH]; intros bol rest H N; [apply N; reflexivity|]. cbn [map app index RestartTextSpec.legible legible1 lex snd is_NL].
  split; [exact I|]. apply IH; [exact H|intros _; exact H].
Qed.
Lemma block_lines : forall st l, in_command st = false -> block st (lines A l).
Proof.
  intros st l C. apply block_flat_map, Forall_forall. intros e _ rest H. rewrite <- app_assoc. apply legible_ints.
  - cbn [app RestartTextSpec.legible legible1 is_NL]. rewrite quiet_state by exact C. auto.
  - intros _. cbn [app RestartTextSpec.legible legible1 is_NL]. rewrite quiet_state by exact C. auto.
Qed.
(* begin_x ... end_x *)
Lemma block_section : forall st s b e items, in_command st = false -> in_command [s] = false ->
  find b (opens st) = Some s -> plain b -> find e (opens (s :: st)) = None -> String.eqb e (end_word s) = true -> plain e ->
  block (s :: st) items -> block st (section A b e items).
Proof.
  intros st s b e items C CS FB PB FE EE PE HB rest H. unfold section.
  assert (C2 : in_command (s :: st) = false) by (destruct s; try exact CS; reflexivity).
  assert (LB : lex A st (Line A b) = (Some (TBeg A s), s :: st)) by (cbn [lex]; unfold line_word; rewrite FB; reflexivity).
  assert (LE : lex A (s :: st) (Line A e) = (Some (TEnd A s), st)) by (cbn [lex]; unfold line_word; rewrite FE, C2, EE; reflexivity).
  cbn [app RestartTextSpec.legible is_NL]. rewrite LB. cbn [snd legible1]. split; [auto|]. split; [exact I|].
  rewrite (quiet_state _ C2). rewrite <- app_assoc. apply HB. cbn [app RestartTextSpec.legible is_NL]. rewrite LE. cbn [snd legible1]. split; [auto|].
  rewrite !(quiet_state _ C). auto.
Qed.
Lemma plain_b : forall w, (match chars w with [] => false | c :: t => of_theseb [small; capital] c && forallb (of_theseb [small; capital; "0123456789_:@"%string]) t end)%bool = true -> plain w.
Proof.
  intros w. unfold plain. destruct (chars w) as [|c t]; [discriminate|]. intros H. apply andb_true_iff in H. destruct H as [H F]. split; [apply of_theseb_ok, H|].
  apply Forall_forall. rewrite forallb_forall in F. intros x Hx. apply of_theseb_ok, F, Hx.
Qed.
Ltac words := apply plain_b; vm_compute; reflexivity.
Lemma legible_opts : forall o st rest, in_command st = true -> Forall (fun p => option_word (fst p) /\ clean (snd p)) o -> legible st false rest ->
  legible st false (flat_map (fun p => [Opt A (fst p); Quoted A (snd p)]) o ++ rest).
Proof.
  intros o st rest C F H. induction F as [|[k v] o [Hk Hv] F IH]; [exact H|]. cbn [flat_map app fst snd RestartTextSpec.legible legible1 is_NL lex]. cbn [fst snd] in *. auto.
Qed.
(* a model or an equation: begin_x "name", its line or lines, end_x *)
Lemma legible_call : forall st n o rest, in_model st = true -> readable_call (n, o) -> legible st true rest ->
  legible st true (write_call A n o ++ NL A :: rest).
Proof.
  intros st n o rest M [Pn Po] H. unfold write_call. cbn [fst snd] in *.
  assert (LW : lex A st (Line A "COMMAND") = (Some (TCommand A), S_command :: st)) by (destruct st as [|[| | | | | | | | |[]| |] st]; try discriminate; reflexivity).
  cbn [app RestartTextSpec.legible]. rewrite LW. cbn [snd legible1 is_NL lex fst]. split; [split; [reflexivity|words]|]. split; [auto|].
  apply legible_opts; [reflexivity|exact Po|]. cbn [RestartTextSpec.legible legible1 is_NL lex in_command tl snd]. auto.
Qed.
Lemma legible_data : forall vs st rest, in_command st = false -> Forall (fun v => numeral (show v)) vs -> legible st false rest ->
  legible st false (flat_map (fun v => [NL A; Flt A v]) vs ++ rest).
Proof.
  intros vs st rest C F H. induction F as [|v vs Hv F IH]; [exact H|]. cbn [flat_map app RestartTextSpec.legible legible1 is_NL lex]. rewrite C. cbn [snd]. auto.
Qed.
Lemma legible_body : forall m st b rest, m <> MIface \/ (exists n o, b = BCommand A n o) -> readable_body A (fun a => numeral (show a)) b -> legible (S_model m :: st) true rest ->
  legible (S_model m :: st) true (write_body A b ++ NL A :: rest).
Proof.
  intros m st b rest N R H. assert (NR : legible (S_model m :: st) false (NL A :: rest)) by (cbn [RestartTextSpec.legible legible1 is_NL lex in_command snd]; auto).
  assert (KW : forall w k, m <> MIface -> find w [("DATA", KData); ("BUILTIN", KBuiltin); ("DATAPARENT", KParent); ("UNIFORM", KUniform)]%string = Some k -> String.eqb w (end_word (S_model m)) = false -> snd (lex A (S_model m :: st) (Line A w)) = S_model m :: st).
  { intros w k Nm F E. cbn [lex]. unfold line_word. cbn [opens find in_command negb andb]. rewrite E. unfold data_key. destruct m; try congruence; rewrite F; reflexivity. }
  assert (EW : forall w, In w ["DATA"; "BUILTIN"; "DATAPARENT"; "UNIFORM"]%string -> String.eqb w (end_word (S_model m)) = false).
  { intros w I. cbn in I. destruct I as [<-|[<-|[<-|[<-|[]]]]]; destruct m; reflexivity. }
  destruct b as [|a|vs|p|n o]; [destruct N as [N|(n & o & E)]; [|discriminate]..|]; cbn [write_body readable_body] in *.
  - cbn [app RestartTextSpec.legible]. rewrite (KW "BUILTIN"%string KBuiltin N eq_refl (EW "BUILTIN"%string ltac:(cbn; tauto))). split; [split; [reflexivity|words]|exact NR].
  - cbn [app RestartTextSpec.legible]. rewrite (KW "UNIFORM"%string KUniform N eq_refl (EW "UNIFORM"%string ltac:(cbn; tauto))). split; [split; [reflexivity|words]|]. split; [exact R|exact NR].
  - cbn [app RestartTextSpec.legible]. rewrite (KW "DATA"%string KData N eq_refl (EW "DATA"%string ltac:(cbn; tauto))). split; [split; [reflexivity|words]|]. apply legible_data; [reflexivity|exact R|exact NR].
  - cbn [app RestartTextSpec.legible]. rewrite (KW "DATAPARENT"%string KParent N eq_refl (EW "DATAPARENT"%string ltac:(cbn; tauto))). split; [split; [reflexivity|words]|]. split; [exact R|exact NR].
  - apply legible_call; [reflexivity|exact R|exact H].
Qed.
Lemma block_model : forall st n m b, in_command st = false -> find (begin_model m) (opens st) = Some (S_model m) -> clean n ->
  m <> MIface \/ (exists k o, b = BCommand A k o) -> readable_body A (fun a => numeral (show a)) b -> block st (write_model A n m b).
Proof.
  intros st n m b C F Hn N R rest H. unfold write_model. rewrite <- !app_assoc.
  assert (LB : lex A st (Line A (begin_model m)) = (Some (TBeg A (S_model m)), S_model m :: st)) by (cbn [lex]; unfold line_word; rewrite F; reflexivity).
  assert (LE : lex A (S_model m :: st) (Line A (end_model m)) = (Some (TEnd A (S_model m)), st)) by (destruct m; reflexivity).
  cbn [app RestartTextSpec.legible is_NL]. rewrite LB. cbn [snd legible1 lex in_command].
  split; [split; [reflexivity|destruct m; words]|]. split; [exact Hn|]. split; [exact I|]. apply legible_body; [exact N|exact R|].
  cbn [RestartTextSpec.legible is_NL]. rewrite LE. cbn [snd legible1]. rewrite !(quiet_state _ C). split; [split; [reflexivity|destruct m; words]|]. auto.
Qed.
Lemma block_equations : forall st l, in_command st = false -> find "begin_equation"%string (opens st) = Some S_equation -> readable_calls l -> block st (write_equations A l).
Proof.
  intros st l C F R. apply block_flat_map. eapply Forall_impl; [|exact R]. intros [n c] [Hn Hc] rest H. cbn [fst snd] in *. unfold write_equation. rewrite <- !app_assoc.
  assert (LB : lex A st (Line A "begin_equation") = (Some (TBeg A S_equation), S_equation :: st)) by (cbn [lex]; unfold line_word; rewrite F; reflexivity).
  assert (LE : lex A (S_equation :: st) (Line A "end_equation") = (Some (TEnd A S_equation), st)) by reflexivity.
  cbn [app RestartTextSpec.legible is_NL]. rewrite LB. cbn [snd legible1 lex in_command].
  split; [split; [reflexivity|words]|]. split; [exact Hn|]. split; [exact I|]. destruct c as [cn co]. cbn [fst snd]. apply legible_call; [reflexivity|exact Hc|].
  cbn [RestartTextSpec.legible is_NL]. rewrite LE. cbn [snd legible1]. rewrite !(quiet_state _ C). split; [split; [reflexivity|words]|]. auto.
Qed.
Lemma block_unless : forall X st (l : list X) o, block st o -> block st (unless_empty A l o).
Proof. intros X st [|x l] o H; [apply block_nil|exact H]. Qed.
Lemma block_models : forall st l m, in_command st = false -> m <> MIface -> find (begin_model m) (opens st) = Some (S_model m) ->
  Forall (fun p => clean (fst p) /\ readable_body A (fun a => numeral (show a)) (snd (snd p))) l -> block st (write_models A (of_type A m l)).
Proof.
  intros st l m C N F R. apply block_flat_map. apply Forall_forall. intros [n [m' b]] I. unfold of_type in I. apply filter_In in I. destruct I as [I E]. cbn [fst snd] in *.
  rewrite Forall_forall in R. specialize (R _ I). cbn [fst snd] in R. assert (m' = m) by (destruct m', m; try discriminate; reflexivity). subst m'. apply block_model; try tauto.
Qed.
Lemma block_device : forall s, readable A (fun a => numeral (show a)) s -> block [] (write_device A s).
Proof.
  intros s (Hn & Hc & Hr & Hct & Hi) rest H. unfold write_device. rewrite <- !app_assoc. cbn [app RestartTextSpec.legible legible1 is_NL lex].
  change (line_word A [] "begin_device") with (TBeg A S_device, [S_device]). cbn [snd in_command]. split; [split; [reflexivity|words]|]. split; [exact Hn|]. split; [exact I|].
  assert (BE : forall l, block [S_device] l -> forall r, legible [S_device] true r -> legible [S_device] true (l ++ r)) by (intros l X r Y; apply X, Y).
  apply BE.
  { unfold write_coordinates. apply (block_section [S_device] S_coord); [reflexivity|reflexivity|reflexivity|words|reflexivity|reflexivity|words|]. apply block_flat_map. eapply Forall_impl; [|exact Hc]. intros [[x y] z] (X & Y & Z) r R. cbn in *. auto. }
  apply BE.
  { apply block_flat_map. eapply Forall_impl; [|exact Hr]. intros [n r] [Cn (Cm & Rm & Re)]. cbn [fst snd] in *. intros u U. unfold write_region. rewrite <- !app_assoc. cbn [app RestartTextSpec.legible legible1 is_NL lex].
    change (line_word A [S_device] "begin_region") with (TBeg A S_region, [S_region; S_device]). cbn [snd in_command]. split; [split; [reflexivity|words]|]. split; [exact Cn|]. split; [exact Cm|]. split; [exact I|].
    assert (BR : forall l, block [S_region; S_device] l -> forall v, legible [S_region; S_device] true v -> legible [S_region; S_device] true (l ++ v)) by (intros l X v Y; apply X, Y).
    apply BR. { apply (block_section _ S_node); [reflexivity|reflexivity|reflexivity|words|reflexivity|reflexivity|words|]. apply block_lines. reflexivity. }
    apply BR. { destruct (sv_dim A s) as [|[|[|[|d]]]]; try apply block_nil; try apply block_unless.
      - apply (block_section _ S_edge); [reflexivity|reflexivity|reflexivity|words|reflexivity|reflexivity|words|]. apply block_lines. reflexivity.
      - apply (block_section _ S_tri); [reflexivity|reflexivity|reflexivity|words|reflexivity|reflexivity|words|]. apply block_lines. reflexivity.
      - apply (block_section _ S_tet); [reflexivity|reflexivity|reflexivity|words|reflexivity|reflexivity|words|]. apply block_lines. reflexivity. }
    do 4 (apply BR; [apply block_models; [reflexivity|discriminate|reflexivity|exact Rm]|]).
    apply BR; [apply block_equations; [reflexivity|reflexivity|exact Re]|].
    cbn [app RestartTextSpec.legible legible1 is_NL lex]. change (line_word A [S_region; S_device] "end_region") with (TEnd A S_region, [S_device]). cbn [snd in_command]. split; [split; [reflexivity|words]|]. auto. }
  apply BE.
  { apply block_flat_map. eapply Forall_impl; [|exact Hct]. intros [n c] [Cn (Cr & Cm & Re)]. cbn [fst snd] in *. intros u U. unfold write_contact. rewrite <- !app_assoc. cbn [app RestartTextSpec.legible legible1 is_NL lex].
    change (line_word A [S_device] "begin_contact") with (TBeg A S_contact, [S_contact; S_device]). cbn [snd in_command]. split; [split; [reflexivity|words]|]. split; [exact Cn|]. split; [exact Cr|]. split; [exact Cm|]. split; [exact I|].
    assert (BR : forall l, block [S_contact; S_device] l -> forall v, legible [S_contact; S_device] true v -> legible [S_contact; S_device] true (l ++ v)) by (intros l X v Y; apply X, Y).
    apply BR. { destruct (sv_dim A s) as [|[|[|[|d]]]]; try apply block_nil; try apply block_unless.
      - apply (block_section _ S_node); [reflexivity|reflexivity|reflexivity|words|reflexivity|reflexivity|words|]. apply block_lines. reflexivity.
      - apply (block_section _ S_edge); [reflexivity|reflexivity|reflexivity|words|reflexivity|reflexivity|words|]. apply block_lines. reflexivity.
      - apply (block_section _ S_tri); [reflexivity|reflexivity|reflexivity|words|reflexivity|reflexivity|words|]. apply block_lines. reflexivity. }
    apply BR; [apply block_equations; [reflexivity|reflexivity|exact Re]|].
    cbn [app RestartTextSpec.legible legible1 is_NL lex]. change (line_word A [S_contact; S_device] "end_contact") with (TEnd A S_contact, [S_device]). cbn [snd in_command]. split; [split; [reflexivity|words]|]. auto. }
  apply BE.
  { apply block_flat_map. eapply Forall_impl; [|exact Hi]. intros [n i] [Cn (C0 & C1 & Rm & Re)]. cbn [fst snd] in *. intros u U. unfold write_interface. rewrite <- !app_assoc. cbn [app RestartTextSpec.legible legible1 is_NL lex].
    change (line_word A [S_device] "begin_interface") with (TBeg A S_interface, [S_interface; S_device]). cbn [snd in_command]. split; [split; [reflexivity|words]|]. split; [exact Cn|]. split; [exact C0|]. split; [exact C1|]. split; [exact I|].
    assert (BR : forall l, block [S_interface; S_device] l -> forall v, legible [S_interface; S_device] true v -> legible [S_interface; S_device] true (l ++ v)) by (intros l X v Y; apply X, Y).
    apply BR. { destruct (Nat.eqb (sv_dim A s) 1 || negb (si_provided i))%bool.
      - apply (block_section _ S_node); [reflexivity|reflexivity|reflexivity|words|reflexivity|reflexivity|words|]. apply block_lines. reflexivity.
      - unfold if_paired. destruct (sv_dim A s) as [|[|[|[|d]]]]; try apply block_nil; apply block_if.
        + apply (block_section _ S_edge); [reflexivity|reflexivity|reflexivity|words|reflexivity|reflexivity|words|]. apply block_lines. reflexivity.
        + apply (block_section _ S_tri); [reflexivity|reflexivity|reflexivity|words|reflexivity|reflexivity|words|]. apply block_lines. reflexivity. }
    apply BR. { apply block_flat_map. eapply Forall_impl; [|exact Rm]. intros [k c] [Ck Rc]. cbn [fst snd] in *. apply block_model; [reflexivity|reflexivity|exact Ck|right; eauto|destruct c; exact Rc]. }
    apply BR; [apply block_equations; [reflexivity|reflexivity|exact Re]|].
    cbn [app RestartTextSpec.legible legible1 is_NL lex]. change (line_word A [S_interface; S_device] "end_interface") with (TEnd A S_interface, [S_device]). cbn [snd in_command]. split; [split; [reflexivity|words]|]. auto. }
  cbn [app RestartTextSpec.legible legible1 is_NL lex]. change (line_word A [S_device] "end_device") with (TEnd A S_device, @nil sec). cbn [snd in_command]. split; [split; [reflexivity|words]|]. auto.
Qed.
Lemma written_legible : forall l, Forall (readable A (fun a => numeral (show a))) l -> legible [] true (write_devices A l).
Proof.
  intros l F. pose proof (block_flat_map _ [] (write_device A) l) as B. rewrite <- (app_nil_r (write_devices A l)). apply B; [|exact I]. eapply Forall_impl; [|exact F]. intros s. apply block_device.
Qed.
End Legible.
