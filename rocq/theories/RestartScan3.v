(* Reading the text of a file that was written is reading its lexemes. *)
From Coq Require Import Ascii String List Bool Arith ZArith Lia.
Import ListNotations.
Require Import Verif.StrMap Verif.Restart Verif.RestartText Verif.RestartTextSpec Verif.RestartTextProofs Verif.RestartScan Verif.RestartScan2.
Local Arguments Nat.ltb : simpl never.
Local Arguments Nat.leb : simpl never.
Local Arguments Nat.eqb : simpl never.
Local Open Scope list_scope.

(* the classes of characters of the rules *)
Lemma class_list : forall (p : ascii -> bool) l, forallb (fun s => forallb p (chars s)) l = true -> forall c, of_these l c -> p c = true.
Proof.
  intros p l H c E. rewrite forallb_forall in H. apply Exists_exists in E. destruct E as (s & Hs & Hc). specialize (H s Hs). rewrite forallb_forall in H. apply H. exact Hc.
Qed.
Lemma plain_class : forall w, plain w -> match chars w with [] => False | c :: t => letter c = true /\ Forall (fun x => word_char x = true) t end.
Proof.
  intros w. unfold plain. destruct (chars w) as [|c t]; [auto|]. intros [H F]. split; [revert H; apply (class_list letter); reflexivity|].
  eapply Forall_impl; [|exact F]. intros x. apply (class_list word_char). reflexivity.
Qed.
Lemma option_class : forall w, option_word w -> match chars w with [] => False | c :: t => lower c = true /\ Forall (fun x => option_char x = true) t end.
Proof.
  intros w. unfold option_word. destruct (chars w) as [|c t]; [auto|]. intros [H F]. split; [revert H; apply (class_list lower); reflexivity|].
  eapply Forall_impl; [|exact F]. intros x. apply (class_list option_char). reflexivity.
Qed.

Section Read.
Variable A : Type.
Variable of_int : Z -> A.
Variable run : list (command A) -> command A -> bool.
Variable builtin : mtype -> string -> bool.
Variable show : A -> text.
Variable atof : text -> A.
Notation ltext := (lexeme_text A show).
Notation perform := (perform A atof).

Lemma lex_reread_state : forall st x, snd (lex A st (reread A show atof x)) = snd (lex A st x).
Proof. intros st [w|w|w|w|z|a|]; reflexivity. Qed.
(* one lexeme *)
Lemma lexeme_wins : forall st bol x d rest, legible1 A show st bol x -> x <> NL A -> stops d ->
  ~ (x = Line A "COMMAND" /\ in_model st = true) ->
  exists a, best (rules st bol) (ltext x ++ d :: rest) = Some (length (ltext x), a) /\
    perform a (ltext x) st = lex A st (reread A show atof x).
Proof.
  intros st bol x d rest L N D NC. destruct x as [w|w|w|s|z|a|]; cbn [legible1 lexeme_text reread] in *.
  - destruct L as [-> P]. apply plain_class in P. destruct (chars w) as [|c t] eqn:E; [contradiction|]. destruct P as [P F].
    assert (W : string_of_list_ascii (c :: t) = w) by (rewrite <- E; apply string_of_list_ascii_of_string).
    assert (NW : in_model st = true -> w <> "COMMAND"%string) by (intros M ->; apply NC; auto).
    assert (NE : in_model st = true -> c :: t <> chars "COMMAND") by (intros M X; rewrite <- E in X; apply chars_inj in X; apply (NW M X)).
    cbn [lex]. pose proof (line_word_is A atof st w NW) as LW. destruct (find w (words_of st)) as [a|] eqn:FW.
    + exists a. split; [apply keyword_wins; try assumption; rewrite W; exact FW|]. rewrite LW, E.
      assert (K : forall b, In (w, b) (words_of st) -> fst (perform b (c :: t) st) <> None).
      { intros b I. unfold words_of in I. rewrite !in_app_iff in I. destruct I as [I|[I|I]].
        - apply in_map_iff in I. destruct I as ([k v] & [= _ <-] & _). discriminate.
        - destruct st as [|[] st]; try destruct I as [[= _ <-]|[]]; try destruct I; discriminate.
        - destruct st as [|[] st]; try (destruct I; fail). destruct m; try (destruct I; fail); apply in_map_iff in I; destruct I as ([k v] & [= _ <-] & _); discriminate. }
      destruct (find_some _ _ _ _ FW) as (l1 & l2 & EW & _). specialize (K a). rewrite EW in K. specialize (K (in_elt _ _ _)).
      destruct (perform a (c :: t) st) as [[tk|] st']; [reflexivity|]. cbn in K. congruence.
    + exists AWord. split; [apply word_wins; try assumption; intros _; rewrite W; auto|]. cbn [RestartText.perform]. rewrite c_string_id by (apply plain_no_zero; assumption). rewrite W, LW. reflexivity.
  - destruct L as [-> P]. apply plain_class in P. destruct (chars w) as [|c t] eqn:E; [contradiction|]. destruct P as [P F].
    exists AWord. split; [apply word_wins; try assumption; discriminate|]. cbn [RestartText.perform lex]. rewrite c_string_id by (apply plain_no_zero; assumption).
    rewrite <- E. unfold chars. rewrite string_of_list_ascii_of_string. reflexivity.
  - destruct L as [C P]. apply option_class in P. destruct (chars w) as [|c t] eqn:E; [contradiction|]. destruct P as [P F].
    exists AOption. split; [apply option_wins; assumption|]. cbn [RestartText.perform lex tl]. rewrite C, <- E. unfold chars. rewrite string_of_list_ascii_of_string. reflexivity.
  - exists AQuoted. unfold clean in L. split.
    + apply quoted_wins. eapply Forall_impl; [|exact L]. intros c H. apply H.
    + cbn [RestartText.perform lex]. rewrite c_string_id.
      * cbn zeta. cbn [tl]. f_equal. f_equal. f_equal. replace (length (quote :: chars s ++ [quote]) - 2) with (length (chars s)) by (cbn; rewrite app_length; cbn; lia).
        rewrite firstn_app, Nat.sub_diag, firstn_all. cbn [firstn]. rewrite app_nil_r. apply string_of_list_ascii_of_string.
      * constructor; [discriminate|]. apply Forall_app. split; [|repeat constructor; discriminate]. eapply Forall_impl; [|exact L]. intros c H. apply H.
  - destruct (show_int_lang z) as (L1 & F & NE). exists AInteger. split.
    + destruct (show_int z) as [|c t] eqn:E; [congruence|]. apply int_wins; assumption.
    + cbn [RestartText.perform lex]. rewrite read_show_int. reflexivity.
  - apply numeral_lang in L. destruct (numeral_cons _ L) as (c & t & E & Q & S). exists AFloat. split; [|reflexivity].
    rewrite E in *. apply float_wins; assumption.
  - congruence.
Qed.
(* the first and the last character of a lexeme *)
Lemma quiet_blank : forall c, quiet c = true -> blank c = false /\ c <> newline.
Proof.
  intros c H. pose proof (all_ascii (fun c => implb (quiet c) (negb (blank c) && negb (Ascii.eqb c newline))) eq_refl c) as K. cbn beta in K. rewrite H in K. cbn [implb] in K.
  rewrite andb_true_iff, !negb_true_iff, Ascii.eqb_neq in K. exact K.
Qed.
Lemma last_solid : forall t, t <> [] -> solid t -> last t zero <> newline.
Proof.
  intros t N S. destruct (exists_last N) as (l & c & ->). rewrite last_last. apply Forall_app in S. destruct S as [_ S]. inversion S as [|? ? X]; subst. intros ->. apply X. unfold stops. tauto.
Qed.
Lemma lexeme_ends : forall st bol x, legible1 A show st bol x -> x <> NL A ->
  (exists c t, ltext x = c :: t /\ blank c = false) /\ last (ltext x) zero <> newline.
Proof.
  assert (ST : forall c t, quiet c = true -> solid (c :: t) -> (exists c' t', c :: t = c' :: t' /\ blank c' = false) /\ last (c :: t) zero <> newline).
  { intros c t Q S. split; [exists c, t; split; [reflexivity|apply quiet_blank, Q]|apply last_solid; [discriminate|exact S]]. }
  intros st bol x L N. destruct x as [w|w|w|s|z|a|]; cbn [legible1 lexeme_text] in *.
  - destruct L as [-> P]. apply plain_class in P. destruct (chars w) as [|c t]; [contradiction|]. destruct P as [P F]. apply ST; [apply letter_facts, P|apply plain_solid; assumption].
  - destruct L as [-> P]. apply plain_class in P. destruct (chars w) as [|c t]; [contradiction|]. destruct P as [P F]. apply ST; [apply letter_facts, P|apply plain_solid; assumption].
  - destruct L as [C P]. apply option_class in P. destruct (chars w) as [|c t]; [contradiction|]. destruct P as [P F]. apply ST; [reflexivity|].
    apply (over_lang _ option_re); [|apply solid_option]. change ("-" :: c :: t)%char with (["-"%char] ++ [c] ++ t). constructor; [constructor; reflexivity|]. constructor; [constructor; exact P|]. apply lang_star, F.
  - split; [exists quote, (chars s ++ [quote]); split; reflexivity|]. change (quote :: chars s ++ [quote]) with ((quote :: chars s) ++ [quote]). rewrite last_last. discriminate.
  - destruct (show_int_lang z) as (L1 & F & NE). destruct (show_int z) as [|c t] eqn:E; [congruence|]. apply ST; [inversion F; subst; apply digit_facts; assumption|].
    eapply Forall_impl; [|exact F]. intros y P. apply digit_facts, P.
  - apply numeral_lang in L. destruct (numeral_cons _ L) as (c & t & E & Q & S). rewrite E in *. apply ST; assumption.
  - congruence.
Qed.

(* ---- the parser ---- *)
Lemma parse_file_step : forall w q x f, parse_file A of_int run builtin w q (x :: f) =
  let (o, st) := lex A (w_stack A w) x in
  match advance A of_int run builtin w q o st with inl e => e | inr (w', q') => parse_file A of_int run builtin w' q' f end.
Proof.
  intros w q x f. cbn [parse_file]. destruct (lex A (w_stack A w) x) as [[t|] st]; unfold advance; [|reflexivity].
  destruct (step A of_int (w_meshes A w) (w_loader A w) q t); reflexivity.
Qed.
Lemma advance_stack : forall w q o st w' q', advance A of_int run builtin w q o st = inr (w', q') -> w_stack A w' = st.
Proof.
  intros w q o st w' q'. unfold advance. destruct o as [t|]; [|intros [= <- _]; reflexivity].
  destruct (step A of_int (w_meshes A w) (w_loader A w) q t); try discriminate; [intros [= <- _]; reflexivity|].
  unfold finish. destruct (Loader.devsim_finalize (mesh_of A l)) as [[] m]; [|discriminate]. destruct (Loader.devsim_create m (co_name A l) (w_devices A w)) as [[ds y]|[ds y]|y|]; try discriminate.
  destruct (find (co_name A l) ds); [|discriminate]. destruct (load_models _ _ _ _ _ _) as [[] y']; [|discriminate]. intros [= <- _]. reflexivity.
Qed.
Lemma parse_text_step : forall n w q bol t m a, t <> [] -> best (rules (w_stack A w) bol) t = Some (m, a) ->
  parse_text A of_int run builtin atof (S n) w q bol t =
  let (o, st) := perform a (firstn m t) (w_stack A w) in
  match advance A of_int run builtin w q o st with
  | inl e => e
  | inr (w', q') => parse_text A of_int run builtin atof n w' q' (Ascii.eqb (last (firstn m t) zero) newline) (skipn m t)
  end.
Proof. intros n w q bol t m a N E. destruct t as [|c t]; [congruence|]. cbn [parse_text]. rewrite E. reflexivity. Qed.
Lemma advance_none : forall w q, advance A of_int run builtin w q None (w_stack A w) = inr (w, q).
Proof. intros [s l ms ds ld] q. reflexivity. Qed.
Lemma rendered_head : forall y l t st bol, rendered A show (y :: l) t -> legible1 A show st bol y -> exists c t', t = c :: t' /\ blank c = false /\ (y = NL A -> c = newline).
Proof.
  intros y l t st bol R L. assert (G : forall x rest, x = y -> x <> NL A -> exists c t', ltext x ++ rest = c :: t' /\ blank c = false /\ (y = NL A -> c = newline)).
  { intros x rest -> N. destruct (lexeme_ends st bol y L N) as [(c & u & E & B) _]. rewrite E. exists c, (u ++ rest). split; [reflexivity|]. split; [exact B|congruence]. }
  inversion R; subst; [eexists _, _; split; [reflexivity|]; split; [reflexivity|reflexivity]|apply G; [reflexivity|assumption]|apply G; [reflexivity|assumption]].
Qed.

(* a gap is passed *)
Lemma pass_gap : forall n w q g c t, is_gap g -> blank c = false -> length (g ++ c :: t) <= n ->
  exists n', length (c :: t) <= n' /\ parse_text A of_int run builtin atof n w q false (g ++ c :: t) = parse_text A of_int run builtin atof n' w q false (c :: t).
Proof.
  intros n w q g c t G B H. destruct g as [|b g]; [exists n; auto|]. destruct n as [|n]; [cbn in H; lia|]. exists n. split; [cbn in *; rewrite app_length in H; cbn in H; lia|].
  rewrite (parse_text_step n w q false ((b :: g) ++ c :: t) (length (b :: g)) ASkip); [|discriminate|apply gap_wins; [exact G|discriminate|exact B]].
  assert (FN : firstn (length (b :: g)) ((b :: g) ++ c :: t) = b :: g) by (rewrite firstn_app, Nat.sub_diag, firstn_all; apply app_nil_r).
  assert (SN : skipn (length (b :: g)) ((b :: g) ++ c :: t) = c :: t) by (rewrite skipn_app, Nat.sub_diag, skipn_all; reflexivity).
  rewrite FN, SN. cbn [RestartText.perform]. rewrite advance_none. f_equal. apply Ascii.eqb_neq.
  destruct (exists_last (l := b :: g)) as (l & x & E); [discriminate|]. rewrite E, last_last. unfold is_gap in G. rewrite E in G. apply Forall_app in G. destruct G as [_ G]. inversion G as [|? ? [-> | ->] ?]; discriminate.
Qed.
Lemma text_is_lexemes : forall l t, rendered A show l t -> forall n w q bol, legible A show (w_stack A w) bol l -> length t <= n ->
  parse_text A of_int run builtin atof n w q bol t = parse_file A of_int run builtin w q (map (reread A show atof) l).
Proof.
  assert (MID : forall x y g l t, rendered A show (y :: l) t -> x <> NL A -> (y = NL A -> x <> Line A "COMMAND") -> is_gap g -> (y <> NL A -> g <> []) ->
    (forall n w q bol, legible A show (w_stack A w) bol (y :: l) -> length t <= n -> parse_text A of_int run builtin atof n w q bol t = parse_file A of_int run builtin w q (map (reread A show atof) (y :: l))) ->
    forall n w q bol, legible A show (w_stack A w) bol (x :: y :: l) -> length (ltext x ++ g ++ t) <= n ->
    parse_text A of_int run builtin atof n w q bol (ltext x ++ g ++ t) = parse_file A of_int run builtin w q (map (reread A show atof) (x :: y :: l))).
  { intros x y g l t R NX NC G NG IH n w q bol L H. destruct L as [L1 L2]. assert (NB : is_NL A x = false) by (destruct x; try reflexivity; congruence). rewrite NB in L2.
    destruct (rendered_head y l t _ _ R (proj1 L2)) as (c & t' & Et & Bc & Yc).
    destruct (lexeme_ends _ _ _ L1 NX) as [(c0 & t0 & E0 & _) LX].
    destruct n as [|n]; [rewrite E0 in H; cbn in H; lia|]. change (map (reread A show atof) (x :: y :: l)) with (reread A show atof x :: map (reread A show atof) (y :: l)).
    rewrite parse_file_step.
    assert (LN : ltext x ++ g ++ t <> []) by (rewrite E0; discriminate).
    assert (CM : (x = Line A "COMMAND" /\ in_model (w_stack A w) = true) \/ ~ (x = Line A "COMMAND" /\ in_model (w_stack A w) = true)).
    { destruct (in_model (w_stack A w)); [|right; intros [_ X]; discriminate]. destruct x as [k|k|k|k|z|a|]; try (right; intros [X _]; discriminate).
      destruct (string_dec k "COMMAND") as [->|X]; [left; auto|right; intros [[= Y] _]; contradiction]. }
    destruct CM as [[-> M]|CM].
    - (* COMMAND and the blanks after it *)
      assert (YN : y <> NL A) by (intros X; apply (NC X); reflexivity). cbn [legible1] in L1. destruct L1 as [-> _].
      subst t. cbn [lexeme_text] in *. rewrite (parse_text_step n w q true _ (7 + length g) ACommand LN) by (apply command_wins; auto).
      assert (E7 : chars "COMMAND" ++ g ++ c :: t' = (chars "COMMAND" ++ g) ++ c :: t') by apply app_assoc.
      assert (L7 : 7 + length g = length (chars "COMMAND" ++ g)) by (rewrite app_length; reflexivity).
      assert (LW : lex A (w_stack A w) (Line A "COMMAND") = (Some (TCommand A), S_command :: w_stack A w)).
      { destruct (w_stack A w) as [|[| | | | | | | | |[]| |] s]; try discriminate; reflexivity. }
      cbn [reread RestartText.perform]. rewrite LW in *. cbn [snd] in L2.
      destruct (advance A of_int run builtin w q (Some (TCommand A)) (S_command :: w_stack A w)) as [e|[w' q']] eqn:EA; [reflexivity|].
      rewrite E7, L7. rewrite skipn_app, Nat.sub_diag, skipn_all, firstn_app, Nat.sub_diag, firstn_all. cbn [skipn firstn app]. rewrite app_nil_r.
      assert (LB : Ascii.eqb (last (chars "COMMAND" ++ g) zero) newline = false).
      { apply Ascii.eqb_neq. destruct (exists_last (NG YN)) as (g' & b & Eg). rewrite Eg, app_assoc, last_last. unfold is_gap in G. rewrite Eg in G. apply Forall_app in G. destruct G as [_ G]. inversion G as [|? ? [-> | ->] ?]; discriminate. }
      rewrite LB. apply IH; [rewrite (advance_stack _ _ _ _ _ _ EA); exact L2|]. cbn [lexeme_text] in H. rewrite !app_length in H. cbn in H |- *. lia.
    - assert (DR : exists d rest, g ++ t = d :: rest /\ stops d).
      { destruct g as [|d g]; [|exists d, (g ++ t); split; [reflexivity|]; inversion G; subst; unfold stops; tauto].
        exists c, t'. split; [exact Et|]. right. right. apply Yc. destruct y; try reflexivity; exfalso; apply NG; try discriminate; reflexivity. }
      destruct DR as (d & rest & ED & SD). destruct (lexeme_wins _ _ x d rest L1 NX SD CM) as (a & EB & EP).
      rewrite <- ED in EB. rewrite (parse_text_step n w q bol _ _ a LN EB).
      assert (FN : firstn (length (ltext x)) (ltext x ++ g ++ t) = ltext x) by (rewrite firstn_app, Nat.sub_diag, firstn_all; apply app_nil_r).
      assert (SN : skipn (length (ltext x)) (ltext x ++ g ++ t) = g ++ t) by (rewrite skipn_app, Nat.sub_diag, skipn_all; reflexivity).
      rewrite FN, SN, EP. pose proof (lex_reread_state (w_stack A w) x) as LS. destruct (lex A (w_stack A w) (reread A show atof x)) as [o st]. cbn [snd] in LS. rewrite <- LS in L2.
      destruct (advance A of_int run builtin w q o st) as [e|[w' q']] eqn:EA; [reflexivity|].
      assert (LB : Ascii.eqb (last (ltext x) zero) newline = false) by (apply Ascii.eqb_neq, LX). rewrite LB.
      destruct (pass_gap n w' q' g c t' G Bc) as (n' & Hn & EG); [rewrite <- Et; rewrite E0 in H; cbn in H; rewrite app_length in H; lia|].
      rewrite <- Et in Hn, EG. rewrite EG. apply IH; [rewrite (advance_stack _ _ _ _ _ _ EA); exact L2|exact Hn]. }
  intros l t R. induction R as [|l t R IH|x g l t R IH NX NC G|x y g l t R IH NX NY G NG]; intros n w q bol L H.
  - destruct n; reflexivity.
  - destruct n as [|n]; [cbn in H; lia|]. cbn [map reread]. rewrite parse_file_step.
    rewrite (parse_text_step n w q bol (newline :: t) 1 (if in_command (w_stack A w) then AEol else ASkip)); [|discriminate|apply newline_wins].
    cbn [legible legible1 lex is_NL] in L. destruct L as [_ L]. cbn [lex firstn skipn last]. destruct (in_command (w_stack A w)); cbn [RestartText.perform snd] in *.
    + destruct (advance A of_int run builtin w q (Some (TEol A)) (tl (w_stack A w))) as [e|[w' q']] eqn:EA; [reflexivity|]. apply IH; [rewrite (advance_stack _ _ _ _ _ _ EA); exact L|cbn in H; lia].
    + rewrite advance_none. apply IH; [exact L|cbn in H; lia].
  - apply (MID x (NL A) g l t); try assumption; [intros _; exact NC|congruence].
  - apply (MID x y g l t); try assumption; [congruence|intros _; exact NG].
Qed.
End Read.
