(* The equation commands and what they report: lists, the same command again, refused commands *)
From Coq Require Import String List Bool Arith Lia Permutation.
From Verif Require Import StrMap EqTable EqTableProofs EqReport EqReportSpec EqReportProofs EqReportSteps.
Import ListNotations.
Open Scope string_scope.
Open Scope list_scope.
Local Arguments Nat.ltb : simpl never.

(* ---- names at the place of their index ---- *)
Definition seen (P : list string) (n : string) : string := if is_in n P then n else "".
Lemma set_at_S : forall y t i x, set_at (y :: t) (S i) x = option_map (cons y) (set_at t i x).
Proof. intros [|a y] t i x; reflexivity. Qed.
Lemma seen_cons : forall n P l, ~ In n l -> map (seen P) l = map (seen (n :: P)) l.
Proof.
  induction l as [|y l IH]; intros H; [reflexivity|]. cbn [map]. rewrite IH by (cbn in H; tauto). f_equal. unfold seen. cbn [is_in existsb].
  destruct (String.eqb_spec y n) as [->|_]; [destruct H; left; reflexivity|reflexivity].
Qed.
Lemma set_at_seen : forall n P, ~ In n P -> forall o i, NoDup o -> position n o = Some i -> set_at (map (seen P) o) i n = Some (map (seen (n :: P)) o).
Proof.
  intros n P Hn. induction o as [|y t IH]; intros i Nd H; [discriminate|]. inversion Nd as [|? ? N1 N2]; subst. cbn [position] in H. cbn [map].
  destruct (String.eqb_spec n y) as [->|Ny].
  - inversion H; subst i. assert (E : seen P y = "") by (unfold seen; destruct (is_in y P) eqn:Z; [apply is_in_spec in Z; contradiction|reflexivity]). rewrite E. cbn [set_at].
    rewrite <- (seen_cons y P t N1). f_equal. f_equal. unfold seen. cbn [is_in existsb]. rewrite String.eqb_refl. reflexivity.
  - destruct (position n t) as [i'|] eqn:E; [|discriminate]. inversion H; subst i. rewrite set_at_S, (IH _ N2 eq_refl). cbn [option_map]. f_equal. f_equal.
    unfold seen. cbn [is_in existsb]. destruct (String.eqb_spec y n); [congruence|reflexivity].
Qed.
Lemma by_index_ok : forall (t : table requation) o g id, inv t o g id -> by_index t = Some o.
Proof.
  intros t o g id I. assert (Nd := i_nd _ _ _ _ I).
  assert (X : forall ks P, NoDup (ks ++ P) -> incl ks o ->
    fold_left (fun l n => match l, equation_index t n with Some l, Some i => set_at l i n | _, _ => None end) ks (Some (map (seen P) o)) = Some (map (seen (rev ks ++ P)) o)).
  { induction ks as [|n ks IH]; intros P Nk Hi; [reflexivity|]. cbn [fold_left]. unfold equation_index at 2. rewrite (i_idx _ _ _ _ I).
    cbn [app] in Nk. inversion Nk as [|? ? N1 N2]; subst. destruct (position n o) as [i|] eqn:Ei; [|apply position_None in Ei; destruct Ei; apply Hi; left; reflexivity].
    rewrite (set_at_seen n P) by (try assumption; intros Hp; apply N1, in_or_app; right; exact Hp).
    rewrite IH; [cbn [rev]; rewrite <- app_assoc; reflexivity| |intros z Hz; apply Hi; right; exact Hz].
    eapply Permutation_NoDup; [apply Permutation_middle|exact Nk]. }
  assert (Sk := sorted_NoDup _ (i_se _ _ _ _ I)).
  assert (Kin : forall n, In n (keys (t_eqs t)) <-> In n o) by (intros n; rewrite (i_names _ _ _ _ I n); rewrite find_keys; reflexivity).
  unfold by_index. rewrite <- (i_len _ _ _ _ I).
  assert (E0 : repeat "" (length o) = map (seen []) o) by (clear; induction o as [|y l IH]; [reflexivity|]; cbn [length repeat map]; rewrite IH; reflexivity).
  rewrite E0, X; [|rewrite List.app_nil_r; exact Sk|intros z Hz; apply Kin; exact Hz].
  f_equal. rewrite List.app_nil_r. rewrite <- (map_id o) at 2. apply map_ext_in. intros n Hn. unfold seen.
  assert (Z : is_in n (rev (keys (t_eqs t))) = true) by (apply is_in_spec; rewrite <- in_rev; apply Kin; exact Hn). rewrite Z. reflexivity.
Qed.

Lemma keys_put_has : forall V n (v : V) m, sorted m -> find n m <> None -> keys (put n v m) = keys m.
Proof.
  intros V n v m Sm H. set (u := fun x : smap V => map (fun p => (fst p, tt)) x).
  assert (Ku : forall x, keys (u x) = keys x) by (intros x; unfold keys, u; rewrite map_map; reflexivity).
  assert (Fu : forall x k, find k (u x) = option_map (fun _ => tt) (find k x)).
  { intros x k. induction x as [|[a b] x IH]; [reflexivity|]. cbn. destruct (String.eqb k a); [reflexivity|exact IH]. }
  rewrite <- (Ku (put n v m)), <- (Ku m). f_equal. apply map_ext_sorted.
  - unfold sorted. rewrite Ku. apply put_sorted. exact Sm.
  - unfold sorted. rewrite Ku. exact Sm.
  - intros k. rewrite !Fu, find_put by exact Sm. destruct (String.eqb_spec k n) as [->|_]; [|reflexivity]. destruct (find n m); [reflexivity|congruence].
Qed.

Section P.
Variable there : kind -> string -> string -> bool.
Local Notation step := (step there).
Local Notation run := (run there).

(* ---- lists ---- *)
Lemma get_given : forall s g k d p n, wf s g -> (get s k d p n = Failed <-> g (k, d, p, n) = None).
Proof.
  intros s g k d p n W. assert (H := w_get _ _ W k d p n). destruct (g (k, d, p, n)) as [kw|]; [destruct H as (o & E & _); rewrite E; split; discriminate|]. split; auto.
Qed.
Lemma names_ok : forall s g k d p, wf s g -> exists l, names s k d p = Names l /\ NoDup l /\ forall n, In n l <-> g (k, d, p, n) <> None.
Proof.
  intros s g k d p W. assert (Gg := fun n => get_given s g k d p n W). destruct k; cbn [names].
  - destruct (w_reg _ _ W d p) as (o & g0 & I). rewrite (by_index_ok _ _ _ _ I). exists o. split; [reflexivity|]. split; [apply (i_nd _ _ _ _ I)|].
    intros n. rewrite (i_names _ _ _ _ I n), <- Gg. cbn [get]. destruct (find n (t_eqs (regions s d p))); split; intros; congruence.
  - exists (keys (contacts s d p)). split; [reflexivity|]. split; [apply sorted_NoDup; apply W|].
    intros n. rewrite <- find_keys, <- Gg. cbn [get]. destruct (find n (contacts s d p)); split; intros; congruence.
  - exists (keys (interfaces s d p)). split; [reflexivity|]. split; [apply sorted_NoDup; apply W|].
    intros n. rewrite <- find_keys, <- Gg. cbn [get]. destruct (find n (interfaces s d p)); split; intros; congruence.
Qed.

(* ---- same ---- *)
Definition same (s s' : st) : Prop := forall k d p, (forall n, get s' k d p n = get s k d p n) /\ names s' k d p = names s k d p.
Lemma reports_det : forall k kw o o', reports k kw o -> reports k kw o' -> sorted o -> sorted o' -> o = o'.
Proof.
  intros k kw o o' [A1 A2] [B1 B2] So So'. apply map_ext_sorted; [assumption|assumption|]. intros x.
  destruct (in_dec string_dec x (documented k)) as [H|H]; [rewrite A1, B1 by exact H; reflexivity|rewrite A2, B2 by exact H; reflexivity].
Qed.
Lemma get_det : forall s g s' g' k d p n, wf s g -> wf s' g' -> g (k, d, p, n) = g' (k, d, p, n) -> get s' k d p n = get s k d p n.
Proof.
  intros s g s' g' k d p n W W' E. assert (H := w_get _ _ W k d p n). assert (H' := w_get _ _ W' k d p n). rewrite <- E in H'.
  destruct (g (k, d, p, n)) as [kw|]; [|congruence]. destruct H as (o & G & _ & R & So), H' as (o' & G' & _ & R' & So').
  rewrite G, G', (reports_det _ _ _ _ R' R So' So). reflexivity.
Qed.
Lemma failed_tables : forall s g en c s', wf s g -> step s en c = (s', Failed) ->
  (forall d p, regions s' d p = regions s d p) /\ contacts s' = contacts s /\ interfaces s' = interfaces s.
Proof.
  intros s g en c s' W E. destruct c as [k kw|k d p n|k d p|k d p n]; cbn [EqReport.step] in E.
  - unfold create in E. destruct (options_ok k kw && _); [|inversion E; subst; auto]. destruct k.
    + unfold create_region in E. cbv zeta in E. destruct (_ && _ && _ && _); [|inversion E; subst; auto]. destruct (update_of _); [|inversion E; subst; auto].
      destruct (add_equation _ _) as [t ok] eqn:A. destruct (w_reg _ _ W (value kw "device") (value kw "region")) as (o & g0 & I).
      match type of A with add_equation _ (mkQ ?a ?b ?c _) = _ => assert (X := exec_inv _ _ _ _ (Equation a b c) _ _ I A) end.
      destruct ok; inversion E; subst s'; clear E. cbn [regions contacts interfaces]. subst t. split; [|auto].
      intros d p. destruct (at_cases _ (regions s) (value kw "device") (value kw "region") (regions s (value kw "device") (value kw "region")) d p) as [(E1 & E2 & ->)|(_ & ->)]; [rewrite E1, E2|]; reflexivity.
    + unfold create_contact in E. inversion E.
    + unfold create_interface in E. cbv zeta in E. destruct (_ && _); [|inversion E; subst; auto]. destruct (itype_of _); inversion E; subst; auto.
  - destruct (there k d p && _); [|inversion E; subst; auto]. destruct k; cbn [delete] in E.
    + destruct (find n _) as [q|] eqn:F; [|inversion E; subst; auto]. destruct (delete_equation _ _) as [t ok] eqn:A. destruct (w_reg _ _ W d p) as (o & g0 & I).
      assert (X : exec (next s) (regions s d p) (DeleteEquation n) = (t, ok)) by (cbn; rewrite F; exact A). assert (X' := exec_inv _ _ _ _ _ _ _ I X).
      destruct ok; inversion E; subst s'; clear E. cbn [regions contacts interfaces]. subst t. split; [|auto].
      intros d' p'. destruct (at_cases _ (regions s) d p (regions s d p) d' p') as [(<- & <- & ->)|(_ & ->)]; reflexivity.
    + destruct (find n _); inversion E; subst; auto.
    + destruct (find n _); inversion E; subst; auto.
  - destruct (there k d p); inversion E; subst; auto.
  - destruct (there k d p && _); inversion E; subst; auto.
Qed.
Lemma failed_same : forall s g en c s', wf s g -> step s en c = (s', Failed) -> same s s'.
Proof.
  intros s g en c s' W E. destruct (failed_tables _ _ _ _ _ W E) as (R & C & Q). intros k d p.
  destruct k; cbn [get names]; rewrite ?R, ?C, ?Q; split; reflexivity.
Qed.

(* ---- the same command again ---- *)
Lemma report_value : forall k d p n kw o, good k d p n kw o ->
  (forall x, In x (documented k) -> value o x = meant kw x) /\ reports k o o.
Proof.
  intros k d p n kw o ((O & D & Pl & N & Nn & _) & (R1 & R2) & So).
  assert (V : forall x, In x (documented k) -> value o x = meant kw x) by (intros x Hx; unfold value; rewrite arg_find, R1 by exact Hx; reflexivity).
  split; [exact V|]. split; [|exact R2]. intros x Hx. rewrite R1 by exact Hx. f_equal. destruct (side x) eqn:Sx; [|rewrite (meant_value o x Sx), V by exact Hx; reflexivity].
  rewrite (meant_side o x Sx), V by exact Hx. rewrite (meant_side kw x Sx). destruct (String.eqb_spec (value kw x) "") as [E|E].
  - rewrite N. destruct (String.eqb_spec n ""); [contradiction|reflexivity].
  - destruct (String.eqb_spec (value kw x) ""); [contradiction|reflexivity].
Qed.
Lemma report_ok : forall k d p n kw o, good k d p n kw o -> options_ok k o = true /\ value o "device" = d /\ value o (place_option k) = p /\ value o "name" = n.
Proof.
  intros k d p n kw o Gd. destruct (report_value _ _ _ _ _ _ Gd) as [V _]. destruct Gd as ((O & D & Pl & N & Nn & _) & (R1 & R2) & So).
  assert (Rq : forall x, In x (required k) -> In x (documented k) /\ side x = false) by (intros x Hx; destruct k; cbn in Hx; each Hx; split; try reflexivity; cbn; tauto).
  assert (Vr : forall x, In x (required k) -> value o x = value kw x) by (intros x Hx; destruct (Rq x Hx) as [H1 H2]; rewrite V, meant_value by assumption; reflexivity).
  split; [|split; [rewrite Vr by (destruct k; cbn; auto); exact D|split; [rewrite Vr by (destruct k; cbn; auto); exact Pl|rewrite Vr by (destruct k; cbn; auto); exact N]]].
  unfold options_ok. apply andb_true_intro. split; apply forallb_forall.
  - intros [x v] Hx. cbn [fst]. apply is_in_spec. destruct (in_dec string_dec x (documented k)) as [H|H].
    + destruct k; cbn in H; repeat (destruct H as [<-|H]; [cbn; tauto|]); destruct H.
    + exfalso. apply R2 in H. apply find_keys with (k := x) (m := o); [|exact H]. unfold keys. apply in_map_iff. exists (x, v). auto.
  - intros x Hx. rewrite Vr by exact Hx. apply andb_prop in O. destruct O as [_ O]. rewrite forallb_forall in O. exact (O x Hx).
Qed.

Lemma again_done : forall s g k d p n kw o en, wf s g -> g (k, d, p, n) = Some kw -> get s k d p n = Reported o -> there k d p = true ->
  (forall m x, en m d p x = true) -> exists s', step s en (Create k o) = (s', Done) /\ same s s'.
Proof.
  intros s g k d p n kw o en W Gk Go Th En. assert (H := w_get _ _ W k d p n). rewrite Gk in H. destruct H as (o' & G' & Gd). rewrite Go in G'. inversion G'; subst o'; clear G'.
  destruct (report_ok _ _ _ _ _ _ Gd) as (Ok & D & Pl & N). destruct (report_value _ _ _ _ _ _ Gd) as [V Ro]. assert (Ac := proj1 Gd).
  assert (Dn : exists s', step s en (Create k o) = (s', Done) /\ (forall d' p', names s' k d' p' = names s k d' p') /\ (forall k' d' p', k' <> k -> names s' k' d' p' = names s k' d' p')).
  { cbn [EqReport.step]. unfold create. rewrite Ok, D, Pl, Th. cbn [andb]. destruct k; cbn [place_option] in Pl.
    - unfold create_region. cbv zeta. rewrite D, Pl. unfold optional_model. rewrite !En, !orb_true_r. cbn [andb].
      assert (U : value o "variable_update" = value kw "variable_update") by (rewrite V, meant_value; [reflexivity|reflexivity|cbn; tauto]).
      rewrite U. destruct Ac as (_ & _ & _ & _ & _ & Au). destruct (update_of (value kw "variable_update")) as [u|]; [|congruence].
      set (q := expr_equation _ _ _ _ _ _ _ _ _ _ _ _). destruct (w_reg _ _ W d p) as (l & g0 & I).
      destruct (add_equation (regions s d p) _) as [t ok] eqn:A. assert (X := exec_inv _ _ _ _ (Equation (r_name q) (r_var q) q) _ _ I A).
      assert (F : In n l) by (apply (i_names _ _ _ _ I); cbn [get] in Go; destruct (find n (t_eqs (regions s d p))); [discriminate|congruence]).
      assert (Qn : r_name q = n) by exact N. assert (F' := proj1 (i_names _ _ _ _ I n) F).
      assert (ok = true). { unfold add_equation in A. cbn [q_name q_var q_id] in A. rewrite Qn in A. destruct (find n (t_eqs (regions s d p))) as [oq|]; [|congruence].
        destruct (Nat.eqb _ _); [inversion A; reflexivity|]. destruct (negb _); inversion A; reflexivity. }
      subst ok. eexists. split; [reflexivity|]. split; [|intros k' d' p' Nk; destruct k'; [congruence| |]; reflexivity].
      intros d' p'. unfold names. cbn [regions]. destruct (at_cases _ (regions s) d p t d' p') as [(<- & <- & ->)|(_ & ->)]; [|reflexivity].
      rewrite (by_index_ok _ _ _ _ I), (by_index_ok _ _ _ _ X). cbn [order_step]. rewrite Qn. destruct (in_dec string_dec n l); [reflexivity|contradiction].
    - unfold create_contact. cbv zeta. rewrite D, Pl, N. eexists. split; [reflexivity|]. split; [|intros k' d' p' Nk; destruct k'; [|congruence|]; reflexivity].
      intros d' p'. unfold names. cbn [contacts expr_contact_equation c_name].
      match goal with |- context[at_place (contacts s) d p ?x d' p'] => destruct (at_cases _ (contacts s) d p x d' p') as [(<- & <- & ->)|(_ & ->)]; [|reflexivity] end.
      rewrite keys_put_has; [reflexivity|apply W|]. cbn [get] in Go. destruct (find n (contacts s d p)); [discriminate|congruence].
    - unfold create_interface. cbv zeta. rewrite D, Pl, N, En, andb_true_r.
      assert (M : value o "interface_model" = value kw "interface_model") by (rewrite V, meant_value; [reflexivity|reflexivity|cbn; tauto]).
      assert (U : value o "type" = value kw "type") by (rewrite V, meant_value; [reflexivity|reflexivity|cbn; tauto]).
      destruct Ac as (_ & _ & _ & _ & _ & At & Am). rewrite M, U. destruct (String.eqb_spec (value kw "interface_model") ""); [contradiction|]. cbn [negb].
      destruct (itype_of (value kw "type")) as [u|]; [|congruence].
      eexists. split; [reflexivity|]. split; [|intros k' d' p' Nk; destruct k'; [| |congruence]; reflexivity].
      intros d' p'. unfold names. cbn [interfaces interface_equation i_name].
      match goal with |- context[at_place (interfaces s) d p ?x d' p'] => destruct (at_cases _ (interfaces s) d p x d' p') as [(<- & <- & ->)|(_ & ->)]; [|reflexivity] end.
      rewrite keys_put_has; [reflexivity|apply W|]. cbn [get] in Go. destruct (find n (interfaces s d p)); [discriminate|congruence]. }
  destruct Dn as (s' & E & N1 & N2). exists s'. split; [exact E|].
  assert (W' := step_wf there _ _ _ _ _ _ W E). intros k' d' p'. split.
  - intros n'. assert (Gs := given_create k o g Ok). rewrite D, Pl, N in Gs.
    destruct (place_dec (k', d', p', n') (k, d, p, n)) as [Q|Q].
    + inversion Q; subst k' d' p' n'. assert (H' := w_get _ _ W' k d p n). rewrite Gs in H'. destruct (place_dec _ _) as [_|Z]; [|congruence].
      destruct H' as (o2 & G2 & _ & R2 & S2). rewrite G2, Go, (reports_det _ _ _ _ R2 Ro S2 (proj2 (proj2 Gd))). reflexivity.
    + apply (get_det _ _ _ _ _ _ _ _ W W'). rewrite Gs. destruct (place_dec _ _) as [Z|_]; [contradiction|reflexivity].
  - destruct k, k'; try (apply N1); apply N2; discriminate.
Qed.

(* ---- models that are looked for ---- *)
Lemma create_checked : forall s en k kw s', step s en (Create k kw) = (s', Done) ->
  let d := value kw "device" in let p := value kw (place_option k) in options_ok k kw = true /\ there k d p = true /\
  match k with
  | OnRegion => optional_model en NodeModel d p (value kw "node_model") = true /\ optional_model en NodeModel d p (value kw "time_node_model") = true /\
      optional_model en EdgeModel d p (value kw "edge_model") = true /\ optional_model en EdgeModel d p (value kw "edge_volume_model") = true
  | OnContact => True
  | OnInterface => value kw "interface_model" <> "" /\ en InterfaceModel d p (value kw "interface_model") = true
  end.
Proof.
  intros s en k kw s' E d p. cbn [EqReport.step] in E. unfold create in E. destruct (options_ok k kw && there k _ _) eqn:O; [|discriminate].
  apply andb_prop in O. destruct O as [O Th]. split; [exact O|]. split; [exact Th|]. destruct k; [| exact Logic.I |].
  - unfold create_region in E. cbv zeta in E. destruct (_ && _ && _ && _) eqn:M in E; [|discriminate]. apply andb_prop in M. destruct M as [M M4]. apply andb_prop in M. destruct M as [M M3].
    apply andb_prop in M. destruct M as [M1 M2]. auto.
  - unfold create_interface in E. cbv zeta in E. destruct (_ && _) eqn:M in E; [|discriminate]. apply andb_prop in M. destruct M as [M1 M2]. apply negb_true_iff, String.eqb_neq in M1. auto.
Qed.
End P.
