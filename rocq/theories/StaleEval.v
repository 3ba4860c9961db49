(* Evaluation keeps the invariant of well-ordered regions. *)
From Coq Require Import String List Bool Arith Lia.
From Verif Require Import StrMap Stale StaleProofs StaleSpec.
Import ListNotations.

Section S.
Variable V : Type.
Variable zero : V.
Notation region := (region V). Notation model := (model V). Notation calc := (calc V).
Notation fm := (fm V). Notation up := (up V). Notation dep := (dep V).

Notation within := (within V). Notation strict := (strict V).
Definition no_alias (n : string) : Prop := ends_en n = false.

Section R.
Variable rank : string -> nat.
Variable isvar : string -> Prop.

Definition good_def (n : string) (d : def V) : Prop :=
  match d with
  | Data => True
  | Expr ms vs c => (forall m, In m ms -> rank m < rank n /\ no_alias m /\ ~ isvar m) /\
                    (forall p, In p vs -> rank p < rank n /\ isvar p) /\ within ms vs c /\ strict (fun m => In m ms) c
  end.
Definition refs (d : def V) : list string := match d with Data => [] | Expr ms vs _ => ms ++ vs end.
Record wfr (r : region) : Prop := mkWf {
  w_m : wfm V r;
  w_dep : forall n x, dep r n x <-> exists M, fm r n = Some M /\ In x (refs (m_def M));
  w_def : forall n M, fm r n = Some M -> good_def n (m_def M) /\ ~ isvar n
}.
Lemma wfr_rank : forall r, wfr r -> forall n x, dep r n x -> rank x < rank n.
Proof.
  intros r W n x H. apply (w_dep _ W) in H. destruct H as (M & F & I). destruct (w_def _ W _ _ F) as [G _].
  unfold good_def in G. destruct (m_def M) as [|ms vs c]; cbn in I; [destruct I|]. destruct G as (A & B & _).
  apply in_app_or in I. destruct I as [I|I]; [apply A|apply B]; exact I.
Qed.

Fixpoint prun (r : region) (env : string -> option V) (c : calc) : option V :=
  match c with
  | Ret o => o
  | GetModel n k => prun r env (k (Some (match fm r n with Some M => m_val M | None => zero end)))
  | GetVar n k => prun r env (k (env n))
  end.
Record Inv (H : string -> Prop) (env : string -> option V) (r : region) : Prop := mkInv {
  i_up : forall n M ms vs c m M', fm r n = Some M -> m_up M = true -> m_def M = Expr ms vs c -> In m ms ->
         fm r m = Some M' -> m_def M' <> Data -> ~ H m -> m_up M' = true;
  i_val : forall n M ms vs c, fm r n = Some M -> m_up M = true -> m_def M = Expr ms vs c ->
          (forall h, H h -> ~ In h (ms ++ vs)) -> prun r env c = Some (m_val M)
}.
Lemma Inv_weaken : forall (H H' : string -> Prop) env r, (forall x, H x -> H' x) -> Inv H env r -> Inv H' env r.
Proof.
  intros H H' env r S [A B]. split.
  - intros n M ms vs c m M' F U D I F' D' N. apply (A n M ms vs c m M' F U D I F' D'). intros X. exact (N (S _ X)).
  - intros n M ms vs c F U D N. apply (B n M ms vs c F U D). intros h X. exact (N h (S _ X)).
Qed.
Lemma prun_ext : forall r r' env env' ms vs c, within ms vs c ->
  (forall m, In m ms -> option_map m_val (fm r m) = option_map m_val (fm r' m)) -> (forall p, In p vs -> env p = env' p) ->
  prun r env c = prun r' env' c.
Proof.
  intros r r' env env' ms vs c W A B. induction c as [o|n k IH|n k IH]; cbn in *.
  - reflexivity.
  - destruct W as [I W]. specialize (A n I). destruct (fm r n) as [M|], (fm r' n) as [M'|]; cbn in A; try discriminate.
    + injection A as ->. apply IH. apply W.
    + apply IH. apply W.
  - destruct W as [I W]. rewrite (B n I). apply IH. apply W.
Qed.

(* equal up to flags and the values of expressions *)
Record same (r r' : region) : Prop := mkSame {
  sm_deps : r_deps r' = r_deps r;
  sm_len : length (r_models r') = length (r_models r);
  sm_none : forall n, fm r n = None -> fm r' n = None;
  sm_some : forall n M, fm r n = Some M -> exists v b, fm r' n = Some (mkM (m_edge M) (m_def M) v b) /\ (m_def M = Data -> v = m_val M)
}.
Lemma same_refl : forall r, same r r.
Proof. intros r. split; auto. intros n M F. exists (m_val M), (m_up M). rewrite F. destruct M. auto. Qed.
Lemma same_trans : forall a b c, same a b -> same b c -> same a c.
Proof.
  intros a b c [A1 A2 A3 A4] [B1 B2 B3 B4]. split; [congruence|congruence|auto|].
  intros n M F. destruct (A4 _ _ F) as (v & x & Fx & E). destruct (B4 _ _ Fx) as (w & y & Fy & E'). cbn in *. exists w, y.
  split; [exact Fy|]. intros D. rewrite (E' D). exact (E D).
Qed.
Lemma same_sym : forall a b, same a b -> same b a.
Proof.
  intros a b [A1 A2 A3 A4]. split; [congruence|congruence| |].
  - intros n F. destruct (fm a n) as [M|] eqn:E; [|reflexivity]. destruct (A4 _ _ E) as (v & x & Fx & _). congruence.
  - intros n M F. destruct (fm a n) as [N|] eqn:E; [|rewrite (A3 _ E) in F; discriminate].
    destruct (A4 _ _ E) as (v & x & Fx & D). rewrite F in Fx. injection Fx as ->. cbn. exists (m_val N), (m_up N).
    destruct N. cbn in *. split; [reflexivity|]. intros Z. symmetry. auto.
Qed.
Lemma down_same : forall r r', down V r r' -> same r r'.
Proof.
  intros r r' [A B C D E]. split; auto. intros n M F. destruct (D _ _ F) as (b & Fb & _). exists (m_val M), b. auto.
Qed.
Lemma same_wfr : forall r r', wfm V r' -> same r r' -> wfr r -> wfr r'.
Proof.
  intros r r' Wm S [A B C]. split; [exact Wm| |].
  - intros n x. unfold StaleProofs.dep. rewrite (sm_deps _ _ S). specialize (B n x). unfold StaleProofs.dep in B. rewrite B. split.
    + intros (M & F & I). destruct (sm_some _ _ S _ _ F) as (v & b & F' & _). eexists. split; [exact F'|exact I].
    + intros (M & F & I). destruct (sm_some _ _ (same_sym _ _ S) _ _ F) as (v & b & F' & _). eexists. split; [exact F'|exact I].
  - intros n M F. destruct (sm_some _ _ (same_sym _ _ S) _ _ F) as (v & b & F' & _). exact (C _ _ F').
Qed.

(* ---- the specification only sees what `same` preserves ---- *)
Scheme means_mut := Minimality for means Sort Prop with yields_mut := Minimality for yields Sort Prop.
Combined Scheme means_yields_ind from means_mut, yields_mut.
Lemma means_same_ : forall r r' env, same r r' ->
  (forall n v, means V zero r env n v -> means V zero r' env n v) /\ (forall c v, yields V zero r env c v -> yields V zero r' env c v).
Proof.
  intros r r' env S. apply (means_yields_ind V zero r env).
  - intros n M F D. destruct (sm_some _ _ S _ _ F) as (v & b & F' & E). rewrite <- (E D).
    exact (means_data V zero r' env n (mkM (m_edge M) (m_def M) v b) F' D).
  - intros n M ms vs c v F D _ IH. destruct (sm_some _ _ S _ _ F) as (w & b & F' & _).
    exact (means_expr V zero r' env n (mkM (m_edge M) (m_def M) w b) ms vs c v F' D IH).
  - intros v. apply y_ret.
  - intros n k w v _ A _ B. eapply y_model; eauto.
  - intros p i M k w v Hi Hp N F E _ A _ B. destruct (sm_some _ _ S _ _ F) as (u & b & F' & _).
    eapply y_alias; eauto. apply (sm_none _ _ S). exact N.
  - intros n k v N A _ B. apply y_missing; [apply (sm_none _ _ S); exact N| |exact B].
    intros p i M Hi Hp E F. destruct (sm_some _ _ (same_sym _ _ S) _ _ F) as (u & b & F' & _). exact (A _ _ _ Hi Hp E F').
  - intros n k v _ B. apply y_var. exact B.
Qed.
Lemma means_same : forall r r' env n v, same r r' -> means V zero r env n v <-> means V zero r' env n v.
Proof.
  intros r r' env n v S. split; [exact (proj1 (means_same_ _ _ _ S) n v)|exact (proj1 (means_same_ _ _ _ (same_sym _ _ S)) n v)].
Qed.
Lemma yields_same : forall r r' env c v, same r r' -> yields V zero r env c v <-> yields V zero r' env c v.
Proof.
  intros r r' env n v S. split; [exact (proj2 (means_same_ _ _ _ S) n v)|exact (proj2 (means_same_ _ _ _ (same_sym _ _ S)) n v)].
Qed.
Lemma means_exists : forall r env n v, means V zero r env n v -> exists M, find n (r_models r) = Some M.
Proof. intros r env n v [m M F D|m M ms vs c w F D _]; eauto. Qed.
Lemma app_inj : forall s i p, (i = "0" \/ i = "1")%string -> forall q j, (j = "0" \/ j = "1")%string ->
  (p ++ s ++ i = q ++ s ++ j)%string -> p = q /\ i = j.
Proof.
  intros s i p Hi. 
  assert (L : forall a b, String.length (a ++ b) = String.length a + String.length b).
  { induction a; intros b; cbn; [reflexivity|]. rewrite IHa. reflexivity. }
  assert (A : forall a b c : string, (a ++ b = a ++ c)%string -> b = c).
  { induction a; intros b c E; cbn in E; [exact E|]. injection E as E. exact (IHa _ _ E). }
  induction p as [|x p IH]; intros q j Hj E.
  - assert (Eq : q = ""%string).
    { apply (f_equal String.length) in E. cbn in E. rewrite !L in E. destruct Hi as [->| ->], Hj as [->| ->]; cbn in E; destruct q; cbn in *; try reflexivity; lia. }
    subst q. split; [reflexivity|]. cbn in E. exact (A _ _ _ E).
  - destruct q as [|y q].
    + exfalso. apply (f_equal String.length) in E. cbn in E. rewrite !L in E. destruct Hi as [->| ->], Hj as [->| ->]; cbn in E; lia.
    + cbn in E. injection E as -> E. destruct (IH q j Hj E) as [-> ->]. split; reflexivity.
Qed.
Lemma yields_model : forall r env n k v, yields V zero r env (GetModel n k) v ->
  (exists w, means V zero r env n w /\ yields V zero r env (k (Some w)) v) \/
  (exists p i M w, n = (p ++ "@en" ++ i)%string /\ (i = "0" \/ i = "1")%string /\ p <> ""%string /\ find n (r_models r) = None /\
     find (p ++ "@n" ++ i)%string (r_models r) = Some M /\ m_edge M = true /\ means V zero r env (p ++ "@n" ++ i)%string w /\
     yields V zero r env (k (Some w)) v) \/
  (find n (r_models r) = None /\
   (forall p i M, (i = "0" \/ i = "1")%string -> p <> ""%string -> n = (p ++ "@en" ++ i)%string ->
      find (p ++ "@n" ++ i)%string (r_models r) = Some M -> m_edge M = false) /\ yields V zero r env (k (Some zero)) v).
Proof.
  intros r env n k v H. remember (GetModel n k) as c eqn:Ec. destruct H as [u|x k' w' u Hm' Y|p i M k' w' u Hi Hp N F E Hm' Y|x k' u N X Y|x k' u Y];
    try discriminate; injection Ec as <- <-.
  - left. eauto.
  - right. left. exists p, i, M, w'. repeat split; assumption.
  - right. right. auto.
Qed.
Lemma yields_var : forall r env n k v, yields V zero r env (GetVar n k) v -> yields V zero r env (k (env n)) v.
Proof. intros r env n k v H. inversion H; subst; assumption. Qed.
Lemma means_det_ : forall r env,
  (forall n v, means V zero r env n v -> forall v', means V zero r env n v' -> v = v') /\
  (forall c v, yields V zero r env c v -> forall v', yields V zero r env c v' -> v = v').
Proof.
  intros r env. apply (means_yields_ind V zero r env).
  - intros n M F D v' H. inversion H as [x N F' D' E1 E2|x N ms vs c w F' D' Y E1 E2]; subst; rewrite F in F'; injection F' as <-; [reflexivity|congruence].
  - intros n M ms vs c v F D _ IH v' H. inversion H as [x N F' D' E1 E2|x N ms' vs' c' w F' D' Y E1 E2]; subst; rewrite F in F'; injection F' as <-.
    + congruence.
    + rewrite D in D'. injection D' as <- <- <-. exact (IH _ Y).
  - intros v v' H. inversion H. reflexivity.
  - intros n k w v Hm A _ B v' H. destruct (means_exists _ _ _ _ Hm) as (M & F).
    destruct (yields_model _ _ _ _ _ H) as [(w' & Hm' & Y)|[(p & i & M' & w' & En & Hi & Hp & N & _)|(N & _)]]; [|congruence|congruence].
    rewrite (A _ Hm') in B. exact (B _ Y).
  - intros p i M k w v Hi Hp N F E Hm A _ B v' H.
    destruct (yields_model _ _ _ _ _ H) as [(w' & Hm' & Y)|[(p' & i' & M' & w' & En & Hi' & Hp' & N' & F' & E' & Hm' & Y)|(N' & X & _)]].
    + destruct (means_exists _ _ _ _ Hm') as (M' & F'). congruence.
    + destruct (app_inj "@en" i p Hi p' i' Hi' En) as [<- <-]. rewrite (A _ Hm') in B. exact (B _ Y).
    + rewrite (X p i M Hi Hp eq_refl F) in E. discriminate.
  - intros n k v N X _ B v' H.
    destruct (yields_model _ _ _ _ _ H) as [(w' & Hm' & Y)|[(p' & i' & M' & w' & En & Hi' & Hp' & N' & F' & E' & Hm' & Y)|(N' & X' & Y)]].
    + destruct (means_exists _ _ _ _ Hm') as (M' & F'). congruence.
    + rewrite (X p' i' M' Hi' Hp' En F') in E'. discriminate.
    + exact (B _ Y).
  - intros n k v _ B v' H. apply yields_var in H. exact (B _ H).
Qed.
Definition means_det r env n v v' H H' := proj1 (means_det_ r env) n v H v' H'.

(* ---- aliases ---- *)
Lemma length_app : forall a b, String.length (a ++ b) = String.length a + String.length b.
Proof. induction a; intros b; cbn; [reflexivity|]. rewrite IHa. reflexivity. Qed.
Lemma substring_app : forall p t m, substring (String.length p) m (p ++ t) = substring 0 m t.
Proof. induction p; intros t m; cbn; [reflexivity|]. apply IHp. Qed.
Lemma no_alias_spec : forall n p i, no_alias n -> (i = "0" \/ i = "1")%string -> n <> (p ++ "@en" ++ i)%string.
Proof.
  intros n p i N Hi ->. unfold no_alias, ends_en in N. rewrite length_app in N.
  replace (String.length p + String.length ("@en" ++ i) - 4) with (String.length p) in N by (destruct Hi as [->| ->]; cbn; lia).
  rewrite substring_app in N. destruct Hi as [->| ->]; cbn in N; discriminate.
Qed.
Lemma substring_split : forall k n, k <= String.length n -> n = (substring 0 k n ++ substring k (String.length n - k) n)%string.
Proof.
  induction k as [|k IH]; intros n L.
  - rewrite Nat.sub_0_r. destruct n as [|c n]; [reflexivity|]. cbn. f_equal. clear. induction n as [|c n IH]; [reflexivity|cbn; f_equal; exact IH].
  - destruct n as [|c n]; [cbn in L; lia|]. cbn in L |- *. f_equal. apply IH. lia.
Qed.
Lemma no_alias_iff : forall n, (forall p i, (i = "0" \/ i = "1")%string -> n <> (p ++ "@en" ++ i)%string) -> no_alias n.
Proof.
  intros n H. unfold no_alias, ends_en. destruct (le_lt_dec 4 (String.length n)) as [L|L].
  - assert (E := substring_split (String.length n - 4) n ltac:(lia)).
    replace (String.length n - (String.length n - 4)) with 4 in E by lia.
    destruct (String.eqb_spec (substring (String.length n - 4) 4 n) "@en0") as [X|X];
      [rewrite X in E; exfalso; exact (H _ "0"%string (or_introl eq_refl) E)|].
    destruct (String.eqb_spec (substring (String.length n - 4) 4 n) "@en1") as [Y|Y];
      [rewrite Y in E; exfalso; exact (H _ "1"%string (or_intror eq_refl) E)|reflexivity].
  - replace (String.length n - 4) with 0 by lia.
    assert (G : forall i, substring 0 4 n <> ("@en" ++ String i "")%string).
    { intros i X. clear H. destruct n as [|a [|b [|c [|d n]]]]; cbn in X, L; try discriminate; lia. }
    destruct (String.eqb_spec (substring 0 4 n) "@en0") as [X|X]; [exfalso; exact (G _ X)|].
    destruct (String.eqb_spec (substring 0 4 n) "@en1") as [Y|Y]; [exfalso; exact (G _ Y)|reflexivity].
Qed.
Lemma resolve_no_alias : forall r n, no_alias n -> resolve V r n = if has n (r_models r) then Some n else None.
Proof.
  intros r n N. unfold resolve, alias_of. rewrite N. unfold has. destruct (find n (r_models r)); [reflexivity|].
  destruct (Nat.ltb 4 (String.length n)); reflexivity.
Qed.

(* ---- signals fill holes ---- *)
Definition minus (H : string -> Prop) (x : string) : string -> Prop := fun h => H h /\ h <> x.
Lemma down_prun : forall r r' env c, down V r r' -> prun r' env c = prun r env c.
Proof.
  intros r r' env c D. induction c as [o|n k IH|n k IH]; cbn; [reflexivity| |apply IH].
  destruct (fm r n) as [M|] eqn:E.
  - destruct (d_some _ _ _ D _ _ E) as (b & F & _). rewrite F. cbn. apply IH.
  - rewrite (d_none _ _ _ D _ E). apply IH.
Qed.
Lemma down_back : forall r r' n M, down V r r' -> fm r' n = Some M ->
  exists b, fm r n = Some (mkM (m_edge M) (m_def M) (m_val M) b) /\ (m_up M = true -> b = true).
Proof.
  intros r r' n M D F. destruct (fm r n) as [N|] eqn:E; [|rewrite (d_none _ _ _ D _ E) in F; discriminate].
  destruct (d_some _ _ _ D _ _ E) as (b & F' & U). rewrite F in F'. injection F' as ->. cbn. exists (m_up N). destruct N. auto.
Qed.
Lemma signal_Inv : forall H env r x, wfr r -> Inv H env r -> Inv (minus H x) env (signal_ V r x).
Proof.
  intros H env r x W [A B]. destruct (signal__post V r x (w_m _ W)) as [D P1 P2 P3 P4]. set (r' := signal_ V r x) in *. split.
  - intros n M ms vs c m M' F U E I F' E' N.
    destruct (down_back _ _ _ _ D F) as (b & Fr & Ub). specialize (Ub U). subst b.
    destruct (down_back _ _ _ _ D F') as (b' & Fr' & _).
    assert (Hd : dep r n m). { apply (w_dep _ W). eexists. split; [exact Fr|]. cbn. rewrite E. cbn. apply in_or_app. left. exact I. }
    assert (Un : up r' n) by (exists M; auto).
    destruct (string_dec m x) as [->|Hx]; [exfalso; exact (P1 n Hd Un)|].
    assert (Hm : b' = true). { exact (A n _ ms vs c m _ Fr eq_refl E I Fr' E' ltac:(intros X; apply N; split; assumption)). }
    subst b'. destruct (m_up M') eqn:UM; [reflexivity|]. exfalso.
    apply (P2 m n); [|exact Hd|exact Un]. split; [eexists; split; [exact Fr'|reflexivity]|]. intros (Z & FZ & UZ). congruence.
  - intros n M ms vs c F U E N. destruct (down_back _ _ _ _ D F) as (b & Fr & Ub). specialize (Ub U). subst b.
    rewrite (down_prun _ _ _ _ D). apply (B n _ ms vs c Fr eq_refl E). intros h Hh I.
    destruct (string_dec h x) as [->|Hx]; [|apply (N h); [split; assumption|exact I]].
    apply (P1 n); [|exists M; auto]. apply (w_dep _ W). eexists. split; [exact Fr|]. cbn. rewrite E. exact I.
Qed.
Lemma signal_wfr : forall r x, wfr r -> wfr (signal_ V r x).
Proof.
  intros r x W. destruct (signal__post V r x (w_m _ W)) as [D _ _ _ _]. apply (same_wfr r); [|apply down_same; exact D|exact W].
  apply (d_wf _ _ _ D). apply w_m. exact W.
Qed.

(* ---- set_values ---- *)
Lemma set_val_same : forall r n v M, wfm V r -> fm r n = Some M -> m_def M <> Data \/ v = m_val M -> same r (set_val V r n v).
Proof.
  intros r n v M W F D. split; [apply set_val_deps|apply set_val_len; exact W| |].
  - intros x N. rewrite fm_set_val by exact W. destruct (String.eqb_spec x n) as [->|]; [congruence|exact N].
  - intros x X Fx. rewrite fm_set_val by exact W. destruct (String.eqb_spec x n) as [->|].
    + rewrite Fx. rewrite F in Fx. injection Fx as <-. exists v, (m_up M). split; [reflexivity|]. intros Z. destruct D as [D|D]; [contradiction|exact D].
    + exists (m_val X), (m_up X). rewrite Fx. destruct X. auto.
Qed.
Lemma set_up_same : forall r n b, wfm V r -> same r (set_up V r n b).
Proof.
  intros r n b W. split; [apply set_up_deps|apply set_up_len; exact W| |].
  - intros x N. rewrite fm_set_up by exact W. destruct (String.eqb_spec x n) as [->|]; [rewrite N; reflexivity|exact N].
  - intros x X Fx. rewrite fm_set_up by exact W. destruct (String.eqb_spec x n) as [->|].
    + rewrite Fx. eauto.
    + exists (m_val X), (m_up X). rewrite Fx. destruct X. auto.
Qed.
Record sv_post (H : string -> Prop) (env : string -> option V) (r r' : region) (n : string) (v : V) (M : model) : Prop := mkSv {
  sv_wf : wfr r';
  sv_deps : r_deps r' = r_deps r;
  sv_len : length (r_models r') = length (r_models r);
  sv_none : forall x, fm r x = None -> fm r' x = None;
  sv_this : fm r' n = Some (mkM (m_edge M) (m_def M) v true);
  sv_other : forall x X, x <> n -> fm r x = Some X -> exists b, fm r' x = Some (mkM (m_edge X) (m_def X) (m_val X) b) /\ (b = true -> m_up X = true);
  sv_low : forall x X, rank x <= rank n -> x <> n -> fm r x = Some X -> fm r' x = Some X;
  sv_keep : forall k x X, rank x < k -> ~ H n \/ k <= rank n -> m_up M = false -> m_def M <> Data -> x <> n -> fm r x = Some X -> m_up X = true ->
            m_def X <> Data -> fm r' x = Some X;
  sv_inv : Inv (minus H n) env r'
}.
Lemma set_values_ok : forall H env r n v M, wfr r -> Inv H env r -> fm r n = Some M ->
  (forall ms vs c, m_def M = Expr ms vs c ->
     (forall m M', In m ms -> fm r m = Some M' -> m_def M' <> Data -> ~ minus H n m -> m_up M' = true) /\ prun r env c = Some v) ->
  sv_post H env r (set_values V r n v) n v M.
Proof.
  intros H env r n v M W I F HE. assert (Wm := w_m _ W). unfold set_values, mark_old.
  set (r1 := set_val V r n v). assert (W1 : wfm V r1) by (apply set_val_wf; exact Wm).
  set (r2 := set_up V r1 n false). assert (W2 : wfm V r2) by (apply set_up_wf; exact W1).
  set (r3 := signal_ V r2 n).
  assert (F2 : forall x, fm r2 x = if String.eqb x n then Some (mkM (m_edge M) (m_def M) v false) else fm r x).
  { intros x. unfold r2. rewrite fm_set_up by exact W1. unfold r1. rewrite !fm_set_val by exact Wm. rewrite String.eqb_refl, F. cbn.
    destruct (String.eqb x n); reflexivity. }
  assert (D2 : r_deps r2 = r_deps r) by (unfold r2, r1; rewrite set_up_deps, set_val_deps; reflexivity).
  assert (Wr2 : wfr r2).
  { destruct W as [Wa Wb Wc]. split; [exact W2| |].
    - intros x y. unfold StaleProofs.dep. rewrite D2. specialize (Wb x y). unfold StaleProofs.dep in Wb. rewrite Wb, F2.
      destruct (String.eqb_spec x n) as [->|]; [|reflexivity]. split; intros (N & FN & IN); eexists; (split; [try reflexivity|]); rewrite ?F in FN.
      + injection FN as <-. exact IN.
      + exact F.
      + injection FN as <-. exact IN.
    - intros x X Fx. rewrite F2 in Fx. destruct (String.eqb_spec x n) as [->|]; [|exact (Wc _ _ Fx)]. injection Fx as <-. exact (Wc _ _ F). }
  assert (P2 : forall env' c ms vs, within ms vs c -> ~ In n ms -> prun r2 env' c = prun r env' c).
  { intros env' c ms vs Hw Hn. apply (prun_ext _ _ _ _ ms vs); [exact Hw| |reflexivity]. intros m Hm. rewrite F2.
    destruct (String.eqb_spec m n) as [->|]; [contradiction|reflexivity]. }
  assert (Wi : forall x X ms vs c, fm r x = Some X -> m_def X = Expr ms vs c -> within ms vs c).
  { intros x X ms vs c Fx Ex. destruct (w_def _ W _ _ Fx) as [G _]. rewrite Ex in G. apply G. }
  assert (I2 : Inv (fun h => H h \/ h = n) env r2).
  { destruct I as [Ia Ib]. split.
    - intros x X ms vs c m M' Fx Ux Ex Im Fm Em Nm. rewrite F2 in Fx, Fm.
      destruct (String.eqb_spec x n) as [->|Hx]; [injection Fx as <-; discriminate|].
      destruct (String.eqb_spec m n) as [->|Hm]; [exfalso; apply Nm; right; reflexivity|].
      apply (Ia x X ms vs c m M' Fx Ux Ex Im Fm Em). intros Z. apply Nm. left. exact Z.
    - intros x X ms vs c Fx Ux Ex N. rewrite F2 in Fx. destruct (String.eqb_spec x n) as [->|Hx]; [injection Fx as <-; discriminate|].
      rewrite (P2 env c ms vs (Wi _ _ _ _ _ Fx Ex)); [|intros Z; apply (N n); [right; reflexivity|apply in_or_app; left; exact Z]].
      apply (Ib x X ms vs c Fx Ux Ex). intros h Hh. apply N. left. exact Hh. }
  assert (I3 : Inv (minus H n) env r3).
  { apply (Inv_weaken (minus (fun h => H h \/ h = n) n)); [|apply signal_Inv; assumption].
    intros x [[Hx| ->] Nx]; [split; assumption|congruence]. }
  assert (Wr3 : wfr r3) by (apply signal_wfr; exact Wr2).
  destruct (signal__post V r2 n W2) as [D P1 Pc Pi _]. fold r3 in D, P1, Pc, Pi.
  assert (W3 : wfm V r3) by (apply w_m; exact Wr3).
  assert (N3 : forall x, x <> n -> fm (set_up V r3 n true) x = fm r3 x).
  { intros x Hx. rewrite fm_set_up by exact W3. destruct (String.eqb_spec x n); [contradiction|reflexivity]. }
  assert (T3 : exists b, fm r3 n = Some (mkM (m_edge M) (m_def M) v b)).
  { destruct (d_some _ _ _ D n (mkM (m_edge M) (m_def M) v false)) as (b & Fb & _); [rewrite F2, String.eqb_refl; reflexivity|]. eauto. }
  destruct T3 as (b3 & T3).
  assert (T4 : fm (set_up V r3 n true) n = Some (mkM (m_edge M) (m_def M) v true)).
  { rewrite fm_set_up by exact W3. rewrite String.eqb_refl, T3. reflexivity. }
  assert (Or : forall x X, x <> n -> fm r x = Some X -> exists b, fm r3 x = Some (mkM (m_edge X) (m_def X) (m_val X) b) /\ (b = true -> m_up X = true)).
  { intros x X Hx Fx. apply (d_some _ _ _ D). rewrite F2. destruct (String.eqb_spec x n); [contradiction|exact Fx]. }
  assert (Keep : forall Q : string -> Prop, (forall m, dep r2 m n -> up r2 m -> Q m) -> (forall m q, Q m -> dep r2 q m -> up r2 q -> Q q) ->
      forall x X, x <> n -> fm r x = Some X -> ~ Q x -> fm r3 x = Some X).
  { intros Q Q0 Q1 x X Hx Fx NQ. destruct (Or x X Hx Fx) as (b & Fb & Ub).
    destruct (m_up X) eqn:UX.
    - destruct b; [rewrite Fb; destruct X; cbn in *; subst; reflexivity|]. exfalso. apply NQ. apply (Pi Q Q0 Q1). split.
      + exists X. split; [rewrite F2; destruct (String.eqb_spec x n); [contradiction|exact Fx]|exact UX].
      + intros (Z & FZ & UZ). rewrite Fb in FZ. injection FZ as <-. discriminate.
    - destruct b; [specialize (Ub eq_refl); congruence|]. rewrite Fb. destruct X. cbn in *. subst. reflexivity. }
  assert (Low : forall x X, rank x <= rank n -> x <> n -> fm r x = Some X -> fm r3 x = Some X).
  { intros x X Hr Hx Fx. apply (Keep (fun y => rank n < rank y)); [intros m Hm _; exact (wfr_rank _ Wr2 _ _ Hm)| |exact Hx|exact Fx|lia].
    intros m q Hm Hq _. pose proof (wfr_rank _ Wr2 _ _ Hq). lia. }
  split.
  - apply (same_wfr r3); [apply set_up_wf; exact W3|apply set_up_same; exact W3|exact Wr3].
  - rewrite set_up_deps, (d_deps _ _ _ D). exact D2.
  - rewrite set_up_len by exact W3. rewrite (d_len _ _ _ D). unfold r2, r1. rewrite set_up_len by exact W1. apply set_val_len. exact Wm.
  - intros x Nx. rewrite N3 by congruence. apply (d_none _ _ _ D). rewrite F2. destruct (String.eqb_spec x n); [congruence|exact Nx].
  - exact T4.
  - intros x X Hx Fx. rewrite N3 by exact Hx. exact (Or x X Hx Fx).
  - intros x X Hr Hx Fx. rewrite N3 by exact Hx. exact (Low x X Hr Hx Fx).
  - intros k x X Hk HH UM DM Hx Fx UX DX. rewrite N3 by exact Hx.
    apply (Keep (fun y => k <= rank y)); [| |exact Hx|exact Fx|lia].
    + intros m Hm (Z & FZ & UZ). rewrite F2 in FZ. destruct (String.eqb_spec m n) as [->|Hmn]; [injection FZ as <-; discriminate|].
      apply (w_dep _ Wr2) in Hm. destruct Hm as (Z' & FZ' & IZ). rewrite F2 in FZ'.
      destruct (String.eqb_spec m n) as [->|_]; [contradiction|]. rewrite FZ in FZ'. injection FZ' as <-.
      destruct (le_lt_dec k (rank m)) as [L|L]; [exact L|]. exfalso.
      destruct (w_def _ W _ _ FZ) as [G _]. destruct (m_def Z) as [|ms vs c] eqn:EZ; [destruct IZ|]. cbn in IZ. cbn in G. destruct G as (G1 & G2 & _).
      apply in_app_or in IZ. destruct IZ as [IZ|IZ].
      * destruct HH as [HH|HH].
        -- rewrite (i_up _ _ _ I m Z ms vs c n M FZ UZ EZ IZ F DM HH) in UM. discriminate.
        -- destruct (G1 _ IZ) as [G1a _]. lia.
      * destruct (G2 _ IZ) as [_ G2a]. apply (proj2 (w_def _ W _ _ F)). exact G2a.
    + intros m q Hm Hq _. pose proof (wfr_rank _ Wr2 _ _ Hq). lia.
  - assert (Pr : forall c ms vs, within ms vs c -> prun (set_up V r3 n true) env c = prun r3 env c).
    { intros c ms vs Hw. apply (prun_ext _ _ _ _ ms vs); [exact Hw| |reflexivity]. intros m Hm.
      destruct (string_dec m n) as [->|Hmn]; [rewrite T4, T3; reflexivity|rewrite N3 by exact Hmn; reflexivity]. }
    destruct I3 as [Ia Ib]. split.
    + intros x X ms vs c m M' Fx Ux Ex Im Fm Em Nm. destruct (string_dec m n) as [->|Hm]; [rewrite T4 in Fm; injection Fm as <-; reflexivity|].
      rewrite N3 in Fm by exact Hm. destruct (string_dec x n) as [->|Hx].
      * rewrite T4 in Fx. injection Fx as <-. cbn in Ex. destruct (HE ms vs c Ex) as [HE1 _].
        assert (Rm : rank m < rank n). { destruct (w_def _ W _ _ F) as [G _]. rewrite Ex in G. exact (proj1 (proj1 G m Im)). }
        destruct (fm r m) as [X0|] eqn:Fr.
        -- assert (Fm' := Low m X0 ltac:(lia) Hm Fr). rewrite Fm in Fm'. injection Fm' as ->. exact (HE1 m _ Im Fr Em Nm).
        -- exfalso. assert (Z : fm r3 m = None). { apply (d_none _ _ _ D). rewrite F2. destruct (String.eqb_spec m n); [contradiction|exact Fr]. } congruence.
      * rewrite N3 in Fx by exact Hx. exact (Ia x X ms vs c m M' Fx Ux Ex Im Fm Em Nm).
    + intros x X ms vs c Fx Ux Ex Nx. destruct (string_dec x n) as [->|Hx].
      * rewrite T4 in Fx. injection Fx as <-. cbn [m_def m_val] in Ex |- *. destruct (HE ms vs c Ex) as [_ HE2].
        assert (Hw := Wi _ _ _ _ _ F Ex).
        rewrite (Pr c ms vs Hw), (down_prun _ _ _ _ D). rewrite (P2 env c ms vs Hw); [exact HE2|].
        intros Z. destruct (w_def _ W _ _ F) as [G _]. rewrite Ex in G. destruct G as (G1 & _). destruct (G1 _ Z). lia.
      * rewrite N3 in Fx by exact Hx.
        assert (Hw : within ms vs c). { destruct (w_def _ Wr3 _ _ Fx) as [G _]. rewrite Ex in G. apply G. }
        rewrite (Pr c ms vs Hw). exact (Ib x X ms vs c Fx Ux Ex Nx).
Qed.

(* ---- up to date values are the meaning ---- *)
Lemma prun_yields : forall r env ms vs c v, within ms vs c -> (forall m, In m ms -> no_alias m) ->
  (forall m M, In m ms -> fm r m = Some M -> means V zero r env m (m_val M)) ->
  prun r env c = Some v -> yields V zero r env c v.
Proof.
  intros r env ms vs c v W NA Hm. induction c as [o|n k IH|n k IH]; cbn [prun within] in *.
  - intros ->. apply y_ret.
  - destruct W as [I W]. intros E. destruct (fm r n) as [M|] eqn:F.
    + apply (y_model V zero r env n k (m_val M)); [exact (Hm _ _ I F)|]. apply IH; [apply W|exact E].
    + apply y_missing; [exact F| |apply IH; [apply W|exact E]].
      intros p i M Hi _ En _. exfalso. exact (no_alias_spec n p i (NA _ I) Hi En).
  - destruct W as [I W]. intros E. apply y_var. apply IH; [apply W|exact E].
Qed.
Lemma up_means : forall H env r k, wfr r -> Inv H env r -> (forall h, H h -> k <= rank h) ->
  forall n M, rank n <= k -> fm r n = Some M -> m_def M = Data \/ m_up M = true -> means V zero r env n (m_val M).
Proof.
  intros H env r k W I HH n. remember (rank n) as q eqn:Eq. revert n Eq.
  induction q as [q IH] using lt_wf_ind. intros n -> M Hk F U.
  destruct (m_def M) as [|ms vs c] eqn:D.
  - apply means_data; assumption.
  - destruct U as [U|U]; [discriminate|]. destruct (w_def _ W _ _ F) as [G _]. rewrite D in G. destruct G as (G1 & G2 & G3 & G4).
    apply (means_expr V zero r env n M ms vs c); [exact F|exact D|].
    apply (prun_yields r env ms vs c); [exact G3|intros m Hm; apply G1; exact Hm| |].
    + intros m M' Hm Fm. destruct (G1 m Hm) as (R & _ & _). apply (IH (rank m) R m eq_refl M' ltac:(lia) Fm).
      destruct (m_def M') as [|ms' vs' c'] eqn:D'; [left; reflexivity|right].
      apply (i_up _ _ _ I n M ms vs c m M' F U D Hm Fm); [congruence|]. intros X. specialize (HH _ X). lia.
    + apply (i_val _ _ _ I n M ms vs c F U D). intros h Hh X. specialize (HH h Hh).
      apply in_app_or in X. destruct X as [X|X]; [destruct (G1 _ X)|destruct (G2 _ X)]; lia.
Qed.

Definition solid (r : region) (n : string) (v : V) : Prop :=
  exists M, fm r n = Some M /\ m_val M = v /\ (m_def M = Data \/ m_up M = true).
Record epost (H : string -> Prop) (env : string -> option V) (k b : nat) (r r' : region) : Prop := mkE {
  e_wf : wfr r';
  e_same : same r r';
  e_inv : Inv H env r';
  e_frame : forall y v, rank y < k -> solid r y v -> solid r' y v;
  e_new : forall y, up r' y -> up r y \/ rank y < b
}.
Lemma epost_refl : forall H env k b r, wfr r -> Inv H env r -> epost H env k b r r.
Proof. intros H env k b r W I. split; auto. apply same_refl. Qed.
Lemma epost_trans : forall H env k b b' r r' r'', b <= b' -> epost H env k b r r' -> epost H env k b' r' r'' -> epost H env k b' r r''.
Proof.
  intros H env k b b' r r' r'' L [A1 A2 A3 A4 A5] [B1 B2 B3 B4 B5]. split; auto.
  - exact (same_trans _ _ _ A2 B2).
  - intros y U. destruct (B5 _ U) as [U'|]; [|right; assumption]. destruct (A5 _ U'); [left; assumption|right; lia].
Qed.
Definition outcome (env : string -> option V) (r r' : region) (n : string) (x : res V) : Prop :=
  match x with
  | Val v => solid r' n v /\ means V zero r env n v
  | Throw => forall v, ~ means V zero r env n v
  | NoFuel => False
  end.
Definition ev_ok (H : string -> Prop) (env : string -> option V) (k b : nat) (ev : region -> string -> region * res V) : Prop :=
  forall r m M, wfr r -> Inv H env r -> rank m < b -> fm r m = Some M ->
    epost H env k b r (fst (ev r m)) /\ outcome env r (fst (ev r m)) m (snd (ev r m)).
Lemma run_ok : forall H env k b ev stk ms vs, ev_ok H env k b ev -> b <= k -> (forall s, In s stk -> b <= rank s) ->
  (forall m, In m ms -> rank m < b /\ no_alias m) ->
  forall c r todo, within ms vs c -> strict todo c -> wfr r -> Inv H env r ->
  let r' := fst (run V zero env ev stk c r) in
  epost H env k b r r' /\
  match snd (run V zero env ev stk c r) with
  | Val v => yields V zero r env c v /\ prun r' env c = Some v /\
             (forall m M, todo m -> fm r' m = Some M -> m_def M <> Data -> m_up M = true)
  | Throw => forall v, ~ yields V zero r env c v
  | NoFuel => False
  end.
Proof.
  intros H env k b ev stk ms vs Hev Hbk Hstk Hms c. induction c as [[v|]|n c IH|n c IH]; intros r todo Hw Hs W I; cbn [run].
  - cbn. split; [apply epost_refl; assumption|]. split; [apply y_ret|]. split; [reflexivity|]. intros m M Hm. exfalso. exact (Hs m Hm).
  - cbn. split; [apply epost_refl; assumption|]. intros v Y. inversion Y.
  - cbn [within strict] in Hw, Hs. destruct Hw as [Hn Hw]. destruct (Hms n Hn) as [Rn An].
    rewrite (resolve_no_alias _ _ An). unfold has. destruct (find n (r_models r)) as [M|] eqn:F.
    + destruct (mem n stk) eqn:Es; [apply mem_In in Es; specialize (Hstk _ Es); lia|].
      destruct (Hev r n M W I Rn F) as [E O]. destruct (ev r n) as [r1 x]. cbn [fst snd] in E, O.
      destruct x as [w| |]; cbn [fst snd].
      * destruct O as [So Mn]. specialize (IH (Some w) r1 _ (Hw _) (Hs _) (e_wf _ _ _ _ _ _ E) (e_inv _ _ _ _ _ _ E)).
        destruct IH as [E' R]. cbn zeta in E', R |- *.
        destruct (run V zero env ev stk (c (Some w)) r1) as [r2 x2]. cbn [fst snd] in *.
        split; [exact (epost_trans _ _ _ b b _ _ _ ltac:(lia) E E')|].
        assert (So2 : solid r2 n w) by (apply (e_frame _ _ _ _ _ _ E'); [lia|exact So]).
        destruct x2 as [v| |].
        -- destruct R as (Y & P & T). split; [|split].
           ++ apply (y_model V zero r env n c w); [exact Mn|]. apply (yields_same r r1); [apply (e_same _ _ _ _ _ _ E)|exact Y].
           ++ cbn [prun]. destruct So2 as (M2 & F2 & V2 & _). rewrite F2, V2. exact P.
           ++ intros m M2 Tm F2 D2. destruct (string_dec m n) as [->|Hmn].
              ** destruct So2 as (M3 & F3 & _ & D3). rewrite F2 in F3. injection F3 as <-. destruct D3; [contradiction|assumption].
              ** apply (T m M2 (conj Tm Hmn) F2 D2).
        -- intros v Y. destruct (yields_model _ _ _ _ _ Y) as [(w' & Hm' & Y')|[(p & i & M' & w' & _ & _ & _ & N & _)|(N & _)]]; [|congruence|congruence].
           rewrite <- (means_det _ _ _ _ _ Mn Hm') in Y'. apply (R v). apply (yields_same r r1); [apply (e_same _ _ _ _ _ _ E)|exact Y'].
        -- exact R.
      * split; [exact E|]. intros v Y.
        destruct (yields_model _ _ _ _ _ Y) as [(w' & Hm' & Y')|[(p & i & M' & w' & _ & _ & _ & N & _)|(N & _)]]; [|congruence|congruence].
        exact (O _ Hm').
      * destruct O.
    + specialize (IH (Some zero) r _ (Hw _) (Hs _) W I). destruct IH as [E' R]. cbn zeta in *.
      destruct (run V zero env ev stk (c (Some zero)) r) as [r2 x2]. cbn [fst snd] in *. split; [exact E'|].
      destruct x2 as [v| |].
      * destruct R as (Y & P & T). assert (F2 : fm r2 n = None) by (apply (sm_none _ _ (e_same _ _ _ _ _ _ E')); exact F). split; [|split].
        -- apply y_missing; [exact F| |exact Y]. intros p i M Hi _ En _. exfalso. exact (no_alias_spec n p i An Hi En).
        -- cbn [prun]. rewrite F2. exact P.
        -- intros m M2 Tm Fm D2. apply (T m M2); [split; [exact Tm|congruence]|exact Fm|exact D2].
      * intros v Y. destruct (yields_model _ _ _ _ _ Y) as [(w' & Hm' & Y')|[(p & i & M' & w' & En & Hi & _)|(N & _ & Y')]].
        -- destruct (means_exists _ _ _ _ Hm'). congruence.
        -- exact (no_alias_spec n p i An Hi En).
        -- exact (R v Y').
      * exact R.
  - cbn [within strict] in Hw, Hs. destruct Hw as [Hn Hw]. specialize (IH (env n) r _ (Hw _) (Hs _) W I). destruct IH as [E' R]. cbn zeta in *.
    destruct (run V zero env ev stk (c (env n)) r) as [r2 x2]. cbn [fst snd] in *. split; [exact E'|]. destruct x2 as [v| |].
    + destruct R as (Y & P & T). split; [apply y_var; exact Y|]. split; [exact P|exact T].
    + intros v Y. apply (R v). apply yields_var. exact Y.
    + exact R.
Qed.

Lemma eval_ok : forall fuel env H k stk r n M, wfr r -> Inv H env r -> rank n < fuel -> rank n <= k -> (forall h, H h -> k <= rank h) ->
  (forall s, In s stk -> rank n < rank s) -> fm r n = Some M ->
  let r' := fst (eval V zero env fuel stk r n) in let x := snd (eval V zero env fuel stk r n) in
  epost H env k (S (rank n)) r r' /\ outcome env r r' n x /\
  (forall v, x = Val v -> m_up M = false -> m_def M <> Data -> Inv (minus H n) env r').
Proof.
  induction fuel as [|fuel IH]; intros env H k stk r n M W I Hf Hk HH Hstk F; [lia|]. cbn [eval].
  change (find n (r_models r)) with (fm r n). rewrite F. destruct (m_up M) eqn:U.
  { cbn. split; [apply epost_refl; assumption|]. split; [|intros; discriminate]. split.
    - exists M. auto.
    - apply (up_means H env r k W I HH n M Hk F). right. exact U. }
  destruct (m_def M) as [|ms vs c] eqn:D.
  - cbn [fst snd]. assert (Wm := w_m _ W). assert (Sm := set_up_same r n true Wm).
    assert (FF : forall x, fm (set_up V r n true) x = if String.eqb x n then Some (mkM (m_edge M) Data (m_val M) true) else fm r x).
    { intros x. rewrite fm_set_up by exact Wm. rewrite F, D. reflexivity. }
    assert (PP : forall c, prun (set_up V r n true) env c = prun r env c).
    { induction c as [o|x c IHc|x c IHc]; cbn [prun]; [reflexivity| |apply IHc]. rewrite FF. destruct (String.eqb_spec x n) as [->|]; [rewrite F|]; apply IHc. }
    assert (W' : wfr (set_up V r n true)) by (apply (same_wfr r); [apply set_up_wf; exact Wm|exact Sm|exact W]).
    split; [split|split; [split|]].
    + exact W'.
    + exact Sm.
    + destruct I as [Ia Ib]. split.
      * intros x X ms vs c m M' Fx Ux Ex Im Fm Em Nm. rewrite FF in Fx, Fm. destruct (String.eqb_spec x n) as [->|]; [injection Fx as <-; discriminate|].
        destruct (String.eqb_spec m n) as [->|]; [injection Fm as <-; reflexivity|]. exact (Ia x X ms vs c m M' Fx Ux Ex Im Fm Em Nm).
      * intros x X ms vs c Fx Ux Ex Nx. rewrite FF in Fx. destruct (String.eqb_spec x n) as [->|]; [injection Fx as <-; discriminate|].
        rewrite PP. exact (Ib x X ms vs c Fx Ux Ex Nx).
    + intros y v Hy (Y & FY & VY & DY). unfold solid. rewrite FF. destruct (String.eqb_spec y n) as [->|]; [|eauto].
      rewrite F in FY. injection FY as <-. eexists. split; [reflexivity|]. cbn. auto.
    + intros y (Y & FY & UY). rewrite FF in FY. destruct (String.eqb_spec y n) as [->|]; [right; lia|left; exists Y; auto].
    + exists (mkM (m_edge M) Data (m_val M) true). rewrite FF, String.eqb_refl. cbn. auto.
    + apply means_data; assumption.
    + intros v _ _ X. congruence.
  - destruct (w_def _ W _ _ F) as [G NV]. rewrite D in G. destruct G as (G1 & G2 & G3 & G4).
    assert (Hev : ev_ok H env k (rank n) (eval V zero env fuel (n :: stk))).
    { intros r0 m M0 W0 I0 R0 F0. destruct (IH env H k (n :: stk) r0 m M0 W0 I0 ltac:(lia) ltac:(lia) HH) as (A & B & _); [|exact F0|].
      - intros s [<-|Hs]; [exact R0|]. specialize (Hstk _ Hs). lia.
      - split; [|exact B]. destruct A as [A1 A2 A3 A4 A5]. split; auto. intros y Uy. destruct (A5 _ Uy); [left; assumption|right; lia]. }
    destruct (run_ok H env k (rank n) (eval V zero env fuel (n :: stk)) (n :: stk) ms vs Hev Hk) with (c := c) (r := r) (todo := fun m => In m ms) as [E R].
    + intros s [<-|Hs]; [lia|]. specialize (Hstk _ Hs). lia.
    + intros m Hm. destruct (G1 m Hm) as (A & B & _). auto.
    + exact G3.
    + exact G4.
    + exact W.
    + exact I.
    + cbn zeta in E, R. destruct (run V zero env (eval V zero env fuel (n :: stk)) (n :: stk) c r) as [r1 x]. cbn [fst snd] in E, R.
      assert (Lift : epost H env k (S (rank n)) r r1).
      { destruct E as [A1 A2 A3 A4 A5]. split; auto. intros y Uy. destruct (A5 _ Uy); [left; assumption|right; lia]. }
      destruct x as [v| |]; cbn [fst snd].
      * destruct R as (Y & P & T).
        destruct (sm_some _ _ (e_same _ _ _ _ _ _ E) _ _ F) as (v1 & b1 & F1 & _). set (M1 := mkM (m_edge M) (m_def M) v1 b1) in *.
        assert (U1 : b1 = false).
        { destruct b1; [|reflexivity]. exfalso. destruct (e_new _ _ _ _ _ _ E n) as [(Z & FZ & UZ)|Z]; [exists M1; auto|congruence|lia]. }
        assert (Sv : sv_post H env r1 (set_values V r1 n v) n v M1).
        { apply set_values_ok; [exact (e_wf _ _ _ _ _ _ E)|exact (e_inv _ _ _ _ _ _ E)|exact F1|].
          intros ms' vs' c' D'. cbn [M1 m_def] in D'. rewrite D in D'. injection D' as <- <- <-. split; [|exact P].
          intros m M' Hm Fm Dm _. exact (T m M' Hm Fm Dm). }
        assert (Mn : means V zero r env n v) by (apply (means_expr V zero r env n M ms vs c); assumption).
        destruct Sv as [S1 S2 S3 S4 S5 S6 S7 S8 S9].
        assert (Sm : same r1 (set_values V r1 n v)).
        { split; [exact S2|exact S3|exact S4|]. intros x X Fx. destruct (string_dec x n) as [->|Hx].
          - rewrite F1 in Fx. injection Fx as <-. exists v, true. split; [exact S5|]. cbn. congruence.
          - destruct (S6 x X Hx Fx) as (b & Fb & _). eauto. }
        split; [|split; [split|]].
        -- split; [exact S1|exact (same_trans _ _ _ (e_same _ _ _ _ _ _ E) Sm)| | |].
           ++ apply (Inv_weaken (minus H n)); [intros h [X _]; exact X|exact S9].
           ++ intros y w Hy So. apply (e_frame _ _ _ _ _ _ E y w Hy) in So. destruct So as (Y1 & FY & VY & DY).
              destruct (string_dec y n) as [->|Hyn].
              ** exfalso. rewrite F1 in FY. injection FY as <-. cbn in DY. destruct DY; [congruence|congruence].
              ** destruct (m_def Y1) as [|ms1 vs1 c1] eqn:DY1.
                 --- destruct (S6 y Y1 Hyn FY) as (b & Fb & _). eexists. split; [exact Fb|]. cbn. auto.
                 --- destruct DY as [DY|DY]; [congruence|]. exists Y1. split; [|auto].
                     apply (S8 k y Y1); auto; [|cbn; congruence|congruence].
                     destruct (le_lt_dec k (rank n)) as [L|L]; [right; exact L|left]. intros X. specialize (HH _ X). lia.
           ++ intros y (Y1 & FY & UY). destruct (string_dec y n) as [->|Hyn]; [right; lia|].
              destruct (fm r1 y) as [Z|] eqn:FZ.
              ** destruct (S6 y Z Hyn FZ) as (b & Fb & Ub). rewrite FY in Fb. injection Fb as ->. cbn in UY. 
                 destruct (e_new _ _ _ _ _ _ E y) as [X|X]; [exists Z; auto|left; exact X|right; lia].
              ** rewrite (S4 _ FZ) in FY. discriminate.
        -- exists (mkM (m_edge M1) (m_def M1) v true). cbn. auto.
        -- exact Mn.
        -- intros w _ _ _. exact S9.
      * split; [exact Lift|]. split; [|intros; discriminate]. intros v Hm.
        inversion Hm as [x N F' D' E1 E2|x N ms' vs' c' w F' D' Y E1 E2]; subst; change (fm r n = Some N) in F'; rewrite F in F'; injection F' as <-.
        -- congruence.
        -- rewrite D in D'. injection D' as <- <- <-. exact (R _ Y).
      * destruct R.
Qed.
End R.
End S.
