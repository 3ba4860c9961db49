(* Lemmas on Stale.v *)
From Coq Require Import String List Bool Arith Lia Sorting.Sorted.
From Verif Require Import StrMap Stale.
Import ListNotations.

Lemma mem_In : forall x l, mem x l = true <-> In x l.
Proof.
  intros x l. unfold mem. rewrite existsb_exists. split.
  - intros (y & Hy & E). apply String.eqb_eq in E. subst. exact Hy.
  - intros H. exists x. split; [exact H|apply String.eqb_refl].
Qed.

Section S.
Variable V : Type.
Variable zero : V.
Notation region := (region V). Notation model := (model V).

Definition fm (r : region) (n : string) : option model := find n (r_models r).
Definition up (r : region) (n : string) : Prop := exists M, fm r n = Some M /\ m_up M = true.
Definition dep (r : region) (n d : string) : Prop := exists l, find n (r_deps r) = Some l /\ In d l.
Definition wfm (r : region) : Prop := sorted (r_models r) /\ sorted (r_deps r).

(* equal except for the flags, of which some were cleared *)
Record down (r r' : region) : Prop := mkDown {
  d_deps : r_deps r' = r_deps r;
  d_len : length (r_models r') = length (r_models r);
  d_none : forall n, fm r n = None -> fm r' n = None;
  d_some : forall n M, fm r n = Some M -> exists b, fm r' n = Some (mkM (m_edge M) (m_def M) (m_val M) b) /\ (b = true -> m_up M = true);
  d_wf : wfm r -> wfm r'
}.
Lemma down_refl : forall r, down r r.
Proof.
  intros r. split; auto. intros n M H. exists (m_up M). rewrite H. destruct M. auto.
Qed.
Lemma down_trans : forall a b c, down a b -> down b c -> down a c.
Proof.
  intros a b c [A1 A2 A3 A4 A5] [B1 B2 B3 B4 B5]. split; [congruence|congruence|auto| |auto].
  intros n M H. destruct (A4 _ _ H) as (x & Hx & Ux). destruct (B4 _ _ Hx) as (y & Hy & Uy). cbn in Hy, Uy.
  exists y. auto.
Qed.
Lemma down_up : forall r r' n, down r r' -> up r' n -> up r n.
Proof.
  intros r r' n D (M & H & U). destruct (fm r n) as [N|] eqn:E.
  - destruct (d_some _ _ D _ _ E) as (b & Hb & Ub). exists N. split; [exact E|]. rewrite H in Hb. injection Hb as ->. auto.
  - rewrite (d_none _ _ D _ E) in H. discriminate.
Qed.
Lemma down_dep : forall r r' n d, down r r' -> dep r' n d <-> dep r n d.
Proof. intros r r' n d D. unfold dep. rewrite (d_deps _ _ D). reflexivity. Qed.

Definition ups (r : region) : nat := length (filter (fun kM => m_up (snd kM)) (r_models r)).
Lemma ups_le : forall r, ups r <= length (r_models r).
Proof. intros r. unfold ups. generalize (r_models r) as l. induction l as [|a l IH]; cbn; [lia|]. destruct (m_up (snd a)); cbn; lia. Qed.

Lemma fm_set_up : forall r n b x, wfm r -> fm (set_up V r n b) x =
  if String.eqb x n then match fm r n with Some M => Some (mkM (m_edge M) (m_def M) (m_val M) b) | None => None end else fm r x.
Proof.
  intros r n b x [Hw _]. unfold set_up, fm. destruct (find n (r_models r)) as [M|] eqn:E; unfold put_model; cbn [r_models].
  - rewrite find_put by exact Hw. reflexivity.
  - destruct (String.eqb_spec x n) as [->|]; [exact E|reflexivity].
Qed.
Lemma fm_set_val : forall r n v x, wfm r -> fm (set_val V r n v) x =
  if String.eqb x n then match fm r n with Some M => Some (mkM (m_edge M) (m_def M) v (m_up M)) | None => None end else fm r x.
Proof.
  intros r n v x [Hw _]. unfold set_val, fm. destruct (find n (r_models r)) as [M|] eqn:E; unfold put_model; cbn [r_models].
  - rewrite find_put by exact Hw. reflexivity.
  - destruct (String.eqb_spec x n) as [->|]; [exact E|reflexivity].
Qed.
Lemma set_up_wf : forall r n b, wfm r -> wfm (set_up V r n b).
Proof. intros r n b [A B]. unfold set_up. destruct (find n (r_models r)); [|split; auto]. split; cbn; [apply put_sorted; exact A|exact B]. Qed.
Lemma set_val_wf : forall r n v, wfm r -> wfm (set_val V r n v).
Proof. intros r n b [A B]. unfold set_val. destruct (find n (r_models r)); [|split; auto]. split; cbn; [apply put_sorted; exact A|exact B]. Qed.
Lemma set_up_deps : forall r n b, r_deps (set_up V r n b) = r_deps r.
Proof. intros r n b. unfold set_up. destruct (find n (r_models r)); reflexivity. Qed.
Lemma set_val_deps : forall r n b, r_deps (set_val V r n b) = r_deps r.
Proof. intros r n b. unfold set_val. destruct (find n (r_models r)); reflexivity. Qed.
Lemma set_up_len : forall r n b, wfm r -> length (r_models (set_up V r n b)) = length (r_models r).
Proof.
  intros r n b [Hw _]. unfold set_up. destruct (find n (r_models r)) as [M|] eqn:E; [|reflexivity]. cbn.
  apply length_put_old; [congruence|exact Hw].
Qed.
Lemma set_val_len : forall r n b, wfm r -> length (r_models (set_val V r n b)) = length (r_models r).
Proof.
  intros r n b [Hw _]. unfold set_val. destruct (find n (r_models r)) as [M|] eqn:E; [|reflexivity]. cbn.
  apply length_put_old; [congruence|exact Hw].
Qed.
Lemma down_set_up : forall r n, wfm r -> down r (set_up V r n false).
Proof.
  intros r n Hw. split; [apply set_up_deps|apply set_up_len; exact Hw| | |].
  - intros x H. rewrite fm_set_up by exact Hw. destruct (String.eqb_spec x n) as [->|]; [rewrite H; reflexivity|exact H].
  - intros x M H. rewrite fm_set_up by exact Hw. destruct (String.eqb_spec x n) as [->|].
    + rewrite H. exists false. split; [reflexivity|discriminate].
    + exists (m_up M). rewrite H. destruct M. auto.
  - apply set_up_wf.
Qed.
Lemma ups_put : forall (m : smap model) n M N, sorted m -> find n m = Some M -> m_up M = true -> m_up N = false ->
  S (length (filter (fun kM => m_up (snd kM)) (put n N m))) = length (filter (fun kM => m_up (snd kM)) m).
Proof.
  intros m n M N Hs. induction m as [|[k K] m IH]; cbn; [discriminate|]. intros F U1 U2.
  destruct (String.eqb_spec n k) as [->|Hn].
  - rewrite compare_refl. cbn. rewrite U2. injection F as ->. rewrite U1. reflexivity.
  - assert (Hk : slt k n).
    { apply StronglySorted_inv in Hs. destruct Hs as [_ Hs]. rewrite Forall_forall in Hs. apply Hs.
      apply find_keys. congruence. }
    destruct (String.compare n k) eqn:C.
    + apply String.compare_eq_iff in C. contradiction.
    + exfalso. unfold slt in Hk. rewrite String.compare_antisym, Hk in C. discriminate.
    + cbn. apply StronglySorted_inv in Hs. destruct Hs as [Hs _]. destruct (m_up K); cbn; rewrite (IH Hs F U1 U2); reflexivity.
Qed.
Lemma ups_set_up : forall r n M, wfm r -> fm r n = Some M -> m_up M = true -> S (ups (set_up V r n false)) = ups r.
Proof. intros r n M [Hw _] F U. unfold ups, set_up. unfold fm in F. rewrite F. cbn. eapply ups_put; eauto. Qed.

Lemma dependents_dep : forall r n m, wfm r -> In m (dependents V r n) <-> dep r m n.
Proof.
  intros r n m [_ Hw]. unfold dependents, dep. rewrite in_map_iff. split.
  - intros ([k l] & <- & H). apply filter_In in H. destruct H as [H E]. cbn in E. apply mem_In in E. exists l. split; [|exact E].
    apply In_find; assumption.
  - intros (l & F & H). exists (m, l). split; [reflexivity|]. apply filter_In. split; [apply find_In; exact F|]. apply mem_In. exact H.
Qed.

Definition newly (r r' : region) (m : string) : Prop := up r m /\ ~ up r' m.
Record spost (r r' : region) (P : string -> Prop) : Prop := mkPost {
  sp_down : down r r';
  sp_dir : forall m, P m -> ~ up r' m;
  sp_cl : forall m q, newly r r' m -> dep r q m -> ~ up r' q;
  sp_ind : forall Q : string -> Prop, (forall m, P m -> up r m -> Q m) -> (forall m q, Q m -> dep r q m -> up r q -> Q q) ->
           forall m, newly r r' m -> Q m;
  sp_ups : ups r' <= ups r
}.

Definition sig_step (f : nat) (r : region) (m : string) : region :=
  match find m (r_models r) with Some M => if m_up M then signal V f (set_up V r m false) m else r | None => r end.
Lemma up_dec : forall r m, {up r m} + {~ up r m}.
Proof.
  intros r m. unfold up. destruct (fm r m) as [M|] eqn:E.
  - destruct (m_up M) eqn:U; [left; eauto|right]. intros (N & X & Y). injection X as <-. congruence.
  - right. intros (N & X & _). discriminate.
Qed.
Lemma signal_post : forall f r n, wfm r -> ups r < f -> spost r (signal V f r n) (fun m => dep r m n).
Proof.
  induction f as [|f IH]; intros r n Hw Hf; [lia|]. cbn [signal].
  change (fold_left _ (dependents V r n) r) with (fold_left (sig_step f) (dependents V r n) r).
  assert (G : forall l r0, wfm r0 -> ups r0 < S f -> spost r0 (fold_left (sig_step f) l r0) (fun m => In m l)).
  { induction l as [|m l IHl]; intros r0 Hw0 Hf0; cbn [fold_left].
    - split; [apply down_refl|intros m []|intros m q [A B]; contradiction|intros Q _ _ m [A B]; contradiction|lia].
    - assert (St : spost r0 (sig_step f r0 m) (fun x => x = m)).
      { unfold sig_step. destruct (find m (r_models r0)) as [M|] eqn:F.
        - destruct (m_up M) eqn:U.
          + assert (U0 : up r0 m) by (exists M; auto).
            assert (Hl := ups_set_up _ _ _ Hw0 F U).
            destruct (IH (set_up V r0 m false) m (set_up_wf _ _ _ Hw0) ltac:(lia)) as [D A B C E].
            assert (D0 := down_set_up r0 m Hw0).
            assert (Nm : ~ up (set_up V r0 m false) m).
            { intros (N & X & Y). rewrite fm_set_up in X by exact Hw0. rewrite String.eqb_refl, (F : fm r0 m = Some M) in X.
              injection X as <-. discriminate. }
            assert (Nx : forall x, newly r0 (signal V f (set_up V r0 m false) m) x -> x <> m ->
                         newly (set_up V r0 m false) (signal V f (set_up V r0 m false) m) x).
            { intros x [X Y] Hx. split; [|exact Y]. destruct X as (N & X & Z). exists N. rewrite fm_set_up by exact Hw0.
              destruct (String.eqb_spec x m); [contradiction|]. auto. }
            split; [exact (down_trans _ _ _ D0 D)| | | |lia].
            * intros x ->. intros X. apply Nm. exact (down_up _ _ _ D X).
            * intros x q N Hd. destruct (string_dec x m) as [->|Hx].
              -- apply A. apply (down_dep _ _ _ _ D0). exact Hd.
              -- apply (B x); [apply Nx; assumption|]. apply (down_dep _ _ _ _ D0). exact Hd.
            * intros Q H0 H1 x N. assert (Qm : Q m) by (apply H0; [reflexivity|exact U0]).
              destruct (string_dec x m) as [->|Hx]; [exact Qm|].
              apply (C Q); [| |apply Nx; assumption].
              -- intros y Hy Uy. apply (H1 m y Qm); [apply (down_dep _ _ _ _ D0); exact Hy|exact (down_up _ _ _ D0 Uy)].
              -- intros a b Qa Hab Ub. apply (H1 a b Qa); [apply (down_dep _ _ _ _ D0); exact Hab|exact (down_up _ _ _ D0 Ub)].
          + split; [apply down_refl| |intros x q [X Y]; contradiction|intros Q _ _ x [X Y]; contradiction|lia].
            intros x ->. intros (N & X & Y). unfold fm in X. rewrite F in X. injection X as <-. congruence.
        - split; [apply down_refl| |intros x q [X Y]; contradiction|intros Q _ _ x [X Y]; contradiction|lia].
          intros x -> (N & X & Y). unfold fm in X. congruence. }
      destruct St as [D A B C E].
      destruct (IHl (sig_step f r0 m) (d_wf _ _ D Hw0) ltac:(lia)) as [D' A' B' C' E'].
      assert (Nx : forall x, newly r0 (fold_left (sig_step f) l (sig_step f r0 m)) x ->
                newly r0 (sig_step f r0 m) x \/ newly (sig_step f r0 m) (fold_left (sig_step f) l (sig_step f r0 m)) x).
      { intros x [X Y]. destruct (up_dec (sig_step f r0 m) x); [right|left]; split; assumption. }
      split; [exact (down_trans _ _ _ D D')| | | |lia].
      + intros x [->|Hx]; [|apply A'; exact Hx]. intros X. apply (A x eq_refl). exact (down_up _ _ _ D' X).
      + intros x q N Hd. destruct (Nx _ N) as [N1|N1].
        * intros X. apply (B x q N1 Hd). exact (down_up _ _ _ D' X).
        * apply (B' x q N1). apply (down_dep _ _ _ _ D). exact Hd.
      + intros Q H0 H1 x N. destruct (Nx _ N) as [N1|N1].
        * apply (C Q); [intros y -> Uy; apply H0; [left; reflexivity|exact Uy]|exact H1|exact N1].
        * apply (C' Q); [intros y Hy Uy; apply H0; [right; exact Hy|exact (down_up _ _ _ D Uy)]| |exact N1].
          intros a b Qa Hab Ub. apply (H1 a b Qa); [apply (down_dep _ _ _ _ D); exact Hab|exact (down_up _ _ _ D Ub)]. }
  destruct (G (dependents V r n) r Hw Hf) as [D A B C E]. split; [exact D| |exact B| |exact E].
  - intros m Hm. apply A. apply dependents_dep; assumption.
  - intros Q H0 H1 m N. apply (C Q); [|exact H1|exact N]. intros y Hy. apply H0. apply dependents_dep; assumption.
Qed.
Lemma signal__post : forall r n, wfm r -> spost r (signal_ V r n) (fun m => dep r m n).
Proof. intros r n Hw. apply signal_post; [exact Hw|]. pose proof (ups_le r). lia. Qed.
End S.
