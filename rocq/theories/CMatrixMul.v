From Coq Require Import List Arith Bool Lia Permutation.
From Coq Require Import ZifyBool ZifyNat.
From Verif Require Import CMatrix CMatrixProofs CMatrixInv CMatrixSpec CMatrixRun.
Import ListNotations.

Section Mul.
  Variable V : Type.
  Variable zero : V.
  Variable add mul : V -> V -> V.

  Section Layout.
  Variable n : nat.
  Variables (ap ai : list nat) (vals x : list V).
  Hypothesis WF : well_formed n ap ai.
  Hypothesis Lv : length vals = length ai.
  Hypothesis Lx : length x = n.

  Definition key (p : nat) : nat := nth p ai 0.
  Definition rng (i : nat) : list nat := seq (nth i ap 0) (nth (S i) ap 0 - nth i ap 0).
  Definition look (maj mi : nat) : option nat := find (fun p => Nat.eqb (key p) mi) (rng maj).
  Definition val (p : nat) : V := nth p vals zero.

  Lemma ap_nth i : i <= n -> nth_error ap i = Some (nth i ap 0).
  Proof. intros H. apply nth_error_nth'. destruct WF as (L & _). lia. Qed.

  Lemma ap_le i j : i <= j -> j <= n -> nth i ap 0 <= nth j ap 0.
  Proof.
    intros H Hn. induction H as [|j H IH]; [lia|].
    assert (nth j ap 0 <= nth (S j) ap 0); [|lia].
    destruct WF as (_ & _ & _ & M & _).
    apply (M j); apply ap_nth; lia.
  Qed.

  Lemma rng_bound i p : i < n -> In p (rng i) -> p < length ai.
  Proof.
    intros Hi H. unfold rng in H. apply in_seq in H.
    pose proof (ap_le (S i) n ltac:(lia) (le_n n)) as H1.
    destruct WF as (_ & _ & E & _). rewrite (ap_nth n (le_n n)) in E. inversion E. lia.
  Qed.

  Lemma key_bound i p : i < n -> In p (rng i) -> key p < n.
  Proof.
    intros Hi H. destruct WF as (_ & _ & _ & _ & _ & B). apply (B p). unfold key.
    apply nth_error_nth'. eapply rng_bound; eauto.
  Qed.

  Definition sortedk (ps : list nat) : Prop :=
    forall i j, i < j -> j < length ps -> key (nth i ps 0) < key (nth j ps 0).

  Lemma rng_sorted i : i < n -> sortedk (rng i).
  Proof.
    intros Hi a b Hab Hb. unfold rng in *. rewrite seq_length in Hb.
    rewrite !seq_nth by lia.
    destruct WF as (_ & _ & _ & _ & S & _).
    assert (Hb' : In (nth i ap 0 + b) (rng i)) by (unfold rng; apply in_seq; lia).
    apply (rng_bound i _ Hi) in Hb'.
    apply (S i (nth i ap 0) (nth (Datatypes.S i) ap 0) (nth i ap 0 + a) (nth i ap 0 + b));
      try (apply ap_nth; lia); try lia; apply nth_error_nth'; lia.
  Qed.

  Lemma sortedk_tail p ps : sortedk (p :: ps) -> sortedk ps /\ forall q, In q ps -> key p < key q.
  Proof.
    intros H. split.
    - intros i j Hij Hj. apply (H (S i) (S j)); cbn [length]; lia.
    - intros q Hq. apply (In_nth _ _ 0) in Hq. destruct Hq as (j & Hj & <-).
      apply (H 0 (S j)); cbn [length]; lia.
  Qed.

  (* inner loop of ColScaleMultiply *)
  Lemma col_inner scale ps : forall y, sortedk ps ->
    (forall p, In p ps -> p < length ai /\ key p < length y) ->
    exists y', ofold (fun y rit =>
              match nth_error ai rit, nth_error vals rit with
              | Some r, Some v =>
                match nth_error y r with
                | Some old => vset y r (add old (mul scale v))
                | None => None
                end
              | _, _ => None
              end) ps y = Some y' /\ length y' = length y /\
      forall r, nth r y' zero =
        match find (fun p => Nat.eqb (key p) r) ps with
        | Some p => add (nth r y zero) (mul scale (val p))
        | None => nth r y zero end.
  Proof.
    induction ps as [|p ps IH]; intros y Hs Hb; cbn [ofold find].
    - exists y. auto.
    - apply sortedk_tail in Hs. destruct Hs as [Hs Hp].
      destruct (Hb p) as [B1 B2]; [left; reflexivity|].
      rewrite (nth_error_nth' ai 0 B1).
      rewrite (nth_error_nth' vals zero) by lia. fold (key p) (val p).
      rewrite (nth_error_nth' y zero B2).
      destruct (vset_Some y (key p) (add (nth (key p) y zero) (mul scale (val p))) B2) as [y1 E1].
      rewrite E1. apply vset_spec in E1. destruct E1 as (_ & L1 & N1).
      assert (N1' : forall r, nth r y1 zero = if Nat.eqb r (key p)
          then add (nth (key p) y zero) (mul scale (val p)) else nth r y zero).
      { intros r. destruct (Nat.eqb_spec r (key p)) as [->|Hne].
        - specialize (N1 (key p)). rewrite Nat.eqb_refl in N1.
          apply nth_error_nth with (d := zero) in N1. exact N1.
        - specialize (N1 r). apply Nat.eqb_neq in Hne. rewrite Hne in N1.
          destruct (nth_error y r) eqn:E.
          + apply nth_error_nth with (d := zero) in N1. apply nth_error_nth with (d := zero) in E.
            congruence.
          + apply nth_error_None in N1, E. rewrite !nth_overflow; auto. }
      destruct (IH y1 Hs) as (y' & E' & L' & N').
      { intros q Hq. rewrite L1. apply Hb. right; exact Hq. }
      exists y'. split; [exact E'|]. split; [lia|].
      intros r. rewrite N', N1'. rewrite (Nat.eqb_sym (key p) r).
      destruct (Nat.eqb_spec r (key p)) as [->|Hne].
      + destruct (find _ ps) as [q|] eqn:F; [|reflexivity].
        apply find_some in F. destruct F as [Hq Hk]. apply Nat.eqb_eq in Hk.
        specialize (Hp q Hq). lia.
      + reflexivity.
  Qed.

  Definition col_acc (r : nat) (acc : V) (c : nat) : V :=
    match look c r with Some p => add acc (mul (nth c x zero) (val p)) | None => acc end.

  Lemma col_scale_spec : exists y, col_scale_multiply V zero add mul ap ai vals x = Some y /\
    length y = n /\ forall r, r < n -> nth r y zero = fold_left (col_acc r) (seq 0 n) zero.
  Proof.
    unfold col_scale_multiply. replace (length ap - 1) with n by (destruct WF as (L & _); lia).
    assert (G : forall m, m <= n -> exists y, ofold (fun y c =>
        match nth_error x c, nth_error ap c, nth_error ap (S c) with
        | Some scale, Some rl, Some rh =>
          ofold (fun y rit =>
              match nth_error ai rit, nth_error vals rit with
              | Some r, Some v =>
                match nth_error y r with
                | Some old => vset y r (add old (mul scale v))
                | None => None
                end
              | _, _ => None
              end) (seq rl (rh - rl)) y
        | _, _, _ => None
        end) (seq 0 m) (repeat zero (length x)) = Some y /\ length y = n /\
        forall r, r < n -> nth r y zero = fold_left (col_acc r) (seq 0 m) zero).
    { induction m as [|m IH]; intros Hm.
      - exists (repeat zero (length x)). cbn [seq ofold fold_left]. rewrite repeat_length.
        split; [reflexivity|]. split; [exact Lx|]. intros r _. apply nth_repeat.
      - destruct IH as (y & E & L & N); [lia|].
        rewrite seq_S, ofold_app, E. cbn [ofold Nat.add].
        rewrite (nth_error_nth' x zero) by lia.
        rewrite !ap_nth by lia. fold (rng m).
        destruct (col_inner (nth m x zero) (rng m) y) as (y' & E' & L' & N').
        + apply rng_sorted. lia.
        + intros p Hp. split; [eapply rng_bound; eauto; lia|].
          rewrite L. eapply key_bound; eauto.
        + rewrite E'. exists y'. split; [reflexivity|]. split; [lia|].
          intros r Hr. rewrite fold_left_app. cbn [fold_left]. rewrite N', N by exact Hr.
          reflexivity. }
    destruct (G n (le_n n)) as (y & E & L & N). exists y. auto.
  Qed.

  (* inner loop of RowScaleMultiply *)
  Lemma row_inner r ps : forall y, r < length y ->
    (forall p, In p ps -> p < length ai /\ key p < n) ->
    exists y', ofold (fun y cit =>
              match nth_error ai cit, nth_error vals cit with
              | Some c, Some v =>
                match nth_error x c, nth_error y r with
                | Some xv, Some old => vset y r (add old (mul v xv))
                | _, _ => None
                end
              | _, _ => None
              end) ps y = Some y' /\ length y' = length y /\
      forall r', nth r' y' zero =
        if Nat.eqb r' r then fold_left (fun acc p => add acc (mul (val p) (nth (key p) x zero))) ps (nth r y zero)
        else nth r' y zero.
  Proof.
    induction ps as [|p ps IH]; intros y Hr Hb; cbn [ofold fold_left].
    - exists y. repeat split; auto. intros r'. destruct (Nat.eqb_spec r' r); subst; reflexivity.
    - destruct (Hb p) as [B1 B2]; [left; reflexivity|].
      rewrite (nth_error_nth' ai 0 B1).
      rewrite (nth_error_nth' vals zero) by lia. fold (key p) (val p).
      rewrite (nth_error_nth' x zero) by lia.
      rewrite (nth_error_nth' y zero Hr).
      destruct (vset_Some y r (add (nth r y zero) (mul (val p) (nth (key p) x zero))) Hr) as [y1 E1].
      rewrite E1. apply vset_spec in E1. destruct E1 as (_ & L1 & N1).
      destruct (IH y1 ltac:(lia)) as (y' & E' & L' & N').
      { intros q Hq. apply Hb. right; exact Hq. }
      exists y'. split; [exact E'|]. split; [lia|].
      assert (Y1 : nth r y1 zero = add (nth r y zero) (mul (val p) (nth (key p) x zero))).
      { specialize (N1 r). rewrite Nat.eqb_refl in N1. apply nth_error_nth with (d := zero) in N1. exact N1. }
      intros r'. rewrite N'. destruct (Nat.eqb_spec r' r) as [->|Hne].
      + rewrite Y1. reflexivity.
      + specialize (N1 r'). apply Nat.eqb_neq in Hne. rewrite Hne in N1.
        destruct (nth_error y r') eqn:E.
        * apply nth_error_nth with (d := zero) in N1. apply nth_error_nth with (d := zero) in E.
          congruence.
        * apply nth_error_None in N1, E. rewrite !nth_overflow; auto.
  Qed.

  (* a fold over the sorted stored entries is a fold over all columns *)
  Lemma fold_sorted (f : V -> nat -> V) m : forall k ps acc, sortedk ps ->
    (forall p, In p ps -> k <= key p < k + m) ->
    fold_left f ps acc =
    fold_left (fun acc c => match find (fun p => Nat.eqb (key p) c) ps with
                            | Some p => f acc p | None => acc end) (seq k m) acc.
  Proof.
    induction m as [|m IH]; intros k ps acc Hs Hb.
    - destruct ps as [|p ps]; [reflexivity|]. specialize (Hb p (or_introl eq_refl)). lia.
    - cbn [seq fold_left]. destruct ps as [|p ps].
      + pose proof (IH (S k) [] acc Hs) as E. cbn [find fold_left] in *. apply E. intros ? [].
      + cbn [find]. destruct (Nat.eqb_spec (key p) k) as [E|Hne].
        * cbn [fold_left]. apply sortedk_tail in Hs. destruct Hs as [Hs Hp].
          rewrite (IH (S k) ps (f acc p) Hs).
          -- assert (Hext : forall l a, (forall c, In c l -> k < c) ->
               fold_left (fun acc c => match find (fun p => Nat.eqb (key p) c) ps with
                            | Some p => f acc p | None => acc end) l a =
               fold_left (fun acc c => match (if Nat.eqb (key p) c then Some p
                    else find (fun p => Nat.eqb (key p) c) ps) with
                            | Some p => f acc p | None => acc end) l a).
             { induction l as [|c l IHl]; intros a Hl; [reflexivity|]. cbn [fold_left].
               assert (k < c) by (apply Hl; left; reflexivity).
               destruct (Nat.eqb_spec (key p) c); [lia|].
               apply IHl. intros c' Hc'. apply Hl. right; exact Hc'. }
             apply Hext. intros c Hc. apply in_seq in Hc. lia.
          -- intros q Hq. specialize (Hp q Hq). specialize (Hb q (or_intror Hq)). lia.
        * assert (N : find (fun p0 => Nat.eqb (key p0) k) ps = None).
          { destruct (find (fun p0 => Nat.eqb (key p0) k) ps) as [q|] eqn:F; [|reflexivity].
            apply find_some in F. destruct F as [Hq Hk]. apply Nat.eqb_eq in Hk.
            apply sortedk_tail in Hs. destruct Hs as [_ Hp]. specialize (Hp q Hq).
            specialize (Hb p (or_introl eq_refl)). lia. }
          rewrite N. rewrite (IH (S k) (p :: ps) acc Hs); [reflexivity|].
          intros q Hq. pose proof (Hb q Hq) as Bq. pose proof (Hb p (or_introl eq_refl)) as Bp.
          destruct Hq as [<-|Hq]; [lia|].
          apply sortedk_tail in Hs. destruct Hs as [_ Hp]. specialize (Hp q Hq). lia.
  Qed.

  Definition row_acc (r : nat) (acc : V) (c : nat) : V :=
    match look r c with Some p => add acc (mul (val p) (nth c x zero)) | None => acc end.

  Lemma fold_left_ext_in {A B} (f g : A -> B -> A) l : (forall a b, In b l -> f a b = g a b) ->
    forall a, fold_left f l a = fold_left g l a.
  Proof.
    induction l as [|b l IH]; intros H a; [reflexivity|]. cbn [fold_left].
    rewrite H by (left; reflexivity). apply IH. intros; apply H; right; assumption.
  Qed.

  Lemma row_scale_spec : exists y, row_scale_multiply V zero add mul ap ai vals x = Some y /\
    length y = n /\ forall r, r < n -> nth r y zero = fold_left (row_acc r) (seq 0 n) zero.
  Proof.
    unfold row_scale_multiply. replace (length ap - 1) with n by (destruct WF as (L & _); lia).
    assert (G : forall m, m <= n -> exists y, ofold (fun y r =>
        match nth_error ap r, nth_error ap (S r), nth_error y r with
        | Some cl, Some ch, Some _ =>
          ofold (fun y cit =>
              match nth_error ai cit, nth_error vals cit with
              | Some c, Some v =>
                match nth_error x c, nth_error y r with
                | Some xv, Some old => vset y r (add old (mul v xv))
                | _, _ => None
                end
              | _, _ => None
              end) (seq cl (ch - cl)) y
        | _, _, _ => None
        end) (seq 0 m) (repeat zero (length x)) = Some y /\ length y = n /\
        forall r, r < n -> nth r y zero =
           if r <? m then fold_left (row_acc r) (seq 0 n) zero else zero).
    { induction m as [|m IH]; intros Hm.
      - exists (repeat zero (length x)). cbn [seq ofold fold_left]. rewrite repeat_length.
        split; [reflexivity|]. split; [exact Lx|]. intros r _. apply nth_repeat.
      - destruct IH as (y & E & L & N); [lia|].
        rewrite seq_S, ofold_app, E. cbn [ofold Nat.add].
        rewrite !ap_nth by lia. rewrite (nth_error_nth' y zero) by lia. fold (rng m).
        destruct (row_inner m (rng m) y) as (y' & E' & L' & N').
        + lia.
        + intros p Hp. split; [eapply rng_bound; eauto; lia|]. eapply key_bound; eauto.
        + rewrite E'. exists y'. split; [reflexivity|]. split; [lia|].
          intros r Hr. rewrite N'. destruct (Nat.eqb_spec r m) as [->|Hne].
          * rewrite N by exact Hr. rewrite Nat.ltb_irrefl.
            replace (m <? S m) with true by (symmetry; apply Nat.ltb_lt; lia).
            rewrite (fold_sorted _ n 0).
            -- apply fold_left_ext_in. intros a c Hc. unfold row_acc, look.
               destruct (find _ (rng m)) as [p|] eqn:F; [|reflexivity].
               apply find_some in F. destruct F as [_ Hk]. apply Nat.eqb_eq in Hk. now rewrite Hk.
            -- apply rng_sorted. lia.
            -- intros p Hp. split; [lia|]. apply key_bound in Hp; [|lia]. lia.
          * rewrite N by exact Hr. destruct (Nat.ltb_spec r m), (Nat.ltb_spec r (S m)); try lia; reflexivity. }
    destruct (G n (le_n n)) as (y & E & L & N). exists y. split; [exact E|]. split; [exact L|].
    intros r Hr. rewrite N by exact Hr. destruct (Nat.ltb_spec r n); [reflexivity|lia].
  Qed.

  (* look and slots *)
  Lemma look_slot maj mi p : maj < n -> 
    look maj mi = Some p ->
    exists b e, nth_error ap maj = Some b /\ nth_error ap (S maj) = Some e /\ b <= p < e /\
      nth_error ai p = Some mi.
  Proof.
    intros Hm H. unfold look in H. apply find_some in H. destruct H as [Hin Hk].
    apply Nat.eqb_eq in Hk. exists (nth maj ap 0), (nth (S maj) ap 0).
    split; [apply ap_nth; lia|]. split; [apply ap_nth; lia|].
    pose proof (rng_bound maj p Hm Hin) as HB.
    unfold rng in Hin. apply in_seq in Hin. split; [lia|].
    rewrite <- Hk. apply nth_error_nth'. exact HB.
  Qed.
  Lemma look_none maj mi : maj < n -> look maj mi = None ->
    forall p b e, nth_error ap maj = Some b -> nth_error ap (S maj) = Some e -> b <= p < e ->
      nth_error ai p <> Some mi.
  Proof.
    intros Hm H p b e Hb He Hp Hn. unfold look in H.
    rewrite (ap_nth maj) in Hb by lia. rewrite (ap_nth (S maj)) in He by lia.
    inversion Hb; subst b. inversion He; subst e.
    assert (Hin : In p (rng maj)) by (unfold rng; apply in_seq; lia).
    pose proof (find_none _ _ H p Hin) as F. cbv beta in F.
    unfold key in F. apply nth_error_nth with (d := 0) in Hn. rewrite Hn, Nat.eqb_refl in F. discriminate.
  Qed.
  End Layout.

  Variable iszero : V -> bool.
  Hypothesis iszero_zero : iszero zero = true.
  Hypothesis add_zero : forall v, iszero v = false -> add zero v = v.
  Hypothesis add_canon : forall a v, iszero v = false -> iszero (add a v) = true -> add a v = zero.
  Hypothesis mul_comm : forall a b, mul a b = mul b a.

  Lemma c05_lemma n cx isCRM ops s x : in_range V n ops ->
    run V zero add iszero (ops ++ [Finalize V]) (mnew V n cx isCRM) = Some s ->
    length x = n ->
    exists y, multiply V zero add mul s x = Some y /\ length y = n /\
      forall r, r < n -> nth r y zero =
        fold_left (fun acc c => if touched V iszero ops r c
                                then add acc (mul (accumulated V zero add iszero ops false r c) (nth c x zero))
                                else acc) (seq 0 n) zero.
  Proof.
    intros HR E Lx.
    destruct (c04_lemma V zero add iszero iszero_zero add_zero add_canon n cx isCRM ops s HR E) as [WF LV].
    specialize (LV false ltac:(intros; discriminate)).
    pose proof (c03_lemma V zero add iszero iszero_zero add_zero add_canon n cx isCRM ops s HR E) as H3.
    destruct (run_finalized V zero add iszero iszero_zero add_zero add_canon n cx isCRM ops s HR E)
      as (_ & HC & _).
    assert (LK : forall r c, r < n -> c < n ->
      match look (ap V s) (ai V s) (if isCRM then r else c) (if isCRM then c else r) with
      | Some p => touched V iszero ops r c = true /\
                  val (ax V s false) p = accumulated V zero add iszero ops false r c
      | None => touched V iszero ops r c = false end).
    { intros r c Hr Hc. destruct (H3 r c Hr Hc) as [HT HF].
      assert (Hmaj : (if isCRM then r else c) < n) by (destruct isCRM; assumption).
      destruct (look _ _ _ _) as [p|] eqn:EL.
      - destruct (look_slot n (ap V s) (ai V s) (ax V s false) x WF LV Lx _ _ p Hmaj EL) as (b & e & B1 & B2 & Hp & Hn).
        assert (SL : slot isCRM (ap V s) (ai V s) r c p) by (exists b, e; auto).
        destruct (touched V iszero ops r c).
        + split; [reflexivity|]. destruct (HT eq_refl) as (p' & _ & U & Hv).
          rewrite <- (U p SL) in Hv. specialize (Hv false ltac:(intros; discriminate)).
          unfold val. apply nth_error_nth with (d := zero) in Hv. exact Hv.
        + destruct (HF eq_refl) as [N _]. exfalso. apply (N p SL).
      - destruct (touched V iszero ops r c); [|reflexivity]. exfalso.
        destruct (HT eq_refl) as (p & (b & e & B1 & B2 & Hp & Hn) & _).
        exact (look_none n (ap V s) (ai V s) (ax V s false) x WF LV Lx _ _ Hmaj EL p b e B1 B2 Hp Hn). }
    unfold multiply, get_rows, get_cols. rewrite HC. destruct isCRM.
    - destruct (row_scale_spec n (ap V s) (ai V s) (ax V s false) x WF LV Lx) as (y & E1 & L1 & N1).
      exists y. split; [exact E1|]. split; [exact L1|]. intros r Hr. rewrite N1 by exact Hr.
      apply fold_left_ext_in. intros a c Hc. apply in_seq in Hc.
      specialize (LK r c Hr ltac:(lia)). unfold row_acc.
      destruct (look _ _ r c) as [p|]; [destruct LK as [-> ->]|rewrite LK]; reflexivity.
    - destruct (col_scale_spec n (ap V s) (ai V s) (ax V s false) x WF LV Lx) as (y & E1 & L1 & N1).
      exists y. split; [exact E1|]. split; [exact L1|]. intros r Hr. rewrite N1 by exact Hr.
      apply fold_left_ext_in. intros a c Hc. apply in_seq in Hc.
      specialize (LK r c Hr ltac:(lia)). unfold col_acc.
      destruct (look _ _ c r) as [p|]; [destruct LK as [-> ->]; now rewrite mul_comm|rewrite LK]; reflexivity.
  Qed.
End Mul.

Section Dense.
  Variable V : Type.
  Variable zero : V.
  Variable add : V -> V -> V.
  Variable iszero : V -> bool.
  Hypothesis iszero_zero : iszero zero = true.
  Hypothesis add_zero : forall v, iszero v = false -> add zero v = v.
  Hypothesis add_canon : forall a v, iszero v = false -> iszero (add a v) = true -> add a v = zero.

  Lemma dense_lemma n cx isCRM ops : in_range V n ops ->
    clear_after_full_finalize V iszero n ops ->
    dense_at_clear V zero add iszero n cx isCRM ops.
  Proof.
    intros HR HC p q s E Hs. destruct (HC p q E) as (p' & -> & HT).
    assert (HR' : in_range V n p').
    { intros ch r c v I. apply (HR ch r c v). rewrite E, !map_app, !concat_app.
      apply in_or_app. left. apply in_or_app. left. exact I. }
    destruct (c04_lemma V zero add iszero iszero_zero add_zero add_canon n cx isCRM p' s HR' Hs) as [WF LV].
    rewrite (LV false) by (intros; discriminate).
    pose proof (c03_lemma V zero add iszero iszero_zero add_zero add_canon n cx isCRM p' s HR' Hs) as H3.
    assert (G : forall i, i <= n -> exists b, nth_error (ap V s) i = Some b /\ i <= b).
    { induction i as [|i IH]; intros Hi.
      - destruct WF as (_ & W & _). exists 0. auto.
      - destruct IH as (b & Eb & Hb); [lia|].
        destruct (H3 i i ltac:(lia) ltac:(lia)) as [H _].
        destruct (H (HT i ltac:(lia))) as (k & (b' & e & B1 & B2 & Hk & _) & _).
        assert (X : (if isCRM then i else i) = i) by (destruct isCRM; reflexivity).
        rewrite X in B1, B2. exists e. split; [exact B2|].
        rewrite Eb in B1. inversion B1. lia. }
    destruct (G n (le_n n)) as (b & Eb & Hb).
    destruct WF as (_ & _ & W & _). rewrite W in Eb. inversion Eb. lia.
  Qed.
End Dense.

From Coq Require Import ZArith.
Lemma c05_int_lemma : forall n cx isCRM ops s x, in_range Z n ops ->
  run Z 0%Z Z.add (Z.eqb 0) (ops ++ [Finalize Z]) (mnew Z n cx isCRM) = Some s ->
  length x = n ->
  exists y, multiply Z 0%Z Z.add Z.mul s x = Some y /\ length y = n /\
    forall r, r < n -> nth r y 0%Z =
      fold_right Z.add 0%Z
        (map (fun c => accumulated Z 0%Z Z.add (Z.eqb 0) ops false r c * nth c x 0)%Z (seq 0 n)).
Proof.
  intros n cx isCRM ops s x HR E Lx.
  assert (A : Z.eqb 0 0%Z = true) by reflexivity.
  assert (B : forall v : Z, Z.eqb 0 v = false -> Z.add 0 v = v) by reflexivity.
  assert (C : forall a v : Z, Z.eqb 0 v = false -> Z.eqb 0 (Z.add a v) = true -> Z.add a v = 0%Z).
  { intros a v _ H. apply Z.eqb_eq in H. auto. }
  destruct (c05_lemma Z 0%Z Z.add Z.mul (Z.eqb 0) A B C Z.mul_comm n cx isCRM ops s x HR E Lx)
    as (y & E1 & L1 & N1).
  exists y. split; [exact E1|]. split; [exact L1|]. intros r Hr. rewrite N1 by exact Hr. clear N1.
  pose proof (c03_lemma Z 0%Z Z.add (Z.eqb 0) A B C n cx isCRM ops s HR E r) as H3.
  assert (G : forall l a, (forall c, In c l -> c < n) ->
    fold_left (fun acc c => if touched Z (Z.eqb 0) ops r c
       then (acc + accumulated Z 0%Z Z.add (Z.eqb 0) ops false r c * nth c x 0)%Z else acc) l a =
    (a + fold_right Z.add 0 (map (fun c => accumulated Z 0%Z Z.add (Z.eqb 0) ops false r c * nth c x 0) l))%Z).
  { induction l as [|c l IH]; intros a Hl; cbn [fold_left map fold_right]; [lia|].
    rewrite IH by (intros; apply Hl; right; assumption).
    destruct (touched Z (Z.eqb 0) ops r c) eqn:T; [lia|].
    destruct (H3 c Hr (Hl c (or_introl eq_refl))) as [_ F]. destruct (F T) as [_ F']. rewrite F'. lia. }
  rewrite G; [lia|]. intros c Hc. apply in_seq in Hc. lia.
Qed.
