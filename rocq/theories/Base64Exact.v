(* The decoder accepts exactly the base64 texts (RFC 4648, padding optional), and
   returns the bytes they denote. *)
From Coq Require Import List ZArith Bool Lia.
From Verif Require Import Base64 Base64Proofs.
Import ListNotations.
Open Scope Z_scope.

(* ---- specification ------------------------------------------------------------- *)
(* character c stands for the sextet v *)
Definition sextet (c v : Z) : Prop :=
  (65 <= c <= 90 /\ v = c - 65) \/ (97 <= c <= 122 /\ v = c - 71) \/ (48 <= c <= 57 /\ v = c + 4) \/
  (c = 43 /\ v = 62) \/ (c = 47 /\ v = 63).
(* text without whitespace that denotes bytes; everything after a padded group is ignored *)
Inductive denotes : list Z -> list Z -> Prop :=
| den_end : denotes [] []
| den_group : forall c0 c1 c2 c3 v0 v1 v2 v3 t bs, sextet c0 v0 -> sextet c1 v1 -> sextet c2 v2 -> sextet c3 v3 -> denotes t bs ->
    denotes (c0 :: c1 :: c2 :: c3 :: t) (v0 * 4 + v1 / 16 :: v1 mod 16 * 16 + v2 / 4 :: v2 mod 4 * 64 + v3 :: bs)
| den_two : forall c0 c1 c2 v0 v1 v2 p, sextet c0 v0 -> sextet c1 v1 -> sextet c2 v2 -> p = [] \/ (exists trail, p = 61 :: trail) ->
    denotes (c0 :: c1 :: c2 :: p) [v0 * 4 + v1 / 16; v1 mod 16 * 16 + v2 / 4]
| den_one : forall c0 c1 v0 v1 p, sextet c0 v0 -> sextet c1 v1 -> p = [] \/ p = [61] \/ (exists trail, p = 61 :: 61 :: trail) ->
    denotes (c0 :: c1 :: p) [v0 * 4 + v1 / 16].

(* ---- proof ------------------------------------------------------------------------ *)
Definition sextet_val (c : Z) : option Z :=
  if (65 <=? c) && (c <=? 90) then Some (c - 65) else if (97 <=? c) && (c <=? 122) then Some (c - 71)
  else if (48 <=? c) && (c <=? 57) then Some (c + 4) else if c =? 43 then Some 62 else if c =? 47 then Some 63 else None.
Lemma sextet_val_ok : forall c v, sextet c v <-> sextet_val c = Some v.
Proof.
  intros c v. unfold sextet, sextet_val.
  destruct (Z.leb_spec 65 c), (Z.leb_spec c 90), (Z.leb_spec 97 c), (Z.leb_spec c 122), (Z.leb_spec 48 c), (Z.leb_spec c 57),
    (Z.eqb_spec c 43), (Z.eqb_spec c 47); cbn [andb]; split; intros H7;
    try (injection H7 as <-); try discriminate; try lia; try (f_equal; lia).
Qed.
Lemma lookup_sextet : forall c, 0 <= c < 128 ->
  table_lookup c = match sextet_val c with Some v => LVal v | None => if c =? 61 then LVal 0 else LBad end /\
  match sextet_val c with Some v => 0 <= v < 64 /\ (c =? 61) = false | None => True end.
Proof.
  intros c H.
  assert (S : forallb (fun c => match table_lookup c, match sextet_val c with Some v => LVal v | None => if c =? 61 then LVal 0 else LBad end with
     | LUB, LUB => true | LBad, LBad => true | LVal v, LVal w => v =? w | _, _ => false end &&
     match sextet_val c with Some v => (0 <=? v) && (v <? 64) && negb (c =? 61) | None => true end) (upto 128) = true) by (vm_compute; reflexivity).
  pose proof (sweep1 _ _ S c H) as Hc. cbv beta in Hc. apply andb_prop in Hc. destruct Hc as [H1 H2]. split.
  - destruct (table_lookup c), (match sextet_val c with Some v => LVal v | None => if c =? 61 then LVal 0 else LBad end); try discriminate; try reflexivity.
    apply Z.eqb_eq in H1. congruence.
  - destruct (sextet_val c); [|exact I]. apply andb_prop in H2. destruct H2 as [H2 H3]. split; [lia|]. apply negb_true_iff, H3.
Qed.
Lemma dout0_arith : forall s t, 0 <= s < 64 -> 0 <= t < 64 -> dout0 s t = s * 4 + t / 16.
Proof.
  intros s t Ha Hb. pose proof (sweep2 (fun a b => dout0 a b =? a * 4 + b / 16) 64 ltac:(vm_compute; reflexivity) s t Ha Hb) as H.
  cbv beta in H. lia.
Qed.
(* one group of four characters *)
Inductive group : Z -> Z -> Z -> Z -> dres -> Prop :=
| g_full : forall c0 c1 c2 c3 v0 v1 v2 v3, sextet c0 v0 -> sextet c1 v1 -> sextet c2 v2 -> sextet c3 v3 ->
    group c0 c1 c2 c3 (DOk [v0 * 4 + v1 / 16; v1 mod 16 * 16 + v2 / 4; v2 mod 4 * 64 + v3])
| g_two : forall c0 c1 c2 v0 v1 v2, sextet c0 v0 -> sextet c1 v1 -> sextet c2 v2 ->
    group c0 c1 c2 61 (DDone [v0 * 4 + v1 / 16; v1 mod 16 * 16 + v2 / 4])
| g_one : forall c0 c1 v0 v1, sextet c0 v0 -> sextet c1 v1 -> group c0 c1 61 61 (DDone [v0 * 4 + v1 / 16])
| g_bad0 : forall c0 c1 c2 c3, (forall v, ~ sextet c0 v) -> group c0 c1 c2 c3 DBad
| g_bad1 : forall c0 c1 c2 c3, (forall v, ~ sextet c1 v) -> group c0 c1 c2 c3 DBad
| g_bad2 : forall c0 c1 c2 c3, (forall v, ~ sextet c2 v) -> c2 <> 61 -> group c0 c1 c2 c3 DBad
| g_bad3 : forall c0 c1 c2 c3, (forall v, ~ sextet c3 v) -> c3 <> 61 -> group c0 c1 c2 c3 DBad
| g_bad4 : forall c0 c1 c3, c3 <> 61 -> group c0 c1 61 c3 DBad.
Lemma none_sextet : forall c, sextet_val c = None -> forall v, ~ sextet c v.
Proof. intros c H v K. apply sextet_val_ok in K. congruence. Qed.
Lemma decode4_group : forall c0 c1 c2 c3, ascii c0 -> ascii c1 -> ascii c2 -> ascii c3 -> group c0 c1 c2 c3 (decode4 c0 c1 c2 c3).
Proof.
  intros c0 c1 c2 c3 A0 A1 A2 A3. unfold decode4.
  destruct (lookup_sextet c0 A0) as [L0 R0]. destruct (lookup_sextet c1 A1) as [L1 R1].
  destruct (lookup_sextet c2 A2) as [L2 R2]. destruct (lookup_sextet c3 A3) as [L3 R3]. rewrite L0.
  destruct (sextet_val c0) as [v0|] eqn:E0; [destruct R0 as [R0 P0]|].
  2:{ destruct (Z.eqb_spec c0 61) as [->|N]; [cbn|]; apply g_bad0, none_sextet; assumption. }
  unfold pad. rewrite P0, L1.
  destruct (sextet_val c1) as [v1|] eqn:E1; [destruct R1 as [R1 P1]|].
  2:{ destruct (Z.eqb_spec c1 61) as [->|N]; apply g_bad1, none_sextet; assumption. }
  rewrite P1, L2. apply sextet_val_ok in E0, E1.
  destruct (sextet_val c2) as [v2|] eqn:E2; [destruct R2 as [R2 P2]|].
  - rewrite P2, L3. apply sextet_val_ok in E2.
    destruct (sextet_val c3) as [v3|] eqn:E3; [destruct R3 as [R3 P3]|].
    + rewrite P3. apply sextet_val_ok in E3. cbn [negb andb orb app].
      fold (dout0 v0 v1) (dout1 v1 v2) (dout2 v2 v3). rewrite dout0_arith, dout1_arith, dout2_arith by assumption. apply g_full; assumption.
    + destruct (Z.eqb_spec c3 61) as [->|N]; [|apply g_bad3; [apply none_sextet|]; assumption].
      cbn [negb andb orb app]. fold (dout0 v0 v1) (dout1 v1 v2). rewrite dout0_arith, dout1_arith by assumption. apply g_two; assumption.
  - destruct (Z.eqb_spec c2 61) as [->|N]; [|apply g_bad2; [apply none_sextet|]; assumption].
    rewrite L3. destruct (sextet_val c3) as [v3|] eqn:E3; [destruct R3 as [R3 P3]|].
    + rewrite P3. cbn [negb andb]. apply g_bad4. apply Z.eqb_neq, P3.
    + destruct (Z.eqb_spec c3 61) as [->|N]; [|apply g_bad3; [apply none_sextet|]; assumption].
      cbn [negb andb orb app]. fold (dout0 v0 v1). rewrite dout0_arith by assumption. apply g_one; assumption.
Qed.
Lemma loop4 : forall c0 c1 c2 c3 t out, is_space c0 = false -> is_space c1 = false -> is_space c2 = false -> is_space c3 = false ->
  decode_loop (c0 :: c1 :: c2 :: c3 :: t) [] out =
  match decode4 c0 c1 c2 c3 with DUB => UB | DBad => Ret false out | DDone o => Ret true (out ++ o) | DOk o => decode_loop t [] (out ++ o) end.
Proof. intros c0 c1 c2 c3 t out H0 H1 H2 H3. cbn [decode_loop]. rewrite H0. cbn [app]. rewrite H1. cbn [app]. rewrite H2. cbn [app]. rewrite H3. reflexivity. Qed.
Lemma loop_short : forall t out, (length t < 4)%nat -> Forall (fun c => is_space c = false) t -> decode_loop t [] out = decode_end t out.
Proof.
  intros t out L H. destruct t as [|a [|b [|c [|d t]]]]; cbn in L; [| | | |lia].
  - reflexivity.
  - inversion_clear H as [|? ? Ha H2]. cbn [decode_loop]. rewrite Ha. reflexivity.
  - inversion_clear H as [|? ? Ha H2]. inversion_clear H2 as [|? ? Hb H3]. cbn [decode_loop]. rewrite Ha. cbn [app]. rewrite Hb. reflexivity.
  - inversion_clear H as [|? ? Ha H2]. inversion_clear H2 as [|? ? Hb H3]. inversion_clear H3 as [|? ? Hc H4].
    cbn [decode_loop]. rewrite Ha. cbn [app]. rewrite Hb. cbn [app]. rewrite Hc. reflexivity.
Qed.
Lemma not61 : forall v, ~ sextet 61 v.
Proof. intros v H. unfold sextet in H. lia. Qed.
Lemma sextet_fun : forall c v w, sextet c v -> sextet c w -> v = w.
Proof. intros c v w H K. unfold sextet in *. lia. Qed.
Ltac same := repeat match goal with H : sextet ?c ?v, K : sextet ?c ?w |- _ => assert_fails (constr_eq v w); pose proof (sextet_fun _ _ _ H K); subst end.
Ltac bad := exfalso; match goal with
  | H : sextet 61 _ |- _ => exact (not61 _ H)
  | H : forall v, ~ sextet ?c v, K : sextet ?c _ |- _ => exact (H _ K)
  | H : ?c <> 61 |- _ => congruence end.
Lemma denotes_loop : forall n t out r, (length t <= n)%nat -> Forall ascii t -> Forall (fun c => is_space c = false) t ->
  decode_loop t [] out = Ret true r <-> exists bs, r = out ++ bs /\ denotes t bs.
Proof.
  induction n as [|n IH]; intros t out r L A N.
  { destruct t; [|cbn in L; lia]. cbn. split.
    - intros H. injection H as <-. exists []. split; [rewrite app_nil_r; reflexivity|constructor].
    - intros (bs & -> & H). inversion H; subst. rewrite app_nil_r. reflexivity. }
  destruct t as [|c0 [|c1 [|c2 [|c3 t]]]].
  - cbn. split.
    + intros H. injection H as <-. exists []. split; [rewrite app_nil_r; reflexivity|constructor].
    + intros (bs & -> & H). inversion H; subst. rewrite app_nil_r. reflexivity.
  - rewrite loop_short by (auto; cbn; lia). inversion_clear A as [|? ? A0 A'].
    unfold decode_end. cbn [nth]. unfold pad. pose proof (decode4_group c0 61 61 61 A0 ltac:(unfold ascii; lia) ltac:(unfold ascii; lia) ltac:(unfold ascii; lia)) as G.
    split.
    + intros H. inversion G; subst; try bad; try (match goal with E : _ = decode4 _ _ _ _ |- _ => rewrite <- E in H end); discriminate.
    + intros (bs & _ & H). inversion H.
  - rewrite loop_short by (auto; cbn; lia). inversion_clear A as [|? ? A0 A']. inversion_clear A' as [|? ? A1 _].
    unfold decode_end. cbn [nth]. unfold pad. pose proof (decode4_group c0 c1 61 61 A0 A1 ltac:(unfold ascii; lia) ltac:(unfold ascii; lia)) as G.
    split.
    + intros H. inversion G; subst; try bad; try (match goal with E : _ = decode4 _ _ _ _ |- _ => rewrite <- E in H end); try discriminate.
      injection H as <-. eexists. split; [reflexivity|]. apply den_one; auto.
    + intros (bs & -> & H). inversion H; subst. inversion G; subst; try bad. same.
      try (match goal with E : _ = decode4 _ _ _ _ |- _ => rewrite <- E end). reflexivity.
  - rewrite loop_short by (auto; cbn; lia). inversion_clear A as [|? ? A0 A']. inversion_clear A' as [|? ? A1 A'']. inversion_clear A'' as [|? ? A2 _].
    unfold decode_end. cbn [nth]. unfold pad. pose proof (decode4_group c0 c1 c2 61 A0 A1 A2 ltac:(unfold ascii; lia)) as G.
    split.
    + intros H. inversion G; subst; try bad; try (match goal with E : _ = decode4 _ _ _ _ |- _ => rewrite <- E in H end); try discriminate.
      * injection H as <-. eexists. split; [reflexivity|]. apply den_two; auto.
      * injection H as <-. eexists. split; [reflexivity|]. apply den_one; auto.
    + intros (bs & -> & H). inversion H; subst.
      * inversion G; subst; try bad. same. try (match goal with E : _ = decode4 _ _ _ _ |- _ => rewrite <- E end). reflexivity.
      * match goal with K : _ \/ _ |- _ => destruct K as [K|[K|(trail & K)]]; try discriminate; injection K as -> end.
        inversion G; subst; try bad. same. try (match goal with E : _ = decode4 _ _ _ _ |- _ => rewrite <- E end). reflexivity.
  - inversion_clear A as [|? ? A0 A']. inversion_clear A' as [|? ? A1 A'']. inversion_clear A'' as [|? ? A2 A''']. inversion_clear A''' as [|? ? A3 A4].
    inversion_clear N as [|? ? N0 N']. inversion_clear N' as [|? ? N1 N'']. inversion_clear N'' as [|? ? N2 N''']. inversion_clear N''' as [|? ? N3 N4].
    rewrite loop4 by assumption. pose proof (decode4_group c0 c1 c2 c3 A0 A1 A2 A3) as G. cbn in L. split.
    + intros H. inversion G; subst; try (match goal with E : _ = decode4 _ _ _ _ |- _ => rewrite <- E in H end); try discriminate.
      * apply IH in H; [|lia|assumption|assumption]. destruct H as (bs & -> & H). rewrite <- app_assoc. eexists. split; [reflexivity|]. apply den_group; assumption.
      * injection H as <-. eexists. split; [reflexivity|]. apply den_two; eauto.
      * injection H as <-. eexists. split; [reflexivity|]. apply den_one; eauto.
    + intros (bs & -> & H). inversion H; subst.
      * inversion G; subst; try bad. same. try (match goal with E : _ = decode4 _ _ _ _ |- _ => rewrite <- E end).
        apply IH; [lia|assumption|assumption|]. eexists. split; [rewrite <- app_assoc; reflexivity|assumption].
      * match goal with K : _ \/ _ |- _ => destruct K as [K|(trail & K)]; try discriminate; injection K as -> -> end.
        inversion G; subst; try bad. same. try (match goal with E : _ = decode4 _ _ _ _ |- _ => rewrite <- E end). reflexivity.
      * match goal with K : _ \/ _ |- _ => destruct K as [K|[K|(trail & K)]]; try discriminate; injection K as -> -> -> end.
        inversion G; subst; try bad. same. try (match goal with E : _ = decode4 _ _ _ _ |- _ => rewrite <- E end). reflexivity.
Qed.
Lemma space_list : forall c, is_space c = true <-> In c [9; 10; 11; 12; 13; 32].
Proof. intros c. unfold is_space. cbn. lia. Qed.
Lemma decode_exact_lemma : forall text t bs, Forall ascii text ->
  t = filter (fun c => negb (is_space c)) text -> decode text = Ret true bs <-> denotes t bs.
Proof.
  intros text t bs A ->. unfold decode. rewrite decode_loop_spaces.
  rewrite (denotes_loop (length (filter (fun c => negb (is_space c)) text)) _ [] bs (le_n _)).
  - split; [intros (bs' & -> & H); exact H|]. intros H. exists bs. split; [reflexivity|exact H].
  - apply Forall_forall. intros c Hc. apply filter_In in Hc. rewrite Forall_forall in A. apply A, Hc.
  - apply Forall_forall. intros c Hc. apply filter_In in Hc. apply negb_true_iff, Hc.
Qed.
