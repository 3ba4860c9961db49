(* C57, the characters of the file and the numbers. *)
From Coq Require Import Ascii String List Bool Arith ZArith Reals Lia Lra Sorting.Sorted.
From Flocq Require Import Core IEEE754.BinarySingleNaN.
Import ListNotations.
Require Import Verif.StrMap Verif.Adjacency Verif.Loader Verif.LoaderSpec Verif.LoaderProofs Verif.CMatrixFloat Verif.Restart Verif.RestartWrite Verif.RestartSpec Verif.RestartProofs
  Verif.RestartDeviceSpec Verif.RestartDevice Verif.RestartModelsSpec Verif.RestartProperties
  Verif.RestartText Verif.RestartTextSpec Verif.RestartTextProofs Verif.RestartScan2 Verif.RestartScan3 Verif.RestartScan4 Verif.RestartTextProofs2
  Verif.RestartNumber Verif.RestartNumberProofs Verif.RestartNumberProofs2.
Local Arguments Nat.ltb : simpl never.
Local Arguments Nat.leb : simpl never.
Local Arguments Nat.eqb : simpl never.
Local Open Scope list_scope.

(* ---- numbers ---- *)
(* A finite double with at most 16 significant decimal digits (0.5, 1e21, integers up to 2^53) is the same after it was written and
   read. *)
Theorem C57_number_exact : forall (x : double) n j, is_finite x = true -> B2R x = (IZR n * bpow (Build_radix 10 eq_refl) j)%R -> (Z.abs n < 10 ^ 16)%Z ->
  atof_double (show_double x) = x.
Proof. exact reread_exact. Qed.
Print Assumptions C57_number_exact.
(* Every other finite double below 1.797693134862314e308 changes by less than 7 in its 16th digit (and half of the smallest
   positive double). *)
Theorem C57_number_close : forall x : double, is_finite x = true -> (Rabs (B2R x) <= IZR 1797693134862314 * bpow (Build_radix 10 eq_refl) 293)%R ->
  is_finite (atof_double (show_double x)) = true /\
  (Rabs (B2R (atof_double (show_double x)) - B2R x) <= 7 / 10 ^ 16 * Rabs (B2R x) + / 2 * bpow radix2 (-1074))%R.
Proof. exact reread_close. Qed.
Print Assumptions C57_number_close.
(* But values are not restored as they were: 1 and the next double have the same text, so no way of reading it restores both. *)
Definition after_one : double := @B754_finite 53 1024 false 4503599627370497 (-52) eq_refl.
Theorem C57_number_refuted : forall read : text -> double, exists x : double, is_finite x = true /\ read (show_double x) <> x.
Proof.
  intros read. destruct (Req_EM_T (B2R (read (show_double after_one))) 1) as [E|E].
  - exists after_one. split; [reflexivity|]. intros C. rewrite C in E. unfold after_one in E. cbn [B2R] in E. unfold F2R in E. cbn [Fnum Fexp SpecFloat.cond_Zopp] in E.
    assert (B : bpow radix2 (-52) = (/ 4503599627370496)%R) by reflexivity. rewrite B in E. lra.
  - exists (Bone : double). split; [reflexivity|]. intros C. apply E. replace (show_double after_one) with (show_double (Bone : double)) by (vm_compute; reflexivity). rewrite C. apply Bone_correct.
Qed.
Print Assumptions C57_number_refuted.
(* The largest double comes back as infinity. *)
Definition largest : double := @B754_finite 53 1024 false 9007199254740991 971 eq_refl.
Theorem C57_largest_refuted : atof_double (show_double largest) = B754_infinity false.
Proof.
  assert (S : show_double largest = scientific false 1797693134862316 308) by (vm_compute; reflexivity).
  rewrite S, atof_scientific by lia. cbn [signed]. apply nearest_double_overflow.
  - apply Rmult_lt_0_compat; [apply IZR_lt; lia|apply power10_pos].
  - assert (H : (IZR (2 ^ 1024 - 2 ^ 970) <= IZR 1797693134862316 * power10 (308 - 15))%R).
    { rewrite power10_IZR by lia. rewrite <- mult_IZR. apply IZR_le. vm_compute. discriminate. }
    apply (round_le radix2 fexp ZnearestE) in H. eapply Rle_trans; [|exact H]. apply Req_le.
    assert (E : IZR (2 ^ 1024 - 2 ^ 970) = (IZR (2 ^ 54 - 1) * bpow radix2 970)%R) by (rewrite <- IZR_Zpower, <- mult_IZR by lia; f_equal; vm_compute; reflexivity).
    rewrite E. unfold round, scaled_mantissa.
    assert (M : mag radix2 (IZR (2 ^ 54 - 1) * bpow radix2 970)%R = 1024%Z :> Z).
    { apply mag_unique. rewrite Rabs_right by (apply Rle_ge, Rmult_le_pos; [apply IZR_le; lia|apply bpow_ge_0]). rewrite <- E. rewrite <- !IZR_Zpower by lia. split; [apply IZR_le|apply IZR_lt]; vm_compute; [discriminate|reflexivity]. }
    assert (C : cexp radix2 fexp (IZR (2 ^ 54 - 1) * bpow radix2 970) = 971%Z) by (unfold cexp; rewrite M; reflexivity).
    rewrite C. assert (SM : (IZR (2 ^ 54 - 1) * bpow radix2 970 * bpow radix2 (- (971)) = IZR (2 ^ 53) - / 2)%R).
    { rewrite Rmult_assoc, <- bpow_plus. change (bpow radix2 (970 + - (971))) with (/ 2)%R. change (2 ^ 54 - 1)%Z with 18014398509481983%Z. change (2 ^ 53)%Z with 9007199254740992%Z. lra. }
    rewrite SM. assert (Z1 : ZnearestE (IZR (2 ^ 53) - / 2) = (2 ^ 53)%Z).
    { unfold Znearest. assert (F : Zfloor (IZR (2 ^ 53) - / 2) = (2 ^ 53 - 1)%Z) by (apply Zfloor_imp; rewrite plus_IZR, minus_IZR; lra). rewrite F.
      rewrite minus_IZR. replace (IZR (2 ^ 53) - / 2 - (IZR (2 ^ 53) - 1))%R with (/ 2)%R by lra. rewrite Rcompare_Eq by reflexivity.
      change (negb (Z.even (2 ^ 53 - 1))) with true. cbv iota. apply Zceil_imp. rewrite minus_IZR. lra. }
    rewrite Z1. unfold F2R. cbn [Fnum Fexp]. rewrite <- !IZR_Zpower by lia. rewrite <- mult_IZR. f_equal.
Qed.
Print Assumptions C57_largest_refuted.
Example C57_number_ex : show_double (@B754_finite 53 1024 true 6755399441055744 (-50) eq_refl) = chars "-6.000000000000000e+00" /\ show_double after_one = chars "1.000000000000000e+00" /\
  show_double largest = chars "1.797693134862316e+308" /\ show_double (@B754_finite 53 1024 false 1 (-1074) eq_refl) = chars "4.940656458412465e-324".
Proof. vm_compute. auto. Qed.

(* ---- characters ---- *)
Section Characters.
Variable A : Type.
Variable of_int : Z -> A.
Variable run : list (command A) -> command A -> bool.
Variable builtin : mtype -> string -> bool.
Variable show : A -> text.
Variable atof : text -> A.
(* Reading the characters of words, options, names and numbers gives the words, options, names and numbers, whatever blanks are
   between them: loading the text of a file is loading its lexemes. *)
Theorem C57_characters : forall l t w, rendered A show l t -> legible A show (w_stack A w) true l ->
  load_text A of_int run builtin atof w t = load_devices A of_int run builtin w (map (reread A show atof) l).
Proof. intros l t w R L. unfold load_text, load_devices. apply (text_is_lexemes A of_int run builtin show atof l t R); [exact L|lia]. Qed.
End Characters.
Print Assumptions C57_characters.

Lemma readable_mono : forall A (p q : A -> Prop) s, (forall a, p a -> q a) -> readable A p s -> readable A q s.
Proof.
  intros A p q s H (H1 & H2 & H3 & H4 & H5). split; [exact H1|]. split; [|split; [|auto]].
  - eapply Forall_impl; [|exact H2]. intros x (X & Y & Z). auto.
  - eapply Forall_impl; [|exact H3]. intros [n r] [C (R1 & R2 & R3)]. split; [exact C|]. split; [exact R1|]. split; [|exact R3]. eapply Forall_impl; [|exact R2].
    intros [k [m b]] [Ck Rb]. split; [exact Ck|]. cbn [snd] in *. destruct b; cbn in *; auto. eapply Forall_impl; [|exact Rb]. exact H.
Qed.
(* ---- devices ---- *)
Section Devices.
Variable of_int : Z -> double.
Variable run : list (command double) -> command double -> bool.
Variable builtin : mtype -> string -> bool.
(* What C57_restart_partial says of lexemes holds of the characters of the file, when names have no quotation marks and all values
   are finite; each number v is then atof(text of v), see C57_number_exact and C57_number_close.
   partial: what the commands do and the elements of interfaces are not part of this. *)
Theorem C57_restart_text_partial : forall l w t,
  w_stack double w = [] -> w_loader double w = None -> sorted (w_devices double w) -> sorted (w_loaded double w) ->
  Forall (fun p => writable double run (fst p) (snd p)) l -> NoDup (map (fun p => sv_name double (fst p)) l) ->
  Forall (fun p => ~ In (sv_name double (fst p)) (w_meshes double w) /\ find (sv_name double (fst p)) (w_devices double w) = None) l ->
  Forall (fun p => readable double (fun x => is_finite x = true) (fst p)) l ->
  rendered double show_double (write_devices double (map fst l)) t ->
  exists w', load_text double of_int run builtin atof_double w t = Success double w' /\ w_stack double w' = [] /\ w_loader double w' = None /\
    Forall (fun p => is_back double of_int builtin w' (renumber double (fun x => atof_double (show_double x)) (fst p)) (snd p)) l /\
    forall n, ~ In n (map (fun p => sv_name double (fst p)) l) -> find n (w_devices double w') = find n (w_devices double w).
Proof.
  intros l w t SW LW SD SL WR ND FN RD RT.
  assert (LG : legible double show_double (w_stack double w) true (write_devices double (map fst l))).
  { rewrite SW. apply written_legible. apply Forall_map. eapply Forall_impl; [|exact RD]. intros p. apply readable_mono. exact show_numeral. }
  rewrite (C57_characters double of_int run builtin show_double atof_double _ t w RT LG). rewrite re_devices.
  set (g := fun x => atof_double (show_double x)) in *. set (l' := map (fun p => (renumber double g (fst p), snd p)) l).
  assert (E1 : map (renumber double g) (map fst l) = map fst l') by (unfold l'; rewrite !map_map; reflexivity).
  assert (E2 : map (fun p => sv_name double (fst p)) l' = map (fun p => sv_name double (fst p)) l) by (unfold l'; rewrite map_map; reflexivity).
  rewrite E1. destruct (C57_restart_partial double of_int run builtin l' w SW LW SD SL) as (w' & H1 & H2 & H3 & H4 & H5).
  - unfold l'. apply Forall_map. eapply Forall_impl; [|exact WR]. intros p. apply writable_renumber.
  - rewrite E2. exact ND.
  - unfold l'. apply Forall_map. exact FN.
  - exists w'. split; [exact H1|]. split; [exact H2|]. split; [exact H3|]. rewrite E2 in H5. split; [|exact H5].
    unfold l' in H4. rewrite Forall_map in H4. exact H4.
Qed.
End Devices.
Print Assumptions C57_restart_text_partial.

(* ---- an example, and what cannot be written ---- *)
(* one blank between the lexemes of a line *)
Fixpoint spaced (A : Type) (show : A -> text) (l : list (lexeme A)) : text :=
  match l with
  | [] => []
  | x :: l' => lexeme_text A show x ++ match x, l' with NL _, _ | _, [] | _, NL _ :: _ => [] | _, _ => [" "%char] end ++ spaced A show l'
  end.
Fixpoint spaceable (A : Type) (l : list (lexeme A)) : bool :=
  match l with
  | [] => true
  | NL _ :: l' => spaceable A l'
  | x :: l' => match l' with [] => false | NL _ :: _ => match x with Line _ w => negb (String.eqb w "COMMAND") | _ => true end | _ => true end && spaceable A l'
  end.
Lemma spaced_rendered : forall A show l, spaceable A l = true -> rendered A show l (spaced A show l).
Proof.
  intros A show l. induction l as [|x l IH]; intros H; [constructor|].
  assert (NLx : x = NL A \/ x <> NL A) by (destruct x; try (right; discriminate); left; reflexivity). destruct NLx as [-> | N].
  - cbn. constructor. apply IH, H.
  - destruct l as [|y l]; [destruct x; try discriminate; congruence|].
    assert (HS : spaceable A (y :: l) = true) by (destruct x; cbn [spaceable] in H; try (apply andb_true_iff in H; apply H); congruence). specialize (IH HS).
    assert (NLy : y = NL A \/ y <> NL A) by (destruct y; try (right; discriminate); left; reflexivity). destruct NLy as [-> | Ny].
    + assert (E : spaced A show (x :: NL A :: l) = lexeme_text A show x ++ [] ++ spaced A show (NL A :: l)) by (destruct x; try congruence; reflexivity). rewrite E.
      apply R_last; [exact IH|exact N| |constructor]. intros ->. discriminate.
    + assert (E : spaced A show (x :: y :: l) = lexeme_text A show x ++ [" "%char] ++ spaced A show (y :: l)) by (destruct x; try congruence; destruct y; try congruence; reflexivity). rewrite E.
      apply R_gap; [exact IH|exact N|exact Ny|repeat constructor|discriminate].
Qed.
Open Scope string_scope.
Definition half : double := @B754_finite 53 1024 false 4503599627370496 (-53) eq_refl.
Definition text_saved (name : string) (u : double) : saved double :=
  let region nodes ms := {| sr_material := "Si"; sr_nodes := nodes; sr_edges := [[0; 1]%nat; [0; 2]%nat; [1; 2]%nat]; sr_tris := [[0; 1; 2]%nat]; sr_tets := [];
     sr_models := ms; sr_equations := [("eq", ("equation", [("name", "eq"); ("region", "x y")]))] |} in
  {| sv_name := name; sv_dim := 2; sv_coords := [(dzero, dzero, dzero); (dzero, half, dzero); (half, dzero, dzero); (half, half, dzero)];
     sv_regions := [("ox", region [1; 2; 3]%nat [("m", (MEdge, BCommand double "edge_model" [("equation", "1")]))]);
                    ("si", region [0; 1; 2]%nat [("p", (MNode, BData double [half; dzero; half])); ("u", (MEdge, BUniform double u))])];
     sv_contacts := [("top", {| sc_region := "si"; sc_material := "metal"; sc_nodes := [0; 1]%nat; sc_edges := [[0; 1]%nat]; sc_tris := []; sc_equations := [] |})];
     sv_interfaces := [("i", {| si_region0 := "si"; si_region1 := "ox"; si_pairs := [(1, 0)%nat; (2, 1)%nat]; si_provided := true;
                               si_edges0 := [[1; 2]%nat]; si_edges1 := [[0; 1]%nat]; si_tris0 := []; si_tris1 := []; si_models := []; si_equations := [] |})] |}.
Lemma text_writable : forall n u, writable double (fun _ _ => true) (text_saved n u) ex_device.
Proof.
  intros n u. split; [|split; [|split; [|split]]].
  - split; [reflexivity|]. split; [repeat constructor|]. split; [|repeat constructor].
    constructor; [|constructor]. split; [reflexivity|]. split; [reflexivity|]. split; [reflexivity|]. exists (tri_region [0; 1; 2]%nat). repeat split.
  - split; [cbn; lia|]. split; [discriminate|]. split; [discriminate|]. split; [|split].
    + constructor; [apply tri_whole; [reflexivity|repeat constructor; lia]|]. constructor; [apply tri_whole; [reflexivity|repeat constructor; lia]|constructor].
    + constructor; [|constructor]. exists (tri_region [0; 1; 2]%nat). split; [reflexivity|]. cbn. split; [repeat constructor; lia|]. split; [reflexivity|]. split; [repeat constructor|].
      intros i. split.
      * intros [<-|[<-|[]]]; (exists 0%nat, [0; 1]%nat; split; [left; reflexivity|]; split; [reflexivity|]); cbn; auto.
      * intros (e & s & [<-|[]] & [= <-] & I). exact I.
    + constructor; [|constructor]. exists (tri_region [0; 1; 2]%nat), (tri_region [1; 2; 3]%nat). split; [reflexivity|]. split; [reflexivity|]. cbn. split; [repeat constructor; lia|]. split; [repeat constructor; lia|]. right. right.
      split; [reflexivity|]. split; [repeat constructor|]. split; [repeat constructor|]. split; [|split; [|split; [reflexivity|split; repeat constructor; cbn; lia]]].
      * intros j. split; [intros I; exists [1; 2]%nat; split; [left; reflexivity|exact I]|]. intros (s & [<-|[]] & I). exact I.
      * intros j. split; [intros I; exists [0; 1]%nat; split; [left; reflexivity|exact I]|]. intros (s & [<-|[]] & I). exact I.
  - split; [repeat constructor|]. split; [repeat constructor|]. split; [repeat constructor|]. split; [|split]; repeat constructor; cbn; discriminate.
  - intros k r j m vs I J. cbn in I. destruct I as [[= <- <-]|[[= <- <-]|[]]]; cbn in J; destruct J as [E|J].
    + discriminate. + destruct J. + injection E as <- <- <-. reflexivity. + destruct J as [E|[]]. discriminate.
  - intros pre c post E. reflexivity.
Qed.
Lemma clean_b : forall s, forallb (fun c => negb (Ascii.eqb c quote) && negb (Ascii.eqb c zero)) (chars s) = true -> clean s.
Proof. intros s H. apply Forall_forall. intros c I. rewrite forallb_forall in H. specialize (H c I). apply andb_true_iff in H. rewrite !negb_true_iff, !Ascii.eqb_neq in H. exact H. Qed.
Lemma option_b : forall w, (match chars w with [] => false | c :: t => of_theseb [small] c && forallb (of_theseb [small; "0123456789_"%string]) t end)%bool = true -> option_word w.
Proof.
  intros w. unfold option_word. destruct (chars w) as [|c t]; [discriminate|]. intros H. apply andb_true_iff in H. destruct H as [H F]. split; [apply of_theseb_ok, H|].
  apply Forall_forall. rewrite forallb_forall in F. intros x Hx. apply of_theseb_ok, F, Hx.
Qed.
Ltac rd := match goal with
  | |- clean _ => apply clean_b; vm_compute; reflexivity
  | |- plain _ => apply plain_b; vm_compute; reflexivity
  | |- option_word _ => apply option_b; vm_compute; reflexivity
  | |- is_finite _ = true => reflexivity
  | |- True => exact I
  | |- _ /\ _ => split; rd
  | |- Forall _ _ => constructor; cbn [fst snd] in *; rd
  | |- ?g => let h := eval cbv delta [readable readable_region readable_contact readable_interface readable_calls readable_call readable_body] in g in
             progress change h; cbn [sv_name sv_coords sv_regions sv_contacts sv_interfaces sr_material sr_models sr_equations sc_region sc_material sc_equations si_region0 si_region1 si_models si_equations text_saved fst snd]; rd
  end.
Example C57_text_case : writable double (fun _ _ => true) (text_saved "a" half) ex_device /\ readable double (fun x => is_finite x = true) (text_saved "a" half) /\
  (exists t, rendered double show_double (write_devices double [text_saved "a" half]) t) /\
  firstn 102 (spaced double show_double (write_devices double [text_saved "a" half])) =
    chars "begin_device ""a""
begin_coordinates
0.000000000000000e+00 0.000000000000000e+00 0.000000000000000e+00
0".
Proof.
  split; [apply text_writable|]. split.
  - rd.
  - split; [eexists; apply spaced_rendered; vm_compute; reflexivity|]. vm_compute. reflexivity.
Qed.
(* A device whose name contains a quotation mark is written to a file that cannot be loaded. *)
Theorem C57_quote_refuted : forall atof of_int, exists n d t, writable double (fun _ _ => true) (text_saved n half) d /\ rendered double show_double (write_devices double [text_saved n half]) t /\
  exists w', load_text double of_int (fun _ _ => true) (fun _ _ => false) atof (Build_world double [] None [] [] []) t = Failure double w'.
Proof.
  intros atof of_int. exists "a""b", ex_device, (spaced double show_double (write_devices double [text_saved "a""b" half])). split; [apply text_writable|]. split; [apply spaced_rendered; vm_compute; reflexivity|].
  eexists. vm_compute. reflexivity.
Qed.
Print Assumptions C57_quote_refuted.
(* So is one of whose values one is infinite or not a number. *)
Theorem C57_infinity_refuted : forall atof of_int u, u = B754_infinity false \/ u = B754_infinity true \/ u = B754_nan ->
  exists d t, writable double (fun _ _ => true) (text_saved "a" u) d /\ rendered double show_double (write_devices double [text_saved "a" u]) t /\
  exists w', load_text double of_int (fun _ _ => true) (fun _ _ => false) atof (Build_world double [] None [] [] []) t = Failure double w'.
Proof.
  intros atof of_int u H. exists ex_device, (spaced double show_double (write_devices double [text_saved "a" u])). split; [apply text_writable|].
  destruct H as [-> | [-> | ->]]; (split; [apply spaced_rendered; vm_compute; reflexivity|]; eexists; vm_compute; reflexivity).
Qed.
Print Assumptions C57_infinity_refuted.
