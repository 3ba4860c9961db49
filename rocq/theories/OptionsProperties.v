(* C42: the keyword options of a command. *)
From Coq Require Import String List Bool ZArith Lia Sorting.Sorted.
From Verif Require Import StrMap Options OptionsSpec OptionsProofs.
From Flocq Require Import BinarySingleNaN.
From Verif Require Import CMatrixFloat FloatLaws.
Import ListNotations.
Open Scope string_scope.
Open Scope list_scope.

Section P.
Variable F : Type.
Variables (f0 fmax fmin : F) (fz : Z -> option F) (is0 nonpos : F -> bool).
Variable repr : obj F -> string.
Variable float_text : string -> option F.
Variable int_text : string -> option Z.
Notation process := (process F f0 fmax fmin fz is0 nonpos repr float_text int_text).
Notation suits := (suits F fz repr float_text int_text).
Notation integer := (integer F repr int_text).
Notation in_order := (in_order F f0 fmax fmin fz (fun f => nonpos f = true) repr float_text).

(* the values that are taken: like suits, but an INTEGER option takes everything except an integer of 33 to 64 bits *)
Definition taken (t : otype) (o : obj F) : Prop :=
  match t with INTEGER => forall z, integer o z -> is_int32 z \/ ~ is_int64 z | _ => suits t o end.

Lemma as_long_in : forall z, is_int64 z -> as_long z = z.
Proof.
  intros z [A B]. unfold as_long. destruct (Z.leb_spec (- 2 ^ 63) z); [|lia]. destruct (Z.ltb_spec z (2 ^ 63)); [reflexivity|lia].
Qed.
Lemma as_long_out : forall z, ~ is_int64 z -> as_long z = (-1)%Z.
Proof.
  intros z H. unfold as_long. destruct (Z.leb_spec (- 2 ^ 63) z); [|reflexivity]. destruct (Z.ltb_spec z (2 ^ 63)); [|reflexivity].
  destruct H. split; assumption.
Qed.
Lemma int64_dec : forall z, is_int64 z \/ ~ is_int64 z.
Proof. intros z. unfold is_int64. lia. Qed.
Lemma fits_taken : forall t v, fits F fz is0 repr float_text int_text t v = true <-> taken t v.
Proof.
  intros t v. destruct t; cbn [fits taken OptionsSpec.suits].
  - unfold get_boolean. split; [intros _; exact I|reflexivity].
  - split; [intros _; exact I|reflexivity].
  - unfold get_integer. destruct (get_long F repr int_text v) as [r|] eqn:E.
    + destruct (get_integer_ _ _ _ _ _ E) as [z [Hz ->]].
      destruct (Z.leb_spec (- 2 ^ 31) (as_long z)) as [A|A]; [destruct (Z.leb_spec (as_long z) (2 ^ 31 - 1)) as [B|B]|]; cbn.
      * split; [|reflexivity]. intros _ z' Hz'. rewrite <- (integer_fun _ _ _ _ _ _ Hz Hz').
        destruct (int64_dec z) as [J|J]; [left|right; exact J]. rewrite (as_long_in _ J) in A, B. split; lia.
      * split; [discriminate|]. intros H. destruct (H z Hz) as [J|J].
        -- rewrite as_long_in in B; unfold is_int32, is_int64 in *; lia.
        -- rewrite (as_long_out _ J) in B. lia.
      * split; [discriminate|]. intros H. destruct (H z Hz) as [J|J].
        -- rewrite as_long_in in A; unfold is_int32, is_int64 in *; lia.
        -- rewrite (as_long_out _ J) in A. lia.
    + split; [|reflexivity]. intros _ z Hz. apply integer_get in Hz. congruence.
  - destruct (get_double F fz float_text v) as [f|] eqn:E.
    + split; [|reflexivity]. intros _. exists f. apply number_get. exact E.
    + split; [discriminate|]. intros [f H]. apply number_get in H. congruence.
  - destruct v; cbn; split; intros H; try discriminate; try reflexivity; try exact I; destruct H.
Qed.

Lemma process_sel : forall opts kw, good_table opts -> sorted kw ->
  match select F fz is0 repr float_text int_text (option_map_ opts) kw [] with
  | Some sel => (forall n, find n sel = match find n kw with Some v => if String.eqb n "" then None else Some v | None => None end) /\
                known F opts kw /\ typed F opts kw taken
  | None => ~ (known F opts kw /\ typed F opts kw taken)
  end.
Proof.
  intros opts kw Ht Hk.
  pose proof (select_spec F fz is0 repr float_text int_text opts Ht kw [] Hk (Sorted.SSorted_nil _) (fun n _ => eq_refl)) as H.
  destruct (select _ _ _ _ _ _ _ kw []) as [sel|].
  - destruct H as [_ [A B]]. split; [exact B|]. split.
    + intros n v J Z. destruct (A n v J Z) as [o [X [Y _]]]. exists o. auto.
    + intros o v J K. destruct Ht as [N [E _]].
      destruct (A (o_name o) v K) as [o' [X [Y Z]]]; [intros Q; destruct E; rewrite <- Q; apply in_map; exact J|].
      assert (o = o').
      { assert (G : NoDup (map o_name opts) /\ ~ In "" (map o_name opts)) by auto.
        assert (U : forall l, NoDup (map o_name l) -> forall a b, In a l -> In b l -> o_name a = o_name b -> a = b).
        { clear. induction l as [|c t IH]; intros N a b Ia Ib Q; [destruct Ia|]. cbn in N. inversion N as [|x y Hx N']; subst.
          destruct Ia as [<-|Ia]; destruct Ib as [<-|Ib]; auto.
          - destruct Hx. rewrite Q. apply in_map. exact Ib.
          - destruct Hx. rewrite <- Q. apply in_map. exact Ia. }
        apply (U opts N); auto. }
      subst o'. apply fits_taken. exact Z.
  - destruct H as [n [v [J [Z H]]]]. intros [A B]. destruct (A n v J Z) as [o [X Y]]. specialize (H o X Y).
    subst n. apply B in J; [|exact X]. apply fits_taken in J. congruence.
Qed.

Lemma process_spec : forall w opts kw, good_table opts -> sorted kw ->
  match process w opts kw with
  | Accepted sel => in_order w opts kw taken /\ (forall n, find n sel = match find n kw with Some v => if String.eqb n "" then None else Some v | None => None end)
  | Refused => ~ in_order w opts kw taken
  | Asserted => False
  end.
Proof.
  intros w opts kw Ht Hk. unfold Options.process. pose proof (process_sel opts kw Ht Hk) as H.
  destruct (select _ _ _ _ _ _ _ kw []) as [sel|].
  - destruct H as [Hs [A B]].
    assert (C : forallb (fun o => negb (o_required o) || has (o_name o) sel)%bool opts = true <-> complete F opts kw).
    { rewrite forallb_forall. unfold complete. split.
      - intros H o J R. specialize (H o J). rewrite R in H. cbn in H. unfold has in H. destruct (find (o_name o) sel) eqn:E; [|discriminate].
        apply (sel_given F kw Hk sel Hs) in E. exists o0. exact E.
      - intros H o J. destruct (o_required o) eqn:R; [|reflexivity]. cbn. destruct (H o J R) as [v [X Y]]. unfold has.
        rewrite (proj2 (sel_given F kw Hk sel Hs (o_name o) v)); auto. }
    destruct (forallb _ opts).
    + destruct (run_checks_spec F f0 fmax fmin fz nonpos repr float_text w opts Ht kw Hk sel Hs) as [b [E D]]. rewrite E.
      destruct b.
      * split; [|exact Hs]. split; [exact A|]. split; [exact B|]. split; [apply C; reflexivity|exact (proj1 D eq_refl)].
      * intros [_ [_ [_ G]]]. pose proof (proj2 D G). discriminate.
    + intros [_ [_ [G _]]]. apply C in G. discriminate.
  - intros [A [B _]]. apply H. auto.
Qed.

(* C42, partial: the options are taken if and only if every keyword is known, every value can be converted (INTEGER: see taken), every
   required option is given and every check holds *)
Theorem C42_accepts_partial : forall w opts kw, good_table opts -> sorted kw ->
  ((exists sel, process w opts kw = Accepted sel) <-> in_order w opts kw taken) /\ process w opts kw <> Asserted.
Proof.
  intros w opts kw Ht Hk. pose proof (process_spec w opts kw Ht Hk) as H. destruct (process w opts kw).
  - destruct H as [H _]. split; [|discriminate]. split; [intros _; exact H|intros _; eexists; reflexivity].
  - split; [|discriminate]. split; [intros [s E]; discriminate|intros G; destruct (H G)].
  - destruct H.
Qed.

(* if the values given for INTEGER options are integers of 64 bits, the options are taken exactly if they are as they should be *)
Theorem C42_accepts : forall w opts kw, good_table opts -> sorted kw ->
  (forall o v, In o opts -> o_type o = INTEGER -> In (o_name o, v) kw -> exists z, integer v z /\ is_int64 z) ->
  ((exists sel, process w opts kw = Accepted sel) <-> in_order w opts kw suits).
Proof.
  intros w opts kw Ht Hk Hi. destruct (C42_accepts_partial w opts kw Ht Hk) as [-> _].
  assert (E : typed F opts kw taken <-> typed F opts kw suits).
  { unfold typed. split; intros H o v J K; specialize (H o v J K); specialize (Hi o v J); destruct (o_type o); cbn in *; try exact H.
    - destruct (Hi eq_refl K) as [z [A B]]. exists z. split; [exact A|]. destruct (H z A); [assumption|contradiction].
    - destruct H as [z [A B]]. intros z' A'. left. rewrite <- (integer_fun _ _ _ _ _ _ A A'). exact B. }
  unfold OptionsSpec.in_order. rewrite E. reflexivity.
Qed.

(* the truth of a Python object *)
Definition truth (o : obj F) : Prop :=
  match o with
  | PNone => False | PBool b => b = true | PInt z => z <> 0%Z | PFloat f => is0 f = false | PStr s | PBytes s => s <> "" | PList l => l <> []
  end.
(* the values the command then reads: those given, and the defaults for the others *)
Theorem C42_values : forall w opts kw sel, good_table opts -> sorted kw -> process w opts kw = Accepted sel ->
  let om := option_map_ opts in
  (forall n, has n sel = true <-> given F kw n) /\
  (forall n s, string_option F repr om sel n = Some s <-> text_of F repr opts kw n s) /\
  (forall n f, double_option F f0 fmax fmin fz repr float_text om sel n = Some f <-> number_of F f0 fmax fmin fz repr float_text opts kw n f) /\
  (forall n v z, has_value F opts kw n v -> integer v z -> is_int32 z -> integer_option F repr int_text om sel n = Some z) /\
  (forall n v, has_value F opts kw n v -> exists b, boolean_option F is0 om sel n = Some b /\ (b = true <-> truth v)).
Proof.
  intros w opts kw sel Ht Hk E om. pose proof (process_spec w opts kw Ht Hk) as H. rewrite E in H. destruct H as [_ Hs].
  split; [|split; [|split; [|split]]].
  - intros n. unfold has. destruct (find n sel) eqn:Ef; split; intros H; try discriminate; try reflexivity.
    + apply (sel_given F kw Hk sel Hs) in Ef. exists o. exact Ef.
    + apply (sel_not_given F kw Hk sel Hs) in Ef. contradiction.
  - intros n s. apply string_text; assumption.
  - intros n f. apply double_number; assumption.
  - intros n v z Hv Hz R. apply (object_value F opts Ht kw Hk sel Hs) in Hv. unfold integer_option. fold om in Hv. rewrite Hv. cbn [option_map].
    unfold get_integer. rewrite (integer_get _ _ _ _ _ Hz). rewrite as_long_in by (unfold is_int32, is_int64 in *; lia).
    unfold is_int32 in R. destruct (Z.leb_spec (- 2 ^ 31) z); [|lia]. destruct (Z.leb_spec z (2 ^ 31 - 1)); [reflexivity|lia].
  - intros n v Hv. apply (object_value F opts Ht kw Hk sel Hs) in Hv. unfold boolean_option. fold om in Hv. rewrite Hv. cbn [option_map].
    eexists. split; [reflexivity|]. destruct v; cbn; try (split; [discriminate|intros []]).
    + reflexivity.
    + rewrite negb_true_iff, Z.eqb_neq. reflexivity.
    + rewrite negb_true_iff. reflexivity.
    + rewrite negb_true_iff, String.eqb_neq. reflexivity.
    + rewrite negb_true_iff, String.eqb_neq. reflexivity.
    + destruct l; split; congruence.
Qed.

Section Calls.
Variables St A : Type.
Notation dispatch := (dispatch F f0 fmax fmin fz is0 nonpos repr float_text int_text St A).
(* a call with positional arguments, or with options that are not in order, raises an exception and changes nothing; otherwise the body of the
   command runs, and a value comes back exactly if the body returns it and no floating point exception is flagged *)
Theorem C42_call : forall w opts (f : smap (obj F) -> outcome St A) s nargs kw, good_table opts -> sorted kw ->
  (nargs <> 0 \/ ~ in_order w opts kw taken -> dispatch w opts f s nargs kw = (Raised, s)) /\
  (nargs = 0 -> in_order w opts kw taken -> exists sel, process w opts kw = Accepted sel /\
     snd (dispatch w opts f s nargs kw) = out_state St A (f sel) /\
     forall a, fst (dispatch w opts f s nargs kw) = Value a <-> out_body St A (f sel) = Returned a /\ out_fpe St A (f sel) = false).
Proof.
  intros w opts f s nargs kw Ht Hk. destruct (C42_accepts_partial w opts kw Ht Hk) as [X _]. split.
  - intros [N|N]; unfold Options.dispatch; destruct nargs as [|k]; try reflexivity; [congruence|].
    destruct (process w opts kw) as [sel| |] eqn:E; try reflexivity. destruct N. apply X. exists sel. reflexivity.
  - intros -> G. apply X in G. destruct G as [sel E]. exists sel. split; [exact E|]. unfold Options.dispatch. rewrite E. cbn. split; [reflexivity|].
    intros a. destruct (out_body St A (f sel)); [destruct (out_fpe St A (f sel))|..]; split; intros H; try discriminate; try (destruct H; discriminate).
    + injection H as ->. split; reflexivity.
    + destruct H as [H _]. injection H as ->. reflexivity.
Qed.
End Calls.
End P.

(* ---- examples and refutations, with doubles ---- *)
Definition d_ten : double := Bplus mode_NE (Bplus mode_NE (Bplus mode_NE done done) (Bplus mode_NE done done))
  (Bplus mode_NE (Bplus mode_NE (Bplus mode_NE done done) (Bplus mode_NE done done)) (Bplus mode_NE done done)).
Definition d_leb (a b : double) : bool := match Bcompare a b with Some Lt | Some Eq => true | _ => false end.   (* a <= b *)
Definition ex_fz (z : Z) : option double := Some (binary_normalize 53 1024 eq_refl eq_refl mode_NE z 0 false).
Definition ex_repr (o : obj double) : string := "something".
(* the texts of this example *)
Definition ex_float (s : string) : option double := if String.eqb s "nan" then Some B754_nan else if String.eqb s "0.5" then ex_fz 1 else None.
Definition ex_int (s : string) : option Z := if String.eqb s "20" then Some 20%Z else if String.eqb s "7" then Some 7%Z else None.
Definition d_process := Options.process double dzero done (dopp done) ex_fz deqz (fun f => d_leb f dzero) ex_repr ex_float ex_int.
Definition d_integer := Options.integer_option double ex_repr ex_int.
(* solve: MathCommands.cc:215-240; add_1d_mesh_line: MeshingCommands.cc:176-190 *)
Definition solve_table : list option_ :=
  [mkopt "type" "" STRING true None; mkopt "relative_error" "0.0" FLOAT false None; mkopt "maximum_iterations" "20" INTEGER false None; mkopt "info" "" BOOLEAN false None].
Definition line_table : list option_ :=
  [mkopt "mesh" "" STRING true (Some OpenMesh); mkopt "tag" "" STRING false None; mkopt "pos" "" FLOAT true None; mkopt "ns" "0.0" FLOAT false None; mkopt "ps" "" FLOAT true (Some Positive)].
Definition ex_world : world := mkworld [("m", false)] [].

Definition sel_of (p : processed double) : smap (obj double) := match p with Accepted s => s | _ => [] end.
Definition accepted (p : processed double) : bool := match p with Accepted _ => true | _ => false end.
Lemma accepted_sel : forall p, accepted p = true -> p = Accepted (sel_of p).
Proof. intros [s| |] H; try discriminate. reflexivity. Qed.
Lemma solve_good : good_table solve_table.
Proof.
  split; [|split].
  - cbn. repeat (constructor; [cbn; intuition discriminate|]). constructor.
  - cbn. intuition discriminate.
  - intros o c H E. cbn in H. intuition (subst; cbn in E; discriminate).
Qed.
Lemma line_good : good_table line_table.
Proof.
  split; [|split].
  - cbn. repeat (constructor; [cbn; intuition discriminate|]). constructor.
  - cbn. intuition discriminate.
  - intros o c H E n N. cbn in H. decompose [or] H; subst; cbn in E; try discriminate; try (injection E as <-; destruct N); contradiction.
Qed.

(* the hypotheses are met: a call that is taken, one that is not *)
Example line_taken : exists sel, d_process ex_world line_table [("mesh", PStr "m"); ("pos", PFloat dzero); ("ps", PFloat done)] = Accepted sel.
Proof. eexists. apply accepted_sel. vm_compute. reflexivity. Qed.
Example line_refused : d_process ex_world line_table [("mesh", PStr "m"); ("pos", PFloat dzero); ("ps", PFloat dzero)] = Refused /\
  d_process ex_world line_table [("mesh", PStr "m"); ("pos", PFloat dzero)] = Refused /\
  d_process ex_world line_table [("mesh", PStr "other"); ("pos", PFloat dzero); ("ps", PFloat done)] = Refused /\
  d_process ex_world line_table [("mesh", PStr "m"); ("position", PFloat dzero); ("ps", PFloat done)] = Refused /\
  d_process ex_world line_table [("mesh", PStr "m"); ("pos", PList []); ("ps", PFloat done)] = Refused.
Proof. split; [|split; [|split; [|split]]]; vm_compute; reflexivity. Qed.

(* an INTEGER option does not have to be an integer: a float, True, a text or a list count as 0, an integer of more than 64 bits as -1 *)
Theorem C42_integer_refuted :
  exists opts, good_table opts /\
  forall (v : obj double) r, In (v, r) [(PFloat d_ten, 0%Z); (PBool true, 0%Z); (PStr "ten", 0%Z); (PList [], 0%Z); (PInt (2 ^ 70), (-1)%Z)] ->
  let kw := [("maximum_iterations", v); ("type", PStr "dc")] in
  sorted kw /\ ~ typed double opts kw (suits double ex_fz ex_repr ex_float ex_int) /\
  exists sel, d_process ex_world opts kw = Accepted sel /\ d_integer (option_map_ opts) sel "maximum_iterations" = Some r.
Proof.
  exists solve_table. split; [apply solve_good|]. intros v r H kw. split; [|split].
  - unfold kw, sorted. cbn. repeat constructor.
  - intros T. specialize (T (mkopt "maximum_iterations" "20" INTEGER false None) v ltac:(cbn; auto) ltac:(cbn; auto)). cbn in T.
    destruct T as [z [A B]]. cbn [In] in H. decompose [or] H; try contradiction;
      match goal with E : _ = _ |- _ => injection E as <- <- end; inversion A; subst.
    + discriminate.
    + unfold is_int32 in B. lia.
  - cbn [In] in H. decompose [or] H; try contradiction; match goal with E : _ = _ |- _ => injection E as <- <- end;
      eexists; (split; [apply accepted_sel; vm_compute; reflexivity|vm_compute; reflexivity]).
Qed.

(* a spacing that must be positive may be NaN *)
Theorem C42_positive_refuted : exists opts kw sel, good_table opts /\ sorted kw /\
  In (mkopt "ps" "" FLOAT true (Some Positive)) opts /\ In ("ps", PStr "nan") kw /\
  d_process ex_world opts kw = Accepted sel /\
  Options.double_option double dzero done (dopp done) ex_fz ex_repr ex_float (option_map_ opts) sel "ps" = Some B754_nan.
Proof.
  exists line_table, [("mesh", PStr "m"); ("pos", PFloat dzero); ("ps", PStr "nan")]. eexists. split; [apply line_good|].
  split; [unfold sorted; cbn; repeat constructor|]. split; [cbn; auto 10|]. split; [cbn; auto|]. split; [apply accepted_sel; vm_compute; reflexivity|vm_compute; reflexivity].
Qed.

(* a keyword of no name is ignored although it is not known *)
Theorem C42_unknown_refuted : exists opts (kw : smap (obj double)) sel, good_table opts /\ sorted kw /\
  In ("", PInt 1) kw /\ ~ In "" (map o_name opts) /\ d_process ex_world opts kw = Accepted sel.
Proof.
  exists solve_table, [("", PInt 1); ("type", PStr "dc")]. eexists. split; [apply solve_good|].
  split; [unfold sorted; cbn; repeat constructor|]. split; [cbn; auto|]. split; [cbn; intuition discriminate|]. apply accepted_sel. vm_compute. reflexivity.
Qed.

(* a call that raises an exception may have done its work: the floating point exception flags are looked at afterwards *)
Theorem C42_exception_refuted : exists opts (kw : smap (obj double)) (f : smap (obj double) -> outcome nat nat),
  good_table opts /\ sorted kw /\
  Options.dispatch double dzero done (dopp done) ex_fz deqz (fun f => d_leb f dzero) ex_repr ex_float ex_int nat nat ex_world opts f 0 0 kw = (Raised, 1).
Proof.
  exists solve_table, [("type", PStr "dc")], (fun _ => mkout nat nat (Returned 5) 1 true). split; [apply solve_good|].
  split; [unfold sorted; cbn; repeat constructor|]. vm_compute. reflexivity.
Qed.

Print Assumptions C42_accepts_partial.
Print Assumptions C42_accepts.
Print Assumptions C42_values.
Print Assumptions C42_call.
Print Assumptions C42_integer_refuted.
Print Assumptions C42_positive_refuted.
Print Assumptions C42_unknown_refuted.
Print Assumptions C42_exception_refuted.
