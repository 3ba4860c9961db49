(* C26 Parameter scoping.  C27 Setting a parameter invalidates exactly where it is visible. *)
From Coq Require Import String List Bool FinFun.
From Verif Require Import StrMap Params ParamsProofs.
Import ListNotations.
Open Scope string_scope.
Open Scope list_scope.

Section P.
Context {W R : Type}.

(* ---- Specification, in terms of the commands a user gave (most recent first) ---- *)
Inductive pcmd :=
| Set_ (d r n : string) (v : W)        (* set_parameter(device=d, region=r, name=n, value=v); "" = option not given *)
| Delete_ (d : string)                 (* delete_device(device=d) *)
| New_ (d : string) (rs : smap R).     (* a device d with the given regions is created *)

(* the value last given for n at exactly the scope (d,r); deleting the device forgets it *)
Fixpoint assigned (init : string -> option W) (h : list pcmd) (d r n : string) : option W :=
  match h with
  | [] => if String.eqb d "" then if String.eqb r "" then init n else None else None
  | Set_ d' r' n' v :: t =>
      if String.eqb d d' && String.eqb r r' && String.eqb n n' then Some v else assigned init t d r n
  | Delete_ d' :: t => if String.eqb d d' && negb (String.eqb d "") then None else assigned init t d r n
  | New_ _ _ :: t => assigned init t d r n
  end.
(* the value seen from the scope (d,r): the narrowest scope that has one *)
Definition visible (init : string -> option W) (h : list pcmd) (d r n : string) : option W :=
  match assigned init h d r n with Some v => Some v | None =>
  match assigned init h d "" n with Some v => Some v | None => assigned init h "" "" n end end.
(* the devices and regions that exist *)
Fixpoint exists_ (h : list pcmd) (d r : string) : Prop :=
  match h with
  | [] => False
  | Set_ _ _ _ _ :: t => exists_ t d r
  | Delete_ d' :: t => d <> d' /\ exists_ t d r
  | New_ d' rs :: t => (d = d' /\ (r = "" \/ In r (keys rs))) \/ (d <> d' /\ exists_ t d r)
  end.
Definition scope_ok (h : list pcmd) (d r : string) : Prop :=
  (d = "" /\ r = "") \/ (d <> "" /\ exists_ h d r).

(* ---- Execution: the accepted commands, and what they do ---- *)
Definition state := (gdata W * devices R)%type.
Definition step (s : state) (c : pcmd) : option state :=
  match c with
  | Set_ d r n v => match set_parameter W (fst s) (snd s) d r n v with Some (g, _) => Some (g, snd s) | None => None end
  | Delete_ d => if has d (snd s) then Some (delete_device W (fst s) (snd s) d) else None
  | New_ d rs => match new_device (snd s) d rs with Some x => Some (fst s, x) | None => None end
  end.
Inductive reach (g0 : gdata W) : list pcmd -> state -> Prop :=
| reach_start : sorted (g_global g0) -> g_dev g0 = [] -> g_reg g0 = [] -> reach g0 [] (g0, [])
| reach_step : forall h s c s', reach g0 h s -> step s c = Some s' -> reach g0 (c :: h) s'
| reach_reject : forall h s c, reach g0 h s -> step s c = None -> reach g0 h s.

(* ---- invariant ---- *)
Record inv (g0 : gdata W) (h : list pcmd) (s : state) : Prop := mkInv {
  i_wf : wf (fst s);
  i_devs : sorted (snd s);
  i_global : forall n, get_global W (fst s) n = assigned (get_global W g0) h "" "" n;
  i_dev : forall d n, d <> "" -> own_dev (fst s) d n = assigned (get_global W g0) h d "" n;
  i_reg : forall d r n, d <> "" -> r <> "" -> own_reg (fst s) d r n = assigned (get_global W g0) h d r n;
  i_ex : forall d r, (exists rs, find d (snd s) = Some rs /\ (r = "" \/ In r (keys rs))) <-> exists_ h d r }.

Lemma empty_spec : forall s, empty s = String.eqb s "".
Proof. reflexivity. Qed.

Lemma valid_scope_iff : forall g0 h s d r, inv g0 h s -> (valid_scope (snd s) d r = true <-> scope_ok h d r).
Proof.
  intros g0 h s d r I. unfold valid_scope, scope_ok, empty. destruct (String.eqb_spec r "") as [->|Nr].
  - destruct (String.eqb_spec d "") as [->|Nd]; [split; auto|]. rewrite <- (i_ex _ _ _ I). unfold has.
    destruct (find d (snd s)) as [rs|]; split; try discriminate; try tauto.
    + intros _. right. split; [exact Nd|]. exists rs. auto.
    + intros [[X _]|[_ (rs & E & _)]]; [contradiction|discriminate].
  - destruct (String.eqb_spec d "") as [->|Nd]; [split; [discriminate|intros [[_ X]|[X _]]; contradiction]|].
    rewrite <- (i_ex _ _ _ I). destruct (find d (snd s)) as [rs|].
    + rewrite has_keys. split; [intros H; right; split; [exact Nd|]; exists rs; auto|].
      intros [[X _]|[_ (rs' & E & [X|X])]]; try contradiction. injection E as <-. exact X.
    + split; [discriminate|]. intros [[X _]|[_ (rs & E & _)]]; [contradiction|discriminate].
Qed.

Lemma inv_set : forall g0 h s d r n v s', inv g0 h s -> step s (Set_ d r n v) = Some s' -> inv g0 (Set_ d r n v :: h) s'.
Proof.
  intros g0 h [g devs] d r n v s' I. cbn [step fst snd]. unfold set_parameter, empty.
  destruct (String.eqb_spec n "") as [->|Nn]; [discriminate|].
  destruct (valid_scope devs d r) eqn:V; cbn [negb]; [|discriminate].
  assert (Hw := i_wf _ _ _ I). cbn [fst] in Hw.
  assert (Er : d = "" -> r = "").
  { intros ->. unfold valid_scope, empty in V. destruct (String.eqb_spec r ""); [auto|discriminate]. }
  destruct (String.eqb_spec d "") as [Ed|Nd].
  - specialize (Er Ed). subst d r. destruct (add_global W g devs n v) as [g' l] eqn:E. intros X. injection X as <-.
    assert (Eg : g' = fst (add_global W g devs n v)) by (rewrite E; reflexivity). subst g'. clear E.
    constructor; cbn [fst snd assigned exists_].
    + apply add_global_wf. exact Hw.
    + exact (i_devs _ _ _ I).
    + intros x. rewrite global_add by exact Hw. cbn [String.eqb andb]. destruct (String.eqb x n); [reflexivity|exact (i_global _ _ _ I x)].
    + intros d x Hd. destruct (String.eqb_spec d ""); [contradiction|]. cbn. exact (i_dev _ _ _ I d x Hd).
    + intros d r x Hd Hr. destruct (String.eqb_spec d ""); [contradiction|]. cbn. exact (i_reg _ _ _ I d r x Hd Hr).
    + exact (i_ex _ _ _ I).
  - destruct (String.eqb_spec r "") as [->|Nr].
    + destruct (add_device W g devs d n v) as [g' l] eqn:E. intros X. injection X as <-.
      assert (Eg : g' = fst (add_device W g devs d n v)) by (rewrite E; reflexivity). subst g'. clear E.
      constructor; cbn [fst snd assigned exists_].
      * apply add_device_wf. exact Hw.
      * exact (i_devs _ _ _ I).
      * intros x. destruct (String.eqb_spec "" d); [congruence|]. cbn [andb]. exact (i_global _ _ _ I x).
      * intros d' x Hd. rewrite own_dev_add by exact Hw. cbn [String.eqb andb]. rewrite andb_true_r. destruct (String.eqb d' d && String.eqb x n); [reflexivity|exact (i_dev _ _ _ I d' x Hd)].
      * intros d' r x Hd Hr. destruct (String.eqb_spec r ""); [contradiction|]. rewrite andb_false_r. cbn. exact (i_reg _ _ _ I d' r x Hd Hr).
      * exact (i_ex _ _ _ I).
    + destruct (add_region W g devs d r n v) as [g' l] eqn:E. intros X. injection X as <-.
      assert (Eg : g' = fst (add_region W g devs d r n v)) by (rewrite E; reflexivity). subst g'. clear E.
      constructor; cbn [fst snd assigned exists_].
      * apply add_region_wf. exact Hw.
      * exact (i_devs _ _ _ I).
      * intros x. destruct (String.eqb_spec "" d); [congruence|]. cbn [andb]. exact (i_global _ _ _ I x).
      * intros d' x Hd. destruct (String.eqb_spec "" r); [congruence|]. rewrite andb_false_r. cbn. exact (i_dev _ _ _ I d' x Hd).
      * intros d' r' x Hd Hr. rewrite own_reg_add by exact Hw. rewrite andb_assoc. destruct (String.eqb d' d && String.eqb r' r && String.eqb x n); [reflexivity|exact (i_reg _ _ _ I d' r' x Hd Hr)].
      * exact (i_ex _ _ _ I).
Qed.
Lemma inv_delete : forall g0 h s d s', inv g0 h s -> step s (Delete_ d) = Some s' -> inv g0 (Delete_ d :: h) s'.
Proof.
  intros g0 h [g devs] d s' I. cbn [step fst snd]. destruct (has d devs) eqn:E; [|discriminate]. intros X. injection X as <-.
  assert (Hw := i_wf _ _ _ I). cbn [fst] in Hw. assert (Hd := i_devs _ _ _ I). cbn [snd] in Hd.
  constructor; cbn [assigned exists_].
  - exact (delete_wf g devs d Hw).
  - apply erase_sorted. exact Hd.
  - intros n. rewrite andb_false_r. exact (i_global _ _ _ I n).
  - intros d' n N. pose proof (own_dev_delete g devs d d' n Hw) as P. cbn [fst] in *. rewrite P.
    destruct (String.eqb_spec d' d); cbn [andb]; [|exact (i_dev _ _ _ I d' n N)].
    destruct (String.eqb_spec d' ""); [contradiction|reflexivity].
  - intros d' r n N Nr. pose proof (own_reg_delete g devs d d' r n Hw) as P. cbn [fst] in *. rewrite P.
    destruct (String.eqb_spec d' d); cbn [andb]; [|exact (i_reg _ _ _ I d' r n N Nr)].
    destruct (String.eqb_spec d' ""); [contradiction|reflexivity].
  - intros d' r. cbn [snd delete_device]. rewrite <- (i_ex _ _ _ I). cbn [snd]. rewrite find_erase by exact Hd.
    destruct (String.eqb_spec d' d); [split; [intros (x & X & _); discriminate|tauto]|tauto].
Qed.
Lemma inv_new : forall g0 h s d rs s', inv g0 h s -> step s (New_ d rs) = Some s' -> inv g0 (New_ d rs :: h) s'.
Proof.
  intros g0 h [g devs] d rs s' I. cbn [step fst snd]. unfold new_device. destruct (has d devs) eqn:E; [discriminate|]. intros X. injection X as <-.
  assert (Hd := i_devs _ _ _ I). cbn [snd] in Hd.
  constructor; cbn [assigned exists_ fst snd]; [exact (i_wf _ _ _ I)|apply put_sorted; exact Hd|exact (i_global _ _ _ I)|exact (i_dev _ _ _ I)|exact (i_reg _ _ _ I)|].
  intros d' r. rewrite find_put by exact Hd. destruct (String.eqb_spec d' d) as [->|N].
  - split; [intros (x & X & Y); injection X as <-; auto|]. intros [[_ Y]|[N _]]; [eauto|contradiction].
  - rewrite (i_ex _ _ _ I). tauto.
Qed.
Lemma reach_inv : forall g0 h s, reach g0 h s -> inv g0 h s.
Proof.
  intros g0 h s H. induction H as [Hs Hd Hr|h s c s' H IH E|h s c H IH E].
  - constructor; cbn [fst snd].
    + constructor; [exact Hs|rewrite Hd|rewrite Hr]; repeat split; try constructor; cbn; discriminate.
    + constructor.
    + intros n. reflexivity.
    + intros d n N. unfold own_dev. rewrite Hd. cbn. destruct (String.eqb_spec d ""); [contradiction|reflexivity].
    + intros d r n N Nr. unfold own_reg. rewrite Hr. cbn. destruct (String.eqb_spec d ""); [contradiction|reflexivity].
    + intros d r. cbn. split; [intros (x & X & _); discriminate|intros []].
  - destruct c; [eapply inv_set|eapply inv_delete|eapply inv_new]; eassumption.
  - exact IH.
Qed.

(* C26: what get_parameter returns is the value last given at the narrowest scope; an error (None) is reported
   exactly when the scope does not exist, the name is empty, or no scope has a value. *)
Theorem C26_lookup : forall g0 h g devs d r n, reach g0 h (g, devs) ->
  (n <> "" -> scope_ok h d r -> get_parameter W g devs d r n = visible (get_global W g0) h d r n) /\
  (n = "" \/ ~ scope_ok h d r -> get_parameter W g devs d r n = None).
Proof.
  intros g0 h g devs d r n Hr. apply reach_inv in Hr. pose proof (valid_scope_iff g0 h (g, devs) d r Hr) as V. cbn [snd] in V.
  unfold get_parameter. split.
  - intros Hn Hs. apply V in Hs. rewrite Hs. unfold empty. destruct (String.eqb_spec n ""); [contradiction|]. cbn [negb].
    unfold visible. unfold valid_scope, empty in Hs.
    destruct (String.eqb_spec d "") as [->|Nd].
    + destruct (String.eqb_spec r "") as [->|Nr]; [|discriminate].
      rewrite (i_global _ _ _ Hr n : get_global W g n = _). destruct (assigned (get_global W g0) h "" "" n); reflexivity.
    + destruct (String.eqb_spec r "") as [->|Nr].
      * rewrite get_device_eq. rewrite (i_dev _ _ _ Hr d n Nd : own_dev g d n = _). rewrite (i_global _ _ _ Hr n : get_global W g n = _).
        destruct (assigned (get_global W g0) h d "" n); reflexivity.
      * rewrite get_region_eq. rewrite (i_reg _ _ _ Hr d r n Nd Nr : own_reg g d r n = _).
        rewrite (i_dev _ _ _ Hr d n Nd : own_dev g d n = _). rewrite (i_global _ _ _ Hr n : get_global W g n = _). reflexivity.
  - intros [->|Hs]; [reflexivity|]. destruct (empty n); [reflexivity|].
    destruct (valid_scope devs d r) eqn:E; [|reflexivity]. exfalso. apply Hs. apply V. reflexivity.
Qed.

(* C26: a parameter set at one scope never changes what is seen from a scope with a value of its own. *)
Theorem C26_override : forall g0 h g devs d r n w d' r' n' v g' l, reach g0 h (g, devs) ->
  assigned (get_global W g0) h d r n = Some w ->
  (d', r', n') <> (d, r, n) -> scope_ok h d r -> n <> "" ->
  set_parameter W g devs d' r' n' v = Some (g', l) ->
  get_parameter W g' devs d r n = Some w.
Proof.
  intros g0 h g devs d r n w d' r' n' v g' l Hr Ha N Hs Hn E.
  assert (Hr' : reach g0 (Set_ d' r' n' v :: h) (g', devs)).
  { eapply reach_step; [exact Hr|]. cbn. rewrite E. reflexivity. }
  destruct (C26_lookup g0 _ g' devs d r n Hr') as [L _]. rewrite L; [|exact Hn|exact Hs].
  unfold visible. cbn [assigned].
  assert (F : String.eqb d d' && String.eqb r r' && String.eqb n n' = false).
  { destruct (String.eqb_spec d d'), (String.eqb_spec r r'), (String.eqb_spec n n'); cbn; try reflexivity. subst. contradiction. }
  rewrite F, Ha. reflexivity.
Qed.

(* C26: nothing set on a device (or its regions) survives delete_device, even if a device of the same name is created again. *)
Theorem C26_deleted : forall g0 h g devs d r n rs, d <> "" -> n <> "" ->
  reach g0 (New_ d rs :: Delete_ d :: h) (g, devs) -> r = "" \/ In r (keys rs) ->
  get_parameter W g devs d r n = get_parameter W g devs "" "" n.
Proof.
  intros g0 h g devs d r n rs Hd Hn Hr Hrs.
  assert (S1 : scope_ok (New_ d rs :: Delete_ d :: h) d r) by (right; split; [exact Hd|left; auto]).
  assert (S2 : scope_ok (New_ d rs :: Delete_ d :: h) "" "") by (left; auto).
  rewrite (proj1 (C26_lookup _ _ _ _ _ _ _ Hr) Hn S1), (proj1 (C26_lookup _ _ _ _ _ _ _ Hr) Hn S2).
  unfold visible. cbn [assigned]. rewrite String.eqb_refl. destruct (String.eqb_spec d ""); [contradiction|]. cbn [negb andb].
  assert (X : String.eqb "" d = false) by (destruct (String.eqb_spec "" d); [congruence|reflexivity]). rewrite X. cbn [andb].
  destruct (assigned (get_global W g0) h "" "" n); reflexivity.
Qed.

(* get_parameter_list lists exactly the names with a value of their own at the given scope. *)
Theorem C26_list : forall g0 h g devs d r l, reach g0 h (g, devs) -> get_parameter_list W g devs d r = Some l ->
  scope_ok h d r /\ NoDup l /\ (forall n, In n l <-> assigned (get_global W g0) h d r n <> None).
Proof.
  intros g0 h g devs d r l Hr. apply reach_inv in Hr. pose proof (valid_scope_iff g0 h (g, devs) d r Hr) as V. cbn [snd] in V.
  unfold get_parameter_list. destruct (valid_scope devs d r) eqn:E; [|discriminate]. intros X. injection X as <-. split; [apply V; reflexivity|].
  assert (Hw := i_wf _ _ _ Hr). cbn [fst] in Hw. unfold valid_scope, empty in *.
  destruct (String.eqb_spec r "") as [->|Nr].
  - destruct (String.eqb_spec d "") as [->|Nd].
    + split; [apply sorted_NoDup; exact (wf_global g Hw)|]. intros n. rewrite <- find_keys, <- (i_global _ _ _ Hr n). reflexivity.
    + split; [apply sorted_NoDup, sub_sorted; exact (wf_dev g Hw)|]. intros n. rewrite <- find_keys, <- (i_dev _ _ _ Hr d n Nd). reflexivity.
  - destruct (String.eqb_spec d "") as [->|Nd]; [discriminate|].
    assert (Hx : wf2 (sub d (g_reg g))).
    { unfold sub. destruct (find d (g_reg g)) as [x|] eqn:F; [exact (proj2 (wf_reg g Hw) _ _ F)|split; [constructor|discriminate]]. }
    split; [apply sorted_NoDup, sub_sorted; exact Hx|]. intros n. rewrite <- find_keys, <- (i_reg _ _ _ Hr d r n Nd Nr). reflexivity.
Qed.

(* The scope (d,r) of a set_parameter is the one that decides what region (dd,rr) sees for n. *)
Definition decides (init : string -> option W) (h : list pcmd) (d r dd rr n : string) : Prop :=
  (d = dd /\ r = rr) \/
  (d = dd /\ r = "" /\ assigned init h dd rr n = None) \/
  (d = "" /\ r = "" /\ assigned init h dd "" n = None /\ assigned init h dd rr n = None).

(* C27: the regions whose models are told that n changed are exactly the existing regions for which the scope
   of the command decides, each told once. *)
Theorem C27_signalled : forall g0 h g devs d r n v g' l dd rr, reach g0 h (g, devs) ->
  set_parameter W g devs d r n v = Some (g', l) -> dd <> "" -> rr <> "" ->
  (In (dd, rr) l <-> exists_ h dd rr /\ decides (get_global W g0) h d r dd rr n).
Proof.
  intros g0 h g devs d r n v g' l dd rr Hr E Hdd Hrr. apply reach_inv in Hr.
  assert (Hw := i_wf _ _ _ Hr). cbn [fst] in Hw.
  assert (Ex : (exists rs, find dd devs = Some rs /\ In rr (keys rs)) <-> exists_ h dd rr).
  { rewrite <- (i_ex _ _ _ Hr). cbn [snd]. split; intros (rs & F & X); exists rs; [tauto|]. destruct X; [contradiction|tauto]. }
  assert (Rd : own_dev g dd n = assigned (get_global W g0) h dd "" n) by exact (i_dev _ _ _ Hr dd n Hdd).
  assert (Rr : own_reg g dd rr n = assigned (get_global W g0) h dd rr n) by exact (i_reg _ _ _ Hr dd rr n Hdd Hrr).
  revert E. unfold set_parameter. destruct (empty n) eqn:En; [discriminate|].
  destruct (valid_scope devs d r) eqn:V; cbn [negb]; [|discriminate]. unfold valid_scope in V. unfold empty in *. unfold decides.
  destruct (String.eqb_spec d "") as [->|Nd].
  - destruct (String.eqb_spec r "") as [->|Nr]; [|discriminate].
    unfold add_global. intros X. injection X as <- <-. rewrite signal_global_In, Ex.
    change (own_reg (mkG (put n v (g_global g)) (g_dev g) (g_reg g)) dd rr n) with (own_reg g dd rr n).
    change (own_dev (mkG (put n v (g_global g)) (g_dev g) (g_reg g)) dd n) with (own_dev g dd n). rewrite Rd, Rr. intuition congruence.
  - destruct (String.eqb_spec r "") as [->|Nr].
    + unfold add_device. intros X. injection X as <- <-. rewrite signal_device_In.
      change (own_reg (mkG (g_global g) (put2 d n v (g_dev g)) (g_reg g)) d rr n) with (own_reg g d rr n). split.
      * intros (-> & He & Ho). split; [apply Ex; exact He|]. right. left. rewrite <- Rr. auto.
      * intros (He & [[? X]|[(-> & _ & X)|(X & _)]]); [congruence| |congruence]. rewrite Rr. split; [reflexivity|]. split; [apply Ex; exact He|exact X].
    + unfold add_region. intros X. injection X as <- <-. rewrite signal_region_In. split.
      * intros (-> & -> & He). split; [apply Ex; exact He|]. auto.
      * intros (He & [(-> & ->)|[(_ & X & _)|(X & _)]]); try congruence. split; [reflexivity|]. split; [reflexivity|]. apply Ex. exact He.
Qed.
Theorem C27_once : forall g0 h g devs d r n v g' l, reach g0 h (g, devs) ->
  set_parameter W g devs d r n v = Some (g', l) -> (forall d' rs, find d' devs = Some rs -> NoDup (keys rs)) -> NoDup l.
Proof.
  intros g0 h g devs d r n v g' l Hr E Hn. apply reach_inv in Hr.
  assert (ND : forall gg d', NoDup (signal_device W gg devs d' n)).
  { intros gg d'. unfold signal_device. destruct (find d' devs) as [rs|] eqn:F; [|constructor].
    apply FinFun.Injective_map_NoDup; [intros a b Y; congruence|]. apply NoDup_filter. exact (Hn _ _ F). }
  revert E. unfold set_parameter. destruct (empty n); [discriminate|]. destruct (negb _); [discriminate|].
  destruct (empty d); [|destruct (empty r)]; unfold add_global, add_device, add_region; intros X; injection X as <- <-.
  - assert (Hd := sorted_NoDup _ (i_devs _ _ _ Hr : sorted devs)). revert Hd. unfold signal_global. generalize (keys devs). intros ks Hk.
    induction Hk as [|k ks Hi Hk IH]; cbn [flat_map]; [constructor|].
    destruct (device_shadows W _ k n); [exact IH|].
    assert (A : forall (a b : list (string * string)), NoDup a -> NoDup b -> (forall p, In p a -> ~ In p b) -> NoDup (a ++ b)).
    { intros a b Ha Hb Hab. induction Ha as [|p a Hp Ha IHa]; cbn; [exact Hb|]. constructor.
      - rewrite in_app_iff. intros [Y|Y]; [exact (Hp Y)|]. exact (Hab p (or_introl eq_refl) Y).
      - apply IHa. intros q Hq. apply Hab. right. exact Hq. }
    apply A; [apply ND|exact IH|]. intros [a b] Y Z. apply signal_device_In in Y. destruct Y as (-> & _).
    apply in_flat_map in Z. destruct Z as (k' & Hk' & Z). destruct (device_shadows W _ k' n); [destruct Z|].
    apply signal_device_In in Z. destruct Z as (-> & _). contradiction.
  - apply ND.
  - unfold signal_region. destruct (find d devs); [|constructor]. destruct (has r _); [|constructor]. repeat constructor. intros [].
Qed.
(* C27: no invalidation is missed: if what a region sees of any parameter changes, the parameter is n and the region was told. *)
Theorem C27_complete : forall g0 h g devs d r n v g' l dd rr x, reach g0 h (g, devs) ->
  set_parameter W g devs d r n v = Some (g', l) -> dd <> "" -> rr <> "" -> exists_ h dd rr ->
  get_region W g' dd rr x <> get_region W g dd rr x -> x = n /\ In (dd, rr) l.
Proof.
  intros g0 h g devs d r n v g' l dd rr x Hr E Hdd Hrr He Hc.
  pose proof (C27_signalled g0 h g devs d r n v g' l dd rr Hr E Hdd Hrr) as S. apply reach_inv in Hr.
  assert (Hw := i_wf _ _ _ Hr). cbn [fst] in Hw.
  assert (Rd : own_dev g dd n = assigned (get_global W g0) h dd "" n) by exact (i_dev _ _ _ Hr dd n Hdd).
  assert (Rr : own_reg g dd rr n = assigned (get_global W g0) h dd rr n) by exact (i_reg _ _ _ Hr dd rr n Hdd Hrr).
  rewrite S. clear S. revert E Hc. rewrite !get_region_eq. unfold set_parameter. destruct (empty n) eqn:En; [discriminate|].
  destruct (valid_scope devs d r) eqn:V; cbn [negb]; [|discriminate]. unfold valid_scope in V. unfold empty in *. unfold decides.
  destruct (String.eqb_spec d "") as [->|Nd]; [destruct (String.eqb_spec r "") as [->|Nr]; [|discriminate]|destruct (String.eqb_spec r "") as [->|Nr]];
    intros X.
  - assert (Eg : g' = fst (add_global W g devs n v)) by (injection X as <- _; reflexivity). subst g'. clear X.
    change (own_reg (fst (add_global W g devs n v)) dd rr x) with (own_reg g dd rr x).
    change (own_dev (fst (add_global W g devs n v)) dd x) with (own_dev g dd x). rewrite global_add by exact Hw.
    destruct (own_reg g dd rr x) eqn:A; [congruence|]. destruct (own_dev g dd x) eqn:B; [congruence|].
    destruct (String.eqb_spec x n) as [->|]; [|congruence]. intros _. split; [reflexivity|]. split; [exact He|]. right. right.
    rewrite <- Rd, <- Rr. auto.
  - assert (Eg : g' = fst (add_device W g devs d n v)) by (injection X as <- _; reflexivity). subst g'. clear X.
    change (own_reg (fst (add_device W g devs d n v)) dd rr x) with (own_reg g dd rr x). rewrite own_dev_add by exact Hw.
    change (get_global W (fst (add_device W g devs d n v)) x) with (get_global W g x).
    destruct (own_reg g dd rr x) eqn:A; [congruence|].
    destruct (String.eqb_spec dd d) as [->|]; cbn [andb]; [|congruence]. destruct (String.eqb_spec x n) as [->|]; [|congruence].
    intros _. split; [reflexivity|]. split; [exact He|]. right. left. rewrite <- Rr. auto.
  - assert (Eg : g' = fst (add_region W g devs d r n v)) by (injection X as <- _; reflexivity). subst g'. clear X.
    rewrite own_reg_add by exact Hw.
    change (own_dev (fst (add_region W g devs d r n v)) dd x) with (own_dev g dd x).
    change (get_global W (fst (add_region W g devs d r n v)) x) with (get_global W g x).
    destruct (String.eqb_spec dd d) as [->|]; cbn [andb]; [|congruence]. destruct (String.eqb_spec rr r) as [->|]; cbn [andb]; [|congruence].
    destruct (String.eqb_spec x n) as [->|]; [|congruence]. intros _. split; [reflexivity|]. split; [exact He|]. left. auto.
Qed.
End P.
Arguments Set_ {W R}. Arguments Delete_ {W R}. Arguments New_ {W R}.

(* Non-vacuity: a history with two devices, all three scopes, a shadowed global and a deleted device. *)
Definition ex_init : gdata nat := mkG [("t", 300)] [] [].
Definition ex_hist : list (@pcmd nat unit) :=
  [Set_ "" "" "t" 320; Set_ "a" "r" "t" 77; Set_ "a" "" "t" 310; New_ "b" [("r", tt)]; New_ "a" [("r", tt); ("s", tt)]].
Definition ex_run : option (@state nat unit) :=
  fold_right (fun c o => match o with Some s => step s c | None => None end) (Some (ex_init, [])) ex_hist.
Lemma run_reach : forall {W R} g0 s0 (h : list (@pcmd W R)) s, reach g0 [] s0 ->
  fold_right (fun c o => match o with Some s => step s c | None => None end) (Some s0) h = Some s -> reach g0 h s.
Proof.
  intros W R g0 s0 h. induction h as [|c h IH]; intros s H0 E; cbn [fold_right] in E; [injection E as <-; exact H0|].
  destruct (fold_right _ _ h) as [s'|] eqn:F; [|discriminate]. eapply reach_step; [exact (IH _ H0 eq_refl)|exact E].
Qed.
Example C26_ex : exists g devs, ex_run = Some (g, devs) /\ reach ex_init ex_hist (g, devs) /\
  map (fun p => get_parameter nat g devs (fst p) (snd p) "t") [("a", "r"); ("a", "s"); ("b", "r"); ("", ""); ("c", ""); ("", "r")]
  = [Some 77; Some 310; Some 320; Some 320; None; None].
Proof.
  assert (R0 : @reach nat unit ex_init [] (ex_init, [])) by (apply reach_start; [repeat constructor|reflexivity|reflexivity]).
  eexists. eexists. split; [vm_compute; reflexivity|]. split.
  - apply (run_reach _ _ _ _ R0). vm_compute. reflexivity.
  - vm_compute. reflexivity.
Qed.
(* the signals of set_parameter(name="t") in that state: only region r of device b sees the global value *)
Example C27_ex : match ex_run with Some (g, devs) => option_map snd (set_parameter nat g devs "" "" "t" 1) | None => None end = Some [("b", "r")].
Proof. vm_compute. reflexivity. Qed.

Print Assumptions C26_lookup.
Print Assumptions C27_complete.
