(* C32, C33, C34, C37: one dimensional meshes *)
From Coq Require Import String List Bool Arith ZArith Lia Reals Lra Sorting.Sorted Sorting.Permutation.
From Flocq Require Import IEEE754.BinarySingleNaN.
From Verif Require Import StrMap MeshLine MeshLineSpec MeshLineProofs MeshLineDevice GeomLine AssemblyProofs ContactProofs FloatLaws CMatrixFloat.
Import ListNotations.
Open Scope string_scope.
Open Scope list_scope.
Open Scope R_scope.

(* ---- C32 ---- *)
(* For real numbers: two lines at xl < xh with positive spacings give, after finitely many rounds, points from xl to xh, strictly increasing, at
   most the sum of the spacings apart; when both spacings fit, the first gap is sl, the last is at most sh, and none is above the larger of both
   (up to the tolerance 1e-10 of the code). *)
Theorem C32_points_partial : forall xl xh sl sh, xl < xh -> 0 < sl -> 0 < sh ->
  exists n pts, (forall fuel, (n <= fuel)%nat -> getPoints rN fuel xl xh sl sh = Ok pts) /\
    hd 0 pts = xl /\ last pts 0 = xh /\ StronglySorted Rlt pts /\
    (forall i, (S i < length pts)%nat -> nth (S i) pts 0 - nth i pts 0 <= sl + sh + 1 / 10 ^ 10) /\
    (xl + sl <= xh - sh ->
       (forall i, (S i < length pts)%nat -> nth (S i) pts 0 - nth i pts 0 <= Rmax sl sh + 1 / 10 ^ 10) /\
       (xl + sl <= xh - 1 / 10 ^ 10 -> nth 1 pts 0 - nth 0 pts 0 = sl) /\
       nth (length pts - 1) pts 0 - nth (length pts - 2) pts 0 <= sh + (1 + sh) / 10 ^ 10).
Proof.
  intros xl xh sl sh Hx Hl Hh. destruct (getPoints_ok xl xh sl sh Hx Hl Hh) as (n & pts & E & A & B & C & D & F & G & K).
  assert (T : tolr = 1 / 10 ^ 10) by (unfold tolr; field; lra).
  exists n, pts. split; [exact E|]. split; [exact A|]. split; [exact B|]. split; [exact (chain_lt _ _ D)|].
  split. { rewrite <- T. now apply chain_gap. }
  intros Fit. split. { rewrite <- T. apply chain_gap. now apply F. }
  split. { intros Q. rewrite <- T in Q. destruct (G Fit Q) as (l & ->). cbn [nth]. ring. }
  destruct (K Fit) as (p & a & b & -> & Hb). rewrite app_length. cbn [length].
  replace (length p + 2 - 1)%nat with (length p + 1)%nat by lia. replace (length p + 2 - 2)%nat with (length p + 0)%nat by lia.
  rewrite !app_nth2_plus. cbn [nth]. rewrite T in Hb. lra.
Qed.
Print Assumptions C32_points_partial.
(* a graded interval: both spacings fit *)
Example C32_points_case : 0 < 10 /\ 0 < 1 /\ 0 < 2 /\ 0 + 1 <= 10 - 2.
Proof. lra. Qed.

(* the lines of a mesh built by commands *)
Definition adds (c : @command R) : Prop := match c with FinalizeMesh _ => False | _ => True end.
(* the orders std::sort may give *)
Definition sorts_lines (f : list (@line R) -> list (@line R)) : Prop := forall l, Permutation (f l) l /\ StronglySorted (fun p q => pos p <= pos q) (f l).
Definition sorts_regions (f : list span -> list span) : Prop := forall l, Permutation (f l) l.
Section B.
Variable sl : list (@line R) -> list (@line R).
Variable sr : list span -> list span.
Lemma adds_inv : forall cs m, Forall adds cs -> m_grid m = fresh -> m_final m = false -> Forall spaced (m_lines m) ->
  m_grid (snd (run rN sl sr cs m)) = fresh /\ m_final (snd (run rN sl sr cs m)) = false /\ Forall spaced (m_lines (snd (run rN sl sr cs m))).
Proof.
  induction cs as [|c cs IH]; intros m F A B C; cbn [run]; [auto|]. inversion F as [|? ? Fc Fs]; subst.
  destruct (exec rN sl sr c m) as [r m1] eqn:E. destruct (run rN sl sr cs m1) as [rs m2] eqn:E2. cbn [snd].
  specialize (IH m1 Fs). rewrite E2 in IH. cbn [snd] in IH. apply IH; clear IH E2; unfold exec in E; rewrite B in E; destruct c; try contradiction.
  all: repeat match type of E with context[if ?b then _ else _] => let Q := fresh "Q" in destruct b eqn:Q end; injection E as <- <-; auto.
  all: cbn [m_lines]; apply Forall_app; split; [exact C|]; constructor; [|constructor]; change (leb rN) with rleb in *; change (zero rN) with 0 in *;
    unfold rleb in *; repeat match goal with H : context[Rle_dec ?a ?b] |- _ => destruct (Rle_dec a b) end; try discriminate; split; cbn [psp nsp]; lra.
Qed.
Lemma built : forall cs, Forall adds cs -> let m := snd (run rN sl sr cs new_mesh) in m_grid m = fresh /\ m_final m = false /\ Forall spaced (m_lines m).
Proof. intros cs H. apply adds_inv; [exact H|reflexivity|reflexivity|constructor]. Qed.
End B.

(* A mesh is built by any commands, and finalised once. If that succeeds, its points are increasing, begin at the leftmost line and end at the
   rightmost, are those of C32_points between neighbouring lines, contain all the lines, and the index of each tag is that of its line. *)
Theorem C32_lines_partial : forall sl sr, sorts_lines sl -> forall cs fuel m', Forall adds cs ->
  let m := snd (run rN sl sr cs new_mesh) in finalize rN sl sr fuel m = (Ok tt, m') ->
  let ls := sl (m_lines m) in let pts := locs (m_grid m') in
  Permutation ls (m_lines m) /\ StronglySorted Rlt pts /\ hd 0 pts = hd 0 (map (@pos R) ls) /\ last pts 0 = last (map (@pos R) ls) 0 /\
  distributed ls pts /\
  (forall a, In a (m_lines m) -> In (pos a) pts) /\
  (forall a, In a (m_lines m) -> ltag a <> "" -> exists i, find (ltag a) (t2i (m_grid m')) = Some i /\ nth_error pts i = Some (pos a)).
Proof.
  intros sl sr Hs cs fuel m' Ha m H ls pts. destruct (built sl sr cs Ha) as (A & B & C). fold m in A, B, C.
  destruct (Hs (m_lines m)) as [P _]. fold ls in P.
  assert (S : exists g, set_locations rN fuel fresh ls = Ok g /\ m_grid m' = g).
  { unfold finalize in H. rewrite B, A in H. destruct (Nat.ltb (length (m_lines m)) 2); [discriminate|]. fold ls in H.
    destruct (set_locations rN fuel fresh ls) as [g| | |]; try discriminate. exists g. split; [reflexivity|].
    destruct (rmap (sortTags (t2i g)) (m_regions m)) as [rs| | |]; try discriminate.
    destruct (sanity g (m_contacts m) (m_interfaces m) (sr rs)) as [[x y]| | |]; try discriminate. injection H as <-. reflexivity. }
  destruct S as (g & S & Eg). unfold pts. rewrite Eg.
  assert (Hs' : Forall spaced ls). { rewrite Forall_forall in *. intros x Hx. apply C. eapply Permutation_in; [exact P|exact Hx]. }
  destruct (set_locations_facts _ _ _ S Hs') as (D1 & _ & _ & D4).
  split; [exact P|]. split; [apply (distributed_increasing _ _ D1)|]. split; [apply (distributed_ends _ _ D1)|]. split; [apply (distributed_ends _ _ D1)|].
  split; [exact D1|]. split.
  - intros a Ia. apply (distributed_lines _ _ D1). apply in_map. eapply Permutation_in; [apply Permutation_sym; exact P|exact Ia].
  - intros a Ia Ne. apply D4; [|exact Ne]. eapply Permutation_in; [apply Permutation_sym; exact P|exact Ia].
Qed.
Print Assumptions C32_lines_partial.

Lemma distributed_pos : forall ps l, distributed ps l -> StronglySorted Rlt (map (@pos R) ps).
Proof.
  intros ps l H. apply Sorted_StronglySorted; [intros x y z; apply Rlt_trans|]. induction H as [a|p q rest pts l G H IH]; [constructor; constructor|].
  cbn [map] in *. constructor; [exact IH|]. constructor. destruct G as (A & B & C & D & _). apply chain_lt in D.
  destruct pts as [|x [|y t]]; cbn in C; try lia. cbn in A. subst x. inversion D as [|? ? _ F]; subst. rewrite Forall_forall in F. apply F.
  rewrite <- B. change (last (pos p :: y :: t) 0) with (last (y :: t) 0). rewrite (app_removelast_last 0 (l := y :: t)) at 2 by discriminate. apply in_or_app. right. now left.
Qed.
Lemma ss_nodup : forall l, StronglySorted Rlt l -> NoDup l.
Proof.
  intros l H. induction H as [|a l H IH F]; constructor; [|exact IH]. intros I. rewrite Forall_forall in F. specialize (F a I). lra.
Qed.
(* Two lines at the same position, or with the same tag, are rejected: the mesh is not finalised *)
Theorem C32_duplicates : forall sl sr, sorts_lines sl -> forall cs fuel m', Forall adds cs ->
  let m := snd (run rN sl sr cs new_mesh) in finalize rN sl sr fuel m = (Ok tt, m') ->
  NoDup (map (@pos R) (m_lines m)) /\
  forall i j a b, nth_error (m_lines m) i = Some a -> nth_error (m_lines m) j = Some b -> ltag a = ltag b -> ltag a <> "" -> i = j.
Proof.
  intros sl sr Hs cs fuel m' Ha m H. destruct (C32_lines_partial sl sr Hs cs fuel m' Ha H) as (P & _ & _ & _ & D & _ & T). fold m in P, D, T.
  assert (ND : NoDup (map (@pos R) (m_lines m))).
  { apply (Permutation_NoDup (Permutation_map (@pos R) P)). apply ss_nodup. exact (distributed_pos _ _ D). }
  split; [exact ND|]. intros i j a b Ia Ib Et Ne.
  destruct (T a (nth_error_In _ _ Ia) Ne) as (k & K1 & K2). rewrite Et in Ne. destruct (T b (nth_error_In _ _ Ib) Ne) as (k' & K1' & K2').
  rewrite Et in K1. rewrite K1 in K1'. injection K1' as <-. rewrite K2 in K2'. injection K2' as E.
  rewrite NoDup_nth_error in ND. apply ND.
  - rewrite map_length. apply nth_error_Some. congruence.
  - rewrite (map_nth_error _ _ _ Ia), (map_nth_error _ _ _ Ib). now rewrite E.
Qed.
Print Assumptions C32_duplicates.

Lemma filter_perm : forall A (f : A -> bool) l l', Permutation l l' -> Permutation (filter f l) (filter f l').
Proof.
  intros A f l l' H. induction H as [|x l l' H IH|x y l|l l' l'' H1 IH1 H2 IH2]; cbn [filter]; [constructor|destruct (f x); [now constructor|exact IH]| |now apply Permutation_trans with (filter f l')].
  destruct (f x), (f y); try apply Permutation_refl; constructor.
Qed.
(* and conversely lines at different positions with different tags are always distributed, in finitely many rounds *)
Theorem C32_terminates_partial : forall sl, sorts_lines sl -> forall ls, ls <> [] -> Forall spaced ls -> NoDup (map (@pos R) ls) -> NoDup (tags ls) ->
  exists n g, forall fuel, (n <= fuel)%nat -> set_locations rN fuel fresh (sl ls) = Ok g.
Proof.
  intros sl Hs ls Ne Hp Np Nt. destruct (Hs ls) as [P S]. apply set_locations_progress.
  - intros E. rewrite E in P. apply Permutation_nil in P. congruence.
  - rewrite Forall_forall in *. intros x Hx. apply Hp. eapply Permutation_in; [exact P|exact Hx].
  - apply (Permutation_NoDup (Permutation_sym (Permutation_map (@pos R) P))) in Np. clear - S Np. induction S as [|a l S IH F]; constructor.
    + apply IH. now inversion Np.
    + destruct l as [|b l]; constructor. inversion F as [|? ? Fb _]; subst. destruct Fb as [Fb|Fb]; [exact Fb|]. exfalso. cbn [map] in Np. inversion Np as [|? ? Ni _]; subst. apply Ni. left. now symmetry.
  - apply (Permutation_NoDup (l := tags ls)); [|exact Nt]. apply Permutation_sym. unfold tags. apply filter_perm. now apply Permutation_map.
Qed.
Print Assumptions C32_terminates_partial.

(* insertion sort: an order std::sort may give *)
Fixpoint ins (a : @line R) (l : list (@line R)) : list (@line R) :=
  match l with [] => [a] | b :: t => if Rle_dec (pos a) (pos b) then a :: l else b :: ins a t end.
Definition isort (l : list (@line R)) : list (@line R) := fold_right ins [] l.
Lemma ins_perm : forall a l, Permutation (ins a l) (a :: l).
Proof. intros a. induction l as [|b t IH]; cbn [ins]; [apply Permutation_refl|]. destruct (Rle_dec (pos a) (pos b)); [apply Permutation_refl|]. apply Permutation_trans with (b :: a :: t); [now constructor|apply perm_swap]. Qed.
Lemma isort_sorts : sorts_lines isort.
Proof.
  intros l. induction l as [|a l [P S]]; cbn [isort fold_right]; [split; constructor|]. fold (isort l). split.
  - apply Permutation_trans with (a :: isort l); [apply ins_perm|now constructor].
  - clear P. induction S as [|b t S IH F]; cbn [ins]; [constructor; constructor|]. destruct (Rle_dec (pos a) (pos b)) as [L|L].
    + constructor; [constructor; assumption|]. constructor; [exact L|]. revert F. apply Forall_impl. intros x Hx. lra.
    + constructor; [exact IH|]. rewrite Forall_forall in *. intros x Hx. apply (Permutation_in _ (ins_perm a t)) in Hx. destruct Hx as [<-|Hx]; [lra|auto].
Qed.
Example C32_lines_case : Forall spaced [mkline 1 0.5 0.5 "r"; mkline 0 0.5 0.25 "l"] /\ NoDup (map (@pos R) [mkline 1 0.5 0.5 "r"; mkline 0 0.5 0.25 "l"]) /\
  tags [mkline 1 0.5 0.5 "r"; mkline 0 0.5 0.25 "l"] = ["r"; "l"].
Proof.
  split; [|split; [|reflexivity]].
  - apply Forall_cons; [split; cbn; lra|]. apply Forall_cons; [split; cbn; lra|]. apply Forall_nil.
  - cbn [map pos]. constructor; [intros [X|[]]; lra|]. constructor; [intros []|constructor].
Qed.

(* doubles *)
Definition dltb (a b : double) : bool := match Bcompare a b with Some Lt => true | _ => false end.
Definition dleb (a b : double) : bool := match Bcompare a b with Some Lt | Some Eq => true | _ => false end.
Fixpoint dpow (x : double) (n : nat) : double := match n with O => done | S k => dmul x (dpow x k) end.
Definition dpow2 (k : Z) : double := binary_normalize 53 1024 eq_refl eq_refl mode_NE 1 k false.
Definition dint (n : Z) : double := binary_normalize 53 1024 eq_refl eq_refl mode_NE n 0 false.
(* 1e-10 *)
Definition dtol : double := Bdiv mode_NE done (dint 10000000000).
Definition dN : num double := mknum double dltb dleb dzero dadd (Bminus mode_NE) dmul (Bdiv mode_NE) Babs dpow dtol.
(* The distribution need not end: lines at 2^54 and 2^54+4 with spacing 1 (which every check accepts) are never distributed *)
Lemma stuck : forall n, equi_loop dN n (dint (2 ^ 54 + 4)) (dint 1) (dint (2 ^ 54)) = Running.
Proof.
  induction n as [|n IH]; cbn [equi_loop].
  - assert (E : ltb dN (dint (2 ^ 54)) (dint (2 ^ 54 + 4)) = true) by (vm_compute; reflexivity). now rewrite E.
  - assert (E : ltb dN (dint (2 ^ 54)) (dint (2 ^ 54 + 4)) = true) by (vm_compute; reflexivity). rewrite E.
    assert (E2 : (if ltb dN (sub dN (dint (2 ^ 54 + 4)) (tol dN)) (add dN (dint (2 ^ 54)) (dint 1)) then dint (2 ^ 54 + 4) else add dN (dint (2 ^ 54)) (dint 1)) = dint (2 ^ 54)).
    { assert (F : ltb dN (sub dN (dint (2 ^ 54 + 4)) (tol dN)) (add dN (dint (2 ^ 54)) (dint 1)) = false) by (vm_compute; reflexivity).
      rewrite F. apply B2SF_inj. vm_compute. reflexivity. }
    cbn zeta. rewrite E2, IH. reflexivity.
Qed.
Theorem C32_terminates_refuted : exists xl xh s, dltb xl xh = true /\ dltb dzero s = true /\ is_finite xl = true /\ is_finite xh = true /\ is_finite s = true /\
  forall fuel, getPoints dN fuel xl xh s s = Running.
Proof.
  exists (dint (2 ^ 54)), (dint (2 ^ 54 + 4)), (dint 1). do 5 (split; [vm_compute; reflexivity|]). intros fuel. unfold getPoints.
  assert (E : ltb dN (dint (2 ^ 54)) (dint (2 ^ 54 + 4)) = true) by (vm_compute; reflexivity). rewrite E. cbn [negb].
  assert (E2 : ltb dN (div dN (absv dN (sub dN (dint 1) (dint 1))) (dint 1)) (tol dN) = true) by (vm_compute; reflexivity). rewrite E2.
  unfold equidistance. rewrite stuck. reflexivity.
Qed.
Print Assumptions C32_terminates_refuted.
(* A spacing that is not a number is accepted: with lines at 0 and 1, the points are 0 and NaN; there is no point at 1 *)
Theorem C32_nan_refuted : exists sl sr cs m', m' = snd (run dN sl sr cs new_mesh) /\ fst (run dN sl sr cs new_mesh) = [Ok tt; Ok tt; Ok tt; Ok tt; Ok tt; Ok tt] /\
  map B2SF (locs (m_grid m')) = [SpecFloat.S754_zero false; SpecFloat.S754_nan] /\ map B2SF (map (@pos double) (m_lines m')) = [B2SF dzero; B2SF (dint 1)].
Proof.
  exists (fun l => l), (fun l => l),
    [AddLine dzero B754_nan dzero "a"; AddLine (dint 1) B754_nan dzero "b"; AddRegion "r" "a" "b"; AddContact "ca" "a"; AddContact "cb" "b"; FinalizeMesh 5].
  eexists. split; [reflexivity|]. split; [vm_compute; reflexivity|]. split; vm_compute; reflexivity.
Qed.
Print Assumptions C32_nan_refuted.

(* ---- C33 ---- *)
(* A mesh is built by any commands and finalised once. If finalize_mesh succeeds, and no two regions and no two contacts have the same name, then
   create_device makes a device; and every device made from the mesh is valid: see MeshLineSpec.v. *)
Theorem C33_valid_partial : forall sl sr, sorts_lines sl -> sorts_regions sr -> forall cs fuel m', Forall adds cs ->
  let m := snd (run rN sl sr cs new_mesh) in finalize rN sl sr fuel m = (Ok tt, m') ->
  (NoDup (map rname (m_regions m)) -> NoDup (map nname (m_contacts m)) -> exists d, instantiate m' = Ok d) /\
  forall d, instantiate m' = Ok d -> valid_device (m_lines m) (m_regions m) (m_contacts m) (m_interfaces m) d.
Proof.
  intros sl sr Hs Hr cs fuel m' Ha m H. destruct (built sl sr cs Ha) as (A & B & C). fold m in A, B, C.
  destruct (finalize_valid sl sr (fun l => proj1 (Hs l)) Hr fuel m m' A C H) as (_ & _ & _ & _ & D & E). split; [exact D|]. intros d Hd. apply E. exact Hd.
Qed.
Print Assumptions C33_valid_partial.
(* two regions *)
Definition good_mesh : list (@command R) :=
  [AddLine 0 1 0 "l"; AddLine 2 1 1 "r"; AddLine 1 1 1 "m"; AddRegion "r1" "r" "m"; AddRegion "r0" "l" "m"; AddContact "cr" "r"; AddContact "cl" "l"; AddInterface "i" "m"].
Definition two_sort (l : list span) : list span := match l with [a; b] => if Nat.ltb (i0 a) (i0 b) then [a; b] else [b; a] | _ => l end.
Definition good_built : @mesh R := mkmesh [mkline 0 1 1 "l"; mkline 2 1 1 "r"; mkline 1 1 1 "m"] [mkregion "r1" "r" "m"; mkregion "r0" "l" "m"]
  [mknamed "cr" "r"; mknamed "cl" "l"] [mknamed "i" "m"] fresh [] [] [] false.
Lemma run_good : snd (run rN isort two_sort good_mesh new_mesh) = good_built.
Proof.
  assert (R1 : rleb 1 0 = false) by (unfold rleb; destruct (Rle_dec 1 0); [lra|reflexivity]).
  assert (R0 : rleb 0 0 = true) by (unfold rleb; destruct (Rle_dec 0 0); [reflexivity|lra]).
  unfold good_mesh. do 10 (cbn -[IZR rleb]; rewrite ?R1, ?R0). reflexivity.
Qed.
Lemma unit_points : forall x, getPoints rN 3 x (x + 1) 1 1 = Ok [x; x + 1].
Proof.
  intros x. unfold getPoints, equidistance. cbn [equi_loop]. change (ltb rN) with rltb. change (sub rN) with Rminus. change (add rN) with Rplus.
  change (div rN) with Rdiv. change (absv rN) with Rabs. change (tol rN) with tolr.
  pose proof tolr_pos. assert (E0 : rltb x (x + 1) = true) by (apply rltb_true; lra). rewrite E0. cbn [negb].
  assert (E2 : rltb (Rabs (1 - 1) / 1) tolr = true) by (apply rltb_true; replace (1 - 1) with 0 by ring; rewrite Rabs_R0; lra). rewrite E2.
  assert (E3 : rltb (x + 1 - tolr) (x + 1) = true) by (apply rltb_true; lra). rewrite E3.
  assert (E4 : rltb (x + 1) (x + 1) = false) by (apply rltb_false; lra). rewrite E4. reflexivity.
Qed.
Lemma sort_good : isort (m_lines good_built) = [mkline 0 1 1 "l"; mkline 1 1 1 "m"; mkline 2 1 1 "r"].
Proof.
  unfold isort, good_built. cbn [m_lines fold_right ins pos].
  destruct (Rle_dec 2 1); [lra|]. cbn [ins pos]. destruct (Rle_dec 0 1); [reflexivity|lra].
Qed.
Lemma located_good : set_locations rN 3 fresh (isort (m_lines good_built)) = Ok (mkgrid [0; 1; 2] (put "r" 2%nat (put "m" 1%nat (put "l" 0%nat []))) [2; 1; 0]%nat).
Proof.
  rewrite sort_good. cbn -[IZR getPoints].
  pose proof (unit_points 0) as G0. replace (0 + 1) with 1 in G0 by ring. rewrite G0. cbn -[IZR getPoints].
  pose proof (unit_points 1) as G1. replace (1 + 1) with 2 in G1 by ring. rewrite G1. reflexivity.
Qed.
Example C33_case : exists m', finalize rN isort two_sort 3 (snd (run rN isort two_sort good_mesh new_mesh)) = (Ok tt, m') /\
  exists d, instantiate m' = Ok d /\ length (dv_regions d) = 2%nat /\ length (dv_interfaces d) = 1%nat.
Proof.
  rewrite run_good. unfold finalize. change (m_grid good_built) with fresh. rewrite located_good.
  eexists. split; [cbn -[IZR isort]; reflexivity|]. eexists. split; [cbn -[IZR isort]; reflexivity|]. split; reflexivity.
Qed.

(* A validated mesh need not make a device: two regions may have the same name; create_device then raises an assertion *)
Definition dlist (l : list (Z * string)) : list (@command double) := map (fun p => AddLine (dint (fst p)) (dint 1) (dint 1) (snd p)) l.
Theorem C33_same_name_refuted : exists cs, let r := run dN (fun l => l) (fun l => l) cs new_mesh in fst r = repeat (Ok tt) 9 /\ instantiate (snd r) = Abort.
Proof.
  exists (dlist [(0, "l"); (1, "m"); (2, "r")]%Z ++ [AddRegion "x" "l" "m"; AddRegion "x" "m" "r"; AddContact "cr" "r"; AddContact "cl" "l"; AddInterface "i" "m"; FinalizeMesh 5]).
  split; vm_compute; reflexivity.
Qed.
Print Assumptions C33_same_name_refuted.
(* A failed finalize_mesh leaves its points and tags in the mesh. After the omission is mended, the next finalize_mesh raises an assertion *)
Definition repaired : list (@command double) :=
  dlist [(0, "l"); (1, "r")]%Z ++ [AddRegion "x" "l" "r"; AddContact "cl" "l"; FinalizeMesh 5; AddContact "cr" "r"; FinalizeMesh 5].
Definition never_failed : list (@command double) :=
  dlist [(0, "l"); (1, "r")]%Z ++ [AddRegion "x" "l" "r"; AddContact "cl" "l"; AddContact "cr" "r"; FinalizeMesh 5].
Theorem C33_retry_refuted :
  fst (run dN (fun l => l) (fun l => l) never_failed new_mesh) = repeat (Ok tt) 6 /\
  fst (run dN (fun l => l) (fun l => l) repaired new_mesh) = [Ok tt; Ok tt; Ok tt; Ok tt; Fail; Ok tt; Abort].
Proof. split; vm_compute; reflexivity. Qed.
Print Assumptions C33_retry_refuted.
(* or it succeeds with the points of both attempts: the coordinates 5, 6, 7, 0, ... are not increasing, and the contact "cl", declared at the line at 0, is at 5 *)
Definition sort4 (l : list (@line double)) : list (@line double) :=
  match l with [a; b] => [a; b] | [a; b; c; d] => [c; a; b; d] | _ => l end.
Definition kept : list (@command double) :=
  dlist [(5, ""); (6, "")]%Z ++ [FinalizeMesh 9] ++ dlist [(0, "l"); (7, "r")]%Z ++ [AddRegion "x" "l" "r"; AddContact "cl" "l"; AddContact "cr" "r"; FinalizeMesh 9].
Theorem C33_kept_refuted : let r := run dN sort4 (fun l => l) kept new_mesh in fst r = [Ok tt; Ok tt; Fail; Ok tt; Ok tt; Ok tt; Ok tt; Ok tt; Ok tt] /\
  match instantiate (snd r) with
  | Ok d => map B2SF (dv_coords d) = map (fun n => B2SF (dint n)) [5; 6; 0; 1; 2; 3; 4; 5; 6; 7]%Z /\ dv_contacts d = [mkdcontact "cl" 0 0; mkdcontact "cr" 0 9]
  | _ => False
  end.
Proof. cbn zeta. split; [vm_compute; reflexivity|]. vm_compute. split; reflexivity. Qed.
Print Assumptions C33_kept_refuted.

(* ---- C34 ---- *)
(* The order used to sort the regions is no strict order: it holds of a region and itself (std::sort then has undefined behaviour), and both ways of regions that overlap *)
Theorem C34_irreflexive_refuted : forall s, (i0 s < i1 s)%nat -> region_sort s s = Ok true.
Proof. intros s H. unfold region_sort. rewrite (proj2 (Nat.ltb_lt _ _) H). reflexivity. Qed.
Print Assumptions C34_irreflexive_refuted.
Theorem C34_overlap_refuted : exists a b, (i0 a < i1 a)%nat /\ (i0 b < i1 b)%nat /\ region_sort a b = Ok true /\ region_sort b a = Ok true.
Proof. exists (mkspan "a" 0 2), (mkspan "b" 1 3). repeat split; reflexivity || (cbn; lia). Qed.
Print Assumptions C34_overlap_refuted.
(* Between regions that do not overlap it is that of their positions *)
Theorem C34_disjoint_partial : forall a b, (i0 a < i1 a)%nat -> (i0 b < i1 b)%nat -> (i1 a <= i0 b \/ i1 b <= i0 a)%nat ->
  region_sort a b = Ok true /\ (i1 a <= i0 b)%nat \/ region_sort a b = Ok false /\ (i1 b <= i0 a)%nat.
Proof.
  intros a b Ha Hb [H|H]; unfold region_sort; rewrite (proj2 (Nat.ltb_lt _ _) Ha), (proj2 (Nat.ltb_lt _ _) Hb); cbn [andb].
  - left. split; [|exact H]. rewrite (proj2 (Nat.ltb_lt _ _)) by lia. reflexivity.
  - right. split; [|exact H]. rewrite (proj2 (Nat.ltb_ge _ _)) by lia. reflexivity.
Qed.
Print Assumptions C34_disjoint_partial.
(* so for regions that do not overlap it has the laws of a strict order, irreflexivity excepted *)
Theorem C34_order_partial : forall a b c, let d x y := (i1 x <= i0 y \/ i1 y <= i0 x)%nat in
  (i0 a < i1 a)%nat -> (i0 b < i1 b)%nat -> (i0 c < i1 c)%nat -> d a b -> d b c -> d a c ->
  (region_sort a b = Ok true <-> region_sort b a = Ok false) /\
  (region_sort a b = Ok true -> region_sort b c = Ok true -> region_sort a c = Ok true).
Proof.
  intros a b c d Ha Hb Hc Dab Dbc Dac. unfold d, region_sort in *.
  rewrite (proj2 (Nat.ltb_lt _ _) Ha), (proj2 (Nat.ltb_lt _ _) Hb), (proj2 (Nat.ltb_lt _ _) Hc). cbn [andb].
  destruct (Nat.ltb_spec (i0 a) (i1 b)), (Nat.ltb_spec (i0 b) (i1 a)), (Nat.ltb_spec (i0 b) (i1 c)), (Nat.ltb_spec (i0 a) (i1 c)); (split; [split|]); intros; try congruence; try lia.
Qed.
Print Assumptions C34_order_partial.
Example C34_case : (let d x y := (i1 x <= i0 y \/ i1 y <= i0 x)%nat in d (mkspan "a" 0 2) (mkspan "b" 2 5))%nat.
Proof. cbn. lia. Qed.

(* ---- C37 ---- *)
Lemma fold_rsum : forall A (f : A -> R) l v, fold_left (fun v e => v + f e) l v = v + rsum f l.
Proof. intros A f. induction l as [|a l IH]; intros v; cbn [fold_left rsum]; [ring|]. rewrite IH. ring. Qed.
(* In any region: the volumes of the nodes add up to twice those of the edges *)
Theorem C37_sum : forall vol es n, Forall (fun e => fst e < n /\ snd e < n)%nat es ->
  rsum (node_volume vol es) (seq 0 n) = 2 * rsum vol es.
Proof.
  intros vol es n H. transitivity (rsum (fun i => rsum (fun e => (if Nat.eqb i (fst e) then vol e else 0) + (if Nat.eqb i (snd e) then vol e else 0))%R es) (seq 0 n)).
  - apply rsum_ext. intros i _. unfold node_volume. rewrite fold_rsum, Rplus_0_l. unfold node_edges. rewrite rsum_flat_map. apply rsum_ext. intros e _.
    rewrite rsum_app. rewrite (Nat.eqb_sym i (fst e)), (Nat.eqb_sym i (snd e)). destruct (Nat.eqb (fst e) i), (Nat.eqb (snd e) i); cbn [rsum]; ring.
  - rewrite rsum_swap, <- rsum_scal. apply rsum_ext. intros e He. rewrite Forall_forall in H. destruct (H e He) as [A B]. rewrite rsum_plus.
    rewrite (AssemblyResidual.rsum_seq_ind (fun _ => vol e) (fst e) n 0) by lia. rewrite (AssemblyResidual.rsum_seq_ind (fun _ => vol e) (snd e) n 0) by lia. ring.
Qed.
Print Assumptions C37_sum.
Lemma length_1d : forall coords nodes a b, edge_length (position_1d coords nodes) (a, b) = Rabs (nth (nth a nodes O) coords 0 - nth (nth b nodes O) coords 0).
Proof.
  intros. unfold edge_length, magnitude, vsub, position_1d. cbn [fst snd vx vy vz]. rewrite Rminus_0_r, Rmult_0_l, !Rplus_0_r.
  change (?x * ?x) with (Rsqr x). apply sqrt_Rsqr_abs.
Qed.
Lemma telescope : forall (x : nat -> R) k, rsum (fun j => x (S j) - x j) (seq 0 k) = x k - x O.
Proof.
  intros x. induction k as [|k IH]; [cbn; ring|]. rewrite seq_S, rsum_app, IH. cbn [rsum Nat.add]. ring.
Qed.
Lemma nodes_in : forall ls rs cs is d r, valid_device ls rs cs is d -> In r (dv_regions d) -> Forall (fun i => (i < length (dv_coords d))%nat) (d_nodes r).
Proof.
  intros ls rs cs is d r V Ir. destruct (v_interval _ _ _ _ _ V r Ir) as (a & m & Hm & En & Ee).
  assert (H : In ((a + (m - 1))%nat, (a + m)%nat) (map (fun k => (k, S k)) (seq 0 (length (dv_coords d) - 1)))).
  { rewrite <- (v_cells _ _ _ _ _ V). apply in_flat_map. exists r. split; [exact Ir|]. apply in_map_iff. exists ((m - 1)%nat, m). cbn [fst snd].
    rewrite En, !seq_nth by lia. split; [reflexivity|]. rewrite Ee. apply in_map_iff. exists (m - 1)%nat. split; [f_equal; lia|]. apply in_seq. lia. }
  apply in_map_iff in H. destruct H as (k & E & Hk). injection E as E1 E2. apply in_seq in Hk. rewrite En. apply Forall_forall. intros i Hi. apply in_seq in Hi. lia.
Qed.
(* In a region of a device made from a one dimensional mesh: the node volumes add up to the length of the region; that of the first node is half the
   distance to the next, that of an inner node half the distance between its neighbours *)
Theorem C37_length_partial : forall ls rs cs is d r, valid_device ls rs cs is d -> In r (dv_regions d) ->
  let x k := nth (nth k (d_nodes r) O) (dv_coords d) 0 in
  let k := (length (d_nodes r) - 1)%nat in
  let vol := node_volume (edge_node_volume_1d (position_1d (dv_coords d) (d_nodes r))) (d_edges r) in
  rsum vol (seq 0 (length (d_nodes r))) = x k - x O /\ x O < x k /\
  vol O = (x 1%nat - x O) / 2 /\ (forall j, (0 < j < k)%nat -> vol j = (x (S j) - x (j - 1)%nat) / 2) /\ vol k = (x k - x (k - 1)%nat) / 2.
Proof.
  intros ls rs cs is d r V Ir x k vol. pose proof (nodes_in _ _ _ _ _ _ V Ir) as Hin. destruct (v_interval _ _ _ _ _ V r Ir) as (a & m & Hm & En & Ee).
  assert (Hk : k = m) by (unfold k; rewrite En, seq_length; lia).
  assert (Hx : forall j, (j <= m)%nat -> x j = nth (a + j) (dv_coords d) 0) by (intros j Hj; unfold x; rewrite En, seq_nth by lia; reflexivity).
  assert (Hlen : (a + m < length (dv_coords d))%nat). { rewrite Forall_forall in Hin. apply Hin. rewrite En. apply in_seq. lia. }
  assert (Inc : forall j, (j < m)%nat -> x j < x (S j)).
  { intros j Hj. rewrite !Hx by lia. pose proof (v_coords _ _ _ _ _ V) as So. replace (a + S j)%nat with (S (a + j)) by lia.
    assert (L : (S (a + j) < length (dv_coords d))%nat) by lia. revert L. generalize (a + j)%nat. clear - So. induction So as [|y l So IH F]; intros i L; [cbn in L; lia|].
    destruct i as [|i]; cbn [nth]. { rewrite Forall_forall in F. apply F. apply nth_In. cbn in L. lia. } apply IH. cbn in L. lia. }
  set (ev := edge_node_volume_1d (position_1d (dv_coords d) (d_nodes r))) in *.
  assert (Ev : forall j, (j < m)%nat -> ev (j, S j) = (x (S j) - x j) / 2).
  { intros j Hj. unfold ev, edge_node_volume_1d, edge_couple_1d. rewrite length_1d. fold (x j) (x (S j)). specialize (Inc j Hj). rewrite Rabs_left by lra. lra. }
  assert (Nv : forall i, vol i = rsum (fun j => (if Nat.eqb j i then ev (j, S j) else 0) + (if Nat.eqb (S j) i then ev (j, S j) else 0))%R (seq 0 m)).
  { intros i. unfold vol, node_volume. rewrite fold_rsum, Rplus_0_l. unfold node_edges. rewrite rsum_flat_map, Ee, rsum_map. apply rsum_ext. intros j _.
    cbn [fst snd]. rewrite rsum_app. destruct (Nat.eqb j i), (Nat.eqb (S j) i); cbn [rsum]; ring. }
  assert (S1 : forall i, (i < m)%nat -> rsum (fun j => if Nat.eqb j i then ev (j, S j) else 0) (seq 0 m) = ev (i, S i)).
  { intros i Hi. apply (AssemblyResidual.rsum_seq_ind (fun j => ev (j, S j)) i m 0). lia. }
  assert (S2 : forall i, (i < m)%nat -> rsum (fun j => if Nat.eqb (S j) (S i) then ev (j, S j) else 0) (seq 0 m) = ev (i, S i)).
  { intros i Hi. rewrite <- (S1 i Hi). apply rsum_ext. intros j _. reflexivity. }
  assert (Z1 : rsum (fun j => if Nat.eqb j m then ev (j, S j) else 0) (seq 0 m) = 0).
  { apply rsum_zero. intros j Hj. apply in_seq in Hj. destruct (Nat.eqb_spec j m); [lia|reflexivity]. }
  rewrite Hk. split; [|split; [|split; [|split]]].
  - assert (Ln : length (d_nodes r) = S m) by (rewrite En, seq_length; reflexivity). rewrite Ln. unfold vol. rewrite C37_sum.
    + rewrite Ee, rsum_map. rewrite (rsum_ext _ (fun j => (1 / 2) * (x (S j) - x j))). 2:{ intros j Hj. apply in_seq in Hj. rewrite Ev by lia. field. }
      rewrite rsum_scal, telescope. field.
    + rewrite Ee. apply Forall_forall. intros e He. apply in_map_iff in He. destruct He as (j & <- & Hj). apply in_seq in Hj. cbn [fst snd]. lia.
  - assert (X : forall j, (S j <= m)%nat -> x O < x (S j)).
    { induction j as [|j IH]; intros Hj; [apply Inc; lia|]. apply Rlt_trans with (x (S j)); [apply IH; lia|apply Inc; lia]. }
    destruct m as [|m]; [lia|]. apply X. lia.
  - rewrite Nv, rsum_plus, S1 by lia. rewrite rsum_zero by reflexivity. rewrite Ev by lia. ring.
  - intros j Hj. destruct j as [|j]; [lia|]. rewrite Nv, rsum_plus, S1, S2 by lia. rewrite !Ev by lia. replace (S j - 1)%nat with j by lia. field.
  - destruct m as [|m]; [lia|]. rewrite Nv, rsum_plus, Z1, S2 by lia. rewrite Ev by lia. replace (S m - 1)%nat with m by lia. ring.
Qed.
Print Assumptions C37_length_partial.

(* and the node volumes of all the regions add up to the length of the device *)
Theorem C37_device_partial : forall ls rs cs is d, valid_device ls rs cs is d ->
  rsum (fun r => rsum (node_volume (edge_node_volume_1d (position_1d (dv_coords d) (d_nodes r))) (d_edges r)) (seq 0 (length (d_nodes r)))) (dv_regions d)
  = last (dv_coords d) 0 - hd 0 (dv_coords d).
Proof.
  intros ls rs cs is d V. set (x := fun i => nth i (dv_coords d) 0).
  transitivity (rsum (fun r => rsum (fun c => x (snd c) - x (fst c)) (map (fun e => (nth (fst e) (d_nodes r) 0%nat, nth (snd e) (d_nodes r) 0%nat)) (d_edges r))) (dv_regions d)).
  - apply rsum_ext. intros r Ir. destruct (C37_length_partial _ _ _ _ _ r V Ir) as (E & _). rewrite E. destruct (v_interval _ _ _ _ _ V r Ir) as (a & m & Hm & En & Ee).
    rewrite Ee, !rsum_map. cbn [fst snd]. rewrite (telescope (fun j => x (nth j (d_nodes r) 0%nat))). rewrite En, seq_length. replace (S m - 1)%nat with m by lia. reflexivity.
  - rewrite <- rsum_flat_map, (v_cells _ _ _ _ _ V), rsum_map. cbn [fst snd]. rewrite (telescope x). unfold x. destruct (dv_coords d) as [|y l]; [cbn; ring|].
    cbn [length]. f_equal. change (length l) with (length (y :: l) - 1)%nat || idtac. replace (S (length l) - 1)%nat with (length l) by lia.
    clear. revert y. induction l as [|z l IH]; intros y; [reflexivity|]. change (nth (length l) (z :: l) 0 = last (z :: l) 0). apply IH.
Qed.
Print Assumptions C37_device_partial.
