(* Proofs about the GMRES model: orthogonalisation, rotations, residual. *)
From Coq Require Import List Arith Lia Reals Lra.
From Verif Require Import Gmres.
Import ListNotations.
Open Scope R_scope.
Local Arguments Nat.ltb : simpl never.
Local Arguments Nat.leb : simpl never.
Local Arguments Nat.eqb : simpl never.

(* ---- sums ---------------------------------------------------------------------------- *)
Fixpoint Sum (f : nat -> R) (n : nat) : R := match n with O => 0 | S k => Sum f k + f k end.
Lemma Sum_ext : forall f g n, (forall i, (i < n)%nat -> f i = g i) -> Sum f n = Sum g n.
Proof. induction n as [|n IH]; intros H; cbn [Sum]; [reflexivity|]. rewrite IH by (intros; apply H; lia). rewrite H by lia. reflexivity. Qed.
Lemma Sum_plus : forall f g n, Sum (fun i => f i + g i) n = Sum f n + Sum g n.
Proof. induction n as [|n IH]; cbn [Sum]; [lra|]. rewrite IH. lra. Qed.
Lemma Sum_scal : forall c f n, Sum (fun i => c * f i) n = c * Sum f n.
Proof. induction n as [|n IH]; cbn [Sum]; [lra|]. rewrite IH. lra. Qed.
Lemma Sum_zero : forall f n, (forall i, (i < n)%nat -> f i = 0) -> Sum f n = 0.
Proof. intros f n H. rewrite (Sum_ext f (fun _ => 0)) by exact H. induction n as [|n IH]; cbn [Sum]; [reflexivity|]. rewrite IH; [lra|]. intros; apply H; lia. Qed.
Lemma Sum_swap : forall (f : nat -> nat -> R) n m, Sum (fun i => Sum (f i) m) n = Sum (fun j => Sum (fun i => f i j) n) m.
Proof.
  intros f. induction n as [|n IH]; intros m; cbn [Sum].
  - symmetry. apply Sum_zero. reflexivity.
  - rewrite IH, <- Sum_plus. reflexivity.
Qed.
Lemma Sum_first : forall f n, Sum f (S n) = f 0%nat + Sum (fun i => f (S i)) n.
Proof. induction n as [|n IH]; [cbn; lra|]. change (Sum f (S (S n))) with (Sum f (S n) + f (S n)). rewrite IH. cbn [Sum]. lra. Qed.
Lemma Sum_nonneg : forall f n, (forall i, (i < n)%nat -> 0 <= f i) -> 0 <= Sum f n.
Proof. induction n as [|n IH]; intros H; cbn [Sum]; [lra|]. specialize (IH ltac:(intros; apply H; lia)). specialize (H n ltac:(lia)). lra. Qed.
Lemma Sum_nonneg_zero : forall f n, (forall i, (i < n)%nat -> 0 <= f i) -> Sum f n = 0 -> forall i, (i < n)%nat -> f i = 0.
Proof.
  induction n as [|n IH]; intros H E i Hi; [lia|]. cbn [Sum] in E.
  pose proof (Sum_nonneg f n ltac:(intros; apply H; lia)). pose proof (H n ltac:(lia)).
  destruct (Nat.eq_dec i n) as [->|]; [lra|]. apply IH; [intros; apply H; lia|lra|lia].
Qed.

(* ---- vectors as functions ------------------------------------------------------------- *)
Notation C x := (fun p => nth p x 0).
Lemma nth_vsub : forall x y, length x = length y -> forall p, nth p (vsub x y) 0 = nth p x 0 - nth p y 0.
Proof. induction x as [|a x IH]; intros [|b y] L p; try discriminate; cbn [vsub]; destruct p; cbn [nth]; try lra. apply IH. injection L as L. exact L. Qed.
Lemma nth_vadd : forall x y, length x = length y -> forall p, nth p (vadd x y) 0 = nth p x 0 + nth p y 0.
Proof. induction x as [|a x IH]; intros [|b y] L p; try discriminate; cbn [vadd]; destruct p; cbn [nth]; try lra. apply IH. injection L as L. exact L. Qed.
Lemma nth_vscale : forall x c p, nth p (vscale x c) 0 = nth p x 0 * c.
Proof. induction x as [|a x IH]; intros c p; destruct p; cbn [vscale map nth]; try lra. apply IH. Qed.
Lemma len_vsub : forall x y, length (vsub x y) = length x.
Proof. induction x as [|a x IH]; intros [|b y]; cbn [vsub length]; try reflexivity. rewrite IH. reflexivity. Qed.
Lemma len_vadd : forall x y, length (vadd x y) = length x.
Proof. induction x as [|a x IH]; intros [|b y]; cbn [vadd length]; try reflexivity. rewrite IH. reflexivity. Qed.
Lemma len_vscale : forall x c, length (vscale x c) = length x.
Proof. intros. apply map_length. Qed.
Lemma vec_ext : forall x y : list R, length x = length y -> (forall p, nth p x 0 = nth p y 0) -> x = y.
Proof.
  induction x as [|a x IH]; intros [|b y] L H; try discriminate; [reflexivity|]. f_equal; [exact (H 0%nat)|]. apply IH; [injection L as L; exact L|]. intros p. exact (H (S p)).
Qed.
Definition fdot (n : nat) (f g : nat -> R) : R := Sum (fun p => f p * g p) n.
Lemma vdot_fdot : forall x y n, length x = n -> length y = n -> vdot x y = fdot n (C x) (C y).
Proof.
  unfold fdot. induction x as [|a x IH]; intros [|b y] n Lx Ly; subst n; try discriminate; [reflexivity|]. cbn [length vdot]. rewrite Sum_first. cbn [nth].
  rewrite (IH y (length x)) by (reflexivity || (injection Ly as Ly; exact Ly)). reflexivity.
Qed.
Lemma fdot_comm : forall n f g, fdot n f g = fdot n g f.
Proof. intros. apply Sum_ext. intros. ring. Qed.
Lemma fdot_ext : forall n f g f' g', (forall p, f p = f' p) -> (forall p, g p = g' p) -> fdot n f g = fdot n f' g'.
Proof. intros n f g f' g' H1 H2. apply Sum_ext. intros p _. rewrite H1, H2. reflexivity. Qed.
Lemma fdot_lin : forall n z a f b g, fdot n z (fun p => a * f p + b * g p) = a * fdot n z f + b * fdot n z g.
Proof. intros. unfold fdot. rewrite <- !Sum_scal, <- Sum_plus. apply Sum_ext. intros. ring. Qed.
Lemma fdot_Sum : forall n z (f : nat -> nat -> R) m, fdot n z (fun p => Sum (fun l => f l p) m) = Sum (fun l => fdot n z (f l)) m.
Proof.
  intros. unfold fdot. rewrite Sum_swap. apply Sum_ext. intros p _. rewrite <- Sum_scal. reflexivity.
Qed.
Lemma fdot_self : forall n f, 0 <= fdot n f f.
Proof. intros. apply Sum_nonneg. intros. nra. Qed.
Lemma vnorm_sq : forall x, vnorm x * vnorm x = vdot x x.
Proof. intros x. unfold vnorm. apply sqrt_sqrt. rewrite (vdot_fdot x x (length x)) by reflexivity. apply fdot_self. Qed.
Lemma vnorm_nonneg : forall x, 0 <= vnorm x.
Proof. intros. apply sqrt_pos. Qed.
Lemma vnorm_zero : forall x, vnorm x = 0 -> forall p, nth p x 0 = 0.
Proof.
  intros x H p. pose proof (vnorm_sq x) as E. rewrite H in E. rewrite (vdot_fdot x x (length x)) in E by reflexivity.
  destruct (Nat.lt_ge_cases p (length x)) as [Hp|Hp]; [|apply nth_overflow; exact Hp].
  assert (X : nth p x 0 * nth p x 0 = 0); [|nra]. apply (Sum_nonneg_zero (fun p => nth p x 0 * nth p x 0) (length x)); [intros; nra|unfold fdot in E; lra|exact Hp].
Qed.
Lemma vnorm_of : forall x n a t, length x = n -> fdot n t t = 1 \/ a = 0 -> (forall p, nth p x 0 = a * t p) -> vnorm x = Rabs a.
Proof.
  intros x n a t L Ht H. unfold vnorm. rewrite (vdot_fdot x x n) by exact L.
  assert (X : fdot n (C x) (C x) = Rsqr a).
  { rewrite (fdot_ext n _ _ (fun p => a * t p) (fun p => a * t p)) by exact H. unfold fdot. rewrite (Sum_ext _ (fun p => (a * a) * (t p * t p))) by (intros; ring). rewrite Sum_scal.
    fold (fdot n t t). destruct Ht as [-> | ->]; unfold Rsqr; ring. }
  rewrite X. apply sqrt_Rsqr_abs.
Qed.

(* ---- work arrays --------------------------------------------------------------------------- *)
Lemma set1_eq : forall A (f : nat -> A) i a, set1 f i a i = a.
Proof. intros. unfold set1. rewrite Nat.eqb_refl. reflexivity. Qed.
Lemma set1_ne : forall A (f : nat -> A) i a k, k <> i -> set1 f i a k = f k.
Proof. intros A f i a k H. unfold set1. destruct (Nat.eqb_spec k i); [contradiction|reflexivity]. Qed.
Lemma set2_eq : forall h i j a, set2 h i j a i j = a.
Proof. intros. unfold set2. rewrite !Nat.eqb_refl. reflexivity. Qed.
Lemma set2_row : forall h i j a k l, k <> i -> set2 h i j a k l = h k l.
Proof. intros h i j a k l H. unfold set2. destruct (Nat.eqb_spec k i); [contradiction|reflexivity]. Qed.
Lemma set2_col : forall h i j a k l, l <> j -> set2 h i j a k l = h k l.
Proof. intros h i j a k l H. unfold set2. destruct (Nat.eqb_spec l j); [contradiction|]. destruct (k =? i); reflexivity. Qed.
Lemma Reqb0_spec : forall a, Reqb0 a = true <-> a = 0.
Proof. intros a. unfold Reqb0. destruct (Req_EM_T a 0); split; congruence. Qed.
Lemma Reqb0_false : forall a, a <> 0 -> Reqb0 a = false.
Proof. intros a H. unfold Reqb0. destruct (Req_EM_T a 0); congruence. Qed.
Lemma Rltb_spec : forall a b, Rltb a b = true <-> a < b.
Proof. intros a b. unfold Rltb. destruct (Rlt_dec a b); split; congruence. Qed.
Lemma Rleb_spec : forall a b, Rleb a b = true <-> a <= b.
Proof. intros a b. unfold Rleb. destruct (Rle_dec a b); split; congruence. Qed.

Lemma rotate_column_at : forall c s k i h, rotate_column c s k i h k i = c * h k i + s * h (S k) i.
Proof. intros. unfold rotate_column. apply set2_eq. Qed.
Lemma rotate_column_next : forall c s k i h, rotate_column c s k i h (S k) i = - s * h k i + c * h (S k) i.
Proof. intros. unfold rotate_column. rewrite set2_row by lia. apply set2_eq. Qed.
Lemma rotate_column_row : forall c s k i h l j, l <> k -> l <> S k -> rotate_column c s k i h l j = h l j.
Proof. intros. unfold rotate_column. rewrite !set2_row by assumption. reflexivity. Qed.
Lemma rotate_column_col : forall c s k i h l j, j <> i -> rotate_column c s k i h l j = h l j.
Proof. intros. unfold rotate_column. rewrite !set2_col by assumption. reflexivity. Qed.
Lemma rotate_rhs_at : forall c s i g, rotate_rhs c s i g i = c * g i + s * g (S i).
Proof. intros. unfold rotate_rhs. apply set1_eq. Qed.
Lemma rotate_rhs_next : forall c s i g, rotate_rhs c s i g (S i) = - s * g i + c * g (S i).
Proof. intros. unfold rotate_rhs. rewrite set1_ne by lia. apply set1_eq. Qed.
Lemma rotate_rhs_ne : forall c s i g l, l <> i -> l <> S i -> rotate_rhs c s i g l = g l.
Proof. intros. unfold rotate_rhs. rewrite !set1_ne by assumption. reflexivity. Qed.

(* ---- back substitution ------------------------------------------------------------------- *)
Definition upper (h : nat -> nat -> R) (l k : nat) : R := if (l <=? k)%nat then h l k else 0.
Lemma eliminate_fold : forall h i l y, NoDup l -> ~ In i l ->
  let y' := fold_left (fun y j => set1 y j (y j - h j i * y i)) l y in
  (forall j, In j l -> y' j = y j - h j i * y i) /\ (forall j, ~ In j l -> y' j = y j).
Proof.
  intros h i. induction l as [|a l IH]; intros y ND Hi; cbn [fold_left]; [split; [intros j []|reflexivity]|].
  apply NoDup_cons_iff in ND. destruct ND as (Na & ND). destruct (IH (set1 y a (y a - h a i * y i)) ND) as (A & B); [intros H; apply Hi; right; exact H|].
  assert (Hai : i <> a) by (intros ->; apply Hi; left; reflexivity).
  split.
  - intros j [<-|Hj]; [rewrite B by exact Na; apply set1_eq|]. rewrite A by exact Hj. rewrite !set1_ne by (assumption || (intros ->; contradiction)). reflexivity.
  - intros j Hj. rewrite B by (intros H; apply Hj; right; exact H). apply set1_ne. intros ->. apply Hj. left. reflexivity.
Qed.
Lemma eliminate_spec : forall h i y, (forall j, (j < i)%nat -> eliminate h i y j = y j - h j i * y i) /\ (forall j, (i <= j)%nat -> eliminate h i y j = y j).
Proof.
  intros h i y. destruct (eliminate_fold h i (rev (seq 0 i)) y) as (A & B).
  - apply NoDup_rev. apply seq_NoDup.
  - rewrite <- in_rev, in_seq. lia.
  - split; [intros j Hj; apply A|intros j Hj; apply B]; rewrite <- in_rev, in_seq; lia.
Qed.
Lemma backsolve_ok : forall h n y, (forall k, (k < n)%nat -> h k k <> 0) ->
  exists y', backsolve h n y = Some y' /\ (forall k, (n <= k)%nat -> y' k = y k) /\
    forall l, (l < n)%nat -> Sum (fun k => upper h l k * y' k) n = y l.
Proof.
  intros h. induction n as [|n IH]; intros y Hp; cbn [backsolve]; [exists y; split; [reflexivity|]; split; [reflexivity|intros; lia]|].
  rewrite Reqb0_false by (apply Hp; lia). set (y0 := set1 y n (y n / h n n)). destruct (eliminate_spec h n y0) as (A & B).
  destruct (IH (eliminate h n y0) ltac:(intros; apply Hp; lia)) as (y' & E & K & L). exists y'. split; [exact E|].
  assert (Yn : y' n = y n / h n n) by (rewrite K, B by lia; apply set1_eq).
  split.
  - intros k Hk. rewrite K, B by lia. apply set1_ne. lia.
  - intros l Hl. cbn [Sum]. rewrite Yn. destruct (Nat.eq_dec l n) as [->|].
    + rewrite Sum_zero; [unfold upper; rewrite (proj2 (Nat.leb_le n n)) by lia; field; apply Hp; lia|].
      intros k Hk. unfold upper. rewrite (proj2 (Nat.leb_gt n k)) by lia. ring.
    + rewrite L by lia. rewrite A by lia. unfold upper. rewrite (proj2 (Nat.leb_le l n)) by lia. unfold y0. rewrite set1_eq, set1_ne by assumption. ring.
Qed.
