(* Writing a device with other numbers (renumber), and what does not depend on them. *)
From Coq Require Import Ascii String List Bool Arith ZArith Lia.
Import ListNotations.
Require Import Verif.StrMap Verif.Adjacency Verif.Loader Verif.LoaderSpec Verif.Restart Verif.RestartWrite Verif.RestartSpec Verif.RestartDeviceSpec Verif.RestartModelsSpec
  Verif.RestartProperties Verif.RestartText Verif.RestartTextSpec.
Local Open Scope list_scope.

Section Renumber.
Variable A : Type.
Variable show : A -> text.
Variable atof : text -> A.
Notation re := (reread A show atof).
Notation f := (fun a => atof (show a)).
Lemma map_flat_map : forall X Y Z (g : X -> list Y) (h : Y -> Z) l, map h (flat_map g l) = flat_map (fun x => map h (g x)) l.
Proof. intros X Y Z g h l. induction l as [|x l IH]; [reflexivity|]. cbn. rewrite map_app, IH. reflexivity. Qed.
Lemma flat_map_map : forall X Y Z (g : Y -> list Z) (h : X -> Y) l, flat_map g (map h l) = flat_map (fun x => g (h x)) l.
Proof. intros X Y Z g h l. induction l as [|x l IH]; [reflexivity|]. cbn. rewrite IH. reflexivity. Qed.
Lemma flat_map_ext2 : forall X Y (g h : X -> list Y) l, (forall x, g x = h x) -> flat_map g l = flat_map h l.
Proof. intros X Y g h l E. induction l as [|x l IH]; [reflexivity|]. cbn. rewrite E, IH. reflexivity. Qed.
Lemma re_lines : forall l, map re (lines A l) = lines A l.
Proof. intros l. unfold lines. rewrite map_flat_map. apply flat_map_ext2. intros e. rewrite map_app, map_map. f_equal. Qed.
Lemma re_section : forall b e l, map re (section A b e l) = section A b e (map re l).
Proof. intros b e l. unfold section. cbn. rewrite map_app. reflexivity. Qed.
Lemma re_call : forall n o, map re (write_call A n o) = write_call A n o.
Proof. intros n o. unfold write_call. cbn. f_equal. f_equal. rewrite map_flat_map. apply flat_map_ext2. reflexivity. Qed.
Lemma re_body : forall b, map re (write_body A b) = write_body A (renumber_body A f b).
Proof.
  intros [|a|vs|p|n o]; cbn; try reflexivity; [|apply re_call]. f_equal. rewrite map_flat_map, flat_map_map. reflexivity.
Qed.
Lemma re_model : forall n m b, map re (write_model A n m b) = write_model A n m (renumber_body A f b).
Proof. intros n m b. unfold write_model. rewrite !map_app, re_body. reflexivity. Qed.
Lemma re_models : forall m l, map re (write_models A (of_type A m l)) = write_models A (of_type A m (map (fun p => (fst p, (fst (snd p), renumber_body A f (snd (snd p))))) l)).
Proof.
  intros m l. induction l as [|[n [m' b]] l IH]; [reflexivity|]. cbn [of_type map filter fst snd]. destruct (mtype_eqb m' m); [|exact IH].
  unfold write_models in *. cbn [flat_map fst snd]. rewrite map_app, re_model. f_equal. exact IH.
Qed.
Lemma re_equations : forall l, map re (write_equations A l) = write_equations A l.
Proof. intros l. unfold write_equations. rewrite map_flat_map. apply flat_map_ext2. intros p. unfold write_equation. rewrite !map_app, re_call. reflexivity. Qed.
Lemma re_unless : forall X (l : list X) o o', map re o = o' -> map re (unless_empty A l o) = unless_empty A l o'.
Proof. intros X [|x l] o o' E; [reflexivity|exact E]. Qed.
Lemma re_region : forall d n r, map re (write_region A d n r) = write_region A d n (renumber_region A f r).
Proof.
  intros d n r. unfold write_region. rewrite !map_app, !re_models, re_equations. cbn [renumber_region sr_material sr_nodes sr_edges sr_tris sr_tets sr_models sr_equations].
  f_equal. unfold write_nodes. rewrite re_section, re_lines. f_equal. f_equal.
  destruct d as [|[|[|[|d]]]]; try reflexivity; [|apply re_unless..]; (etransitivity; [apply re_section|rewrite re_lines; reflexivity]).
Qed.
Lemma re_contact : forall d n c, map re (write_contact A d n c) = write_contact A d n c.
Proof.
  intros d n c. unfold write_contact. rewrite !map_app, re_equations. f_equal. f_equal.
  destruct d as [|[|[|[|d]]]]; try reflexivity; [|apply re_unless..]; (etransitivity; [apply re_section|rewrite re_lines; reflexivity]).
Qed.
Lemma re_interface : forall d n i, map re (write_interface A d n i) = write_interface A d n i.
Proof.
  intros d n i. unfold write_interface. rewrite !map_app, re_equations. f_equal. f_equal; [|f_equal].
  - destruct (Nat.eqb d 1 || negb (si_provided i))%bool; [rewrite re_section, re_lines; reflexivity|]. unfold if_paired.
    destruct d as [|[|[|[|d]]]]; try reflexivity;
      match goal with |- context [if ?b then _ else _] => destruct b; [rewrite re_section, re_lines; reflexivity|reflexivity] end.
  - rewrite map_flat_map. apply flat_map_ext2. intros p. rewrite re_model. reflexivity.
Qed.
Lemma re_device : forall s, map re (write_device A s) = write_device A (renumber A f s).
Proof.
  intros s. unfold write_device. rewrite !map_app. cbn [renumber sv_name sv_dim sv_coords sv_regions sv_contacts sv_interfaces].
  f_equal. f_equal; [|f_equal; [|f_equal; [|f_equal]]].
  - unfold write_coordinates. rewrite re_section, map_flat_map, flat_map_map. reflexivity.
  - rewrite map_flat_map, flat_map_map. apply flat_map_ext2. intros p. apply re_region.
  - rewrite map_flat_map. apply flat_map_ext2. intros p. apply re_contact.
  - rewrite map_flat_map. apply flat_map_ext2. intros p. apply re_interface.
Qed.
Lemma re_devices : forall l, map re (write_devices A l) = write_devices A (map (renumber A f) l).
Proof. intros l. unfold write_devices. rewrite map_flat_map, flat_map_map. apply flat_map_ext2. apply re_device. Qed.

(* the hypotheses of C57_restart_partial do not depend on the numbers *)
Variable g : A -> A.
Variable run : list (command A) -> command A -> bool.
Lemma commands_renumber : forall s, commands_of A (renumber A g s) = commands_of A s.
Proof.
  intros s. unfold commands_of. cbn [renumber sv_regions sv_contacts sv_interfaces]. f_equal. rewrite flat_map_map. apply flat_map_ext2. intros [n r]. cbn [snd]. unfold region_commands. cbn [renumber_region sr_models sr_equations].
  f_equal. rewrite flat_map_map. apply flat_map_ext2. intros [k [m b]]. cbn [fst snd]. destruct b; reflexivity.
Qed.
Lemma sorted_mapped : forall X Y (h : X -> Y) (l : smap X), sorted l -> sorted (map (fun p => (fst p, h (snd p))) l).
Proof. intros X Y h l S. unfold sorted, keys in *. rewrite map_map. exact S. Qed.
Lemma writable_renumber : forall s d, writable A run s d -> writable A run (renumber A g s) d.
Proof.
  intros s d (SH & WH & PR & CD & SU). split; [|split; [|split; [|split]]].
  - destruct SH as (E & R & C & I). split; [exact E|]. cbn [renumber sv_regions sv_contacts sv_interfaces]. split; [|auto].
    clear - R. induction R as [|[n r] [n' x] l l' [H1 H2] R IH]; [constructor|]. cbn [map fst snd] in *. constructor; [split; [exact H1|exact H2]|exact IH].
  - destruct WH as (H1 & H2 & H3 & H4 & H5 & H6). split; [exact H1|]. cbn [renumber sv_coords sv_interfaces]. split; [destruct (sv_coords A s); [congruence|discriminate]|]. split; [exact H3|].
    rewrite map_length. auto.
  - destruct PR as (H1 & H2 & H3 & H4 & H5 & H6). split; [apply sorted_mapped, H1|]. split; [exact H2|]. split; [exact H3|]. split; [|auto].
    cbn [renumber sv_regions]. apply Forall_map. eapply Forall_impl; [|exact H4]. intros [n r] (P1 & P2 & P3 & P4 & P5 & P6). cbn [fst snd] in *.
    split; [exact P1|]. split; [exact P2|]. split; [exact P3|]. cbn [renumber_region sr_models sr_equations].
    split; [apply (sorted_mapped _ _ (fun v => (fst v, renumber_body A g (snd v)))), P4|]. split; [exact P5|]. apply Forall_map. eapply Forall_impl; [|exact P6]. intros [k [m b]] H. exact H.
  - intros n r k m vs I J. cbn [renumber sv_regions] in I. apply in_map_iff in I. destruct I as ([n' r'] & [= <- <-] & I). cbn [renumber_region sr_models] in J. apply in_map_iff in J. destruct J as ([k' [m' b]] & E & J).
    cbn [fst snd] in E. injection E as <- <- E. destruct b as [|a|us|p|c o]; try discriminate. cbn in E. injection E as <-. rewrite map_length. apply (CD n' r' k' m' us I J).
  - unfold succeed in *. rewrite commands_renumber. exact SU.
Qed.
End Renumber.
