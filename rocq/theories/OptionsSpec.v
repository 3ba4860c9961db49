(* What a user expects of keyword options (C42), independent of the functions of Options.v (its data types are used). *)
From Coq Require Import String List Bool ZArith.
From Verif Require Import StrMap Options.
Import ListNotations.
Open Scope string_scope.
Open Scope list_scope.

Section S.
Variable F : Type.
Variables (f0 fmax fmin : F) (fz : Z -> option F) (nonpos : F -> Prop).
Variable repr : obj F -> string.
Variable float_text : string -> option F.
Variable int_text : string -> option Z.
Notation obj := (obj F).

(* the text of a Python object *)
Inductive text : obj -> string -> Prop :=
| text_str : forall s, text (PStr s) s
| text_bytes : forall s, s <> "" -> text (PBytes s) s
| text_no_bytes : text (PBytes "") (repr (PBytes ""))
| text_other : forall o, (forall s, o <> PStr s) -> (forall s, o <> PBytes s) -> text o (repr o).
(* the number float(o) *)
Inductive number : obj -> F -> Prop :=
| num_float : forall f, number (PFloat f) f
| num_int : forall z f, fz z = Some f -> number (PInt z) f
| num_true : forall f, fz 1%Z = Some f -> number (PBool true) f
| num_false : forall f, fz 0%Z = Some f -> number (PBool false) f
| num_str : forall s f, float_text s = Some f -> number (PStr s) f
| num_bytes : forall s f, float_text s = Some f -> number (PBytes s) f.
(* an integer, or the text of one *)
Inductive integer : obj -> Z -> Prop :=
| int_int : forall z, integer (PInt z) z
| int_str : forall s z, int_text s = Some z -> integer (PStr s) z
| int_bytes : forall s t z, text (PBytes s) t -> int_text t = Some z -> integer (PBytes s) z.
Definition is_sequence (o : obj) : Prop := match o with PStr _ | PBytes _ | PList _ => True | _ => False end.
Definition is_int32 (z : Z) : Prop := (- 2 ^ 31 <= z < 2 ^ 31)%Z.
Definition is_int64 (z : Z) : Prop := (- 2 ^ 63 <= z < 2 ^ 63)%Z.

(* the value can be taken for an option of this type: what is expected *)
Definition suits (t : otype) (o : obj) : Prop :=
  match t with
  | FLOAT => exists f, number o f
  | INTEGER => exists z, integer o z /\ is_int32 z
  | LIST => is_sequence o
  | BOOLEAN | STRING => True
  end.

Variable w : world.
Variable opts : list option_.
Variable kw : smap obj.
(* the keyword is given *)
Definition given (n : string) : Prop := exists v, In (n, v) kw /\ n <> "".
(* the value an option has: the one given, otherwise the text of the default *)
Inductive has_value (n : string) : obj -> Prop :=
| hv_given : forall v, In (n, v) kw -> n <> "" -> has_value n v
| hv_default : forall o, In o opts -> o_name o = n -> ~ given n -> has_value n (PStr (o_default o)).
Definition text_of (n s : string) : Prop := exists v, has_value n v /\ text v s.
(* the number an option has: also the texts MAXDOUBLE and -MAXDOUBLE; 0 for what is no number *)
Inductive number_of (n : string) : F -> Prop :=
| no_number : forall v f, has_value n v -> number v f -> number_of n f
| no_max : forall v, has_value n v -> (forall f, ~ number v f) -> text v "MAXDOUBLE" -> number_of n fmax
| no_min : forall v, has_value n v -> (forall f, ~ number v f) -> text v "-MAXDOUBLE" -> number_of n fmin
| no_zero : forall v s, has_value n v -> (forall f, ~ number v f) -> text v s -> s <> "MAXDOUBLE" -> s <> "-MAXDOUBLE" -> number_of n f0.

Definition a_part (part : dev -> list string) (n : string) : Prop :=
  exists d r v, text_of "device" d /\ text_of n r /\ d <> "" /\ r <> "" /\ find d (w_devices w) = Some v /\ In r (part v).
(* what each check asks for *)
Definition holds (n : string) (c : check) : Prop :=
  match c with
  | Positive => exists f, number_of n f /\ ~ nonpos f
  | NotEmpty => exists s, text_of n s /\ s <> ""
  | NoMesh => exists s, text_of n s /\ s <> "" /\ find s (w_meshes w) = None
  | AMesh => exists s b, text_of n s /\ s <> "" /\ find s (w_meshes w) = Some b
  | OpenMesh => exists s, text_of n s /\ s <> "" /\ find s (w_meshes w) = Some false
  | FinalMesh => exists s, text_of n s /\ s <> "" /\ find s (w_meshes w) = Some true
  | ADevice => exists s v, text_of n s /\ s <> "" /\ find s (w_devices w) = Some v
  | NoDevice => exists s, text_of n s /\ s <> "" /\ find s (w_devices w) = None
  | ARegion => a_part v_regions n
  | AContact => a_part v_contacts n
  | AnInterface => a_part v_interfaces n
  | DeviceIfRegion => exists d r, text_of n d /\ text_of "region" r /\ (r <> "" -> d <> "")
  end.

(* the call is in order *)
Definition known : Prop := forall n v, In (n, v) kw -> n <> "" -> exists o, In o opts /\ o_name o = n.
Definition typed (ok : otype -> obj -> Prop) : Prop := forall o v, In o opts -> In (o_name o, v) kw -> ok (o_type o) v.
Definition complete : Prop := forall o, In o opts -> o_required o = true -> given (o_name o).
Definition checked : Prop := forall o c, In o opts -> o_check o = Some c -> holds (o_name o) c.
Definition in_order (ok : otype -> obj -> Prop) : Prop := known /\ typed ok /\ complete /\ checked.

(* the tables of the commands: names that differ and are not empty; a check looks only at options of the table *)
Definition needs (c : check) : list string :=
  match c with ARegion | AContact | AnInterface => ["device"] | DeviceIfRegion => ["region"] | _ => [] end.
Definition good_table : Prop :=
  NoDup (map o_name opts) /\ ~ In "" (map o_name opts) /\
  forall o c, In o opts -> o_check o = Some c -> forall n, In n (needs c) -> In n (map o_name opts).
End S.
