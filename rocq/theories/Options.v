(* Keyword options of the commands: src/pythonapi/GetArgs.cc, src/common_api/GetArgsCommon.cc, the conversions of
   src/pythonapi/ObjectHolder.cc, the checks of src/commands/CheckFunctions.cc, and the dispatch of src/pythonapi/PythonCommands.cc.
   Simplifications: Python objects are the built in ones below; the text of messages is left out; the reading of numbers in
   texts (float(), int()) is a parameter; the exception that PyLong_AsLong leaves pending on overflow is left out. *)
From Coq Require Import String List Bool ZArith.
From Verif Require Import StrMap.
Import ListNotations.
Open Scope string_scope.
Open Scope list_scope.

(* CommandHandler.hh:20-21 *)
Inductive otype := BOOLEAN | STRING | INTEGER | FLOAT | LIST.
(* CheckFunctions.hh *)
Inductive check := Positive | NotEmpty | NoMesh | AMesh | OpenMesh | FinalMesh | ADevice | NoDevice | ARegion | AContact | AnInterface | DeviceIfRegion.
(* CommandHandler.hh:29-36; func: nullptr is None *)
Record option_ := mkopt { o_name : string; o_default : string; o_type : otype; o_required : bool; o_check : option check }.

(* what the checks look at: the meshes (finalized or not), the devices with their regions, contacts and interfaces *)
Record dev := mkdev { v_regions : list string; v_contacts : list string; v_interfaces : list string }.
Record world := mkworld { w_meshes : smap bool; w_devices : smap dev }.

Section M.
Variable F : Type.                          (* double *)
Variables (f0 fmax fmin : F) (fz : Z -> option F) (is0 nonpos : F -> bool).   (* 0.0, +-DBL_MAX, float(int), == 0, <= 0 *)
Inductive obj := PNone | PBool (b : bool) | PInt (z : Z) | PFloat (f : F) | PStr (s : string) | PBytes (s : string) | PList (l : list obj).
Variable repr : obj -> string.              (* str(obj) of what is not a text *)
Variable float_text : string -> option F.   (* float(text) *)
Variable int_text : string -> option Z.     (* PyLong_FromString(text, 10) up to the end of the text *)

(* ObjectHolder.cc:139-156 GetString; b'' is empty, so its str() is used *)
Definition get_string (o : obj) : string :=
  match o with
  | PStr s => s
  | PBytes s => if String.eqb s "" then repr (PBytes "") else s
  | _ => repr o
  end.
(* ObjectHolder.cc:158-186 GetDouble: PyNumber_Float *)
Definition get_double (o : obj) : option F :=
  match o with
  | PFloat f => Some f
  | PInt z => fz z
  | PBool b => fz (if b then 1 else 0)%Z
  | PStr s | PBytes s => float_text s
  | PNone | PList _ => None
  end.
(* ObjectHolder.cc:188-207 GetBoolean: PyObject_IsTrue *)
Definition get_boolean (o : obj) : option bool :=
  Some match o with
       | PNone => false
       | PBool b => b
       | PInt z => negb (Z.eqb z 0)
       | PFloat f => negb (is0 f)
       | PStr s | PBytes s => negb (String.eqb s "")
       | PList l => match l with [] => false | _ => true end
       end.
(* PyLong_AsLong: -1 if it does not fit into 64 bits *)
Definition as_long (z : Z) : Z := if (Z.leb (- 2 ^ 63) z && Z.ltb z (2 ^ 63))%bool then z else (-1)%Z.
(* ObjectHolder.cc:235-268 GetLong: PyLong_CheckExact, so neither True nor a float *)
Definition get_long (o : obj) : option Z :=
  match o with
  | PInt z => Some (as_long z)
  | PStr s => option_map as_long (int_text s)
  | PBytes s => option_map as_long (int_text (get_string o))
  | _ => None
  end.
(* ObjectHolder.cc:210-233 GetInteger: ok is true to begin with *)
Definition get_integer (o : obj) : option Z :=
  match get_long o with
  | Some r => if (Z.leb (- 2 ^ 31) r && Z.leb r (2 ^ 31 - 1))%bool then Some r else None
  | None => Some 0%Z
  end.
(* ObjectHolder.cc:270-284 IsList: PySequence_Check *)
Definition is_list (o : obj) : bool := match o with PStr _ | PBytes _ | PList _ => true | _ => false end.

(* GetArgsCommon.cc:12-20: a later option of the same name replaces the earlier one *)
Definition option_map_ (opts : list option_) : smap option_ := fold_left (fun m o => put (o_name o) o m) opts [].
(* GetArgs.cc:32-103: the loop over the keywords, in the order of their names; None: an error *)
Definition fits (t : otype) (o : obj) : bool :=
  match t with
  | FLOAT => match get_double o with Some _ => true | None => false end
  | BOOLEAN => match get_boolean o with Some _ => true | None => false end
  | INTEGER => match get_integer o with Some _ => true | None => false end
  | LIST => is_list o
  | STRING => true
  end.
Fixpoint select (om : smap option_) (kw : smap obj) (sel : smap obj) : option (smap obj) :=
  match kw with
  | [] => Some sel
  | (n, v) :: t =>
      if String.eqb n "" then select om t sel
      else match find n om with
           | None => None
           | Some o => if has n sel then None
                       else if fits (o_type o) v then select om t (put n v sel) else None
           end
  end.
(* GetArgsCommon.cc:22-45 GetObjectHolder; None: dsAssert *)
Definition get_object (om : smap option_) (sel : smap obj) (n : string) : option obj :=
  match find n sel with
  | Some v => Some v
  | None => match find n om with Some o => Some (PStr (o_default o)) | None => None end
  end.
(* GetArgsCommon.cc:53-57 GetStringOption, 59-83 GetDoubleOption, 85-99 GetBooleanOption, 101-115 GetIntegerOption *)
Definition string_option om sel n : option string := option_map get_string (get_object om sel n).
Definition double_option om sel n : option F :=
  option_map (fun v => match get_double v with
                       | Some f => f
                       | None => if String.eqb (get_string v) "MAXDOUBLE" then fmax
                                 else if String.eqb (get_string v) "-MAXDOUBLE" then fmin else f0
                       end) (get_object om sel n).
Definition boolean_option om sel n : option bool :=
  option_map (fun v => match get_boolean v with Some b => b | None => false end) (get_object om sel n).
Definition integer_option om sel n : option Z :=
  option_map (fun v => match get_integer v with Some z => z | None => 0%Z end) (get_object om sel n).

(* CheckFunctions.cc: the checks. None: dsAssert *)
Definition mem (s : string) (l : list string) : bool := existsb (String.eqb s) l.
Definition obind {A B} (x : option A) (f : A -> option B) : option B := match x with Some a => f a | None => None end.
Definition not_empty om sel n : option bool := option_map (fun s => negb (String.eqb s "")) (string_option om sel n).
(* CheckFunctions.cc:52-170 the mesh: && of stringCannotBeEmpty and f *)
Definition of_mesh om sel n (f : string -> bool) : option bool :=
  option_map (fun s => negb (String.eqb s "") && f s)%bool (string_option om sel n).
(* CheckFunctions.cc:223-300 a part of the device: both texts not empty and known *)
Definition of_device om sel (w : world) n (part : dev -> list string) : option bool :=
  obind (not_empty om sel "device") (fun b => if negb b then Some false else
  obind (not_empty om sel n) (fun b => if negb b then Some false else
  obind (string_option om sel "device") (fun d => obind (string_option om sel n) (fun r =>
  Some match find d (w_devices w) with Some v => mem r (part v) | None => false end)))).
Definition run_check (w : world) (om : smap option_) (sel : smap obj) (n : string) (c : check) : option bool :=
  match c with
  | Positive => option_map (fun f => negb (nonpos f)) (double_option om sel n)                        (* 17-32 *)
  | NotEmpty => not_empty om sel n                                                                    (* 35-49 *)
  | NoMesh => of_mesh om sel n (fun s => negb (has s (w_meshes w)))                                   (* 51-74 *)
  | AMesh => of_mesh om sel n (fun s => has s (w_meshes w))                                           (* 76-99 *)
  | OpenMesh => of_mesh om sel n (fun s => match find s (w_meshes w) with Some b => negb b | None => false end)   (* 101-124 *)
  | FinalMesh => of_mesh om sel n (fun s => match find s (w_meshes w) with Some b => b | None => false end)       (* 126-149 *)
  | ADevice => option_map (fun s => negb (String.eqb s "") && has s (w_devices w))%bool (string_option om sel n)         (* 151-170 *)
  | NoDevice => option_map (fun s => negb (String.eqb s "") && negb (has s (w_devices w)))%bool (string_option om sel n) (* 172-194 *)
  | ARegion => of_device om sel w n v_regions
  | AContact => of_device om sel w n v_contacts
  | AnInterface => of_device om sel w n v_interfaces
  | DeviceIfRegion =>                                                                                 (* 302-316 *)
      obind (string_option om sel n) (fun d => obind (string_option om sel "region") (fun r => Some (negb (String.eqb d "" && negb (String.eqb r ""))%bool)))
  end.
(* GetArgs.cc:127-152: every check is run *)
Fixpoint run_checks (w : world) (om : smap option_) (sel : smap obj) (opts : list option_) : option bool :=
  match opts with
  | [] => Some true
  | o :: t => match o_check o with
              | None => run_checks w om sel t
              | Some c => obind (run_check w om sel (o_name o) c) (fun b => option_map (andb b) (run_checks w om sel t))
              end
  end.
(* GetArgs.cc:18-155 processOptions *)
Inductive processed := Accepted (sel : smap obj) | Refused | Asserted.
Definition process (w : world) (opts : list option_) (kw : smap obj) : processed :=
  let om := option_map_ opts in
  match select om kw [] with
  | None => Refused
  | Some sel =>
      if forallb (fun o => negb (o_required o) || has (o_name o) sel)%bool opts then
        match run_checks w om sel opts with
        | None => Asserted
        | Some true => Accepted sel
        | Some false => Refused
        end
      else Refused
  end.

(* a command (e.g. MeshingCommands.cc:70-85): the options are processed, on an error the command does nothing *)
Section Dispatch.
Variables (St A : Type).
(* what the body of a command does: it sets a result, an error, or throws (dsException, bad_alloc, exception); each with the state it leaves and
   whether a floating point exception flag is up at the end *)
Inductive body := Returned (a : A) | ErrorResult | Threw.
Record outcome := mkout { out_body : body; out_state : St; out_fpe : bool }.
Inductive answer := Value (a : A) | Raised.
(* PythonCommands.cc:54-167 CmdDispatch; FPE flags are cleared first *)
Definition dispatch (w : world) (opts : list option_) (f : smap obj -> outcome) (s : St) (nargs : nat) (kw : smap obj) : answer * St :=
  match nargs with
  | S _ => (Raised, s)
  | O => match process w opts kw with
         | Accepted sel => let r := f sel in
                           (match out_body r with Returned a => if out_fpe r then Raised else Value a | _ => Raised end, out_state r)
         | _ => (Raised, s)
         end
  end.
End Dispatch.
End M.
Arguments PNone {F}. Arguments PBool {F}. Arguments PInt {F}. Arguments PFloat {F}. Arguments PStr {F}. Arguments PBytes {F}. Arguments PList {F}.
Arguments Accepted {F}. Arguments Refused {F}. Arguments Asserted {F}.
Arguments Returned {A}. Arguments ErrorResult {A}. Arguments Threw {A}. Arguments Value {A}. Arguments Raised {A}.
