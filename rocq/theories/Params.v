(* The parameter database: src/Data/GlobalData.cc and the commands set_parameter,
   get_parameter, get_parameter_list of src/commands/MaterialCommands.cc.
   W is the type of stored values (ObjectHolder.hh: any Python object). *)
From Coq Require Import String List Bool.
From Verif Require Import StrMap.
Import ListNotations.
Open Scope string_scope.
Open Scope list_scope.

Section P.
Variable W : Type.

(* GlobalData.hh:95-103 (globalData, deviceData, regionData) *)
Record gdata := mkG { g_global : smap W; g_dev : smap (smap W); g_reg : smap (smap (smap W)) }.

(* m[k1][k2] = v on a map of maps: operator[] creates an empty map when absent *)
Definition sub {A} (k : string) (m : smap (smap A)) : smap A := match find k m with Some x => x | None => [] end.
Definition put2 {A} (k1 k2 : string) (v : A) (m : smap (smap A)) : smap (smap A) := put k1 (put k2 v (sub k1 m)) m.

(* GlobalData.cc:186-196 GetDBEntryOnGlobal *)
Definition get_global (g : gdata) (n : string) : option W := find n (g_global g).
(* GlobalData.cc:122-145 GetDBEntryOnDevice *)
Definition get_device (g : gdata) (d n : string) : option W :=
  match find d (g_dev g) with
  | Some m => match find n m with Some v => Some v | None => get_global g n end
  | None => get_global g n
  end.
(* GlobalData.cc:147-177 GetDBEntryOnRegion *)
Definition get_region (g : gdata) (d r n : string) : option W :=
  let own := match find d (g_reg g) with
             | Some m => match find r m with Some m' => find n m' | None => None end
             | None => None
             end in
  match own with
  | Some v => Some v
  | None => match get_device g d n with Some v => Some v | None => get_global g n end
  end.

(* The devices and the names of their regions (deviceList and Device::GetRegionList, both std::map). *)
Definition devices (R : Type) := smap (smap R).

(* GlobalData.cc:297-334 SignalCallbacksOnDevice: the regions whose SignalCallbacks(name) is invoked, in order. *)
Definition region_shadows (g : gdata) (d r n : string) : bool :=
  match find d (g_reg g) with
  | Some m => match find r m with Some m' => has n m' | None => false end
  | None => false
  end.
Definition signal_device {R} (g : gdata) (devs : devices R) (d n : string) : list (string * string) :=
  match find d devs with
  | Some rs => map (fun r => (d, r)) (filter (fun r => negb (region_shadows g d r n)) (keys rs))
  | None => []
  end.
(* GlobalData.cc:272-295 SignalCallbacksOnGlobal *)
Definition device_shadows (g : gdata) (d n : string) : bool :=
  match find d (g_dev g) with Some m => has n m | None => false end.
Definition signal_global {R} (g : gdata) (devs : devices R) (n : string) : list (string * string) :=
  flat_map (fun d => if device_shadows g d n then [] else signal_device g devs d n) (keys devs).
(* GlobalData.cc:336-349 SignalCallbacksOnRegion *)
Definition signal_region {R} (devs : devices R) (d r : string) : list (string * string) :=
  match find d devs with Some rs => if has r rs then [(d, r)] else [] | None => [] end.

(* GlobalData.cc:95-120 AddDBEntryOnDevice, AddDBEntryOnRegion, AddDBEntryOnGlobal:
   the store first, then the callbacks. *)
Definition add_global {R} (g : gdata) (devs : devices R) (n : string) (v : W) : gdata * list (string * string) :=
  let g' := mkG (put n v (g_global g)) (g_dev g) (g_reg g) in (g', signal_global g' devs n).
Definition add_device {R} (g : gdata) (devs : devices R) (d n : string) (v : W) : gdata * list (string * string) :=
  let g' := mkG (g_global g) (put2 d n v (g_dev g)) (g_reg g) in (g', signal_device g' devs d n).
Definition add_region {R} (g : gdata) (devs : devices R) (d r n : string) (v : W) : gdata * list (string * string) :=
  let g' := mkG (g_global g) (g_dev g) (put d (put2 r n v (sub d (g_reg g))) (g_reg g)) in (g', signal_region devs d r).

Definition empty (s : string) : bool := String.eqb s "".
(* MaterialCommands.cc:135-165: a region needs a device and both must exist (Validate.cc ValidateDeviceAndRegion,
   ValidateDevice); the empty string is the default of both options.  name must not be empty (stringCannotBeEmpty). *)
Definition valid_scope {R} (devs : devices R) (d r : string) : bool :=
  if empty r then (if empty d then true else has d devs)
  else if empty d then false
       else match find d devs with Some rs => has r rs | None => false end.
(* MaterialCommands.cc:226-248 set_parameter: None when the command reports an error *)
Definition set_parameter {R} (g : gdata) (devs : devices R) (d r n : string) (v : W) : option (gdata * list (string * string)) :=
  if empty n then None else if negb (valid_scope devs d r) then None else
  Some (if empty d then add_global g devs n v
        else if empty r then add_device g devs d n v else add_region g devs d r n v).
(* MaterialCommands.cc:171-206 get_parameter *)
Definition get_parameter {R} (g : gdata) (devs : devices R) (d r n : string) : option W :=
  if empty n then None else if negb (valid_scope devs d r) then None else
  if empty d then get_global g n else if empty r then get_device g d n else get_region g d r n.
(* MaterialCommands.cc:207-224 get_parameter_list; GlobalData.cc:226-270 GetDBEntryListOn* *)
Definition get_parameter_list {R} (g : gdata) (devs : devices R) (d r : string) : option (list string) :=
  if negb (valid_scope devs d r) then None else
  Some (if empty r then (if empty d then keys (g_global g) else keys (sub d (g_dev g)))
        else keys (sub r (sub d (g_reg g)))).
(* GlobalData.cc:69-92 DeleteDevice *)
Definition delete_device {R} (g : gdata) (devs : devices R) (d : string) : gdata * devices R :=
  (mkG (g_global g) (erase d (g_dev g)) (erase d (g_reg g)), erase d devs).
(* GlobalData.cc:50-56 AddDevice: asserts the name is new *)
Definition new_device {R} (devs : devices R) (d : string) (rs : smap R) : option (devices R) :=
  if has d devs then None else Some (put d rs devs).
End P.
Arguments mkG {W}. Arguments g_global {W}. Arguments g_dev {W}. Arguments g_reg {W}.
