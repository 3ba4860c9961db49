(* Model of the threaded evaluation of vector operations:
   /repo/src/models/ParallelOpEqual.cc (OpEqualRun) and
   /repo/src/MathEval/MathPacket.cc (MathPacketRun, same scheduling code), with
   the floating point exception bookkeeping of /repo/src/utility/FPECheck.cc.
   size_t is Z with explicit wrap modulo 2^64.
   Simplifications: the FPE bit mask is one bit ("some trapped exception"); the
   unsynchronised accesses of the static FPECheck::fpe_raised_ by the workers (a
   data race) are modelled as atomic; vectors are memory cells indexed by Z, so
   that writes outside of the vector would be visible. *)
From Coq Require Import ZArith List Bool.
Import ListNotations.
Open Scope Z_scope.

Definition wrap (x : Z) : Z := x mod 2 ^ 64.

(* ParallelOpEqual.cc:73-87, MathPacket.cc:87-101: the loop that creates the
   chunks [b,e).  None: out of fuel. *)
Fixpoint sched (fuel : nat) (vlen step b e : Z) : option (list (Z * Z)) :=
  match fuel with
  | O => None
  | S k =>
    if b <? e then
      let e1 := wrap (e + step) in
      let e2 := if wrap (vlen - 2) <? e1 then vlen else e1 in
      match sched k vlen step e e2 with
      | Some l => Some ((b, e) :: l)
      | None => None
      end
    else Some []
  end.

(* ParallelOpEqual.cc:70-72 *)
Definition chunks (fuel : nat) (threads vlen : Z) : option (list (Z * Z)) :=
  let step := vlen / threads in
  sched fuel vlen step 0 (if step =? 0 then vlen else step).

(* ParallelOpEqual.cc:61: are worker threads used? *)
Definition threaded (threads task_size vlen : Z) : bool :=
  (1 <? threads) && (task_size <? vlen).

(* [b, b+1, ..., e-1] *)
Definition range (b e : Z) : list Z := map (fun k => b + Z.of_nat k) (seq 0 (Z.to_nat (e - b))).

Section Exec.
  Variable V : Type.
  Variable f : Z -> V -> V.       (* new value of cell i from the old one (and the operands) *)
  Variable exc : Z -> V -> bool.  (* does computing it raise a floating point exception? *)
  Variable manual : Z -> V -> bool. (* does it call FPECheck::raiseFPE itself (log, exp)? *)

  Inductive action :=
  | AClear               (* MathPacket.cc:58-62: ClearFPE in the worker *)
  | AElem (i : Z)        (* compute element i *)
  | ARead.               (* MathPacket.cc:64: fpeFlag_ = getFPEFlags() *)

  (* ParallelOpEqual.cc:41-51, MathPacket.cc:56-66; ParallelOpEqual.hh task loops *)
  Definition worker (c : Z * Z) : list action :=
    AClear :: map AElem (range (fst c) (snd c)) ++ [ARead].

  Record st := {
    mem : Z -> V;
    hw : nat -> bool;       (* floating point status word of each worker thread *)
    shared : bool;          (* FPECheck::fpe_raised_ *)
    pflag : nat -> bool     (* packet->fpeFlag_ *)
  }.

  Definition setZ {B} (m : Z -> B) (i : Z) (b : B) : Z -> B := fun j => if j =? i then b else m j.
  Definition setN {B} (m : nat -> B) (i : nat) (b : B) : nat -> B :=
    fun j => if Nat.eqb j i then b else m j.

  (* one atomic action of thread k; FPECheck.cc:62-66, 73-76, 177-196 *)
  Definition act (s : st) (ka : nat * action) : st :=
    let (k, a) := ka in
    match a with
    | AClear => {| mem := mem s; hw := setN (hw s) k false; shared := false; pflag := pflag s |}
    | AElem i => {| mem := setZ (mem s) i (f i (mem s i));
                    hw := setN (hw s) k (hw s k || exc i (mem s i) || manual i (mem s i));
                    shared := shared s || manual i (mem s i);
                    pflag := pflag s |}
    | ARead => {| mem := mem s; hw := hw s; shared := shared s;
                  pflag := setN (pflag s) k (hw s k || shared s) |}
    end.

  Definition run (tr : list (nat * action)) (s : st) : st := fold_left act tr s.

  (* the actions of thread k in a trace *)
  Definition proj (k : nat) (tr : list (nat * action)) : list action :=
    map snd (filter (fun x => Nat.eqb (fst x) k) tr).

  (* tr is an interleaving of the programs ws of the threads 0 .. length ws - 1 *)
  Definition interleaving (ws : list (list action)) (tr : list (nat * action)) : Prop :=
    (forall x, In x tr -> (fst x < length ws)%nat) /\
    forall k, (k < length ws)%nat -> proj k tr = nth k ws [].

  (* status of the calling thread: its own status word and fpe_raised_ *)
  Record main_st := { mmem : Z -> V; mhw : bool; mshared : bool }.

  (* ParallelOpEqual.cc:90-106, MathPacket.cc:103-120: after all futures are
     done the flags are joined and raised in the calling thread *)
  Definition finish (nw : nat) (m : main_st) (s : st) : main_st :=
    let flag := existsb (pflag s) (seq 0 nw) in
    {| mmem := mem s; mhw := mhw m || flag; mshared := shared s || flag |}.

  (* outcome of the threaded run for one interleaving; the initial status words
     and packet flags of the workers are arbitrary *)
  Definition threaded_result (ws : list (Z * Z)) (tr : list (nat * action))
      (hw0 pf0 : nat -> bool) (m : main_st) : main_st :=
    finish (length ws) m
      (run tr {| mem := mmem m; hw := hw0; shared := mshared m; pflag := pf0 |}).

  (* ParallelOpEqual.cc:111, MathPacket.cc:125: serial evaluation *)
  Definition serial_elem (m : main_st) (i : Z) : main_st :=
    {| mmem := setZ (mmem m) i (f i (mmem m i));
       mhw := mhw m || exc i (mmem m i) || manual i (mmem m i);
       mshared := mshared m || manual i (mmem m i) |}.
  Definition serial_result (vlen : Z) (m : main_st) : main_st :=
    fold_left serial_elem (range 0 vlen) m.

  (* ParallelOpEqual.cc:56-113, MathPacket.cc:70-129: the possible outcomes of a
     run over vlen elements with the settings threads_available and
     threads_task_size *)
  Inductive outcome (threads task_size vlen : Z) (m : main_st) : main_st -> Prop :=
  | out_serial : threaded threads task_size vlen = false ->
      outcome threads task_size vlen m (serial_result vlen m)
  | out_threaded fuel cs tr hw0 pf0 : threaded threads task_size vlen = true ->
      chunks fuel threads vlen = Some cs -> interleaving (map worker cs) tr ->
      outcome threads task_size vlen m (threaded_result cs tr hw0 pf0 m).

  (* FPECheck::CheckFPE() *)
  Definition check_fpe (m : main_st) : bool := mhw m || mshared m.
End Exec.
