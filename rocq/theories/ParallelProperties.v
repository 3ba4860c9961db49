(* C07: threaded evaluation.  [outcome threads task_size vlen m m']: starting
   from calling-thread state m, some scheduling of the workers ends in m'.
   State of the caller: memory cells, floating point status (mhw) and the
   static fpe_raised_ (mshared; never set without mhw, which is preserved). *)
From Coq Require Import ZArith List Bool Lia.
From Verif Require Import Parallel ParallelProofs.
Import ListNotations.
Open Scope Z_scope.

(* every scheduling computes each cell 0..vlen-1 exactly once, changes no other
   cell, and a floating point exception is pending afterwards iff one was pending
   before or some element raised one *)
Theorem C07_threaded_evaluation : forall (V : Type) (f : Z -> V -> V) exc manual
    threads task_size vlen m m',
  0 <= task_size -> 0 <= vlen < 2 ^ 63 ->
  (mshared V m = true -> mhw V m = true) ->
  outcome V f exc manual threads task_size vlen m m' ->
  (forall i, mmem V m' i = if (0 <=? i) && (i <? vlen) then f i (mmem V m i) else mmem V m i) /\
  (check_fpe V m' = true <->
    check_fpe V m = true \/ exists i, 0 <= i < vlen /\ (exc i (mmem V m i) = true \/ manual i (mmem V m i) = true)) /\
  (mshared V m' = true -> mhw V m' = true).
Proof. exact outcome_lemma. Qed.
Print Assumptions C07_threaded_evaluation.

(* there is an outcome: the chunk loop terminates and the workers can run *)
Theorem C07_terminates : forall (V : Type) (f : Z -> V -> V) exc manual threads task_size vlen m,
  0 <= task_size -> 0 <= vlen < 2 ^ 63 ->
  exists m', outcome V f exc manual threads task_size vlen m m'.
Proof. exact outcome_exists. Qed.
Print Assumptions C07_terminates.

(* the chunks are consecutive, nonempty and cover exactly the vector *)
Theorem C07_chunks_partition : forall threads vlen, 1 < threads -> 1 <= vlen < 2 ^ 63 ->
  exists l, (forall fuel, (S (Z.to_nat vlen) <= fuel)%nat -> chunks fuel threads vlen = Some l) /\ tiles 0 l vlen.
Proof. exact chunks_tiles. Qed.
Print Assumptions C07_chunks_partition.

(* number of worker threads started: fewer than twice threads_available ... *)
Theorem C07_thread_count_partial : forall fuel threads vlen l, 1 < threads -> 1 <= vlen < 2 ^ 63 ->
  chunks fuel threads vlen = Some l -> Z.of_nat (length l) < 2 * threads.
Proof. exact chunks_count. Qed.
Print Assumptions C07_thread_count_partial.

(* ... but threads_available is not an upper bound *)
Theorem C07_thread_count_refuted : exists threads vlen l, 1 < threads /\
  chunks 10 threads vlen = Some l /\ threads < Z.of_nat (length l).
Proof.
  exists 4, 7, [(0,1); (1,2); (2,3); (3,4); (4,5); (5,7)].
  split; [lia|]. split; [vm_compute; reflexivity|]. cbn. lia.
Qed.
Print Assumptions C07_thread_count_refuted.

(* a genuinely interleaved trace of two workers *)
Example C07_ex :
  chunks 10 2 4 = Some [(0, 2); (2, 4)] /\
  interleaving (map worker [(0, 2); (2, 4)])
    [(1%nat, AClear); (1%nat, AElem 2); (0%nat, AClear); (0%nat, AElem 0); (1%nat, AElem 3);
     (1%nat, ARead); (0%nat, AElem 1); (0%nat, ARead)] /\
  threaded 2 1 4 = true.
Proof.
  split; [vm_compute; reflexivity|]. split; [|reflexivity]. split.
  - intros x H. repeat (destruct H as [<-|H]; [cbn; lia|]). destruct H.
  - intros k Hk. destruct k as [|[|k]]; [reflexivity|reflexivity|cbn in Hk; lia].
Qed.
