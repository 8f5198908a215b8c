(** * C44: the worker pool *)

From Coq Require Import Ascii String.
From Coq Require Import List Arith Bool Lia.
From Verif Require Import GoStr PoolModel PoolSpec PoolProofs.
Import ListNotations.
Local Open Scope list_scope.

(** Every schedule ends: no execution has more steps than this bound. *)
Theorem C44_every_schedule_ends : forall articles threads process n s,
  nsteps (pool_step articles threads process) n (pool_start articles threads) s ->
  n <= 4 * List.length articles + 1 + threads.
Proof. exact pool_bounded. Qed.
Print Assumptions C44_every_schedule_ends.

(** No schedule gets stuck before all workers have ended. *)
Theorem C44_no_deadlock : forall articles threads process n s,
  1 <= threads -> (forall a, In a articles -> exists r, process a r) ->
  nsteps (pool_step articles threads process) n (pool_start articles threads) s ->
  pool_finished s \/ exists s', pool_step articles threads process s s'.
Proof. exact pool_progress. Qed.
Print Assumptions C44_no_deadlock.

(** For lists without duplicates, every schedule ends with the result of the k-th article at position k, and with exactly
    one chapter per article. *)
Theorem C44_project_order_partial : forall articles threads process n s,
  1 <= threads -> NoDup articles ->
  nsteps (pool_step articles threads process) n (pool_start articles threads) s -> pool_finished s ->
  Forall2 process articles (outputs s).
Proof. exact pool_order. Qed.
Print Assumptions C44_project_order_partial.

(** An article that occurs a second time is worked on again, but its second chapter is always empty.  Since the book is
    generated from all the chapter files, the claim is false for project files with duplicates. *)
Theorem C44_duplicates_refuted : forall articles threads process n s k a,
  1 <= threads ->
  nsteps (pool_step articles threads process) n (pool_start articles threads) s -> pool_finished s ->
  nth_error articles k = Some a -> (exists j, j < k /\ nth_error articles j = Some a) ->
  nth_error (outputs s) k = Some [].
Proof. exact pool_duplicate. Qed.
Print Assumptions C44_duplicates_refuted.

(** Two workers; the second article is finished first *)
Example C44_example : exists s,
  nsteps (pool_step [!"A"; !"B"] 2 (fun a r => r = a ++ !".html")) 9 (pool_start [!"A"; !"B"] 2) s /\
  pool_finished s /\ outputs s = [!"A.html"; !"B.html"].
Proof.
  eexists. split.
  - eapply nsteps_S. { apply step_send. cbn. lia. } cbn [app].
    eapply nsteps_S. { apply step_send. cbn. lia. } cbn [app].
    eapply nsteps_S. { eapply (step_receive _ _ _ 1). reflexivity. } cbn.
    eapply nsteps_S. { eapply (step_receive _ _ _ 0). reflexivity. } cbn.
    eapply nsteps_S. { eapply step_close. }
    eapply nsteps_S. { eapply (step_finish _ _ _ 0). reflexivity. reflexivity. } cbn.
    eapply nsteps_S. { eapply (step_finish _ _ _ 1). reflexivity. reflexivity. } cbn.
    eapply nsteps_S. { eapply (step_end _ _ _ 0). reflexivity. } cbn.
    eapply nsteps_S. { eapply (step_end _ _ _ 1). reflexivity. } cbn.
    apply nsteps_0.
  - split; [|reflexivity]. split; [reflexivity|]. repeat constructor.
Qed.

(** A project with the same article twice *)
Example C44_duplicates_example : exists s,
  nsteps (pool_step [!"A"; !"A"] 1 (fun a r => r = a ++ !".html")) 8 (pool_start [!"A"; !"A"] 1) s /\
  pool_finished s /\ outputs s = [!"A.html"; []].
Proof.
  eexists. split.
  - eapply nsteps_S. { apply step_send. cbn. lia. } cbn [app].
    eapply nsteps_S. { eapply (step_receive _ _ _ 0). reflexivity. } cbn.
    eapply nsteps_S. { apply step_send. cbn. lia. } cbn [app].
    eapply nsteps_S. { eapply step_close. }
    eapply nsteps_S. { eapply (step_finish _ _ _ 0). reflexivity. reflexivity. } cbn.
    eapply nsteps_S. { eapply (step_receive _ _ _ 0). reflexivity. } cbn.
    eapply nsteps_S. { eapply (step_finish _ _ _ 0). reflexivity. reflexivity. } cbn.
    eapply nsteps_S. { eapply (step_end _ _ _ 0). reflexivity. } cbn.
    apply nsteps_0.
  - split; [|reflexivity]. split; [reflexivity|]. repeat constructor.
Qed.
