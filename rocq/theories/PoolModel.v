(** * Model of the worker pool of generateBookFromArticles, src/main.go:334-396

    One step of the system is one step of the main routine or of one worker.  Simplifications:
    - The number of worker threads is positive (validated in src/config/config.go:727-729).
    - The work on one article (processArticle) is one relation [process] between article name and output file; it may take
      arbitrarily long, but ends.  A fatal error ends the whole program and is left out.
    - Log output is left out. *)

From Coq Require Import Ascii String.
From Coq Require Import List Arith Bool.
From Verif Require Import GoStr.
Import ListNotations.
Local Open Scope list_scope.

(** State of a worker, main.go:366-386: waiting for an article, working on one, or ended *)
Inductive worker :=
| Waiting
| Working (articleName : str)
| Ended.

Record pool := mkPool {
  to_send : list str;          (* articles not yet passed to the channel, main.go:389-392 *)
  closed : bool;               (* close(articleChan) has been called, main.go:393 *)
  queue : list str;            (* content of articleChan *)
  workers : list worker;
  outputs : list str           (* articleOutputFiles, main.go:343 *)
}.

(** The loop in main.go:370-375 *)
Fixpoint articleNumber (articles : list str) (articleName : str) : nat :=
  match articles with
  | [] => 0
  | a :: articles' => if str_eqb articleName a then 0 else S (articleNumber articles' articleName)
  end.

(** l[n] = x *)
Fixpoint set_nth {A} (n : nat) (x : A) (l : list A) : list A :=
  match l, n with
  | [], _ => []
  | _ :: l', O => x :: l'
  | y :: l', S n' => y :: set_nth n' x l'
  end.

Section Pool.
  Variable articles : list str.                 (* project.Articles *)
  Variable WorkerThreads : nat.
  Variable process : str -> str -> Prop.

  (** main.go:342-387: the pool directly after starting the workers *)
  Definition pool_start : pool :=
    mkPool articles false [] (repeat Waiting WorkerThreads) (repeat [] (List.length articles)).

  Inductive pool_step : pool -> pool -> Prop :=
  | step_send : forall a rest q ws out,               (* main.go:391; the channel has a buffer of WorkerThreads *)
      List.length q < WorkerThreads ->
      pool_step (mkPool (a :: rest) false q ws out) (mkPool rest false (q ++ [a]) ws out)
  | step_close : forall q ws out,                     (* main.go:393 *)
      pool_step (mkPool [] false q ws out) (mkPool [] true q ws out)
  | step_receive : forall i a rest c q ws out,        (* main.go:367 *)
      nth_error ws i = Some Waiting ->
      pool_step (mkPool rest c (a :: q) ws out) (mkPool rest c q (set_nth i (Working a) ws) out)
  | step_finish : forall i a r rest c q ws out,       (* main.go:370-378 *)
      nth_error ws i = Some (Working a) -> process a r ->
      pool_step (mkPool rest c q ws out)
                (mkPool rest c q (set_nth i Waiting ws) (set_nth (articleNumber articles a) r out))
  | step_end : forall i rest ws out,                  (* main.go:367, 383 *)
      nth_error ws i = Some Waiting ->
      pool_step (mkPool rest true [] ws out) (mkPool rest true [] (set_nth i Ended ws) out).

  (** main.go:397: the wait group is zero when all workers have ended *)
  Definition pool_finished (s : pool) : Prop := closed s = true /\ Forall (eq Ended) (workers s).
End Pool.
