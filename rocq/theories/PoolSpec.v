(** * Specification vocabulary for the worker pool *)

From Coq Require Import List Arith.
Import ListNotations.

(** Executions of [n] steps *)
Inductive nsteps {A} (R : A -> A -> Prop) : nat -> A -> A -> Prop :=
| nsteps_0 : forall s, nsteps R 0 s s
| nsteps_S : forall n s s' s'', R s s' -> nsteps R n s' s'' -> nsteps R (S n) s s''.

(** [k] is the first position of its element *)
Definition first_occurrence {A} (l : list A) (k : nat) : Prop :=
  forall j, j < k -> nth_error l j <> nth_error l k.
