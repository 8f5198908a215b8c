(** * Specification vocabulary for the cache properties *)

From Coq Require Import Ascii String.
From Coq Require Import List ZArith Bool.
From Verif Require Import GoStr UtilModel CacheModel.
Import ListNotations.
Local Open Scope list_scope.

(** Each path names at most one file. *)
Definition wf (w : world) : Prop := NoDup (map f_path (files w)).

(** The cached files are those outside of .tmp. *)
Definition cached (w : world) : list file := filter (fun f => negb (in_tmp (f_path f))) (files w).

(** Number of bytes in the cache *)
Definition cache_size (w : world) : Z := total_size (cached w).

(** Operations on the cache *)
Inductive cache_op :=
| OpGet (folder filename : str)
| OpPut (folder filename : str) (chunks : list str) (readOk : bool) (fuel : nat).

(** Histories: each operation runs for some number of system calls, which may fail, and ends or crashes there; a
    new start of wiki2book deletes the temporary files.  The list contains the operations, latest first. *)
Inductive history (cfg : cache_config) (w0 : world) : list cache_op -> world -> Prop :=
| hist_start : history cfg w0 [] w0
| hist_get : forall ops w folder filename p' w',
    history cfg w0 ops w -> In folder cache_folders ->
    steps true (GetFile cfg folder filename) w p' w' -> history cfg w0 (OpGet folder filename :: ops) w'
| hist_put : forall ops w folder filename chunks readOk fuel p' w',
    history cfg w0 ops w -> In folder cache_folders ->
    steps true (CacheToFile cfg fuel folder filename chunks readOk) w p' w' ->
    history cfg w0 (OpPut folder filename chunks readOk fuel :: ops) w'
| hist_restart : forall ops w w',
    history cfg w0 ops w -> files w' = cached w -> (clock w <= clock w')%Z -> history cfg w0 ops w'.

(** All bytes delivered by the reader *)
Definition all_data (chunks : list str) : str := concat chunks.

(** [p] ends with result [r] in [w'] *)
Definition ends {A} (faulty : bool) (p : prog A) (w : world) (r : A) (w' : world) : Prop :=
  steps faulty p w (Ret r) w'.

(** Number of bytes in .tmp *)
Definition temp_size (w : world) : Z := total_size (filter (fun f => in_tmp (f_path f)) (files w)).

(** Number of bytes in the cache, apart from the file at [p] *)
Definition other_size (w : world) (p : path) : Z :=
  total_size (filter (fun f => if path_eq_dec (f_path f) p then false else true) (cached w)).

(** Has the cached file [e] of [w] no successor in [w']? *)
Definition evicted (w w' : world) (e : file) : Prop := In e (cached w) /\ content w' (f_path e) = None.

(** [e] has to be evicted before [k]. *)
Definition evict_before (s : strategy) (e k : file) : Prop :=
  match s with
  | StrategyLargest => (f_size k <= f_size e)%Z
  | StrategyLru => (f_mtime e <= f_mtime k)%Z
  | StrategyNone => False
  end.
