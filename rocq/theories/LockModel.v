(** * Model of the lock of src/cache/cache.go: workers whose system calls are mixed

    In ServiceModel.v a worker does a whole call of cache.GetFile or cache.CacheToFile at a time.  Here a worker does a single system call at a time.  The only
    thing that keeps workers apart is cacheWriteMutex (src/cache/cache.go 28): cache.CacheToFile (57-58) and cache.GetFile (209-210) wait until no other worker
    is within one of them.  All other system calls (reading files, requests, waiting, converting and changing images) take place at any time, also while another
    worker is within these functions.  The jobs and their programs are those of ServiceModel.v. *)

From Coq Require Import Ascii String.
From Coq Require Import List ZArith Bool.
From Verif Require Import GoStr UtilModel CacheModel CacheSpec HttpModel HttpSpec ServiceModel.
Import ListNotations.
Local Open Scope list_scope.

(** What a worker does: it does not hold the lock, or it holds it within cache.GetFile (src/cache/cache.go 208-242) or cache.CacheToFile (src/cache/cache.go
    56-136), with the rest of this function and what it does afterwards *)
Inductive activity :=
| Free (p : thread (res answer))
| Looking (rest : prog (res bool)) (k : res bool -> thread (res answer))
| Storing (rest : prog (res unit)) (k : res unit -> thread (res answer)).

Definition is_free (x : job * activity) : Prop := exists p, snd x = Free p.

(** A step of a worker: it takes the lock (src/cache/cache.go 57, 209), does a system call, or gives the lock back (58, 210).  The functions of the cache do not
    use the network. *)
Inductive worker_step (cfg : cache_config) (efuel : nat) (others : list (job * activity)) :
    activity -> world -> list net_event -> activity -> world -> Prop :=
| lock_lookup : forall folder filename k w, Forall is_free others ->
    worker_step cfg efuel others (Free (TLookup folder filename k)) w [] (Looking (GetFile cfg folder filename) k) w
| lock_store : forall folder filename chunks readOk k w, Forall is_free others ->
    worker_step cfg efuel others (Free (TStore folder filename chunks readOk k)) w [] (Storing (CacheToFile cfg efuel folder filename chunks readOk) k) w
| call_looking : forall c q k w r w', sys_step true w c r w' -> worker_step cfg efuel others (Looking (Call c q) k) w [] (Looking (q r) k) w'
| call_storing : forall c q k w r w', sys_step true w c r w' -> worker_step cfg efuel others (Storing (Call c q) k) w [] (Storing (q r) k) w'
| unlock_lookup : forall r k w, worker_step cfg efuel others (Looking (Ret r) k) w [] (Free (k r)) w
| unlock_store : forall r k w, worker_step cfg efuel others (Storing (Ret r) k) w [] (Free (k r)) w
| call_free : forall c k w r w', sys_step true w c r w' -> worker_step cfg efuel others (Free (TCall c k)) w (event_of c r) (Free (k r)) w'.

(** All workers, the files and everything that happened on the network, since the cache was created *)
Record crowd := mkCrowd { staff : list (job * activity); drive : world; traffic : list net_event }.

(** Executions.  A job is started at any time (src/main.go 359-395), any worker does the next step, and the process may die at any time; the next process removes the
    temporary files (src/main.go 310) and may have other settings. *)
Inductive mixed (ext : externals) : list job -> crowd -> Prop :=
| mixed_begin : forall w, files w = [] -> mixed ext [] (mkCrowd [] w [])
| mixed_start : forall jobs s j fuel, mixed ext jobs s ->
    (forall folder filename chunks, j = Result folder filename chunks -> In folder [!"html"; !"stats"]) ->
    mixed ext (j :: jobs) (mkCrowd ((j, Free (program ext fuel j)) :: staff s) (drive s) (traffic s))
| mixed_step : forall jobs before j a after w net cfg efuel events a' w',
    mixed ext jobs (mkCrowd (before ++ (j, a) :: after) w net) -> (0 <= CacheMaxAge cfg)%Z ->
    worker_step cfg efuel (before ++ after) a w events a' w' ->
    mixed ext jobs (mkCrowd (before ++ (j, a') :: after) w' (net ++ events))
| mixed_crash : forall jobs s w', mixed ext jobs s -> files w' = cached (drive s) -> (clock (drive s) <= clock w')%Z ->
    mixed ext jobs (mkCrowd [] w' (traffic s)).
