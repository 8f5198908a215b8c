(** * Specification of the age of cached data *)

From Coq Require Import Ascii String.
From Coq Require Import List ZArith Bool.
From Verif Require Import GoStr UtilModel CacheModel CacheSpec.
Import ListNotations.
Local Open Scope list_scope.

(** An operation on the file of a path: when it began, when it ended, and the data to be written, if it is a write *)
Record act := mkAct { a_path : path; a_begin : Z; a_end : Z; a_data : option str }.

(** All lookups and writes since the cache was empty, latest first.  System calls fail at any time; an operation may end early because of a crash.  In
    between, time passes, and a new start of wiki2book deletes the temporary files. *)
Inductive life (cfg : cache_config) : list act -> world -> Prop :=
| life_begin : forall w, files w = [] -> life cfg [] w
| life_wait : forall acts w w', life cfg acts w -> files w' = files w \/ files w' = cached w -> (clock w <= clock w')%Z -> life cfg acts w'
| life_get : forall acts w folder name rest w', life cfg acts w -> In folder cache_folders ->
    steps true (GetFile cfg folder name) w rest w' -> life cfg (mkAct (cache_path folder name) (clock w) (clock w') None :: acts) w'
| life_put : forall acts w fuel folder name chunks readOk rest w', life cfg acts w -> In folder cache_folders ->
    steps true (CacheToFile cfg fuel folder name chunks readOk) w rest w' -> life cfg (mkAct (cache_path folder name) (clock w) (clock w') (Some (all_data chunks)) :: acts) w'.

(** The same, but no call fails and all operations are completed; the list contains the lookups that have found their file, and the successful writes. *)
Inductive use (cfg : cache_config) : list act -> world -> Prop :=
| use_begin : forall w, files w = [] -> use cfg [] w
| use_wait : forall acts w w', use cfg acts w -> files w' = files w \/ files w' = cached w -> (clock w <= clock w')%Z -> use cfg acts w'
| use_hit : forall acts w folder name w', use cfg acts w -> In folder cache_folders ->
    ends false (GetFile cfg folder name) w (Ok true) w' -> use cfg (mkAct (cache_path folder name) (clock w) (clock w') None :: acts) w'
| use_miss : forall acts w folder name r w', use cfg acts w -> In folder cache_folders -> r <> Ok true ->
    ends false (GetFile cfg folder name) w r w' -> use cfg acts w'
| use_put : forall acts w fuel folder name chunks readOk w', use cfg acts w -> In folder cache_folders ->
    ends false (CacheToFile cfg fuel folder name chunks readOk) w (Ok tt) w' -> use cfg (mkAct (cache_path folder name) (clock w) (clock w') (Some (all_data chunks)) :: acts) w'
| use_error : forall acts w fuel folder name chunks readOk r w', use cfg acts w -> In folder cache_folders -> r <> Ok tt ->
    ends false (CacheToFile cfg fuel folder name chunks readOk) w r w' -> use cfg acts w'.

(** The last use of a file *)
Definition last_use (acts : list act) (p : path) : option act := find (fun a => if path_eq_dec (a_path a) p then true else false) acts.
