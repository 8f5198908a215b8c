(** * Specification vocabulary for data that is in the cache already *)

From Coq Require Import Ascii String.
From Coq Require Import List ZArith Bool.
From Verif Require Import GoStr UtilModel CacheModel CacheSpec HttpModel HttpSpec ServiceModel LockModel.
Import ListNotations.
Local Open Scope list_scope.

(** What a process does from one state to another one: jobs are started, and any worker does the next step (LockModel.v).  The process does not die. *)
Inductive process (ext : externals) (cfg : cache_config) : crowd -> crowd -> Prop :=
| process_none : forall s, process ext cfg s s
| process_start : forall s s' j fuel, process ext cfg s s' ->
    process ext cfg s (mkCrowd ((j, Free (program ext fuel j)) :: staff s') (drive s') (traffic s'))
| process_step : forall s before j a after w net efuel events a' w',
    process ext cfg s (mkCrowd (before ++ (j, a) :: after) w net) -> worker_step cfg efuel (before ++ after) a w events a' w' ->
    process ext cfg s (mkCrowd (before ++ (j, a') :: after) w' (net ++ events)).

(** The file in the cache that a job needs *)
Definition needed (ext : externals) (j : job) : option path :=
  match j with
  | GetArticle _ _ title => Some (cache_path ArticleCacheDirName (article_file title))
  | GetTemplate _ template => Some (cache_path TemplateCacheDirName (Hash ext template))
  | _ => None
  end.

(** A worker is going to send a request now. *)
Definition sends (a : activity) : Prop := exists q k, a = Free (TCall (SDo q) k).
