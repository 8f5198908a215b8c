(** * Specification vocabulary for the size of the cache while several workers use it *)

From Coq Require Import Ascii String.
From Coq Require Import List ZArith Bool.
From Verif Require Import GoStr UtilModel CacheModel CacheSpec HttpModel HttpSpec ServiceModel LockModel.
Import ListNotations.
Local Open Scope list_scope.

(** No external program writes into the cache: images are neither converted nor changed (src/wikipedia/wikipedia.go 153-191, 237-243), and formulas are not converted by
    the program of the user (src/wikipedia/wikipedia.go 297-303). *)
Definition leaves_images (j : job) : Prop :=
  match j with
  | GetImages wiki _ => ConvertPdf wiki = false /\ ConvertSvg wiki = false /\ ConvertWebp wiki = false /\ ProcessImages wiki = false /\ SvgSizeToViewbox wiki = false
  | GetMath _ converter _ => converter <> MathTemplate
  | _ => True
  end.

(** Executions of LockModel.v that begin with any cache [w0] and in which the maximum size of the cache is always [max], with any strategy for eviction *)
Inductive bounded (ext : externals) (max : Z) (w0 : world) : list job -> crowd -> Prop :=
| bounded_begin : bounded ext max w0 [] (mkCrowd [] w0 [])
| bounded_start : forall jobs s j fuel, bounded ext max w0 jobs s ->
    (forall folder filename chunks, j = Result folder filename chunks -> In folder [!"html"; !"stats"]) ->
    bounded ext max w0 (j :: jobs) (mkCrowd ((j, Free (program ext fuel j)) :: staff s) (drive s) (traffic s))
| bounded_step : forall jobs before j a after w net cfg efuel events a' w',
    bounded ext max w0 jobs (mkCrowd (before ++ (j, a) :: after) w net) -> CacheMaxSize cfg = max -> CacheEvictionStrategy cfg <> StrategyNone ->
    worker_step cfg efuel (before ++ after) a w events a' w' ->
    bounded ext max w0 jobs (mkCrowd (before ++ (j, a') :: after) w' (net ++ events))
| bounded_crash : forall jobs s w', bounded ext max w0 jobs s -> files w' = cached (drive s) -> (clock (drive s) <= clock w')%Z ->
    bounded ext max w0 jobs (mkCrowd [] w' (traffic s)).
