(** * Specification: the statistics of a project (C70) *)

From Coq Require Import Ascii String.
From Coq Require Import List Arith NArith Bool.
From Verif Require Import GoStr StatsModel StatsSpec JsonSpec StatsJsonSpec DocumentSpec DocumentStatsSpec.
Import ListNotations.
Local Open Scope list_scope.

(** The same statistics: name, numbers and links *)
Definition same_stats (a b : articleStats) : Prop :=
  ArticleName a = ArticleName b /\ (forall c, count a c = count b c) /\ (forall e, In e (InternalLinks a) <-> In e (InternalLinks b)).

(** What json.Unmarshal does with a file that says statistics: the result is these statistics.  (A file says only one thing, see C69.) *)
Definition decoded (text : str) (r : res articleStats) : Prop :=
  forall stats others, file_says text stats others -> utf8_names (InternalLinks stats) -> is_map (InternalLinks stats) ->
    exists stats', r = Ok stats' /\ same_stats stats stats' /\ is_map (InternalLinks stats').

(** The articles to which the document has links are named in UTF-8. *)
Definition utf8_links (l : list thing) : Prop := forall name, 0 < links_in name l -> is_utf8 name.

(** The numbers and links of a project are the sums over its articles; [things]: what is in an article. *)
Definition project_says (letter : N -> bool) (instance : str) (things : str -> list thing) (articles : list str) (stats : articleStats) (uncovered : list (str * nat)) : Prop :=
  ArticleName stats = [] /\
  (forall c, c <> EstimatedReadingTimeMinutes -> count stats c = list_sum (map (fun a => number_of letter c (things a)) articles)) /\
  (exists speed, reading_speed instance speed /\ count stats EstimatedReadingTimeMinutes = list_sum (map (fun a => number_of letter NumberOfWords (things a) / speed) articles)) /\
  is_map (InternalLinks stats) /\ is_map uncovered /\
  (forall name n, In (name, n) (InternalLinks stats) <-> 0 < n /\ n = list_sum (map (fun a => links_in name (things a)) articles)) /\
  (forall name n, In (name, n) uncovered <-> In (name, n) (InternalLinks stats) /\ ~ In name articles).
