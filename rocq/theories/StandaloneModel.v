(** * Model of generateStandaloneEbook, src/main.go 260-318: the book of one file with wikitext

    The stages of the work are those of BookModel.v without the download of the article.  Simplifications: as in BookModel.v. *)

From Coq Require Import Ascii String.
From Coq Require Import List Arith ZArith Bool.
From Verif Require Import GoStr UtilModel ConfigModel CacheModel CacheSpec HttpModel HttpSpec ServiceModel TokenModel ArticleModel HtmlModel MainModel BookModel.
Import ListNotations.
Local Open Scope list_scope.

(** The title, main.go 266-267: path.Split returns what is behind the last slash; strings.Split is never empty. *)
Definition input_title (inputFile : str) : str := hd [] (split !"." (last (split !"/" inputFile) [])).

Record standalone_state := mkStandalone { sa_stage : stage; sa_disk : world; sa_network : list net_event }.

Section Standalone.
  Variables (ext : externals) (ccfg : cache_config) (efuel fuel : nat) (wiki : wiki_config) (cfg : configuration).
  Variable recreate : world -> str -> bool.                       (* shouldRecreateHtml, see MainModel.v; it looks for a file *)
  Variable cacheDir : str.
  Variable generate : str -> str -> Tokenizer -> list (str * (path * path)) -> str -> Prop.
  Variables inputFile fileContent : str.

  (** main.go 263-284: the tokenizer gets the content of the file. *)
  Definition standalone_start (w : world) (net : list net_event) : standalone_state := mkStandalone (Parsing fileContent []) w net.

  Inductive standalone_step : standalone_state -> standalone_state -> Prop :=
  | standalone_act : forall s w net ev s' w', stage_action ccfg efuel s w ev s' w' ->
      standalone_step (mkStandalone s w net) (mkStandalone s' w' (net ++ ev))
  | standalone_next : forall s s' w net,                          (* main.go 285-301; the generator begins only if the HTML has to be made *)
      next_stage ext fuel wiki cfg !"html" !".html" generate (input_title inputFile) s s' ->
      (forall content t r, s = Fetching content t (TRet (Ok r)) -> recreate w (input_title inputFile) = true) ->
      standalone_step (mkStandalone s w net) (mkStandalone s' w net)
  | standalone_reuse : forall content t r w net,                  (* main.go 293: there is a file *)
      recreate w (input_title inputFile) = false ->
      standalone_step (mkStandalone (Fetching content t (TRet (Ok r))) w net) (mkStandalone Skipped w net).

  Inductive standalone_runs (w : world) (net : list net_event) : standalone_state -> Prop :=
  | standalone_begin : standalone_runs w net (standalone_start w net)
  | standalone_more : forall s s', standalone_runs w net s -> standalone_step s s' -> standalone_runs w net s'.

  (** The file that becomes the only chapter of the book, main.go 292 and 298; the book is [standalone_output], see EpubModel.v. *)
  Inductive standalone_finished : standalone_state -> str -> Prop :=
  | finished_reused : forall w net, standalone_finished (mkStandalone Skipped w net) (html_file (input_title inputFile))
  | finished_made : forall r w net,
      standalone_finished (mkStandalone (Writing (TRet (Ok r))) w net) (output_file cacheDir !"html" !".html" (input_title inputFile)).
End Standalone.
