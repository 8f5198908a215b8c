(** * Model of generateBookFromArticles, src/main.go 334-418: all workers with everything they do on the disk and on the network

    PoolModel.v treats the work on an article as one step.  Here it is a sequence of actions, which are mixed with those of the other workers.

    Simplifications: An error ends the process: there is no further step of this worker.  The formulas may be asked for in any order, also
    formulas which are not in the article (this allows more executions than the program has).  Creating directories is left out. *)

From Coq Require Import Ascii String.
From Coq Require Import List Arith ZArith Bool.
From Verif Require Import GoStr UtilModel ConfigModel CacheModel CacheSpec HttpModel HttpSpec ServiceModel CleanerModel TemplateModel TokenModel ArticleModel HtmlModel PoolModel.
Import ListNotations.
Local Open Scope list_scope.

(** The work on an article, src/main.go 424-471.  [answers]: the templates that the tokenizer has asked for, with the answers, latest first;
    [formulas]: the formulas that the generator has asked for, with the files of the answers. *)
Inductive stage :=
| Skipped                                                                  (* lines 430-431: the HTML file exists *)
| Loading (p : thread (res answer))                                        (* line 434, DownloadArticle *)
| Parsing (wikitext : str) (answers : list (str * str))                    (* lines 438-439, Tokenize *)
| Asking (wikitext : str) (answers : list (str * str)) (template : str) (p : thread (res answer))    (* src/parser/template.go 82 *)
| Fetching (content : str) (t : Tokenizer) (p : thread (res answer))       (* line 443, DownloadImages *)
| Rendering (content : str) (t : Tokenizer) (formulas : list (str * (path * path)))                  (* lines 450-455, Generate *)
| Drawing (content : str) (t : Tokenizer) (formulas : list (str * (path * path))) (formula : str) (p : thread (res answer))  (* src/generator/html.go 375 *)
| Writing (p : thread (res answer)).                                       (* src/generator/html.go 413-415, src/generator/stats.go 68-69 *)

(** The answers as a template service: the requests are answered in their order; a request behind the last answer has no answer yet. *)
Fixpoint same_requests (a b : list str) : bool :=
  match a, b with
  | [], [] => true
  | x :: a', y :: b' => str_eqb x y && same_requests a' b'
  | _, _ => false
  end.
Fixpoint replies (answers : list (str * str)) (before : list str) (template : str) : option str :=
  match answers with
  | [] => None
  | (q, a) :: answers' => if same_requests before (map fst answers') && str_eqb template q then Some a else replies answers' before template
  end.

Inductive book_worker :=
| Free
| Busy (articleName : str) (s : stage)
| Gone.

Record book_state := mkBookState {
  b_to_send : list str;
  b_closed : bool;
  b_queue : list str;
  b_workers : list book_worker;
  b_outputs : list str;
  b_disk : world;
  b_network : list net_event }.

(** The stage of a worker that does an action *)
Inductive stage_action (ccfg : cache_config) (efuel : nat) : stage -> world -> list net_event -> stage -> world -> Prop :=
| act_loading : forall p w ev p' w', action ccfg efuel p w ev p' w' -> stage_action ccfg efuel (Loading p) w ev (Loading p') w'
| act_asking : forall x h q p w ev p' w', action ccfg efuel p w ev p' w' -> stage_action ccfg efuel (Asking x h q p) w ev (Asking x h q p') w'
| act_fetching : forall x t p w ev p' w', action ccfg efuel p w ev p' w' -> stage_action ccfg efuel (Fetching x t p) w ev (Fetching x t p') w'
| act_drawing : forall x t l f p w ev p' w', action ccfg efuel p w ev p' w' -> stage_action ccfg efuel (Drawing x t l f p) w ev (Drawing x t l f p') w'
| act_writing : forall p w ev p' w', action ccfg efuel p w ev p' w' -> stage_action ccfg efuel (Writing p) w ev (Writing p') w'.

Section Book.
  Variables (ext : externals) (ccfg : cache_config) (efuel fuel : nat) (wiki : wiki_config) (cfg : configuration).
  Variable articles : list str.                                   (* project.Articles *)
  Variable WorkerThreads : nat.
  Variable recreate : world -> str -> bool.                       (* shouldRecreateHtml, see MainModel.v; it looks for a file *)
  Variables (cacheDir folder suffix : str).                       (* the cache directory, the folder and the ending of the output files *)
  (* the generated output for title, content, tokens and the files of the formulas *)
  Variable generate : str -> str -> Tokenizer -> list (str * (path * path)) -> str -> Prop.

  (** main.go 427 *)
  Definition article_host : str := wikipediaInstance wiki ++ !"." ++ wikipediaHost wiki.

  Definition output_file (articleName : str) : str := GetFilePathInCache cacheDir folder (articleName ++ suffix).

  (** The next template for which the tokenizer asks: the one at which it fails if there is no answer, src/parser/tokenizer.go 88-97 *)
  Definition asks (x : str) (answers : list (str * str)) (template : str) : Prop :=
    exists cleaned st, clean cfg x = Ok cleaned /\ evaluateTemplates_first (Hash ext) (replies answers) cleaned = (st, Err) /\
      requests st = template :: map fst answers.

  Inductive next_stage (a : str) : stage -> stage -> Prop :=
  | next_parse : forall title x,                                  (* the tokenizer gets the article *)
      next_stage a (Loading (TRet (Ok (ServiceModel.Article title x)))) (Parsing x [])
  | next_template : forall x answers template, asks x answers template ->
      next_stage a (Parsing x answers) (Asking x answers template (program ext fuel (GetTemplate wiki template)))
  | next_answer : forall x answers template text,                 (* the answer *)
      next_stage a (Asking x answers template (TRet (Ok (Text text)))) (Parsing x ((template, text) :: answers))
  | next_fetch : forall x answers content t,                      (* the article is tokenized; its images are downloaded *)
      Tokenize (Hash ext) (replies answers) cfg x (ArticleModel.Article content t) ->
      next_stage a (Parsing x answers) (Fetching content t (program ext fuel (GetImages wiki (images t))))
  | next_render : forall content t r,                             (* the generator begins *)
      next_stage a (Fetching content t (TRet (Ok r))) (Rendering content t [])
  | next_formula : forall content t formulas converter formula,   (* it asks for a formula *)
      next_stage a (Rendering content t formulas) (Drawing content t formulas formula (program ext fuel (GetMath wiki converter formula)))
  | next_files : forall content t formulas formula svg png,       (* the answer *)
      next_stage a (Drawing content t formulas formula (TRet (Ok (Files svg png)))) (Rendering content t ((formula, (svg, png)) :: formulas))
  | next_write : forall content t formulas output chunks,         (* it writes the output *)
      generate a content t formulas output -> all_data chunks = output ->
      next_stage a (Rendering content t formulas) (Writing (program ext fuel (Result folder (a ++ suffix) chunks))).

  (** The first stage: main.go 430-434 *)
  Definition first_stage (w : world) (a : str) : stage :=
    if recreate w a then Loading (program ext fuel (GetArticle wiki article_host a)) else Skipped.

  (** The end of the work: processArticle returns the path, main.go 430, 452, 464 and 470 *)
  Inductive finished_stage (a : str) : stage -> str -> Prop :=
  | finished_skipped : finished_stage a Skipped []
  | finished_written : forall r, finished_stage a (Writing (TRet (Ok r))) (output_file a).

  (** main.go 342-387 *)
  Definition book_start (w : world) (net : list net_event) : book_state :=
    mkBookState articles false [] (repeat Free WorkerThreads) (repeat [] (List.length articles)) w net.

  Inductive book_step : book_state -> book_state -> Prop :=
  | book_send : forall a rest q ws out w net, List.length q < WorkerThreads ->                  (* main.go 391 *)
      book_step (mkBookState (a :: rest) false q ws out w net) (mkBookState rest false (q ++ [a]) ws out w net)
  | book_close : forall q ws out w net,                                                         (* main.go 393 *)
      book_step (mkBookState [] false q ws out w net) (mkBookState [] true q ws out w net)
  | book_receive : forall i a rest c q ws out w net, nth_error ws i = Some Free ->              (* main.go 367 *)
      book_step (mkBookState rest c (a :: q) ws out w net) (mkBookState rest c q (set_nth i (Busy a (first_stage w a)) ws) out w net)
  | book_act : forall i a s s' rest c q ws out w net ev w', nth_error ws i = Some (Busy a s) -> stage_action ccfg efuel s w ev s' w' ->
      book_step (mkBookState rest c q ws out w net) (mkBookState rest c q (set_nth i (Busy a s') ws) out w' (net ++ ev))
  | book_next : forall i a s s' rest c q ws out w net, nth_error ws i = Some (Busy a s) -> next_stage a s s' ->
      book_step (mkBookState rest c q ws out w net) (mkBookState rest c q (set_nth i (Busy a s') ws) out w net)
  | book_finish : forall i a s r rest c q ws out w net, nth_error ws i = Some (Busy a s) -> finished_stage a s r ->     (* main.go 377-378 *)
      book_step (mkBookState rest c q ws out w net) (mkBookState rest c q (set_nth i Free ws) (set_nth (articleNumber articles a) r out) w net)
  | book_end : forall i rest ws out w net, nth_error ws i = Some Free ->                        (* main.go 367, 383 *)
      book_step (mkBookState rest true [] ws out w net) (mkBookState rest true [] (set_nth i Gone ws) out w net).

  Inductive book_runs (w : world) (net : list net_event) : book_state -> Prop :=
  | book_begin : book_runs w net (book_start w net)
  | book_more : forall s s', book_runs w net s -> book_step s s' -> book_runs w net s'.

  (** main.go 397: the wait group is zero when all workers have ended *)
  Definition book_finished (s : book_state) : Prop := b_closed s = true /\ Forall (eq Gone) (b_workers s).
End Book.

(** HtmlGenerator.Generate, src/generator/html.go 101-113, as generator of the book: the picture of a formula is one of the files, its width, height
    and style are any ones that may be in such a file (html.go 380; [sizes]), and the fuel is what is needed. *)
Definition generated_page (sizes : str -> str -> str -> Prop) (cfg : configuration) (styleFile title content : str) (t : Tokenizer) (formulas : list (str * (path * path))) (output : str) : Prop :=
  exists renderMath fuel,
    (forall formula picture width height style, renderMath formula = Ok (picture, width, height, style) ->
       (exists svg png, In (formula, (svg, png)) formulas /\ picture = join !"/" png) /\ sizes width height style) /\
    generateHtml cfg renderMath (tokenMap t) fuel styleFile title content = Ok output.
