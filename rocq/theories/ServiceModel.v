(** * Model of concurrent work on the cache: src/wikipedia/wikipedia.go and src/http/http.go with the mutex of src/cache/cache.go

    Articles are generated by several workers (src/main.go 359-395) that share one cache.  cache.GetFile and
    cache.CacheToFile hold cacheWriteMutex from begin to end (src/cache/cache.go 57-58, 209-210), so that a worker does one of them at a time, or a
    single system call.  A worker is a tree of such actions ([thread]).  The functions are those of HttpModel.v; ServiceProofs.v shows that a worker
    which runs alone behaves like the function of HttpModel.v.

    Simplification: while the mutex is held no other system calls take place.  The others only read files, wait, send requests or write images.
    LockModel.v is without this simplification. *)

From Coq Require Import Ascii String.
From Coq Require Import List Arith ZArith Bool.
From Verif Require Import GoStr UtilModel CacheModel HttpModel CacheSpec HttpSpec.
Import ListNotations.
Local Open Scope list_scope.

Inductive thread (A : Type) : Type :=
| TRet (a : A)
| TLookup (folder filename : str) (k : res bool -> thread A)                                             (* cache.GetFile *)
| TStore (folder filename : str) (chunks : list str) (readOk : bool) (k : res unit -> thread A)        (* cache.CacheToFile *)
| TCall (c : syscall) (k : reply c -> thread A).
Arguments TRet {A} a.
Arguments TLookup {A} folder filename k.
Arguments TStore {A} folder filename chunks readOk k.
Arguments TCall {A} c k.

Fixpoint tbind {A C} (p : thread A) (f : A -> thread C) : thread C :=
  match p with
  | TRet a => f a
  | TLookup folder filename k => TLookup folder filename (fun r => tbind (k r) f)
  | TStore folder filename chunks readOk k => TStore folder filename chunks readOk (fun r => tbind (k r) f)
  | TCall c k => TCall c (fun r => tbind (k r) f)
  end.

(** Continues after an error check. *)
Definition t_ok {A C} (p : thread (res A)) (f : A -> thread (res C)) : thread (res C) :=
  tbind p (fun r => match r with Ok a => f a | Err => TRet Err | Panic => TRet Panic | OutOfFuel => TRet OutOfFuel end).

Definition t_lookup (folder filename : str) : thread (res bool) := TLookup folder filename (fun r => TRet r).
Definition t_store (folder filename : str) (chunks : list str) (readOk : bool) : thread (res unit) := TStore folder filename chunks readOk (fun r => TRet r).

(** DefaultHttpService.doRequest, http.go:126-168 *)
Fixpoint t_doRequest (fuel : nat) (q : request) : thread (res response) :=
  match fuel with
  | O => TRet OutOfFuel
  | S fuel' =>
    TCall (SDo q) (fun a =>
      match a with
      | None => TRet Err
      | Some r =>
        if (a_status r =? 429)%Z then
          TCall (SSleep (wait_time (a_retry_after r)))
                (fun _ => t_doRequest fuel' (mkRequest (q_post q) (q_url q) (q_body q) []))
        else if negb (a_status r =? 200)%Z then TRet Err
        else if negb (str_eqb (a_api_error r) []) then TRet Err
        else TRet (Ok r)
      end)
  end.

(** DefaultHttpService.DownloadAndCache, http.go:53-82 *)
Definition t_DownloadAndCache (fuel : nat) (url folder filename : str) : thread (res (path * bool)) :=
  t_ok (t_lookup folder filename) (fun fileIsCached =>
    if fileIsCached : bool then TRet (Ok (cache_path folder filename, false))
    else
      t_ok (t_doRequest fuel (mkRequest false url [] [])) (fun response =>
        t_ok (t_store folder filename (a_body response) (a_complete response)) (fun _ =>
          TRet (Ok (cache_path folder filename, true))))).

(** The URL for evaluating a template, wikipedia.go:250 *)
Definition template_url (ext : externals) (wiki : wiki_config) (template : str) : str :=
  !"https://" ++ wikipediaInstance wiki ++ !"." ++ wikipediaHost wiki ++
  !"/w/api.php?action=expandtemplates&format=json&prop=wikitext&text=" ++ QueryEscape ext template.

(** The URL and the data for checking a formula, wikipedia.go:311-318 *)
Definition math_url (wiki : wiki_config) : str := wikipediaMathRestApi wiki ++ !"/check/tex".
Definition math_data (ext : externals) (formula : str) : str := !"q=" ++ QueryEscape ext (!"{\displaystyle " ++ formula ++ !"}").

Section Wikipedia.
  Variable ext : externals.
  Variable wiki : wiki_config.
  Variable fuel : nat.

  (** DefaultWikipediaService.DownloadArticle, wikipedia.go:76-104 *)
  Definition t_DownloadArticle (host title : str) : thread (res (str * str)) :=
    t_ok (t_DownloadAndCache fuel (article_url ext host title) ArticleCacheDirName (article_file title))
      (fun '(p, _) =>
        TCall (SReadFile p) (fun r =>
          match r with
          | None => TRet Err
          | Some bytes =>
            match json_article_title ext bytes with
            | None => TRet Err
            | Some t => TRet (Ok (t, json_article_text ext bytes))
            end
          end)).

  (** DefaultWikipediaService.downloadImage, wikipedia.go:197-246 *)
  Definition t_downloadImage (host imageNameWithPrefix : str) : thread (res (path * bool)) :=
    match after_colon imageNameWithPrefix with
    | Ok n =>
      let imageName := !"File:" ++ n in
      t_ok (t_DownloadArticle host imageName) (fun '(title, _) =>
        match after_colon imageName, after_colon title with
        | Ok original, Ok actual =>
          let originalImageName := replace_all !" " !"_" original in
          let actualImageName := replace_all !" " !"_" actual in
          t_ok (t_DownloadAndCache fuel (image_url ext wiki host actualImageName) ImageCacheDirName originalImageName)
            (fun '(p, fresh) =>
              if fresh && SvgSizeToViewbox wiki && str_eqb (path_ext (last p [])) !".svg" then
                TCall (SRewrite p) (fun _ => TRet (Ok (p, fresh)))
              else TRet (Ok (p, fresh)))
        | _, _ => TRet Panic
        end)
    | _ => TRet Panic
    end.

  (** wikipedia.go:181-188 *)
  Definition t_rescale (p : path) (fresh : bool) : thread (res unit) :=
    let e := path_ext (to_lower (last p [])) in
    if fresh && ProcessImages wiki && negb (str_eqb e !".svg") && negb (str_eqb e !".pdf") then
      TCall (SRewrite p) (fun ok => TRet (if ok : bool then Ok tt else Err))
    else TRet (Ok tt).

  (** DefaultWikipediaService.postProcessImage, wikipedia.go:153-191 *)
  Definition t_postProcessImage (p : path) (freshlyDownloaded : bool) : thread (res unit) :=
    let e := path_ext (to_lower (last p [])) in
    let convert := (ConvertPdf wiki && str_eqb e !".pdf") || (ConvertSvg wiki && str_eqb e !".svg") ||
                   (ConvertWebp wiki && str_eqb e !".webp") in
    if convert then
      TCall (SExists (png_path p)) (fun pngAlreadyExists =>
        if pngAlreadyExists : bool then t_rescale (png_path p) freshlyDownloaded
        else TCall (SConvert p (png_path p)) (fun ok =>
               if ok : bool then t_rescale (png_path p) true else TRet Err))
    else t_rescale p freshlyDownloaded.

  (** DefaultWikipediaService.downloadImageUsingAllSources, wikipedia.go:122-151 *)
  Fixpoint t_try_sources (image : str) (downloadErr : bool) (hosts : list str) : thread (res unit) :=
    match hosts with
    | [] => TRet (if downloadErr then Err else Ok tt)
    | host :: hosts' =>
      tbind (t_downloadImage host image) (fun r =>
        match r with
        | Ok (p, fresh) => t_postProcessImage p fresh
        | Err => t_try_sources image true hosts'
        | Panic => TRet Panic
        | OutOfFuel => TRet OutOfFuel
        end)
    end.

  (** DefaultWikipediaService.DownloadImages, wikipedia.go:109-120 *)
  Fixpoint t_DownloadImages (images : list str) : thread (res unit) :=
    match images with
    | [] => TRet (Ok tt)
    | image :: images' => t_ok (t_try_sources image false (wikipediaImageArticleHosts wiki)) (fun _ => t_DownloadImages images')
    end.

  (** DefaultWikipediaService.EvaluateTemplate, wikipedia.go:248-269 *)
  Definition t_EvaluateTemplate (template cacheFile : str) : thread (res str) :=
    t_ok (t_DownloadAndCache fuel (template_url ext wiki template) TemplateCacheDirName cacheFile) (fun '(p, _) =>
      TCall (SReadFile p) (fun r =>
        match r with
        | None => TRet Err
        | Some bytes => TRet (match json_template ext bytes with Some t => Ok t | None => Err end)
        end)).

  (** DefaultWikipediaService.getMathResource, wikipedia.go:310-365 *)
  Definition t_getMathResource (mathString : str) : thread (res str) :=
    let filename := Hash ext mathString in
    let request :=
      t_ok (t_doRequest fuel (mkRequest true (math_url wiki) (math_data ext mathString) (math_data ext mathString))) (fun response =>
        if str_eqb (a_location response) [] then TRet Err
        else t_ok (t_store MathCacheDirName filename [a_location response] true) (fun _ => TRet (Ok (a_location response)))) in
    tbind (t_lookup MathCacheDirName filename) (fun r =>
      match r with
      | Ok true =>
        TCall (SReadFile (cache_path MathCacheDirName filename)) (fun r =>
          TRet (match r with Some location => Ok location | None => Err end))
      | Ok false | Err => request
      | Panic => TRet Panic
      | OutOfFuel => TRet OutOfFuel
      end).

  (** DefaultWikipediaService.RenderMath, wikipedia.go:271-307 *)
  Definition t_RenderMath (converter : math_converter) (mathString : str) : thread (res (path * path)) :=
    t_ok (t_getMathResource mathString) (fun name =>
      t_ok (t_DownloadAndCache fuel (wikipediaMathRestApi wiki ++ !"/render/svg/" ++ name)
              ImageCacheDirName (name ++ !".svg")) (fun '(svg, _) =>
        match converter with
        | MathNone => TRet (Ok (svg, svg))
        | MathWikimedia =>
          t_ok (t_DownloadAndCache fuel (wikipediaMathRestApi wiki ++ !"/render/png/" ++ name)
                  ImageCacheDirName (name ++ !".png")) (fun '(png, _) => TRet (Ok (svg, png)))
        | MathTemplate =>
          let png := cache_path ImageCacheDirName (name ++ !".png") in
          TCall (SConvert svg png) (fun ok => TRet (if ok : bool then Ok (svg, png) else Err))
        | MathUnknown => TRet Err
        end)).
End Wikipedia.

(** ** Jobs *)

(** What the workers ask the services for.  The configuration of the wiki belongs to the job since a later run of wiki2book may have another one.  A
    template is cached under its hash (src/parser/template.go 83).  [Result]: a file of generated HTML or statistics is written
    (src/generator/html.go 411-417, src/generator/stats.go 68-69). *)
Inductive job :=
| GetArticle (wiki : wiki_config) (host title : str)
| GetImages (wiki : wiki_config) (images : list str)
| GetTemplate (wiki : wiki_config) (template : str)
| GetMathResource (wiki : wiki_config) (formula : str)
| GetMath (wiki : wiki_config) (converter : math_converter) (formula : str)
| Result (folder filename : str) (chunks : list str).

Inductive answer := Article (title text : str) | Text (text : str) | Location (name : str) | Files (svg png : path) | Done.

Definition t_map {A} (f : A -> answer) (p : thread (res A)) : thread (res answer) := t_ok p (fun a => TRet (Ok (f a))).

Definition program (ext : externals) (fuel : nat) (j : job) : thread (res answer) :=
  match j with
  | GetArticle wiki host title => t_map (fun '(title, text) => Article title text) (t_DownloadArticle ext fuel host title)
  | GetImages wiki images => t_map (fun _ => Done) (t_DownloadImages ext wiki fuel images)
  | GetTemplate wiki template => t_map Text (t_EvaluateTemplate ext wiki fuel template (Hash ext template))
  | GetMathResource wiki formula => t_map Location (t_getMathResource ext wiki fuel formula)
  | GetMath wiki converter formula => t_map (fun '(svg, png) => Files svg png) (t_RenderMath ext wiki fuel converter formula)
  | Result folder filename chunks => t_map (fun _ => Done) (t_store folder filename chunks true)
  end.

(** One action of a worker.  Every system call may fail. *)
Inductive action (cfg : cache_config) (efuel : nat) {A} : thread A -> world -> list net_event -> thread A -> world -> Prop :=
| action_lookup : forall folder filename k w r w',
    ends true (GetFile cfg folder filename) w r w' -> action cfg efuel (TLookup folder filename k) w [] (k r) w'
| action_store : forall folder filename chunks readOk k w r w',
    ends true (CacheToFile cfg efuel folder filename chunks readOk) w r w' -> action cfg efuel (TStore folder filename chunks readOk k) w [] (k r) w'
| action_call : forall c k w r w', sys_step true w c r w' -> action cfg efuel (TCall c k) w (event_of c r) (k r) w'.

(** A part of an action, when the process dies within a function of the cache *)
Inductive half_action (cfg : cache_config) (efuel : nat) {A} : thread A -> world -> world -> Prop :=
| half_lookup : forall folder filename k w rest w',
    steps true (GetFile cfg folder filename) w rest w' -> half_action cfg efuel (TLookup folder filename k) w w'
| half_store : forall folder filename chunks readOk k w rest w',
    steps true (CacheToFile cfg efuel folder filename chunks readOk) w rest w' -> half_action cfg efuel (TStore folder filename chunks readOk k) w w'.

(** All workers, the files and everything that happened on the network, since the cache was created *)
Record state := mkState { workers : list (job * thread (res answer)); disk : world; network : list net_event }.

(** Executions.  A job is started at any time, any worker does the next action, and the process may die at any time, also within the functions of the
    cache; the next process removes the temporary files and may have other settings. *)
Inductive runs (ext : externals) : list job -> state -> Prop :=
| run_begin : forall w, files w = [] -> runs ext [] (mkState [] w [])
| run_start : forall jobs s j fuel, runs ext jobs s ->
    (forall folder filename chunks, j = Result folder filename chunks -> In folder [!"html"; !"stats"]) ->
    runs ext (j :: jobs) (mkState ((j, program ext fuel j) :: workers s) (disk s) (network s))
| run_action : forall jobs before j p after w net cfg efuel events p' w',
    runs ext jobs (mkState (before ++ (j, p) :: after) w net) -> (0 <= CacheMaxAge cfg)%Z -> action cfg efuel p w events p' w' ->
    runs ext jobs (mkState (before ++ (j, p') :: after) w' (net ++ events))
| run_crash : forall jobs ws w net w', runs ext jobs (mkState ws w net) -> files w' = cached w -> (clock w <= clock w')%Z ->
    runs ext jobs (mkState [] w' net)
| run_crash_within : forall jobs before j p after w net cfg efuel w1 w',
    runs ext jobs (mkState (before ++ (j, p) :: after) w net) -> (0 <= CacheMaxAge cfg)%Z -> half_action cfg efuel p w w1 ->
    files w' = cached w1 -> (clock w1 <= clock w')%Z -> runs ext jobs (mkState [] w' net).
