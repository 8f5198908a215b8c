(** * Model of src/http/http.go and src/wikipedia/wikipedia.go

    The functions are programs over the system calls of CacheModel.v, which include the HTTP client.  Simplifications:
    - Error texts, log output and closing of response bodies are left out.
    - Functions that return a file path return it relative to the cache directory, as a list of components.
    - Library functions that only influence URLs and file names (url.QueryEscape, MD5, SHA-1, the host name regex) and
      the JSON decoder are parameters (record [externals]); the theorems hold for all of them.
    - http.NewRequest does not fail.
    - User-agent and content-type headers are left out. *)

From Coq Require Import Ascii String.
From Coq Require Import List Arith NArith ZArith Bool.
From Verif Require Import GoStr UtilModel CacheModel.
Import ListNotations.
Local Open Scope list_scope.

Record externals := mkExternals {
  QueryEscape : str -> str;
  md5hex : str -> str;
  Hash : str -> str;                        (* src/util/hash.go:8-12 *)
  is_wiki_domain : str -> bool;             (* regexp .+\.wiki.+\..+ , wikipedia.go:226 *)
  json_article_title : str -> option str;   (* WikiArticleDto.Parse.Title; None: not valid JSON *)
  json_article_text : str -> str;           (* WikiArticleDto.Parse.Wikitext.Content *)
  json_template : str -> option str         (* WikiExpandedTemplateDto.ExpandTemplate.Content *)
}.

(** Waiting time after status 429, http.go:141-146 *)
Definition wait_time (retryAfter : str) : Z :=
  match atoi retryAfter with Some n => n | None => 2%Z end.

(** DefaultHttpService.doRequest, http.go:126-168.  Sending a request reads its body. *)
Fixpoint doRequest (fuel : nat) (q : request) : prog (res response) :=
  match fuel with
  | O => Ret OutOfFuel
  | S fuel' =>
    Call (SDo q) (fun a =>
      match a with
      | None => Ret Err
      | Some r =>
        if (a_status r =? 429)%Z then
          Call (SSleep (wait_time (a_retry_after r)))
               (fun _ => doRequest fuel' (mkRequest (q_post q) (q_url q) (q_body q) []))
        else if negb (a_status r =? 200)%Z then Ret Err
        else if negb (str_eqb (a_api_error r) []) then Ret Err
        else Ret (Ok r)
      end)
  end.

(** DefaultHttpService.download, http.go:84-105.  The result stands for the response body. *)
Definition download (fuel : nat) (url : str) : prog (res response) :=
  doRequest fuel (mkRequest false url [] []).

(** DefaultHttpService.PostFormEncoded, http.go:107-124 *)
Definition PostFormEncoded (fuel : nat) (url requestData : str) : prog (res response) :=
  doRequest fuel (mkRequest true url requestData requestData).

(** Continues after an error check. *)
Definition on_ok {A C} (p : prog (res A)) (f : A -> prog (res C)) : prog (res C) :=
  pbind p (fun r => match r with Ok a => f a | Err => Ret Err | Panic => Ret Panic | OutOfFuel => Ret OutOfFuel end).

(** DefaultHttpService.DownloadAndCache, http.go:53-82: the path of the file and whether it was downloaded.  [efuel] is
    the bound for the eviction loop, [fuel] the one for the retry loop. *)
Definition DownloadAndCache (cfg : cache_config) (efuel fuel : nat) (url folder filename : str)
  : prog (res (path * bool)) :=
  on_ok (GetFile cfg folder filename) (fun fileIsCached =>
    if fileIsCached : bool then Ret (Ok (cache_path folder filename, false))
    else
      on_ok (download fuel url) (fun response =>
        on_ok (CacheToFile cfg efuel folder filename (a_body response) (a_complete response)) (fun _ =>
          Ret (Ok (cache_path folder filename, true))))).

Record wiki_config := mkWikiConfig {
  wikipediaInstance : str;
  wikipediaHost : str;
  wikipediaImageArticleHosts : list str;
  wikipediaImageHost : str;
  wikipediaMathRestApi : str;
  SvgSizeToViewbox : bool;
  ConvertPdf : bool;               (* CommandTemplatePdfToPng is not empty *)
  ConvertSvg : bool;
  ConvertWebp : bool;
  ProcessImages : bool             (* CommandTemplateImageProcessing is not empty *)
}.

Inductive math_converter := MathNone | MathWikimedia | MathTemplate | MathUnknown.

Definition ArticleCacheDirName : str := !"articles".
Definition ImageCacheDirName : str := !"images".
Definition MathCacheDirName : str := !"math".
Definition TemplateCacheDirName : str := !"templates".

Section Wikipedia.
  Variable ext : externals.
  Variable cfg : cache_config.
  Variable wiki : wiki_config.
  Variables efuel fuel : nat.

  (** The article URL, wikipedia.go:77-79 *)
  Definition article_url (host title : str) : str :=
    !"https://" ++ host ++ !"/w/api.php?action=parse&prop=wikitext&redirects=true&format=json&page=" ++
    QueryEscape ext (replace_all !" " !"_" title).

  (** Name of the cache file of an article, wikipedia.go:77, 81 *)
  Definition article_file (title : str) : str := replace_all !" " !"_" title ++ !".json".

  (** DefaultWikipediaService.DownloadArticle, wikipedia.go:76-104: title and text delivered by the server *)
  Definition DownloadArticle (host title : str) : prog (res (str * str)) :=
    on_ok (DownloadAndCache cfg efuel fuel (article_url host title) ArticleCacheDirName (article_file title))
      (fun '(p, _) =>
        Call (SReadFile p) (fun r =>
          match r with
          | None => Ret Err
          | Some bytes =>
            match json_article_title ext bytes with
            | None => Ret Err
            | Some t => Ret (Ok (t, json_article_text ext bytes))
            end
          end)).

  (** strings.Split(s, ":")[1], which panics without colon *)
  Definition after_colon (s : str) : res str :=
    match nth_error (split !":" s) 1 with Some x => Ok x | None => Panic end.

  (** wikipedia.go:224-232 *)
  Definition image_url (host actualImageName : str) : str :=
    let md5sum := md5hex ext actualImageName in
    let segment := if is_wiki_domain ext host then hd [] (split !"." host) else [] in
    !"https://" ++ wikipediaImageHost wiki ++ !"/wikipedia/" ++ segment ++ !"/" ++ firstn 1 md5sum ++ !"/" ++
    firstn 2 md5sum ++ !"/" ++ QueryEscape ext actualImageName.

  (** DefaultWikipediaService.downloadImage, wikipedia.go:197-246.  OriginalTitle is the title given to
      DownloadArticle. *)
  Definition downloadImage (host imageNameWithPrefix : str) : prog (res (path * bool)) :=
    match after_colon imageNameWithPrefix with
    | Ok n =>
      let imageName := !"File:" ++ n in
      on_ok (DownloadArticle host imageName) (fun '(title, _) =>
        match after_colon imageName, after_colon title with
        | Ok original, Ok actual =>
          let originalImageName := replace_all !" " !"_" original in
          let actualImageName := replace_all !" " !"_" actual in
          on_ok (DownloadAndCache cfg efuel fuel (image_url host actualImageName) ImageCacheDirName originalImageName)
            (fun '(p, fresh) =>
              if fresh && SvgSizeToViewbox wiki && str_eqb (path_ext (last p [])) !".svg" then
                Call (SRewrite p) (fun _ => Ret (Ok (p, fresh)))
              else Ret (Ok (p, fresh)))
        | _, _ => Ret Panic
        end)
    | _ => Ret Panic
    end.

  (** p ++ ".png", util.GetPngPathForFile, src/util/files.go:126-128 *)
  Definition png_path (p : path) : path := removelast p ++ [last p [] ++ !".png"].

  (** wikipedia.go:181-188: rescale fresh images *)
  Definition rescale (p : path) (fresh : bool) : prog (res unit) :=
    let e := path_ext (to_lower (last p [])) in
    if fresh && ProcessImages wiki && negb (str_eqb e !".svg") && negb (str_eqb e !".pdf") then
      Call (SRewrite p) (fun ok => Ret (if ok : bool then Ok tt else Err))
    else Ret (Ok tt).

  (** DefaultWikipediaService.postProcessImage, wikipedia.go:153-191 *)
  Definition postProcessImage (p : path) (freshlyDownloaded : bool) : prog (res unit) :=
    let e := path_ext (to_lower (last p [])) in
    let convert := (ConvertPdf wiki && str_eqb e !".pdf") || (ConvertSvg wiki && str_eqb e !".svg") ||
                   (ConvertWebp wiki && str_eqb e !".webp") in
    if convert then
      Call (SExists (png_path p)) (fun pngAlreadyExists =>
        if pngAlreadyExists : bool then rescale (png_path p) freshlyDownloaded
        else Call (SConvert p (png_path p)) (fun ok =>
               if ok : bool then rescale (png_path p) true else Ret Err))
    else rescale p freshlyDownloaded.

  (** The loop of downloadImageUsingAllSources, wikipedia.go:122-151; [downloadErr] is the current value of the variable
      of the same name (true: an error).  A panic is not an error value. *)
  Fixpoint try_sources (image : str) (downloadErr : bool) (hosts : list str) : prog (res unit) :=
    match hosts with
    | [] => Ret (if downloadErr then Err else Ok tt)
    | host :: hosts' =>
      pbind (downloadImage host image) (fun r =>
        match r with
        | Ok (p, fresh) => postProcessImage p fresh
        | Err => try_sources image true hosts'
        | Panic => Ret Panic
        | OutOfFuel => Ret OutOfFuel
        end)
    end.

  (** DefaultWikipediaService.downloadImageUsingAllSources, wikipedia.go:122-151 *)
  Definition downloadImageUsingAllSources (image : str) : prog (res unit) :=
    try_sources image false (wikipediaImageArticleHosts wiki).

  (** DefaultWikipediaService.DownloadImages, wikipedia.go:109-120 *)
  Fixpoint DownloadImages (images : list str) : prog (res unit) :=
    match images with
    | [] => Ret (Ok tt)
    | image :: images' => on_ok (downloadImageUsingAllSources image) (fun _ => DownloadImages images')
    end.

  (** DefaultWikipediaService.EvaluateTemplate, wikipedia.go:248-269 *)
  Definition EvaluateTemplate (template cacheFile : str) : prog (res str) :=
    let url := !"https://" ++ wikipediaInstance wiki ++ !"." ++ wikipediaHost wiki ++
               !"/w/api.php?action=expandtemplates&format=json&prop=wikitext&text=" ++ QueryEscape ext template in
    on_ok (DownloadAndCache cfg efuel fuel url TemplateCacheDirName cacheFile) (fun '(p, _) =>
      Call (SReadFile p) (fun r =>
        match r with
        | None => Ret Err
        | Some bytes => Ret (match json_template ext bytes with Some t => Ok t | None => Err end)
        end)).

  (** DefaultWikipediaService.getMathResource, wikipedia.go:310-365.  An error of cache.GetFile is ignored (line 321):
      then the file counts as not cached. *)
  Definition getMathResource (mathString : str) : prog (res str) :=
    let url := wikipediaMathRestApi wiki ++ !"/check/tex" in
    let requestData := !"q=" ++ QueryEscape ext (!"{\displaystyle " ++ mathString ++ !"}") in
    let filename := Hash ext mathString in
    let request :=
      on_ok (PostFormEncoded fuel url requestData) (fun response =>
        if str_eqb (a_location response) [] then Ret Err
        else on_ok (CacheToFile cfg efuel MathCacheDirName filename [a_location response] true) (fun _ =>
               Ret (Ok (a_location response)))) in
    pbind (GetFile cfg MathCacheDirName filename) (fun r =>
      match r with
      | Ok true =>
        Call (SReadFile (cache_path MathCacheDirName filename)) (fun r =>
          Ret (match r with Some location => Ok location | None => Err end))
      | Ok false | Err => request
      | Panic => Ret Panic
      | OutOfFuel => Ret OutOfFuel
      end).

  (** DefaultWikipediaService.RenderMath, wikipedia.go:271-307: paths of the SVG and the PNG image *)
  Definition RenderMath (converter : math_converter) (mathString : str) : prog (res (path * path)) :=
    on_ok (getMathResource mathString) (fun name =>
      on_ok (DownloadAndCache cfg efuel fuel (wikipediaMathRestApi wiki ++ !"/render/svg/" ++ name)
               ImageCacheDirName (name ++ !".svg")) (fun '(svg, _) =>
        match converter with
        | MathNone => Ret (Ok (svg, svg))
        | MathWikimedia =>
          on_ok (DownloadAndCache cfg efuel fuel (wikipediaMathRestApi wiki ++ !"/render/png/" ++ name)
                   ImageCacheDirName (name ++ !".png")) (fun '(png, _) => Ret (Ok (svg, png)))
        | MathTemplate =>
          let png := cache_path ImageCacheDirName (name ++ !".png") in
          Call (SConvert svg png) (fun ok => Ret (if ok : bool then Ok (svg, png) else Err))
        | MathUnknown => Ret Err
        end)).
End Wikipedia.
