(** * C45, C50-C52: chapters, external commands, output file, pandoc *)

From Coq Require Import Ascii String.
From Coq Require Import List Arith Bool.
From Verif Require Import GoStr UtilModel PoolModel PoolSpec PoolProofs MainModel MainSpec MainProofs.
Import ListNotations.
Local Open Scope list_scope.

(** ** C45 *)

(** The claim is false for articles of projects and single articles: if the HTML file exists where it is looked for, an
    empty path is handed over to the book generation. *)
Theorem C45_existing_html_refuted : forall t cwd file_exists generate articleName,
  t = Epub2 \/ t = Epub3 ->
  file_exists (path_join [cwd; !"html/" ++ articleName ++ !".html"]) = true ->
  no_slash articleName ->
  processArticle t false cwd file_exists generate articleName = [].
Proof. exact existing_html_empty. Qed.
Print Assumptions C45_existing_html_refuted.
Example C45_existing_html_example :
  processArticle Epub2 false !"/work" (str_eqb !"/work/html/A.html") (fun n => !"/cache/html/" ++ n ++ !".html") !"A" = [].
Proof. reflexivity. Qed.

(** The file is looked for in the working directory: HTML written by a previous run into the cache is generated again
    unless the cache folder is the working directory. *)
Theorem C45_cached_html_regenerated_refuted :
  exists cwd cacheDir file_exists articleName,
    file_exists (generated_html cacheDir articleName) = true /\
    forall generate, processArticle Epub2 false cwd file_exists generate articleName = generate articleName.
Proof. exact cached_html_regenerated. Qed.
Print Assumptions C45_cached_html_regenerated_refuted.

(** What holds: without existing HTML, for statistics or if forced, the generated file is handed over; a standalone
    article hands over the existing file. *)
Theorem C45_chapter_partial : forall t force cwd file_exists generate name,
  let existing := path_join [cwd; html_file name] in
  ((force = true \/ t = StatsJson \/ t = StatsTxt \/ file_exists existing = false) ->
   processArticle t force cwd file_exists generate name = generate name /\
   standalone_chapter t force cwd file_exists generate name = generate name) /\
  (force = false -> t = Epub2 \/ t = Epub3 -> file_exists existing = true ->
   standalone_chapter t force cwd file_exists generate name = html_file name).
Proof. exact chapter_file. Qed.
Print Assumptions C45_chapter_partial.
Example C45_standalone_example :
  standalone_chapter Epub2 false !"/work" (str_eqb !"/work/html/A.html") (fun _ => []) !"A" = !"html/A.html".
Proof. reflexivity. Qed.

(** Together with the worker pool: a chapter is empty in every schedule if its HTML exists. *)
Theorem C45_pool_refuted : forall articles threads cwd file_exists generate n s k a,
  1 <= threads -> NoDup articles ->
  nsteps (pool_step articles threads (process_relation Epub2 false cwd file_exists generate)) n (pool_start articles threads) s ->
  pool_finished s -> nth_error articles k = Some a ->
  file_exists (path_join [cwd; html_file a]) = true ->
  nth_error (outputs s) k = Some [].
Proof. exact pool_existing_html. Qed.
Print Assumptions C45_pool_refuted.

(** ** C50 *)

(** If the paths contain no space (and the input path no opening brace), an external tool gets exactly the words of its
    template, with each path inside of one word. *)
Theorem C50_words_partial : forall ws input output,
  ws <> [] -> Forall plain_word ws ->
  ~ In "{"%char input -> ~ In " "%char input -> ~ In " "%char output ->
  convert_argv (join !" " (map written ws)) input output = map (filled input output) ws.
Proof. exact convert_argv_words. Qed.
Print Assumptions C50_words_partial.
Example C50_example :
  convert_argv !"rsvg-convert -o {OUTPUT} --in={INPUT}" !"/c/a.svg" !"/c/a.svg.png" =
    [!"rsvg-convert"; !"-o"; !"/c/a.svg.png"; !"--in=/c/a.svg"] /\
  join !" " (map written [[Literal !"rsvg-convert"]; [Literal !"-o"]; [OutputFile]; [Literal !"--in="; InputFile]]) =
    !"rsvg-convert -o {OUTPUT} --in={INPUT}".
Proof. split; reflexivity. Qed.

(** The claim is false for paths with a space: such a path is never part of an argument, whatever the template. *)
Theorem C50_space_refuted : forall template input output arg,
  In arg (convert_argv template input output) -> ~ In " "%char arg.
Proof. exact argv_no_space. Qed.
Print Assumptions C50_space_refuted.
Example C50_space_example :
  convert_argv !"magick {INPUT} {OUTPUT}" !"/home/a b/x.webp" !"/home/a b/x.webp.png" =
  [!"magick"; !"/home/a"; !"b/x.webp"; !"/home/a"; !"b/x.webp.png"].
Proof. reflexivity. Qed.

(** ** C51 *)

(** For EPUB the output file is the wanted file, and a file with the default name inside of it if it is a folder. *)
Theorem C51_epub_single : forall t cwd is_dir cli,
  t = Epub2 \/ t = Epub3 -> path_is_abs cwd = true -> cli <> Some [] ->
  exists wanted,
    wanted = ToAbsolutePath cwd (match cli with Some f => f | None => !"ebook.epub" end) /\
    single_output t cwd is_dir cli = Ok (if is_dir wanted then path_join [wanted; !"ebook.epub"] else wanted).
Proof. exact epub_single. Qed.
Print Assumptions C51_epub_single.
Example C51_epub_single_example :
  single_output Epub3 !"/home/u" (str_eqb !"/home/u/books") (Some !"books") = Ok !"/home/u/books/ebook.epub" /\
  single_output Epub2 !"/home/u" (fun _ => false) (Some !"../x.epub") = Ok !"/home/x.epub".
Proof. split; reflexivity. Qed.

(** For projects, the command line wins over the project file; the former is relative to the working directory of the user,
    the latter relative to the project file. *)
Theorem C51_epub_project_partial : forall t cwd project_dir is_dir cli project_file,
  t = Epub2 \/ t = Epub3 -> path_is_abs cwd = true -> path_is_abs project_dir = true ->
  cli <> Some [] -> (cli = None -> project_file <> []) ->
  exists wanted,
    wanted = match cli with Some f => ToAbsolutePath cwd f | None => ToAbsolutePath project_dir project_file end /\
    project_output t cwd project_dir is_dir cli project_file = Ok (if is_dir wanted then path_join [wanted; !"ebook.epub"] else wanted).
Proof. exact epub_project. Qed.
Print Assumptions C51_epub_project_partial.
Example C51_epub_project_example :
  project_output Epub2 !"/home/u" !"/home/u/p" (fun _ => false) None !"out/b.epub" = Ok !"/home/u/p/out/b.epub" /\
  project_output Epub2 !"/home/u" !"/home/u/p" (fun _ => false) (Some !"c.epub") !"out/b.epub" = Ok !"/home/u/c.epub".
Proof. split; reflexivity. Qed.

(** A project without output file always fails for EPUB, although the argument has a default value. *)
Theorem C51_project_default_refuted : forall t cwd project_dir is_dir,
  t = Epub2 \/ t = Epub3 -> project_output t cwd project_dir is_dir None [] = Err.
Proof. exact project_without_output. Qed.
Print Assumptions C51_project_default_refuted.

(** For statistics, any path without the expected ending is replaced by a file in the working directory, even a folder
    given by the user. *)
Theorem C51_stats_refuted : forall cwd is_dir f,
  path_is_abs cwd = true -> f <> [] -> path_is_abs f = true ->
  (has_suffix !"json" f = false -> is_dir (path_join [cwd; !"stats.json"]) = false ->
   single_output StatsJson cwd is_dir (Some f) = Ok (path_join [cwd; !"stats.json"])) /\
  (has_suffix !"txt" f = false -> is_dir (path_join [cwd; !"stats.txt"]) = false ->
   single_output StatsTxt cwd is_dir (Some f) = Ok (path_join [cwd; !"stats.txt"])).
Proof. exact stats_redirected. Qed.
Print Assumptions C51_stats_refuted.
Example C51_stats_example :
  single_output StatsJson !"/home/u" (str_eqb !"/home/u/books") (Some !"/home/u/books") = Ok !"/home/u/stats.json".
Proof. reflexivity. Qed.

(** With the expected ending, the output goes to the wanted file. *)
Theorem C51_stats_partial : forall cwd is_dir f,
  path_is_abs cwd = true -> path_is_abs f = true ->
  (has_suffix !"json" f = true ->
   single_output StatsJson cwd is_dir (Some f) = Ok (if is_dir f then path_join [f; !"stats.json"] else f)) /\
  (has_suffix !"txt" f = true ->
   single_output StatsTxt cwd is_dir (Some f) = Ok (if is_dir f then path_join [f; !"stats.txt"] else f)).
Proof. exact stats_kept. Qed.
Print Assumptions C51_stats_partial.

(** ** C52 *)

(** Pandoc reads exactly the settings from its arguments, and the chapters in the given order as input files. *)
Theorem C52_pandoc : forall c files out m, Forall (fun f => has_prefix !"-" f = false) files ->
  read_args (pandoc_args c files out m) =
  ([(!"-f", !"html"); (!"-t", pc_output_type c); (!"-o", out);
    (!"--metadata", !"title=" ++ md_title m); (!"--metadata", !"author=" ++ md_author m);
    (!"--metadata", !"rights=" ++ md_license m); (!"--metadata", !"language=" ++ md_language m);
    (!"--metadata", !"date=" ++ md_date m)] ++
   (match pc_toc_depth c with 0 => [] | S n => [(!"--toc", []); (!"--toc-depth", itoa (S n))] end) ++
   (match pc_data_dir c with [] => [] | d => [(!"--data-dir", d)] end) ++
   (match pc_style_file c with [] => [] | f => [(!"--css", f)] end) ++
   (match pc_cover_image c with [] => [] | f => [(!"--epub-cover-image=", f)] end) ++
   map (fun f => (!"--epub-embed-font=", f)) (pc_font_files c), files).
Proof. exact pandoc_args_read. Qed.
Print Assumptions C52_pandoc.
Example C52_example :
  let c := mkPandocConfig !"epub2" 2 [] !"/s.css" [] [!"/a b.ttf"; !"/c.ttf"] in
  let '(opts, files) := read_args (pandoc_args c [!"/c/html/A.html"; !"/c/html/B.html"] !"/o.epub" (mkMetadata !"-T" [] [] [] [])) in
  files = [!"/c/html/A.html"; !"/c/html/B.html"] /\ List.length opts = 13.
Proof. split; reflexivity. Qed.
