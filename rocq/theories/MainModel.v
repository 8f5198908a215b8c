(** * Model of src/main.go (apart from the worker pool), src/util/cmd.go and src/image/image.go

    Log output and fatal errors while creating directories are left out. *)

From Coq Require Import Ascii String.
From Coq Require Import List Arith Bool.
From Verif Require Import GoStr UtilModel PoolModel.
Import ListNotations.
Local Open Scope list_scope.

(** config.OutputType..., src/config/config.go:21-24 *)
Inductive output_type := Epub2 | Epub3 | StatsJson | StatsTxt.

Definition is_stats (t : output_type) : bool := match t with StatsJson | StatsTxt => true | _ => false end.

(** shouldRecreateHtml, main.go:473-483; [exists_] is the result of os.Stat *)
Definition shouldRecreateHtml (t : output_type) (exists_ forceHtmlRecreate : bool) : bool :=
  if forceHtmlRecreate || is_stats t then true else negb exists_.

(** The path checked by processArticle, main.go:428; relative to the working directory *)
Definition html_file (articleName : str) : str := path_join [!"html"; articleName ++ !".html"].

Section Articles.
  Variable t : output_type.
  Variable ForceRegenerateHtml : bool.
  Variable cwd : str.                          (* working directory; for projects the folder of the project file *)
  Variable file_exists : str -> bool.          (* Is there a file at this absolute path? *)
  (* Download, tokenize, download images, generate the output: the path of the generated file.  main.go:434-465 *)
  Variable generate : str -> str.

  (** processArticle, main.go:424-471 *)
  Definition processArticle (articleName : str) : str :=
    if negb (shouldRecreateHtml t (file_exists (path_join [cwd; html_file articleName])) ForceRegenerateHtml) then []
    else generate articleName.

  (** The file used as chapter by generateStandaloneEbook, main.go:291-301 *)
  Definition standalone_chapter (title : str) : str :=
    if shouldRecreateHtml t (file_exists (path_join [cwd; html_file title])) ForceRegenerateHtml then generate title
    else html_file title.

  (** The work of one worker on an article, main.go:377 *)
  Definition process_relation (articleName output : str) : Prop := output = processArticle articleName.
End Articles.

(** The file written by HtmlGenerator.Generate, src/generator/html.go:401-420 *)
Definition generated_html (cacheDir articleName : str) : str := GetFilePathInCache cacheDir !"html" (articleName ++ !".html").

Definition defaultEpubOutputFile : str := !"ebook.epub".
Definition defaultStatsJsonOutputFile : str := !"stats.json".
Definition defaultStatsTxtOutputFile : str := !"stats.txt".

(** util.ToAbsolutePath, src/util/files.go:73-80; [cwd] is the working directory *)
Definition ToAbsolutePath (cwd path : str) : str :=
  if negb (str_eqb path []) && negb (path_is_abs path) then path_join [cwd; path] else path.

(** The path computed by ensurePathsAndClearTempDir, main.go:487-542; [is_dir]: is there a directory at this path?
    Opening or creating the file (main.go:505-518) fails for the empty path, other failures are left out. *)
Definition output_path (t : output_type) (cwd : str) (is_dir : str -> bool) (outputFile : str) : res str :=
  let f1 := match t with
            | StatsJson => if negb (has_suffix !"json" outputFile) then ToAbsolutePath cwd defaultStatsJsonOutputFile else outputFile
            | StatsTxt => if negb (has_suffix !"txt" outputFile) then ToAbsolutePath cwd defaultStatsTxtOutputFile else outputFile
            | _ => outputFile
            end in
  if str_eqb f1 [] then Err
  else
    let f2 := if is_dir f1 then
                path_join [f1; match t with
                               | Epub2 | Epub3 => defaultEpubOutputFile
                               | StatsJson => defaultStatsJsonOutputFile
                               | StatsTxt => defaultStatsTxtOutputFile
                               end]
              else f1 in
    Ok (ToAbsolutePath cwd f2).

(** The output file of an article or standalone command: initialize (main.go:211) and ensurePathsAndClearTempDir.
    [cli] is the value of the argument if it has been given, its default is defined in main.go:76. *)
Definition single_output (t : output_type) (cwd : str) (is_dir : str -> bool) (cli : option str) : res str :=
  output_path t cwd is_dir (ToAbsolutePath cwd (match cli with Some f => f | None => defaultEpubOutputFile end)).

(** The output file of a project command, main.go:120-124, 211 and 243-250.  [cwd] is the working directory of the user,
    [project_dir] the folder of the project file and [project_file] the value in the project file (empty if missing). *)
Definition project_output (t : output_type) (cwd project_dir : str) (is_dir : str -> bool) (cli : option str) (project_file : str) : res str :=
  let outputFile := match cli with Some f => ToAbsolutePath cwd f | None => [] end in
  let f := if negb (str_eqb outputFile []) then outputFile else project_file in
  output_path t project_dir is_dir (ToAbsolutePath project_dir f).

Definition InputPlaceholder : str := !"{INPUT}".
Definition OutputPlaceholder : str := !"{OUTPUT}".

(** The command line built by ConvertToPng, src/image/image.go:36-44, and by ResizeAndCompressImage (lines 25-34), where
    input and output are the same file *)
Definition command_string (commandTemplate inputFile outputFile : str) : str :=
  replace_all OutputPlaceholder outputFile (replace_all InputPlaceholder inputFile commandTemplate).

(** Program and arguments, util.ExecuteCommandWithArgs, src/util/cmd.go:12-18 *)
Definition command_argv (commandString : str) : list str := split !" " commandString.

Definition convert_argv (commandTemplate inputFile outputFile : str) : list str :=
  command_argv (command_string commandTemplate inputFile outputFile).

(** ** src/generator/epub.go *)

(** config.Metadata, src/config/project.go:20-26 *)
Record metadata := mkMetadata { md_title : str; md_language : str; md_author : str; md_license : str; md_date : str }.

(** Settings used by GenerateEpubWithPandoc *)
Record pandoc_config := mkPandocConfig {
  pc_output_type : str; pc_toc_depth : nat; pc_data_dir : str; pc_style_file : str; pc_cover_image : str; pc_font_files : list str }.

(** The arguments for pandoc, GenerateEpubWithPandoc, epub.go:36-68 *)
Definition pandoc_args (c : pandoc_config) (sourceFiles : list str) (outputFile : str) (m : metadata) : list str :=
  [!"-f"; !"html"; !"-t"; pc_output_type c; !"-o"; outputFile;
   !"--metadata"; !"title=" ++ md_title m;
   !"--metadata"; !"author=" ++ md_author m;
   !"--metadata"; !"rights=" ++ md_license m;
   !"--metadata"; !"language=" ++ md_language m;
   !"--metadata"; !"date=" ++ md_date m] ++
  (if Nat.ltb 0 (pc_toc_depth c) then [!"--toc"; !"--toc-depth"; itoa (pc_toc_depth c)] else []) ++
  (if negb (str_eqb (pc_data_dir c) []) then [!"--data-dir"; pc_data_dir c] else []) ++
  (if negb (str_eqb (pc_style_file c) []) then [!"--css"; pc_style_file c] else []) ++
  (if negb (str_eqb (pc_cover_image c) []) then [!"--epub-cover-image=" ++ pc_cover_image c] else []) ++
  map (fun file => !"--epub-embed-font=" ++ file) (pc_font_files c) ++
  sourceFiles.
