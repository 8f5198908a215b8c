(** * Model of src/generator/epub.go (apart from the arguments for pandoc, see MainModel.v) and of the choice of the generator in src/main.go *)

From Coq Require Import Ascii String.
From Coq Require Import List Arith Bool.
From Verif Require Import GoStr UtilModel PoolModel MainModel.
Import ListNotations.
Local Open Scope list_scope.

(** ** The EPUB library

    github.com/go-shiori/go-epub is not part of the repository.  A book is the data it has been given; every function that returns an error may
    fail at any time. *)

Record book := mkBook {
  bk_title : str; bk_author : str; bk_language : str;
  bk_cover : option str;              (* file with the cover image *)
  bk_sections : list (str * str);     (* title and content, in reading order *)
  bk_css : list (str * str);          (* file and its name within the book *)
  bk_fonts : list (str * str) }.

(** The calls of library functions which might fail *)
Inductive library_call := NewEpub | AddImage (source : str) | SetCover | AddSection (content : str) | AddCSS (source : str) | AddFont (source : str) | Write (file : str).

(** ** Titles *)

(** Text in front of the last occurrence of [p] *)
Fixpoint before_last (p s : str) : option str :=
  match s with
  | [] => if has_prefix p [] then Some [] else None
  | c :: s' => match before_last p s' with
               | Some a => Some (c :: a)
               | None => if has_prefix p s then Some [] else None
               end
  end.

(** The submatch of the regular expression in epub.go 98, 109: any text, as long as possible, between <h1> and </h1>.  The match begins at the first <h1> with a </h1> behind it: as
    every later <h1> has fewer text behind it, this is the first <h1> or there is no match.  The group is greedy: it ends at the last </h1>. *)
Definition heading_title (fileContent : str) : option str :=
  match index !"<h1>" fileContent with
  | Some i => before_last !"</h1>" (skipn (i + 4) fileContent)
  | None => None
  end.

(** Settings used by the internal driver *)
Record book_config := mkBookConfig { bc_style_file : str; bc_cover_image : str; bc_font_files : list str }.

Section Library.
  Variable fails : library_call -> bool.      (* Does the library return an error? *)
  Variable read_file : str -> option str.     (* os.ReadFile *)

  Definition attempt (c : library_call) (b : book) : res book := if fails c then Err else Ok b.

  (** epub.go 100-118; the index [1] of a missing match panics *)
  Fixpoint add_sections (sourceFiles : list str) (b : book) : res book :=
    match sourceFiles with
    | [] => Ok b
    | f :: rest =>
        match read_file f with
        | None => Err
        | Some fileContent =>
            match heading_title fileContent with
            | None => Panic
            | Some sectionTitle =>
                let! b' := attempt (AddSection fileContent)
                             (mkBook (bk_title b) (bk_author b) (bk_language b) (bk_cover b) (bk_sections b ++ [(sectionTitle, fileContent)]) (bk_css b) (bk_fonts b)) in
                add_sections rest b'
            end
        end
    end.

  (** epub.go 136-142 *)
  Fixpoint add_fonts (fontFiles : list str) (b : book) : res book :=
    match fontFiles with
    | [] => Ok b
    | f :: rest =>
        let! b' := attempt (AddFont f) (mkBook (bk_title b) (bk_author b) (bk_language b) (bk_cover b) (bk_sections b) (bk_css b) (bk_fonts b ++ [(f, f)])) in
        add_fonts rest b'
    end.

  (** GenerateEpubWithGoLibrary, epub.go 77-150: the book that has been written into the output file.  Embedding of the images (line 117) is up to
      the library. *)
  Definition GenerateEpubWithGoLibrary (c : book_config) (sourceFiles : list str) (outputFile : str) (m : metadata) : res book :=
    let! b := attempt NewEpub (mkBook (md_title m) (md_author m) (md_language m) None [] [] []) in
    let! _ := attempt (AddImage (bc_cover_image c)) b in
    let! b := attempt SetCover (mkBook (bk_title b) (bk_author b) (bk_language b) (Some (bc_cover_image c)) [] [] []) in
    let! b := add_sections sourceFiles b in
    let! b := attempt (AddCSS (bc_style_file c))
                (mkBook (bk_title b) (bk_author b) (bk_language b) (bk_cover b) (bk_sections b) (bk_css b ++ [(bc_style_file c, !"style.css")]) (bk_fonts b)) in
    let! b := add_fonts (bc_font_files c) b in
    attempt (Write outputFile) b.

  (** ** The generator of a command *)

  (** What has been written into the output file: the book of the internal driver, what pandoc makes of its arguments, or statistics *)
  Inductive written_output := InternalBook (b : book) | PandocBook (args : list str) | Statistics (files : list str).

  Variable pandoc_fails : list str -> bool.
  Variable stats_fail : list str -> bool.

  Definition pandoc_settings (t : output_type) (toc : nat) (dataDir : str) (c : book_config) : pandoc_config :=
    mkPandocConfig (match t with Epub2 => !"epub2" | Epub3 => !"epub3" | StatsJson => !"stats-json" | StatsTxt => !"stats-txt" end) toc dataDir
      (bc_style_file c) (bc_cover_image c) (bc_font_files c).

  (** GenerateEpub, epub.go 16-34 *)
  Definition GenerateEpub (t : output_type) (driver : str) (toc : nat) (dataDir : str) (c : book_config) (articleFiles : list str) (outputFile : str) (m : metadata) : res written_output :=
    if is_stats t then Err
    else if str_eqb driver !"pandoc" then
      let args := pandoc_args (pandoc_settings t toc dataDir c) articleFiles outputFile m in
      if pandoc_fails args then Err else Ok (PandocBook args)
    else if str_eqb driver !"internal" then
      let! b := GenerateEpubWithGoLibrary c articleFiles outputFile m in Ok (InternalBook b)
    else Err.

  (** The end of generateStandaloneEbook, main.go 303-310; [chapter] is the generated HTML file *)
  Definition standalone_output (t : output_type) (driver : str) (toc : nat) (dataDir : str) (c : book_config) (chapter outputFile title : str) : res written_output :=
    GenerateEpub t driver toc dataDir c [chapter] outputFile (mkMetadata title [] [] [] []).

  (** The end of generateBookFromArticles, main.go 397-411; see StatsModel.v for the content of the statistics *)
  Definition articles_output (t : output_type) (driver : str) (toc : nat) (dataDir : str) (c : book_config) (files : list str) (outputFile : str) (m : metadata) : res written_output :=
    if is_stats t then (if stats_fail files then Err else Ok (Statistics files))
    else GenerateEpub t driver toc dataDir c files outputFile m.
End Library.
