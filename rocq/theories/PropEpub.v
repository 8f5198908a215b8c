(** * C59: books of the internal driver and the output of the commands *)

From Coq Require Import Ascii String.
From Coq Require Import List Arith Bool.
From Verif Require Import GoStr GoStrFacts UtilModel PoolModel MainModel ConfigModel TokenModel ExpandModel TokenizerModel HtmlModel EpubModel EpubSpec EpubProofs PropPasses PropHtml.
Import ListNotations.
Local Open Scope list_scope.

(** Whatever the library does: there is an error, and only because the library failed, or the book has one section per file, in order, with the heading
    of the file as title and the text of the file as content; and it has the title, author, language, cover, style sheet and fonts wanted. *)
Theorem C59_book_partial : forall fails read_file c files chapters outputFile m,
  Forall2 (fun f ch => read_file f = Some (chapter_text ch) /\ only_heading ch) files chapters ->
  let result := GenerateEpubWithGoLibrary fails read_file c files outputFile m in
  (result = Err /\ exists call, fails call = true) \/
  (exists b, result = Ok b /\
     bk_title b = md_title m /\ bk_author b = md_author m /\ bk_language b = md_language m /\
     bk_cover b = Some (bc_cover_image c) /\
     bk_sections b = map (fun ch => (ch_title ch, chapter_text ch)) chapters /\
     map fst (bk_css b) = [bc_style_file c] /\ map fst (bk_fonts b) = bc_font_files c).
Proof.
  intros fails read_file c files chapters outputFile m F result. destruct (book_spec fails read_file c files chapters outputFile m F) as [H|H]; [left; exact H|right].
  eexists. split; [exact H|]. cbn [bk_title bk_author bk_language bk_cover bk_sections bk_css bk_fonts]. repeat split. rewrite map_map. apply map_id.
Qed.
Print Assumptions C59_book_partial.

(** The sections of generated articles: if the files hold the HTML of articles whose text has no heading of the first level, the titles of the sections
    are the titles of the articles. *)
Record article := mkArticle { ar_title : str; ar_content : str; ar_tokens : list (str * Token) }.
Definition page_of cfg renderMath fuel styleFile (a : article) (html : str) : Prop :=
  generateHtml cfg renderMath (ar_tokens a) fuel styleFile (ar_title a) (ar_content a) = Ok html /\
  exists body, htmlExpand cfg renderMath (ar_tokens a) fuel (ar_content a) = Ok body /\ ~ occurs !"</h1>" body.

Theorem C59_articles_partial : forall cfg renderMath fuel styleFile fails read_file c files articles outputFile m b,
  ~ occurs !"<h1>" styleFile ->
  Forall2 (fun f a => exists html, read_file f = Some html /\ page_of cfg renderMath fuel styleFile a html) files articles ->
  GenerateEpubWithGoLibrary fails read_file c files outputFile m = Ok b ->
  map fst (bk_sections b) = map ar_title articles /\
  Forall2 (fun f s => read_file f = Some (snd s)) files (bk_sections b).
Proof.
  intros cfg renderMath fuel styleFile fails read_file c files articles outputFile m b S F H.
  assert (C : exists chapters, Forall2 (fun f ch => read_file f = Some (chapter_text ch) /\ only_heading ch) files chapters /\ map ch_title chapters = map ar_title articles).
  { clear H. induction F as [|f a files articles (html & R & G & body & E & B) F (chapters & C & T)]; [exists []; split; [constructor|reflexivity]|].
    destruct (page_chapter _ _ _ _ _ _ _ _ _ G E S B) as (ch & -> & O & T'). exists (ch :: chapters). split; [constructor; auto|]. cbn [map]. congruence. }
  destruct C as (chapters & C & T). destruct (book_spec fails read_file c files chapters outputFile m C) as [(X & _)|X]; rewrite X in H; [discriminate|].
  assert (B : bk_sections b = map (fun ch => (ch_title ch, chapter_text ch)) chapters) by (injection H as <-; reflexivity). rewrite B. split.
  - rewrite map_map. cbn [fst]. exact T.
  - clear - C. induction C as [|f ch files chapters (R & _) C IH]; cbn [map]; constructor; auto.
Qed.
Print Assumptions C59_articles_partial.

(** There is no book with missing chapters: every file has been read and has a heading. *)
Theorem C59_complete : forall fails read_file c files outputFile m b, GenerateEpubWithGoLibrary fails read_file c files outputFile m = Ok b ->
  Forall (fun f => exists s, read_file f = Some s /\ occurs !"<h1>" s) files.
Proof.
  intros fails read_file c files outputFile m b H. apply book_read in H as (_ & H). apply Forall_impl with (2 := H). intros f (s & R & N). exists s. split; auto.
  destruct (contains !"<h1>" s) eqn:E.
  - apply contains_spec in E as (x & y & E). exists x, y. exact E.
  - exfalso. apply N. apply title_none. apply occurs_contains. exact E.
Qed.
Print Assumptions C59_complete.

(** Every command writes the output of the wanted type: a book for EPUB types; statistics for the others, except for standalone files, which
    always fail at the very end. *)
Theorem C59_output_type_partial : forall fails read_file pandoc_fails stats_fail t driver toc dataDir c files outputFile m out,
  articles_output fails read_file pandoc_fails stats_fail t driver toc dataDir c files outputFile m = Ok out ->
  match t with
  | Epub2 | Epub3 => (exists args, out = PandocBook args /\ driver = !"pandoc") \/ (exists b, out = InternalBook b /\ driver = !"internal")
  | StatsJson | StatsTxt => out = Statistics files
  end.
Proof.
  intros fails read_file pandoc_fails stats_fail t driver toc dataDir c files outputFile m out H.
  assert (A : is_stats t = false -> GenerateEpub fails read_file pandoc_fails t driver toc dataDir c files outputFile m = Ok out ->
              (exists args, out = PandocBook args /\ driver = !"pandoc") \/ (exists b, out = InternalBook b /\ driver = !"internal")).
  { intros S G. unfold GenerateEpub in G. rewrite S in G. destruct (str_eqb driver !"pandoc") eqn:P.
    - apply str_eqb_eq in P. destruct (pandoc_fails _); [discriminate|]. left. eexists. split; [|exact P]. symmetry. injection G as G. exact G.
    - destruct (str_eqb driver !"internal") eqn:I; [|discriminate]. apply str_eqb_eq in I.
      destruct (GenerateEpubWithGoLibrary _ _ _ _ _ _) as [b| | |]; try discriminate. right. exists b. split; [|exact I]. cbn [bind] in G. congruence. }
  destruct t; unfold articles_output in H; cbn [is_stats] in H; try (apply A; [reflexivity|exact H]);
    destruct (stats_fail files); try discriminate; congruence.
Qed.
Print Assumptions C59_output_type_partial.

Theorem C59_refuted_standalone : forall fails read_file pandoc_fails t driver toc dataDir c chapter outputFile title, t = StatsJson \/ t = StatsTxt ->
  standalone_output fails read_file pandoc_fails t driver toc dataDir c chapter outputFile title = Err.
Proof. intros fails read_file pandoc_fails t driver toc dataDir c chapter outputFile title [->| ->]; reflexivity. Qed.
Print Assumptions C59_refuted_standalone.

(** License and date of the project do not get into the book. *)
Theorem C59_refuted_metadata : forall fails read_file c files outputFile title language author license license' date date',
  GenerateEpubWithGoLibrary fails read_file c files outputFile (mkMetadata title language author license date) =
  GenerateEpubWithGoLibrary fails read_file c files outputFile (mkMetadata title language author license' date').
Proof. reflexivity. Qed.
Print Assumptions C59_refuted_metadata.

(** If the library refuses an image without a file, there is no book without a cover image. *)
Theorem C59_refuted_cover : forall fails read_file c files outputFile m, bc_cover_image c = [] -> fails (AddImage []) = true ->
  forall b, GenerateEpubWithGoLibrary fails read_file c files outputFile m <> Ok b.
Proof. intros fails read_file c files outputFile m C F b H. apply book_read in H as (H & _). congruence. Qed.
Print Assumptions C59_refuted_cover.

(** An article whose HTML is reused is handed over as an empty path (see C45): there is no book at all. *)
Theorem C59_refuted_reused : forall fails read_file c cwd file_exists generate name before behind outputFile m,
  file_exists (path_join [cwd; html_file name]) = true -> read_file [] = None ->
  forall b, GenerateEpubWithGoLibrary fails read_file c (before ++ processArticle Epub3 false cwd file_exists generate name :: behind) outputFile m <> Ok b.
Proof.
  intros fails read_file c cwd file_exists generate name before behind outputFile m X R b H. apply book_read in H as (_ & H).
  apply Forall_app in H as (_ & H). inversion H as [|? ? (s & E & _) _]. unfold processArticle, shouldRecreateHtml in E. rewrite X in E. cbn [orb is_stats negb] in E. congruence.
Qed.
Print Assumptions C59_refuted_reused.

(** A heading of the first level within an article: everything from the title to this heading is the title of the section. *)
Theorem C59_refuted_heading : exists content t html,
  tokenizeContent default_config 4 (!"first" ++ nl ++ !"= Part =" ++ nl ++ !"second") NewTokenizer = Ok (content, t) /\
  generateHtml default_config no_math (tokenMap t) 4 !"style.css" !"Title" content = Ok html /\
  heading_title html = Some (!"Title</h1>" ++ nl ++ !"first" ++ nl ++ !"<h1>Part").
Proof. do 3 eexists. split; [vm_compute; reflexivity|]. split; [vm_compute; reflexivity|]. vm_compute. reflexivity. Qed.
Print Assumptions C59_refuted_heading.

(** ** Example *)

Definition example_files (f : str) : option str :=
  if str_eqb f !"a.html" then Some !"<body><h1>A</h1>text <h2>b</h2></body>" else if str_eqb f !"b.html" then Some !"<h1>B</h1>more" else None.

Example C59_example :
  (exists chapters, Forall2 (fun f ch => example_files f = Some (chapter_text ch) /\ only_heading ch) [!"a.html"; !"b.html"] chapters /\
                    map ch_title chapters = [!"A"; !"B"]) /\
  (exists b, GenerateEpubWithGoLibrary (fun _ => false) example_files (mkBookConfig !"style.css" !"cover.png" [!"font.ttf"]) [!"a.html"; !"b.html"] !"out.epub"
               (mkMetadata !"Book" !"en" !"Author" !"CC" !"2024") = Ok b /\
             bk_title b = !"Book" /\
             bk_sections b = [(!"A", !"<body><h1>A</h1>text <h2>b</h2></body>"); (!"B", !"<h1>B</h1>more")] /\
             bk_css b = [(!"style.css", !"style.css")] /\ bk_fonts b = [(!"font.ttf", !"font.ttf")]) /\
  GenerateEpubWithGoLibrary (fun _ => false) (fun _ => Some !"no heading") (mkBookConfig [] !"cover.png" []) [!"a.html"] !"out.epub" (mkMetadata [] [] [] [] []) = Panic /\
  GenerateEpubWithGoLibrary (fun _ => false) example_files (mkBookConfig [] !"cover.png" []) [!"c.html"] !"out.epub" (mkMetadata [] [] [] [] []) = Err.
Proof.
  split; [|split; [|split; vm_compute; reflexivity]].
  - exists [mkChapter !"<body>" !"A" !"text <h2>b</h2></body>"; mkChapter [] !"B" !"more"]. split; [|reflexivity].
    repeat (apply Forall2_cons || apply Forall2_nil || apply conj); try (apply occurs_contains; vm_compute; reflexivity); vm_compute; reflexivity.
  - eexists. split; [vm_compute; reflexivity|]. repeat split.
Qed.

Example C59_page_example : exists content t html,
  tokenizeContent default_config 4 (!"first" ++ nl ++ !"== Part ==" ++ nl ++ !"second") NewTokenizer = Ok (content, t) /\
  page_of default_config no_math 4 !"style.css" (mkArticle !"Title" content (tokenMap t)) html /\ heading_title html = Some !"Title".
Proof.
  do 3 eexists. split; [vm_compute; reflexivity|]. split; [split; [vm_compute; reflexivity|]|vm_compute; reflexivity].
  eexists. split; [vm_compute; reflexivity|]. apply occurs_contains. vm_compute. reflexivity.
Qed.
