(** * Specification of a generated book *)

From Coq Require Import Ascii String.
From Coq Require Import List Arith Bool.
From Verif Require Import GoStr CleanupSpec UtilModel ConfigModel CacheModel CacheSpec HttpModel HttpSpec ServiceModel ServiceSpec BracketSpec TemplateSpec CleanerModel TokenModel ArticleModel HtmlModel DocumentSpec BookModel.
Import ListNotations.
Local Open Scope list_scope.

(** The host has delivered a complete response for the article, whose text is [text]. *)
Definition delivered (ext : externals) (host : str) (net : list net_event) (title text : str) : Prop :=
  exists data, got net (article_address ext host title) data /\ json_article_text ext data = text.

(** The answer to a template: a host has expanded this template, or one with the same hash value; it is the own host or that of an earlier job. *)
Definition template_delivered (ext : externals) (wiki : wiki_config) (jobs : list job) (net : list net_event) (template text : str) : Prop :=
  exists wiki' template' data, Hash ext template' = Hash ext template /\ (wiki' = wiki \/ In (GetTemplate wiki' template') jobs) /\
    got net (template_address ext wiki' template') data /\ json_template ext data = Some text.

(** The files of a formula have the name that a server has given to this formula, or to one with the same hash value. *)
Definition formula_delivered (ext : externals) (wiki : wiki_config) (jobs : list job) (net : list net_event) (formula : str) (svg png : path) : Prop :=
  exists wiki' formula' name, Hash ext formula' = Hash ext formula /\ (wiki' = wiki \/ exists j, In j jobs /\ reads_formula j wiki' formula') /\
    named net (formula_address wiki') (formula_data ext formula') name /\
    svg = cache_path !"images" (name ++ !".svg") /\ (png = svg \/ png = cache_path !"images" (name ++ !".png")).

(** [output] is what the generator makes of a text that was delivered for the title, with the answers to its templates and the pictures of its formulas. *)
Definition made_of (ext : externals) (wiki : wiki_config) (jobs : list job) (cfg : configuration)
    (generate : str -> str -> Tokenizer -> list (str * (path * path)) -> str -> Prop) (net : list net_event) (title output : str) : Prop :=
  exists text service content t formulas, delivered ext (own_host wiki) net title text /\
    (forall before template answer, service before template = Some answer -> template_delivered ext wiki jobs net template answer) /\
    Tokenize (Hash ext) service cfg text (ArticleModel.Article content t) /\
    (forall formula svg png, In (formula, (svg, png)) formulas -> formula_delivered ext wiki jobs net formula svg png) /\
    generate title content t formulas output.

(** Nobody has looked for the article on another host. *)
Definition only_here (host title : str) (jobs : list job) : Prop :=
  forall j host' title', In j jobs -> reads_article j host' title' -> same_title title title' -> host' = host.

(** The text becomes the document when it is cleaned up and its templates are evaluated (see C60).  [answer]: the answers to the templates *)
Definition stands_for (Hash : str -> str) (answer : str -> list TemplateSpec.piece) (cfg : configuration) (text : str) (doc : list block) : Prop :=
  writes doc text \/ exists cleaned, tidied cfg text cleaned /\
    (writes doc cleaned \/
     exists l tree, reading !"{{" !"}}" cleaned l /\ closed l tree /\ (forall s, hash_value (Hash s)) /\
       (forall p q, In p (all_requests Hash tree) -> In q (all_requests Hash tree) -> Hash p = Hash q -> p = q) /\
       writes doc (evaluations Hash answer tree) /\ contains !"TEMPLATE_PLACEHOLDER_" (evaluations Hash answer tree) = false).

(** The page for a document *)
Definition document_page (cfg : configuration) (pictures : str -> str * str * str * str) (styleFile title : str) (doc : list block) : str :=
  HEADER styleFile ++ nl ++ !"<h1>" ++ title ++ !"</h1>" ++ nl ++ document_html cfg pictures doc ++ FOOTER.

(** [page] is the page for the document; the pictures of its formulas are the files that were delivered for them. *)
Definition page_of (cfg : configuration) (ext : externals) (wiki : wiki_config) (jobs : list job) (net : list net_event) (sizes : str -> str -> str -> Prop) (styleFile title : str) (doc : list block) (page : str) : Prop :=
  exists pictures, page = document_page cfg pictures styleFile title doc /\
    forall formula, In formula (document_formulas doc) ->
      exists svg png width height style, formula_delivered ext wiki jobs net formula svg png /\ pictures formula = (join !"/" png, width, height, style) /\ sizes width height style.

(** The headings of the document are below the title. *)
Definition no_top_heading (doc : list block) : Prop := Forall (fun b => section_level b <> Some 1) doc.
