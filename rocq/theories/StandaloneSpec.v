(** * Specification of the book of a file *)

From Coq Require Import Ascii String.
From Coq Require Import List Arith Bool.
From Verif Require Import GoStr ConfigModel CacheModel HttpModel HttpSpec ServiceModel TokenModel ArticleModel BookSpec.
Import ListNotations.
Local Open Scope list_scope.

(** The title of the book: the name of the file up to its first dot *)
Definition title_of (inputFile title : str) : Prop :=
  exists folder ending, inputFile = folder ++ title ++ ending /\
    (folder = [] \/ exists f, folder = f ++ !"/") /\ ~ In "/"%char (title ++ ending) /\
    ~ In "."%char title /\ (ending = [] \/ exists e, ending = !"." ++ e).

(** [output] is what the generator makes of the text, with the answers to its templates and the pictures of its formulas. *)
Definition made_from (ext : externals) (wiki : wiki_config) (jobs : list job) (cfg : configuration)
    (generate : str -> str -> Tokenizer -> list (str * (path * path)) -> str -> Prop) (net : list net_event) (title text output : str) : Prop :=
  exists service content t formulas,
    (forall before template answer, service before template = Some answer -> template_delivered ext wiki jobs net template answer) /\
    Tokenize (Hash ext) service cfg text (ArticleModel.Article content t) /\
    (forall formula svg png, In (formula, (svg, png)) formulas -> formula_delivered ext wiki jobs net formula svg png) /\
    generate title content t formulas output.
