(** * Specification: which answers the workers get *)

From Coq Require Import Ascii String.
From Coq Require Import List ZArith Bool.
From Verif Require Import GoStr UtilModel CacheModel CacheSpec HttpModel HttpSpec ServiceModel.
Import ListNotations.
Local Open Scope list_scope.

(** A server has delivered the complete data for a URL. *)
Definition got (net : list net_event) (url data : str) : Prop :=
  exists q a, In (Asked q (Some a)) net /\ q_url q = url /\ q_post q = false /\ successful a /\ a_complete a = true /\ data = all_data (a_body a).

(** A server has received the data, accepted it and given it a name. *)
Definition named (net : list net_event) (url data name : str) : Prop :=
  exists q a, In (Asked q (Some a)) net /\ q_url q = url /\ q_post q = true /\ q_body q = data /\ q_unread q = data /\ successful a /\ a_location a = name /\ name <> [].

(** The job has to read the article.  (An image is found with the article about it, which is looked for on several hosts.) *)
Inductive reads_article : job -> str -> str -> Prop :=
| reads_own : forall wiki host title, reads_article (GetArticle wiki host title) host title
| reads_image : forall wiki images image host prefix name rest, In image images -> In host (wikipediaImageArticleHosts wiki) ->
    split !":" image = prefix :: name :: rest -> reads_article (GetImages wiki images) host (!"File:" ++ name).

(** The job has to ask for the name of the formula. *)
Inductive reads_formula : job -> wiki_config -> str -> Prop :=
| reads_name : forall wiki formula, reads_formula (GetMathResource wiki formula) wiki formula
| reads_picture : forall wiki converter formula, reads_formula (GetMath wiki converter formula) wiki formula.

(** Titles differ only in blanks and underscores. *)
Definition same_title (a b : str) : Prop := replace_all !" " !"_" a = replace_all !" " !"_" b.

(** ** Addresses *)

(** The host of the configured wiki *)
Definition own_host (wiki : wiki_config) : str := wikipediaInstance wiki ++ !"." ++ wikipediaHost wiki.

(** The addresses of the wikitext of an article and of the expansion of a template *)
Definition article_address (ext : externals) (host title : str) : str :=
  !"https://" ++ host ++ !"/w/api.php?action=parse&prop=wikitext&redirects=true&format=json&page=" ++ QueryEscape ext (replace_all !" " !"_" title).
Definition template_address (ext : externals) (wiki : wiki_config) (template : str) : str :=
  !"https://" ++ wikipediaInstance wiki ++ !"." ++ wikipediaHost wiki ++ !"/w/api.php?action=expandtemplates&format=json&prop=wikitext&text=" ++ QueryEscape ext template.

(** The address for checking formulas, and what is sent to it *)
Definition formula_address (wiki : wiki_config) : str := wikipediaMathRestApi wiki ++ !"/check/tex".
Definition formula_data (ext : externals) (formula : str) : str := !"q=" ++ QueryEscape ext (!"{\displaystyle " ++ formula ++ !"}").
