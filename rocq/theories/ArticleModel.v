(** * Model of [Tokenize], src/parser/tokenizer.go 84-116 *)

From Coq Require Import Ascii String.
From Coq Require Import List Arith Bool.
From Verif Require Import GoStr ConfigModel CleanerModel TemplateModel TokenModel TokenizerModel.
Import ListNotations.
Local Open Scope list_scope.

(** The end of a call of [Tokenize]: an article (its content, and the tokenizer with the token map and the images), an error, or a crash of
    the program *)
Inductive outcome := Article (content : str) (t : Tokenizer) | Failed | Crashed.

(** A result of a part of the program that is returned by the whole *)
Inductive stops {A} : res A -> outcome -> Prop :=
| stops_error : stops Err Failed
| stops_panic : stops Panic Crashed.

Section Tokenize.
Variable Hash : str -> str.
Variable service : list str -> str -> option str.
Variable cfg : configuration.

(** The end of [Tokenize] behind the template evaluation, src/parser/tokenizer.go 99-115.  The tokenizer is a new one; fuel is what the model
    of the loops needs, the program has no such bound, so any sufficient fuel will do. *)
Inductive TokenizeCleaned : str -> outcome -> Prop :=
| cleaned_stops : forall content o, stops (clean cfg content) o -> TokenizeCleaned content o
| cleaned_article : forall content content' fuel text t, clean cfg content = Ok content' ->
    tokenizeContent cfg fuel content' NewTokenizer = Ok (text, t) -> TokenizeCleaned content (Article text t)
| cleaned_crash : forall content content' fuel o, clean cfg content = Ok content' ->
    stops (tokenizeContent cfg fuel content' NewTokenizer) o -> TokenizeCleaned content o.

(** [Tokenize], src/parser/tokenizer.go 84-116: the possible ends of a call.  There is more than one if the order of iteration over the map of
    the templates matters, and none if the call never ends.  The title is only copied. *)
Inductive Tokenize : str -> outcome -> Prop :=
| tokenize_stops : forall content o, stops (clean cfg content) o -> Tokenize content o
| tokenize_template : forall content content' st r o, clean cfg content = Ok content' ->
    evaluateTemplates_first Hash service content' = (st, r) -> stops r o -> Tokenize content o
| tokenize_rest : forall content content' st first resolved o, clean cfg content = Ok content' ->
    evaluateTemplates_first Hash service content' = (st, Ok first) -> resolves (placeholders st) first resolved ->
    TokenizeCleaned resolved o -> Tokenize content o.
End Tokenize.
