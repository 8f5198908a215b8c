(** * A parsed text contains no markup (C54) *)

From Coq Require Import Ascii String.
From Coq Require Import List Arith NArith ZArith Bool Lia.
From Verif Require Import GoStr GoStrFacts ConfigModel PassSpec ReferenceSpec TokenSpec MarkupSpec EndProofs SettledProofs TextsProofs MarkupProofs TokenModel TokenizerModel ArticleModel PropTokens.
Import ListNotations.
Local Open Scope list_scope.

(** C54: For every configuration whose file prefixes are words, every text and every state of the tokenizer: the result of the parser contains
    no markup. *)
Theorem C54_text : forall cfg fuel content t text t', word_prefixes cfg ->
  tokenizeContent cfg fuel content t = Ok (text, t') -> ~ markup cfg text.
Proof. intros cfg fuel content t text t' W E. apply rest_no_markup; auto. eapply tokenizeContent_rest. exact E. Qed.
Print Assumptions C54_text.

(** C54: The same holds for the texts of all tokens: titles of headings, texts of links and footnotes, captions, items of lists, cells of
    tables.  (White space at the ends of cells and captions of tables is removed afterwards: [l] and [r].) *)
Theorem C54_tokens : forall cfg fuel content text t', word_prefixes cfg ->
  tokenizeContent cfg fuel content NewTokenizer = Ok (text, t') ->
  forall key token x, In (key, token) (tokenMap t') -> In x (texts token) -> exists l r, blank l /\ blank r /\ ~ markup cfg (l ++ x ++ r).
Proof.
  intros cfg fuel content text t' W E. set (good := fun x => exists l r, blank l /\ blank r /\ ~ markup cfg (l ++ x ++ r)).
  assert (B : blank []) by constructor.
  assert (G0 : good []).
  { exists [], []. split; auto. split; auto. apply rest_no_markup; auto. apply (tokenizeContent_rest cfg 1 [] NewTokenizer [] NewTokenizer). vm_compute. reflexivity. }
  assert (G1 : forall x, good x -> good (trim_space x)).
  { intros x (l & r & L & R & N). destruct (trim_space_spec x) as (l' & r' & X & L' & R' & _). exists (l ++ l'), (r' ++ r). split; [apply made_of_app; auto|]. split; [apply made_of_app; auto|].
    intros M. apply N. rewrite X. rewrite <- !app_assoc in *. exact M. }
  assert (G2 : forall fuel s t r t', tokenizeContent cfg fuel s t = Ok (r, t') -> good r).
  { intros f s t r t1 F. exists [], []. split; auto. split; auto. rewrite app_nil_r. cbn [List.app]. exact (C54_text _ _ _ _ _ _ W F). }
  destruct (tokenizeContent_good good G0 G1 cfg G2 fuel content NewTokenizer text t') as (A & _); [apply Forall_nil|exact E|].
  intros key token x I J. unfold all_good in A. rewrite Forall_forall in A. specialize (A _ I). unfold token_good in A. rewrite Forall_forall in A. exact (A _ J).
Qed.
Print Assumptions C54_tokens.

(** C54: So no article that the program makes contains markup, whatever the templates evaluate to. *)
Theorem C54_article : forall Hash service cfg content text t, word_prefixes cfg -> Tokenize Hash service cfg content (Article text t) ->
  ~ markup cfg text /\
  forall key token x, In (key, token) (tokenMap t) -> In x (texts token) -> exists l r, blank l /\ blank r /\ ~ markup cfg (l ++ x ++ r).
Proof.
  intros Hash service cfg content text t W T.
  inversion T as [c o S|c c' st r o E F S|c c' st first resolved o E F R D]; subst; try solve [inversion S].
  inversion D as [c o S|c c1 fuel text' t1 E' F'|c c1 fuel o E' S]; subst; try solve [inversion S].
  split; [eapply C54_text; eauto|eapply C54_tokens; eauto].
Qed.
Print Assumptions C54_article.

Lemma default_prefixes : word_prefixes default_config.
Proof.
  intros p I. cbn in I. repeat (destruct I as [<-|I]; [split; [discriminate|]; intros J; cbn in J; repeat (destruct J as [J|J]; [discriminate J|]); exact J|]). destruct I.
Qed.

(** Non-trivial cases: texts with markup *)
Example C54_markup : markup default_config !"a [[b]]" /\ markup default_config (!"a" ++ nl ++ !" == b == ") /\ markup default_config !"a <REF>b</ref>" /\
  markup default_config !"[http://a.b c]" /\ markup default_config (!"a" ++ nl ++ nl ++ !"b") /\ markup default_config !"a<ref name=b/>c".
Proof.
  split; [apply (markup_link _ !"a " !"b]]")|]. split.
  { apply markup_heading with (l := !" ") (x := !"= b =") (r := !" "); [|apply (made_cons _ !" " []); [cbn; tauto|constructor]|apply (made_cons _ !" " []); [cbn; tauto|constructor]].
    split; [intros H; cbn in H; repeat (destruct H as [H|H]; [discriminate H|]); exact H|]. exists (!"a" ++ nl), []. split; [reflexivity|]. split; [right; exists !"a"; reflexivity|left; reflexivity]. }
  split; [apply (markup_reference _ !"a " !"<REF" [] !"b</ref>"); [left; reflexivity|intros []|intros []|intros (z & Z); destruct z; discriminate]|].
  split.
  { apply (markup_external _ [] !"http" !"a.b" !"c" []).
    - intros c I. cbn in I. repeat (destruct I as [<-|I]; [split; [vm_compute; lia|intros J; cbn in J; repeat (destruct J as [J|J]; [discriminate J|]); exact J]|]). destruct I.
    - intros J. cbn in J. repeat (destruct J as [J|J]; [discriminate J|]). exact J.
    - intros J. cbn in J. repeat (destruct J as [J|J]; [discriminate J|]). exact J.
    - intros c [<-|[]] J. cbn in J. repeat (destruct J as [J|J]; [discriminate J|]). exact J. }
  split.
  { apply markup_paragraph; [discriminate|]. split; [intros []|]. exists (!"a" ++ nl), (nl ++ !"b"). split; [reflexivity|]. split; right; [exists !"a"|exists !"b"]; reflexivity. }
  apply (markup_named_reference _ !"a" (mkReference (mkAttributes [mkAttribute !"name" false !"b"] 0) None) !"c"); [|reflexivity].
  split; [split|discriminate].
  - constructor; [|constructor]. split; [left; reflexivity|]. split; [discriminate|]. split; [intros c I J; cbn in I; destruct J as [<-|[]]; repeat (destruct I as [I|I]; [discriminate I|]); exact I|].
    split; [intros _; split; intros J; destruct J as [J|[]]; discriminate J|discriminate].
  - constructor; [intros []|constructor].
Qed.

(** And the parser accepts a text with markup of many kinds. *)
Example C54_example : exists text t, tokenizeContent default_config 7
  (!"a ''b'' [[c|d [e] f]] <ref name=x>[http://g.h i]</ref>" ++ nl ++ !"* j" ++ nl ++ !"** k" ++ nl ++ nl ++ !"{|" ++ nl ++ !"| l || [[File:m.jpg|thumb|n ''o'']]" ++ nl ++ !"|}" ++ nl ++
   !"== p <math>q</math> ==" ++ nl ++ !"<references />") NewTokenizer = Ok (text, t) /\ length (tokenMap t) = 10.
Proof. do 2 eexists. split; vm_compute; reflexivity. Qed.

(** The markup that is not in the list: short footnote marks without name, and apostrophes that are not closed, stay in the text. *)
Theorem C54_other_markup_stays : (exists t, tokenizeContent default_config 3 !"a<ref/>b" NewTokenizer = Ok (!"a<ref/>b", t)) /\
  (exists t, tokenizeContent default_config 3 !"a ''b" NewTokenizer = Ok (!"a ''b", t)).
Proof. split; eexists; vm_compute; reflexivity. Qed.
Print Assumptions C54_other_markup_stays.
