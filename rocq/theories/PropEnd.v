(** * Parsing ends (C53) *)

From Coq Require Import Ascii String.
From Coq Require Import List Arith NArith ZArith Bool Lia.
From Verif Require Import GoStr GoStrFacts TextFacts UtilModel BracketModel ConfigModel CleanerModel CleanerTemplateProofs TemplateModel TemplateSpec TokenModel TokenizerModel ArticleModel SafeSpec SafeProofs TokenSpec BelowProofs EndProofs FuelProofs PropTokens PropTemplate PropSafe.
Import ListNotations.
Local Open Scope list_scope.

(** In the model every recursive call and every round of the loop of the parser takes a unit of fuel; the program has no such bound.  The
    program ends on a text if some amount of fuel is enough; it then does what the model does with that fuel.  A run that never ends has no
    such amount. *)

(** C53: For every configuration, every text and every state of the tokenizer the parser ends: from some amount of fuel on the result is
    always the same one and no lack of fuel, and less fuel never leads to another result. *)
Theorem C53_parser_ends : forall cfg content t, exists n r, r <> OutOfFuel /\
  (forall fuel, n <= fuel -> tokenizeContent cfg fuel content t = r) /\
  (forall fuel, tokenizeContent cfg fuel content t = OutOfFuel \/ tokenizeContent cfg fuel content t = r).
Proof.
  intros cfg content t. destruct (tokenizeContent_ends cfg content t) as (n & r & E & R). exists n, r. split; [intros ->; exact R|]. split; [exact E|].
  intros fuel. destruct (tokenizeContent_agrees cfg fuel (max n fuel) content ltac:(lia) t) as [F|F]; [left; exact F|right]. rewrite F. apply E. lia.
Qed.
Print Assumptions C53_parser_ends.

(** C53: The cleanup ends. *)
Theorem C53_cleanup_ends : forall cfg content, clean cfg content <> OutOfFuel.
Proof.
  intros cfg content. unfold clean.
  assert (L : forall s k, removeLinks_go cfg s k <> OutOfFuel).
  { induction s as [|c s IH]; intros k; [discriminate|]. cbn [removeLinks_go]. destruct k as [|k]; [|apply IH]. destruct (length (c :: s) <=? 2); [discriminate|].
    assert (G : (let! r := removeLinks_go cfg s 0 in Ok (c :: r)) <> OutOfFuel).
    { specialize (IH 0). destruct (removeLinks_go cfg s 0); cbn [bind]; congruence. }
    destruct (has_prefix _ _); [|exact G]. destruct (FindCorrespondingCloseToken _ _ _ _); [|discriminate]. destruct (link_unwanted _ _ _); [|exact G].
    destruct (_ <=? _); [apply IH|discriminate]. }
  unfold removeUnwantedInternalLinks. specialize (L (removeComments content) 0). destruct (removeLinks_go cfg (removeComments content) 0) as [x| | |]; cbn [bind]; try congruence.
  destruct (handleTemplates_total cfg x) as (y & ->). cbn [bind]. set (z := removeEmptySections _).
  destruct (hack_fuel (S (length z)) z 0) as [F|(w & F & _)]; [lia|rewrite F; discriminate|rewrite F; discriminate].
Qed.
Print Assumptions C53_cleanup_ends.

(** C53: Behind the evaluation of the templates there is always exactly one outcome: an article, an error or a crash. *)
Theorem C53_one_outcome : forall cfg content, exists o, TokenizeCleaned cfg content o /\ forall o', TokenizeCleaned cfg content o' -> o' = o.
Proof.
  intros cfg content. pose proof (C53_cleanup_ends cfg content) as C. destruct (clean cfg content) as [content'| | |] eqn:E.
  - destruct (C53_parser_ends cfg content' NewTokenizer) as (n & r & N & A & B).
    assert (U : forall fuel r', tokenizeContent cfg fuel content' NewTokenizer = r' -> r' <> OutOfFuel -> r' = r).
    { intros fuel r' F N'. destruct (B fuel) as [X|X]; congruence. }
    destruct r as [[text t]| | |]; [exists (Article text t)|exists Failed|exists Crashed|congruence]; (split;
      [first [eapply cleaned_article; [exact E|apply (A n); lia] | eapply cleaned_crash with (fuel := n); [exact E|rewrite A by lia; constructor]]|]);
      intros o' O; inversion O as [? ? S|? c fuel text' t' E' F|? c fuel ? E' S]; subst.
    all: try (rewrite E in S; inversion S; fail).
    all: rewrite E in E'; injection E' as <-.
    all: try (apply U in F; [|discriminate]; congruence).
    all: inversion S as [X|X]; symmetry in X; apply U in X; try discriminate; congruence.
  - exists Failed. split; [apply cleaned_stops; rewrite E; constructor|]. intros o' O.
    inversion O as [? ? S|? c fuel text' t' E' F|? c fuel ? E' S]; subst; try congruence. rewrite E in S. inversion S. auto.
  - exists Crashed. split; [apply cleaned_stops; rewrite E; constructor|]. intros o' O.
    inversion O as [? ? S|? c fuel text' t' E' F|? c fuel ? E' S]; subst; try congruence. rewrite E in S. inversion S. auto.
  - congruence.
Qed.
Print Assumptions C53_one_outcome.

(** C53: The whole parser ends, unless the loop that replaces the placeholders of templates does not.  That it ends is proved for texts and
    answers that do not contain placeholders (C13). *)
Theorem C53_article_partial : forall Hash service cfg content, (forall s, hash_value (Hash s)) ->
  (forall content1 st first, clean cfg content = Ok content1 -> evaluateTemplates_first Hash service content1 = (st, Ok first) ->
    exists result, resolves (placeholders st) first result) ->
  exists o, Tokenize Hash service cfg content o.
Proof.
  intros Hash service cfg content Hh P. pose proof (C53_cleanup_ends cfg content) as C. destruct (clean cfg content) as [content1| | |] eqn:E; [| | |congruence].
  - destruct (C14_total Hash service content1 Hh) as (st & [F|(first & F)]).
    + exists Failed. eapply tokenize_template; [exact E|exact F|constructor].
    + destruct (P content1 st first eq_refl F) as (result & R). destruct (C53_one_outcome cfg result) as (o & O & _). exists o. eapply tokenize_rest; eauto.
  - exists Failed. apply tokenize_stops. rewrite E. constructor.
  - exists Crashed. apply tokenize_stops. rewrite E. constructor.
Qed.
Print Assumptions C53_article_partial.

(** C53: If the cleaned text contains no templates and no placeholders, there is exactly one outcome. *)
Theorem C53_no_templates : forall Hash service cfg content,
  (forall content1, clean cfg content = Ok content1 -> contains !"{{" content1 = false /\ contains !"$$TEMPLATE_PLACEHOLDER_" content1 = false) ->
  exists o, Tokenize Hash service cfg content o /\ forall o', Tokenize Hash service cfg content o' -> o' = o.
Proof.
  intros Hash service cfg content P. pose proof (C53_cleanup_ends cfg content) as C. destruct (clean cfg content) as [content1| | |] eqn:E; [| | |congruence].
  - destruct (P content1 eq_refl) as (N & H). assert (F : evaluateTemplates_first Hash service content1 = (mkTState [] [], Ok content1)).
    { apply no_templates; auto; unfold template_fuel; lia. }
    destruct (C53_one_outcome cfg content1) as (o & O & U). exists o. split.
    + eapply tokenize_rest; [exact E|exact F|apply resolves_end; exact H|exact O].
    + intros o' T. inversion T as [c o1 S|c c' st r o1 E' F' S|c c' st first resolved o1 E' F' R D]; subst.
      * rewrite E in S. inversion S.
      * rewrite E in E'. injection E' as <-. rewrite F in F'. injection F' as <- <-. inversion S.
      * rewrite E in E'. injection E' as <-. rewrite F in F'. injection F' as <- <-. cbn [placeholders] in R. apply resolves_nothing in R as <-. auto.
  - exists Failed. split; [apply tokenize_stops; rewrite E; constructor|]. intros o' T. inversion T as [c o1 S|c c' st r o1 E' F' S|c c' st first resolved o1 E' F' R D]; subst; try congruence.
    rewrite E in S. inversion S. auto.
  - exists Crashed. split; [apply tokenize_stops; rewrite E; constructor|]. intros o' T. inversion T as [c o1 S|c c' st r o1 E' F' S|c c' st first resolved o1 E' F' R D]; subst; try congruence.
    rewrite E in S. inversion S. auto.
Qed.
Print Assumptions C53_no_templates.

(** C19 and C53 together: a calm text without templates which the cleanup does not change becomes an article, whatever the service does. *)
Theorem C19_calm_article : forall Hash service cfg content, prefixes_are_words cfg -> clean cfg content = Ok content ->
  contains !"{{" content = false -> contains !"$$TEMPLATE_PLACEHOLDER_" content = false -> calm cfg content ->
  exists text t, Tokenize Hash service cfg content (Article text t) /\ forall o, Tokenize Hash service cfg content o -> o = Article text t.
Proof.
  intros Hash service cfg content W E N P C. destruct (C53_no_templates Hash service cfg content) as (o & O & U).
  { intros c E'. rewrite E in E'. injection E' as <-. auto. }
  destruct (C19_article_partial Hash service cfg content o W E N C O) as (text & t & ->). eauto.
Qed.
Print Assumptions C19_calm_article.

(** C18: In a calm text without a dollar sign every key that the parser leaves behind can be resolved. *)
Theorem C18_calm : forall cfg fuel content text t, prefixes_are_words cfg -> calm cfg content -> ~ In "$"%char content ->
  tokenizeContent cfg fuel content NewTokenizer = Ok (text, t) ->
  resolvable (tokenMap t) text /\
  (forall key token, lookup_token key (tokenMap t) = Some token -> Forall (resolvable (tokenMap t)) (texts token)) /\
  resolvable_map (tokenMap t).
Proof.
  intros cfg fuel content text t W C D E. rewrite <- (calm_checked cfg W) in E by exact C.
  destruct (C18_resolvable_partial cfg fuel content text t D E) as (_ & R). exact R.
Qed.
Print Assumptions C18_calm.

(** C18, C19 and C53 together: such a text, without templates and unchanged by the cleanup, becomes an article in which every key can be resolved. *)
Theorem C18_calm_article : forall Hash service cfg content, prefixes_are_words cfg -> clean cfg content = Ok content ->
  contains !"{{" content = false -> ~ In "$"%char content -> calm cfg content ->
  exists text t, Tokenize Hash service cfg content (Article text t) /\ (forall o, Tokenize Hash service cfg content o -> o = Article text t) /\
    resolvable (tokenMap t) text /\
    (forall key token, lookup_token key (tokenMap t) = Some token -> Forall (resolvable (tokenMap t)) (texts token)) /\
    resolvable_map (tokenMap t).
Proof.
  intros Hash service cfg content W E N D C. assert (P : contains !"$$TEMPLATE_PLACEHOLDER_" content = false).
  { apply contains_false. intros a b K. apply D. rewrite K. apply in_or_app. right. left. auto. }
  destruct (C19_calm_article Hash service cfg content W E N P C) as (text & t & T & U). exists text, t. split; [exact T|]. split; [exact U|].
  assert (F : evaluateTemplates_first Hash service content = (mkTState [] [], Ok content)) by (apply no_templates; auto; unfold template_fuel; lia).
  inversion T as [c o1 S|c c' st r o1 E' F' S|c c' st first resolved o1 E' F' R D']; subst.
  - rewrite E in S. inversion S.
  - rewrite E in E'. injection E' as <-. rewrite F in F'. injection F' as <- <-. inversion S.
  - rewrite E in E'. injection E' as <-. rewrite F in F'. injection F' as <- <-. cbn [placeholders] in R. apply resolves_nothing in R as <-.
    inversion D' as [? ? S|? ? ? text' t' E2 T2|? c2 fuel ? E2 S]; subst; [rewrite E in S; inversion S| |inversion S].
    rewrite E in E2. injection E2 as <-. eapply C18_calm; eauto.
Qed.
Print Assumptions C18_calm_article.

(** The text of the example of C19 has no dollar sign. *)
Example C18_calm_example : prefixes_are_words default_config /\ clean default_config calm_text = Ok calm_text /\
  contains !"{{" calm_text = false /\ ~ In "$"%char calm_text /\ calm default_config calm_text.
Proof.
  split; [apply default_words|]. split; [vm_compute; reflexivity|]. split; [vm_compute; reflexivity|]. split; [|apply calm_sound; vm_compute; reflexivity].
  intros I. assert (K : existsb (Ascii.eqb "$") calm_text = true) by (apply existsb_exists; exists "$"%char; split; [exact I|reflexivity]).
  vm_compute in K. discriminate.
Qed.

(** C53 is false in general: a text that contains the beginning of a placeholder has no outcome, the program runs forever. *)
Theorem C53_placeholder_refuted : forall Hash service, exists content, forall o, ~ Tokenize Hash service default_config content o.
Proof.
  intros Hash service. exists !"$$TEMPLATE_PLACEHOLDER_". intros o T.
  assert (E : clean default_config !"$$TEMPLATE_PLACEHOLDER_" = Ok !"$$TEMPLATE_PLACEHOLDER_") by (vm_compute; reflexivity).
  assert (F : evaluateTemplates_first Hash service !"$$TEMPLATE_PLACEHOLDER_" = (mkTState [] [], Ok !"$$TEMPLATE_PLACEHOLDER_")) by (vm_compute; reflexivity).
  inversion T as [c o1 S|c c' st r o1 E' F' S|c c' st first resolved o1 E' F' R D]; subst.
  - rewrite E in S. inversion S.
  - rewrite E in E'. injection E' as <-. rewrite F in F'. injection F' as <- <-. inversion S.
  - rewrite E in E'. injection E' as <-. rewrite F in F'. injection F' as <- <-. cbn [placeholders] in R. pose proof (resolves_nothing _ _ R). subst resolved.
    clear - R. remember !"$$TEMPLATE_PLACEHOLDER_" as x. assert (X : contains templatePlaceholderPrefix x = true) by (subst; reflexivity). clear Heqx.
    remember x as y in R at 2. clear Heqy. induction R as [c N|c order result H (Nd & O) R IH]; [congruence|].
    assert (Z : order = []). { destruct order as [|k order]; auto. destruct (O k) as [I _]. destruct I as (v & V); [left; auto|discriminate]. }
    subst order. apply IH. exact X.
Qed.
Print Assumptions C53_placeholder_refuted.

(** A text with every kind of markup ends; here the fuel is 7. *)
Example C53_example : exists text t, tokenizeContent default_config 7
  (!"a ''b'' [[c|d [e] f]] <ref name=x>[http://g.h i]</ref>" ++ nl ++ !"* j" ++ nl ++ !"** k" ++ nl ++ !"{|" ++ nl ++ !"| l || [[File:m.jpg|thumb|n ''o'']]" ++ nl ++ !"|}" ++ nl ++
   !"== p <math>q</math> ==" ++ nl ++ !"<gallery>" ++ nl ++ !"r.jpg|s" ++ nl ++ !"</gallery>" ++ nl ++ !"<references />") NewTokenizer = Ok (text, t) /\ length (tokenMap t) = 11.
Proof. do 2 eexists. split; vm_compute; reflexivity. Qed.
