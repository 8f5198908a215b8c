(** * C60: from wikitext to HTML *)

From Coq Require Import Ascii String.
From Coq Require Import List Arith NArith Bool Lia.
From Verif Require Import GoStr GoStrFacts BracketSpec ConfigModel CleanerModel CleanerTemplateProofs TemplateModel TemplateSpec TokenModel TokenSpec TokenProofs TokenizerModel ArticleModel SafeSpec FormattingSpec PassSpec HeadingProofs ExpandModel HtmlModel.
From Verif Require Import PropTokens PropTemplate PropSafe PropEnd PropHtml DocumentSpec DocumentLineProofs DocumentPictureProofs DocumentRunProofs JudgeProofs DocumentBlockProofs DocumentListProofs DocumentGridProofs DocumentStartProofs DocumentNoteProofs DocumentHtmlProofs DocumentCleanProofs DocumentFormulaProofs BookImageSpec DocumentTokenProofs.
From Verif Require Import CleanupSpec CleanupProofs.
From Verif Require RefNumberProofs PropCleanup CleanerSpec.
Import ListNotations.
Local Open Scope list_scope.

(** The article of a document behind the evaluation of the templates *)
Lemma document_parsed : forall cfg doc source, prefixes_ok cfg -> @document_ok cfg doc -> writes doc source ->
  exists text t, TokenizeCleaned cfg source (Article text t) /\
    parsed_as doc text t /\
    forall renderMath fuel style title html, 4 <= fuel ->
      (generateHtml cfg renderMath (tokenMap t) fuel style title text = Ok html <->
       exists pictures, (forall formula, In formula (document_formulas doc) -> renderMath formula = Ok (pictures formula)) /\
         html = HEADER style ++ nl ++ !"<h1>" ++ title ++ !"</h1>" ++ nl ++ document_html cfg pictures doc ++ FOOTER).
Proof.
  intros cfg doc source P D W. pose proof D as (N & F & _ & M). destruct (written_laid doc source F W) as (g & Gp & ->). pose proof (doc_clean g doc D) as E.
  destruct (C53_parser_ends cfg (laid g doc) NewTokenizer) as (n & r & Nr & A & _). pose proof (A n (le_n n)) as R.
  destruct (judge_ends _ _ _ _ (document_result n g doc NewTokenizer P N F Gp M (new_ok false)) ltac:(rewrite R; exact Nr)) as (text & t & T & O & _ & bs & B & X).
  exists text, t. split; [eapply cleaned_article; [exact E|exact T]|].
  split; [split; [apply O|eauto]|]. subst text. intros renderMath fuel style title html L. apply page_generated; auto. apply O.
Qed.

Lemma document_quiet : forall cfg doc source, @document_ok cfg doc -> writes doc source -> clean cfg source = Ok source /\ ~ In "$"%char source /\ lonely "{" source.
Proof. intros cfg doc source D W. pose proof D as (_ & F & _). destruct (written_laid doc source F W) as (g & _ & ->). destruct (doc_neat g doc F) as (A & _ & _ & B). split; [apply doc_clean; auto|auto]. Qed.

(** The usual way to write a document is one of them. *)
Lemma usual : forall cfg doc, @document_ok cfg doc -> writes doc (wikitext doc).
Proof. intros cfg doc (_ & F & _). eapply wikitext_written; eauto. Qed.

(** Texts that have to be cleaned up *)
Lemma tidied_article : forall Hash service cfg source cleaned doc, prefixes_ok cfg -> @document_ok cfg doc -> clean cfg source = Ok cleaned -> writes doc cleaned ->
  exists text t, Tokenize Hash service cfg source (Article text t) /\
    (forall o, Tokenize Hash service cfg source o -> o = Article text t) /\
    parsed_as doc text t /\
    forall renderMath fuel style title html, 4 <= fuel ->
      (generateHtml cfg renderMath (tokenMap t) fuel style title text = Ok html <->
       exists pictures, (forall formula, In formula (document_formulas doc) -> renderMath formula = Ok (pictures formula)) /\
         html = HEADER style ++ nl ++ !"<h1>" ++ title ++ !"</h1>" ++ nl ++ document_html cfg pictures doc ++ FOOTER).
Proof.
  intros Hash service cfg source cleaned doc P D E W. destruct (document_quiet cfg doc cleaned D W) as (_ & Nd & L). destruct (document_parsed cfg doc cleaned P D W) as (text & t & T & K0 & X).
  assert (N1 : contains !"{{" cleaned = false) by (apply contains_false; intros a b H; apply (L a b H)).
  assert (N2 : contains !"$$TEMPLATE_PLACEHOLDER_" cleaned = false).
  { apply contains_false. intros a b H. apply Nd. rewrite H. rewrite !in_app_iff. right. left. cbn. auto. }
  assert (G : evaluateTemplates_first Hash service cleaned = (mkTState [] [], Ok cleaned)) by (apply no_templates; auto; unfold template_fuel; lia).
  assert (K : Tokenize Hash service cfg source (Article text t)) by (eapply tokenize_rest; [exact E|exact G|apply resolves_end; exact N2|exact T]).
  exists text, t. split; [exact K|]. split; [|split; [exact K0|exact X]].
  destruct (C53_no_templates Hash service cfg source) as (o & _ & U); [intros c H; rewrite E in H; injection H as <-; auto|]. intros o' H. rewrite (U _ H), (U _ K). reflexivity.
Qed.

Lemma document_article : forall Hash service cfg doc source, prefixes_ok cfg -> @document_ok cfg doc -> writes doc source ->
  exists text t, Tokenize Hash service cfg source (Article text t) /\
    (forall o, Tokenize Hash service cfg source o -> o = Article text t) /\
    parsed_as doc text t /\
    forall renderMath fuel style title html, 4 <= fuel ->
      (generateHtml cfg renderMath (tokenMap t) fuel style title text = Ok html <->
       exists pictures, (forall formula, In formula (document_formulas doc) -> renderMath formula = Ok (pictures formula)) /\
         html = HEADER style ++ nl ++ !"<h1>" ++ title ++ !"</h1>" ++ nl ++ document_html cfg pictures doc ++ FOOTER).
Proof. intros Hash service cfg doc source P D W. apply (tidied_article _ _ _ _ source); auto. apply (document_quiet cfg doc source D W). Qed.

(** Every document of headings, paragraphs, lists (with other lists below their items), tables (with captions), pictures (with sizes and captions, and links in the captions) and lists of footnotes, with bold and italic text,
    links, formulas, pictures and footnotes in the text, becomes an article, and the generated HTML is what its markup says: all text is there, in the same order, in the elements for its markup, and nothing else.  This is the only possible result,
    whatever the template service does.  A formula is replaced by its picture, and there is no HTML without the pictures of all formulas.  A footnote is replaced by its number, and its text, with links, formulas and pictures in it, is in the next list of footnotes of its group.  [fuel]: tokens are nested at most four levels deep.  There may be any number of blank lines before, between and behind the blocks, and none between them where they are not needed ([writes]).  (Missing: the other kinds of markup, and the
    documents that are no [document_ok], see below.) *)
Theorem C60_document_partial : forall Hash service cfg doc source, prefixes_ok cfg -> @document_ok cfg doc -> writes doc source ->
  exists text t, Tokenize Hash service cfg source (Article text t) /\
    (forall o, Tokenize Hash service cfg source o -> o = Article text t) /\
    forall renderMath fuel style title html, 4 <= fuel ->
      (generateHtml cfg renderMath (tokenMap t) fuel style title text = Ok html <->
       exists pictures, (forall formula, In formula (document_formulas doc) -> renderMath formula = Ok (pictures formula)) /\
         html = HEADER style ++ nl ++ !"<h1>" ++ title ++ !"</h1>" ++ nl ++ document_html cfg pictures doc ++ FOOTER).
Proof. intros Hash service cfg doc source P D W. destruct (document_article Hash service cfg doc source P D W) as (text & t & A & B & _ & C). exists text, t. auto. Qed.
Print Assumptions C60_document_partial.

(** C19 for documents: parsing them never crashes and gives no error, whatever the template service does. *)
Theorem C19_document : forall Hash service cfg doc source, prefixes_ok cfg -> @document_ok cfg doc -> writes doc source ->
  (exists o, Tokenize Hash service cfg source o) /\
  forall o, Tokenize Hash service cfg source o -> exists text t, o = Article text t.
Proof.
  intros Hash service cfg doc source P D W. destruct (C60_document_partial Hash service cfg doc source P D W) as (text & t & T & U & _). split; [eauto|]. intros o O. rewrite (U o O). eauto.
Qed.
Print Assumptions C19_document.

(** C18 for documents: generating the book does not fail with an unknown key.  It fails only if the picture of a formula cannot be had. *)
Theorem C18_document : forall Hash service cfg doc source text t, prefixes_ok cfg -> @document_ok cfg doc -> writes doc source ->
  Tokenize Hash service cfg source (Article text t) ->
  forall renderMath fuel style title, 4 <= fuel ->
    (forall formula, In formula (document_formulas doc) -> exists picture, renderMath formula = Ok picture) ->
    exists html, generateHtml cfg renderMath (tokenMap t) fuel style title text = Ok html.
Proof.
  intros Hash service cfg doc source text t P D W T renderMath fuel style title L R. destruct (C60_document_partial Hash service cfg doc source P D W) as (text' & t' & _ & U & G).
  pose proof (U _ T) as E. injection E as -> ->. eexists. apply G; [exact L|].
  exists (fun formula => match renderMath formula with Ok picture => picture | _ => ([], [], [], []) end). split; [|reflexivity].
  intros formula I. destruct (R formula I) as (picture & K). rewrite K. reflexivity.
Qed.
Print Assumptions C18_document.

(** The same holds for texts that become such a document when comments, unwanted templates and links, empty entries of lists and empty sections are removed (C08 to C12, C73). *)
Theorem C60_cleanup_partial : forall Hash service cfg source cleaned doc, prefixes_ok cfg -> @document_ok cfg doc -> tidied cfg source cleaned -> writes doc cleaned ->
  exists text t, Tokenize Hash service cfg source (Article text t) /\
    (forall o, Tokenize Hash service cfg source o -> o = Article text t) /\
    forall renderMath fuel style title html, 4 <= fuel ->
      (generateHtml cfg renderMath (tokenMap t) fuel style title text = Ok html <->
       exists pictures, (forall formula, In formula (document_formulas doc) -> renderMath formula = Ok (pictures formula)) /\
         html = HEADER style ++ nl ++ !"<h1>" ++ title ++ !"</h1>" ++ nl ++ document_html cfg pictures doc ++ FOOTER).
Proof. intros Hash service cfg source cleaned doc P D E W. destruct (tidied_article Hash service cfg source cleaned doc P D (tidied_clean _ _ _ E) W) as (text & t & A & B & _ & X). exists text, t. auto. Qed.
Print Assumptions C60_cleanup_partial.

Lemma templates_article : forall Hash answer cfg source cleaned l tree doc, prefixes_ok cfg -> @document_ok cfg doc ->
  clean cfg source = Ok cleaned -> reading !"{{" !"}}" cleaned l -> closed l tree ->
  (forall s, hash_value (Hash s)) -> (forall p q, In p (all_requests Hash tree) -> In q (all_requests Hash tree) -> Hash p = Hash q -> p = q) ->
  writes doc (evaluations Hash answer tree) -> contains !"TEMPLATE_PLACEHOLDER_" (evaluations Hash answer tree) = false ->
  let service := fun (_ : list str) (r : str) => Some (pieces_text (answer r)) in
  exists text t, Tokenize Hash service cfg source (Article text t) /\
    (forall o, Tokenize Hash service cfg source o -> o = Article text t) /\
    parsed_as doc text t /\
    forall renderMath fuel style title html, 4 <= fuel ->
      (generateHtml cfg renderMath (tokenMap t) fuel style title text = Ok html <->
       exists pictures, (forall formula, In formula (document_formulas doc) -> renderMath formula = Ok (pictures formula)) /\
         html = HEADER style ++ nl ++ !"<h1>" ++ title ++ !"</h1>" ++ nl ++ document_html cfg pictures doc ++ FOOTER).
Proof.
  intros Hash answer cfg source cleaned l tree doc P D E R C Hh I V NP service. destruct (document_parsed cfg doc _ P D V) as (text & t & T & K0 & X).
  destruct (C13_any_order_partial Hash answer cleaned l tree Hh I R C NP) as (st & first & G & _ & (result & Q) & U). pose proof (U _ Q) as W. subst result.
  exists text, t. split; [eapply tokenize_rest; [exact E|exact G|exact Q|exact T]|]. split; [|split; [exact K0|exact X]].
  intros o O. inversion O as [c o1 S|c c' st' r o1 E' F' S|c c' st' first' resolved o1 E' F' R' D']; subst.
  - rewrite E in S. inversion S.
  - rewrite E in E'. injection E' as <-. unfold service in F'. rewrite G in F'. injection F' as <- <-. inversion S.
  - rewrite E in E'. injection E' as <-. unfold service in F'. rewrite G in F'. injection F' as <- <-. apply U in R'. subst resolved.
    destruct (C53_one_outcome cfg (evaluations Hash answer tree)) as (o' & _ & H). rewrite (H _ D'), (H _ T). reflexivity.
Qed.

(** The same holds if, after that, the templates, which may be nested, are replaced by the answers of the template service (C13): the HTML is that of the document.  [tree]: the
    text as nested templates; [evaluations]: the text with the answers instead of the templates.  Hash values of different requests are different. *)
Theorem C60_templates_partial : forall Hash answer cfg source cleaned l tree doc, prefixes_ok cfg -> @document_ok cfg doc ->
  tidied cfg source cleaned -> reading !"{{" !"}}" cleaned l -> closed l tree ->
  (forall s, hash_value (Hash s)) -> (forall p q, In p (all_requests Hash tree) -> In q (all_requests Hash tree) -> Hash p = Hash q -> p = q) ->
  writes doc (evaluations Hash answer tree) -> contains !"TEMPLATE_PLACEHOLDER_" (evaluations Hash answer tree) = false ->
  let service := fun (_ : list str) (r : str) => Some (pieces_text (answer r)) in
  exists text t, Tokenize Hash service cfg source (Article text t) /\
    (forall o, Tokenize Hash service cfg source o -> o = Article text t) /\
    forall renderMath fuel style title html, 4 <= fuel ->
      (generateHtml cfg renderMath (tokenMap t) fuel style title text = Ok html <->
       exists pictures, (forall formula, In formula (document_formulas doc) -> renderMath formula = Ok (pictures formula)) /\
         html = HEADER style ++ nl ++ !"<h1>" ++ title ++ !"</h1>" ++ nl ++ document_html cfg pictures doc ++ FOOTER).
Proof. intros Hash answer cfg source cleaned l tree doc P D E R C Hh I V NP service. destruct (templates_article Hash answer cfg source cleaned l tree doc P D (tidied_clean _ _ _ E) R C Hh I V NP) as (text & t & A & B & _ & X). exists text, t. auto. Qed.
Print Assumptions C60_templates_partial.

(** ** An example *)

Definition example_document : list block :=
  [Paragraph [[Quotes Bold; Words !"Elbe"; Quotes Bold; Words !": a "; LinkTo !"River" None; Words !"."]];
   Heading 2 [Words !"Cities "; Quotes Italic; Words !"(a - b)"; Quotes Italic];
   Items [Item Number [LinkTo !"Dresden#History" (Some !"Dresden")] [];
          Item Number [Words !"Hamburg, see "; Address !"https://e.f/g_h=i" !"this page"]
            [[Item Bullet [Words !"Altona"] []; Item Bullet [Quotes Italic; Words !"Harburg"; Quotes Italic] []]; [Item Term [Words !"Port"] []; Item Indent [Words !"1: large"] []]]];
   Heading 3 [LinkTo !"Water" (Some !"the water"); Words !" "; Math !"H_2O"];
   Paragraph [[LinkTo !"Dam" None; Words !"s: it's 1 * 1 = 1, "; Math !"\frac{1}{x_{1}} \le{}|z|"]; [Words !"- and - "; LinkTo !"Lock" None]];
   Paragraph [[Quotes Bold; Words !"very "; Quotes Italic; Words !"deep"; Quotes Bold; Words !" water"; Quotes Italic]];
   Grid !" class=wikitable" (Some [Words !"All the "; LinkTo !"Fish" None]) [[[(mkKind true [], [Words !"Name"]); (mkKind true [], [Words !"Count"])]]; [[(mkKind false [], [LinkTo !"Eel" None])]; [(mkKind false [], [])]]];
   Grid [] None [];
   Figure (mkPicture !"file" !"eel & co.jpg" true (Some (200, 150)) (Some [Said !"1 eel: long, "; Linked !"fish" (Some !"a fish"); Said !" and more"]));
   Paragraph [[Words !"Flow "; Picture (mkPicture !"Image" !"arrow.svg" false (Some (20, 20)) None); Words !" north"]]].

Lemma example_prefixes : prefixes_ok default_config.
Proof.
  split; [|split; vm_compute; intuition discriminate]. intros p c I J K. vm_compute in I.
  repeat (destruct I as [<-|I]; [cbn in J, K; intuition (subst; discriminate)|]). destruct I.
Qed.

(** A test for text *)
Definition words_test (s : str) : bool :=
  forallb (fun c => negb (existsb (Ascii.eqb c) (!"[]{}|<>$_" ++ nl))) s && negb (contains !"''" s) && negb (Ascii.eqb (hd nl_char s) "'") && negb (Ascii.eqb (last s nl_char) "'").
Lemma words_ok : forall s, words_test s = true -> words s.
Proof.
  intros s H. apply andb_prop in H as [H L]. apply andb_prop in H as [H F]. apply andb_prop in H as [H C]. apply negb_true_iff in L, F, C. split.
  - apply Forall_forall. intros c I J. rewrite forallb_forall in H. apply H in I. apply negb_true_iff in I.
    assert (X : existsb (Ascii.eqb c) (!"[]{}|<>$_" ++ nl) = true) by (apply existsb_exists; exists c; split; auto; apply Ascii.eqb_refl). congruence.
  - apply FormattingProofs.plain_intro; [exact C|apply Ascii.eqb_neq; exact F|apply Ascii.eqb_neq; exact L].
Qed.

Lemma start_ok : forall s, match trim_space s with [] => true | c :: _ => negb (existsb (Ascii.eqb c) !"=*#;:") end = true -> no_block_start s.
Proof.
  intros s H c x E J. rewrite E in H. apply negb_true_iff in H. assert (X : existsb (Ascii.eqb c) !"=*#;:" = true) by (apply existsb_exists; exists c; split; auto; apply Ascii.eqb_refl). congruence.
Qed.

Lemma line_is_ok : forall cfg l, l <> [] -> Forall (@inline_ok cfg) l -> quotes_apart l -> styles [] l = [] -> trim_space (line_wikitext l) = line_wikitext l ->
  match trim_space (line_wikitext l) with [] => true | c :: _ => negb (existsb (Ascii.eqb c) !"=*#;:") end = true -> @line_ok cfg l.
Proof. intros. repeat (split; auto). apply start_ok. auto. Qed.

Lemma words_inline : forall cfg s, s <> [] -> words_test s = true -> @inline_ok cfg (Words s).
Proof. intros. split; auto. apply words_ok. auto. Qed.

Ltac no_sign := let J := fresh in intros J; vm_compute in J; intuition discriminate.
(** Pictures in the default configuration *)
Lemma type_ok : forall file, ImageModel.ignored_media default_config file = false -> ~ PictureSpec.unwanted_type default_config file.
Proof. intros file E U. apply PictureProofs.ignored_spec in U. congruence. Qed.
Lemma option_ok : forall o, UtilModel.HasAnyPrefix o ImageModel.imageNonInlineParameters = false -> ~ PictureSpec.frame_option o.
Proof. intros o E U. apply PictureProofs.frame_spec in U. congruence. Qed.
Lemma no_pixels : forall s, has_suffix !"px" s = false -> ~ (exists x, s = x ++ !"px").
Proof. intros s E (x & ->). assert (T : has_suffix !"px" (x ++ !"px") = true) by (apply has_suffix_spec; eauto). congruence. Qed.
Lemma not_ignored : forall o, ~ PictureSpec.ignored_option default_config o.
Proof. intros o (p & s & [] & _). Qed.
Ltac a_link := let E := fresh in
  split; [do 2 eexists; split; [reflexivity|apply starts_target_sound; vm_compute; reflexivity]|];
  split; [apply words_ok; vm_compute; reflexivity|]; split; [apply words_ok; vm_compute; reflexivity|]; split; [no_sign|]; split; [no_sign|];
  split; [apply start_ok; vm_compute; reflexivity|]; (intros E; first [discriminate E|split; [no_sign|vm_compute; reflexivity]]).
Ltac a_phrase := match goal with |- phrase_ok (Said _) => apply words_ok; vm_compute; reflexivity | |- phrase_ok (Linked _ _) => a_link end.
Ltac a_picture :=
  split; [vm_compute; auto|]; split; [vm_compute; auto|]; split; [discriminate|]; split; [apply words_ok; vm_compute; reflexivity|]; split; [no_sign|];
  split; [do 2 eexists; split; [reflexivity|reflexivity]|]; split; [repeat (apply Forall_cons; [no_sign|]); apply Forall_nil|]; split; [vm_compute; reflexivity|]; split; [apply start_ok; vm_compute; reflexivity|];
  split; [discriminate|]; split; [discriminate|]; split; [vm_compute; reflexivity|]; split; [apply no_pixels; vm_compute; reflexivity|]; split; [apply type_ok; vm_compute; reflexivity|];
  split; [apply Forall_forall; intros o _; apply not_ignored|];
  split; [let E := fresh in intros width height E; first [discriminate E|injection E as <- <-; split; reflexivity]|];
  let E := fresh in intros c E; first [discriminate E|injection E as <-; split; [repeat (apply Forall_cons; [a_phrase|]); apply Forall_nil|split; [apply start_ok; vm_compute; reflexivity|split; [apply option_ok; vm_compute; reflexivity|split; [apply no_pixels; vm_compute; reflexivity|intros; apply Forall_nil]]]]].
Ltac an_inline :=
  match goal with
  | |- inline_ok (Words _) => apply words_inline; [discriminate|vm_compute; reflexivity]
  | |- inline_ok (Quotes _) => exact I
  | |- inline_ok (LinkTo _ _) => a_link
  | |- inline_ok (Picture _) => a_picture
  | |- inline_ok (Math _) => split; [repeat constructor; no_sign|split; [|split]; vm_compute; reflexivity]
  | |- inline_ok (Address _ _) => split; [right; eexists; reflexivity|]; split; [vm_compute; reflexivity|]; split; [repeat constructor; no_sign|];
      split; [vm_compute; reflexivity|]; split; [apply words_ok; vm_compute; reflexivity|apply start_ok; vm_compute; reflexivity]
  end.
Ltac some_attributes := split; [split; [repeat (apply Forall_cons; [split; [cbn; auto|]; split; [discriminate|]; split; [let c := fresh in let K := fresh in let J := fresh in intros c K J; cbn in K, J; intuition (subst; discriminate)|];
    split; [first [discriminate|intros _; split; no_sign]|discriminate]|]); apply Forall_nil|repeat constructor; cbn; intuition discriminate]|
  repeat (apply Forall_cons; [split; [apply words_ok; vm_compute; reflexivity|let x := fresh in let E := fresh in intros (x & E); apply (f_equal (@rev ascii)) in E; rewrite rev_app_distr in E; cbn in E; discriminate E]|]); apply Forall_nil].
Lemma simple_is_ok : forall cfg l, l <> [] -> Forall (@inline_ok cfg) l -> Forall no_note l -> Forall (fun i => forall k, i <> Quotes k) l -> trim_space (line_wikitext l) = line_wikitext l ->
  match trim_space (line_wikitext l) with [] => true | c :: _ => negb (existsb (Ascii.eqb c) !"=*#;:") end = true -> note_text_ok cfg l.
Proof.
  intros cfg l N F M Q T S. split; auto. split; auto. split; [|split; [|split; [|split; [exact T|apply start_ok; exact S]]]].
  - clear - F M. induction F as [|i l A F IH]; constructor; inversion M; subst; auto. destruct i; auto.
  - clear - Q. induction Q as [|i l A F IH]; cbn [quotes_apart]; auto. split; auto. intros k k' l' E. exfalso. eapply A; eauto.
  - clear - Q. induction Q as [|i l A F IH]; auto. destruct i; cbn [styles]; auto. exfalso. eapply A; eauto.
Qed.
Ltac note_text := apply simple_is_ok; [discriminate|repeat (apply Forall_cons; [an_inline|]); apply Forall_nil|repeat (apply Forall_cons; [exact I|]); apply Forall_nil|repeat (apply Forall_cons; [discriminate|]); apply Forall_nil|vm_compute; reflexivity|vm_compute; reflexivity].
Ltac an_inline_or_note := match goal with
  | |- inline_ok (Note _ _) => split; [some_attributes|first [discriminate|eexists; split; [reflexivity|note_text]]]
  | _ => an_inline
  end.
Ltac a_line := apply line_is_ok; [discriminate|repeat (apply Forall_cons; [an_inline_or_note|]); apply Forall_nil|
  cbn [quotes_apart]; repeat split; intros; discriminate|reflexivity|vm_compute; reflexivity|vm_compute; reflexivity].
Ltac an_item_ok := apply an_item; [a_line|first [discriminate|intros _; no_sign]|repeat (apply Forall_cons; [a_list_ok|]); apply Forall_nil|
    cbn [lists_apart]; repeat split; (let B := fresh in intros [B|[B _]]; discriminate B)]
with a_list_ok := apply a_list; [repeat (apply Forall_cons; [an_item_ok|]); apply Forall_nil|repeat (apply Forall_cons; [first [left; reflexivity|right; split; reflexivity]|]); apply Forall_nil].
Ltac an_attribute := first [split; [discriminate|repeat (apply Forall_cons; [vm_compute; tauto|]); apply Forall_nil]|split; [split; reflexivity|]; split; [reflexivity|]; split; [discriminate|]; split; [no_sign|no_sign]|
  split; [split; reflexivity|reflexivity]].
Ltac a_kind := split; [reflexivity|]; split; [repeat (apply Forall_cons; [an_attribute|]); apply Forall_nil|]; split; [apply words_ok; vm_compute; reflexivity|]; split; [no_sign|vm_compute; reflexivity].
Ltac some_cells := first [eexists; left; eexists; split; [reflexivity|a_kind]|
  eexists; right; split; [discriminate|repeat (apply Forall_cons; [split; [a_kind|split; [a_line|no_sign]]|]); apply Forall_nil]].
Ltac a_block :=
  match goal with
  | |- block_ok (Heading _ _) => split; [lia|split; [a_line|split; [no_sign|repeat (apply Forall_cons; [exact I|]); apply Forall_nil]]]
  | |- block_ok (Footnotes _ _ _ _) => split; [split; [lia|split; [a_line|split; [no_sign|repeat (apply Forall_cons; [exact I|]); apply Forall_nil]]]|split; [some_attributes|repeat (apply Forall_cons; [note_text|]); apply Forall_nil]]
  | |- block_ok (Paragraph _) => split; [discriminate|repeat (apply Forall_cons; [split; [a_line|split; [eexists; cbn [In]; eauto 20|intros (m & E); rewrite app_comm_cons in E; apply (f_equal (fun l => last l (Words []))) in E; rewrite last_last in E; discriminate E]]|]); apply Forall_nil]
  | |- block_ok (Items _) => a_list_ok
  | |- block_ok (Figure _) => a_picture
  | |- block_ok (Grid _ _ _) => split; [split; [apply words_ok; vm_compute; reflexivity|split; [no_sign|vm_compute; reflexivity]]|split;
      [intros c E; first [discriminate E|injection E as <-; split; [a_line|no_sign]]|
       repeat (apply Forall_cons; [repeat (apply Forall_cons; [some_cells|]); apply Forall_nil|]); apply Forall_nil]]
  end.
(** The numbers of footnotes, and the lists of footnotes *)
Lemma texts_listed : forall before g texts, texts = flat_map (RefNumberProofs.pick (RefNumberProofs.pending g before)) (seq 0 (List.length (ReferenceSpec.footnotes g before))) -> ReferenceSpec.listed before g texts.
Proof. intros before g texts ->. apply RefNumberProofs.pick_listed. Qed.
Ltac the_numbers := cbn [numbered]; repeat first [apply texts_listed; vm_compute; reflexivity|split].
Ltac the_sections := cbn [sections_filled]; repeat split; let level := fresh in let title := fresh in let E := fresh in intros level title E; try discriminate E; injection E as <- <-; do 2 eexists; (split; [reflexivity|let level' := fresh in let E' := fresh in intros level' E'; try discriminate E'; injection E' as <-; lia]).
Lemma example_ok : @document_ok default_config example_document.
Proof.
  split; [discriminate|]. split; [|split].
  - unfold example_document. apply Forall_cons; [a_block|]. apply Forall_cons; [a_block|]. apply Forall_cons; [a_block|]. apply Forall_cons; [a_block|].
    apply Forall_cons; [a_block|]. apply Forall_cons; [a_block|]. apply Forall_cons; [a_block|]. apply Forall_cons; [a_block|]. apply Forall_cons; [a_block|]. apply Forall_cons; [a_block|]. apply Forall_nil.
  - unfold example_document. the_sections.
  - unfold example_document. the_numbers.
Qed.

(** The file of a formula has its length as name. *)
Definition example_pictures (formula : str) : str * str * str * str := (!"images/" ++ itoa (List.length formula) ++ !".svg", !"2ex", !"1ex", []).
Definition example_render (formula : str) : res (str * str * str * str) := Ok (example_pictures formula).

Example C60_example : forall Hash service, exists text t, Tokenize Hash service default_config (wikitext example_document) (Article text t) /\
  generateHtml default_config example_render (tokenMap t) 4 !"style.css" !"Elbe" text = Ok (HEADER !"style.css" ++ nl ++ !"<h1>Elbe</h1>" ++ nl ++
   join nl [!"<b>Elbe</b>: a River."; !"<h2>Cities <i>(a - b)</i></h2>";
     !"<ol>"; !"<li>"; !" Dresden"; !"</li>"; !"<li>"; !" Hamburg, see <a href=" ++ dq ++ !"https://e.f/g_h=i" ++ dq ++ !">this page</a>";
     !"<ul>"; !"<li>"; !" Altona"; !"</li>"; !"<li>"; !" <i>Harburg</i>"; !"</li>"; !"</ul>";
     !"<div class=" ++ dq ++ !"description-list" ++ dq ++ !">"; !"<div class=" ++ dq ++ !"dt" ++ dq ++ !">"; !" Port"; !"</div>"; !"<div class=" ++ dq ++ !"dd" ++ dq ++ !">"; !" 1: large"; !"</div>"; !"</div>";
     !"</li>"; !"</ol>";
     !"<h3>the water " ++ MATH_TEMPLATE !"images/4.svg" !"2ex" !"1ex" [] ++ !"</h3>"; !"Dams: it's 1 * 1 = 1, " ++ MATH_TEMPLATE !"images/24.svg" !"2ex" !"1ex" []; !"- and - Lock"; !"<br><br>"; !"<b>very <i>deep</i></b><i> water</i>";
     !"<div class=" ++ dq ++ !"figure" ++ dq ++ !">"; !"<table>"; !"<tr>"; !"<th>"; !"Name"; !"</th>"; []; !"<th>"; !"Count"; !"</th>"; []; !"</tr>"; !"<tr>"; !"<td>"; !"Eel"; !"</td>"; !"<td>"; []; !"</td>"; !"</tr>"; !"</table>";
     !"<div class=" ++ dq ++ !"caption" ++ dq ++ !">"; !"All the Fish"; !"</div>"; !"</div>";
     !"<div class=" ++ dq ++ !"figure" ++ dq ++ !">"; !"<table>"; []; !"</table>"; !"<div class=" ++ dq ++ !"caption" ++ dq ++ !">"; []; !"</div>"; !"</div>";
     !"<div class=" ++ dq ++ !"figure" ++ dq ++ !">"; !"<img alt=" ++ dq ++ !"image" ++ dq ++ !" src=" ++ dq ++ !"./images/Eel_%26_co.jpg" ++ dq ++ !" style=" ++ dq ++ !"vertical-align: middle; width: 200px; height: 150px;" ++ dq ++ !">";
     !"<div class=" ++ dq ++ !"caption" ++ dq ++ !">"; !"1 eel: long, a fish and more"; !"</div>"; !"</div>";
     !"Flow <img alt=" ++ dq ++ !"image" ++ dq ++ !" class=" ++ dq ++ !"inline" ++ dq ++ !" src=" ++ dq ++ !"./images/Arrow.svg.png" ++ dq ++ !" style=" ++ dq ++ !"vertical-align: middle; width: 20px; height: 20px;" ++ dq ++ !"> north"] ++ FOOTER).
Proof.
  intros Hash service. destruct (C60_document_partial Hash service default_config example_document _ example_prefixes example_ok (usual _ _ example_ok)) as (text & t & T & _ & H). exists text, t. split; auto.
  apply H; [lia|]. exists example_pictures. split; [reflexivity|]. vm_compute. reflexivity.
Qed.

(** Footnotes: the first one has a name and is used twice, the text of the second one contains a link and a formula. *)
Definition note_name (s : str) : ReferenceSpec.attributes := ReferenceSpec.mkAttributes [ReferenceSpec.mkAttribute !"name" true s] 1.
Definition no_name : ReferenceSpec.attributes := ReferenceSpec.mkAttributes [] 0.
Definition noted_text : list inline := [Words !"the "; LinkTo !"Moldau" None; Words !", "; Math !"f'+y"].
Definition noted_document : list block :=
  [Paragraph [[Words !"The Elbe"; Note 0 (ReferenceSpec.mkReference (note_name !"long one") (Some (line_wikitext [Words !"1,091 km"]))); Words !" and the "; Quotes Bold; Words !"Elde"; Note 1 (ReferenceSpec.mkReference no_name (Some (line_wikitext noted_text))); Quotes Bold; Words !"."]];
   Items [Item Bullet [Words !"x"; Note 2 (ReferenceSpec.mkReference no_name (Some (line_wikitext [Words !"y"])))] [[Item Number [Note 0 (ReferenceSpec.mkReference (note_name !"long one") None); Words !" z"] []]]];
   Footnotes 2 [Words !"Notes"] no_name [(0, [Words !"1,091 km"]); (1, noted_text); (2, [Words !"y"])];
   Grid [] None [[[(mkKind false [TableSpec.OtherAttribute !"valign=top"; TableSpec.Aligned (!"style=" ++ dq) !" left" dq; TableSpec.SpanOf true true !"2"], [Words !"a"; Note 3 (ReferenceSpec.mkReference no_name (Some (line_wikitext [Words !"b"])))]);
       (mkKind false [TableSpec.SpanOf false false !"3"], [Words !"c"])]; [(mkKind false [TableSpec.SpanOf false true !"2"], [])]]];
   Footnotes 3 [Words !"More"] (ReferenceSpec.mkAttributes [] 1) [(3, [Words !"b"])]].
Lemma noted_ok : @document_ok default_config noted_document.
Proof.
  split; [discriminate|]. split; [|split].
  - unfold noted_document, note_name, no_name, noted_text. apply Forall_cons; [a_block|]. apply Forall_cons; [a_block|]. apply Forall_cons; [a_block|]. apply Forall_cons; [a_block|]. apply Forall_cons; [a_block|]. apply Forall_nil.
  - unfold noted_document. the_sections.
  - unfold noted_document. the_numbers.
Qed.

Example C60_notes_example : forall Hash service, exists text t, Tokenize Hash service default_config (wikitext noted_document) (Article text t) /\
  generateHtml default_config example_render (tokenMap t) 4 !"style.css" !"Elbe" text = Ok (HEADER !"style.css" ++ nl ++ !"<h1>Elbe</h1>" ++ nl ++
   join nl [!"The Elbe[1] and the <b>Elde[2]</b>."; !"<ul>"; !"<li>"; !" x[3]"; !"<ol>"; !"<li>"; !" [1] z"; !"</li>"; !"</ol>"; !"</li>"; !"</ul>";
     !"<h2>Notes</h2>"; !"[1] 1,091 km<br>"; !"[2] the Moldau, " ++ MATH_TEMPLATE !"images/4.svg" !"2ex" !"1ex" [] ++ !"<br>"; !"[3] y<br>";
     !"<div class=" ++ dq ++ !"figure" ++ dq ++ !">"; !"<table>"; !"<tr>"; !"<td colspan=" ++ dq ++ !"2" ++ dq ++ !" style=" ++ dq ++ !"text-align: left;" ++ dq ++ !">"; !"a[4]"; !"</td>"; !"<td rowspan=3>"; !"c"; !"</td>"; !"<td rowspan=" ++ dq ++ !"2" ++ dq ++ !">"; []; !"</td>"; !"</tr>"; !"</table>"; !"<div class=" ++ dq ++ !"caption" ++ dq ++ !">"; []; !"</div>"; !"</div>";
     !"<h3>More</h3>"; !"[4] b<br>"] ++ FOOTER).
Proof.
  intros Hash service. destruct (C60_document_partial Hash service default_config noted_document _ example_prefixes noted_ok (usual _ _ noted_ok)) as (text & t & T & _ & H). exists text, t. split; auto.
  apply H; [lia|]. exists example_pictures. split; [reflexivity|]. vm_compute. reflexivity.
Qed.

(** There is no HTML without the pictures. *)
Example C60_no_picture_example : forall Hash service text t html, Tokenize Hash service default_config (wikitext example_document) (Article text t) ->
  generateHtml default_config (fun _ => Err) (tokenMap t) 4 !"style.css" !"Elbe" text <> Ok html.
Proof.
  intros Hash service text t html T G. destruct (C60_document_partial Hash service default_config example_document _ example_prefixes example_ok (usual _ _ example_ok)) as (text' & t' & _ & U & H).
  specialize (U _ T). injection U as -> ->. apply H in G; [|lia]. destruct G as (pictures & R & _). specialize (R !"H_2O" ltac:(vm_compute; auto)). discriminate R.
Qed.

(** A text with a comment, an unwanted link, an empty item of a list, and a template within another one *)
Definition template_source : str := !"a [[Category:b]]b {{twice|{{y}}}} c<!-- x -->" ++ nl ++ !"* " ++ nl ++ nl ++ !"== d ==" ++ nl ++ nl ++ !"{{y}}: e".
Definition template_cleaned : str := !"a b {{twice|{{y}}}} c" ++ nl ++ nl ++ !"== d ==" ++ nl ++ nl ++ !"{{y}}: e".
Definition template_answer (r : str) : list TemplateSpec.piece :=
  if str_eqb r !"{{y}}" then map Chr !"[[River]]" else [Hole example_inner; Chr ","; Chr " "; Hole example_inner]%char.
Definition template_tree : list nested :=
  map TemplateSpec.Plain !"a b " ++ [Braces (map TemplateSpec.Plain !"twice|" ++ [Braces [TemplateSpec.Plain "y"]])]%char ++ map TemplateSpec.Plain (!" c" ++ nl ++ nl ++ !"== d ==" ++ nl ++ nl) ++ [Braces [TemplateSpec.Plain "y"]]%char ++ map TemplateSpec.Plain !": e".
Definition template_document : list block :=
  [Paragraph [[Words !"a b "; LinkTo !"River" None; Words !", "; LinkTo !"River" None; Words !" c"]]; Heading 2 [Words !"d"]; Paragraph [[LinkTo !"River" None; Words !": e"]]].

Lemma template_document_ok : @document_ok default_config template_document.
Proof.
  split; [discriminate|]. split; [|split].
  - unfold template_document. apply Forall_cons; [a_block|]. apply Forall_cons; [a_block|]. apply Forall_cons; [a_block|]. apply Forall_nil.
  - unfold template_document. the_sections.
  - unfold template_document. the_numbers.
Qed.
Lemma template_written : writes template_document (evaluations example_hash template_answer template_tree).
Proof. assert (E : evaluations example_hash template_answer template_tree = wikitext template_document) by (vm_compute; reflexivity). rewrite E. apply (usual default_config). exact template_document_ok. Qed.
Lemma template_tidied : tidied default_config template_source template_cleaned.
Proof.
  assert (E : template_source = CleanerSpec.commented [(!"a [[Category:b]]b {{twice|{{y}}}} c", !" x ")] (nl ++ !"* " ++ nl ++ nl ++ !"== d ==" ++ nl ++ nl ++ !"{{y}}: e")) by (vm_compute; reflexivity). rewrite E.
  eapply tidy with (links := map CleanerSpec.Plain !"a " ++ [CleanerSpec.Link (map CleanerSpec.Plain !"Category:b")] ++ map CleanerSpec.Plain (!"b {{twice|{{y}}}} c" ++ nl ++ !"* " ++ nl ++ nl ++ !"== d ==" ++ nl ++ nl ++ !"{{y}}: e"))
    (ts := map CleanerSpec.Char !"a b " ++ [CleanerSpec.Template [] !"twice" (CleanerSpec.Char "|"%char :: [CleanerSpec.Template [] !"y" []])] ++ map CleanerSpec.Char (!" c" ++ nl ++ !"* " ++ nl ++ nl ++ !"== d ==" ++ nl ++ nl) ++
      [CleanerSpec.Template [] !"y" []] ++ map CleanerSpec.Char !": e").
  - split; [|left; vm_compute; reflexivity]. intros t c [[= <- <-]|[]]. split; vm_compute; reflexivity.
  - eapply CleanerSpec.uncommented_next; [right; split; [reflexivity|]|apply CleanerSpec.uncommented_end]. intros u X. change nl with [nl_char] in X. apply (f_equal (@rev ascii)) in X. rewrite rev_app_distr in X. vm_compute in X. discriminate.
  - vm_compute. reflexivity.
  - unfold nl. cbn [map app]. PropCleanup.proper_text.
  - vm_compute. reflexivity.
  - unfold nl. cbn [map app]. PropCleanup.proper_text.
  - vm_compute. reflexivity.
  - match goal with |- RailwaySpec.railway ?a _ => replace a with template_cleaned by (vm_compute; reflexivity) end. apply no_railway. vm_compute. reflexivity.
  - vm_compute. reflexivity.
Qed.
Lemma template_read : exists l, reading !"{{" !"}}" template_cleaned l /\ closed l template_tree.
Proof.
  eexists. split.
  - unfold template_cleaned. cbn [app nl]. repeat (first [apply (read_open !"{{" !"}}"); [discriminate|] | apply (read_close !"{{" !"}}"); [right; reflexivity|]
     | apply read_other; [reflexivity|reflexivity|] | apply read_end]).
  - unfold template_tree. cbn [map app nl]. do 4 apply closed_other.
    eapply (closed_pair [Other "t"; Other "w"; Other "i"; Other "c"; Other "e"; Other "|"; Opening; Other "y"; Closing]%char).
    + do 6 apply balanced_other. apply (balanced_pair [Other "y"%char] []); repeat constructor.
    + do 6 apply closed_other. apply (closed_pair [Other "y"%char] []); repeat constructor.
    + do 13 apply closed_other. apply (closed_pair [Other "y"%char]); repeat constructor.
Qed.
Example C60_templates_example : exists text t,
  Tokenize example_hash (fun _ r => Some (pieces_text (template_answer r))) default_config template_source (Article text t) /\
  generateHtml default_config no_math (tokenMap t) 4 !"style.css" !"Elbe" text = Ok (HEADER !"style.css" ++ nl ++ !"<h1>Elbe</h1>" ++ nl ++
   join nl [!"a b River, River c"; !"<h2>d</h2>"; !"River: e"] ++ FOOTER).
Proof.
  destruct template_read as (l & R & C).
  destruct (C60_templates_partial example_hash template_answer default_config template_source template_cleaned l template_tree template_document example_prefixes template_document_ok) as (text & t & T & _ & H).
  - exact template_tidied.
  - exact R.
  - exact C.
  - exact example_hash_ok.
  - intros p q. vm_compute. intros [<-|[<-|[<-|[]]]] [<-|[<-|[<-|[]]]]; auto; discriminate.
  - exact template_written.
  - vm_compute. reflexivity.
  - exists text, t. split; [exact T|]. apply H; [lia|]. exists example_pictures. split; [intros f []|]. vm_compute. reflexivity.
Qed.

(** A text without templates that has to be cleaned up *)
Example C60_cleanup_example : tidied default_config (!"a<!-- b --> [[Category:c]]c" ++ nl ++ !"== d ==") !"a c" /\ @document_ok default_config [Paragraph [[Words !"a c"]]] /\ writes [Paragraph [[Words !"a c"]]] !"a c".
Proof.
  split; [|split].
  - change (!"a<!-- b --> [[Category:c]]c" ++ nl ++ !"== d ==") with (CleanerSpec.commented [(!"a", !" b ")] (!" [[Category:c]]c" ++ nl ++ !"== d ==")).
    eapply tidy with (links := map CleanerSpec.Plain !"a " ++ [CleanerSpec.Link (map CleanerSpec.Plain !"Category:c")] ++ map CleanerSpec.Plain (!"c" ++ nl ++ !"== d =="))
      (ts := map CleanerSpec.Char (!"a c" ++ nl ++ !"== d ==")).
    + split; [|left; vm_compute; reflexivity]. intros t c [[= <- <-]|[]]. split; vm_compute; reflexivity.
    + eapply CleanerSpec.uncommented_next; [right; split; [reflexivity|]|apply CleanerSpec.uncommented_end]. intros u X. change nl with [nl_char] in X. apply (f_equal (@rev ascii)) in X. rewrite rev_app_distr in X. vm_compute in X. discriminate.
    + vm_compute. reflexivity.
    + unfold nl. cbn [map app]. PropCleanup.proper_text.
    + vm_compute. reflexivity.
    + unfold nl. cbn [map app]. PropCleanup.proper_text.
    + vm_compute. reflexivity.
    + match goal with |- RailwaySpec.railway ?a _ => replace a with !"a c" by (vm_compute; reflexivity) end. apply no_railway. vm_compute. reflexivity.
    + vm_compute. reflexivity.
  - split; [discriminate|]. split; [apply Forall_cons; [a_block|apply Forall_nil]|]. split; [the_sections|the_numbers].
  - exists [!"a c"]. split; [|reflexivity]. apply (next_block (Paragraph [[Words !"a c"]]) [] []); [apply no_lines|]. intros b' doc' [=].
Qed.

(** Few blank lines: a heading right above a text, and a text right above and below a list.  And some more where they do not matter *)
Definition dense_document : list block :=
  [Heading 2 [Words !"Course"]; Paragraph [[Words !"It flows:"]]; Items [Item Bullet [Words !"north"] []]; Paragraph [[Words !"very slowly"]]; Paragraph [[Words !"for years."]];
   Figure (mkPicture !"file" !"Elbe.jpg" true None None); Heading 2 [Words !"End"]; Paragraph [[Words !"sea"]]].
Definition dense_text : str := join nl [[]; !"== Course =="; !"It flows:"; !"* north"; !"very slowly"; []; []; []; !"for years."; !"[[file:Elbe.jpg|thumb]]"; []; []; !"== End =="; !"sea"; []].
Lemma dense_ok : @document_ok default_config dense_document.
Proof.
  split; [discriminate|]. split; [|split].
  - unfold dense_document. do 8 (apply Forall_cons; [a_block|]). apply Forall_nil.
  - unfold dense_document. the_sections.
  - unfold dense_document. the_numbers.
Qed.
Lemma block_step : forall b doc all, let n := length (block_lines b) in firstn n all = block_lines b -> (forall b' doc', doc = b' :: doc' -> may_touch b b' \/ exists lines', skipn n all = [] :: lines') ->
  document_lines doc (skipn n all) -> document_lines (b :: doc) all.
Proof. intros b doc all n E T D. rewrite <- (firstn_skipn n all), E. apply next_block; auto. Qed.
Lemma dense_written : writes dense_document dense_text.
Proof.
  eexists. split; cycle 1; [unfold dense_text; reflexivity|]. unfold dense_document.
  repeat lazymatch goal with
  | |- document_lines [] [] => apply no_lines
  | |- document_lines _ ([] :: _) => apply blank_line
  | |- document_lines (_ :: _) _ => apply block_step; [vm_compute; reflexivity|let E := fresh in intros b' doc' E; try discriminate E; injection E as <- _; first [left; exact I|right; eexists; vm_compute; reflexivity]|
      match goal with |- document_lines ?d ?l => let l' := eval vm_compute in l in change (document_lines d l') end]
  end.
Qed.
Example C60_dense_example : forall Hash service, exists text t, Tokenize Hash service default_config dense_text (Article text t) /\
  generateHtml default_config no_math (tokenMap t) 4 !"style.css" !"Elbe" text = Ok (HEADER !"style.css" ++ nl ++ !"<h1>Elbe</h1>" ++ nl ++
   join nl [!"<h2>Course</h2>"; !"It flows:"; !"<ul>"; !"<li>"; !" north"; !"</li>"; !"</ul>"; !"very slowly"; !"<br><br>"; !"for years.";
     !"<div class=" ++ dq ++ !"figure" ++ dq ++ !">"; !"<img alt=" ++ dq ++ !"image" ++ dq ++ !" src=" ++ dq ++ !"./images/Elbe.jpg" ++ dq ++ !" >";
     !"<div class=" ++ dq ++ !"caption" ++ dq ++ !">"; []; !"</div>"; !"</div>"; !"<h2>End</h2>"; !"sea"] ++ FOOTER).
Proof.
  intros Hash service. destruct (C60_document_partial Hash service default_config dense_document dense_text example_prefixes dense_ok dense_written) as (text & t & T & _ & H). exists text, t. split; auto.
  apply H; [lia|]. exists example_pictures. split; [intros f []|]. vm_compute. reflexivity.
Qed.

(** ** What is missing *)

(** The article and its HTML for a text without templates *)
Definition becomes (text html : str) : Prop := forall Hash service, exists result t, Tokenize Hash service default_config text (Article result t) /\
  generateHtml default_config no_math (tokenMap t) 4 !"s" !"t" result = Ok (HEADER !"s" ++ nl ++ !"<h1>t</h1>" ++ nl ++ html ++ FOOTER).

Lemma becomes_intro : forall text cleaned result t html, clean default_config text = Ok cleaned -> clean default_config cleaned = Ok cleaned ->
  contains !"{{" cleaned = false -> contains !"$$TEMPLATE_PLACEHOLDER_" cleaned = false -> tokenizeContent default_config 6 cleaned NewTokenizer = Ok (result, t) ->
  generateHtml default_config no_math (tokenMap t) 4 !"s" !"t" result = Ok (HEADER !"s" ++ nl ++ !"<h1>t</h1>" ++ nl ++ html ++ FOOTER) -> becomes text html.
Proof.
  intros text cleaned result t html E1 E2 N1 N2 T H Hash service. exists result, t. split; auto.
  assert (G : evaluateTemplates_first Hash service cleaned = (mkTState [] [], Ok cleaned)) by (apply no_templates; auto; unfold template_fuel; lia).
  eapply tokenize_rest; [exact E1|exact G|apply resolves_end; exact N2|]. eapply cleaned_article; [exact E2|exact T].
Qed.

(** There is a break between two paragraphs, but not before or behind a paragraph that is only a link: the paragraphs are shown as a single one. *)
Theorem C60_link_paragraph_refuted : becomes (wikitext [Paragraph [[Words !"a"]]; Paragraph [[LinkTo !"b" None]]; Paragraph [[Words !"c"]]]) (!"a" ++ nl ++ !"b" ++ nl ++ !"c") /\
  becomes (wikitext [Paragraph [[Words !"a"]]; Paragraph [[Words !"b"]]; Paragraph [[Words !"c"]]]) (!"a" ++ nl ++ !"<br><br>" ++ nl ++ !"b" ++ nl ++ !"<br><br>" ++ nl ++ !"c").
Proof.
  split; (eapply becomes_intro; [vm_compute; reflexivity|vm_compute; reflexivity|vm_compute; reflexivity|vm_compute; reflexivity|vm_compute; reflexivity|vm_compute; reflexivity]).
Qed.
Print Assumptions C60_link_paragraph_refuted.

(** A paragraph that is completely bold counts as a heading; it is lost if there is another heading behind it. *)
Theorem C60_bold_paragraph_refuted :
  becomes (wikitext [Paragraph [[Words !"a"]]; Paragraph [[Quotes Bold; Words !"never do b"; Quotes Bold]]; Heading 2 [Words !"c"]; Paragraph [[Words !"d"]]]) (!"a" ++ nl ++ !"<h2>c</h2>" ++ nl ++ !"d").
Proof. eapply becomes_intro; [vm_compute; reflexivity|vm_compute; reflexivity|vm_compute; reflexivity|vm_compute; reflexivity|vm_compute; reflexivity|vm_compute; reflexivity]. Qed.
Print Assumptions C60_bold_paragraph_refuted.

(** Two equal signs within a heading are lost. *)
Theorem C60_heading_equals_refuted : becomes (wikitext [Heading 2 [Words !"a == b"]; Paragraph [[Words !"c"]]]) (!"<h2>a  b</h2>" ++ nl ++ !"c").
Proof. eapply becomes_intro; [vm_compute; reflexivity|vm_compute; reflexivity|vm_compute; reflexivity|vm_compute; reflexivity|vm_compute; reflexivity|vm_compute; reflexivity]. Qed.
Print Assumptions C60_heading_equals_refuted.

(** The same happens with a paragraph that is only a formula. *)
Theorem C60_formula_paragraph_refuted : becomes (wikitext [Paragraph [[Words !"a"]]; Paragraph [[Math !"x"]]; Paragraph [[Words !"c"]]])
  (!"a" ++ nl ++ MATH_TEMPLATE !"math/x.png" !"2ex" !"3ex" !"vertical-align: 1ex" ++ nl ++ !"c").
Proof. eapply becomes_intro; [vm_compute; reflexivity|vm_compute; reflexivity|vm_compute; reflexivity|vm_compute; reflexivity|vm_compute; reflexivity|vm_compute; reflexivity]. Qed.
Print Assumptions C60_formula_paragraph_refuted.

(** The footnotes in a heading are counted apart: the mark has the number of another footnote, and the text of the footnote is in no list. *)
Definition plain_note (n : nat) (s : str) : inline := Note n (ReferenceSpec.mkReference no_name (Some s)).
Theorem C60_heading_note_refuted :
  becomes (wikitext [Heading 2 [Words !"a"; plain_note 0 !"first"]; Paragraph [[Words !"b"; plain_note 1 !"second"]]; Footnotes 2 [Words !"Notes"] no_name [(0, [Words !"first"]); (1, [Words !"second"])]])
    (join nl [!"<h2>a[1]</h2>"; !"b[1]"; !"<h2>Notes</h2>"; !"[1] second<br>"]).
Proof. eapply becomes_intro; [vm_compute; reflexivity|vm_compute; reflexivity|vm_compute; reflexivity|vm_compute; reflexivity|vm_compute; reflexivity|vm_compute; reflexivity]. Qed.
Print Assumptions C60_heading_note_refuted.

(** The loop over the placeholders, in one order *)
Definition one_order (m : list (str * str)) : list str := nodup str_eq_dec (map fst m).
Fixpoint resolve (fuel : nat) (m : list (str * str)) (c : str) : option str :=
  match fuel with
  | O => None
  | S n => if contains templatePlaceholderPrefix c then resolve n m (replace_round m (one_order m) c) else Some c
  end.

Lemma one_order_ok : forall m, iteration_order m (one_order m).
Proof.
  intros m. split; [apply NoDup_nodup|]. intros key. unfold one_order. rewrite nodup_In. induction m as [|[k v] m IH]; cbn [map fst lookup In]; [split; [intros []|intros (v & V); discriminate]|].
  destruct (str_eqb key k) eqn:E; [apply str_eqb_eq in E; subst; split; eauto|]. rewrite <- IH. split; [intros [->|H]; auto; rewrite str_eqb_refl in E; discriminate|auto].
Qed.

Lemma resolve_ok : forall fuel m c r, resolve fuel m c = Some r -> resolves m c r.
Proof.
  induction fuel as [|n IH]; intros m c r H; cbn [resolve] in H; [discriminate|]. destruct (contains templatePlaceholderPrefix c) eqn:E.
  - eapply resolves_round; [exact E|apply one_order_ok|apply IH; exact H].
  - injection H as <-. apply resolves_end. exact E.
Qed.

(** Two opening braces in a formula are taken for a template: another formula is shown, which contains the answer of the template service. *)
Theorem C60_formula_braces_refuted : exists service text t,
  Tokenize example_hash service default_config (wikitext [Paragraph [[Words !"a "; Math !"2^{{x}}"]]]) (Article text t) /\
  forall renderMath html, generateHtml default_config renderMath (tokenMap t) 4 !"s" !"t" text = Ok html ->
    exists picture, renderMath !"2^(the answer)" = Ok picture /\ html = HEADER !"s" ++ nl ++ !"<h1>t</h1>" ++ nl ++ !"a " ++ formula_html (fun _ => picture) !"2^(the answer)" ++ FOOTER.
Proof.
  assert (A : @document_ok default_config [Paragraph [[Words !"a "; Math !"2^(the answer)"]]]).
  { split; [discriminate|]. split; [apply Forall_cons; [a_block|apply Forall_nil]|]. split; [the_sections|the_numbers]. }
  destruct (document_parsed default_config _ _ example_prefixes A (usual _ _ A)) as (text & t & T & _ & H).
  exists (fun _ _ => Some !"(the answer)"), text, t. split.
  - eapply tokenize_rest; [vm_compute; reflexivity|vm_compute; reflexivity| |exact T]. apply (resolve_ok 3). vm_compute. reflexivity.
  - intros renderMath html G. apply H in G; [|lia]. destruct G as (pictures & R & ->). exists (pictures !"2^(the answer)"). split; [apply R; vm_compute; auto|].
    unfold document_html. cbn [html_lines block_html map join line_html app]. rewrite !app_nil_r. reflexivity.
Qed.
Print Assumptions C60_formula_braces_refuted.
