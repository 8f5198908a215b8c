(** * C68: the statistics of documents *)

From Coq Require Import Ascii String.
From Coq Require Import List Arith NArith Bool Lia.
From Verif Require Import GoStr GoStrFacts CleanupSpec CleanupProofs BracketSpec ConfigModel CleanerModel TemplateModel TemplateSpec TokenModel TokenSpec TokenProofs TokenizerModel ArticleModel SafeSpec PassSpec ExpandModel ExpandSpec
  StatsModel StatsSpec StatsProofs StatsTotalProofs PropStats.
From Verif Require Import PropTokens PropTemplate PropSafe PropEnd PropHtml FormattingSpec DocumentSpec DocumentTokenProofs DocumentStatsSpec DocumentStatsProofs PropDocument.
Import ListNotations.
Local Open Scope list_scope.

Lemma things_said : forall letter instance title h es stats, says letter instance title es stats -> agree [] h es -> says_things letter instance title h stats.
Proof.
  intros letter instance title h es stats (S1 & S2 & (speed & S3 & S4) & S5 & S6 & S7) A. split; [exact S1|]. split; [intros c C; rewrite S2 by exact C; apply agree_number; auto|].
  split; [exists speed; split; [exact S3|]; rewrite S4; rewrite (agree_number letter NumberOfWords h es A) by discriminate; reflexivity|].
  split; [exact S5|]. split; intros name; rewrite <- (agree_links name h es A); auto.
Qed.

(** The statistics of an article that was made of a document *)
Lemma parsed_says : forall cfg doc text t letter instance, @document_ok cfg doc -> parsed_as doc text t ->
  exists n, forall fuel title, n <= fuel -> exists stats, generateStats letter instance (tokenMap t) fuel title text = Ok stats /\
    says_things letter instance title (document_things (flat_document doc)) stats.
Proof.
  intros cfg doc text t letter instance (_ & F & _) (U & bs & B & ->). pose proof (document_sees t U doc bs F B) as S.
  apply (proj1 (sees_events (tokenMap t))) in S as (d & O & _ & E & H). destruct (H []) as (es & T & A). assert (X : text_events counted_texts (tokenMap t) (layout_text d) es) by (constructor; auto).
  rewrite E. destruct (proj1 (events_work (tokenMap t) letter) _ _ X) as (n & W). exists n. intros fuel title L.
  destruct (W fuel L (mkArticleStats title (fun _ => 0) [])) as (x & st & G). unfold generateStats. rewrite G. cbn [bind]. eexists. split; [reflexivity|]. eapply things_said; [|exact A].
  eapply (C33_counted letter instance (tokenMap t) fuel title (layout_text d) es); [exact X|]. unfold generateStats. rewrite G. reflexivity.
Qed.

(** The statistics of a document say what is in it, without the lists below the items of lists: characters, words (and from them the time for reading), links, to which articles they lead and how often,
    images and formulas; the numbers of footnotes are 0.  They can always be made, and this is the only possible result, whatever the template service does.
    [fuel]: bounds the nesting of tokens. *)
Theorem C68_document : forall Hash service cfg doc source letter instance, prefixes_ok cfg -> @document_ok cfg doc -> writes doc source ->
  exists text t, Tokenize Hash service cfg source (Article text t) /\
    (forall o, Tokenize Hash service cfg source o -> o = Article text t) /\
    exists n, forall fuel title, n <= fuel -> exists stats, generateStats letter instance (tokenMap t) fuel title text = Ok stats /\
      says_things letter instance title (document_things (flat_document doc)) stats.
Proof.
  intros Hash service cfg doc source letter instance P D W. destruct (document_article Hash service cfg doc source P D W) as (text & t & A & B & C & _). exists text, t. split; [exact A|]. split; [exact B|]. eapply parsed_says; eauto.
Qed.
Print Assumptions C68_document.

(** The same for texts that become a document when they are cleaned and the templates are replaced by the answers (see C60). *)
Theorem C68_templates : forall Hash answer cfg source cleaned l tree doc letter instance, prefixes_ok cfg -> @document_ok cfg doc ->
  tidied cfg source cleaned -> reading !"{{" !"}}" cleaned l -> closed l tree ->
  (forall s, hash_value (Hash s)) -> (forall p q, In p (all_requests Hash tree) -> In q (all_requests Hash tree) -> Hash p = Hash q -> p = q) ->
  writes doc (evaluations Hash answer tree) -> contains !"TEMPLATE_PLACEHOLDER_" (evaluations Hash answer tree) = false ->
  let service := fun (_ : list str) (r : str) => Some (pieces_text (answer r)) in
  exists text t, Tokenize Hash service cfg source (Article text t) /\
    (forall o, Tokenize Hash service cfg source o -> o = Article text t) /\
    exists n, forall fuel title, n <= fuel -> exists stats, generateStats letter instance (tokenMap t) fuel title text = Ok stats /\
      says_things letter instance title (document_things (flat_document doc)) stats.
Proof.
  intros Hash answer cfg source cleaned l tree doc letter instance P D E R C Hh I V NP service. destruct (templates_article Hash answer cfg source cleaned l tree doc P D (tidied_clean _ _ _ E) R C Hh I V NP) as (text & t & A & B & K & _).
  exists text, t. split; [exact A|]. split; [exact B|]. eapply parsed_says; eauto.
Qed.
Print Assumptions C68_templates.

(** ** Lists below items *)

Definition has_no_lists_below (doc : list block) : Prop := forall items m text below, In (Items items) doc -> In (Item m text below) items -> below = [].

Lemma flat_is : forall doc, has_no_lists_below doc -> flat_document doc = doc.
Proof.
  intros doc H. unfold flat_document. rewrite <- (map_id doc) at 2. apply map_ext_in. intros [n title|lines|items|a caption rows|p|fn ft fa fx] B; cbn [flat_block]; auto. f_equal.
  rewrite <- (map_id items) at 2. apply map_ext_in. intros [m text below] I. cbn [flat_item]. rewrite (H _ _ _ _ B I). reflexivity.
Qed.

(** Without such lists the statistics are about the whole document.  (Missing: documents with lists below the items of lists, see below.) *)
Theorem C68_whole_partial : forall Hash service cfg doc source letter instance, prefixes_ok cfg -> @document_ok cfg doc -> writes doc source -> has_no_lists_below doc ->
  exists text t, Tokenize Hash service cfg source (Article text t) /\
    (forall o, Tokenize Hash service cfg source o -> o = Article text t) /\
    exists n, forall fuel title, n <= fuel -> exists stats, generateStats letter instance (tokenMap t) fuel title text = Ok stats /\
      says_things letter instance title (document_things doc) stats.
Proof. intros Hash service cfg doc source letter instance P D W N. pose proof (C68_document Hash service cfg doc source letter instance P D W) as H. rewrite (flat_is doc N) in H. exact H. Qed.
Print Assumptions C68_whole_partial.

(** ** Examples *)

(** The example of C60 (without footnotes; "Altona", "Harburg", "Port" and "1: large" are below an item) *)
Example C68_example : forall Hash service, exists text t, Tokenize Hash service default_config (wikitext example_document) (Article text t) /\
  exists n, forall fuel, n <= fuel -> exists stats, generateStats ascii_letter !"en" (tokenMap t) fuel !"Elbe" text = Ok stats /\
    ArticleName stats = !"Elbe" /\ count stats NumberOfCharacters = 192 /\ count stats NumberOfWords = 40 /\ count stats EstimatedReadingTimeMinutes = 0 /\
    count stats NumberOfInternalLinks = 8 /\ count stats NumberOfExternalLinks = 1 /\ count stats NumberOfImages = 2 /\ count stats NumberOfMath = 2 /\ count stats NumberOfRefDefinitions = 0 /\
    entry !"Dresden" (InternalLinks stats) = 1 /\ entry !"fish" (InternalLinks stats) = 1 /\ ~ In !"Dresden#History" (map fst (InternalLinks stats)).
Proof.
  intros Hash service. destruct (C68_document Hash service default_config example_document _ ascii_letter !"en" example_prefixes example_ok (usual _ _ example_ok)) as (text & t & T & _ & n & H). exists text, t. split; [exact T|].
  exists n. intros fuel L. destruct (H fuel !"Elbe" L) as (stats & G & A & N & (speed & R & E) & _ & M & K). exists stats. split; [exact G|]. split; [exact A|].
  split; [rewrite N by discriminate; vm_compute; reflexivity|]. split; [rewrite N by discriminate; vm_compute; reflexivity|].
  split; [rewrite E; inversion R; subst; try (vm_compute; reflexivity)|].
  do 5 (split; [rewrite N by discriminate; vm_compute; reflexivity|]). do 2 (split; [rewrite M; vm_compute; reflexivity|]). rewrite K. vm_compute. lia.
Qed.

(** Footnotes are counted as well: their marks and their texts, which are in the lists of footnotes. *)
Example C68_notes_example : forall Hash service, exists text t, Tokenize Hash service default_config (wikitext noted_document) (Article text t) /\
  exists n, forall fuel, n <= fuel -> exists stats, generateStats ascii_letter !"en" (tokenMap t) fuel !"Elbe" text = Ok stats /\
    count stats NumberOfRefUsages = 4 /\ count stats NumberOfRefDefinitions = 4 /\ count stats NumberOfMath = 1 /\ entry !"Moldau" (InternalLinks stats) = 1.
Proof.
  intros Hash service. destruct (C68_document Hash service default_config noted_document _ ascii_letter !"en" example_prefixes noted_ok (usual _ _ noted_ok)) as (text & t & T & _ & n & H). exists text, t. split; [exact T|].
  exists n. intros fuel L. destruct (H fuel !"Elbe" L) as (stats & G & A & N & (speed & R & E) & _ & M & K). exists stats. split; [exact G|].
  do 3 (split; [rewrite N by discriminate; vm_compute; reflexivity|]). rewrite M. vm_compute. reflexivity.
Qed.

(** This is not everything in the document. *)
Theorem C68_lists_refuted : exists doc, @document_ok default_config doc /\ forall Hash service, exists text t, Tokenize Hash service default_config (wikitext doc) (Article text t) /\
  exists n, forall fuel title, n <= fuel -> exists stats, generateStats ascii_letter !"en" (tokenMap t) fuel title text = Ok stats /\ ~ says_things ascii_letter !"en" title (document_things doc) stats.
Proof.
  exists example_document. split; [exact example_ok|]. intros Hash service. destruct (C68_document Hash service default_config example_document _ ascii_letter !"en" example_prefixes example_ok (usual _ _ example_ok)) as (text & t & T & _ & n & H).
  exists text, t. split; [exact T|]. exists n. intros fuel title L. destruct (H fuel title L) as (stats & G & _ & N & _). exists stats. split; [exact G|]. intros (_ & N' & _).
  specialize (N NumberOfWords ltac:(discriminate)). specialize (N' NumberOfWords ltac:(discriminate)). rewrite N in N'. vm_compute in N'. discriminate.
Qed.
Print Assumptions C68_lists_refuted.

(** The document without the list below the item *)
Definition flat_example : list block := [Heading 2 [Words !"A "; Quotes Bold; Words !"b"; Quotes Bold; Words !"c"]; Items [Item Bullet [LinkTo !"Elbe#Mouth" (Some !"the sea")] []; Item Bullet [LinkTo !"Elbe" None; Words !" river"] []]].
Lemma flat_example_ok : @document_ok default_config flat_example.
Proof.
  split; [discriminate|]. split; [unfold flat_example; apply Forall_cons; [a_block|]; apply Forall_cons; [a_block|]; apply Forall_nil|].
  split; [unfold flat_example; the_sections|unfold flat_example; the_numbers].
Qed.
Example C68_whole_example : @document_ok default_config flat_example /\ has_no_lists_below flat_example /\
  number_of ascii_letter NumberOfWords (document_things flat_example) = 6 /\ links_in !"Elbe" (document_things flat_example) = 2.
Proof.
  split; [exact flat_example_ok|]. split; [|split; vm_compute; reflexivity]. intros items m text below [E|[E|[]]] I; [discriminate|]. injection E as <-. destruct I as [E|[E|[]]]; injection E as <- <- <-; reflexivity.
Qed.

(** A text with templates (see C60) *)
Example C68_templates_example : exists text t, Tokenize example_hash (fun _ r => Some (pieces_text (template_answer r))) default_config template_source (Article text t) /\
  exists n, forall fuel, n <= fuel -> exists stats, generateStats ascii_letter !"en" (tokenMap t) fuel !"Elbe" text = Ok stats /\
    count stats NumberOfWords = 8 /\ count stats NumberOfInternalLinks = 3 /\ entry !"River" (InternalLinks stats) = 3.
Proof.
  destruct template_read as (l & R & C).
  destruct (C68_templates example_hash template_answer default_config template_source template_cleaned l template_tree template_document ascii_letter !"en" example_prefixes template_document_ok) as (text & t & T & _ & n & H).
  - exact template_tidied.
  - exact R.
  - exact C.
  - exact example_hash_ok.
  - intros p q. vm_compute. intros [<-|[<-|[<-|[]]]] [<-|[<-|[<-|[]]]]; auto; discriminate.
  - exact template_written.
  - vm_compute. reflexivity.
  - exists text, t. split; [exact T|]. exists n. intros fuel L. destruct (H fuel !"Elbe" L) as (stats & G & _ & N & _ & _ & M & _). exists stats. split; [exact G|].
    do 2 (split; [rewrite N by discriminate; vm_compute; reflexivity|]). rewrite M. vm_compute. reflexivity.
Qed.
