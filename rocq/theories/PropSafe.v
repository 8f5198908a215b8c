(** * Parsing and crashes (C19) *)

From Coq Require Import Ascii String.
From Coq Require Import List Arith NArith ZArith Bool Lia.
From Verif Require Import GoStr GoStrFacts TextFacts ConfigModel CleanerModel TemplateModel TemplateSpec TokenModel TokenizerModel ArticleModel SafeSpec SafeProofs PropTokens PropTemplate.
Import ListNotations.
Local Open Scope list_scope.

(** ** The parser behind the cleanup *)

(** C19: A calm text (see SafeSpec) is parsed without a crash, in whatever state the tokenizer is, and what remains of it is calm.
    Missing: texts with tables, images, references, galleries and so on; some of them crash (see below). *)
Theorem C19_calm_partial : forall cfg fuel s t, prefixes_are_words cfg -> calm cfg s ->
  no_crash (tokenizeContent cfg fuel s t) /\ forall s' t', tokenizeContent cfg fuel s t = Ok (s', t') -> calm cfg s'.
Proof.
  intros cfg fuel s t W C. pose proof (tokenizeContent_safe cfg W fuel s C t) as H.
  destruct (tokenizeContent cfg fuel s t) as [[x y]| | |]; cbn in H; split; try (split; discriminate); try contradiction; try discriminate.
  intros s' t' E. injection E as <- <-. exact H.
Qed.
Print Assumptions C19_calm_partial.

(** ** The whole parser *)

Lemma no_templates : forall Hash service st content, contains !"{{" content = false -> forall fuel i, length content < fuel + i -> 0 < fuel ->
  replaceTemplateByPlaceholders Hash service fuel st content i = (st, Ok content).
Proof.
  intros Hash service st content N fuel. induction fuel as [|fuel IH]; intros i L P; [lia|]. cbn [replaceTemplateByPlaceholders].
  destruct (Nat.ltb_spec (i + 2) (length content)) as [K|K]; auto.
  assert (H : has_prefix !"{{" (skipn i content) = false).
  { destruct (has_prefix _ _) eqn:H; auto. apply has_prefix_spec in H as (b & H). rewrite contains_false in N. exfalso. apply (N (firstn i content) b).
    rewrite <- H, firstn_skipn. auto. }
  rewrite H. apply IH; lia.
Qed.

Lemma resolves_nothing : forall a b, resolves [] a b -> a = b.
Proof.
  intros a b R. induction R as [|content order result P (N & O) R IH]; auto. destruct order as [|k order]; auto.
  destruct (O k) as [I _]. destruct I as (v & V); [left; auto|discriminate].
Qed.

(** C19: If the whole program crashes while parsing, the crash comes from one of the two cleanups (see C09) or the cleaned text is not calm.
    The evaluation of the templates never crashes, whatever the service answers. *)
Theorem C19_origin_partial : forall Hash service cfg content, (forall s, hash_value (Hash s)) -> prefixes_are_words cfg ->
  Tokenize Hash service cfg content Crashed ->
  clean cfg content = Panic \/
  exists content1 st first content2, clean cfg content = Ok content1 /\ evaluateTemplates_first Hash service content1 = (st, Ok first) /\
    resolves (placeholders st) first content2 /\
    (clean cfg content2 = Panic \/ exists content3, clean cfg content2 = Ok content3 /\ ~ calm cfg content3).
Proof.
  intros Hash service cfg content Hh W T. inversion T as [c o S|c c' st r o E F S|c c' st first resolved o E F R C]; subst.
  - left. inversion S. auto.
  - exfalso. destruct (C14_total Hash service c' Hh) as (st' & [K|(x & K)]); rewrite F in K; injection K as -> ->; inversion S.
  - right. exists c', st, first, resolved. split; [exact E|]. split; [exact F|]. split; [exact R|].
    inversion C as [? ? S|? ? ? ? ? E2 T2|? c2 fuel ? E2 S]; subst; [left; inversion S; auto|].
    right. exists c2. split; auto. intros K. destruct (C19_calm_partial cfg fuel c2 NewTokenizer W K) as ((NP & NE) & _).
    inversion S as [H|H]; auto.
Qed.
Print Assumptions C19_origin_partial.

(** C19: A calm text without templates which the cleanup does not change is parsed without a crash and without an error. *)
Theorem C19_article_partial : forall Hash service cfg content o, prefixes_are_words cfg -> clean cfg content = Ok content ->
  contains !"{{" content = false -> calm cfg content -> Tokenize Hash service cfg content o -> exists text t, o = Article text t.
Proof.
  intros Hash service cfg content o W E N C T. assert (F : evaluateTemplates_first Hash service content = (mkTState [] [], Ok content)).
  { apply no_templates; auto; unfold template_fuel; lia. }
  inversion T as [c o' S|c c' st r o' E' F' S|c c' st first resolved o' E' F' R D]; subst.
  - rewrite E in S. inversion S.
  - rewrite E in E'. injection E' as <-. rewrite F in F'. injection F' as <- <-. inversion S.
  - rewrite E in E'. injection E' as <-. rewrite F in F'. injection F' as <- <-. cbn [placeholders] in R. apply resolves_nothing in R as <-.
    inversion D as [? ? S|? ? ? text t E2 T2|? c2 fuel ? E2 S]; subst; [rewrite E in S; inversion S|eauto|].
    rewrite E in E2. injection E2 as <-. destruct (C19_calm_partial cfg fuel content NewTokenizer W C) as ((NP & NE) & _).
    inversion S as [H|H]; congruence.
Qed.
Print Assumptions C19_article_partial.

(** ** Examples *)

(** A decision for calm texts *)
Definition starts_target_b (c : ascii) : bool :=
  let n := N_of_ascii c in
  (((33 <=? n) && (n <=? 126)) || ((195 <=? n) && (n <=? 223)))%N && negb (existsb (Ascii.eqb c) !"[]|#:=").
Fixpoint links_start (s : str) : bool :=
  match s with
  | [] => true
  | _ :: s' => (if has_prefix !"[[" s then match skipn 2 s with [] => false | c :: _ => starts_target_b c end else true) && links_start s'
  end.
Definition calm_b (cfg : configuration) (s : str) : bool :=
  forallb (fun w => negb (contains w (essence s))) (openings ++ file_links cfg) && links_start (essence s).

Lemma starts_target_sound : forall c, starts_target_b c = true -> starts_target c.
Proof.
  intros c H. unfold starts_target_b in H. apply andb_true_iff in H as [H N]. split.
  - apply orb_true_iff in H as [H|H]; apply andb_true_iff in H as [A B]; apply N.leb_le in A, B; lia.
  - intros I. apply negb_true_iff in N. assert (X : existsb (Ascii.eqb c) !"[]|#:=" = true); [|congruence].
    apply existsb_exists. exists c. split; auto. apply Ascii.eqb_refl.
Qed.

Lemma links_start_sound : forall s, links_start s = true -> forall a b, s = a ++ !"[[" ++ b -> exists c b', b = c :: b' /\ starts_target c.
Proof.
  induction s as [|x s IH]; intros H a b E; [destruct a; discriminate|]. cbn [links_start] in H. apply andb_true_iff in H as [H1 H2].
  destruct a as [|y a].
  - cbn [List.app] in E. assert (P : has_prefix !"[[" (x :: s) = true) by (rewrite E; apply has_prefix_spec; exists b; reflexivity).
    rewrite P in H1. assert (Q : skipn 2 (x :: s) = b) by (rewrite E; reflexivity). rewrite Q in H1. destruct b as [|c b]; [discriminate|].
    exists c, b. split; auto. apply starts_target_sound. exact H1.
  - injection E as -> E. eapply IH; eauto.
Qed.

Lemma calm_sound : forall cfg s, calm_b cfg s = true -> calm cfg s.
Proof.
  intros cfg s H. unfold calm_b in H. apply andb_true_iff in H as [H1 H2]. split; [|apply links_start_sound; auto].
  intros w I (a & b & E). rewrite forallb_forall in H1. specialize (H1 w I). apply negb_true_iff in H1. rewrite contains_false in H1. apply (H1 a b). auto.
Qed.

Lemma default_words : prefixes_are_words default_config.
Proof.
  intros p c I J. assert (F : forallb (fun p => forallb (fun c => negb (existsb (Ascii.eqb c) (!"$]=" ++ nl))) p) (lists default_config FilePrefixes) = true) by (vm_compute; reflexivity).
  rewrite forallb_forall in F. specialize (F p I). rewrite forallb_forall in F. specialize (F c J). intros K. apply negb_true_iff in F.
  assert (X : existsb (Ascii.eqb c) (!"$]=" ++ nl) = true); [|congruence]. apply existsb_exists. exists c. split; auto. apply Ascii.eqb_refl.
Qed.

(** Headings, formatting, links inside and outside of the wiki, nested lists, formulas, and markup that is not closed *)
Definition calm_text : str :=
  !"Intro with ''''too many''' quotes, [[Link|a ''text'']], [http://a.b label], [x [y and ]] and <math>a_1" ++ nl ++
  !"== A [[b]] title ==" ++ nl ++
  !"* item [[c]]" ++ nl ++ !"*# sub <b>bold</b>" ++ nl ++ !"; word : text" ++ nl ++ nl ++ !"</math> <math>x</math> | } ]] = <br".

Lemma calm_text_article : exists text t, tokenizeContent default_config 6 calm_text NewTokenizer = Ok (text, t) /\ length (tokenMap t) = 7.
Proof. do 2 eexists. split; vm_compute; reflexivity. Qed.

(** The hypotheses are met by this text with the default configuration, and there is an article. *)
Example C19_example : forall Hash service, prefixes_are_words default_config /\ calm default_config calm_text /\
  clean default_config calm_text = Ok calm_text /\ contains !"{{" calm_text = false /\
  exists text t, Tokenize Hash service default_config calm_text (Article text t) /\ length (tokenMap t) = 7.
Proof.
  intros. split; [apply default_words|]. split; [apply calm_sound; vm_compute; reflexivity|].
  assert (E : clean default_config calm_text = Ok calm_text) by (vm_compute; reflexivity). split; [exact E|]. split; [vm_compute; reflexivity|].
  destruct calm_text_article as (text & t & T & L). exists text, t. split; [|exact L].
  eapply tokenize_rest; [exact E|apply no_templates; [vm_compute; reflexivity|unfold template_fuel; lia|unfold template_fuel; lia]|
    apply resolves_end; vm_compute; reflexivity|eapply cleaned_article; [exact E|exact T]].
Qed.

(** ** Crashes *)

Lemma crashes : forall Hash service cfg content fuel, clean cfg content = Ok content -> contains !"{{" content = false ->
  contains templatePlaceholderPrefix content = false -> tokenizeContent cfg fuel content NewTokenizer = Panic ->
  Tokenize Hash service cfg content Crashed.
Proof.
  intros Hash service cfg content fuel E N P T. eapply tokenize_rest; [exact E|apply no_templates; [exact N|unfold template_fuel; lia|unfold template_fuel; lia]|
    apply resolves_end; exact P|eapply cleaned_crash; [exact E|rewrite T; constructor]].
Qed.

(** C19 is false in general.  Each of these texts crashes the parser: a tag without its end, a reference without the beginning or the end, links
    and images without a target, a table without its end, and brackets that become a link when equals signs are removed from a heading. *)
Theorem C19_tokenizer_refuted : forall Hash service content, In content
  [!"a <nowiki> b"; !"a <ref> b"; !"a </ref> b"; !"a <ref name=x>"; !"[[]]"; !"[[ ]]"; !"[[#section]]"; !"[["; !"[[File:]]"; !"<imagemap>";
   !"{|" ++ nl ++ !"|-"; !"{|" ++ nl ++ !"|a"; !"== [==[ ==" ++ nl ++ !"a"; !"; =[=[= : b"] ->
  Tokenize Hash service default_config content Crashed.
Proof.
  intros Hash service content I. cbn [In] in I.
  repeat destruct I as [<-|I]; try destruct I; apply (crashes Hash service default_config _ 6); vm_compute; reflexivity.
Qed.
Print Assumptions C19_tokenizer_refuted.

(** A link that is not closed crashes the first cleanup, and the removal of an empty section can remove the end of a link, which crashes the
    second cleanup. *)
Theorem C19_cleanup_refuted : forall Hash service content, In content [!"[[abc"; !"[[a" ++ nl ++ !"== b ==" ++ nl ++ nl ++ !"== ]] =="] ->
  Tokenize Hash service default_config content Crashed.
Proof.
  intros Hash service content I. cbn [In] in I. destruct I as [<-|[<-|[]]].
  - apply tokenize_stops. constructor.
  - eapply tokenize_rest; [vm_compute; reflexivity|apply no_templates; [vm_compute; reflexivity|unfold template_fuel; lia|unfold template_fuel; lia]|
      apply resolves_end; vm_compute; reflexivity|]. apply cleaned_stops. constructor.
Qed.
Print Assumptions C19_cleanup_refuted.
