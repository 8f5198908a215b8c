(** * C63: the whole book *)

From Coq Require Import Ascii String.
From Coq Require Import List Arith ZArith Bool Lia.
From Verif Require Import GoStr GoStrFacts CleanupSpec CleanupProofs UtilModel ConfigModel CacheModel CacheSpec PropCache HttpModel HttpSpec PropHttp BracketModel BracketSpec TemplateSpec PropTemplate ServiceModel ServiceSpec ServiceProofs
  TokenModel TokenizerModel TemplateModel CleanerModel ArticleModel HtmlModel FormattingSpec DocumentSpec PropDocument HtmlFuelProofs MainModel PoolModel PoolProofs EpubModel EpubSpec PropEpub PropPasses PropHtml
  PropSafe BookModel BookSpec StandaloneSpec BookProofs BookDocProofs BookExec.
Import ListNotations.
Local Open Scope list_scope.

Lemma Forall2_weaken : forall A B (P Q : A -> B -> Prop) l l', (forall x y, P x y -> Q x y) -> Forall2 P l l' -> Forall2 Q l l'.
Proof. intros A B P Q l l' H F. induction F; constructor; auto. Qed.
Lemma Forall2_weaken_in : forall A B (P Q : A -> B -> Prop) l l', (forall x y, In x l -> P x y -> Q x y) -> Forall2 P l l' -> Forall2 Q l l'.
Proof. intros A B P Q l l' H F. induction F; constructor; auto; [apply H; auto; left; reflexivity|]. apply IHF. intros. apply H; auto. right; auto. Qed.

(** The cache has any history: earlier runs with other settings, crashes and failed calls.  The workers of this run work at the same time, in any order, and
    calls fail at any time.  When they have finished, there is one output per article, in the order of the project.  It is empty if the HTML file
    existed (see C45).  Otherwise it is the path of the file for this article in the cache; and whatever this file now contains was made of a text
    that the own host has delivered for this article, with the answers to its templates and the files of its formulas that were delivered
    for them.  The file is there if nothing is evicted from the cache.

    Missing for the full claim: an article must not be in the project twice (see C44), its name must not begin with the word File and a
    colon, and it must not have been downloaded from another wiki before (see C56). *)
Theorem C63_chapters_partial : forall ext ccfg efuel fuel wiki cfg articles threads recreate cacheDir folder suffix generate jobs w net s,
  In folder [!"html"; !"stats"] -> (0 <= CacheMaxAge ccfg)%Z -> 1 <= threads -> NoDup articles ->
  ServiceModel.runs ext jobs (mkState [] w net) ->
  (forall a, In a articles -> only_here (own_host wiki) a jobs /\ has_prefix !"File:" a = false) ->
  book_runs ext ccfg efuel fuel wiki cfg articles threads recreate cacheDir folder suffix generate w net s -> book_finished s ->
  Forall2 (fun a f =>
      (f = [] /\ exists w, recreate w a = false) \/
      (f = GetFilePathInCache cacheDir folder (a ++ suffix) /\
       (forall output, content (b_disk s) (cache_path folder (a ++ suffix)) = Some output -> made_of ext wiki jobs cfg generate (b_network s) a output) /\
       (CacheEvictionStrategy ccfg = StrategyNone -> exists output, content (b_disk s) (cache_path folder (a ++ suffix)) = Some output)))
    articles (b_outputs s).
Proof.
  intros ext ccfg efuel fuel wiki cfg articles threads recreate cacheDir folder suffix generate jobs w net s F CM T ND R H B FI.
  pose proof (runs_good _ _ _ R) as (D & _). cbn [network disk] in D.
  destruct (book_outputs ext ccfg efuel fuel wiki cfg articles threads recreate cacheDir folder suffix generate F CM jobs H w net s T ND D B FI) as (seen & _ & O).
  revert O. apply Forall2_weaken. intros a f [(E & C1 & C2)|E]; [right|left; exact E]. split; [exact E|]. split.
  - intros output X. destruct (C1 output X) as (text & service & c & t & formulas & M1 & M2 & M3 & M4 & M5 & _). exists text, service, c, t, formulas. auto.
  - intros ST. specialize (C2 ST). unfold chapter_path in C2. destruct (content (b_disk s) (cache_path folder (a ++ suffix))) as [x|]; [eauto|congruence].
Qed.
Print Assumptions C63_chapters_partial.

(** More answers do not change the result. *)
Lemma replace_transfer : forall Hash (service service' : list str -> str -> option str), (forall b r x, service b r = Some x -> service' b r = Some x) ->
  forall fuel st c i st' r, replaceTemplateByPlaceholders Hash service fuel st c i = (st', Ok r) -> replaceTemplateByPlaceholders Hash service' fuel st c i = (st', Ok r).
Proof.
  intros Hash service service' SV. induction fuel as [|fuel IH]; intros st c i st' r H; cbn [replaceTemplateByPlaceholders] in *; [discriminate|].
  destruct (i + 2 <? List.length c); [|exact H]. destruct (has_prefix !"{{" (skipn i c)); [|apply IH; exact H].
  destruct (FindCorrespondingCloseToken c (i + 2) !"{{" !"}}") as [e|]; [|discriminate].
  assert (G : forall st1 t, match evaluate Hash service st1 t with
      | (st2, Ok p) => replaceTemplateByPlaceholders Hash service fuel st2 (replace_first (sub c i (e + 2)) p c) (S i)
      | (st2, Err) => (st2, Err) | (st2, Panic) => (st2, Panic) | (st2, OutOfFuel) => (st2, OutOfFuel) end = (st', Ok r) ->
    match evaluate Hash service' st1 t with
      | (st2, Ok p) => replaceTemplateByPlaceholders Hash service' fuel st2 (replace_first (sub c i (e + 2)) p c) (S i)
      | (st2, Err) => (st2, Err) | (st2, Panic) => (st2, Panic) | (st2, OutOfFuel) => (st2, OutOfFuel) end = (st', Ok r)).
  { intros st1 t E. unfold evaluate in *. destruct (service (requests st1) t) as [x|] eqn:X; [|discriminate]. rewrite (SV _ _ _ X). apply IH. exact E. }
  destruct (contains !"{{" (skipn 2 (sub c i (e + 2)))); [|apply G; exact H].
  destruct (replaceTemplateByPlaceholders Hash service fuel st (skipn 2 (sub c i (e + 2))) 0) as [st1 [x| | |]] eqn:E; cbn [bind] in H; try discriminate.
  rewrite (IH _ _ _ _ _ E). cbn [bind]. apply G. exact H.
Qed.

Lemma tokenize_transfer : forall Hash (service service' : list str -> str -> option str) cfg x c t, (forall b r y, service b r = Some y -> service' b r = Some y) ->
  Tokenize Hash service cfg x (ArticleModel.Article c t) -> Tokenize Hash service' cfg x (ArticleModel.Article c t).
Proof.
  intros Hash service service' cfg x c t S H. inversion H as [y o E|y y' st r o E F E'|y y' st first resolved o E F R D]; subst.
  - inversion E.
  - inversion E'.
  - eapply tokenize_rest; [exact E| |exact R|exact D]. eapply replace_transfer; eauto.
Qed.

(** Only the pictures of the formulas of a document matter. *)
Lemma document_page_same : forall cfg doc p q style title, prefixes_ok cfg -> @document_ok cfg doc -> (forall formula, In formula (document_formulas doc) -> p formula = q formula) ->
  document_page cfg p style title doc = document_page cfg q style title doc.
Proof.
  intros cfg doc p q style title P D H. destruct (document_parsed cfg doc _ P D (usual _ _ D)) as (text & t & _ & _ & G).
  assert (A : generateHtml cfg (fun f => Ok (p f)) (tokenMap t) 4 style title text = Ok (document_page cfg p style title doc)) by (apply G; auto; exists p; split; auto).
  assert (B : generateHtml cfg (fun f => Ok (p f)) (tokenMap t) 4 style title text = Ok (document_page cfg q style title doc)) by (apply G; auto; exists q; split; auto; intros f I; rewrite (H f I); reflexivity).
  congruence.
Qed.

(** The page of a text that becomes a document *)
Lemma page_made : forall ext wiki jobs cfg sizes style answer net title text doc html, prefixes_ok cfg -> @document_ok cfg doc ->
  stands_for (Hash ext) answer cfg text doc ->
  (forall template text, template_delivered ext wiki jobs net template text -> text = pieces_text (answer template)) ->
  made_from ext wiki jobs cfg (generated_page sizes cfg style) net title text html -> page_of cfg ext wiki jobs net sizes style title doc html.
Proof.
  intros ext wiki jobs cfg sizes style answer net title text doc html P DO DE TE (service & c & t & formulas & D3 & D2 & D4 & renderMath & n & D5 & G).
  apply (generateHtml_more _ _ _ n (Nat.max n 4)) in G; [|apply Nat.le_max_l].
  assert (X : exists pictures, (forall formula, In formula (document_formulas doc) -> renderMath formula = Ok (pictures formula)) /\ html = document_page cfg pictures style title doc).
  { destruct DE as [W|(cleaned & E1 & [W|(l & tree & E2 & E3 & E4 & E5 & E6 & E7)])].
    - destruct (C60_document_partial (Hash ext) service cfg doc text P DO W) as (c' & t' & _ & U & X). specialize (U _ D2). injection U as <- <-. apply X in G; [exact G|apply Nat.le_max_r].
    - destruct (C60_cleanup_partial (Hash ext) service cfg text cleaned doc P DO E1 W) as (c' & t' & _ & U & X). specialize (U _ D2). injection U as <- <-. apply X in G; [exact G|apply Nat.le_max_r].
    - destruct (C60_templates_partial (Hash ext) answer cfg text cleaned l tree doc P DO E1 E2 E3 E4 E5 E6 E7) as (c' & t' & _ & U & X).
      apply (tokenize_transfer _ _ (fun _ r => Some (pieces_text (answer r)))) in D2; [|intros b r y Y; rewrite (TE r y (D3 _ _ _ Y)); reflexivity].
      specialize (U _ D2). injection U as <- <-. apply X in G; [exact G|apply Nat.le_max_r]. }
  destruct X as (pictures & X1 & X2). exists pictures. split; [exact X2|]. intros formula I. specialize (X1 formula I). destruct (pictures formula) as [[[picture width] height] st].
  apply D5 in X1 as ((svg & png & Y1 & ->) & Y2). exists svg, png, width, height, st. split; [apply (D4 _ _ _ Y1)|]. auto.
Qed.

(** If the articles are documents (see C60), or texts that become documents with the answers to their templates, then these files contain the
    HTML of the documents, with the pictures that were delivered for their formulas.  The answers: whatever a host delivers for a template is the answer to it. *)
Theorem C63_documents_partial : forall sizes ext ccfg efuel fuel wiki cfg articles threads recreate cacheDir style jobs w net s doc answer,
  (0 <= CacheMaxAge ccfg)%Z -> 1 <= threads -> NoDup articles ->
  ServiceModel.runs ext jobs (mkState [] w net) ->
  (forall a, In a articles -> only_here (own_host wiki) a jobs /\ has_prefix !"File:" a = false) ->
  prefixes_ok cfg -> (forall a, In a articles -> @document_ok cfg (doc a)) ->
  book_runs ext ccfg efuel fuel wiki cfg articles threads recreate cacheDir !"html" !".html" (generated_page sizes cfg style) w net s -> book_finished s ->
  (forall a text, In a articles -> delivered ext (own_host wiki) (b_network s) a text -> stands_for (Hash ext) answer cfg text (doc a)) ->
  (forall template text, template_delivered ext wiki jobs (b_network s) template text -> text = pieces_text (answer template)) ->
  Forall2 (fun a f =>
      (f = [] /\ exists w, recreate w a = false) \/
      (f = GetFilePathInCache cacheDir !"html" (a ++ !".html") /\
       (forall html, content (b_disk s) (cache_path !"html" (a ++ !".html")) = Some html -> page_of cfg ext wiki jobs (b_network s) sizes style a (doc a) html) /\
       (CacheEvictionStrategy ccfg = StrategyNone -> exists html, content (b_disk s) (cache_path !"html" (a ++ !".html")) = Some html)))
    articles (b_outputs s).
Proof.
  intros sizes ext ccfg efuel fuel wiki cfg articles threads recreate cacheDir style jobs w net s doc answer CM T ND R H P DO B FI DE TE.
  assert (F : In !"html" [!"html"; !"stats"]) by (left; reflexivity).
  pose proof (C63_chapters_partial _ _ _ _ _ _ _ _ _ _ _ _ _ _ _ _ _ F CM T ND R H B FI) as O.
  assert (M : forall a html, In a articles -> made_of ext wiki jobs cfg (generated_page sizes cfg style) (b_network s) a html -> page_of cfg ext wiki jobs (b_network s) sizes style a (doc a) html).
  { intros a html A (text & service & c & t & formulas & D1 & D). eapply page_made; eauto. exists service, c, t, formulas. exact D. }
  revert O. apply Forall2_weaken_in. intros a f A [X|(X & X1 & X2)]; [left; exact X|right]. split; [exact X|]. split; auto.
Qed.
Print Assumptions C63_documents_partial.

(** The page of a document is a chapter with the title. *)
Lemma page_chapter : forall cfg ext wiki jobs net (sizes : str -> str -> str -> Prop) style title doc html, prefixes_ok cfg -> @document_ok cfg doc -> no_top_heading doc -> ~ occurs !"<h1>" style ->
  (forall width height style, sizes width height style -> forall c, In c !"<>" -> ~ In c (width ++ height ++ style)) ->
  page_of cfg ext wiki jobs net sizes style title doc html -> exists ch, html = chapter_text ch /\ only_heading ch /\ ch_title ch = title.
Proof.
  intros cfg ext wiki jobs net sizes style title doc html P D0 D2 NS PL (pictures & V1 & V2).
  set (only := fun formula => if in_dec str_eq_dec formula (document_formulas doc) then pictures formula else ([], [], [], [])).
  assert (Q : document_page cfg pictures style title doc = document_page cfg only style title doc).
  { apply (document_page_same cfg); auto. intros formula I. unfold only. destruct (in_dec str_eq_dec formula (document_formulas doc)); [reflexivity|contradiction]. }
  destruct (document_chapter cfg only style title doc) as (ch & E1 & E2 & E3); auto; [|apply D0|].
  { intros formula _. unfold plain_picture, only. destruct (in_dec str_eq_dec formula (document_formulas doc)) as [I|]; [|intros d _ []].
    destruct (V2 formula I) as (svg & png & width & height & st & _ & -> & Y). apply (PL _ _ _ Y). }
  exists ch. rewrite V1, Q. auto.
Qed.

(** The book of the internal driver: unless the library fails, it has one section for each article of the project, in order, with the title of the article
    and the HTML of its document.  There are no tags in the sizes of the pictures. *)
Theorem C63_book_partial : forall (sizes : str -> str -> str -> Prop) ext ccfg efuel fuel wiki cfg articles threads recreate cacheDir style jobs w net s doc answer fails read_file c outputFile m,
  (0 <= CacheMaxAge ccfg)%Z -> 1 <= threads -> NoDup articles ->
  ServiceModel.runs ext jobs (mkState [] w net) ->
  (forall a, In a articles -> only_here (own_host wiki) a jobs /\ has_prefix !"File:" a = false) ->
  prefixes_ok cfg -> (forall a, In a articles -> @document_ok cfg (doc a) /\ no_top_heading (doc a)) ->
  (forall w a, recreate w a = true) -> CacheEvictionStrategy ccfg = StrategyNone -> ~ occurs !"<h1>" style ->
  (forall width height style, sizes width height style -> forall c, In c !"<>" -> ~ In c (width ++ height ++ style)) ->
  book_runs ext ccfg efuel fuel wiki cfg articles threads recreate cacheDir !"html" !".html" (generated_page sizes cfg style) w net s -> book_finished s ->
  (forall a text, In a articles -> delivered ext (own_host wiki) (b_network s) a text -> stands_for (Hash ext) answer cfg text (doc a)) ->
  (forall template text, template_delivered ext wiki jobs (b_network s) template text -> text = pieces_text (answer template)) ->
  (forall name, read_file (GetFilePathInCache cacheDir !"html" name) = content (b_disk s) (cache_path !"html" name)) ->
  let result := GenerateEpubWithGoLibrary fails read_file c (b_outputs s) outputFile m in
  (result = Err /\ exists call, fails call = true) \/
  (exists b, result = Ok b /\ bk_title b = md_title m /\ bk_author b = md_author m /\ bk_language b = md_language m /\ bk_cover b = Some (bc_cover_image c) /\
     Forall2 (fun a section => fst section = a /\ page_of cfg ext wiki jobs (b_network s) sizes style a (doc a) (snd section)) articles (bk_sections b)).
Proof.
  intros sizes ext ccfg efuel fuel wiki cfg articles threads recreate cacheDir style jobs w net s doc answer fails read_file c outputFile m CM T ND R H P DO RE ST NS PL B FI DE TE RF result.
  pose proof (C63_documents_partial _ _ _ _ _ _ _ _ _ _ _ _ _ _ _ _ doc answer CM T ND R H P (fun a A => proj1 (DO a A)) B FI DE TE) as O.
  assert (C : exists chapters, Forall2 (fun f ch => read_file f = Some (chapter_text ch) /\ only_heading ch) (b_outputs s) chapters /\
    Forall2 (fun a section => fst section = a /\ page_of cfg ext wiki jobs (b_network s) sizes style a (doc a) (snd section)) articles (map (fun ch => (ch_title ch, chapter_text ch)) chapters)).
  { clear - O DO NS RF ST RE PL P. induction O as [|a f l l' X O IH]; [exists []; split; constructor|].
    destruct IH as (chs & C1 & C2); [intros x Y; apply DO; right; auto|]. destruct X as [(_ & w & X)|(-> & Z & X)]; [rewrite RE in X; discriminate|]. destruct (X ST) as (html & E). pose proof (Z _ E) as V.
    destruct (DO a (or_introl eq_refl)) as (D0 & D2). destruct (page_chapter _ _ _ _ _ _ _ _ _ _ P D0 D2 NS PL V) as (ch & E1 & E2 & E3).
    exists (ch :: chs). subst html. split; [constructor; auto; split; auto; rewrite RF; exact E|]. cbn [map]. constructor; auto. }
  destruct C as (chs & C1 & C2). destruct (C59_book_partial fails read_file c (b_outputs s) chs outputFile m C1) as [X|(b & X1 & X2 & X3 & X4 & X5 & X6 & _)]; [left; exact X|right].
  exists b. rewrite <- X6 in C2. repeat split; auto.
Qed.
Print Assumptions C63_book_partial.

(** ** Examples *)

Definition book_ext : externals := mkExternals (fun s => s) (fun s => s) example_hash (fun _ => false) (fun s => Some s) (fun s => s) (fun s => Some s).

Definition ask (x : str) (h : list (str * str)) : option str :=
  match clean default_config x with
  | Ok c => match evaluateTemplates_first (Hash book_ext) (replies h) c with
            | (st, Err) => match requests st with q :: qs => if list_eq_dec str_eq_dec qs (map fst h) then Some q else None | [] => None end
            | _ => None
            end
  | _ => None
  end.

Lemma ask_ok : forall x h q, ask x h = Some q -> asks book_ext default_config x h q.
Proof.
  intros x h q H. unfold ask in H. destruct (clean default_config x) as [y| | |] eqn:E1; try discriminate.
  destruct (evaluateTemplates_first (Hash book_ext) (replies h) y) as [st [r| | |]] eqn:E2; try discriminate.
  destruct (requests st) as [|q1 qs] eqn:E3; [discriminate|]. destruct (list_eq_dec str_eq_dec qs (map fst h)) as [E4|]; [|discriminate]. injection H as <-. subst qs. exists y, st. auto.
Qed.

Definition tok (x : str) (h : list (str * str)) : option (str * Tokenizer) :=
  match clean default_config x with
  | Ok c => match evaluateTemplates_first (Hash book_ext) (replies h) c with
            | (st, Ok first) =>
              match resolve 6 (placeholders st) first with
              | Some resolved =>
                match clean default_config resolved with
                | Ok c' => match tokenizeContent default_config 6 c' NewTokenizer with Ok (y, t) => Some (y, t) | _ => None end
                | _ => None
                end
              | None => None
              end
            | _ => None
            end
  | _ => None
  end.

Lemma tok_ok : forall x h c t, tok x h = Some (c, t) -> Tokenize (Hash book_ext) (replies h) default_config x (ArticleModel.Article c t).
Proof.
  intros x h c t H. unfold tok in H. destruct (clean default_config x) as [y| | |] eqn:E1; try discriminate.
  destruct (evaluateTemplates_first (Hash book_ext) (replies h) y) as [st [first| | |]] eqn:E2; try discriminate.
  destruct (resolve 6 (placeholders st) first) as [resolved|] eqn:E3; [|discriminate]. destruct (clean default_config resolved) as [z| | |] eqn:E4; try discriminate.
  destruct (tokenizeContent default_config 6 z NewTokenizer) as [[u v]| | |] eqn:E5; try discriminate. injection H as <- <-.
  eapply tokenize_rest; [exact E1|exact E2|eapply resolve_ok; exact E3|]. eapply cleaned_article; [exact E4|exact E5].
Qed.

(** The size of all formulas *)
Definition example_sizes (width height style : str) : Prop := width = !"1ex" /\ height = !"1ex" /\ style = [].
Lemma example_sizes_plain : forall width height style, example_sizes width height style -> forall c, In c !"<>" -> ~ In c (width ++ height ++ style).
Proof. intros width height style (-> & -> & ->) c I J. vm_compute in I, J. intuition (subst; discriminate). Qed.

Definition book_pictures (l : list (str * (path * path))) (formula : str) : res (str * str * str * str) :=
  match find (fun x => str_eqb (fst x) formula) l with Some (_, (svg, png)) => Ok (join !"/" png, !"1ex", !"1ex", []) | None => Err end.

Definition gen (a c : str) (t : Tokenizer) (l : list (str * (path * path))) : option str :=
  match generateHtml default_config (book_pictures l) (tokenMap t) 4 !"style.css" a c with Ok o => Some o | _ => None end.

Lemma gen_ok : forall a c t l o, gen a c t l = Some o -> generated_page example_sizes default_config !"style.css" a c t l o.
Proof.
  intros a c t l o H. unfold gen in H. exists (book_pictures l), 4. split.
  - intros formula picture width height style E. unfold book_pictures in E. destruct (find _ l) as [[f [svg png]]|] eqn:F; [|discriminate]. apply find_some in F as (I & F). cbn [fst] in F.
    apply str_eqb_eq in F. subst f. injection E as <- <- <- <-. split; [eauto|repeat split].
  - destruct (generateHtml _ _ _ _ _ _ _); try discriminate. congruence.
Qed.

Definition java : list block := [Paragraph [[Quotes Bold; Words !"Java"; Quotes Bold; Words !" is an island."]]; Heading 2 [Words !"Cities"]; Items [Item Bullet [Words !"Jakarta"] []; Item Bullet [Words !"Bandung"] []]].
Definition bali : list block := [Paragraph [[Words !"Bali is smaller than "; LinkTo !"Java" None; Words !"."]]].
(** The article about the river has templates, see C60. *)
Definition pi : list block := [Paragraph [[Words !"It is "; Math !"\pi"; Words !"."]]].
Definition atlas (a : str) : list block := if str_eqb a !"Java" then java else if str_eqb a !"Pi" then pi else template_document.

Lemma atlas_ok : forall a, @document_ok default_config (atlas a) /\ no_top_heading (atlas a).
Proof.
  intros a. unfold atlas. destruct (str_eqb a !"Java").
  - split.
    + split; [discriminate|]. split; [|split].
      * unfold java. apply Forall_cons; [a_block|]. apply Forall_cons; [a_block|]. apply Forall_cons; [a_block|]. apply Forall_nil.
      * unfold java. the_sections.
      * unfold java. the_numbers.
    + repeat constructor; discriminate.
  - destruct (str_eqb a !"Pi"); [|split; [apply template_document_ok|]; repeat constructor; discriminate]. split; [|repeat constructor; discriminate].
    split; [discriminate|]. split; [apply Forall_cons; [a_block|apply Forall_nil]|]. split; [unfold pi; the_sections|unfold pi; the_numbers].
Qed.

(** The host of the wiki, which also evaluates templates and formulas *)
Definition inner_template : str := !"{{y}}".
Definition outer_template : str := !"{{twice|" ++ placeholder example_inner ++ !"}}".
Definition book_answer (r : str) : list TemplateSpec.piece := template_answer (if str_eqb (example_hash r) example_inner then inner_template else outer_template).
Definition atlas_server (url : str) : option response :=
  if str_eqb url (article_address book_ext !"de.wikipedia.org" !"Java") then Some (ok_response (wikitext java))
  else if str_eqb url (article_address book_ext !"de.wikipedia.org" !"Bali") then Some (ok_response (wikitext bali))
  else if str_eqb url (article_address book_ext !"de.wikipedia.org" !"Elbe") then Some (ok_response template_source)
  else if str_eqb url (article_address book_ext !"de.wikipedia.org" !"Pi") then Some (ok_response (wikitext pi))
  else if str_eqb url (template_address book_ext (ex_wiki []) inner_template) then Some (ok_response (pieces_text (template_answer inner_template)))
  else if str_eqb url (template_address book_ext (ex_wiki []) outer_template) then Some (ok_response (pieces_text (template_answer outer_template)))
  else if str_eqb url (formula_address (ex_wiki [])) then Some (mkResponse 200 [] [] !"pi" [] true)
  else if str_eqb url !"https://math.org/render/svg/pi" then Some (ok_response !"<svg/>")
  else None.

Definition atlas_book (ccfg : cache_config) (articles : list str) (ms : list book_move) : option book_state :=
  book_schedule book_ext ccfg 3 3 (ex_wiki []) articles 2 (fun _ _ => true) !"/cache" !"html" !".html" atlas_server ask tok gen ms
    (book_start articles 2 (mkWorld [] 0) []).

Lemma atlas_history : ServiceModel.runs book_ext [] (mkState [] (mkWorld [] 0) []).
Proof. apply run_begin. reflexivity. Qed.

Lemma atlas_runs : forall ccfg articles ms s, atlas_book ccfg articles ms = Some s ->
  book_runs book_ext ccfg 3 3 (ex_wiki []) default_config articles 2 (fun _ _ => true) !"/cache" !"html" !".html" (generated_page example_sizes default_config !"style.css") (mkWorld [] 0) [] s.
Proof. intros ccfg articles ms s H. eapply book_schedule_runs; [apply ask_ok|apply tok_ok|apply gen_ok|apply book_begin|exact H]. Qed.

(** Two workers, whose actions are mixed.  The second article is finished first: its three templates, of which two are equal, are evaluated before. *)
Definition atlas_moves : list book_move :=
  [MSend; MReceive 0; MAct 0; MSend; MReceive 1; MAct 1; MAct 0; MAct 1; MAct 1; MAct 1; MParse 1; MAsk 1; MAct 1; MAct 1; MAct 1; MAct 1; MAnswer 1;
   MAsk 1; MAct 1; MAct 0; MAct 1; MAct 1; MAct 1; MAnswer 1; MAsk 1; MAct 1; MAct 1; MAnswer 1; MFetch 1; MRender 1; MWrite 1; MAct 1; MFinish 1; MClose; MEnd 1;
   MAct 0; MParse 0; MFetch 0; MRender 0; MWrite 0; MAct 0; MFinish 0; MEnd 0].

Definition delivered_texts (net : list net_event) : list (str * str) :=
  flat_map (fun e => match e with Asked q (Some a) => [(q_url q, all_data (a_body a))] | _ => [] end) net.

Lemma delivered_here : forall host net a text, delivered book_ext host net a text -> In (article_address book_ext host a, text) (delivered_texts net).
Proof.
  intros host net a text (d & (q & r & H & U & _ & _ & _ & D) & E). apply in_flat_map. exists (Asked q (Some r)). split; auto. left. cbn in E. subst text d. rewrite U. reflexivity.
Qed.

Lemma template_here : forall net template text, template_delivered book_ext (ex_wiki []) [] net template text ->
  exists template', example_hash template' = example_hash template /\ In (template_address book_ext (ex_wiki []) template', text) (delivered_texts net).
Proof.
  intros net template text (wiki' & template' & d & E1 & [->|[]] & (q & r & H & U & _ & _ & _ & D) & E). exists template'. split; [exact E1|].
  apply in_flat_map. exists (Asked q (Some r)). split; auto. left. cbn in E. injection E as E. subst text d. rewrite U. reflexivity.
Qed.

(** All assumptions of C63 are met, and this is the book. *)
Example C63_example : exists s, atlas_book cfg_none [!"Java"; !"Elbe"] atlas_moves = Some s /\ book_finished s /\
  (forall a text, In a [!"Java"; !"Elbe"] -> delivered book_ext (own_host (ex_wiki [])) (b_network s) a text -> stands_for (Hash book_ext) book_answer default_config text (atlas a)) /\
  (forall template text, template_delivered book_ext (ex_wiki []) [] (b_network s) template text -> text = pieces_text (book_answer template)) /\
  (forall a, In a [!"Java"; !"Elbe"] -> only_here (own_host (ex_wiki [])) a [] /\ has_prefix !"File:" a = false) /\
  b_outputs s = [!"/cache/html/Java.html"; !"/cache/html/Elbe.html"] /\
  content (b_disk s) (cache_path !"html" !"Java.html") = Some (document_page default_config (fun _ => ([], [], [], [])) !"style.css" !"Java" java) /\
  content (b_disk s) (cache_path !"html" !"Elbe.html") = Some (document_page default_config (fun _ => ([], [], [], [])) !"style.css" !"Elbe" template_document).
Proof.
  destruct (atlas_book cfg_none [!"Java"; !"Elbe"] atlas_moves) as [s|] eqn:E; [|vm_compute in E; discriminate]. exists s. split; [reflexivity|].
  set (x1 := (article_address book_ext !"de.wikipedia.org" !"Java", wikitext java)). set (x2 := (article_address book_ext !"de.wikipedia.org" !"Elbe", template_source)).
  set (x3 := (template_address book_ext (ex_wiki []) inner_template, pieces_text (template_answer inner_template))).
  set (x4 := (template_address book_ext (ex_wiki []) outer_template, pieces_text (template_answer outer_template))).
  assert (DT : forall x, In x (delivered_texts (b_network s)) -> x = x1 \/ x = x2 \/ x = x3 \/ x = x4).
  { assert (DT : delivered_texts (b_network s) = [x1; x2; x3; x4]) by (vm_compute in E; injection E as <-; vm_compute; reflexivity).
    intros x I. rewrite DT in I. cbn [In] in I. intuition. }
  split; [vm_compute in E; injection E as <-; split; [reflexivity|repeat constructor]|]. split.
  { intros a text A D. apply delivered_here, DT in D. change (own_host (ex_wiki [])) with !"de.wikipedia.org" in D.
    destruct A as [<-|[<-|[]]].
    - left. destruct D as [D|[D|[D|D]]]; unfold x1, x2, x3, x4 in D; (apply pair_equal_spec in D as (D1 & D2)); subst text; try (apply (usual default_config); apply (atlas_ok !"Java")); vm_compute in D1; discriminate.
    - right. assert (X : text = template_source) by (destruct D as [D|[D|[D|D]]]; unfold x1, x2, x3, x4 in D; (apply pair_equal_spec in D as (D1 & D2)); subst text; try reflexivity; vm_compute in D1; discriminate).
      subst text. destruct template_read as (l & R & C). exists template_cleaned. split; [exact template_tidied|]. right. exists l, template_tree. split; [exact R|]. split; [exact C|]. split; [exact example_hash_ok|].
      split; [intros p q; vm_compute; intros [<-|[<-|[<-|[]]]] [<-|[<-|[<-|[]]]]; auto; discriminate|]. split; [exact template_written|vm_compute; reflexivity]. }
  split.
  { intros template text D. apply template_here in D as (template' & H & D). apply DT in D. unfold book_answer. rewrite <- H. clear E DT H.
    assert (A : forall u v, template_address book_ext (ex_wiki []) u = template_address book_ext (ex_wiki []) v -> u = v) by (intros u v X; unfold template_address in X; repeat apply app_inv_head in X; exact X).
    destruct D as [D|[D|[D|D]]]; unfold x1, x2, x3, x4 in D; (apply pair_equal_spec in D as (D1 & D2)); subst text; try (vm_compute in D1; discriminate); apply A in D1; subst template'; vm_compute; reflexivity. }
  split; [intros a A; split; [intros j h t []|]; destruct A as [<-|[<-|[]]]; reflexivity|].
  vm_compute in E. injection E as <-. split; [vm_compute; reflexivity|]. split; vm_compute; reflexivity.
Qed.

(** An article with a formula: its picture has the name that the server has given to the formula. *)
Definition formula_moves : list book_move :=
  [MSend; MClose; MReceive 0; MAct 0; MAct 0; MAct 0; MAct 0; MParse 0; MFetch 0; MRender 0; MDraw 0 !"\pi"; MAct 0; MAct 0; MAct 0; MAct 0; MAct 0; MAct 0; MFiles 0; MWrite 0; MAct 0; MFinish 0;
   MEnd 0; MEnd 1].
Example C63_formula_example : exists s, atlas_book cfg_none [!"Pi"] formula_moves = Some s /\ book_finished s /\
  (forall a text, In a [!"Pi"] -> delivered book_ext (own_host (ex_wiki [])) (b_network s) a text -> stands_for (Hash book_ext) book_answer default_config text (atlas a)) /\
  (forall template text, template_delivered book_ext (ex_wiki []) [] (b_network s) template text -> text = pieces_text (book_answer template)) /\
  content (b_disk s) (cache_path !"html" !"Pi.html") = Some (document_page default_config (fun _ => (!"images/pi.svg", !"1ex", !"1ex", [])) !"style.css" !"Pi" pi) /\
  document_page default_config (fun _ => (!"images/pi.svg", !"1ex", !"1ex", [])) !"style.css" !"Pi" pi =
    HEADER !"style.css" ++ nl ++ !"<h1>Pi</h1>" ++ nl ++ !"It is " ++ MATH_TEMPLATE !"images/pi.svg" !"1ex" !"1ex" [] ++ !"." ++ FOOTER.
Proof.
  destruct (atlas_book cfg_none [!"Pi"] formula_moves) as [s|] eqn:E; [|vm_compute in E; discriminate]. exists s. split; [reflexivity|].
  assert (DT : forall u v, In (u, v) (delivered_texts (b_network s)) -> (u = article_address book_ext !"de.wikipedia.org" !"Pi" /\ v = wikitext pi) \/ u = formula_address (ex_wiki []) \/ u = !"https://math.org/render/svg/pi").
  { vm_compute in E. injection E as <-. intros u v I. vm_compute in I. repeat (destruct I as [I|I]; [injection I as <- <-; vm_compute; auto|]). destruct I. }
  split; [vm_compute in E; injection E as <-; split; [reflexivity|repeat constructor]|]. split.
  { intros a text [<-|[]] D. left. apply delivered_here, DT in D. destruct D as [[_ ->]|[D|D]]; [apply (usual default_config); apply (atlas_ok !"Pi")|vm_compute in D; discriminate..]. }
  split; [intros template text D; apply template_here in D as (template' & _ & D); apply DT in D; destruct D as [[D _]|[D|D]]; vm_compute in D; discriminate|].
  vm_compute in E. injection E as <-. split; vm_compute; reflexivity.
Qed.

(** Full claim: there is a book whenever all articles have been processed.  It is false: the HTML files are in the cache, where later files evict
    them.  No call fails, but the first chapter is gone, and there is no book. *)
Definition small_cache : cache_config := mkCacheConfig StrategyLru 800 10.
Definition one_by_one : list book_move :=
  [MSend; MSend; MClose; MReceive 0; MAct 0; MAct 0; MAct 0; MAct 0; MParse 0; MFetch 0; MRender 0; MWrite 0; MAct 0; MFinish 0;
   MReceive 0; MAct 0; MAct 0; MAct 0; MAct 0; MParse 0; MFetch 0; MRender 0; MWrite 0; MAct 0; MFinish 0; MEnd 0; MEnd 1].

Theorem C63_evicted_refuted : exists ext ccfg wiki cfg articles threads w net s,
  (0 <= CacheMaxAge ccfg)%Z /\ CacheEvictionStrategy ccfg = StrategyLru /\ ServiceModel.runs ext [] (mkState [] w net) /\
  book_runs ext ccfg 3 3 wiki cfg articles threads (fun _ _ => true) !"/cache" !"html" !".html" (generated_page example_sizes cfg !"style.css") w net s /\ book_finished s /\
  b_outputs s = [!"/cache/html/Java.html"; !"/cache/html/Bali.html"] /\
  forall fails read_file c outputFile m b, (forall name, read_file (GetFilePathInCache !"/cache" !"html" name) = content (b_disk s) (cache_path !"html" name)) ->
    GenerateEpubWithGoLibrary fails read_file c (b_outputs s) outputFile m <> Ok b.
Proof.
  destruct (atlas_book small_cache [!"Java"; !"Bali"] one_by_one) as [s|] eqn:E; [|vm_compute in E; discriminate].
  exists book_ext, small_cache, (ex_wiki []), default_config, [!"Java"; !"Bali"], 2, (mkWorld [] 0), [], s. split; [vm_compute; discriminate|]. split; [reflexivity|].
  split; [apply atlas_history|]. split; [apply (atlas_runs _ _ _ _ E)|]. split; [vm_compute in E; injection E as <-; split; [reflexivity|repeat constructor]|].
  assert (O : b_outputs s = [!"/cache/html/Java.html"; !"/cache/html/Bali.html"]) by (vm_compute in E; injection E as <-; reflexivity). split; [exact O|].
  intros fails read_file c outputFile m b R H. apply C59_complete in H. rewrite O in H. inversion H as [|? ? (x & X & _) _]. specialize (R !"Java.html").
  change (GetFilePathInCache !"/cache" !"html" !"Java.html") with !"/cache/html/Java.html" in R. rewrite X in R. vm_compute in E. injection E as <-. vm_compute in R. discriminate.
Qed.
Print Assumptions C63_evicted_refuted.
