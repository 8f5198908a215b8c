(** * C67: the pictures of the book are there *)

From Coq Require Import Ascii String.
From Coq Require Import List Arith ZArith Bool Lia.
From Verif Require Import GoStr GoStrFacts CleanupSpec CleanupProofs UtilModel ConfigModel CacheModel CacheSpec PropCache HttpModel HttpSpec PropHttp BracketModel BracketSpec TemplateSpec PropTemplate ServiceModel ServiceSpec ServiceProofs
  TokenModel TokenizerModel TemplateModel CleanerModel ArticleModel HtmlModel FormattingSpec DocumentSpec PropDocument HtmlFuelProofs MainModel PoolModel PoolProofs EpubModel EpubSpec PropEpub PropPasses PropHtml
  PropSafe ShapeSpec ImageSpec ImageFileProofs PropImages BookModel BookSpec BookFileProofs BookProofs BookDocProofs BookExec PropBook BookImageSpec DocumentPictureProofs DocumentImageProofs DocumentHtmlProofs DocumentTokenProofs BookImageProofs.
Import ListNotations.
Local Open Scope list_scope.

Lemma tokenized_content : forall Hash service cfg x c t, Tokenize Hash service cfg x (ArticleModel.Article c t) -> exists fuel y, tokenizeContent cfg fuel y NewTokenizer = Ok (c, t).
Proof.
  intros Hash service cfg x c t H. inversion H as [y o E|y y' st r o E F E'|y y' st first resolved o E F R D]; subst; [inversion E|inversion E'|].
  inversion D as [y o G|y y2 fuel y3 t3 G T|y y2 fuel o G T]; subst; [inversion G|eauto|inversion T].
Qed.

(** The pictures and formulas of a parsed text, if the files that were seen are there *)
Definition files_there (ext : externals) (wiki : wiki_config) (jobs : list job) (cfg : configuration) (net : list net_event) (w : world) (t : Tokenizer) (formulas : list (str * (path * path))) : Prop :=
  (forall formula svg png, In (formula, (svg, png)) formulas -> formula_delivered ext wiki jobs net formula svg png /\ content w svg <> None /\ content w png <> None) /\
  (forall key file, (exists caption x y, In (key, ImageToken file caption x y) (tokenMap t)) \/ (exists x y, In (key, InlineImageToken file x y) (tokenMap t)) ->
     ~ In ":"%char file -> file <> !"." -> file <> !".." ->
     exists p, image_file wiki file p /\ content w p <> None /\ percent_decode (escapePathComponents (filenameToImagePath cfg file)) = join !"/" p).

Lemma seen_files_there : forall ext wiki jobs cfg net w seen service text c t formulas, same_settings cfg wiki -> wikipediaImageArticleHosts wiki <> [] ->
  (forall x, In x seen -> in_images x -> content w x <> None) ->
  Tokenize (Hash ext) service cfg text (ArticleModel.Article c t) -> (forall formula svg png, In (formula, (svg, png)) formulas -> formula_delivered ext wiki jobs net formula svg png) ->
  there wiki seen t formulas -> files_there ext wiki jobs cfg net w t formulas.
Proof.
  intros ext wiki jobs cfg net w seen service text c t formulas SE HO IH M3 M4 (M6 & M7). split.
  - intros formula svg png I. pose proof (M4 _ _ _ I) as X. split; [exact X|]. destruct (M7 _ _ _ I) as (X1 & X2). destruct X as (wiki' & formula' & name & _ & _ & _ & -> & X).
    split; apply IH; auto; [eexists; reflexivity|]. destruct X as [->| ->]; eexists; reflexivity.
  - intros key file I N1 N2 N3. destruct (tokenized_content _ _ _ _ _ _ M3) as (n & y & Tk).
    assert (RC : recorded (images t) file) by (destruct I as [(caption & u & v & I)|(u & v & I)]; apply (C30_tokens_shaped _ _ _ _ _ Tk) in I; exact I).
    destruct RC as (mt & M & RC & F1 & F2). assert (N : image_name file) by (repeat split; auto). exists [!"images"; stored_name wiki file].
    split; [apply image_file_stored|]. split; [|apply html_path_decoded; auto]. apply IH; [|eexists; reflexivity]. apply M6. split; [exact HO|].
    exists (mt ++ !":" ++ file), file. split; [exact RC|]. split; [apply after_colon_name; auto|]. unfold BookFileProofs.picture_path. rewrite replace_none_space by auto. reflexivity.
Qed.

(** Also at the end of the run, when other workers have changed the cache: the files of all pictures and formulas of the articles whose pages were made are in the
    cache, and the paths of the pictures in the HTML are the paths of these files.  (Missing: as for C63; the names of C32; the cache from which something is evicted, see C36.) *)
Theorem C67_pictures_partial : forall ext ccfg efuel fuel wiki cfg articles threads recreate cacheDir folder suffix generate jobs w net s,
  In folder [!"html"; !"stats"] -> (0 <= CacheMaxAge ccfg)%Z -> 1 <= threads -> NoDup articles ->
  ServiceModel.runs ext jobs (mkState [] w net) ->
  (forall a, In a articles -> only_here (own_host wiki) a jobs /\ has_prefix !"File:" a = false) ->
  same_settings cfg wiki -> wikipediaImageArticleHosts wiki <> [] -> CacheEvictionStrategy ccfg = StrategyNone ->
  book_runs ext ccfg efuel fuel wiki cfg articles threads recreate cacheDir folder suffix generate w net s -> book_finished s ->
  Forall2 (fun a f =>
      (f = [] /\ exists w, recreate w a = false) \/
      (f = GetFilePathInCache cacheDir folder (a ++ suffix) /\
       exists output text service c t formulas,
         content (b_disk s) (cache_path folder (a ++ suffix)) = Some output /\
         delivered ext (own_host wiki) (b_network s) a text /\
         (forall before template answer, service before template = Some answer -> template_delivered ext wiki jobs (b_network s) template answer) /\
         Tokenize (Hash ext) service cfg text (ArticleModel.Article c t) /\
         generate a c t formulas output /\
         (forall formula svg png, In (formula, (svg, png)) formulas ->
            formula_delivered ext wiki jobs (b_network s) formula svg png /\ content (b_disk s) svg <> None /\ content (b_disk s) png <> None) /\
         (forall key file, (exists caption x y, In (key, ImageToken file caption x y) (tokenMap t)) \/ (exists x y, In (key, InlineImageToken file x y) (tokenMap t)) ->
            ~ In ":"%char file -> file <> !"." -> file <> !".." ->
            exists p, image_file wiki file p /\ content (b_disk s) p <> None /\
              percent_decode (escapePathComponents (filenameToImagePath cfg file)) = join !"/" p)))
    articles (b_outputs s).
Proof.
  intros ext ccfg efuel fuel wiki cfg articles threads recreate cacheDir folder suffix generate jobs w net s F CM T ND R H SE HO ST B FI.
  pose proof (runs_good _ _ _ R) as (D & _). cbn [network disk] in D.
  destruct (book_outputs ext ccfg efuel fuel wiki cfg articles threads recreate cacheDir folder suffix generate F CM jobs H w net s T ND D B FI) as (seen & IH & O).
  specialize (IH ST). revert O. apply Forall2_weaken. intros a f [(E & C1 & C2)|E]; [right|left; exact E]. split; [exact E|].
  specialize (C2 ST). unfold chapter_path in *. destruct (content (b_disk s) (cache_path folder (a ++ suffix))) as [x|]; [|congruence].
  destruct (C1 x eq_refl) as (text & service & c & t & formulas & M1 & M2 & M3 & M4 & M5 & M6). exists x, text, service, c, t, formulas.
  split; [reflexivity|]. split; [exact M1|]. split; [exact M2|]. split; [exact M3|]. split; [exact M5|]. exact (seen_files_there _ _ _ _ _ _ _ _ _ _ _ _ SE HO IH M3 M4 M6).
Qed.
Print Assumptions C67_pictures_partial.

Lemma formula_file : forall name, ~ In " "%char name -> percent_decode (escapePathComponents (join !"/" (cache_path !"images" name))) = join !"/" (cache_path !"images" name).
Proof.
  intros name N. unfold cache_path. cbn [join]. apply decode_path.
  - cbn. intuition discriminate.
  - intros H. destruct (sanitized_chars name "/"%char) as [X _]; auto. discriminate.
  - cbn. intuition discriminate.
  - intros H. destruct (sanitized_chars name " "%char) as [_ X]; auto.
Qed.

(** The image elements of the page of a document *)
Lemma document_sources : forall ext wiki jobs cfg (sizes : str -> str -> str -> Prop) style answer net w title text doc service c t formulas html, prefixes_ok cfg -> @document_ok cfg doc ->
  (forall width height style, sizes width height style -> forall c, In c !"<>" -> ~ In c (width ++ height ++ style)) ->
  (forall c, In c !"<>" -> ~ In c (style ++ title)) ->
  (forall url data name, named net url data name -> ~ In " "%char name) ->
  stands_for (Hash ext) answer cfg text doc ->
  (forall template text, template_delivered ext wiki jobs net template text -> text = pieces_text (answer template)) ->
  (forall before template answer, service before template = Some answer -> template_delivered ext wiki jobs net template answer) ->
  Tokenize (Hash ext) service cfg text (ArticleModel.Article c t) -> generated_page sizes cfg style title c t formulas html ->
  files_there ext wiki jobs cfg net w t formulas ->
  page_of cfg ext wiki jobs net sizes style title doc html /\ pictures_there w html.
Proof.
  intros ext wiki jobs cfg sizes style answer net w title text doc service c t formulas html P DO PL NA NB DE TE D3 D2 G (D4 & D6).
  destruct G as (renderMath & n & D5 & G). apply (generateHtml_more _ _ _ n (Nat.max n 4)) in G; [|apply Nat.le_max_l].
  assert (Y : (exists pictures, (forall formula, In formula (document_formulas doc) -> renderMath formula = Ok (pictures formula)) /\ html = document_page cfg pictures style title doc) /\
    forall p, In p (document_pictures doc) -> known t p).
  { destruct DE as [W|(cleaned & E1 & [W|(l & tree & E2 & E3 & E4 & E5 & E6 & E7)])].
    - destruct (document_article (Hash ext) service cfg doc text P DO W) as (c' & t' & _ & U & K & Y). specialize (U _ D2). injection U as <- <-. apply Y in G; [split; [exact G|intros p I; eapply parsed_known; [exact K|exact I]]|apply Nat.le_max_r].
    - destruct (tidied_article (Hash ext) service cfg text cleaned doc P DO (tidied_clean _ _ _ E1) W) as (c' & t' & _ & U & K & Y). specialize (U _ D2). injection U as <- <-. apply Y in G; [split; [exact G|intros p I; eapply parsed_known; [exact K|exact I]]|apply Nat.le_max_r].
    - destruct (templates_article (Hash ext) answer cfg text cleaned l tree doc P DO (tidied_clean _ _ _ E1) E2 E3 E4 E5 E6 E7) as (c' & t' & _ & U & K & Y).
      apply (tokenize_transfer _ _ (fun _ r => Some (pieces_text (answer r)))) in D2; [|intros b r y Z; rewrite (TE r y (D3 _ _ _ Z)); reflexivity].
      specialize (U _ D2). injection U as <- <-. apply Y in G; [split; [exact G|intros p I; eapply parsed_known; [exact K|exact I]]|apply Nat.le_max_r]. }
  destruct Y as ((pictures & Y1 & Y2) & K). split.
  - exists pictures. split; [exact Y2|]. intros formula I. specialize (Y1 formula I). destruct (pictures formula) as [[[picture width] height] st].
    apply D5 in Y1 as ((svg & png & Z1 & ->) & Z2). exists svg, png, width, height, st. split; [apply (D4 _ _ _ Z1)|]. auto.
  - intros attributes IE. rewrite Y2 in IE. revert attributes IE. apply page_sources.
    + apply DO.
    + exact NA.
    + intros formula I. specialize (Y1 formula I). unfold plain_picture. destruct (pictures formula) as [[[picture width] height] st]. apply D5 in Y1 as ((svg & png & Z1 & ->) & Z2). split; [apply (PL _ _ _ Z2)|].
      cbn [fst]. destruct (D4 _ _ _ Z1) as (FD & _ & Cp). exists png. split; [|exact Cp]. destruct FD as (wiki' & formula' & name & _ & _ & Nm & -> & V). apply NB in Nm.
      assert (N2 : forall e, ~ In " "%char e -> ~ In " "%char (name ++ e)) by (intros e Ne Ie; apply in_app_iff in Ie as [Ie|Ie]; auto).
      destruct V as [->| ->]; apply formula_file; apply N2; vm_compute; intuition discriminate.
    + intros p I Op. destruct (K p I) as (key & p' & Kp & Kc). apply DocumentHtmlProofs.captioned_frame in Kc as (Kf & Kn & _). destruct (D6 key (wiki_file (file_name p))) as (q & _ & Q1 & Q2).
      * unfold picture_token in Kp. rewrite Kn in Kp. destruct (as_figure p'); [left|right]; eauto.
      * apply (wiki_chars p ":"%char Op). vm_compute. auto 20.
      * apply wiki_not; auto. apply Op.
      * apply wiki_not; auto. apply Op.
      * exists q. split; [exact Q2|exact Q1].
Qed.

(** If the articles are documents, or texts that become documents with the answers to their templates, then every image element in every page of the book has a source, and this is
    the URL of a file in the cache, relative to the directory of the cache.  There are no angle brackets in titles, in the name of the style file and in the sizes of the pictures, and
    no blanks in the names that a server gives to formulas. *)
Theorem C67_sources_partial : forall (sizes : str -> str -> str -> Prop) ext ccfg efuel fuel wiki cfg articles threads recreate cacheDir style jobs w net s doc answer,
  (0 <= CacheMaxAge ccfg)%Z -> 1 <= threads -> NoDup articles ->
  ServiceModel.runs ext jobs (mkState [] w net) ->
  (forall a, In a articles -> only_here (own_host wiki) a jobs /\ has_prefix !"File:" a = false) ->
  prefixes_ok cfg -> (forall a, In a articles -> @document_ok cfg (doc a)) ->
  same_settings cfg wiki -> wikipediaImageArticleHosts wiki <> [] -> CacheEvictionStrategy ccfg = StrategyNone ->
  (forall width height style, sizes width height style -> forall c, In c !"<>" -> ~ In c (width ++ height ++ style)) ->
  (forall a c, In a articles -> In c !"<>" -> ~ In c (style ++ a)) ->
  book_runs ext ccfg efuel fuel wiki cfg articles threads recreate cacheDir !"html" !".html" (generated_page sizes cfg style) w net s -> book_finished s ->
  (forall url data name, named (b_network s) url data name -> ~ In " "%char name) ->
  (forall a text, In a articles -> delivered ext (own_host wiki) (b_network s) a text -> stands_for (Hash ext) answer cfg text (doc a)) ->
  (forall template text, template_delivered ext wiki jobs (b_network s) template text -> text = pieces_text (answer template)) ->
  Forall2 (fun a f =>
      (f = [] /\ exists w, recreate w a = false) \/
      (f = GetFilePathInCache cacheDir !"html" (a ++ !".html") /\
       exists html, content (b_disk s) (cache_path !"html" (a ++ !".html")) = Some html /\ page_of cfg ext wiki jobs (b_network s) sizes style a (doc a) html /\ pictures_there (b_disk s) html))
    articles (b_outputs s).
Proof.
  intros sizes ext ccfg efuel fuel wiki cfg articles threads recreate cacheDir style jobs w net s doc answer CM T ND R H P DO SE HO ST PL NA B FI NB DE TE.
  assert (F : In !"html" [!"html"; !"stats"]) by (left; reflexivity).
  pose proof (C67_pictures_partial _ _ _ _ _ _ _ _ _ _ _ _ _ _ _ _ _ F CM T ND R H SE HO ST B FI) as O.
  revert O. apply Forall2_weaken_in. intros a f A [X|(X & html & text & service & c & t & formulas & E & D1 & D3 & D2 & G & D4 & D6)]; [left; exact X|right]. split; [exact X|].
  exists html. split; [exact E|]. eapply (document_sources ext wiki jobs cfg sizes style answer (b_network s) (b_disk s) a text (doc a) service c t formulas html P (DO a A) PL).
  - intros d Id. apply NA; auto.
  - exact NB.
  - apply DE; auto.
  - exact TE.
  - exact D3.
  - exact D2.
  - exact G.
  - split; auto.
Qed.
Print Assumptions C67_sources_partial.

(** ** Examples *)

(** An article with a picture that is converted, and a formula *)
Definition map_of_java : picture := mkPicture !"File" !"map of Java.svg" true (Some (200, 150)) (Some [Said !"The "; Linked !"island" None]).
Definition coast : list block := [Figure map_of_java; Paragraph [[Words !"It is "; Math !"\pi"; Words !"."]]].

Lemma coast_ok : @document_ok default_config coast.
Proof.
  split; [discriminate|]. split; [unfold coast; apply Forall_cons; [a_block|apply Forall_cons; [a_block|apply Forall_nil]]|]. split; [unfold coast; the_sections|unfold coast; the_numbers].
Qed.

Definition coast_wiki : wiki_config := image_wiki [!"one.org"].
Definition coast_server (formula : str) (url : str) : option response :=
  if str_eqb url (article_address book_ext !"de.wikipedia.org" !"Coast") then Some (ok_response (wikitext coast))
  else if str_eqb url (article_address book_ext !"one.org" !"File:Map_of_Java.svg") then Some (ok_response !"File:Map of Java.svg")
  else if str_eqb url (image_url book_ext coast_wiki !"one.org" !"Map_of_Java.svg") then Some (ok_response !"<svg/>")
  else if str_eqb url (formula_address coast_wiki) then Some (mkResponse 200 [] [] formula [] true)
  else if str_eqb url (!"https://math.org/render/svg/" ++ formula) then Some (ok_response !"<svg/>")
  else None.

Definition coast_book (ccfg : cache_config) (formula : str) (ms : list book_move) : option book_state :=
  book_schedule book_ext ccfg 3 3 coast_wiki [!"Coast"] 2 (fun _ _ => true) !"/cache" !"html" !".html" (coast_server formula) ask tok gen ms (book_start [!"Coast"] 2 (mkWorld [] 0) []).

Definition coast_moves : list book_move :=
  [MSend; MClose; MReceive 0; MAct 0; MAct 0; MAct 0; MAct 0; MParse 0; MFetch 0; MAct 0; MAct 0; MAct 0; MAct 0; MAct 0; MAct 0; MAct 0; MAct 0; MAct 0;
   MRender 0; MDraw 0 !"\pi"; MAct 0; MAct 0; MAct 0; MAct 0; MAct 0; MAct 0; MFiles 0; MWrite 0; MAct 0; MFinish 0; MEnd 0; MEnd 1].

Lemma coast_runs : forall ccfg formula ms s, coast_book ccfg formula ms = Some s ->
  book_runs book_ext ccfg 3 3 coast_wiki default_config [!"Coast"] 2 (fun _ _ => true) !"/cache" !"html" !".html" (generated_page example_sizes default_config !"style.css") (mkWorld [] 0) [] s.
Proof. intros ccfg formula ms s H. eapply book_schedule_runs; [apply ask_ok|apply tok_ok|apply gen_ok|apply book_begin|exact H]. Qed.

Definition coast_page : str := document_page default_config (fun _ => (!"images/pi.svg", !"1ex", !"1ex", [])) !"style.css" !"Coast" coast.

(** All assumptions of C67 are met, and there are two pictures in the page. *)
Example C67_example : exists s, coast_book cfg_none !"pi" coast_moves = Some s /\ book_finished s /\
  same_settings default_config coast_wiki /\ wikipediaImageArticleHosts coast_wiki <> [] /\ prefixes_ok default_config /\
  (forall a text, In a [!"Coast"] -> delivered book_ext (own_host coast_wiki) (b_network s) a text -> stands_for (Hash book_ext) book_answer default_config text coast) /\
  (forall template text, template_delivered book_ext coast_wiki [] (b_network s) template text -> text = pieces_text (book_answer template)) /\
  (forall url data name, named (b_network s) url data name -> ~ In " "%char name) /\
  (forall a c, In a [!"Coast"] -> In c !"<>" -> ~ In c (!"style.css" ++ a)) /\
  content (b_disk s) (cache_path !"html" !"Coast.html") = Some coast_page /\
  image_element coast_page (!"alt=" ++ dq ++ !"image" ++ dq ++ !" src=" ++ dq ++ !"./images/Map_of_Java.svg.png" ++ dq ++ !" style=" ++ dq ++ !"vertical-align: middle; width: 200px; height: 150px;" ++ dq) /\
  image_element coast_page (!"alt=" ++ dq ++ !"image" ++ dq ++ !" src=" ++ dq ++ !"./images/pi.svg" ++ dq ++ !" style=" ++ dq ++ !"width: 1ex; height: 1ex; " ++ dq) /\
  content (b_disk s) [!"images"; !"Map_of_Java.svg.png"] = Some !"png" /\ content (b_disk s) [!"images"; !"pi.svg"] = Some !"<svg/>".
Proof.
  destruct (coast_book cfg_none !"pi" coast_moves) as [s|] eqn:E; [|vm_compute in E; discriminate]. exists s. split; [reflexivity|].
  assert (DT : forall u v, In (u, v) (delivered_texts (b_network s)) -> (u = article_address book_ext !"de.wikipedia.org" !"Coast" /\ v = wikitext coast) \/ (has_prefix !"https://de.wikipedia.org" u = false)).
  { vm_compute in E. injection E as <-. intros u v I. vm_compute in I. repeat (destruct I as [I|I]; [injection I as <- <-; vm_compute; auto|]). destruct I. }
  split; [vm_compute in E; injection E as <-; split; [reflexivity|repeat constructor]|]. split; [apply image_settings|]. split; [discriminate|]. split; [exact example_prefixes|]. split.
  { intros a text [<-|[]] D. left. apply delivered_here, DT in D. destruct D as [[_ ->]|D]; [apply (usual default_config); apply coast_ok|vm_compute in D; discriminate]. }
  split.
  { intros template text (wiki' & template' & d & _ & [->|[]] & (q & r & H & U & _ & _ & _ & D) & _). exfalso.
    assert (X : In (template_address book_ext coast_wiki template', all_data (a_body r)) (delivered_texts (b_network s))) by (apply in_flat_map; exists (Asked q (Some r)); split; [exact H|left; rewrite U; reflexivity]).
    apply DT in X as [[X _]|X]; vm_compute in X; discriminate. }
  split.
  { intros url data name (q & r & H & _ & _ & _ & _ & _ & <- & N). vm_compute in E. injection E as <-. cbn [b_network] in H.
    repeat (destruct H as [H|H]; [injection H as <- <-; try (exfalso; apply N; reflexivity); vm_compute; intuition discriminate|]). destruct H. }
  split; [intros a c [<-|[]] I J; vm_compute in I, J; intuition (subst; discriminate)|].
  assert (IE : forall attributes, contains (!"<img " ++ attributes ++ !">") coast_page = true -> existsb (fun c => Ascii.eqb c "<" || Ascii.eqb c ">") attributes = false -> image_element coast_page attributes).
  { intros attributes X Y. apply contains_spec in X as (a & b & X). exists a, b. split; [rewrite X, <- !app_assoc; reflexivity|]. intros c I J.
    assert (Z : existsb (fun c => Ascii.eqb c "<" || Ascii.eqb c ">") attributes = true) by (apply existsb_exists; exists c; split; [exact J|]; cbn in I; destruct I as [<-|[<-|[]]]; reflexivity). congruence. }
  split; [vm_compute in E; injection E as <-; vm_compute; reflexivity|].
  split; [apply IE; vm_compute; reflexivity|]. split; [apply IE; vm_compute; reflexivity|]. vm_compute in E. injection E as <-. split; vm_compute; reflexivity.
Qed.

Lemma coast_element : image_element coast_page (!"alt=" ++ dq ++ !"image" ++ dq ++ !" src=" ++ dq ++ !"./images/Map_of_Java.svg.png" ++ dq ++ !" style=" ++ dq ++ !"vertical-align: middle; width: 200px; height: 150px;" ++ dq).
Proof. destruct C67_example as (s & _ & _ & _ & _ & _ & _ & _ & _ & _ & _ & H & _). exact H. Qed.

(** The first source is the only possible one. *)
Lemma source_unique : forall attributes a b, source attributes a -> source attributes b -> a = b.
Proof.
  intros attributes a b (b1 & e1 & E1 & N1 & Q1) (b2 & e2 & E2 & N2 & Q2). rewrite E1 in E2.
  assert (G : forall (x y u v : str), ~ occurs !"src=" x -> ~ occurs !"src=" y -> x ++ !"src=" ++ u = y ++ !"src=" ++ v -> x = y /\ u = v).
  { clear. intros x y u v N1 N2 E. destruct (Nat.lt_trichotomy (List.length x) (List.length y)) as [L|[L|L]].
    - exfalso. assert (X : exists z, y = x ++ z /\ z <> []).
      { exists (skipn (List.length x) y). assert (Y : firstn (List.length x) y = x). { pose proof (f_equal (firstn (List.length x)) E) as Z. rewrite !firstn_app, Nat.sub_diag, firstn_all, firstn_O, app_nil_r in Z. replace (List.length x - List.length y) with 0 in Z by lia. rewrite firstn_O, app_nil_r in Z. auto. }
        split; [rewrite <- Y at 1; symmetry; apply firstn_skipn|]. intros Z. pose proof (f_equal (@List.length ascii) Z) as Q. rewrite skipn_length in Q. cbn in Q. lia. }
      destruct X as (z & -> & NZ). rewrite <- app_assoc in E. apply app_inv_head in E. destruct z as [|c1 [|c2 [|c3 [|c4 z]]]]; [contradiction|cbn in E; injection E; intros; subst; discriminate..|].
      cbn in E. injection E as <- <- <- <- E. apply N2. exists x, z. reflexivity.
    - assert (X : x = y). { pose proof (f_equal (firstn (List.length x)) E) as Z. rewrite !firstn_app, L, Nat.sub_diag, !firstn_O, !app_nil_r in Z. rewrite <- L in Z at 1. rewrite firstn_all in Z. rewrite firstn_all in Z. exact Z. }
      subst y. split; auto. do 2 apply app_inv_head in E. exact E.
    - exfalso. assert (X : exists z, x = y ++ z /\ z <> []).
      { exists (skipn (List.length y) x). assert (Y : firstn (List.length y) x = y). { pose proof (f_equal (firstn (List.length y)) E) as Z. rewrite !firstn_app, Nat.sub_diag, firstn_all, firstn_O, app_nil_r in Z. replace (List.length y - List.length x) with 0 in Z by lia. rewrite firstn_O, app_nil_r in Z. auto. }
        split; [rewrite <- Y at 1; symmetry; apply firstn_skipn|]. intros Z. pose proof (f_equal (@List.length ascii) Z) as Q. rewrite skipn_length in Q. cbn in Q. lia. }
      destruct X as (z & -> & NZ). rewrite <- app_assoc in E. apply app_inv_head in E. destruct z as [|c1 [|c2 [|c3 [|c4 z]]]]; [contradiction|cbn in E; injection E; intros; subst; discriminate..|].
      cbn in E. injection E as -> -> -> -> E. apply N1. exists y, z. reflexivity. }
  apply G in E2; auto. destruct E2 as (_ & E). do 2 apply app_inv_head in E.
  assert (K : forall (x y u v : str), (forall c, In c dq -> ~ In c x) -> (forall c, In c dq -> ~ In c y) -> x ++ dq ++ u = y ++ dq ++ v -> x = y).
  { clear. induction x as [|c x IH]; intros [|d y] u v H1 H2 E; auto.
    - exfalso. cbn in E. injection E as <- _. apply (H2 """"%char); cbn; auto.
    - exfalso. cbn in E. injection E as -> _. apply (H1 """"%char); cbn; auto.
    - cbn [app] in E. injection E as -> E. f_equal. apply (IH y u v); auto; intros e I J; [apply (H1 e I)|apply (H2 e I)]; right; auto. }
  eapply K; [exact Q1|exact Q2|exact E].
Qed.

(** Only the files that are there have contents. *)
Lemma not_there : forall w src, forallb (fun f => negb (str_eqb (join !"/" (f_path f)) (percent_decode src))) (files w) = true -> ~ names_file w src.
Proof.
  intros w src H (p & E & C). rewrite forallb_forall in H. unfold content in C. destruct (CacheModel.lookup p (files w)) as [f|] eqn:L; [|cbn in C; congruence]. apply CacheProofs.lookup_some in L as (I & <-). specialize (H f I). rewrite <- E in H. apply negb_true_iff in H. rewrite (proj2 (str_eqb_eq _ _) eq_refl) in H. discriminate.
Qed.

(** Full claim: the pictures are there, whatever the strategy.  It is false: files in a small cache evict each other.  No call fails, and the page is there, but the picture in it is gone. *)
Theorem C67_evicted_refuted : exists ext ccfg wiki cfg articles threads w net s html,
  (0 <= CacheMaxAge ccfg)%Z /\ CacheEvictionStrategy ccfg = StrategyLru /\ ServiceModel.runs ext [] (mkState [] w net) /\ same_settings cfg wiki /\ wikipediaImageArticleHosts wiki <> [] /\
  book_runs ext ccfg 3 3 wiki cfg articles threads (fun _ _ => true) !"/cache" !"html" !".html" (generated_page example_sizes cfg !"style.css") w net s /\ book_finished s /\
  content (b_disk s) (cache_path !"html" !"Coast.html") = Some html /\ ~ pictures_there (b_disk s) html.
Proof.
  destruct (coast_book (mkCacheConfig StrategyLru 1119 10) !"pi" coast_moves) as [s|] eqn:E; [|vm_compute in E; discriminate].
  exists book_ext, (mkCacheConfig StrategyLru 1119 10), coast_wiki, default_config, [!"Coast"], 2, (mkWorld [] 0), [], s, coast_page. split; [vm_compute; discriminate|]. split; [reflexivity|].
  split; [apply atlas_history|]. split; [apply image_settings|]. split; [discriminate|]. split; [apply (coast_runs _ _ _ _ E)|]. split; [vm_compute in E; injection E as <-; split; [reflexivity|repeat constructor]|].
  split; [vm_compute in E; injection E as <-; vm_compute; reflexivity|]. intros H. destruct (H _ coast_element) as (src & S1 & S2).
  assert (X : src = !"images/Map_of_Java.svg.png"). { eapply source_unique; [exact S1|]. eexists (!"alt=" ++ dq ++ !"image" ++ dq ++ !" "), _. split; [vm_compute; reflexivity|]. split; [apply EpubProofs.occurs_contains; vm_compute; reflexivity|].
    intros c I J. vm_compute in I, J. intuition (subst; discriminate). }
  subst src. revert S2. apply not_there. vm_compute in E. injection E as <-. vm_compute. reflexivity.
Qed.
Print Assumptions C67_evicted_refuted.

(** Full claim: the names of the formulas do not matter.  It is false: blanks in the name are escaped like those in a query, as plus signs, which are plus signs in a path.  The source is not the
    URL of the file. *)
Theorem C67_blank_refuted : exists ext ccfg wiki cfg articles threads w net s html,
  (0 <= CacheMaxAge ccfg)%Z /\ CacheEvictionStrategy ccfg = StrategyNone /\ ServiceModel.runs ext [] (mkState [] w net) /\ same_settings cfg wiki /\ wikipediaImageArticleHosts wiki <> [] /\
  book_runs ext ccfg 3 3 wiki cfg articles threads (fun _ _ => true) !"/cache" !"html" !".html" (generated_page example_sizes cfg !"style.css") w net s /\ book_finished s /\
  content (b_disk s) (cache_path !"html" !"Coast.html") = Some html /\ content (b_disk s) [!"images"; !"p i.svg"] <> None /\ ~ pictures_there (b_disk s) html.
Proof.
  destruct (coast_book cfg_none !"p i" coast_moves) as [s|] eqn:E; [|vm_compute in E; discriminate].
  exists book_ext, cfg_none, coast_wiki, default_config, [!"Coast"], 2, (mkWorld [] 0), [], s, (document_page default_config (fun _ => (!"images/p i.svg", !"1ex", !"1ex", [])) !"style.css" !"Coast" coast).
  split; [vm_compute; discriminate|]. split; [reflexivity|].
  split; [apply atlas_history|]. split; [apply image_settings|]. split; [discriminate|]. split; [apply (coast_runs _ _ _ _ E)|]. split; [vm_compute in E; injection E as <-; split; [reflexivity|repeat constructor]|].
  split; [vm_compute in E; injection E as <-; vm_compute; reflexivity|]. split; [vm_compute in E; injection E as <-; vm_compute; discriminate|]. intros H.
  destruct (H (!"alt=" ++ dq ++ !"image" ++ dq ++ !" src=" ++ dq ++ !"./images/p+i.svg" ++ dq ++ !" style=" ++ dq ++ !"width: 1ex; height: 1ex; " ++ dq)) as (src & S1 & S2).
  { match goal with |- image_element ?h ?a => assert (X : contains (!"<img " ++ a ++ !">") h = true) by (vm_compute; reflexivity) end. apply contains_spec in X as (a & b & X). exists a, b.
    split; [rewrite X, <- !app_assoc; reflexivity|]. intros c I J. vm_compute in I, J. intuition (subst; discriminate). }
  assert (X : src = !"images/p+i.svg"). { eapply source_unique; [exact S1|]. eexists (!"alt=" ++ dq ++ !"image" ++ dq ++ !" "), _. split; [vm_compute; reflexivity|]. split; [apply EpubProofs.occurs_contains; vm_compute; reflexivity|].
    intros c I J. vm_compute in I, J. intuition (subst; discriminate). }
  subst src. revert S2. apply not_there. vm_compute in E. injection E as <-. vm_compute. reflexivity.
Qed.
Print Assumptions C67_blank_refuted.
