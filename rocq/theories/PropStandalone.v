(** * C71: the book of a file *)

From Coq Require Import Ascii String.
From Coq Require Import List Arith ZArith Bool Lia.
From Verif Require Import GoStr GoStrFacts UtilModel ConfigModel CacheModel CacheSpec PropCache HttpModel HttpSpec PropHttp BracketModel BracketSpec TemplateSpec PropTemplate ServiceModel ServiceSpec ServiceProofs
  TokenModel TokenizerModel TemplateModel CleanerModel ArticleModel HtmlModel FormattingSpec DocumentSpec PropDocument HtmlFuelProofs MainModel PoolModel PoolProofs EpubModel EpubSpec PropEpub PropPasses PropHtml
  ImageSpec PropImages BookModel BookSpec BookFileProofs BookProofs BookDocProofs BookExec PropBook BookImageSpec PropBookImages StandaloneModel StandaloneSpec.
Import ListNotations.
Local Open Scope list_scope.

(** ** The title *)

Lemma last_behind : forall A (l l' : list A) d, l' <> [] -> last (l ++ l') d = last l' d.
Proof.
  intros A l l' d N. induction l as [|x l IH]; [reflexivity|]. cbn [app]. rewrite <- IH. destruct (l ++ l') eqn:E; [|reflexivity]. apply app_eq_nil in E as (_ & E). contradiction.
Qed.

Lemma last_piece : forall c s, exists front, s = front ++ last (split [c] s) [] /\ (front = [] \/ exists f, front = f ++ [c]) /\ ~ In c (last (split [c] s) []).
Proof.
  intros c s. remember (List.length s) as n eqn:L. revert s L. induction n as [n IH] using lt_wf_ind. intros s L.
  destruct (in_dec ascii_dec c s) as [I|I].
  - apply in_split in I as (a & b & ->). rewrite split_app_single. rewrite app_length in L. cbn [List.length] in L. destruct (IH (List.length b)) with (s := b) as (front & E & F & N); auto; [lia|].
    assert (X : last (split [c] a ++ split [c] b) [] = last (split [c] b) []).
    { apply last_behind, split_nonempty. }
    rewrite X. exists (a ++ c :: front). split; [rewrite <- app_assoc; cbn [app]; rewrite <- E; reflexivity|]. split; [|exact N]. right. destruct F as [->|(f & ->)].
    + exists a. reflexivity.
    + exists (a ++ c :: f). rewrite <- app_assoc. reflexivity.
  - rewrite split_single_none by exact I. exists []. cbn [last app]. auto.
Qed.

Lemma in_split_first : forall (c : ascii) s, In c s -> exists a b, s = a ++ c :: b /\ ~ In c a.
Proof.
  intros c. induction s as [|d s IH]; intros I; [destruct I|]. destruct (ascii_dec c d) as [->|NE]; [exists [], s; auto|]. destruct I as [->|I]; [contradiction|].
  destruct (IH I) as (a & b & -> & N). exists (d :: a), b. split; [reflexivity|]. intros [->|J]; auto.
Qed.

Lemma first_piece : forall c s, exists behind, s = hd [] (split [c] s) ++ behind /\ ~ In c (hd [] (split [c] s)) /\ (behind = [] \/ exists e, behind = [c] ++ e).
Proof.
  intros c s. destruct (in_dec ascii_dec c s) as [I|I].
  - apply (in_split_first) in I as (a & b & -> & N). rewrite split_single_app by exact N. exists (c :: b). cbn [hd]. split; [reflexivity|]. split; [exact N|]. right. exists b. reflexivity.
  - rewrite split_single_none by exact I. exists []. cbn [hd]. rewrite app_nil_r. auto.
Qed.

(** The title is the name of the file up to the first dot. *)
Theorem C71_title : forall inputFile, title_of inputFile (input_title inputFile) /\ forall title, title_of inputFile title -> title = input_title inputFile.
Proof.
  assert (EX : forall inputFile, title_of inputFile (input_title inputFile)).
  { intros f. unfold input_title. destruct (last_piece "/"%char f) as (folder & E1 & E2 & E3). destruct (first_piece "."%char (last (split !"/" f) [])) as (ending & F1 & F2 & F3).
    exists folder, ending. split; [rewrite <- F1; exact E1|]. split; [exact E2|]. split; [rewrite <- F1; exact E3|]. split; [exact F2|exact F3]. }
  intros f. split; [apply EX|]. intros title (d & e & E & D1 & N & P & E1).
  assert (X : last (split !"/" f) [] = title ++ e).
  { subst f. destruct D1 as [->|(x & ->)].
    - cbn [app]. change !"/" with ["/"%char]. rewrite split_single_none by exact N. reflexivity.
    - rewrite <- app_assoc. change (!"/" ++ title ++ e) with ("/"%char :: title ++ e). change !"/" with ["/"%char]. rewrite split_app_single, last_behind by apply split_nonempty. rewrite split_single_none by exact N. reflexivity. }
  unfold input_title. rewrite X. destruct E1 as [->|(y & ->)].
  - rewrite app_nil_r. change !"." with ["."%char]. rewrite split_single_none by exact P. reflexivity.
  - change (title ++ !"." ++ y) with (title ++ "."%char :: y). change !"." with ["."%char]. rewrite split_single_app by exact P. reflexivity.
Qed.
Print Assumptions C71_title.

Example C71_title_example : input_title !"/home/me/Coast.v2.wiki" = !"Coast" /\ input_title !"Coast" = !"Coast" /\ input_title !"a.b/.hidden" = [].
Proof. repeat split; vm_compute; reflexivity. Qed.

(** ** The chapter *)

Lemma alone_runs : forall ext ccfg efuel fuel wiki cfg recreate generate inputFile text w net jobs s, (0 <= CacheMaxAge ccfg)%Z ->
  ServiceModel.runs ext jobs (mkState [] w net) ->
  standalone_runs ext ccfg efuel fuel wiki cfg recreate generate inputFile text w net s ->
  sa_stage s = Skipped /\ (exists w, recreate w (input_title inputFile) = false) \/
  sa_stage s <> Skipped /\
  alone_ok ext ccfg fuel wiki cfg !"html" !".html" generate jobs (fun _ a x => a = input_title inputFile /\ x = text) (input_title inputFile) (sa_stage s) (sa_disk s) (sa_network s).
Proof.
  intros ext ccfg efuel fuel wiki cfg recreate generate inputFile text w net jobs s CM R H.
  assert (F : In !"html" [!"html"; !"stats"]) by (left; reflexivity).
  pose proof (runs_good _ _ _ R) as (D & _). cbn [network disk] in D.
  induction H as [|s s' H IH S].
  - right. cbn [standalone_start sa_stage sa_disk sa_network]. split; [discriminate|]. apply alone_start; auto.
  - destruct S as [st w1 net1 ev st' w1' A|st st' w1 net1 A Q|c t r w1 net1 Q]; cbn [sa_stage sa_disk sa_network] in *.
    + destruct IH as [(-> & _)|(_ & IH)]; [inversion A|]. right. split; [destruct A; discriminate|]. eapply (alone_action ext ccfg efuel fuel wiki cfg !"html" !".html" generate F CM jobs); eauto.
    + destruct IH as [(-> & _)|(_ & IH)]; [inversion A|]. right. split; [destruct A; discriminate|]. eapply (alone_next ext ccfg fuel wiki cfg [] !"html" !".html" generate F jobs); [|exact IH|exact A]. intros J n a tt x [].
    + left. split; [reflexivity|]. eauto.
Qed.

(** The book has one chapter.  Unless there is already an HTML file for the title in the working directory, it is the HTML that the generator makes of the content of the file, with the
    answers of the hosts to its templates and the pictures for its formulas; the pictures are in the cache.  (Missing: the cache from which something is evicted; the file is there, see below.) *)
Theorem C71_chapter_partial : forall ext ccfg efuel fuel wiki cfg recreate cacheDir generate inputFile text w net jobs s f,
  (0 <= CacheMaxAge ccfg)%Z -> ServiceModel.runs ext jobs (mkState [] w net) ->
  standalone_runs ext ccfg efuel fuel wiki cfg recreate generate inputFile text w net s -> standalone_finished cacheDir inputFile s f ->
  exists title, title_of inputFile title /\
    ((f = html_file title /\ exists w, recreate w title = false) \/
     (f = GetFilePathInCache cacheDir !"html" (title ++ !".html") /\
      (forall html, content (sa_disk s) (cache_path !"html" (title ++ !".html")) = Some html -> made_from ext wiki jobs cfg generate (sa_network s) title text html) /\
      (CacheEvictionStrategy ccfg = StrategyNone -> exists html, content (sa_disk s) (cache_path !"html" (title ++ !".html")) = Some html))).
Proof.
  intros ext ccfg efuel fuel wiki cfg recreate cacheDir generate inputFile text w net jobs s f CM R H FI. exists (input_title inputFile). split; [apply C71_title|].
  apply (alone_runs _ _ _ _ _ _ _ _ _ _ _ _ jobs) in H; auto. destruct FI as [w' net'|r w' net']; cbn [sa_stage sa_disk sa_network] in *.
  - left. split; [reflexivity|]. destruct H as [(_ & H)|(H & _)]; [exact H|congruence].
  - right. split; [reflexivity|]. destruct H as [(H & _)|(_ & H)]; [discriminate H|]. apply alone_end in H as (seen & _ & C1 & C2). unfold chapter_path in *. split.
    + intros html E. destruct (C1 html E) as (x & service & c & t & formulas & (_ & ->) & M1 & M2 & M3 & M4 & _). exists service, c, t, formulas. auto.
    + intros ST. specialize (C2 ST). destruct (content w' _) as [x|]; [eauto|congruence].
Qed.
Print Assumptions C71_chapter_partial.

(** If the text of the file becomes a document (see C60), then the chapter is the HTML of this document, and every picture in it is there. *)
Theorem C71_document_partial : forall (sizes : str -> str -> str -> Prop) ext ccfg efuel fuel wiki cfg recreate cacheDir style inputFile text title w net jobs s f doc answer,
  (0 <= CacheMaxAge ccfg)%Z -> ServiceModel.runs ext jobs (mkState [] w net) ->
  standalone_runs ext ccfg efuel fuel wiki cfg recreate (generated_page sizes cfg style) inputFile text w net s -> standalone_finished cacheDir inputFile s f ->
  title_of inputFile title -> (forall w, recreate w title = true) -> CacheEvictionStrategy ccfg = StrategyNone ->
  prefixes_ok cfg -> @document_ok cfg doc -> stands_for (Hash ext) answer cfg text doc ->
  (forall template text, template_delivered ext wiki jobs (sa_network s) template text -> text = pieces_text (answer template)) ->
  f = GetFilePathInCache cacheDir !"html" (title ++ !".html") /\
  exists html, content (sa_disk s) (cache_path !"html" (title ++ !".html")) = Some html /\
    page_of cfg ext wiki jobs (sa_network s) sizes style title doc html /\
    (same_settings cfg wiki -> wikipediaImageArticleHosts wiki <> [] ->
     (forall width height style, sizes width height style -> forall c, In c !"<>" -> ~ In c (width ++ height ++ style)) ->
     (forall c, In c !"<>" -> ~ In c (style ++ title)) ->
     (forall url data name, named (sa_network s) url data name -> ~ In " "%char name) ->
     pictures_there (sa_disk s) html).
Proof.
  intros sizes ext ccfg efuel fuel wiki cfg recreate cacheDir style inputFile text title w net jobs s f doc answer CM R H FI TT RE ST P DO SF TE.
  apply C71_title in TT. subst title. apply (alone_runs _ _ _ _ _ _ _ _ _ _ _ _ jobs) in H; auto.
  destruct FI as [w' net'|r w' net']; cbn [sa_stage sa_disk sa_network] in *; (destruct H as [(H & (w2 & H2))|(H1 & H)]; [rewrite RE in H2; discriminate|]); [congruence|].
  split; [reflexivity|]. apply alone_end in H as (seen & IH & C1 & C2). specialize (IH ST). specialize (C2 ST). unfold chapter_path in *.
  destruct (content w' (cache_path !"html" (input_title inputFile ++ !".html"))) as [html|]; [|congruence]. exists html. split; [reflexivity|].
  destruct (C1 html eq_refl) as (x & service & c & t & formulas & (_ & ->) & M1 & M2 & M3 & M4 & M5). split.
  - eapply page_made; eauto. exists service, c, t, formulas. auto.
  - intros SE HO PL NA NB. eapply (document_sources ext wiki jobs cfg sizes style answer net' w' (input_title inputFile) text doc service c t formulas html P DO PL NA NB SF TE M1 M2 M4).
    exact (seen_files_there _ _ _ _ _ _ _ _ _ _ _ _ SE HO IH M2 M3 M5).
Qed.
Print Assumptions C71_document_partial.

(** The book of the internal driver has the title of the file and one section, with this title and the HTML of the document. *)
Theorem C71_book_partial : forall (sizes : str -> str -> str -> Prop) ext ccfg efuel fuel wiki cfg recreate cacheDir style inputFile text title w net jobs s f doc answer
    fails read_file pandoc_fails t toc dataDir c outputFile,
  (0 <= CacheMaxAge ccfg)%Z -> ServiceModel.runs ext jobs (mkState [] w net) ->
  standalone_runs ext ccfg efuel fuel wiki cfg recreate (generated_page sizes cfg style) inputFile text w net s -> standalone_finished cacheDir inputFile s f ->
  title_of inputFile title -> (forall w, recreate w title = true) -> CacheEvictionStrategy ccfg = StrategyNone ->
  prefixes_ok cfg -> @document_ok cfg doc -> no_top_heading doc -> stands_for (Hash ext) answer cfg text doc -> ~ occurs !"<h1>" style ->
  (forall width height style, sizes width height style -> forall c, In c !"<>" -> ~ In c (width ++ height ++ style)) ->
  (forall template text, template_delivered ext wiki jobs (sa_network s) template text -> text = pieces_text (answer template)) ->
  (forall name, read_file (GetFilePathInCache cacheDir !"html" name) = content (sa_disk s) (cache_path !"html" name)) ->
  t = Epub2 \/ t = Epub3 ->
  let result := standalone_output fails read_file pandoc_fails t !"internal" toc dataDir c f outputFile title in
  (result = Err /\ exists call, fails call = true) \/
  (exists b html, result = Ok (InternalBook b) /\ bk_title b = title /\ bk_cover b = Some (bc_cover_image c) /\ bk_sections b = [(title, html)] /\
     page_of cfg ext wiki jobs (sa_network s) sizes style title doc html).
Proof.
  intros sizes ext ccfg efuel fuel wiki cfg recreate cacheDir style inputFile text title w net jobs s f doc answer fails read_file pandoc_fails t toc dataDir c outputFile CM R H FI TT RE ST P DO NT SF NS PL TE RF TY result.
  destruct (C71_document_partial _ _ _ _ _ _ _ _ _ _ _ _ _ _ _ _ _ _ _ _ CM R H FI TT RE ST P DO SF TE) as (EF & html & C & PG & _).
  destruct (page_chapter _ _ _ _ _ _ _ _ _ _ P DO NT NS PL PG) as (ch & E1 & E2 & E3).
  assert (F2 : Forall2 (fun f ch => read_file f = Some (chapter_text ch) /\ only_heading ch) [f] [ch]) by (constructor; [split; [rewrite EF, RF, C, E1; reflexivity|exact E2]|constructor]).
  assert (RS : result = bind (GenerateEpubWithGoLibrary fails read_file c [f] outputFile (mkMetadata title [] [] [] [])) (fun b => Ok (InternalBook b))) by (destruct TY as [-> | ->]; reflexivity).
  destruct (C59_book_partial fails read_file c [f] [ch] outputFile (mkMetadata title [] [] [] []) F2) as [(X & Y)|(b & X1 & X2 & _ & _ & X5 & X6 & _)].
  - left. rewrite RS, X. split; [reflexivity|exact Y].
  - right. exists b, html. rewrite RS, X1. split; [reflexivity|]. split; [exact X2|]. split; [exact X5|]. split; [|exact PG]. rewrite X6. cbn [map]. rewrite E3, <- E1. reflexivity.
Qed.
Print Assumptions C71_book_partial.

(** ** Examples *)

(** Execution of a given schedule, see BookExec.v *)
Definition do_alone (recreate : world -> str -> bool) (inputFile : str) (m : book_move) (s : standalone_state) : option standalone_state :=
  let w := sa_disk s in let net := sa_network s in
  match m, sa_stage s with
  | MAct _, st => match act_stage cfg_none 3 (coast_server !"pi") st w with Some (ev, st', w') => Some (mkStandalone st' w' (net ++ ev)) | None => None end
  | MFetch _, Parsing x h => match tok x h with Some (y, t) => Some (mkStandalone (Fetching y t (program book_ext 3 (GetImages coast_wiki (images t)))) w net) | None => None end
  | MRender _, Fetching y t (TRet (Ok _)) => Some (mkStandalone (if recreate w (input_title inputFile) then Rendering y t [] else Skipped) w net)
  | MDraw _ f, Rendering y t l => Some (mkStandalone (Drawing y t l f (program book_ext 3 (GetMath coast_wiki MathNone f))) w net)
  | MFiles _, Drawing y t l f (TRet (Ok (Files svg png))) => Some (mkStandalone (Rendering y t ((f, (svg, png)) :: l)) w net)
  | MWrite _, Rendering y t l => match gen (input_title inputFile) y t l with
                                 | Some o => Some (mkStandalone (Writing (program book_ext 3 (Result !"html" (input_title inputFile ++ !".html") [o]))) w net)
                                 | None => None
                                 end
  | _, _ => None
  end.

Fixpoint alone_schedule (recreate : world -> str -> bool) (inputFile : str) (ms : list book_move) (s : standalone_state) : option standalone_state :=
  match ms with
  | [] => Some s
  | m :: ms' => match do_alone recreate inputFile m s with Some s' => alone_schedule recreate inputFile ms' s' | None => None end
  end.

Lemma do_alone_step : forall recreate inputFile m s s', do_alone recreate inputFile m s = Some s' ->
  standalone_step book_ext cfg_none 3 3 coast_wiki default_config recreate (generated_page example_sizes default_config !"style.css") inputFile s s'.
Proof.
  intros recreate inputFile m [st w net] s' H. unfold do_alone in H. cbn [sa_disk sa_network sa_stage] in H. destruct m as [| |i|i|i|i|i|i|i|i f|i|i|i|i]; try discriminate.
  - destruct (act_stage _ _ _ st w) as [[[ev st'] w']|] eqn:E; [|discriminate]. injection H as <-. constructor. eapply act_stage_action. exact E.
  - destruct st as [|p|x h|x h q1 p|x t p|x t l|x t l f p|p]; try discriminate. destruct (tok x h) as [[y t]|] eqn:E; [|discriminate]. injection H as <-. constructor; [|discriminate].
    econstructor. apply tok_ok. exact E.
  - destruct st as [|p|x h|x h q1 p|x t [[r| | |]| | |]|x t l|x t l f p|p]; try discriminate. injection H as <-. destruct (recreate w (input_title inputFile)) eqn:E; [|constructor; exact E].
    constructor; [constructor|auto].
  - destruct st as [|p|x h|x h q1 p|x t p|x t l|x t l f1 p|p]; try discriminate. injection H as <-. constructor; [constructor|discriminate].
  - destruct st as [|p|x h|x h q1 p|x t p|x t l|x t l f1 [[[| | |svg png|]| | |]| | |]|p]; try discriminate. injection H as <-. constructor; [constructor|discriminate].
  - destruct st as [|p|x h|x h q1 p|x t p|x t l|x t l f1 p|p]; try discriminate. destruct (gen _ x t l) as [o|] eqn:E; [|discriminate]. injection H as <-. constructor; [|discriminate].
    econstructor; [apply gen_ok; exact E|]. cbn. apply app_nil_r.
Qed.

Lemma alone_schedule_runs : forall recreate inputFile text w net ms s s',
  standalone_runs book_ext cfg_none 3 3 coast_wiki default_config recreate (generated_page example_sizes default_config !"style.css") inputFile text w net s ->
  alone_schedule recreate inputFile ms s = Some s' ->
  standalone_runs book_ext cfg_none 3 3 coast_wiki default_config recreate (generated_page example_sizes default_config !"style.css") inputFile text w net s'.
Proof.
  intros recreate inputFile text w net ms. induction ms as [|m ms IH]; intros s s' R H; cbn [alone_schedule] in H; [injection H as <-; exact R|].
  destruct (do_alone recreate inputFile m s) as [s1|] eqn:E; [|discriminate]. eapply IH; [|exact H]. eapply standalone_more; [exact R|]. eapply do_alone_step; eauto.
Qed.

Definition coast_file_moves : list book_move :=
  [MFetch 0; MAct 0; MAct 0; MAct 0; MAct 0; MAct 0; MAct 0; MAct 0; MAct 0; MAct 0; MRender 0; MDraw 0 !"\pi"; MAct 0; MAct 0; MAct 0; MAct 0; MAct 0; MAct 0; MFiles 0; MWrite 0; MAct 0].

(** Is there no HTML file in the working directory, if this is the directory of the cache? *)
Definition recreate_here (w : world) (a : str) : bool := match content w (cache_path !"html" (a ++ !".html")) with Some _ => false | None => true end.

Definition first_file (recreate : world -> str -> bool) : option standalone_state :=
  alone_schedule recreate !"/home/me/Coast.v1.wiki" coast_file_moves (standalone_start (wikitext coast) (mkWorld [] 0) []).

(** All assumptions of C71 are met. *)
Example C71_example : exists s, first_file (fun _ _ => true) = Some s /\ standalone_finished !"/cache" !"/home/me/Coast.v1.wiki" s !"/cache/html/Coast.html" /\
  standalone_runs book_ext cfg_none 3 3 coast_wiki default_config (fun _ _ => true) (generated_page example_sizes default_config !"style.css") !"/home/me/Coast.v1.wiki" (wikitext coast) (mkWorld [] 0) [] s /\
  ServiceModel.runs book_ext [] (mkState [] (mkWorld [] 0) []) /\
  title_of !"/home/me/Coast.v1.wiki" !"Coast" /\ prefixes_ok default_config /\ @document_ok default_config coast /\ no_top_heading coast /\
  stands_for (Hash book_ext) book_answer default_config (wikitext coast) coast /\ same_settings default_config coast_wiki /\ wikipediaImageArticleHosts coast_wiki <> [] /\
  (forall c, In c !"<>" -> ~ In c (!"style.css" ++ !"Coast")) /\
  (forall template text, template_delivered book_ext coast_wiki [] (sa_network s) template text -> text = pieces_text (book_answer template)) /\
  (forall url data name, named (sa_network s) url data name -> ~ In " "%char name) /\
  content (sa_disk s) (cache_path !"html" !"Coast.html") = Some coast_page.
Proof.
  destruct (first_file (fun _ _ => true)) as [s|] eqn:E; [|vm_compute in E; discriminate]. exists s. split; [reflexivity|].
  split; [vm_compute in E; injection E as <-; match goal with |- standalone_finished ?c ?i _ ?f => replace f with (output_file c !"html" !".html" (input_title i)) by (vm_compute; reflexivity) end; constructor|].
  split; [eapply alone_schedule_runs; [apply standalone_begin|exact E]|]. split; [apply atlas_history|].
  split; [change !"Coast" with (input_title !"/home/me/Coast.v1.wiki") || (replace !"Coast" with (input_title !"/home/me/Coast.v1.wiki") by (vm_compute; reflexivity)); apply C71_title|].
  split; [exact example_prefixes|]. split; [apply coast_ok|]. split; [repeat constructor; discriminate|]. split; [left; apply (usual default_config); apply coast_ok|]. split; [apply image_settings|]. split; [discriminate|].
  split; [intros c I J; vm_compute in I, J; intuition (subst; discriminate)|].
  assert (DT : forall u v, In (u, v) (delivered_texts (sa_network s)) -> has_prefix !"https://de.wikipedia.org" u = false).
  { vm_compute in E. injection E as <-. intros u v I. vm_compute in I. repeat (destruct I as [I|I]; [injection I as <- <-; vm_compute; auto|]). destruct I. }
  split.
  { intros template text (wiki' & template' & d & _ & [->|[]] & (q & r & H & U & _ & _ & _ & D) & _). exfalso.
    assert (X : In (template_address book_ext coast_wiki template', all_data (a_body r)) (delivered_texts (sa_network s))) by (apply in_flat_map; exists (Asked q (Some r)); split; [exact H|left; rewrite U; reflexivity]).
    apply DT in X. vm_compute in X. discriminate. }
  split.
  { intros url data name (q & r & H & _ & _ & _ & _ & _ & <- & N). vm_compute in E. injection E as <-. cbn [sa_network] in H.
    repeat (destruct H as [H|H]; [injection H as <- <-; try (exfalso; apply N; reflexivity); vm_compute; intuition discriminate|]). destruct H. }
  vm_compute in E. injection E as <-. vm_compute. reflexivity.
Qed.

(** Full claim: the book contains the text of the file.  It is false: if the working directory is the directory of the cache, then a second file, whose name is the same up to the first dot,
    gets the HTML of the first one. *)
Theorem C71_same_name_refuted : exists ext ccfg wiki cfg file1 file2 doc1 doc2 s1 s2 f1 f2 html,
  let recreate := fun w a => match content w (cache_path !"html" (a ++ !".html")) with Some _ => false | None => true end in
  let generate := generated_page example_sizes cfg !"style.css" in
  file1 <> file2 /\ @document_ok cfg doc1 /\ @document_ok cfg doc2 /\ CacheEvictionStrategy ccfg = StrategyNone /\ ServiceModel.runs ext [] (mkState [] (mkWorld [] 0) []) /\
  standalone_runs ext ccfg 3 3 wiki cfg recreate generate file1 (wikitext doc1) (mkWorld [] 0) [] s1 /\ standalone_finished !"/cache" file1 s1 f1 /\
  standalone_runs ext ccfg 3 3 wiki cfg recreate generate file2 (wikitext doc2) (sa_disk s1) (sa_network s1) s2 /\ standalone_finished !"/cache" file2 s2 f2 /\
  path_join [!"/cache"; f2] = f1 /\ content (sa_disk s2) (cache_path !"html" !"Coast.html") = Some html /\
  (exists pictures, html = document_page cfg pictures !"style.css" !"Coast" doc1) /\ ~ page_of cfg ext wiki [] (sa_network s2) example_sizes !"style.css" !"Coast" doc2 html.
Proof.
  destruct (first_file recreate_here) as [s1|] eqn:E; [|vm_compute in E; discriminate].
  destruct (alone_schedule recreate_here !"/home/me/Coast.v2.wiki" [MFetch 0; MRender 0] (standalone_start (wikitext pi) (sa_disk s1) (sa_network s1))) as [s2|] eqn:E2; [|vm_compute in E; injection E as <-; vm_compute in E2; discriminate].
  exists book_ext, cfg_none, coast_wiki, default_config, !"/home/me/Coast.v1.wiki", !"/home/me/Coast.v2.wiki", coast, pi, s1, s2, !"/cache/html/Coast.html", !"html/Coast.html", coast_page.
  cbv zeta. split; [discriminate|]. split; [apply coast_ok|]. split.
  { destruct (atlas_ok !"Pi") as (X & _). exact X. }
  split; [reflexivity|]. split; [apply atlas_history|].
  split; [apply (alone_schedule_runs recreate_here _ _ _ _ _ _ _ (standalone_begin _ _ _ _ _ _ _ _ _ _ _ _) E)|].
  split; [vm_compute in E; injection E as <-; match goal with |- standalone_finished ?c ?i _ ?f => replace f with (output_file c !"html" !".html" (input_title i)) by (vm_compute; reflexivity) end; constructor|].
  split; [apply (alone_schedule_runs recreate_here _ _ _ _ _ _ _ (standalone_begin _ _ _ _ _ _ _ _ _ _ _ _) E2)|].
  split; [vm_compute in E; injection E as <-; vm_compute in E2; injection E2 as <-; match goal with |- standalone_finished ?c ?i _ ?f => replace f with (html_file (input_title i)) by (vm_compute; reflexivity) end; constructor|].
  split; [vm_compute; reflexivity|]. split; [vm_compute in E; injection E as <-; vm_compute in E2; injection E2 as <-; vm_compute; reflexivity|]. split.
  - eexists. reflexivity.
  - intros (pictures & X & _). vm_compute in X. discriminate.
Qed.
Print Assumptions C71_same_name_refuted.
