(** * C70: the statistics of a project *)

From Coq Require Import Ascii String.
From Coq Require Import List Arith NArith ZArith Bool Lia Permutation.
From Verif Require Import GoStr GoStrFacts CleanupSpec CleanupProofs UtilModel ConfigModel CacheModel CacheSpec PropCache HttpModel HttpSpec PropHttp BracketModel BracketSpec TemplateSpec PropTemplate ServiceModel ServiceSpec ServiceProofs
  TokenModel TokenizerModel TemplateModel CleanerModel ArticleModel FormattingSpec DocumentSpec DocumentTokenProofs PropDocument PropPasses PropHtml PropSafe MainModel BookModel BookSpec BookExec PropBook.
From Verif Require Import StatsModel StatsSpec StatsProofs PropStats DocumentStatsSpec PropDocumentStats JsonSpec StatsJsonModel StatsJsonSpec StatsJsonProofs PropStatsJson BookStatsSpec BookStatsProofs.
Import ListNotations.
Local Open Scope list_scope.

(** What is counted in an article: the document without the lists below the items of lists (see C68) *)
Definition counted_things (doc : list block) : list thing := document_things (flat_document doc).

(** StatsGenerator.Generate, src/generator/stats.go 52-70, as generator of the files of the project *)
Definition stats_files (letter : N -> bool) (instance title content : str) (t : Tokenizer) (formulas : list (str * (path * path))) (output : str) : Prop :=
  generated_stats letter instance title content (tokenMap t) output.

(** The statistics of every article, as in C63: the workers work at the same time, and the cache has any history.  Whatever is in the file of an article is JSON that says what is in the document that was
    delivered for this article, with the answers to its templates.

    Missing for the full claim: see C63 and C68; the names must be in UTF-8 (see C69). *)
Theorem C70_files_partial : forall letter ext ccfg efuel fuel wiki cfg articles threads recreate cacheDir jobs w net s doc answer,
  (0 <= CacheMaxAge ccfg)%Z -> 1 <= threads -> NoDup articles ->
  ServiceModel.runs ext jobs (mkState [] w net) ->
  (forall a, In a articles -> only_here (own_host wiki) a jobs /\ has_prefix !"File:" a = false) ->
  prefixes_ok cfg -> (forall a, In a articles -> @document_ok cfg (doc a)) ->
  (forall a, In a articles -> is_utf8 a /\ utf8_links (counted_things (doc a))) ->
  book_runs ext ccfg efuel fuel wiki cfg articles threads recreate cacheDir !"stats" !".json" (stats_files letter (wikipediaInstance wiki)) w net s -> book_finished s ->
  (forall a text, In a articles -> delivered ext (own_host wiki) (b_network s) a text -> stands_for (Hash ext) answer cfg text (doc a)) ->
  (forall template text, template_delivered ext wiki jobs (b_network s) template text -> text = pieces_text (answer template)) ->
  Forall2 (fun a f =>
      (f = [] /\ exists w, recreate w a = false) \/
      (f = GetFilePathInCache cacheDir !"stats" (a ++ !".json") /\
       (forall text, content (b_disk s) (cache_path !"stats" (a ++ !".json")) = Some text ->
          exists stats, says_things letter (wikipediaInstance wiki) a (counted_things (doc a)) stats /\ utf8_names (InternalLinks stats) /\ file_says text stats [(!"uncovered-internal-links", [])]) /\
       (CacheEvictionStrategy ccfg = StrategyNone -> exists text, content (b_disk s) (cache_path !"stats" (a ++ !".json")) = Some text)))
    articles (b_outputs s).
Proof.
  intros letter ext ccfg efuel fuel wiki cfg articles threads recreate cacheDir jobs w net s doc answer CM T ND R H P DO UT B FI DE TE.
  assert (F : In !"stats" [!"html"; !"stats"]) by (right; left; reflexivity).
  pose proof (C63_chapters_partial _ _ _ _ _ _ _ _ _ _ _ _ _ _ _ _ _ F CM T ND R H B FI) as O.
  revert O. apply Forall2_weaken_in. intros a f A [X|(X & X1 & X2)]; [left; exact X|right]. split; [exact X|]. split; [|exact X2].
  intros text E. destruct (X1 _ E) as (source & service & c & t & formulas & D1 & D3 & D2 & _ & n & stats & G & ->).
  assert (K : parsed_as (doc a) c t).
  { destruct (DE a source A D1) as [W|(cleaned & E1 & [W|(l & tree & E2 & E3 & E4 & E5 & E6 & E7)])].
    - destruct (document_article (Hash ext) service cfg (doc a) source P (DO a A) W) as (c' & t' & _ & U & K & _). specialize (U _ D2). injection U as <- <-. exact K.
    - destruct (tidied_article (Hash ext) service cfg source cleaned (doc a) P (DO a A) (tidied_clean _ _ _ E1) W) as (c' & t' & _ & U & K & _). specialize (U _ D2). injection U as <- <-. exact K.
    - destruct (templates_article (Hash ext) answer cfg source cleaned l tree (doc a) P (DO a A) (tidied_clean _ _ _ E1) E2 E3 E4 E5 E6 E7) as (c' & t' & _ & U & K & _).
      apply (tokenize_transfer _ _ (fun _ r => Some (pieces_text (answer r)))) in D2; [|intros b r y Y; rewrite (TE r y (D3 _ _ _ Y)); reflexivity].
      specialize (U _ D2). injection U as <- <-. exact K. }
  pose proof (parsed_counted cfg (doc a) c t letter (wikipediaInstance wiki) n a stats (DO a A) K G) as S. exists stats. split; [exact S|].
  destruct S as (S1 & _ & _ & S4 & _ & S6). destruct (UT a A) as (U1 & U2).
  assert (U : utf8_names (InternalLinks stats)) by (intros name k I; apply U2; apply S6; apply in_map_iff; exists (name, k); auto).
  split; [exact U|]. apply C69_article; auto. rewrite S1. exact U1.
Qed.
Print Assumptions C70_files_partial.

(** If nothing is evicted, the combination of these files is the statistics of the project: the sums over the documents, all links, and those to articles that are not in the project; the ten most frequent ones of these.  It can
    always be made.  The file for the output type stats-json says this. *)
Theorem C70_project_partial : forall letter ext ccfg efuel fuel wiki cfg articles threads type force html_exists cacheDir jobs w net s doc answer read_file files sortEntries,
  (0 <= CacheMaxAge ccfg)%Z -> 1 <= threads -> NoDup articles ->
  ServiceModel.runs ext jobs (mkState [] w net) ->
  (forall a, In a articles -> only_here (own_host wiki) a jobs /\ has_prefix !"File:" a = false) ->
  prefixes_ok cfg -> (forall a, In a articles -> @document_ok cfg (doc a)) ->
  (forall a, In a articles -> is_utf8 a /\ utf8_links (counted_things (doc a))) ->
  is_stats type = true -> CacheEvictionStrategy ccfg = StrategyNone ->
  book_runs ext ccfg efuel fuel wiki cfg articles threads (fun w a => shouldRecreateHtml type (html_exists w a) force) cacheDir !"stats" !".json" (stats_files letter (wikipediaInstance wiki)) w net s -> book_finished s ->
  (forall a text, In a articles -> delivered ext (own_host wiki) (b_network s) a text -> stands_for (Hash ext) answer cfg text (doc a)) ->
  (forall template text, template_delivered ext wiki jobs (b_network s) template text -> text = pieces_text (answer template)) ->
  (forall name, read_file (GetFilePathInCache cacheDir !"stats" name) = content (b_disk s) (cache_path !"stats" name)) ->
  Forall2 (fun f r => forall text, read_file f = Some text -> decoded text r) (b_outputs s) files ->
  sorts sortEntries ->
  exists c, GenerateCombinedStats sortEntries files = Ok c /\
    project_says letter (wikipediaInstance wiki) (fun a => counted_things (doc a)) articles (Combined c) (UncoveredInternalLinks c) /\
    file_says (combined_json c) (Combined c) [(!"uncovered-internal-links", UncoveredInternalLinks c); (!"top-10-uncovered-internal-links", Top10UncoveredInternalLinks c)] /\
    (let top := Top10UncoveredInternalLinks c in length top = Nat.min 10 (length (UncoveredInternalLinks c)) /\ incl top (UncoveredInternalLinks c) /\ is_map top /\
      forall e f, In e top -> In f (UncoveredInternalLinks c) -> ~ In f top -> snd f <= snd e) /\
    forall iterate, (forall l, Permutation (iterate l) l) -> exists names top, Permutation names articles /\
      length top = Nat.min 20 (length (UncoveredInternalLinks c)) /\ incl top (UncoveredInternalLinks c) /\ descending top /\
      (forall e f, In e top -> In f (UncoveredInternalLinks c) -> ~ In f top -> snd f <= snd e) /\
      generateTxtStatsContent sortEntries iterate c = concat (map (fun line => line ++ nl) (
        [!"Statistics generated with wiki2book:"; []; !"General:";
         !"  Number of characters    : " ++ itoa (list_sum (map (fun a => number_of letter NumberOfCharacters (counted_things (doc a))) articles));
         !"  Number of internal links: " ++ itoa (list_sum (map (fun a => number_of letter NumberOfInternalLinks (counted_things (doc a))) articles));
         []; !"Article:"] ++
        map (fun name => !"  " ++ name) names ++
        [[]; !"Top 20 linked articles that are not part of the book (total: " ++ itoa (length (UncoveredInternalLinks c)) ++ !"):"] ++
        map (fun e => !"  " ++ fst e ++ !" (" ++ itoa (snd e) ++ !")") top)).
Proof.
  intros letter ext ccfg efuel fuel wiki cfg articles threads type force html_exists cacheDir jobs w net s doc answer read_file files sortEntries CM T ND R H P DO UT TY ST B FI DE TE RF DC SO.
  assert (RE : forall w a, shouldRecreateHtml type (html_exists w a) force = true) by (intros w0 a; unfold shouldRecreateHtml; rewrite TY, orb_true_r; reflexivity).
  pose proof (C70_files_partial _ _ _ _ _ _ _ _ _ _ _ _ _ _ _ doc answer CM T ND R H P DO UT B FI DE TE) as O.
  assert (G : exists ss, files = map Ok ss /\ Forall2 (fun a st => says_things letter (wikipediaInstance wiki) a (counted_things (doc a)) st) articles ss).
  { clear - O DC RF RE ST. revert files DC. induction O as [|a f l l' X O IH]; intros files DC; inversion DC as [|? r ? files' D1 D2]; subst; [exists []; split; constructor|].
    destruct (IH _ D2) as (ss & -> & F). destruct X as [(_ & w & X)|(-> & Z & X)]; [rewrite RE in X; discriminate|]. destruct (X ST) as (text & E). destruct (Z _ E) as (stats & Z1 & Z2 & Z3).
    assert (Q : read_file (GetFilePathInCache cacheDir !"stats" (a ++ !".json")) = Some text) by (rewrite RF; exact E).
    destruct (D1 _ Q _ _ Z3 Z2 ltac:(apply Z1)) as (stats' & -> & Y1 & Y2). exists (stats' :: ss). split; [reflexivity|]. constructor; [|exact F]. eapply same_says; eauto. }
  destruct G as (ss & -> & F). destruct (C34_total sortEntries ss) as (c & C). exists c. split; [exact C|].
  assert (PS := project_combined sortEntries letter (wikipediaInstance wiki) (fun a => counted_things (doc a)) articles ss c F C). split; [exact PS|].
  assert (U : forall st, In st ss -> utf8_names (InternalLinks st)).
  { clear - F UT. intros st I name k J. induction F as [|a st' l l' (S1 & _ & _ & _ & _ & S6) F IH]; [contradiction|]. destruct I as [<-|I].
    - apply (proj2 (UT a (or_introl eq_refl))). apply S6. apply in_map_iff. exists (name, k). auto.
    - apply IH; auto. intros b Ib. apply UT. right. exact Ib. }
  split; [apply (C69_combined sortEntries ss); auto|]. split.
  { pose proof (C34_top _ _ _ SO C) as (T1 & T2 & T3 & _ & T5). auto. }
  intros iterate IT. destruct (C34_text _ iterate _ _ SO IT C) as (ss' & names & top & E & N1 & N2 & N3 & N4 & N5 & N6 & N7).
  assert (X : forall (a b : list articleStats), map Ok a = map (@Ok articleStats) b -> a = b).
  { induction a as [|x a IH]; intros [|y b] Q; try discriminate; [reflexivity|]. cbn in Q. injection Q as -> Q. f_equal. apply IH. exact Q. }
  apply X in E. subst ss'. exists names, top.
  assert (Names : map ArticleName ss = articles) by (clear -F; induction F as [|a st l l' (S1 & _) F IH]; [reflexivity|]; cbn [map]; congruence).
  assert (Sum : forall x, x <> EstimatedReadingTimeMinutes -> list_sum (map (fun st => count st x) ss) = list_sum (map (fun a => number_of letter x (counted_things (doc a))) articles)).
  { intros x Nx. destruct PS as (_ & PS & _). rewrite <- PS by exact Nx. pose proof (C34_sums _ _ _ C) as (ss' & E & C1 & _). apply X in E. subst ss'. rewrite C1. reflexivity. }
  rewrite <- !Sum by discriminate. repeat split; auto. apply NoDup_Permutation; auto. rewrite <- Names. exact N2.
Qed.
Print Assumptions C70_project_partial.

(** ** Example *)

(** A file that says these statistics is decoded as these statistics. *)
Lemma decoded_here : forall text stats others, file_says text stats others -> utf8_names (InternalLinks stats) -> is_map (InternalLinks stats) -> decoded text (Ok stats).
Proof. intros text stats others F U M stats' others' F' U' M'. exists stats. split; [reflexivity|]. split; [eapply C69_back; eauto|exact M]. Qed.

Definition gen_stats (a c : str) (t : Tokenizer) (l : list (str * (path * path))) : option str :=
  match generateStats ascii_letter !"de" (tokenMap t) 6 a c with Ok stats => Some (article_json stats) | _ => None end.
Lemma gen_stats_ok : forall a c t l o, gen_stats a c t l = Some o -> stats_files ascii_letter !"de" a c t l o.
Proof. intros a c t l o H. unfold gen_stats in H. destruct (generateStats _ _ _ _ _ _) as [stats| | |] eqn:E; try discriminate. injection H as <-. exists 6, stats. auto. Qed.

Definition counted_book (articles : list str) (ms : list book_move) : option book_state :=
  book_schedule book_ext cfg_none 3 3 (ex_wiki []) articles 2 (fun w a => shouldRecreateHtml StatsJson (negb (str_eqb a [])) false) !"/cache" !"stats" !".json" atlas_server ask tok gen_stats ms
    (book_start articles 2 (mkWorld [] 0) []).
Lemma counted_runs : forall articles ms s, counted_book articles ms = Some s ->
  book_runs book_ext cfg_none 3 3 (ex_wiki []) default_config articles 2 (fun w a => shouldRecreateHtml StatsJson (negb (str_eqb a [])) false) !"/cache" !"stats" !".json" (stats_files ascii_letter (wikipediaInstance (ex_wiki []))) (mkWorld [] 0) [] s.
Proof. intros articles ms s H. eapply book_schedule_runs; [apply ask_ok|apply tok_ok|apply gen_stats_ok|apply book_begin|exact H]. Qed.

(** The statistics in the two files; the reading time is below one minute. *)
Definition java_stats : articleStats := mkArticleStats !"Java" (fun c => number_of ascii_letter c (counted_things java)) [].
Definition elbe_stats : articleStats := mkArticleStats !"Elbe" (fun c => number_of ascii_letter c (counted_things template_document)) [(!"River", 3)].

Lemma ascii_utf8 : forall s, forallb (fun c => N_of_ascii c <? 128)%N s = true -> is_utf8 s.
Proof.
  intros s H. exists (map N_of_ascii s). induction s as [|c s IH]; [split; [constructor|reflexivity]|]. cbn [forallb] in H. apply andb_true_iff in H as [H1 H2]. destruct (IH H2) as [A B]. cbn [map]. split.
  - constructor; [|exact A]. apply N.ltb_lt in H1. unfold scalar. lia.
  - unfold encoded. cbn [map concat]. fold (encoded (map N_of_ascii s)). rewrite <- B. unfold utf8. rewrite H1. cbn [map app]. rewrite ascii_N_embedding. reflexivity.
Qed.

Lemma atlas_utf8 : forall a, In a [!"Java"; !"Elbe"] -> is_utf8 a /\ utf8_links (counted_things (atlas a)).
Proof.
  intros a A. split; [apply ascii_utf8; destruct A as [<-|[<-|[]]]; reflexivity|]. intros name L. unfold links_in in L. destruct (filter _ _) as [|k l] eqn:F; [cbn in L; lia|].
  assert (I : In k (k :: l)) by (left; reflexivity). rewrite <- F in I. apply filter_In in I as (I & E). destruct k as [n| | | | |]; try discriminate. apply str_eqb_eq in E. subst n.
  apply ascii_utf8. destruct A as [<-|[<-|[]]]; vm_compute in I; [contradiction|]. repeat (destruct I as [I|I]; [injection I as <-; reflexivity|]). contradiction.
Qed.

(** All assumptions of C70 are met: two workers, whose actions are mixed (see C63), for a project of two articles, one of them with templates.  This is the file of one article and the statistics of the project. *)
Example C70_example : exists s, counted_book [!"Java"; !"Elbe"] atlas_moves = Some s /\ book_finished s /\
  (forall a text, In a [!"Java"; !"Elbe"] -> delivered book_ext (own_host (ex_wiki [])) (b_network s) a text -> stands_for (Hash book_ext) book_answer default_config text (atlas a)) /\
  (forall template text, template_delivered book_ext (ex_wiki []) [] (b_network s) template text -> text = pieces_text (book_answer template)) /\
  b_outputs s = [!"/cache/stats/Java.json"; !"/cache/stats/Elbe.json"] /\
  content (b_disk s) (cache_path !"stats" !"Java.json") = Some (article_json java_stats) /\ content (b_disk s) (cache_path !"stats" !"Elbe.json") = Some (article_json elbe_stats) /\
  Forall2 (fun a r => forall text, content (b_disk s) (cache_path !"stats" (a ++ !".json")) = Some text -> decoded text r) [!"Java"; !"Elbe"] (map Ok [java_stats; elbe_stats]) /\
  exists c, GenerateCombinedStats entries_sorted (map Ok [java_stats; elbe_stats]) = Ok c /\
    count (Combined c) NumberOfCharacters = 71 /\ count (Combined c) NumberOfWords = 15 /\ UncoveredInternalLinks c = [(!"River", 3)].
Proof.
  destruct (counted_book [!"Java"; !"Elbe"] atlas_moves) as [s|] eqn:E; [|vm_compute in E; discriminate]. exists s. split; [reflexivity|].
  set (x1 := (article_address book_ext !"de.wikipedia.org" !"Java", wikitext java)). set (x2 := (article_address book_ext !"de.wikipedia.org" !"Elbe", template_source)).
  set (x3 := (template_address book_ext (ex_wiki []) inner_template, pieces_text (template_answer inner_template))).
  set (x4 := (template_address book_ext (ex_wiki []) outer_template, pieces_text (template_answer outer_template))).
  assert (DT : forall x, In x (delivered_texts (b_network s)) -> x = x1 \/ x = x2 \/ x = x3 \/ x = x4).
  { assert (DT : delivered_texts (b_network s) = [x1; x2; x3; x4]) by (vm_compute in E; injection E as <-; vm_compute; reflexivity).
    intros x I. rewrite DT in I. cbn [In] in I. intuition. }
  split; [vm_compute in E; injection E as <-; split; [reflexivity|repeat constructor]|]. split.
  { intros a text A D. apply delivered_here, DT in D. change (own_host (ex_wiki [])) with !"de.wikipedia.org" in D.
    destruct A as [<-|[<-|[]]].
    - left. destruct D as [D|[D|[D|D]]]; unfold x1, x2, x3, x4 in D; (apply pair_equal_spec in D as (D1 & D2)); subst text; try (apply (usual default_config); apply (atlas_ok !"Java")); vm_compute in D1; discriminate.
    - right. assert (X : text = template_source) by (destruct D as [D|[D|[D|D]]]; unfold x1, x2, x3, x4 in D; (apply pair_equal_spec in D as (D1 & D2)); subst text; try reflexivity; vm_compute in D1; discriminate).
      subst text. destruct template_read as (l & R & C). exists template_cleaned. split; [exact template_tidied|]. right. exists l, template_tree. split; [exact R|]. split; [exact C|]. split; [exact example_hash_ok|].
      split; [intros p q; vm_compute; intros [<-|[<-|[<-|[]]]] [<-|[<-|[<-|[]]]]; auto; discriminate|]. split; [exact template_written|vm_compute; reflexivity]. }
  split.
  { intros template text D. apply template_here in D as (template' & H & D). apply DT in D. unfold book_answer. rewrite <- H. clear E DT H.
    assert (A : forall u v, template_address book_ext (ex_wiki []) u = template_address book_ext (ex_wiki []) v -> u = v) by (intros u v X; unfold template_address in X; repeat apply app_inv_head in X; exact X).
    destruct D as [D|[D|[D|D]]]; unfold x1, x2, x3, x4 in D; (apply pair_equal_spec in D as (D1 & D2)); subst text; try (vm_compute in D1; discriminate); apply A in D1; subst template'; vm_compute; reflexivity. }
  assert (Q : b_outputs s = [!"/cache/stats/Java.json"; !"/cache/stats/Elbe.json"] /\ content (b_disk s) (cache_path !"stats" !"Java.json") = Some (article_json java_stats) /\
    content (b_disk s) (cache_path !"stats" !"Elbe.json") = Some (article_json elbe_stats)) by (vm_compute in E; injection E as <-; split; [vm_compute; reflexivity|]; split; vm_compute; reflexivity).
  destruct Q as (Q1 & Q2 & Q3). split; [exact Q1|]. split; [exact Q2|]. split; [exact Q3|]. split.
  - assert (M1 : utf8_names (InternalLinks java_stats) /\ is_map (InternalLinks java_stats)) by (split; [intros n k []|constructor]).
    assert (M2 : utf8_names (InternalLinks elbe_stats) /\ is_map (InternalLinks elbe_stats)) by (split; [intros n k [I|[]]; injection I as <- <-; apply ascii_utf8; reflexivity|constructor; [intros []|constructor]]).
    constructor; [|constructor; [|constructor]]; intros text X; cbn [app] in X; [rewrite Q2 in X|rewrite Q3 in X]; injection X as <-; (eapply decoded_here; [apply C69_article|..]; first [apply M1|apply M2|apply ascii_utf8; reflexivity]).
  - eexists. split; [reflexivity|]. vm_compute. auto.
Qed.
