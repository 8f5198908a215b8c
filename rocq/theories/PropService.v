(** * Property C56: cached answers belong to the request *)

From Coq Require Import Ascii String.
From Coq Require Import List Arith ZArith Bool.
From Verif Require Import GoStr GoStrFacts UtilModel UtilProofs CacheModel CacheSpec HttpModel HttpSpec ServiceModel ServiceSpec ServiceProofs PropCache PropHttp.
Import ListNotations.
Local Open Scope list_scope.

(** Several workers, which may fail, die and be started again, share a cache.  Whatever article a worker gets was delivered completely by a server,
    for this title and for a host where some worker has looked for this title. *)
Theorem C56_articles : forall ext jobs s wiki host title a, runs ext jobs s -> In (GetArticle wiki host title, TRet (Ok a)) (workers s) ->
  exists t x data j host' title', a = Article t x /\ json_article_title ext data = Some t /\ json_article_text ext data = x /\
    In j jobs /\ reads_article j host' title' /\ same_title title title' /\ got (network s) (article_address ext host' title) data.
Proof.
  intros ext jobs s wiki host title a R W. apply runs_good in R as (_ & G). destruct (G _ _ W) as (HJ & t & x & -> & d & (F & _) & J1 & J2).
  destruct (F eq_refl) as (j & host' & title' & H1 & H2 & N & H3). apply SanitizeFilename_inj in N. unfold article_file in N. apply app_inv_tail in N.
  exists t, x, d, j, host', title'. repeat split; auto. unfold article_address. rewrite N. exact H3.
Qed.
Print Assumptions C56_articles.

(** If all workers look for this title on one host only, then the article comes from the own host. *)
Theorem C56_one_wiki : forall ext jobs s wiki host title a, runs ext jobs s -> In (GetArticle wiki host title, TRet (Ok a)) (workers s) ->
  (forall j host' title', In j jobs -> reads_article j host' title' -> same_title title title' -> host' = host) ->
  exists t x data, a = Article t x /\ json_article_title ext data = Some t /\ json_article_text ext data = x /\ got (network s) (article_address ext host title) data.
Proof.
  intros ext jobs s wiki host title a R W U. destruct (C56_articles _ _ _ _ _ _ _ R W) as (t & x & d & j & host' & title' & E & J1 & J2 & HJ & RA & ST & G).
  rewrite (U _ _ _ HJ RA ST) in G. exists t, x, d. auto.
Qed.
Print Assumptions C56_one_wiki.

(** A template is expanded by a server, with the text of the template or of one with the same hash. *)
Theorem C56_templates : forall ext jobs s wiki template a, runs ext jobs s -> In (GetTemplate wiki template, TRet (Ok a)) (workers s) ->
  exists t data wiki' template', a = Text t /\ json_template ext data = Some t /\
    In (GetTemplate wiki' template') jobs /\ Hash ext template' = Hash ext template /\ got (network s) (template_address ext wiki' template') data.
Proof.
  intros ext jobs s wiki template a R W. apply runs_good in R as (_ & G). destruct (G _ _ W) as (HJ & t & -> & d & (_ & F & _) & J1).
  destruct (F eq_refl) as (wiki' & template' & H1 & N & H2). apply SanitizeFilename_inj in N. exists t, d, wiki', template'. auto.
Qed.
Print Assumptions C56_templates.

(** If all templates have different hashes and all jobs use one wiki, then it is the expansion of this template. *)
Theorem C56_one_wiki_templates : forall ext jobs s wiki template a, runs ext jobs s -> In (GetTemplate wiki template, TRet (Ok a)) (workers s) ->
  (forall wiki' template', In (GetTemplate wiki' template') jobs -> Hash ext template' = Hash ext template -> template' = template /\ wiki' = wiki) ->
  exists t data, a = Text t /\ json_template ext data = Some t /\ got (network s) (template_address ext wiki template) data.
Proof.
  intros ext jobs s wiki template a R W U. destruct (C56_templates _ _ _ _ _ _ R W) as (t & d & wiki' & template' & E & J & HJ & HH & G).
  destruct (U _ _ HJ HH) as (-> & ->). exists t, d. auto.
Qed.
Print Assumptions C56_one_wiki_templates.

(** The name of a formula was given by a server that received this formula or one with the same hash, and the pictures have this name. *)
Theorem C56_formulas : forall ext jobs s j wiki formula a, runs ext jobs s -> In (j, TRet (Ok a)) (workers s) -> reads_formula j wiki formula ->
  exists name j' wiki' formula', In j' jobs /\ reads_formula j' wiki' formula' /\ Hash ext formula' = Hash ext formula /\
    named (network s) (formula_address wiki') (formula_data ext formula') name /\
    (a = Location name \/
     a = Files (cache_path !"images" (name ++ !".svg")) (cache_path !"images" (name ++ !".svg")) \/
     a = Files (cache_path !"images" (name ++ !".svg")) (cache_path !"images" (name ++ !".png"))).
Proof.
  intros ext jobs s j wiki formula a R W RF. apply runs_good in R as (_ & G). destruct (G _ _ W) as (HJ & K). cbn [okt good] in K.
  assert (X : exists name, formula_ok ext formula jobs (network s) name /\ (a = Location name \/
     a = Files (cache_path !"images" (name ++ !".svg")) (cache_path !"images" (name ++ !".svg")) \/
     a = Files (cache_path !"images" (name ++ !".svg")) (cache_path !"images" (name ++ !".png")))).
  { destruct RF; cbn [answer_ok] in K.
    - destruct K as (n & -> & F). exists n. auto.
    - destruct K as (svg & png & -> & n & F & E1 & E2). cbn [fst snd] in E1, E2. subst svg. exists n. split; auto. destruct E2 as [->| ->]; auto. }
  destruct X as (n & (_ & _ & F) & E). destruct (F eq_refl) as (j' & wiki' & formula' & H1 & H2 & N & H3). apply SanitizeFilename_inj in N.
  exists n, j', wiki', formula'. auto.
Qed.
Print Assumptions C56_formulas.

(** The workers are those of the sequential model: a worker that runs alone has the executions of the functions of HttpModel.v. *)
Theorem C56_same_executions : forall ext cfg wiki efuel fuel faulty w tr w',
  (forall host title r, tends faulty (alone cfg efuel (t_DownloadArticle ext fuel host title)) w tr r w' <->
     tends faulty (DownloadArticle ext cfg efuel fuel host title) w tr r w') /\
  (forall images r, tends faulty (alone cfg efuel (t_DownloadImages ext wiki fuel images)) w tr r w' <->
     tends faulty (DownloadImages ext cfg wiki efuel fuel images) w tr r w') /\
  (forall template file r, tends faulty (alone cfg efuel (t_EvaluateTemplate ext wiki fuel template file)) w tr r w' <->
     tends faulty (EvaluateTemplate ext cfg wiki efuel fuel template file) w tr r w') /\
  (forall converter formula r, tends faulty (alone cfg efuel (t_RenderMath ext wiki fuel converter formula)) w tr r w' <->
     tends faulty (RenderMath ext cfg wiki efuel fuel converter formula) w tr r w').
Proof.
  intros ext cfg wiki efuel fuel faulty w tr w'. split; [|split; [|split]]; intros.
  - apply alone_article.
  - apply alone_images.
  - apply alone_template.
  - apply alone_math.
Qed.
Print Assumptions C56_same_executions.

(** Full claim: an article is always the one of the requested wiki.  It is false: the name of the cache file does not contain the host.  A second run
    for another wiki gets the article of the first wiki and sends no request at all. *)
Definition ex_two_wikis (url : str) : option response :=
  if str_eqb url (article_url ex_ext !"de.wikipedia.org" !"Java") then Some (ok_response !"deutsch")
  else if str_eqb url (article_url ex_ext !"en.wikipedia.org" !"Java") then Some (ok_response !"english")
  else if str_eqb url (article_url ex_ext !"en.wikipedia.org" !"Bali") then Some (ok_response !"island")
  else None.

Theorem C56_other_wiki_refuted : exists ext jobs s wiki text, runs ext jobs s /\
  In (GetArticle wiki !"en.wikipedia.org" !"Java", TRet (Ok (Article text text))) (workers s) /\
  text = !"deutsch" /\ json_article_text ext !"deutsch" = text /\ ex_two_wikis (article_url ext !"en.wikipedia.org" !"Java") = Some (ok_response !"english") /\
  forall data, ~ got (network s) (article_url ext !"en.wikipedia.org" !"Java") data.
Proof.
  destruct (schedule ex_ext ex_two_wikis cfg_lru
    [Start (GetArticle (ex_wiki []) !"de.wikipedia.org" !"Java"); Act 0; Act 0; Act 0; Act 0; Restart;
     Start (GetArticle (ex_wiki []) !"en.wikipedia.org" !"Java"); Act 0; Act 0] ([], mkState [] (mkWorld [] 0) [])) as [[J s]|] eqn:E; [|vm_compute in E; discriminate].
  assert (R : runs ex_ext J s) by (eapply schedule_runs; [|apply (run_begin ex_ext (mkWorld [] 0)); reflexivity|exact E]; vm_compute; discriminate).
  vm_compute in E. injection E as <- <-.
  eexists ex_ext, _, _, _, !"deutsch". split; [exact R|]. split; [left; reflexivity|]. split; [reflexivity|]. split; [reflexivity|]. split; [reflexivity|].
  intros data (q & a & H & U & _). cbn [network In] in H. destruct H as [H|[]]. injection H as <- <-. vm_compute in U. discriminate.
Qed.
Print Assumptions C56_other_wiki_refuted.

(** Two workers at the same time, with their actions mixed *)
Example C56_example : exists jobs s, runs ex_ext jobs s /\
  In (GetArticle (ex_wiki []) !"de.wikipedia.org" !"Java", TRet (Ok (Article !"deutsch" !"deutsch"))) (workers s) /\
  In (GetArticle (ex_wiki []) !"en.wikipedia.org" !"Bali", TRet (Ok (Article !"island" !"island"))) (workers s) /\
  (forall j host' title', In j jobs -> reads_article j host' title' -> same_title !"Java" title' -> host' = !"de.wikipedia.org").
Proof.
  destruct (schedule ex_ext ex_two_wikis cfg_lru
    [Start (GetArticle (ex_wiki []) !"de.wikipedia.org" !"Java"); Act 0; Start (GetArticle (ex_wiki []) !"en.wikipedia.org" !"Bali");
     Act 0; Act 1; Act 0; Act 0; Act 1; Act 0; Act 1] ([], mkState [] (mkWorld [] 0) [])) as [[J s]|] eqn:E; [|vm_compute in E; discriminate].
  assert (R : runs ex_ext J s) by (eapply schedule_runs; [|apply (run_begin ex_ext (mkWorld [] 0)); reflexivity|exact E]; vm_compute; discriminate).
  vm_compute in E. injection E as <- <-.
  eexists _, _. split; [exact R|]. split; [right; left; reflexivity|]. split; [left; reflexivity|].
  intros j host' title' [<-|[<-|[]]] RA ST; inversion RA; subst.
  - vm_compute in ST. discriminate.
  - reflexivity.
Qed.
