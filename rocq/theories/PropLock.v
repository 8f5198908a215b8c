(** * Property C74: the cache is complete between any two system calls of the workers *)

From Coq Require Import Ascii String.
From Coq Require Import List Arith ZArith Bool.
From Verif Require Import GoStr GoStrFacts UtilModel UtilProofs CacheModel CacheSpec CacheProofs CacheProofs2 HttpModel HttpSpec ServiceModel ServiceSpec ServiceProofs LockModel LockProofs PropCache PropHttp PropService.
Import ListNotations.
Local Open Scope list_scope.

(** Only one worker at a time is within the functions of the cache. *)
Theorem C74_one_worker : forall ext jobs s before x after, mixed ext jobs s -> staff s = before ++ x :: after -> is_free x \/ Forall is_free (before ++ after).
Proof. intros ext jobs s before x after M E. apply mixed_good in M as (_ & U & _). exact (U _ _ _ E). Qed.
Print Assumptions C74_one_worker.

(** At every moment, also while a file is written, everything that anyone can read in the cache is complete: the file of an article is what a server has delivered for
    this title, the file of a template what a server has delivered for a template with this hash, and the file of a formula the name that a server has given to a
    formula with this hash, and the file of a generated chapter or of statistics is the whole output of a job. *)
Theorem C74_complete : forall ext jobs s d, mixed ext jobs s ->
  (forall title, content (drive s) (cache_path !"articles" (article_file title)) = Some d ->
     exists j host title', In j jobs /\ reads_article j host title' /\ same_title title title' /\ got (traffic s) (article_address ext host title) d) /\
  (forall template, content (drive s) (cache_path !"templates" (Hash ext template)) = Some d ->
     exists wiki template', In (GetTemplate wiki template') jobs /\ Hash ext template' = Hash ext template /\ got (traffic s) (template_address ext wiki template') d) /\
  (forall formula, content (drive s) (cache_path !"math" (Hash ext formula)) = Some d ->
     exists j wiki formula', In j jobs /\ reads_formula j wiki formula' /\ Hash ext formula' = Hash ext formula /\
       named (traffic s) (formula_address wiki) (formula_data ext formula') d) /\
  (forall folder file, In folder [!"html"; !"stats"] -> content (drive s) (cache_path folder file) = Some d ->
     exists chunks, In (Result folder file chunks) jobs /\ d = all_data chunks).
Proof.
  intros ext jobs s d M. apply mixed_good in M as (D & _). split; [|split; [|split]].
  - intros title C. apply D in C; [|reflexivity]; destruct C as ((F & _) & _). destruct (F eq_refl) as (j & host' & title' & H1 & H2 & N & H3). apply SanitizeFilename_inj in N.
    unfold article_file in N. apply app_inv_tail in N. exists j, host', title'. repeat split; auto. unfold article_address. rewrite N. exact H3.
  - intros template C. apply D in C; [|reflexivity]; destruct C as ((_ & F & _) & _). destruct (F eq_refl) as (wiki' & template' & H1 & N & H2). apply SanitizeFilename_inj in N. exists wiki', template'. auto.
  - intros formula C. apply D in C; [|reflexivity]; destruct C as ((_ & _ & F) & _). destruct (F eq_refl) as (j' & wiki' & formula' & H1 & H2 & N & H3). apply SanitizeFilename_inj in N.
    exists j', wiki', formula'. auto.
  - intros folder file I C. apply D in C; [|destruct I as [<-|[<-|[]]]; reflexivity]. destruct C as (_ & R). destruct (R _ _ eq_refl I) as (filename & chunks & H1 & N & H2).
    apply SanitizeFilename_inj in N. subst filename. exists chunks. auto.
Qed.
Print Assumptions C74_complete.

(** What a worker gets belongs to its request (see C56), for every mixture of the system calls of all workers. *)
Theorem C74_articles : forall ext jobs s wiki host title a, mixed ext jobs s -> In (GetArticle wiki host title, Free (TRet (Ok a))) (staff s) ->
  exists t x data j host' title', a = Article t x /\ json_article_title ext data = Some t /\ json_article_text ext data = x /\
    In j jobs /\ reads_article j host' title' /\ same_title title title' /\ got (traffic s) (article_address ext host' title) data.
Proof.
  intros ext jobs s wiki host title a R W. apply mixed_good in R as (_ & _ & G). destruct (G _ _ W) as (HJ & (t & x & -> & d & (F & _) & J1 & J2) & _).
  destruct (F eq_refl) as (j & host' & title' & H1 & H2 & N & H3). apply SanitizeFilename_inj in N. unfold article_file in N. apply app_inv_tail in N.
  exists t, x, d, j, host', title'. repeat split; auto. unfold article_address. rewrite N. exact H3.
Qed.
Print Assumptions C74_articles.

Theorem C74_templates : forall ext jobs s wiki template a, mixed ext jobs s -> In (GetTemplate wiki template, Free (TRet (Ok a))) (staff s) ->
  exists t data wiki' template', a = Text t /\ json_template ext data = Some t /\
    In (GetTemplate wiki' template') jobs /\ Hash ext template' = Hash ext template /\ got (traffic s) (template_address ext wiki' template') data.
Proof.
  intros ext jobs s wiki template a R W. apply mixed_good in R as (_ & _ & G). destruct (G _ _ W) as (HJ & (t & -> & d & (_ & F & _) & J1) & _).
  destruct (F eq_refl) as (wiki' & template' & H1 & N & H2). apply SanitizeFilename_inj in N. exists t, d, wiki', template'. auto.
Qed.
Print Assumptions C74_templates.

Theorem C74_formulas : forall ext jobs s wiki formula a, mixed ext jobs s -> In (GetMathResource wiki formula, Free (TRet (Ok a))) (staff s) ->
  exists name j' wiki' formula', a = Location name /\ In j' jobs /\ reads_formula j' wiki' formula' /\ Hash ext formula' = Hash ext formula /\
    named (traffic s) (formula_address wiki') (formula_data ext formula') name.
Proof.
  intros ext jobs s wiki formula a R W. apply mixed_good in R as (_ & _ & G). destruct (G _ _ W) as (HJ & (n & -> & (_ & _ & F)) & _).
  destruct (F eq_refl) as (j' & wiki' & formula' & H1 & H2 & N & H3). apply SanitizeFilename_inj in N. exists n, j', wiki', formula'. repeat split; auto.
Qed.
Print Assumptions C74_formulas.

(** No worker waits forever.  A worker that is within the functions of the cache can always go on, a worker that is not waits at most for a worker that is, and so there is always a
    worker that can go on, until all are ready.  No failure of a system call is needed for that. *)
Definition ready (x : job * activity) : Prop := exists r, snd x = Free (TRet r).

Theorem C74_no_deadlock : forall ext jobs s before x after cfg efuel, mixed ext jobs s -> staff s = before ++ x :: after -> ~ ready x ->
  (exists events a w, worker_step cfg efuel (before ++ after) (snd x) (drive s) events a w) \/
  exists before' y after', staff s = before' ++ y :: after' /\ ~ is_free y /\ is_free x /\
    exists events a w, worker_step cfg efuel (before' ++ after') (snd y) (drive s) events a w.
Proof.
  intros ext jobs s before x after cfg efuel M E N.
  assert (INS : forall y others, ~ is_free y -> exists events a w, worker_step cfg efuel others (snd y) (drive s) events a w).
  { intros [j [p|[r|c q] k|[r|c q] k]] others F; cbn [snd].
    - destruct F. exists p. reflexivity.
    - eexists _, _, _. apply unlock_lookup.
    - destruct (answerable (drive s) c) as (r & w & H). eexists _, _, _. apply call_looking. apply sys_step_faulty. exact H.
    - eexists _, _, _. apply unlock_store.
    - destruct (answerable (drive s) c) as (r & w & H). eexists _, _, _. apply call_storing. apply sys_step_faulty. exact H. }
  assert (DEC : forall y, is_free y \/ ~ is_free y) by (intros [j [p|p k|p k]]; [left; exists p; reflexivity|right; intros (p' & X); discriminate..]).
  destruct (DEC x) as [F|F]; [|left; auto]. destruct x as [j a]. destruct F as (p & Ep). cbn [snd] in Ep. subst a.
  assert (LOOK : forall l, Forall is_free l \/ exists b y c, l = b ++ y :: c /\ ~ is_free y).
  { induction l as [|y l [IH|(b & z & c & -> & Z)]]; [left; constructor| |].
    - destruct (DEC y) as [Y|Y]; [left; constructor; auto|right; exists [], y, l; auto].
    - right. exists (y :: b), z, c. auto. }
  assert (WAIT : Forall is_free (before ++ after) \/ exists before' y after', staff s = before' ++ y :: after' /\ ~ is_free y /\ exists events a w, worker_step cfg efuel (before' ++ after') (snd y) (drive s) events a w).
  { destruct (LOOK (staff s)) as [A|(b & y & c & E' & Y)].
    - left. rewrite E in A. apply Forall_app in A as [A1 A2]. apply Forall_inv_tail in A2. apply Forall_app. auto.
    - right. exists b, y, c. auto. }
  destruct p as [r|folder file k|folder file chunks ok k|c k].
  - destruct N. exists r. reflexivity.
  - destruct WAIT as [W|(b & y & c & H1 & H2 & H3)]; [left; eexists _, _, _; apply lock_lookup; exact W|right]. exists b, y, c. repeat split; auto. eexists. reflexivity.
  - destruct WAIT as [W|(b & y & c & H1 & H2 & H3)]; [left; eexists _, _, _; apply lock_store; exact W|right]. exists b, y, c. repeat split; auto. eexists. reflexivity.
  - left. destruct (answerable (drive s) c) as (r & w & H). eexists _, _, _. apply call_free. apply sys_step_faulty. exact H.
Qed.
Print Assumptions C74_no_deadlock.

(** The executions in which the functions of the cache are single actions, which are those of C56, are some of these executions. *)
Theorem C74_more_executions : forall ext jobs s, runs ext jobs s ->
  mixed ext jobs (mkCrowd (map (fun x => (fst x, Free (snd x))) (workers s)) (disk s) (network s)).
Proof. exact runs_mixed. Qed.
Print Assumptions C74_more_executions.

(** A worker writes its article: half of the data is in the temporary file, when another worker reads its own article.  There is no file for the first article yet.  (The body of the
    first article is delivered in two parts.) *)
Definition ex_two_parts (url : str) : option response :=
  if str_eqb url (article_url ex_ext !"de.wikipedia.org" !"Java") then Some (mkResponse 200 [] [] [] [!"deu"; !"tsch"] true)
  else if str_eqb url (article_url ex_ext !"en.wikipedia.org" !"Bali") then Some (ok_response !"island")
  else None.

Example C74_example : exists jobs s, mixed ex_ext jobs s /\
  In (GetArticle (ex_wiki []) !"en.wikipedia.org" !"Bali", Free (TRet (Ok (Article !"island" !"island")))) (staff s) /\
  (exists j a after, staff s = (j, a) :: after /\ ~ is_free (j, a)) /\
  map f_data (filter (fun f => in_tmp (f_path f)) (files (drive s))) = [!"deu"] /\
  content (drive s) (cache_path !"articles" (article_file !"Bali")) = Some !"island" /\
  content (drive s) (cache_path !"articles" (article_file !"Java")) = None.
Proof.
  destruct (schedule_once ex_ext ex_two_parts cfg_lru
    ([Start (GetArticle (ex_wiki []) !"en.wikipedia.org" !"Bali")] ++ repeat (Act 0) 16 ++ [Start (GetArticle (ex_wiki []) !"de.wikipedia.org" !"Java")] ++ repeat (Act 0) 8 ++ [Act 1])
    ([], mkCrowd [] (mkWorld [] 0) [])) as [[J s]|] eqn:E; [|vm_compute in E; discriminate].
  assert (R : mixed ex_ext J s) by (eapply schedule_mixed; [|apply (mixed_begin ex_ext (mkWorld [] 0)); reflexivity|exact E]; vm_compute; discriminate).
  vm_compute in E. injection E as <- <-.
  eexists _, _. split; [exact R|]. split; [right; left; reflexivity|]. split; [eexists _, _, _; split; [reflexivity|]; intros (p & X); discriminate|]. split; [reflexivity|]. split; reflexivity.
Qed.

(** At the end both have their articles. *)
Example C74_example_end : exists jobs s, mixed ex_ext jobs s /\
  In (GetArticle (ex_wiki []) !"en.wikipedia.org" !"Bali", Free (TRet (Ok (Article !"island" !"island")))) (staff s) /\
  In (GetArticle (ex_wiki []) !"de.wikipedia.org" !"Java", Free (TRet (Ok (Article !"deutsch" !"deutsch")))) (staff s).
Proof.
  destruct (schedule_once ex_ext ex_two_parts cfg_lru
    ([Start (GetArticle (ex_wiki []) !"en.wikipedia.org" !"Bali")] ++ repeat (Act 0) 16 ++ [Start (GetArticle (ex_wiki []) !"de.wikipedia.org" !"Java")] ++ repeat (Act 0) 8 ++ [Act 1] ++ repeat (Act 0) 10)
    ([], mkCrowd [] (mkWorld [] 0) [])) as [[J s]|] eqn:E; [|vm_compute in E; discriminate].
  assert (R : mixed ex_ext J s) by (eapply schedule_mixed; [|apply (mixed_begin ex_ext (mkWorld [] 0)); reflexivity|exact E]; vm_compute; discriminate).
  vm_compute in E. injection E as <- <-.
  eexists _, _. split; [exact R|]. split; [right; left; reflexivity|left; reflexivity].
Qed.

(** A worker stores a chapter: the file is there when it is moved, with all of its data, though the worker is still within the function of the cache. *)
Example C74_example_result : exists jobs s, mixed ex_ext jobs s /\
  (exists j a after, staff s = (j, a) :: after /\ ~ is_free (j, a)) /\
  content (drive s) (cache_path !"html" !"Java.html") = Some !"<p>Java</p>".
Proof.
  assert (R0 : mixed ex_ext [Result !"html" !"Java.html" [!"<p>Java"; !"</p>"]]
    (mkCrowd [(Result !"html" !"Java.html" [!"<p>Java"; !"</p>"], Free (program ex_ext 3 (Result !"html" !"Java.html" [!"<p>Java"; !"</p>"])))] (mkWorld [] 0) [])).
  { apply (mixed_start ex_ext [] (mkCrowd [] (mkWorld [] 0) []) (Result !"html" !"Java.html" [!"<p>Java"; !"</p>"]) 3); [apply (mixed_begin ex_ext (mkWorld [] 0)); reflexivity|].
    intros folder filename chunks X. injection X as <- <- <-. left. reflexivity. }
  destruct (schedule_once ex_ext ex_two_parts cfg_lru (repeat (Act 0) 10)
    ([Result !"html" !"Java.html" [!"<p>Java"; !"</p>"]],
     mkCrowd [(Result !"html" !"Java.html" [!"<p>Java"; !"</p>"], Free (program ex_ext 3 (Result !"html" !"Java.html" [!"<p>Java"; !"</p>"])))] (mkWorld [] 0) [])) as [[J s]|] eqn:E; [|vm_compute in E; discriminate].
  assert (R : mixed ex_ext J s) by (eapply schedule_mixed; [|exact R0|exact E]; vm_compute; discriminate).
  vm_compute in E. injection E as <- <-.
  eexists _, _. split; [exact R|]. split; [eexists _, _, _; split; [reflexivity|]; intros (p & X); discriminate|]. reflexivity.
Qed.
