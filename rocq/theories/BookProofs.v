(** * Lemmas about runs of generateBookFromArticles *)

From Coq Require Import Ascii String.
From Coq Require Import List Arith ZArith Bool Lia.
From Verif Require Import GoStr GoStrFacts UtilModel UtilProofs ConfigModel CacheModel CacheSpec CacheProofs PropCache HttpModel HttpSpec HttpProofs ServiceModel ServiceSpec ServiceProofs
  TokenModel ArticleModel PoolModel PoolSpec PoolProofs PropPool BookModel BookSpec BookFileProofs.
Import ListNotations.
Local Open Scope list_scope.

(** ** Programs that leave a folder alone *)

Fixpoint avoids {A} (folder : str) (p : thread A) : Prop :=
  match p with
  | TRet _ => True
  | TLookup f _ k => f <> folder /\ forall r, avoids folder (k r)
  | TStore f _ _ _ k => f <> folder /\ forall r, avoids folder (k r)
  | TCall _ k => forall r, avoids folder (k r)
  end.

Lemma avoids_bind : forall A C folder (p : thread A) (f : A -> thread C), avoids folder p -> (forall a, avoids folder (f a)) -> avoids folder (tbind p f).
Proof. intros A C folder p f. induction p; cbn [avoids tbind]; intuition. Qed.

Lemma avoids_ok : forall A C folder (p : thread (res A)) (f : A -> thread (res C)), avoids folder p -> (forall a, avoids folder (f a)) -> avoids folder (t_ok p f).
Proof. intros A C folder p f H1 H2. apply avoids_bind; auto. intros [a| | |]; cbn; auto. Qed.

Lemma avoids_map : forall A folder (f : A -> answer) p, avoids folder p -> avoids folder (t_map f p).
Proof. intros. apply avoids_ok; auto. intros a. exact I. Qed.

Section Avoids.
Variable folder : str.
Hypothesis F : In folder [!"html"; !"stats"].

Lemma avoids_request : forall fuel q, avoids folder (t_doRequest fuel q).
Proof.
  induction fuel as [|fuel IH]; intros q; cbn [t_doRequest avoids]; auto. intros [r|]; cbn [avoids]; auto.
  destruct (a_status r =? 429)%Z; [cbn [avoids]; auto|]. destruct (negb (a_status r =? 200)%Z); cbn [avoids]; auto. destruct (negb _); cbn [avoids]; auto.
Qed.

Lemma avoids_download : forall fuel url f file, f <> folder -> avoids folder (t_DownloadAndCache fuel url f file).
Proof.
  intros fuel url f file N. apply avoids_ok; [cbn [t_lookup avoids]; auto|]. intros [|]; [exact I|]. apply avoids_ok; [apply avoids_request|]. intros r.
  apply avoids_ok; [cbn [t_store avoids]; auto|]. intros; exact I.
Qed.

Ltac other := intros <-; cbn [In] in F; destruct F as [F'|[F'|[]]]; discriminate F'.

Lemma avoids_article : forall ext fuel host title, avoids folder (t_DownloadArticle ext fuel host title).
Proof.
  intros. apply avoids_ok; [apply avoids_download; other|]. intros (p & b). cbn [avoids]. intros [d|]; [|exact I]. destruct (json_article_title ext d); exact I.
Qed.

Lemma avoids_image : forall ext wiki fuel host image, avoids folder (t_downloadImage ext wiki fuel host image).
Proof.
  intros. unfold t_downloadImage. destruct (after_colon image) as [n| | |]; try exact I. apply avoids_ok; [apply avoids_article|]. intros (t & x).
  destruct (after_colon _) as [o| | |]; try exact I. destruct (after_colon t) as [c| | |]; try exact I. apply avoids_ok; [apply avoids_download; other|]. intros (p & b).
  destruct (b && _ && _); [cbn [avoids]|]; intros; exact I.
Qed.

Lemma avoids_post : forall wiki p b, avoids folder (t_postProcessImage wiki p b).
Proof.
  assert (R : forall wiki p b, avoids folder (t_rescale wiki p b)) by (intros; unfold t_rescale; destruct (b && _ && _ && _); [cbn [avoids]|]; intros; exact I).
  intros. unfold t_postProcessImage. destruct (_ || _); auto. cbn [avoids]. intros [|]; auto. cbn [avoids]. intros [|]; auto. exact I.
Qed.

Lemma avoids_sources : forall ext wiki fuel image hosts e, avoids folder (t_try_sources ext wiki fuel image e hosts).
Proof.
  induction hosts as [|h hosts IH]; intros e; cbn [t_try_sources]; [exact I|]. apply avoids_bind; [apply avoids_image|].
  intros [(p & b)| | |]; try exact I; auto. apply avoids_post.
Qed.

Lemma avoids_images : forall ext wiki fuel images, avoids folder (t_DownloadImages ext wiki fuel images).
Proof. induction images as [|i images IH]; cbn [t_DownloadImages]; [exact I|]. apply avoids_ok; auto. apply avoids_sources. Qed.

Lemma avoids_template : forall ext wiki fuel template file, avoids folder (t_EvaluateTemplate ext wiki fuel template file).
Proof. intros. apply avoids_ok; [apply avoids_download; other|]. intros (p & b). cbn [avoids]. intros [d|]; exact I. Qed.

Lemma avoids_resource : forall ext wiki fuel formula, avoids folder (t_getMathResource ext wiki fuel formula).
Proof.
  intros. unfold t_getMathResource. set (request := t_ok (t_doRequest fuel _) _).
  assert (Q : avoids folder request).
  { apply avoids_ok; [apply avoids_request|]. intros r. destruct (str_eqb (a_location r) []); [exact I|]. apply avoids_ok; [|intros; exact I]. cbn [t_store avoids]. split; [other|intros; exact I]. }
  apply avoids_bind; [cbn [t_lookup avoids]; split; [other|intros; exact I]|]. intros [[|]| | |]; auto; try exact I. cbn [avoids]. intros; exact I.
Qed.

Lemma avoids_math : forall ext wiki fuel converter formula, avoids folder (t_RenderMath ext wiki fuel converter formula).
Proof.
  intros. apply avoids_ok; [apply avoids_resource|]. intros name. apply avoids_ok; [apply avoids_download; other|]. intros (svg & b). destruct converter; try exact I.
  - apply avoids_ok; [apply avoids_download; other|]. intros (png & b2). exact I.
  - cbn [avoids]. intros; exact I.
Qed.

Lemma avoids_program : forall ext fuel j, (forall f n c, j <> Result f n c) -> avoids folder (program ext fuel j).
Proof.
  intros ext fuel j N. destruct j; cbn [program]; try (apply avoids_map); auto using avoids_article, avoids_images, avoids_template, avoids_resource, avoids_math.
  destruct (N folder0 filename chunks eq_refl).
Qed.
End Avoids.

(** ** Files outside of the folders that are used *)

Lemma call_others : forall c w r w' p, allowed c -> sys_step true w c r w' -> ~ in_images p -> content w' p = content w p.
Proof.
  intros c w r w' p A H NI. destruct c; cbn [allowed] in A; try contradiction.
  - destruct H as (E & _). unfold content. congruence.
  - destruct H as (E & _). unfold content. congruence.
  - destruct H as (E & _). unfold content. congruence.
  - destruct H as (E & _). unfold content. congruence.
  - assert (N : p <> dst) by (intros ->; auto). destruct H as (_ & H).
    assert (E : files w' = files w \/ exists x, files w' = mkFile dst x (clock w') :: delete dst (files w)) by (destruct r; [right|]; auto).
    destruct E as [E|(x & E)]; unfold content; rewrite E; auto. rewrite lookup_cons. cbn [f_path].
    destruct (path_eq_dec dst p); [congruence|]. rewrite lookup_delete_neq; auto.
  - assert (N : p <> p0) by (intros ->; auto). destruct H as (_ & [(_ & E)|(x & E)]); [unfold content; congruence|]. eapply content_update; [|exact E|auto]. reflexivity.
Qed.

Lemma store_keeps : forall cfg efuel folder name chunks w rest w' p d, CacheEvictionStrategy cfg = StrategyNone -> In folder cache_folders -> in_tmp p = false ->
  steps true (CacheToFile cfg efuel folder name chunks true) w rest w' -> content w p = Some d -> content w' p <> None.
Proof.
  intros cfg efuel folder name chunks w rest w' p d ST HF T St C.
  destruct (safe_inv _ _ _ _ _ (safe_steps _ _ _ _ _ _ _ St (CacheToFile_keeps true cfg efuel folder name chunks true w p d ST HF T C))) as [E|(_ & _ & E)]; congruence.
Qed.

Section Others.
Variables (ext : externals) (ccfg : cache_config) (efuel : nat) (folder : str).
Hypothesis F : In folder [!"html"; !"stats"].
Hypothesis CM : (0 <= CacheMaxAge ccfg)%Z.

Lemma folder_ok : In folder cache_folders.
Proof. cbn [In] in F. unfold cache_folders. cbn [In]. intuition. Qed.

Lemma not_image : forall name, ~ in_images (cache_path folder name).
Proof. intros name (n & E). injection E as E _. rewrite E in F. cbn [In] in F. destruct F as [X|[X|[]]]; discriminate X. Qed.

(** What another worker does with a file of the folder *)
Lemma action_others : forall A Q (p : thread A) J net w ev p' w' name, okt ext Q p J net -> avoids folder p -> action ccfg efuel p w ev p' w' ->
  avoids folder p' /\ (content w' (cache_path folder name) = content w (cache_path folder name) \/ content w' (cache_path folder name) = None) /\
  (CacheEvictionStrategy ccfg = StrategyNone -> forall d, content w (cache_path folder name) = Some d -> content w' (cache_path folder name) <> None).
Proof.
  intros A Q p J net w ev p' w' name O V H. pose proof (in_tmp_cache_path folder name folder_ok) as T.
  destruct H as [f file k w r w' H|f file chunks ok k w r w' H|c k w r w' H]; cbn [okt avoids] in *.
  - destruct V as (N & V). split; auto. destruct (C39_lookup_other_files_untouched _ _ _ _ _ _ CM H) as (H1 & _).
    assert (E : content w' (cache_path folder name) = content w (cache_path folder name)).
    { unfold content. rewrite H1; auto. intros X. injection X as X _. auto. }
    split; auto. intros _ d C. congruence.
  - destruct V as (N & V). destruct O as (HF & _). split; auto.
    assert (NE : cache_path folder name <> cache_path f file) by (intros X; injection X as X _; auto). split.
    + destruct (C35_cache_write_atomic _ _ _ _ _ _ _ _ _ HF H _ T) as [E|[E|(E & _)]]; auto. contradiction.
    + intros ST d C. destruct (safe_inv _ _ _ _ _ (safe_steps _ _ _ _ _ _ _ H (CacheToFile_keeps true ccfg efuel f file chunks ok w _ d ST HF T C))) as [E|(E & _)]; [congruence|contradiction].
  - split; auto. destruct O as (AL & _). rewrite (call_others c w r w' _ AL H (not_image name)). split; auto. intros; congruence.
Qed.
End Others.

(** ** Titles *)

Lemma same_title_file : forall a name, same_title a (!"File:" ++ name) -> has_prefix !"File:" a = true.
Proof.
  intros a name H. unfold same_title in H. change !" " with [" "%char] in H. rewrite !replace_all_single in H.
  assert (G : forall (p : str) a b, ~ In " "%char p -> ~ In "_"%char p ->
    flat_map (fun x => if Ascii.eqb " " x then !"_" else [x]) a = flat_map (fun x => if Ascii.eqb " " x then !"_" else [x]) (p ++ b) -> has_prefix p a = true).
  { clear. intros p. induction p as [|c p IH]; intros a b N1 N2 E; [reflexivity|]. cbn [In] in N1, N2.
    cbn [app flat_map] in E. destruct (Ascii.eqb " " c) eqn:X; [apply Ascii.eqb_eq in X; intuition|].
    destruct a as [|x a]; [discriminate|]. cbn [flat_map] in E. destruct (Ascii.eqb " " x) eqn:Y.
    - cbn [app] in E. injection E as E1 E2. exfalso. apply N2. left. symmetry. exact E1.
    - cbn [app] in E. injection E as -> E2. cbn [has_prefix]. rewrite Ascii.eqb_refl. cbn [andb]. eapply IH; eauto. }
  eapply (G !"File:"); [| |exact H]; cbn; intuition discriminate.
Qed.

(** ** Paths *)

Lemma path_clean_nonempty : forall p, path_clean p <> [].
Proof.
  intros p. unfold path_clean. set (rooted := has_prefix !"/" p).
  assert (G : forall cs acc, Forall (fun c => c <> []) acc -> Forall (fun c => c <> []) (fold_left (clean_step rooted) cs acc)).
  { induction cs as [|c cs IH]; intros acc H; cbn [fold_left]; auto. apply IH. unfold clean_step. destruct (str_eqb c []) eqn:E; auto. cbn [orb].
    destruct (str_eqb c !"."); auto. assert (N : c <> []) by (intros ->; rewrite str_eqb_refl in E; discriminate).
    destruct (str_eqb c !".."); auto. destruct acc as [|a acc]; [destruct rooted; auto|]. destruct (str_eqb a !".."); auto. inversion H; auto. }
  specialize (G (split !"/" p) [] (Forall_nil _)). set (acc := fold_left _ _ _) in *. unfold render_path. destruct acc as [|a acc]; [destruct rooted; discriminate|].
  destruct rooted; [discriminate|]. cbn [app rev]. inversion G as [|? ? N G']; subst. clear - N G'.
  assert (R : Forall (fun c => c <> []) (rev acc)) by (apply Forall_rev; auto). destruct (rev acc) as [|b l]; cbn [app join]; [exact N|].
  inversion R as [|x l' NB _]; subst. destruct b; [congruence|]. destruct (l ++ [a]) eqn:E; [destruct l; discriminate|]. cbn. discriminate.
Qed.

Lemma output_file_nonempty : forall cacheDir folder suffix a, folder <> [] -> output_file cacheDir folder suffix a <> [].
Proof.
  intros cacheDir folder suffix a N. unfold output_file, GetFilePathInCache. destruct cacheDir; cbn [path_join]; [|apply path_clean_nonempty]. destruct folder; [congruence|]. apply path_clean_nonempty.
Qed.

(** ** The invariant *)

Lemma delivered_mono : forall ext host net net' a x, incl net net' -> delivered ext host net a x -> delivered ext host net' a x.
Proof. intros ext host net net' a x I (d & G & E). exists d. split; auto. eapply got_mono; eauto. Qed.

Section Book.
  Variables (ext : externals) (ccfg : cache_config) (efuel fuel : nat) (wiki : wiki_config) (cfg : configuration).
  Variable articles : list str.
  Variable WorkerThreads : nat.
  Variable recreate : world -> str -> bool.
  Variables (cacheDir folder suffix : str).
  Variable generate : str -> str -> Tokenizer -> list (str * (path * path)) -> str -> Prop.
  Hypothesis F : In folder [!"html"; !"stats"].
  Hypothesis CM : (0 <= CacheMaxAge ccfg)%Z.
  Variable jobs0 : list job.

  Inductive own_job : job -> Prop :=
  | own_article : forall a, own_job (GetArticle wiki (article_host wiki) a)
  | own_images : forall images, own_job (GetImages wiki images)
  | own_template : forall x, own_job (GetTemplate wiki x)
  | own_math : forall c x, own_job (GetMath wiki c x)
  | own_result : forall name chunks, own_job (Result folder name chunks).

  Definition jobs_ok (J : list job) : Prop := forall j, In j J -> In j jobs0 \/ own_job j.

  (** The text of a downloaded article *)
  Lemma article_delivered : forall J net a t x, only_here (article_host wiki) a jobs0 /\ has_prefix !"File:" a = false -> jobs_ok J -> answer_ok ext (GetArticle wiki (article_host wiki) a) J net (ServiceModel.Article t x) ->
    delivered ext (article_host wiki) net a x.
  Proof.
    intros J net a t x (OH & NF) JO (t' & x' & E & d & (FO & _) & J1 & J2). injection E as -> ->. cbn [fst snd] in *.
    destruct (FO eq_refl) as (j & host' & title' & H1 & H2 & N & G). apply SanitizeFilename_inj in N. unfold article_file in N. apply app_inv_tail in N.
    assert (E : host' = article_host wiki).
    { destruct (JO j H1) as [X|X]; [eapply OH; eauto|]. destruct X; inversion H2; subst; auto. exfalso.
      assert (Y : has_prefix !"File:" a = true) by (eapply same_title_file; exact N). congruence. }
    subst host'. exists d. split; auto. unfold article_address. rewrite N. exact G.
  Qed.

  (** Where the texts come from *)
  Variable said : list net_event -> str -> str -> Prop.
  Hypothesis SM : forall net net' a x, incl net net' -> said net a x -> said net' a x.
  Hypothesis SAID : forall J net a t x, In a articles -> jobs_ok J -> answer_ok ext (GetArticle wiki (article_host wiki) a) J net (ServiceModel.Article t x) -> said net a x.

  Definition chapter_path (a : str) : path := cache_path folder (a ++ suffix).

  (** The pictures of an article and of its formulas; [H] are the files that workers have seen. *)
  Definition wanted (t : Tokenizer) (x : path) : Prop :=
    wikipediaImageArticleHosts wiki <> [] /\ exists image n, In image (images t) /\ after_colon image = Ok n /\ x = picture_path wiki n.

  Definition there (H : list path) (t : Tokenizer) (formulas : list (str * (path * path))) : Prop :=
    (forall x, wanted t x -> In x H) /\ (forall formula svg png, In (formula, (svg, png)) formulas -> In svg H /\ In png H).

  Definition made (H : list path) (net : list net_event) (title output : str) : Prop :=
    exists text service content t formulas,
      said net title text /\
      (forall before template answer, service before template = Some answer -> template_delivered ext wiki jobs0 net template answer) /\
      Tokenize (Hash ext) service cfg text (ArticleModel.Article content t) /\
      (forall formula svg png, In (formula, (svg, png)) formulas -> formula_delivered ext wiki jobs0 net formula svg png) /\
      generate title content t formulas output /\ there H t formulas.

  Definition chapter_ok (H : list path) (net : list net_event) (w : world) (a : str) : Prop :=
    (forall html, content w (chapter_path a) = Some html -> made H net a html) /\
    (CacheEvictionStrategy ccfg = StrategyNone -> content w (chapter_path a) <> None).

  Definition loose (p : thread (res answer)) (J : list job) (net : list net_event) : Prop :=
    (exists j, okt ext (good (answer_ok ext j)) p J net) /\ avoids folder p.

  Definition answers_ok (net : list net_event) (answers : list (str * str)) : Prop :=
    forall template answer, In (template, answer) answers -> template_delivered ext wiki jobs0 net template answer.

  Definition parsed_ok (net : list net_event) (a content : str) (t : Tokenizer) : Prop :=
    exists x service, said net a x /\
      (forall before template answer, service before template = Some answer -> template_delivered ext wiki jobs0 net template answer) /\
      Tokenize (Hash ext) service cfg x (ArticleModel.Article content t).

  Definition formulas_ok (net : list net_event) (formulas : list (str * (path * path))) : Prop :=
    forall formula svg png, In (formula, (svg, png)) formulas -> formula_delivered ext wiki jobs0 net formula svg png.

  Definition shows (H : list path) (r : answer) : Prop := forall svg png, r = Files svg png -> In svg H /\ In png H.

  Definition stage_ok (J : list job) (H : list path) (net : list net_event) (w : world) (a : str) (s : stage) : Prop :=
    match s with
    | Skipped => True
    | Loading p => okt ext (good (answer_ok ext (GetArticle wiki (article_host wiki) a))) p J net /\ avoids folder p
    | Parsing x answers => said net a x /\ answers_ok net answers
    | Asking x answers template p => (said net a x /\ answers_ok net answers) /\
        okt ext (good (answer_ok ext (GetTemplate wiki template))) p J net /\ avoids folder p
    | Fetching content t p => parsed_ok net a content t /\ loose p J net /\ ends_with (gives (fun H _ => forall x, wanted t x -> In x H)) H p
    | Rendering content t formulas => parsed_ok net a content t /\ formulas_ok net formulas /\ there H t formulas
    | Drawing content t formulas formula p => (parsed_ok net a content t /\ formulas_ok net formulas /\ there H t formulas) /\
        okt ext (good (answer_ok ext (GetMath wiki MathNone formula))) p J net /\ avoids folder p /\ ends_with (gives shows) H p
    | Writing p =>
        (exists chunks, p = program ext fuel (Result folder (a ++ suffix) chunks) /\ made H net a (all_data chunks)) \/
        (exists r, p = TRet r /\ forall x, r = Ok x -> chapter_ok H net w a)
    end.

  Definition stage_thread (s : stage) : option (thread (res answer)) :=
    match s with
    | Loading p | Asking _ _ _ p | Fetching _ _ p | Drawing _ _ _ _ p | Writing p => Some p
    | _ => None
    end.
  Definition tidy (s : stage) : Prop := forall p, stage_thread s = Some p -> careful anywhere p.
  Definition worker_owes (x : path) (b : book_worker) : Prop :=
    match b with Busy a s => exists p, stage_thread s = Some p /\ owes x p | _ => False end.

  Definition worker_ok (J : list job) (H : list path) (net : list net_event) (w : world) (b : book_worker) : Prop :=
    match b with Busy a s => In a articles /\ stage_ok J H net w a s /\ tidy s | _ => True end.

  (** The pictures that were seen are there, or a worker that has found one outdated brings it back. *)
  Definition paid (H : list path) (w : world) (ws : list book_worker) : Prop :=
    CacheEvictionStrategy ccfg = StrategyNone -> forall x, In x H -> in_images x -> content w x <> None \/ Exists (worker_owes x) ws.

  Definition outputs_ok (H : list path) (net : list net_event) (w : world) (out : list str) : Prop :=
    forall k a f, nth_error articles k = Some a -> nth_error out k = Some f -> f = [] \/ (f = output_file cacheDir folder suffix a /\ chapter_ok H net w a).

  Definition book_ok (s : book_state) : Prop :=
    incl (b_to_send s) articles /\ incl (b_queue s) articles /\
    exists J H, jobs_ok J /\ disk_ok ext J (b_network s) (b_disk s) /\ Forall (worker_ok J H (b_network s) (b_disk s)) (b_workers s) /\
      outputs_ok H (b_network s) (b_disk s) (b_outputs s) /\ paid H (b_disk s) (b_workers s).

  Lemma template_mono : forall net net' q x, incl net net' -> template_delivered ext wiki jobs0 net q x -> template_delivered ext wiki jobs0 net' q x.
  Proof. intros net net' q x I (w' & q' & d & E & J & G & X). exists w', q', d. repeat split; auto. eapply got_mono; eauto. Qed.

  Lemma formula_delivered_mono : forall net net' f svg png, incl net net' -> formula_delivered ext wiki jobs0 net f svg png -> formula_delivered ext wiki jobs0 net' f svg png.
  Proof. intros net net' f svg png I (w' & f' & n & E & J & G & X). exists w', f', n. split; [exact E|]. split; [exact J|]. split; [eapply named_mono; eauto|exact X]. Qed.

  Lemma answers_mono : forall net net' h, incl net net' -> answers_ok net h -> answers_ok net' h.
  Proof. intros net net' h I H q x X. eapply template_mono; eauto. Qed.

  Lemma formulas_mono : forall net net' l, incl net net' -> formulas_ok net l -> formulas_ok net' l.
  Proof. intros net net' l I H f svg png X. eapply formula_delivered_mono; eauto. Qed.

  Lemma parsed_mono : forall net net' a c t, incl net net' -> parsed_ok net a c t -> parsed_ok net' a c t.
  Proof.
    intros net net' a c t I (x & sv & D & S & T). exists x, sv. split; [eapply SM; eauto|]. split; [|exact T]. intros b q y Y. eapply template_mono; eauto.
  Qed.

  Lemma there_mono : forall H H' t l, incl H H' -> there H t l -> there H' t l.
  Proof. intros H H' t l I (T1 & T2). split; [auto|]. intros f svg png X. destruct (T2 _ _ _ X). auto. Qed.

  Lemma made_mono : forall H H' net net' a x, incl H H' -> incl net net' -> made H net a x -> made H' net' a x.
  Proof.
    intros H H' net net' a x IH I (text & service & c & t & l & D & S & T & L & G & TH). exists text, service, c, t, l. split; [eapply SM; eauto|].
    split; [intros b q y Y; eapply template_mono; eauto|]. split; [exact T|]. split; [apply (formulas_mono net net' l I L)|]. split; [exact G|]. eapply there_mono; eauto.
  Qed.

  (** The answers are a service. *)
  Lemma replies_in : forall h before q x, replies h before q = Some x -> In (q, x) h.
  Proof.
    induction h as [|(q' & x') h IH]; intros before q x H; cbn [replies] in H; [discriminate|]. destruct (same_requests before (map fst h) && str_eqb q q') eqn:E; [|right; eauto].
    apply andb_true_iff in E as (_ & E). apply str_eqb_eq in E. subst q'. injection H as ->. left. reflexivity.
  Qed.

  (** Changes of the disk that keep all chapters *)
  Definition keeps_chapters (H : list path) (net : list net_event) (w : world) (H' : list path) (net' : list net_event) (w' : world) : Prop :=
    incl net net' /\ incl H H' /\ forall a, chapter_ok H net w a -> chapter_ok H' net' w' a.

  Lemma loose_mono : forall p J J' net net', incl J J' -> incl net net' -> loose p J net -> loose p J' net'.
  Proof. intros p J J' net net' IJ IN ((j & O) & V). split; auto. exists j. eapply okt_mono; eauto. apply answer_mono. Qed.

  Lemma wanted_mono : forall t p H H', incl H H' -> ends_with (A := res answer) (gives (fun H _ => forall x, wanted t x -> In x H)) H p ->
    ends_with (gives (fun H _ => forall x, wanted t x -> In x H)) H' p.
  Proof. intros t p H H' I. apply ends_mono; auto. intros G G' a J X x W. auto. Qed.

  Lemma shows_mono : forall p H H', incl H H' -> ends_with (A := res answer) (gives shows) H p -> ends_with (gives shows) H' p.
  Proof. intros p H H' I. apply ends_mono; auto. intros G G' a J X svg png E. destruct (X _ _ E). auto. Qed.

  Lemma stage_mono : forall J J' H0 H1 net net' w w' a s, incl J J' -> keeps_chapters H0 net w H1 net' w' -> stage_ok J H0 net w a s -> stage_ok J' H1 net' w' a s.
  Proof.
    intros J J' H0 H1 net net' w w' a s IJ (IN & IH & K) H. destruct s; cbn [stage_ok] in *; auto.
    - destruct H as (O & V). split; auto. eapply okt_mono; eauto. apply answer_mono.
    - destruct H as (D & L). split; [eapply SM|eapply answers_mono]; eauto.
    - destruct H as ((D & L) & O & V). split; [split; [eapply SM|eapply answers_mono]; eauto|]. split; auto. eapply okt_mono; eauto. apply answer_mono.
    - destruct H as (P & L & W). split; [eapply parsed_mono; eauto|]. split; [eapply loose_mono; eauto|eapply wanted_mono; eauto].
    - destruct H as (P & L & T). split; [eapply parsed_mono; eauto|]. split; [eapply formulas_mono; eauto|eapply there_mono; eauto].
    - destruct H as ((P & L & T) & O & V & W). split; [split; [eapply parsed_mono; eauto|split; [eapply formulas_mono; eauto|eapply there_mono; eauto]]|].
      split; [eapply okt_mono; eauto; apply answer_mono|]. split; auto. eapply shows_mono; eauto.
    - destruct H as [(chunks & E & M)|(r & E & M)].
      + left. exists chunks. split; auto. eapply made_mono; eauto.
      + right. exists r. split; auto. intros x X. eapply K; eauto.
  Qed.

  Lemma worker_mono : forall J J' H0 H1 net net' w w' b, incl J J' -> keeps_chapters H0 net w H1 net' w' -> worker_ok J H0 net w b -> worker_ok J' H1 net' w' b.
  Proof. intros J J' H0 H1 net net' w w' [|a s|] IJ K H; cbn [worker_ok] in *; auto. destruct H as (A & S & T). split; auto. split; auto. eapply stage_mono; eauto. Qed.

  Lemma outputs_mono : forall H0 H1 net net' w w' out, keeps_chapters H0 net w H1 net' w' -> outputs_ok H0 net w out -> outputs_ok H1 net' w' out.
  Proof. intros H0 H1 net net' w w' out (IN & IH & K) H k a f A O. destruct (H k a f A O) as [E|(E & C)]; eauto. Qed.

  Lemma keeps_more : forall H H' net w, incl H H' -> keeps_chapters H net w H' net w.
  Proof.
    intros H H' net w I. split; [apply incl_refl|]. split; auto. intros a (C1 & C2). split; auto. intros html X. eapply made_mono; eauto. apply incl_refl.
  Qed.
  Lemma keeps_refl : forall H net w, keeps_chapters H net w H net w.
  Proof. intros. apply keeps_more, incl_refl. Qed.
  Lemma keeps_tran : forall H H' net w H1 net' w', incl H1 H' -> keeps_chapters H net w H1 net' w' -> keeps_chapters H net w H' net' w'.
  Proof.
    intros H H' net w H1 net' w' I (IN & IH & K). split; auto. split; [eapply incl_tran; eauto|]. intros a X. apply (keeps_more H1 H' net' w' I). auto.
  Qed.

  Lemma Exists_set : forall (P : book_worker -> Prop) l i x y, nth_error l i = Some y -> (P y -> P x) -> Exists P l -> Exists P (set_nth i x l).
  Proof.
    intros P. induction l as [|z l IH]; intros [|i] x y N I E; cbn [nth_error set_nth] in *; try discriminate.
    - injection N as ->. inversion E; subst; [left; auto|right; auto].
    - inversion E; subst; [left; auto|right; eauto].
  Qed.

  Lemma Exists_set_or : forall (P : book_worker -> Prop) l i x y, nth_error l i = Some y -> Exists P l -> P y \/ Exists P (set_nth i x l).
  Proof.
    intros P. induction l as [|z l IH]; intros [|i] x y N E; cbn [nth_error set_nth] in *; try discriminate.
    - injection N as ->. inversion E; subst; [left; auto|right; right; auto].
    - inversion E as [? ? X|? ? X]; subst; [right; left; auto|]. destruct (IH i x y N X); auto.
  Qed.

  Lemma Exists_new : forall (P : book_worker -> Prop) l i x y, nth_error l i = Some y -> P x -> Exists P (set_nth i x l).
  Proof. intros P. induction l as [|z l IH]; intros [|i] x y N X; cbn [nth_error set_nth] in *; try discriminate; [left; auto|right; eauto]. Qed.

  Lemma Forall_set : forall A (P : A -> Prop) l i x, Forall P l -> P x -> Forall P (set_nth i x l).
  Proof. intros A P. induction l as [|y l IH]; intros [|i] x H X; inversion H; subst; cbn [set_nth]; constructor; auto. Qed.

  Lemma Forall_nth_error : forall A (P : A -> Prop) l i x, Forall P l -> nth_error l i = Some x -> P x.
  Proof. intros A P l i x H N. rewrite Forall_forall in H. apply H. eapply nth_error_In; eauto. Qed.

  Lemma others_keep : forall Q p J net w ev p' w', okt ext Q p J net -> avoids folder p -> action ccfg efuel (A := res answer) p w ev p' w' ->
    avoids folder p' /\ forall G, keeps_chapters G net w G (net ++ ev) w'.
  Proof.
    intros Q p J net w ev p' w' O V H. split; [exact (proj1 (action_others ext ccfg efuel folder F CM _ _ _ _ _ _ _ _ _ [] O V H))|]. intros G. split; [apply incl_appl, incl_refl|].
    split; [apply incl_refl|]. intros a (C1 & C2). destruct (action_others ext ccfg efuel folder F CM _ _ _ _ _ _ _ _ _ (a ++ suffix) O V H) as (_ & E & K). split.
    - intros html X. eapply made_mono; [apply incl_refl|apply incl_appl, incl_refl|]. apply C1. unfold chapter_path in *. destruct E as [E|E]; congruence.
    - intros ST. specialize (C2 ST). unfold chapter_path in *. destruct (content w (cache_path folder (a ++ suffix))) as [d|] eqn:X; [|congruence]. eapply K; eauto.
  Qed.

  (** The action of writing a chapter *)
  Lemma writing_keep : forall G a chunks J net w ev p' w', made G net a (all_data chunks) ->
    action ccfg efuel (program ext fuel (Result folder (a ++ suffix) chunks)) w ev p' w' -> disk_ok ext J net w ->
    keeps_chapters G net w G (net ++ ev) w' /\ disk_ok ext J (net ++ ev) w' /\ exists r, p' = TRet r /\ forall x, r = Ok x -> chapter_ok G (net ++ ev) w' a.
  Proof.
    intros G a chunks J net w ev p' w' M H D. cbn [program t_map t_store t_ok tbind] in H. inversion H as [|f n ch ok k w1 r w1' H' X1 X2 X3 X4 X5|]; subst; clear H. rewrite app_nil_r.
    pose proof (folder_ok folder F) as HF. assert (P : forall b, in_tmp (chapter_path b) = false) by (intros; apply in_tmp_cache_path; auto).
    assert (K : keeps_chapters G net w G net w').
    { split; [apply incl_refl|]. split; [apply incl_refl|]. intros b (C1 & C2). split.
      - intros html X. destruct (C35_cache_write_atomic _ _ _ _ _ _ _ _ _ HF H' _ (P b)) as [E|[E|(E & _ & E2)]].
        + apply C1. congruence.
        + congruence.
        + injection E as E. apply SanitizeFilename_inj in E. apply app_inv_tail in E. subst b. replace html with (all_data chunks) by congruence. exact M.
      - intros ST. specialize (C2 ST). destruct (content w (chapter_path b)) as [d|] eqn:X; [|congruence]. eapply store_keeps; eauto. }
    split; auto. split.
    - eapply disk_store; eauto. intros _. cbn [In] in F. destruct F as [<-|[<-|[]]]; (split; [|split]); discriminate.
    - eexists. split.
      + instantiate (1 := match r with Ok _ => Ok Done | Err => Err | Panic => Panic | OutOfFuel => OutOfFuel end). destruct r as [[]| | |]; reflexivity.
      + intros x X. destruct r as [[]| | |]; try discriminate. destruct (C35_cache_write_success _ _ _ _ _ _ _ _ _ HF H') as (_ & E). split.
        * intros html Y. unfold chapter_path in Y. rewrite E in Y. injection Y as <-. exact M.
        * intros _. unfold chapter_path. rewrite E. discriminate.
  Qed.

  (** The answer to a template *)
  Lemma template_answered : forall J net q x, jobs_ok J -> answer_ok ext (GetTemplate wiki q) J net (Text x) -> template_delivered ext wiki jobs0 net q x.
  Proof.
    intros J net q x JO (t & E & d & (_ & FO & _) & X). injection E as ->. destruct (FO eq_refl) as (wiki' & q' & HJ & N & G). apply SanitizeFilename_inj in N.
    exists wiki', q', d. split; [symmetry; exact N|]. split; [|auto]. destruct (JO _ HJ) as [Y|Y]; [right; exact Y|left]. inversion Y. reflexivity.
  Qed.

  (** The files of a formula *)
  Lemma formula_answered : forall J net f svg png, jobs_ok J -> answer_ok ext (GetMath wiki MathNone f) J net (Files svg png) -> formula_delivered ext wiki jobs0 net f svg png.
  Proof.
    intros J net f svg png JO (svg' & png' & E & n & (_ & _ & FO) & X & Y). injection E as -> ->. cbn [fst snd] in *. destruct (FO eq_refl) as (j & wiki' & f' & HJ & R & N & G). apply SanitizeFilename_inj in N.
    exists wiki', f', n. split; [symmetry; exact N|]. split; [|split; [exact G|split; [exact X|exact Y]]].
    destruct (JO _ HJ) as [Z|Z]; [right; eauto|left]. destruct Z; inversion R; reflexivity.
  Qed.

  Lemma stage_action_ok : forall J H net w a s ev s' w', stage_ok J H net w a s -> tidy s -> disk_ok ext J net w -> stage_action ccfg efuel s w ev s' w' ->
    exists seen, (forall x, In x seen -> content w' x <> None) /\
    keeps_chapters H net w (seen ++ H) (net ++ ev) w' /\ disk_ok ext J (net ++ ev) w' /\ stage_ok J (seen ++ H) (net ++ ev) w' a s'.
  Proof.
    intros J G net w a s ev s' w' H TI D A. assert (IN : incl net (net ++ ev)) by apply incl_appl, incl_refl.
    assert (SE : forall seen : list path, incl G (seen ++ G)) by (intros; apply incl_appr, incl_refl).
    assert (LO : forall p p', loose p J net -> action ccfg efuel p w ev p' w' -> keeps_chapters G net w G (net ++ ev) w' /\ disk_ok ext J (net ++ ev) w' /\ loose p' J (net ++ ev)).
    { intros p p' ((j & O) & V) X. destruct (others_keep _ _ _ _ _ _ _ _ O V X) as (V' & K). destruct (action_good _ _ _ _ _ _ _ _ _ _ _ _ CM D O X) as (D' & O').
      split; auto. split; auto. split; auto. exists j. exact O'. }
    destruct A as [p w ev p' w' A|x h q p w ev p' w' A|x t p w ev p' w' A|x t l f p w ev p' w' A|p w ev p' w' A]; cbn [stage_ok] in *;
      destruct (seen_action _ _ CM _ _ _ _ _ _ _ (TI _ eq_refl) A) as (seen & S1 & S2); exists seen; (split; [exact S1|]); cbn [stage_ok].
    - destruct H as (O & V). destruct (others_keep _ _ _ _ _ _ _ _ O V A) as (V' & K). destruct (action_good _ _ _ _ _ _ _ _ _ _ _ _ CM D O A) as (D' & O').
      split; [eapply keeps_tran; eauto|auto].
    - destruct H as ((DE & L) & O & V). destruct (others_keep _ _ _ _ _ _ _ _ O V A) as (V' & K). destruct (action_good _ _ _ _ _ _ _ _ _ _ _ _ CM D O A) as (D' & O').
      split; [eapply keeps_tran; eauto|]. split; auto. split; auto. split; [eapply SM|eapply answers_mono]; eauto.
    - destruct H as (P & L & W). destruct (LO _ _ L A) as (K & D' & L'). split; [eapply keeps_tran; eauto|]. split; auto. split; [eapply parsed_mono; eauto|]. split; auto.
    - destruct H as ((P & L & T) & O & V & W). destruct (others_keep _ _ _ _ _ _ _ _ O V A) as (V' & K). destruct (action_good _ _ _ _ _ _ _ _ _ _ _ _ CM D O A) as (D' & O').
      split; [eapply keeps_tran; eauto|]. split; auto. split; [|auto]. split; [eapply parsed_mono; eauto|]. split; [eapply formulas_mono; eauto|]. eapply there_mono; eauto.
    - destruct H as [(chunks & -> & M)|(r & -> & _)]; [|inversion A]. destruct (writing_keep _ _ _ _ _ _ _ _ _ M A D) as (K & D' & r & E & R).
      split; [eapply keeps_tran; eauto|]. split; auto. right. exists r. split; auto. intros x X. apply (keeps_more G _ (net ++ ev) w'); auto. eapply R; eauto.
  Qed.

  Lemma stage_action_paid : forall s w ev s' w' x, tidy s -> stage_action ccfg efuel s w ev s' w' ->
    tidy s' /\
    (CacheEvictionStrategy ccfg = StrategyNone -> in_images x -> content w x <> None -> content w' x <> None \/ exists p, stage_thread s' = Some p /\ owes x p) /\
    ((exists p, stage_thread s = Some p /\ owes x p) -> content w' x <> None \/ exists p, stage_thread s' = Some p /\ owes x p).
  Proof.
    intros s w ev s' w' x TI A.
    assert (X : exists p p', stage_thread s = Some p /\ stage_thread s' = Some p' /\ action ccfg efuel p w ev p' w') by (destruct A; cbn [stage_thread]; eexists; eexists; (split; [reflexivity|split; [reflexivity|eassumption]])).
    destruct X as (p & p' & E & E' & X). pose proof (TI p E) as C. rewrite E'. split.
    { intros q Q. rewrite E' in Q. injection Q as <-. eapply careful_action; eauto. }
    split.
    - intros ST I CX. destruct (picture_action _ _ CM _ _ _ _ _ _ _ _ ST C X I CX); eauto.
    - intros (q & Q & O). rewrite E in Q. injection Q as <-. destruct (owes_action _ _ CM _ _ _ _ _ _ _ _ C X O); eauto.
  Qed.

  (** Every stage begins with a job *)
  Lemma next_stage_ok : forall J H net w a s s', (forall p, s = Loading p -> In a articles) -> jobs_ok J -> stage_ok J H net w a s -> next_stage ext fuel wiki cfg folder suffix generate a s s' ->
    exists j, own_job j /\ stage_ok (j :: J) H net w a s'.
  Proof.
    intros J G net w a s s' A JO H N.
    assert (LO : forall j, own_job j -> (forall f n c, j <> Result f n c) -> loose (program ext fuel j) (j :: J) net).
    { intros j X NR. split; [|apply avoids_program; auto]. exists j. apply okt_program; [left; reflexivity|]. intros f n c E. destruct (NR f n c E). }
    assert (LD : forall j r, loose (TRet (Ok r)) (j :: J) net) by (intros j r; split; [exists (GetImages wiki []); exact I|exact I]).
    destruct N as [title x|x h q Q|x h q y|x h c t T|c t r|c t l converter f|c t l f svg png|c t l output chunks O E]; cbn [stage_ok] in *.
    - exists (GetImages wiki []). split; [constructor|]. split; [|intros q y []]. destruct H as (O & _). cbn [okt good] in O. eapply SAID; eauto.
    - exists (GetTemplate wiki q). split; [constructor|]. split; auto. split; [|apply avoids_program; auto; discriminate]. apply okt_program; [left; reflexivity|discriminate].
    - exists (GetImages wiki []). split; [constructor|]. destruct H as ((D & L) & O & _). split; auto. intros q' y' [X|X]; [injection X as <- <-|auto].
      cbn [okt good] in O. eapply template_answered; eauto.
    - exists (GetImages wiki (images t)). split; [constructor|]. destruct H as (D & L). split; [|split; [apply LO; [constructor|discriminate]|]].
      + exists x, (replies h). split; auto. split; [|exact T]. intros b q y Y. apply L. eapply replies_in; eauto.
      + cbn [program]. unfold t_map. assert (HN : wikipediaImageArticleHosts wiki = [] \/ wikipediaImageArticleHosts wiki <> []) by (destruct (wikipediaImageArticleHosts wiki); [left; reflexivity|right; discriminate]).
        destruct HN as [HN|HN]; [apply ends_any; intros G' [r| | |] _; cbn [gives]; auto; intros y (Y & _); contradiction|].
        eapply ends_ok; [apply ends_images; exact HN|]. intros r G' _ X. cbn [ends_with gives] in *. intros y (_ & image & n & I1 & I2 & ->). eauto.
    - exists (GetImages wiki []). split; [constructor|]. destruct H as (P & _ & W). cbn [ends_with gives] in W. split; auto. split; [intros f svg png []|]. split; auto. intros f svg png [].
    - exists (GetMath wiki converter f). split; [constructor|]. split; auto. split; [|split; [apply avoids_program; auto; discriminate|]].
      + exact (okt_program ext fuel (GetMath wiki converter f) (GetMath wiki converter f :: J) net (or_introl eq_refl) ltac:(discriminate)).
      + cbn [program]. unfold t_map. eapply ends_ok; [apply ends_math|]. intros (svg & png) G' _ X. cbn [ends_with gives fst snd] in *. intros svg' png' E. injection E as <- <-. exact X.
    - exists (GetImages wiki []). split; [constructor|]. destruct H as ((P & L & T1 & T2) & O & _ & W). split; auto. split.
      + intros f' svg' png' [X|X]; [injection X as <- <- <-|auto]. cbn [okt good] in O. eapply formula_answered; eauto.
      + split; auto. intros f' svg' png' [X|X]; [injection X as <- <- <-|eauto]. cbn [ends_with gives] in W. apply W. reflexivity.
    - exists (GetImages wiki []). split; [constructor|]. destruct H as ((x & sv & D & S & T) & L & TH). left. exists chunks. split; auto. rewrite E. exists x, sv, c, t, l. auto 10.
  Qed.

  Lemma next_stage_tidy : forall a s s', next_stage ext fuel wiki cfg folder suffix generate a s s' -> tidy s'.
  Proof.
    intros a s s' N p E. assert (SO : forall q : thread (res answer), Some q = Some p -> q = p) by (intros q Q; congruence).
    destruct N; cbn [stage_thread] in E; try discriminate E; apply SO in E; rewrite <- E; apply careful_program; try discriminate.
    intros f n c Q. injection Q as <- _ _. apply folder_ok; auto.
  Qed.

  Lemma next_stage_owes : forall a s s' x p, next_stage ext fuel wiki cfg folder suffix generate a s s' -> stage_thread s = Some p -> ~ owes x p.
  Proof. intros a s s' x p N E O. destruct N; cbn [stage_thread] in E; try discriminate; injection E as <-; unfold owes in O; cbn [ends_with gives] in O; destruct O. Qed.

  Theorem book_step_ok : forall s s', book_step ext ccfg efuel fuel wiki cfg articles WorkerThreads recreate cacheDir folder suffix generate s s' -> book_ok s -> book_ok s'.
  Proof.
    intros s s' S (TS & QS & J & H & JO & D & W & O & PD).
    destruct S as [a rest q ws out w net L|q ws out w net|i a rest c q ws out w net N|i a st st' rest c q ws out w net ev w' N A|i a st st' rest c q ws out w net N A|i a st r rest c q ws out w net N A|i rest ws out w net N];
      cbn [b_to_send b_closed b_queue b_workers b_outputs b_disk b_network] in *; unfold book_ok; cbn [b_to_send b_closed b_queue b_workers b_outputs b_disk b_network].
    - split; [|split; [|exists J, H; auto]].
      + intros x X. apply TS. right; auto.
      + intros x X. apply in_app_or in X as [X|[<-|[]]]; auto. apply TS. left; auto.
    - split; auto. split; auto. exists J, H. auto.
    - split; auto. split; [intros x X; apply QS; right; auto|]. exists (GetArticle wiki (article_host wiki) a :: J), H.
      assert (IJ : incl J (GetArticle wiki (article_host wiki) a :: J)) by apply incl_tl, incl_refl.
      split; [|split; [eapply disk_mono; eauto; apply incl_refl|split; [|split; auto]]].
      + intros j [<-|X]; [right; constructor|auto].
      + apply Forall_set; [eapply Forall_impl; [|exact W]; intros b X; eapply worker_mono; eauto; apply keeps_refl|].
        cbn [worker_ok]. split; [apply QS; left; reflexivity|]. unfold first_stage. destruct (recreate w a); cbn [stage_ok]; [|split; [auto|discriminate]]. split.
        * split; [|apply avoids_program; auto; discriminate]. apply okt_program; [left; reflexivity|discriminate].
        * intros p E. assert (SO : forall z : thread (res answer), Some z = Some p -> z = p) by (intros z Z; congruence). apply SO in E. rewrite <- E. apply careful_program. discriminate.
      + intros ST x X I. destruct (PD ST x X I) as [Y|Y]; auto. right. eapply Exists_set; eauto. intros [].
    - pose proof (Forall_nth_error _ _ _ _ _ W N) as (AR & X & TI). destruct (stage_action_ok _ _ _ _ _ _ _ _ _ X TI D A) as (seen & SE & K & D' & X').
      split; auto. split; auto. exists J, (seen ++ H). split; auto. split; auto. split; [|split; [eapply outputs_mono; eauto|]].
      + apply Forall_set; [eapply Forall_impl; [|exact W]; intros b Y; eapply worker_mono; eauto; apply incl_refl|]. cbn [worker_ok]. split; auto. split; auto.
        apply (stage_action_paid _ _ _ _ _ [] TI A).
      + intros ST x Y I. destruct (stage_action_paid _ _ _ _ _ x TI A) as (_ & P1 & P2). apply in_app_or in Y as [Y|Y]; [left; auto|]. destruct (PD ST x Y I) as [Z|Z].
        * destruct (P1 ST I Z) as [V|V]; [auto|right]. eapply Exists_new; eauto.
        * destruct (Exists_set_or _ _ _ (Busy a st') _ N Z) as [V|V]; auto. cbn [worker_owes] in V. destruct (P2 V) as [B|B]; [auto|right]. eapply Exists_new; eauto.
    - split; auto. split; auto. pose proof (Forall_nth_error _ _ _ _ _ W N) as (AR & X & TI). destruct (next_stage_ok _ _ _ _ _ _ _ (fun _ _ => AR) JO X A) as (j & OJ & X').
      exists (j :: J), H. assert (IJ : incl J (j :: J)) by apply incl_tl, incl_refl. split; [intros j' [<-|Y]; auto|]. split; [eapply disk_mono; eauto; apply incl_refl|]. split; [|split; auto].
      + apply Forall_set; [eapply Forall_impl; [|exact W]; intros b Y; eapply worker_mono; eauto; apply keeps_refl|]. cbn [worker_ok]. split; auto. split; auto. eapply next_stage_tidy; eauto.
      + intros ST x Y I. destruct (PD ST x Y I) as [Z|Z]; auto. right. eapply Exists_set; eauto. intros (p & E & Q). destruct (next_stage_owes _ _ _ _ _ A E Q).
    - split; auto. split; auto. exists J, H. split; auto. split; auto. pose proof (Forall_nth_error _ _ _ _ _ W N) as (AR & X & TI). split; [apply Forall_set; auto; exact I|]. split.
      + intros k b f AB OF. destruct (Nat.eq_dec (articleNumber articles a) k) as [E|NE].
        * assert (L : k < List.length out).
          { assert (Y : nth_error (set_nth (articleNumber articles a) r out) k <> None) by congruence. apply nth_error_Some in Y. rewrite set_nth_length in Y. exact Y. }
          subst k. rewrite set_nth_same in OF by auto. injection OF as <-. destruct (articleNumber_spec articles a AR) as (Y & _). rewrite Y in AB. injection AB as <-.
          destruct A as [|r]; auto. right. split; auto. cbn [stage_ok] in X. destruct X as [(chunks & E & _)|(r' & E & C)]; [discriminate E|]. injection E as <-. eapply C; eauto.
        * rewrite set_nth_other in OF by auto. eauto.
      + intros ST x Y IX. destruct (PD ST x Y IX) as [Z|Z]; auto. right. eapply Exists_set; eauto. intros (p & E & Q). exfalso. destruct A; cbn [stage_thread] in E; [discriminate|]. injection E as <-. destruct Q.
    - split; auto. split; auto. exists J, H. split; auto. split; auto. split; [apply Forall_set; auto; exact I|]. split; auto.
      intros ST x Y IX. destruct (PD ST x Y IX) as [Z|Z]; auto. right. eapply Exists_set; eauto.
  Qed.

  Theorem book_runs_ok : forall w net s, disk_ok ext jobs0 net w ->
    book_runs ext ccfg efuel fuel wiki cfg articles WorkerThreads recreate cacheDir folder suffix generate w net s -> book_ok s.
  Proof.
    intros w net s D H. induction H as [|s s' H IH S]; [|eapply book_step_ok; eauto]. split; [apply incl_refl|]. split; [intros x []|]. exists jobs0, [].
    cbn [book_start b_network b_disk b_workers b_outputs]. split; [intros j X; auto|]. split; auto. split; [apply Forall_forall; intros b X; apply repeat_spec in X; subst; exact I|].
    split; [|intros ST x []]. intros k a f _ X. left. apply nth_error_In in X. apply repeat_spec in X. exact X.
  Qed.

  (** ** The pool *)

  Definition processed (a r : str) : Prop := r = output_file cacheDir folder suffix a \/ (r = [] /\ exists w, recreate w a = false).

  Definition pool_worker (b : book_worker) : worker := match b with Free => Waiting | Busy a _ => Working a | Gone => Ended end.
  Definition pool_of (s : book_state) : pool := mkPool (b_to_send s) (b_closed s) (b_queue s) (map pool_worker (b_workers s)) (b_outputs s).

  Definition skip_ok (b : book_worker) : Prop := match b with Busy a Skipped => exists w, recreate w a = false | _ => True end.

  Lemma map_set : forall A C (f : A -> C) l i x, map f (set_nth i x l) = set_nth i (f x) (map f l).
  Proof. intros A C f. induction l as [|y l IH]; intros [|i] x; cbn [set_nth map]; auto. rewrite IH. reflexivity. Qed.

  Lemma set_nth_id : forall A (l : list A) i x, nth_error l i = Some x -> set_nth i x l = l.
  Proof. intros A. induction l as [|y l IH]; intros [|i] x H; cbn [set_nth nth_error] in *; try discriminate; [congruence|rewrite IH; auto]. Qed.

  Lemma nsteps_last : forall A (R : A -> A -> Prop) n x y z, nsteps R n x y -> R y z -> nsteps R (S n) x z.
  Proof. intros A R n x y z H S. induction H as [s|n s s' s'' X H IH]; econstructor; eauto. constructor. Qed.

  Lemma book_pool : forall w net s, book_runs ext ccfg efuel fuel wiki cfg articles WorkerThreads recreate cacheDir folder suffix generate w net s ->
    Forall skip_ok (b_workers s) /\ exists n, nsteps (pool_step articles WorkerThreads processed) n (pool_start articles WorkerThreads) (pool_of s).
  Proof.
    intros w net s H. induction H as [|s s' H (SK & n & IH) S].
    - split; [apply Forall_forall; intros b X; apply repeat_spec in X; subst; exact I|]. exists 0. cbn [book_start]. unfold pool_of, pool_start. cbn. replace (map pool_worker (repeat Free WorkerThreads)) with (repeat Waiting WorkerThreads) by (clear; induction WorkerThreads; cbn; congruence). constructor.
    - destruct S as [a rest q ws out w1 net1 L|q ws out w1 net1|i a rest c q ws out w1 net1 N|i a st st' rest c q ws out w1 net1 ev w1' N A|i a st st' rest c q ws out w1 net1 N A|i a st r rest c q ws out w1 net1 N A|i rest ws out w1 net1 N];
        cbn [b_workers] in *; unfold pool_of in *; cbn [b_to_send b_closed b_queue b_workers b_outputs b_disk b_network] in *; rewrite ?map_set; cbn [pool_worker].
      + split; auto. exists (S n). eapply nsteps_last; [exact IH|]. constructor; auto.
      + split; auto. exists (S n). eapply nsteps_last; [exact IH|]. constructor; auto.
      + split.
        * apply Forall_set; auto. unfold first_stage. destruct (recreate w1 a) eqn:E; cbn [skip_ok]; eauto.
        * exists (S n). eapply nsteps_last; [exact IH|]. constructor; auto. rewrite nth_error_map, N. reflexivity.
      + split.
        * apply Forall_set; auto. destruct A; exact I.
        * exists n. rewrite set_nth_id; auto. rewrite nth_error_map, N. reflexivity.
      + split.
        * apply Forall_set; auto. destruct A; exact I.
        * exists n. rewrite set_nth_id; auto. rewrite nth_error_map, N. reflexivity.
      + pose proof (Forall_nth_error _ _ _ _ _ SK N) as X. split; [apply Forall_set; auto; exact I|].
        exists (S n). eapply nsteps_last; [exact IH|]. econstructor; [rewrite nth_error_map, N; reflexivity|]. destruct A; [right; auto|left; auto].
      + split; [apply Forall_set; auto; exact I|]. exists (S n). eapply nsteps_last; [exact IH|]. constructor. rewrite nth_error_map, N. reflexivity.
  Qed.

  Lemma book_outputs_said : forall w net s, 1 <= WorkerThreads -> NoDup articles -> disk_ok ext jobs0 net w ->
    book_runs ext ccfg efuel fuel wiki cfg articles WorkerThreads recreate cacheDir folder suffix generate w net s -> book_finished s ->
    exists H, (CacheEvictionStrategy ccfg = StrategyNone -> forall x, In x H -> in_images x -> content (b_disk s) x <> None) /\
    Forall2 (fun a f => (f = output_file cacheDir folder suffix a /\ chapter_ok H (b_network s) (b_disk s) a) \/ (f = [] /\ exists w, recreate w a = false)) articles (b_outputs s).
  Proof.
    intros w net s T ND D R (C & G). destruct (book_runs_ok _ _ _ D R) as (_ & _ & J & H & _ & _ & _ & O & PD). destruct (book_pool _ _ _ R) as (_ & n & P). exists H. split.
    { intros ST x X IX. destruct (PD ST x X IX) as [Z|Z]; auto. apply Exists_exists in Z as (b & B1 & B2). rewrite Forall_forall in G. rewrite <- (G b B1) in B2. destruct B2. }
    assert (PF : pool_finished (pool_of s)).
    { split; auto. cbn [pool_of PoolModel.workers]. rewrite Forall_forall in *. intros b X. apply in_map_iff in X as (y & <- & Y). rewrite <- (G y Y). reflexivity. }
    pose proof (C44_project_order_partial _ _ _ _ _ T ND P PF) as X. cbn [pool_of outputs] in X.
    assert (Y : forall k a f, nth_error articles k = Some a -> nth_error (b_outputs s) k = Some f -> f = [] \/ (f = output_file cacheDir folder suffix a /\ chapter_ok H (b_network s) (b_disk s) a)) by exact O.
    clear - F X Y. induction X as [|a f l l' [E|E] X IH]; constructor; auto.
    - left. split; auto. destruct (Y 0 a f eq_refl eq_refl) as [Z|(Z & Z2)]; auto. exfalso. rewrite E in Z. revert Z. apply output_file_nonempty. intros ->. cbn [In] in F. destruct F as [F'|[F'|[]]]; discriminate F'.
    - apply IH. intros k. apply (Y (S k)).
    - apply IH. intros k. apply (Y (S k)).
  Qed.

  (** ** One worker alone, which has got its text *)

  (** [J]: the jobs, [H]: the files that were seen *)
  Definition alone_ok (a : str) (s : stage) (w : world) (net : list net_event) : Prop :=
    exists J H, jobs_ok J /\ disk_ok ext J net w /\ stage_ok J H net w a s /\ tidy s /\ paid H w [Busy a s] /\ (forall p, s <> Loading p).

  Lemma alone_start : forall a x w net, disk_ok ext jobs0 net w -> said net a x -> alone_ok a (Parsing x []) w net.
  Proof.
    intros a x w net D X. exists jobs0, []. split; [intros j I; auto|]. split; [exact D|]. split; [split; [exact X|intros q y []]|]. split; [intros p E; discriminate|]. split; [intros ST y []|discriminate].
  Qed.

  Lemma alone_action : forall a s w net ev s' w', alone_ok a s w net -> stage_action ccfg efuel s w ev s' w' -> alone_ok a s' w' (net ++ ev).
  Proof.
    intros a s w net ev s' w' (J & H & JO & D & X & TI & PD & NL) A. destruct (stage_action_ok _ _ _ _ _ _ _ _ _ X TI D A) as (seen & SE & K & D' & X').
    exists J, (seen ++ H). split; [exact JO|]. split; [exact D'|]. split; [exact X'|]. split; [apply (stage_action_paid _ _ _ _ _ [] TI A)|]. split.
    - intros ST x Y I. destruct (stage_action_paid _ _ _ _ _ x TI A) as (_ & P1 & P2). apply in_app_or in Y as [Y|Y]; [left; auto|]. destruct (PD ST x Y I) as [Z|Z].
      + destruct (P1 ST I Z) as [V|V]; [auto|right]. apply Exists_cons_hd. exact V.
      + inversion Z as [? ? V|? ? V]; subst; [|inversion V]. destruct (P2 V) as [B|B]; [auto|right]. apply Exists_cons_hd. exact B.
    - intros p E. subst s'. inversion A; subst. eapply NL; reflexivity.
  Qed.

  Lemma alone_next : forall a s s' w net, alone_ok a s w net -> next_stage ext fuel wiki cfg folder suffix generate a s s' -> alone_ok a s' w net.
  Proof.
    intros a s s' w net (J & H & JO & D & X & TI & PD & NL) A. destruct (next_stage_ok J H net w a s s') as (j & OJ & X'); auto; [intros p E; destruct (NL p E)|].
    exists (j :: J), H. split; [intros j' [<-|Y]; auto|]. split; [eapply disk_mono; eauto; [apply incl_tl, incl_refl|apply incl_refl]|]. split; [exact X'|]. split; [eapply next_stage_tidy; eauto|]. split.
    - intros ST x Y I. destruct (PD ST x Y I) as [Z|Z]; auto. inversion Z as [? ? V|? ? V]; subst; [|inversion V]. cbn [worker_owes] in V. destruct V as (p & E & Q). destruct (next_stage_owes _ _ _ _ _ A E Q).
    - intros p E. subst s'. inversion A.
  Qed.

  Lemma alone_end : forall a r w net, alone_ok a (Writing (TRet (Ok r))) w net ->
    exists H, (CacheEvictionStrategy ccfg = StrategyNone -> forall x, In x H -> in_images x -> content w x <> None) /\ chapter_ok H net w a.
  Proof.
    intros a r w net (J & H & JO & D & X & TI & PD & NL). exists H. split.
    - intros ST x I IX. destruct (PD ST x I IX) as [Z|Z]; auto. inversion Z as [? ? V|? ? V]; subst; [|inversion V]. cbn [worker_owes] in V. destruct V as (p & E & Q). cbn [stage_thread] in E. injection E as <-. destruct Q.
    - cbn [stage_ok] in X. destruct X as [(chunks & E & _)|(r' & E & C)]; [discriminate E|]. injection E as <-. eapply C; eauto.
  Qed.
End Book.

(** The texts of the articles of a book are those that were delivered by the own host. *)
Lemma book_outputs : forall ext ccfg efuel fuel wiki cfg articles WorkerThreads recreate cacheDir folder suffix generate,
  In folder [!"html"; !"stats"] -> (0 <= CacheMaxAge ccfg)%Z -> forall jobs0,
  (forall a, In a articles -> only_here (article_host wiki) a jobs0 /\ has_prefix !"File:" a = false) ->
  forall w net s, 1 <= WorkerThreads -> NoDup articles -> disk_ok ext jobs0 net w ->
  book_runs ext ccfg efuel fuel wiki cfg articles WorkerThreads recreate cacheDir folder suffix generate w net s -> book_finished s ->
  exists H, (CacheEvictionStrategy ccfg = StrategyNone -> forall x, In x H -> in_images x -> content (b_disk s) x <> None) /\
    Forall2 (fun a f => (f = output_file cacheDir folder suffix a /\ chapter_ok ext ccfg wiki cfg folder suffix generate jobs0 (delivered ext (article_host wiki)) H (b_network s) (b_disk s) a) \/
      (f = [] /\ exists w, recreate w a = false)) articles (b_outputs s).
Proof.
  intros ext ccfg efuel fuel wiki cfg articles threads recreate cacheDir folder suffix generate F CM jobs0 HERE w net s T ND D R FI.
  eapply (book_outputs_said ext ccfg efuel fuel wiki cfg articles threads recreate cacheDir folder suffix generate F CM jobs0 (delivered ext (article_host wiki))); eauto.
  - intros n n' a x I X. eapply delivered_mono; eauto.
  - intros J n a t x A JO X. eapply article_delivered; eauto.
Qed.
