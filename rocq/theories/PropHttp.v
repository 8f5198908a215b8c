(** * C40-C43: downloads *)

From Coq Require Import Ascii String.
From Coq Require Import List Arith ZArith Bool Lia.
From Verif Require Import GoStr UtilModel CacheModel CacheSpec CacheProofs CacheProofs2 HttpModel HttpSpec HttpProofs PropCache.
Import ListNotations.
Local Open Scope list_scope.

Local Ltac now_step := unfold sys_step; split; [reflexivity|];
  first [apply Z.le_refl | split; [apply Z.le_refl|]; first [intros _; reflexivity | intros X; exfalso; apply X; reflexivity]].

(** Example servers *)
Definition ok_response (body : str) : response := mkResponse 200 [] [] [] [body] true.
Definition cfg_none : cache_config := mkCacheConfig StrategyNone 100 10.

(** ** C41 *)

(** Every finished GET request: some number of throttled attempts, each followed by waiting for the announced time (2
    seconds if it is not announced as a number), and then one more attempt, whose answer decides about the result.
    Every answer and failure of the network is possible. *)
Theorem C41_throttled_get_retried : forall fuel url w tr r w',
  tends true (download fuel url) w tr r w' ->
  decided fuel (get_request url) r tr /\ files w' = files w.
Proof. exact download_decided. Qed.
Print Assumptions C41_throttled_get_retried.
Example C41_example : exists w',
  tends true (download 5 !"https://example.org") (mkWorld [] 0)
    [Asked (get_request !"https://example.org") (Some (mkResponse 429 !"17" [] [] [] true)); Slept 17;
     Asked (get_request !"https://example.org") (Some (mkResponse 429 !"soon" [] [] [] true)); Slept 2;
     Asked (get_request !"https://example.org") (Some (ok_response !"data"))]
    (Ok (ok_response !"data")) w'.
Proof.
  exists (mkWorld [] 0). unfold tends, download. cbn [doRequest].
  apply (tsteps_call true (SDo (get_request !"https://example.org")) _ (mkWorld [] 0) (Some (mkResponse 429 !"17" [] [] [] true)) (mkWorld [] 0)); [now_step|].
  apply (tsteps_call true (SSleep 17) _ (mkWorld [] 0) tt (mkWorld [] 0)); [now_step|].
  apply (tsteps_call true (SDo (get_request !"https://example.org")) _ (mkWorld [] 0) (Some (mkResponse 429 !"soon" [] [] [] true)) (mkWorld [] 0)); [now_step|].
  apply (tsteps_call true (SSleep 2) _ (mkWorld [] 0) tt (mkWorld [] 0)); [now_step|].
  apply (tsteps_call true (SDo (get_request !"https://example.org")) _ (mkWorld [] 0) (Some (ok_response !"data")) (mkWorld [] 0)); [now_step|].
  constructor.
Qed.

(** The claim is false for POST requests: after a throttled attempt the data has already been read, so that the request
    cannot be repeated and always ends with an error, whatever the server would answer. *)
Theorem C41_throttled_post_refuted : forall fuel url data w a tr r w',
  data <> [] -> throttled a ->
  tends true (PostFormEncoded (2 + fuel) url data) w (Asked (post_request url data) (Some a) :: tr) r w' ->
  r = Err.
Proof. exact post_throttled. Qed.
Print Assumptions C41_throttled_post_refuted.
Example C41_post_example : exists w',
  tends true (PostFormEncoded 5 !"https://example.org" !"q=1") (mkWorld [] 0)
    [Asked (post_request !"https://example.org" !"q=1") (Some (mkResponse 429 !"17" [] [] [] true)); Slept 17;
     Asked (mkRequest true !"https://example.org" !"q=1" []) None] Err w'.
Proof.
  exists (mkWorld [] 0). unfold tends, PostFormEncoded. cbn [doRequest].
  apply (tsteps_call true (SDo (post_request !"https://example.org" !"q=1")) _ (mkWorld [] 0) (Some (mkResponse 429 !"17" [] [] [] true)) (mkWorld [] 0)); [now_step|].
  apply (tsteps_call true (SSleep 17) _ (mkWorld [] 0) tt (mkWorld [] 0)); [now_step|].
  apply (tsteps_call true (SDo (mkRequest true !"https://example.org" !"q=1" [])) _ (mkWorld [] 0) None (mkWorld [] 0)); [now_step|].
  constructor.
Qed.

(** What does hold for POST requests: the first answer decides if it is not a throttling answer.  Missing for the full
    claim: the repetition. *)
Theorem C41_post_partial : forall fuel url data w tr r w',
  data <> [] ->
  tends true (PostFormEncoded (S fuel) url data) w tr r w' ->
  exists a tr', tr = Asked (post_request url data) a :: tr' /\
    ((forall b, a = Some b -> ~ throttled b) -> decided 1 (post_request url data) r tr).
Proof. exact post_first. Qed.
Print Assumptions C41_post_partial.

(** ** C42 *)

(** A cached file that is not outdated at the end of the call is used without any request. *)
Theorem C42_cached_file_not_requested : forall cfg efuel fuel url folder name w f tr r w',
  (0 <= CacheMaxAge cfg)%Z -> In folder cache_folders ->
  lookup (cache_path folder name) (files w) = Some f ->
  tends false (DownloadAndCache cfg efuel fuel url folder name) w tr r w' ->
  ~ outdated cfg f (clock w') ->
  r = Ok (cache_path folder name, false) /\ tr = [].
Proof. exact DownloadAndCache_cached. Qed.
Print Assumptions C42_cached_file_not_requested.

(** Without request the result is an existing file that is not outdated, even if system calls fail. *)
Theorem C42_without_request : forall cfg efuel fuel url folder name w tr p w',
  (0 <= CacheMaxAge cfg)%Z -> In folder cache_folders ->
  tends true (DownloadAndCache cfg efuel fuel url folder name) w tr (Ok (p, false)) w' ->
  p = cache_path folder name /\ tr = [] /\
  exists f now, lookup p (files w) = Some f /\ (clock w <= now <= clock w')%Z /\ ~ outdated cfg f now /\
    content w' p = Some (f_data f).
Proof. exact DownloadAndCache_hit. Qed.
Print Assumptions C42_without_request.

(** After a successful download the file is the body of the last answer. *)
Theorem C42_downloaded_content : forall cfg efuel fuel url folder name w tr p w',
  (0 <= CacheMaxAge cfg)%Z -> In folder cache_folders ->
  tends true (DownloadAndCache cfg efuel fuel url folder name) w tr (Ok (p, true)) w' ->
  p = cache_path folder name /\ exists d, delivered (get_request url) tr d /\ content w' p = Some d.
Proof. exact DownloadAndCache_fresh. Qed.
Print Assumptions C42_downloaded_content.

(** As long as there is no successful answer, no other file changes, and the file itself can only disappear (because it
    was outdated).  This holds in every state of the execution, even if system calls fail. *)
Theorem C42_failure_not_cached : forall cfg efuel fuel url folder name w tr rest w',
  (0 <= CacheMaxAge cfg)%Z -> In folder cache_folders ->
  tsteps true (DownloadAndCache cfg efuel fuel url folder name) w tr rest w' ->
  (forall q a, In (Asked q (Some a)) tr -> ~ successful a) ->
  (forall p, p <> cache_path folder name -> lookup p (files w') = lookup p (files w)) /\
  (content w' (cache_path folder name) = content w (cache_path folder name) \/
   content w' (cache_path folder name) = None).
Proof. exact DownloadAndCache_failed. Qed.
Print Assumptions C42_failure_not_cached.

(** In every state, even if system calls fail: every cached file has its old content, or it is the target and consists of
    the completely delivered body. *)
Theorem C42_only_delivered_bodies : forall cfg efuel fuel url folder name w tr rest w',
  (0 <= CacheMaxAge cfg)%Z -> In folder cache_folders ->
  tsteps true (DownloadAndCache cfg efuel fuel url folder name) w tr rest w' ->
  forall p, in_tmp p = false ->
    content w' p = content w p \/
    content w' p = None \/
    (p = cache_path folder name /\ exists d, delivered (get_request url) tr d /\ content w' p = Some d).
Proof. exact DownloadAndCache_any_state. Qed.
Print Assumptions C42_only_delivered_bodies.

Definition ex_server : server := fun url => if str_eqb url !"https://e.org/a" then Some (ok_response (bytes 5)) else None.
Example C42_example :
  (exists w', tends false (DownloadAndCache cfg_lru 3 3 !"https://e.org/a" !"articles" !"a.json") ex_w1
     [Asked (get_request !"https://e.org/a") (Some (ok_response (bytes 5)))]
     (Ok (cache_path !"articles" !"a.json", true)) w' /\
     content w' (cache_path !"articles" !"a.json") = Some (bytes 5)) /\
  (exists w', tends false (DownloadAndCache cfg_lru 3 3 !"https://e.org/a" !"images" !"a.jpg") ex_w1 []
     (Ok (cache_path !"images" !"a.jpg", false)) w').
Proof.
  split; eexists.
  - split; [apply (exec_net_tends ex_server); vm_compute; reflexivity|reflexivity].
  - apply (exec_net_tends ex_server); vm_compute; reflexivity.
Qed.

(** ** C40 *)

(** Full claim: the returned file can be read afterwards although other workers use the cache.  It is false if an
    eviction strategy is configured: a write by another worker between the download and the reading evicts the
    file. *)
Theorem C40_downloaded_file_readable_refuted : exists cfg w tr p w1 ops w2,
  CacheEvictionStrategy cfg = StrategyLargest /\ wf w /\
  tends false (DownloadAndCache cfg 3 3 !"https://e.org/a" !"articles" !"a.json") w tr (Ok (p, true)) w1 /\
  content w1 p <> None /\
  history cfg w1 ops w2 /\ ops = [OpPut !"articles" !"b.json" [bytes 30] true 3] /\
  content w2 p = None.
Proof.
  exists cfg_largest, (mkWorld [] 0). do 2 eexists. eexists.
  exists [OpPut !"articles" !"b.json" [bytes 30] true 3]. eexists.
  split; [reflexivity|]. split; [constructor|].
  split; [apply (exec_net_tends (fun _ => Some (ok_response (bytes 45)))); vm_compute; reflexivity|].
  split; [vm_compute; discriminate|]. split.
  { eapply hist_put; [apply hist_start|vm_compute; auto 8|]. apply steps_faulty, exec_ends. vm_compute. reflexivity. }
  split; [reflexivity|]. vm_compute. reflexivity.
Qed.
Print Assumptions C40_downloaded_file_readable_refuted.

(** What does hold: without eviction strategy a cached file stays there during all writes and all lookups of other files
    by other workers (cache operations exclude each other by a mutex, so that they form a history), with complete
    content.  Missing for the full claim: eviction strategies, and lookups of the same file, which may remove it if it
    gets outdated. *)
Theorem C40_downloaded_file_readable_partial : forall cfg w0 ops w p d,
  (0 <= CacheMaxAge cfg)%Z -> CacheEvictionStrategy cfg = StrategyNone ->
  history cfg w0 ops w -> in_tmp p = false -> content w0 p = Some d ->
  (forall folder name, In (OpGet folder name) ops -> cache_path folder name <> p) ->
  content w p = Some d \/
  exists folder name chunks fuel, In (OpPut folder name chunks true fuel) ops /\ p = cache_path folder name /\
    content w p = Some (all_data chunks).
Proof. exact history_keeps. Qed.
Print Assumptions C40_downloaded_file_readable_partial.
Example C40_example : exists w',
  history cfg_none ex_w1 [OpPut !"images" !"b.jpg" [bytes 40] true 5; OpPut !"articles" !"a.jpg" [bytes 400] true 5] w' /\
  content w' (cache_path !"images" !"a.jpg") = Some (bytes 30) /\
  content w' (cache_path !"images" !"b.jpg") = Some (bytes 40).
Proof.
  eexists. split.
  - eapply hist_put; [eapply hist_put; [apply hist_start|vm_compute; auto 8|]|vm_compute; auto 8|];
      apply steps_faulty, exec_ends; vm_compute; reflexivity.
  - vm_compute. auto.
Qed.

(** ** C43 *)

(** Hosts are asked in the configured order, up to the first one that delivers the image; the rest of the work does not
    use the network.  If no host delivers the image, the result is an error - unless no host is configured. *)
Theorem C43_sources_in_order : forall ext cfg wiki efuel fuel faulty image w tr r w',
  tends faulty (downloadImageUsingAllSources ext cfg wiki efuel fuel image) w tr r w' ->
  r = Ok tt \/ r = Err ->
  exists delivered w1,
    asked_in_order faulty (fun host => downloadImage ext cfg wiki efuel fuel host image)
      (wikipediaImageArticleHosts wiki) w tr delivered w1 /\
    match delivered with
    | Some (p, fresh) => tends faulty (postProcessImage wiki p fresh) w1 [] r w'
    | None => w' = w1 /\ (r = Err <-> wikipediaImageArticleHosts wiki <> [])
    end.
Proof. exact downloadImageUsingAllSources_order. Qed.
Print Assumptions C43_sources_in_order.

(** An attempt with one host only sends requests to this host and the image host. *)
Theorem C43_requests_of_one_source : forall ext cfg wiki efuel fuel faulty host image w tr r w',
  tends faulty (downloadImage ext cfg wiki efuel fuel host image) w tr r w' ->
  Forall (fun url => starts_with (!"https://" ++ host ++ !"/w/api.php?") url \/
                     starts_with (!"https://" ++ wikipediaImageHost wiki ++ !"/wikipedia/") url) (requested tr).
Proof. exact downloadImage_requested. Qed.
Print Assumptions C43_requests_of_one_source.

Definition ex_ext : externals := mkExternals (fun s => s) (fun s => s) (fun s => s) (fun _ => false) (fun s => Some s) (fun s => s) (fun s => Some s).
Definition ex_wiki (hosts : list str) : wiki_config :=
  mkWikiConfig !"de" !"wikipedia.org" hosts !"upload.org" !"https://math.org" false false false false false.

(** Image X is described on both hosts, but only the second one knows its real name *)
Definition ex_images : server := fun url =>
  if str_eqb url (article_url ex_ext !"one.org" !"File:X") then Some (ok_response !"File:Y")
  else if str_eqb url (article_url ex_ext !"two.org" !"File:X") then Some (ok_response !"File:X")
  else if str_eqb url (image_url ex_ext (ex_wiki []) !"two.org" !"X") then Some (ok_response !"image")
  else Some (mkResponse 404 [] [] [] [] true).

(** Full claim: an error is reported exactly when no host delivers the image.  It is false: the article about the image
    is cached under a name without host, so that the answer of the first host is used for the second one, too. *)
Theorem C43_error_iff_not_delivered_refuted : exists ext cfg wiki w image tr w' tr2 p fresh w2,
  wikipediaImageArticleHosts wiki = [!"one.org"; !"two.org"] /\ files w = [] /\
  tends false (downloadImageUsingAllSources ext cfg wiki 3 3 image) w tr Err w' /\ answered_by ex_images tr /\
  tends false (downloadImage ext cfg wiki 3 3 !"two.org" image) w tr2 (Ok (p, fresh)) w2 /\ answered_by ex_images tr2 /\
  content w2 p = Some !"image".
Proof.
  exists ex_ext, cfg_none, (ex_wiki [!"one.org"; !"two.org"]), (mkWorld [] 0), !"File:X".
  do 2 eexists. do 4 eexists. split; [reflexivity|]. split; [reflexivity|].
  split; [apply (exec_net_tends ex_images); vm_compute; reflexivity|].
  split; [repeat (constructor; [vm_compute; auto|]); constructor|].
  split; [apply (exec_net_tends ex_images); vm_compute; reflexivity|].
  split; [repeat (constructor; [vm_compute; auto|]); constructor|]. reflexivity.
Qed.
Print Assumptions C43_error_iff_not_delivered_refuted.

(** ... and without any host, success is reported although nothing is downloaded. *)
Theorem C43_no_host_refuted : forall ext cfg wiki efuel fuel image w,
  wikipediaImageArticleHosts wiki = [] ->
  tends false (downloadImageUsingAllSources ext cfg wiki efuel fuel image) w [] (Ok tt) w.
Proof. exact no_host_no_error. Qed.
Print Assumptions C43_no_host_refuted.

Example C43_example : exists w' tr p,
  tends false (downloadImageUsingAllSources ex_ext cfg_none (ex_wiki [!"three.org"; !"two.org"]) 3 3 !"File:X") (mkWorld [] 0) tr (Ok tt) w' /\
  requested tr = [article_url ex_ext !"three.org" !"File:X"; article_url ex_ext !"two.org" !"File:X";
                  image_url ex_ext (ex_wiki []) !"two.org" !"X"] /\
  content w' p = Some !"image".
Proof.
  do 2 eexists. exists (cache_path !"images" !"X").
  split; [apply (exec_net_tends ex_images); vm_compute; reflexivity|]. split; reflexivity.
Qed.
