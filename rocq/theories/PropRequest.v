(** * C65: requests and the files stored for them; C66: processing of images *)

From Coq Require Import Ascii String.
From Coq Require Import List Arith NArith ZArith Bool Lia.
From Verif Require Import GoStr GoStrFacts UtilModel CacheModel CacheSpec CacheProofs CacheProofs2 HttpModel HttpSpec HttpProofs HtmlModel ServiceSpec ImageSpec RequestSpec RequestProofs
  ImageProcessProofs PropCache PropHttp PropImages.
Import ListNotations.
Local Open Scope list_scope.

(** ** C65 *)

(** Every request of a download of an article is a request to the given host for exactly this title, whatever characters it contains, and the only file that is written is
    the one of this title, with a complete answer to such a request. *)
Theorem C65_article : forall ext cfg efuel fuel host title w tr r w',
  library ext -> (0 <= CacheMaxAge cfg)%Z ->
  tends true (DownloadArticle ext cfg efuel fuel host title) w tr r w' ->
  every_request (asks_article host title) tr /\
  only_written (fun p d => p = cache_path !"articles" (underscores title ++ !".json") /\ delivered_for (asks_article host title) tr d) w w'.
Proof.
  intros ext cfg efuel fuel host title w tr r w' (L & _) A H. split; [|eapply article_written; eauto]. eapply asks_tsteps; [|exact H]. apply article_asks. exact L.
Qed.
Print Assumptions C65_article.

(** The same for templates: the server of the configured wiki is asked to expand exactly this wikitext. *)
Theorem C65_template : forall ext cfg wiki efuel fuel template file w tr r w',
  library ext -> (0 <= CacheMaxAge cfg)%Z ->
  tends true (EvaluateTemplate ext cfg wiki efuel fuel template file) w tr r w' ->
  let asks := asks_page (!"https://" ++ wikipediaInstance wiki ++ !"." ++ wikipediaHost wiki ++ !"/w/api.php")
    [(!"action", !"expandtemplates"); (!"format", !"json"); (!"prop", !"wikitext"); (!"text", template)] in
  every_request asks tr /\ only_written (fun p d => p = cache_path !"templates" file /\ delivered_for asks tr d) w w'.
Proof.
  intros ext cfg wiki efuel fuel template file w tr r w' (L & _) A H asks. split; [|eapply template_written; eauto]. eapply asks_tsteps; [|exact H]. apply template_asks. exact L.
Qed.
Print Assumptions C65_template.

(** Formulas: exactly this formula is sent to be checked.  The name in the answer, or the one cached for this formula, is the name in the addresses of its pictures, and the
    data stored as its SVG and PNG picture has been delivered from the address of the SVG and PNG picture. *)
Theorem C65_formula : forall ext cfg wiki efuel fuel converter formula w tr r w',
  library ext -> (0 <= CacheMaxAge cfg)%Z ->
  tends true (RenderMath ext cfg wiki efuel fuel converter formula) w tr r w' ->
  exists name, every_request (math_request wiki converter formula name) tr /\ only_written (math_file ext wiki converter formula name tr) w w' /\
    forall svg png, r = Ok (svg, png) ->
      (content w (cache_path !"math" (Hash ext formula)) = Some name \/
        exists q a, In (Asked q (Some a)) tr /\ posts_formula wiki formula q /\ successful a /\ a_location a = name) /\
      svg = cache_path !"images" (name ++ !".svg") /\ converter <> MathUnknown /\
      png = cache_path !"images" (name ++ match converter with MathNone => !".svg" | _ => !".png" end).
Proof.
  intros ext cfg wiki efuel fuel converter formula w tr r w' (L & _) A H. destruct (formula_written ext cfg wiki efuel fuel L A converter formula w tr r w' H) as (name & X & Y & Z). exists name. auto.
Qed.
Print Assumptions C65_formula.

(** Images: the host is asked for the article of the file.  The title in this article names the file, which is then asked for at its address. *)
Theorem C65_image : forall ext cfg wiki efuel fuel host image w tr r w',
  library ext -> (0 <= CacheMaxAge cfg)%Z -> In ":"%char image ->
  tends true (downloadImage ext cfg wiki efuel fuel host image) w tr r w' ->
  exists name, name_in_title image name /\
    every_request (fun q => asks_article host (!"File:" ++ name) q \/ asks_image ext wiki host (!"File:" ++ name) w tr q) tr /\
    only_written (image_written_file ext wiki host name w tr) w w' /\
    forall p fresh, r = Ok (p, fresh) -> p = cache_path !"images" (underscores name).
Proof.
  intros ext cfg wiki efuel fuel host image w tr r w' (L & M & D) A I H. destruct (image_written ext cfg wiki efuel fuel L A host image w tr r w' M D H) as [(_ & _ & N)|X]; [contradiction|exact X].
Qed.
Print Assumptions C65_image.

(** *** Examples *)

Definition real_ext : externals :=
  mkExternals query_escape (fun s => !"0f" ++ s) (fun s => !"1" ++ s) (fun s => existsb (Ascii.eqb ".") s) (fun s => Some s) (fun s => s) (fun s => Some s).
Lemma real_library : library real_ext.
Proof.
  split; [reflexivity|]. split; [intros s; cbn; lia|]. intros host H. cbn in H. apply existsb_exists in H as (c & I & E). apply Ascii.eqb_eq in E. subst. exact I.
Qed.

(** Titles and templates with the characters that separate fields *)
Example C65_example : exists tr w' tr2 w2 q q2,
  tends true (DownloadArticle real_ext cfg_none 3 3 !"en.wikipedia.org" !"A&B = 50% + C/D?") (mkWorld [] 0) tr (Ok (!"data", !"data")) w' /\
  tr = [Asked q (Some (ok_response !"data"))] /\
  q_url q = !"https://en.wikipedia.org/w/api.php?action=parse&prop=wikitext&redirects=true&format=json&page=A%26B_%3D_50%25_%2B_C%2FD%3F" /\
  asks_article !"en.wikipedia.org" !"A&B = 50% + C/D?" q /\
  tends true (EvaluateTemplate real_ext cfg_none (ex_wiki []) 3 3 !"{{a|b=c&d}}" !"key") (mkWorld [] 0) tr2 (Ok !"data") w2 /\
  tr2 = [Asked q2 (Some (ok_response !"data"))] /\
  q_url q2 = !"https://de.wikipedia.org/w/api.php?action=expandtemplates&format=json&prop=wikitext&text=%7B%7Ba%7Cb%3Dc%26d%7D%7D".
Proof.
  do 6 eexists. split; [apply (exec_all_tends (fun _ => Some (ok_response !"data"))); vm_compute; reflexivity|]. split; [reflexivity|]. split; [reflexivity|].
  split; [|split; [apply (exec_all_tends (fun _ => Some (ok_response !"data"))); vm_compute; reflexivity|split; reflexivity]].
  split; [reflexivity|]. eexists. split; [vm_compute; reflexivity|]. vm_compute. reflexivity.
Qed.

(** A formula: its pictures have the name in the answer. *)
Definition math_server : server := fun url =>
  if has_suffix !"/check/tex" url then Some (mkResponse 200 [] [] !"0a1b" [] true)
  else if has_prefix !"https://math.org/render/svg/" url then Some (ok_response !"<svg>") else Some (ok_response !"PNG").
Example C65_formula_example : exists tr w',
  tends true (RenderMath real_ext cfg_none (ex_wiki []) 3 3 MathWikimedia !"a+b") (mkWorld [] 0) tr (Ok ([!"images"; !"0a1b.svg"], [!"images"; !"0a1b.png"])) w' /\
  map (fun e => match e with Asked q _ => q_url q | Slept _ => [] end) tr = [!"https://math.org/check/tex"; !"https://math.org/render/svg/0a1b"; !"https://math.org/render/png/0a1b"] /\
  content w' [!"images"; !"0a1b.svg"] = Some !"<svg>" /\ content w' [!"images"; !"0a1b.png"] = Some !"PNG".
Proof.
  do 2 eexists. split; [apply (exec_all_tends math_server); vm_compute; reflexivity|]. repeat split; reflexivity.
Qed.

(** An image with another name in the title of its article *)
Definition renamed_server : server := fun url => if has_prefix !"https://commons." url then Some (ok_response !"File:New name.jpg") else Some (ok_response !"image").
Example C65_image_example : exists tr w',
  tends true (downloadImage real_ext cfg_none (ex_wiki []) 3 3 !"commons.wikimedia.org" !"Datei:Old name.jpg") (mkWorld [] 0) tr (Ok ([!"images"; !"Old_name.jpg"], true)) w' /\
  map (fun e => match e with Asked q _ => q_url q | Slept _ => [] end) tr =
    [!"https://commons.wikimedia.org/w/api.php?action=parse&prop=wikitext&redirects=true&format=json&page=File%3AOld_name.jpg";
     !"https://upload.org/wikipedia/commons/0/0f/New_name.jpg"] /\
  content w' [!"images"; !"Old_name.jpg"] = Some !"image".
Proof.
  do 2 eexists. split; [apply (exec_all_tends renamed_server); vm_compute; reflexivity|]. repeat split; reflexivity.
Qed.

(** ** C66 *)

(** Processing an image changes no file but the one that is shown in the book, whatever fails. *)
Theorem C66_nothing_else : forall wiki file fresh w tr r w' shown q,
  tends true (postProcessImage wiki (cache_path !"images" file) fresh) w tr r w' -> image_file wiki file shown -> q <> shown ->
  lookup q (files w') = lookup q (files w).
Proof. exact process_other. Qed.
Print Assumptions C66_nothing_else.

(** Full claim: the image in the book is the downloaded one, converted if its format requires this, and processed if configured.  Proved is what is done with the image:
    - an image that needs no conversion is processed exactly if it has just been downloaded, images are to be processed, and it is neither SVG nor PDF;
    - an image that needs conversion is converted, and then processed if configured, unless the converted file exists already.
    The missing part is false: see C66_stale_conversion_refuted and C66_failed_processing_refuted. *)
Theorem C66_processed_partial : forall wiki file fresh w tr w' shown,
  tends true (postProcessImage wiki (cache_path !"images" file) fresh) w tr (Ok tt) w' -> image_file wiki file shown ->
  (~ converted wiki file /\ fresh = true /\ ProcessImages wiki = true /\ ~ vector file /\ process_step shown w w') \/
  (~ converted wiki file /\ (fresh = false \/ ProcessImages wiki = false \/ vector file) /\ files w' = files w) \/
  (converted wiki file /\ exists w1 new,
    ((new = true /\ convert_step (cache_path !"images" file) shown w w1) \/ (new = fresh /\ content w shown <> None /\ files w1 = files w)) /\
    (if new && ProcessImages wiki then process_step shown w1 w' else files w' = files w1)).
Proof. exact process_steps. Qed.
Print Assumptions C66_processed_partial.

(** A download that needs no request changes no file, apart from conversions: images in the cache are not processed again. *)
Theorem C66_cached_unchanged : forall ext cfg wiki efuel fuel image w w',
  library ext -> (0 <= CacheMaxAge cfg)%Z -> SvgSizeToViewbox wiki = false ->
  (forall name, name_in_title image name -> ~ converted wiki (underscores name)) ->
  tends true (downloadImageUsingAllSources ext cfg wiki efuel fuel image) w [] (Ok tt) w' ->
  forall p, in_tmp p = false -> content w' p = content w p \/ content w' p = None.
Proof.
  intros ext cfg wiki efuel fuel image w w' L A V N H p T. destruct (cached_unchanged ext cfg wiki efuel fuel L A V image w w' H N p T) as [X|[X|(d & _ & [])]]; auto.
Qed.
Print Assumptions C66_cached_unchanged.

(** Executions in which the processing of images has the given result and leaves the given data *)
Definition answer_process (s : server) (ok : bool) (data : str) (w : world) (c : syscall) : option (reply c * world) :=
  match c return option (reply c * world) with
  | SRewrite q => Some (ok, mkWorld (update q (fun f => mkFile (f_path f) data (clock w)) (files w)) (clock w))
  | c => answer_all s w c
  end.
Fixpoint exec_process {A} (s : server) (ok : bool) (data : str) (p : prog A) (w : world) : option (A * list net_event * world) :=
  match p with
  | Ret a => Some (a, [], w)
  | Call c k =>
    match answer_process s ok data w c with
    | Some (r, w') =>
      match exec_process s ok data (k r) w' with
      | Some (a, tr, w'') => Some (a, event_of c r ++ tr, w'')
      | None => None
      end
    | None => None
    end
  end.
Lemma exec_process_tends : forall {A} s ok data (p : prog A) w r tr w', exec_process s ok data p w = Some (r, tr, w') -> tends true p w tr r w'.
Proof.
  intros A s ok data p. induction p as [a|c k IH]; intros w r tr w' H; cbn [exec_process] in H.
  - inversion H; subst. constructor.
  - destruct (answer_process s ok data w c) as [[x w1]|] eqn:E; [|discriminate]. destruct (exec_process s ok data (k x) w1) as [[[a t] w2]|] eqn:E2; [|discriminate]. inversion H; subst.
    econstructor; [|apply IH; eauto]. assert (K : forall y v, answer_all s w c = Some (y, v) -> sys_step true w c y v).
    { intros y v X. assert (Y : exec_all s (Call c (fun r => Ret r)) w = Some (y, event_of c y, v)) by (cbn [exec_all]; rewrite X; cbn; rewrite app_nil_r; auto).
      apply exec_all_tends in Y. apply tends_call in Y as (r' & v' & tr' & St & Y & _). apply tends_ret in Y as (-> & _ & ->). auto. }
    destruct c; try (apply K; exact E). injection E as <- <-. unfold sys_step. split; [apply Z.le_refl|]. right; eexists. reflexivity.
Qed.

(** A conversion is never renewed.  The SVG image is downloaded again after its file has become too old.  It has another content then, but the picture in the book is still the
    conversion of the old one. *)
Definition svg_server (content : str) : server := fun url => if has_prefix !"https://one.org" url then Some (ok_response !"File:a.svg") else Some (ok_response content).
Definition wiki_svg : wiki_config := image_wiki [!"one.org"].
Definition hour : Z := (60 * ns_per_minute)%Z.
Theorem C66_stale_conversion_refuted : exists tr w1 tr2 w2 q,
  tends true (downloadImageUsingAllSources real_ext cfg_largest wiki_svg 9 3 !"File:a.svg") (mkWorld [] 0) tr (Ok tt) w1 /\
  content w1 [!"images"; !"a.svg"] = Some !"old" /\ image_file wiki_svg !"a.svg" [!"images"; !"a.svg.png"] /\ content w1 [!"images"; !"a.svg.png"] <> None /\
  tends true (downloadImageUsingAllSources real_ext cfg_largest wiki_svg 9 3 !"File:a.svg") (mkWorld (files w1) hour) tr2 (Ok tt) w2 /\
  In (Asked q (Some (ok_response !"new"))) tr2 /\ content w2 [!"images"; !"a.svg"] = Some !"new" /\
  lookup [!"images"; !"a.svg.png"] (files w2) = lookup [!"images"; !"a.svg.png"] (files w1).
Proof.
  do 5 eexists. split; [apply (exec_all_tends (svg_server !"old")); vm_compute; reflexivity|]. split; [reflexivity|]. split; [|split; [discriminate|]].
  - right. split; [|vm_compute; reflexivity]. right. left. split; [vm_compute; reflexivity|]. exists !"a". reflexivity.
  - split; [apply (exec_all_tends (svg_server !"new")); vm_compute; reflexivity|]. split; [right; left; reflexivity|]. split; reflexivity.
Qed.
Print Assumptions C66_stale_conversion_refuted.

(** An image whose processing has failed is never processed: the next run finds the unprocessed image in the cache, and succeeds. *)
Definition wiki_process : wiki_config := mkWikiConfig !"de" !"wikipedia.org" [!"one.org"] !"upload.org" !"https://math.org" false false false false true.
Definition jpg_server : server := fun url => if has_prefix !"https://one.org" url then Some (ok_response !"File:a.jpg") else Some (ok_response !"raw").
Theorem C66_failed_processing_refuted :
  ProcessImages wiki_process = true /\ image_file wiki_process !"a.jpg" [!"images"; !"a.jpg"] /\
  exists tr w1 w2,
    tends true (downloadImageUsingAllSources real_ext cfg_none wiki_process 9 3 !"File:a.jpg") (mkWorld [] 0) tr Err w1 /\
    content w1 [!"images"; !"a.jpg"] = Some !"raw" /\
    tends true (downloadImageUsingAllSources real_ext cfg_none wiki_process 9 3 !"File:a.jpg") w1 [] (Ok tt) w2 /\
    content w2 [!"images"; !"a.jpg"] = Some !"raw".
Proof.
  split; [reflexivity|]. split.
  - left. split; [|reflexivity]. intros C. apply (ImageFileProofs.is_converted_spec wiki_process) in C. discriminate.
  - do 3 eexists. split; [apply (exec_process_tends jpg_server false !"raw"); vm_compute; reflexivity|]. split; [reflexivity|].
    split; [apply (exec_process_tends jpg_server true !"small"); vm_compute; reflexivity|]. reflexivity.
Qed.
Print Assumptions C66_failed_processing_refuted.

(** Processing as configured *)
Example C66_example : exists tr w1 tr2 w2,
  tends true (downloadImageUsingAllSources real_ext cfg_none wiki_process 9 3 !"File:a.jpg") (mkWorld [] 0) tr (Ok tt) w1 /\ content w1 [!"images"; !"a.jpg"] = Some !"small" /\
  tends true (postProcessImage wiki_process (cache_path !"images" !"a.jpg") true) (mkWorld [mkFile [!"images"; !"a.jpg"] !"raw" 0] 0) tr2 (Ok tt) w2 /\
  content w2 [!"images"; !"a.jpg"] = Some !"small" /\
  (forall name, name_in_title !"File:a.jpg" name -> ~ converted wiki_process (underscores name)).
Proof.
  do 4 eexists. split; [apply (exec_process_tends jpg_server true !"small"); vm_compute; reflexivity|]. split; [reflexivity|].
  split; [apply (exec_process_tends jpg_server true !"small"); vm_compute; reflexivity|]. split; [reflexivity|].
  intros name _ [(C & _)|[(C & _)|(C & _)]]; discriminate C.
Qed.
