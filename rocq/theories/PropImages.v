(** * C32: references to images; C30: the shape of tokens *)

From Coq Require Import Ascii String.
From Coq Require Import List Arith NArith ZArith Bool Lia.
From Verif Require Import GoStr GoStrFacts UtilModel UtilProofs ConfigModel CacheModel CacheSpec CacheProofs2 HttpModel HttpSpec HttpProofs TokenModel TokenSpec TokenizerModel
  HtmlModel HtmlSpec ImageSpec ImageFileProofs ShapeSpec ShapeProofs PropHttp PropTokens PropHtml.
Import ListNotations.
Local Open Scope list_scope.

(** ** C30: what the tokens of every article look like *)

(** Headings have a level from 1 to 7; description lists consist of heads and descriptions and other lists of normal items, on every level;
    the file of every image has been added to the images to download. *)
Theorem C30_tokens_shaped : forall cfg fuel text text' t, tokenizeContent cfg fuel text NewTokenizer = Ok (text', t) ->
  forall key token, In (key, token) (tokenMap t) -> shape (images t) token.
Proof.
  intros cfg fuel text text' t H key token I. destruct (tokenizeContent_kept cfg fuel text NewTokenizer text' t) as (G & _); auto; [apply Forall_nil|].
  unfold shaped in G. rewrite Forall_forall in G. apply (G (key, token)). auto.
Qed.
Print Assumptions C30_tokens_shaped.

(** So the HTML of every parsed article is well-nested, if the texts in it are. *)
Theorem C30_article_partial : forall cfg renderMath tfuel fuel styleFile title wikitext text t file,
  tokenizeContent cfg tfuel wikitext NewTokenizer = Ok (text, t) ->
  (forall f png width height style, renderMath f = Ok (png, width, height, style) -> no_angles width /\ no_angles height /\ no_angles style) ->
  (forall key token, In (key, token) (tokenMap t) -> Forall proper_text (texts token) /\
     match token with
     | ExternalLinkToken url _ => no_angles url
     | NowikiToken content => no_angles content
     | TableToken rows _ => forall row cell attribute, In row rows -> In cell row -> In attribute (Attributes cell) -> no_angles attribute
     | _ => True
     end) ->
  no_angles title -> proper_text text ->
  generateHtml cfg renderMath (tokenMap t) fuel styleFile title text = Ok file ->
  exists inner, file = HEADER styleFile ++ inner ++ FOOTER /\ nested Flow inner.
Proof.
  intros cfg renderMath tfuel fuel styleFile title wikitext text t file T R K NT PT H. apply (C30_nested_partial cfg renderMath (tokenMap t) fuel styleFile title text file R); auto.
  apply Forall_forall. intros [key token] I. cbn [snd]. pose proof (C30_tokens_shaped _ _ _ _ _ T _ _ I) as Sh. destruct (K _ _ I) as [K1 K2].
  split; auto. destruct token; auto. apply Forall_forall. intros row I1. apply Forall_forall. intros cell I2. apply Forall_forall. intros a I3. eauto.
Qed.
Print Assumptions C30_article_partial.

(** ** C32 *)

(** If the download of an image succeeds, the path in the HTML is the one of an existing file in the cache: the image or, if it is converted,
    the converted image.  Every failure of the network and the file system is possible.  (Missing: names with a colon, see below; the names
    "." and "..", which are no names of files; the configuration without any host, see C43.) *)
Theorem C32_image_partial : forall cfg wiki ext ccfg efuel fuel mediaType file w tr w',
  same_settings cfg wiki -> wikipediaImageArticleHosts wiki <> [] -> (0 <= CacheMaxAge ccfg)%Z ->
  ~ In ":"%char mediaType -> image_name file ->
  tends true (downloadImageUsingAllSources ext ccfg wiki efuel fuel (mediaType ++ !":" ++ file)) w tr (Ok tt) w' ->
  exists p, image_file wiki file p /\ content w' p <> None /\
    percent_decode (escapePathComponents (filenameToImagePath cfg file)) = join !"/" p.
Proof.
  intros cfg wiki ext ccfg efuel fuel mt file w tr w' S HO A M N H. exists [!"images"; stored_name wiki file].
  split; [apply image_file_stored|]. split; [eapply image_downloaded; eauto|]. apply html_path_decoded; auto.
Qed.
Print Assumptions C32_image_partial.

(** The images of a whole article: when all of them have been downloaded and no files are evicted, the paths of all images in the article are
    the ones of existing files. *)
Theorem C32_article_partial : forall cfg wiki ext ccfg efuel fuel tfuel text text' t w tr w',
  same_settings cfg wiki -> wikipediaImageArticleHosts wiki <> [] -> (0 <= CacheMaxAge ccfg)%Z -> CacheEvictionStrategy ccfg = StrategyNone ->
  tokenizeContent cfg tfuel text NewTokenizer = Ok (text', t) ->
  tends true (DownloadImages ext ccfg wiki efuel fuel (images t)) w tr (Ok tt) w' ->
  forall key file, (exists caption x y, In (key, ImageToken file caption x y) (tokenMap t)) \/ (exists x y, In (key, InlineImageToken file x y) (tokenMap t)) ->
  ~ In ":"%char file -> file <> !"." -> file <> !".." ->
  exists p, image_file wiki file p /\ content w' p <> None /\
    percent_decode (escapePathComponents (filenameToImagePath cfg file)) = join !"/" p.
Proof.
  intros cfg wiki ext ccfg efuel fuel tfuel text text' t w tr w' S HO A E T D key file I N1 N2 N3.
  assert (R : recorded (images t) file).
  { destruct I as [(caption & x & y & I)|(x & y & I)]; apply (C30_tokens_shaped _ _ _ _ _ T) in I; exact I. }
  destruct R as (mt & M & R & F1 & F2). assert (N : image_name file) by (repeat split; auto). exists [!"images"; stored_name wiki file].
  split; [apply image_file_stored|]. split; [|apply html_path_decoded; auto].
  eapply (proj2 (all_images_downloaded wiki ext ccfg efuel fuel A E (images t) w tr w' D HO)); eauto.
Qed.
Print Assumptions C32_article_partial.

(** Different images have different paths, unless one of them is named like the converted other one. *)
Theorem C32_distinct_partial : forall cfg wiki file file', same_settings cfg wiki -> image_name file -> image_name file' ->
  filenameToImagePath cfg file = filenameToImagePath cfg file' ->
  file = file' \/ (converted wiki file /\ file' = file ++ !".png") \/ (converted wiki file' /\ file = file' ++ !".png").
Proof.
  intros cfg wiki f g S F G E. rewrite !(html_path cfg wiki S) in E by auto. apply app_inv_head in E. unfold stored_name in E.
  assert (P : forall x, SanitizeFilename x ++ !".png" = SanitizeFilename (x ++ !".png")) by (intros x; rewrite !sanitize_enc, flat_map_app; reflexivity).
  destruct (is_converted wiki f) eqn:C1, (is_converted wiki g) eqn:C2.
  - apply app_inv_tail in E. left. apply SanitizeFilename_inj. auto.
  - right. left. split; [apply is_converted_spec; auto|]. rewrite app_nil_r, P in E. apply SanitizeFilename_inj in E. auto.
  - right. right. split; [apply is_converted_spec; auto|]. rewrite app_nil_r, P in E. apply SanitizeFilename_inj in E. auto.
  - rewrite !app_nil_r in E. left. apply SanitizeFilename_inj. auto.
Qed.
Print Assumptions C32_distinct_partial.

(** ** Examples *)

(** Execution with conversion *)
Definition answer_all (s : server) (w : world) (c : syscall) : option (reply c * world) :=
  match c return option (reply c * world) with
  | SConvert src dst => Some (true, mkWorld (mkFile dst !"png" (clock w) :: delete dst (files w)) (clock w))
  | c => answer_net s w c
  end.
Fixpoint exec_all {A} (s : server) (p : prog A) (w : world) : option (A * list net_event * world) :=
  match p with
  | Ret a => Some (a, [], w)
  | Call c k =>
    match answer_all s w c with
    | Some (r, w') =>
      match exec_all s (k r) w' with
      | Some (a, tr, w'') => Some (a, event_of c r ++ tr, w'')
      | None => None
      end
    | None => None
    end
  end.
Lemma sys_step_faulty : forall w c r w', sys_step false w c r w' -> sys_step true w c r w'.
Proof. intros w c r w' H. destruct c; unfold sys_step in *; try tauto; try (destruct r; intuition congruence). Qed.
Lemma exec_all_tends : forall {A} s (p : prog A) w r tr w', exec_all s p w = Some (r, tr, w') -> tends true p w tr r w'.
Proof.
  intros A s p; induction p as [a|c k IH]; intros w r tr w' H; cbn [exec_all] in H.
  - inversion H; subst. constructor.
  - destruct (answer_all s w c) as [[x w1]|] eqn:E; [|discriminate].
    destruct (exec_all s (k x) w1) as [[[a t] w2]|] eqn:E2; [|discriminate]. inversion H; subst.
    econstructor; [|apply IH; eauto]. assert (K : forall y v, answer_net s w c = Some (y, v) -> sys_step true w c y v).
    { intros y v X. assert (Y : exec_net s (Call c (fun r => Ret r)) w = Some (y, event_of c y, v)) by (cbn [exec_net]; rewrite X; cbn; rewrite app_nil_r; auto).
      apply exec_net_tends in Y. apply tends_call in Y. destruct Y as (r' & v' & tr' & St & Y & _). apply tends_ret in Y. destruct Y as (-> & _ & ->). apply sys_step_faulty. auto. }
    destruct c; try (apply K; exact E).
    injection E as <- <-. unfold sys_step. split; [apply Z.le_refl|]. eexists. reflexivity.
Qed.

(** An article with two images, of which one is converted *)
Definition image_wiki (hosts : list str) : wiki_config :=
  mkWikiConfig !"de" !"wikipedia.org" hosts !"upload.org" !"https://math.org" false
    (negb (str_eqb (strings default_config CommandTemplatePdfToPng) [])) (negb (str_eqb (strings default_config CommandTemplateSvgToPng) []))
    (negb (str_eqb (strings default_config CommandTemplateWebpToPng) [])) false.
Definition image_article : str := !"a [[File:b c.Svg|thumb|d]] [[file:e?.jpg]]".
(** A server that knows every page and every image *)
Definition image_server : server := fun url =>
  if has_prefix !"https://one.org" url then Some (ok_response (skipn 81 url)) else Some (ok_response !"image").
Lemma image_settings : forall hosts, same_settings default_config (image_wiki hosts).
Proof. intros hosts. repeat split; vm_compute; congruence. Qed.

Example C32_example : exists text t tr w',
  tokenizeContent default_config 4 image_article NewTokenizer = Ok (text, t) /\
  images t = [!"File:B_c.Svg"; !"File:E?.jpg"] /\
  tends true (DownloadImages ex_ext cfg_none (image_wiki [!"one.org"]) 3 3 (images t)) (mkWorld [] 0) tr (Ok tt) w' /\
  content w' [!"images"; !"B_c.Svg.png"] = Some !"png" /\ content w' [!"images"; !"E%3F.jpg"] = Some !"image" /\
  escapePathComponents (filenameToImagePath default_config !"B_c.Svg") = !"images/B_c.Svg.png" /\
  escapePathComponents (filenameToImagePath default_config !"E?.jpg") = !"images/E%253F.jpg".
Proof.
  destruct (tokenizeContent default_config 4 image_article NewTokenizer) as [[text t]| | |] eqn:T; vm_compute in T; try discriminate T.
  exists text, t. injection T as <- <-. do 2 eexists. split; [reflexivity|]. split; [reflexivity|].
  split; [apply (exec_all_tends image_server); vm_compute; reflexivity|]. repeat split; reflexivity.
Qed.

(** ** Where the claim is false *)

(** The part of a file name behind a colon is dropped for the download, but not in the HTML. *)
Theorem C32_refuted_colon : exists text text' t tr w' key file x y,
  tokenizeContent default_config 4 text NewTokenizer = Ok (text', t) /\ In (key, InlineImageToken file x y) (tokenMap t) /\
  tends true (DownloadImages ex_ext cfg_none (image_wiki [!"one.org"]) 3 3 (images t)) (mkWorld [] 0) tr (Ok tt) w' /\
  filenameToImagePath default_config file = !"images/A%3Ab.jpg" /\ content w' [!"images"; !"A%3Ab.jpg"] = None /\ content w' [!"images"; !"A"] = Some !"image".
Proof.
  exists !"[[File:file:a:b.jpg]]".
  destruct (tokenizeContent default_config 4 !"[[File:file:a:b.jpg]]" NewTokenizer) as [[text t]| | |] eqn:T; vm_compute in T; try discriminate T.
  exists text, t. injection T as <- <-. do 2 eexists. exists !"$$TOKEN_IMAGE_INLINE_0$$", !"A:b.jpg", (-1)%Z, (-1)%Z.
  split; [reflexivity|]. split; [left; reflexivity|]. split; [apply (exec_all_tends image_server); vm_compute; reflexivity|]. repeat split; reflexivity.
Qed.
Print Assumptions C32_refuted_colon.

(** Two different images have the same path if one of them is named like the converted other one. *)
Theorem C32_refuted_same_path : filenameToImagePath default_config !"A.svg" = filenameToImagePath default_config !"A.svg.png".
Proof. reflexivity. Qed.
Print Assumptions C32_refuted_same_path.

(** With an eviction strategy the download of one image can delete another image of the same article. *)
Theorem C32_refuted_eviction : exists ccfg text text' t tr w' key file x y,
  tokenizeContent default_config 4 text NewTokenizer = Ok (text', t) /\ In (key, InlineImageToken file x y) (tokenMap t) /\
  tends true (DownloadImages ex_ext ccfg (image_wiki [!"one.org"]) 3 3 (images t)) (mkWorld [] 0) tr (Ok tt) w' /\
  filenameToImagePath default_config file = !"images/A.jpg" /\ content w' [!"images"; !"A.jpg"] = None.
Proof.
  exists (mkCacheConfig StrategyLru 30 10), !"[[File:a.jpg]] [[File:b.jpg]]".
  destruct (tokenizeContent default_config 4 !"[[File:a.jpg]] [[File:b.jpg]]" NewTokenizer) as [[text t]| | |] eqn:T; vm_compute in T; try discriminate T.
  exists text, t. injection T as <- <-. do 2 eexists. exists !"$$TOKEN_IMAGE_INLINE_0$$", !"A.jpg", (-1)%Z, (-1)%Z.
  split; [reflexivity|]. split; [right; left; reflexivity|]. split; [apply (exec_all_tends image_server); vm_compute; reflexivity|]. repeat split; reflexivity.
Qed.
Print Assumptions C32_refuted_eviction.
