(** * Proofs about concurrent work on the cache *)

From Coq Require Import Ascii String.
From Coq Require Import List Arith ZArith Bool Lia.
From Verif Require Import GoStr GoStrFacts UtilModel UtilProofs CacheModel CacheSpec HttpModel HttpSpec ServiceModel ServiceSpec CacheProofs CacheProofs2 HttpProofs.
From Verif Require Import PropUtil PropCache.
Import ListNotations.
Local Open Scope list_scope.

(** ** A worker that runs alone *)

(** The functions of HttpModel.v: all actions without interruption *)
Fixpoint alone {A} (cfg : cache_config) (efuel : nat) (p : thread A) : prog A :=
  match p with
  | TRet a => Ret a
  | TLookup folder filename k => pbind (GetFile cfg folder filename) (fun r => alone cfg efuel (k r))
  | TStore folder filename chunks readOk k => pbind (CacheToFile cfg efuel folder filename chunks readOk) (fun r => alone cfg efuel (k r))
  | TCall c k => Call c (fun r => alone cfg efuel (k r))
  end.

(** The same executions *)
Definition same {A} (p q : prog A) : Prop := forall faulty w tr r w', tends faulty p w tr r w' <-> tends faulty q w tr r w'.

Lemma same_refl : forall A (p : prog A), same p p.
Proof. intros A p fl w tr r w'. tauto. Qed.
Lemma same_sym : forall A (p q : prog A), same p q -> same q p.
Proof. intros A p q H fl w tr r w'. split; apply H. Qed.
Lemma same_trans : forall A (p q r : prog A), same p q -> same q r -> same p r.
Proof. intros A p q r H1 H2 fl w tr x w'. split; intros T; [apply H2, H1, T|apply H1, H2, T]. Qed.

Lemma same_call : forall A c (k k' : reply c -> prog A), (forall r, same (k r) (k' r)) -> same (Call c k) (Call c k').
Proof.
  intros A c k k' H fl w tr r w'. split; intros T; apply tends_call in T as (x & w1 & tr1 & E & T & ->); (econstructor; [exact E|apply H; exact T]).
Qed.

Lemma tsteps_bind : forall A C fl (p : prog A) (f : A -> prog C) w tr a w1 tr1 r w', tends fl p w tr a w1 -> tends fl (f a) w1 tr1 r w' -> tends fl (pbind p f) w (tr ++ tr1) r w'.
Proof.
  intros A C fl p f. induction p as [b|c k IH]; intros w tr a w1 tr1 r w' H1 H2.
  - apply tends_ret in H1 as (-> & -> & ->). exact H2.
  - apply tends_call in H1 as (x & w2 & tr2 & E & T & ->). rewrite <- app_assoc. cbn [pbind]. econstructor; [exact E|]. eapply IH; [exact T|exact H2].
Qed.

Lemma same_bind : forall A C (p p' : prog A) (f f' : A -> prog C), same p p' -> (forall a, same (f a) (f' a)) -> same (pbind p f) (pbind p' f').
Proof.
  intros A C p p' f f' H1 H2 fl w tr r w'. split; intros T; apply tends_bind in T as (a & w1 & tr1 & tr2 & T1 & T2 & ->); (eapply tsteps_bind; [apply H1; exact T1|apply H2; exact T2]).
Qed.

Lemma pbind_assoc : forall A C D (p : prog A) (f : A -> prog C) (g : C -> prog D), same (pbind (pbind p f) g) (pbind p (fun a => pbind (f a) g)).
Proof. intros A C D p f g. induction p as [a|c k IH]; cbn [pbind]; [apply same_refl|]. apply same_call. auto. Qed.

Section Alone.
Variable cfg : cache_config.
Variable efuel : nat.

Lemma alone_bind : forall A C (p : thread A) (f : A -> thread C), same (alone cfg efuel (tbind p f)) (pbind (alone cfg efuel p) (fun a => alone cfg efuel (f a))).
Proof.
  intros A C p f. induction p as [a|folder file k IH|folder file chunks ok k IH|c k IH]; cbn [tbind alone pbind].
  - apply same_refl.
  - eapply same_trans; [|apply same_sym, pbind_assoc]. apply same_bind; [apply same_refl|auto].
  - eapply same_trans; [|apply same_sym, pbind_assoc]. apply same_bind; [apply same_refl|auto].
  - apply same_call. auto.
Qed.

Lemma alone_ok : forall A C (p : thread (res A)) (f : A -> thread (res C)) q g, same (alone cfg efuel p) q -> (forall a, same (alone cfg efuel (f a)) (g a)) ->
  same (alone cfg efuel (t_ok p f)) (on_ok q g).
Proof.
  intros A C p f q g H1 H2. unfold t_ok, on_ok. eapply same_trans; [apply alone_bind|]. apply same_bind; auto. intros []; auto; apply same_refl.
Qed.

Lemma pbind_ret : forall A (p : prog A), same (pbind p (fun a => Ret a)) p.
Proof. intros A p. induction p as [a|c k IH]; cbn [pbind]; [apply same_refl|apply same_call; auto]. Qed.

Lemma alone_lookup : forall folder file, same (alone cfg efuel (t_lookup folder file)) (GetFile cfg folder file).
Proof. intros. apply pbind_ret. Qed.
Lemma alone_store : forall folder file chunks ok, same (alone cfg efuel (t_store folder file chunks ok)) (CacheToFile cfg efuel folder file chunks ok).
Proof. intros. apply pbind_ret. Qed.

Lemma alone_request : forall fuel q, same (alone cfg efuel (t_doRequest fuel q)) (doRequest fuel q).
Proof.
  induction fuel as [|fuel IH]; intros q; cbn [t_doRequest doRequest alone]; [apply same_refl|]. apply same_call. intros [r|]; [|apply same_refl].
  destruct (_ =? 429)%Z; [apply same_call; intros; apply IH|]. destruct (negb _); [apply same_refl|]. destruct (negb _); apply same_refl.
Qed.

Lemma alone_download : forall fuel url folder file, same (alone cfg efuel (t_DownloadAndCache fuel url folder file)) (DownloadAndCache cfg efuel fuel url folder file).
Proof.
  intros. unfold t_DownloadAndCache, DownloadAndCache. apply alone_ok; [apply alone_lookup|]. intros []; [apply same_refl|].
  apply alone_ok; [apply alone_request|]. intros a. apply alone_ok; [apply alone_store|]. intros []. apply same_refl.
Qed.

Variable ext : externals.
Variable wiki : wiki_config.
Variable fuel : nat.

Lemma alone_article : forall host title, same (alone cfg efuel (t_DownloadArticle ext fuel host title)) (DownloadArticle ext cfg efuel fuel host title).
Proof.
  intros. unfold t_DownloadArticle, DownloadArticle. apply alone_ok; [apply alone_download|]. intros (p & b). apply same_call. intros [d|]; [|apply same_refl].
  destruct (json_article_title ext d); apply same_refl.
Qed.

Lemma alone_image : forall host image, same (alone cfg efuel (t_downloadImage ext wiki fuel host image)) (downloadImage ext cfg wiki efuel fuel host image).
Proof.
  intros. unfold t_downloadImage, downloadImage. destruct (after_colon image); try apply same_refl. apply alone_ok; [apply alone_article|]. intros (t & x).
  destruct (after_colon _); try apply same_refl. destruct (after_colon t); try apply same_refl. apply alone_ok; [apply alone_download|]. intros (p & b).
  destruct (_ && _); [|apply same_refl]. apply same_call. intros. apply same_refl.
Qed.

Lemma alone_rescale : forall p b, same (alone cfg efuel (t_rescale wiki p b)) (rescale wiki p b).
Proof. intros. unfold t_rescale, rescale. destruct (_ && _); [apply same_call; intros|]; apply same_refl. Qed.

Lemma alone_post : forall p b, same (alone cfg efuel (t_postProcessImage wiki p b)) (postProcessImage wiki p b).
Proof.
  intros. unfold t_postProcessImage, postProcessImage. destruct (_ || _); [|apply alone_rescale]. apply same_call. intros []; [apply alone_rescale|].
  apply same_call. intros []; [apply alone_rescale|apply same_refl].
Qed.

Lemma alone_sources : forall image hosts e, same (alone cfg efuel (t_try_sources ext wiki fuel image e hosts)) (try_sources ext cfg wiki efuel fuel image e hosts).
Proof.
  intros image hosts. induction hosts as [|host hosts IH]; intros e; cbn [t_try_sources try_sources]; [apply same_refl|].
  eapply same_trans; [apply alone_bind|]. apply same_bind; [apply alone_image|]. intros [(p & b)| | |]; try apply same_refl; [apply alone_post|apply IH].
Qed.

Lemma alone_images : forall images, same (alone cfg efuel (t_DownloadImages ext wiki fuel images)) (DownloadImages ext cfg wiki efuel fuel images).
Proof.
  induction images as [|i images IH]; cbn [t_DownloadImages DownloadImages]; [apply same_refl|]. apply alone_ok; [apply alone_sources|]. intros. apply IH.
Qed.

Lemma alone_template : forall template file, same (alone cfg efuel (t_EvaluateTemplate ext wiki fuel template file)) (EvaluateTemplate ext cfg wiki efuel fuel template file).
Proof.
  intros. unfold t_EvaluateTemplate, EvaluateTemplate. apply alone_ok; [apply alone_download|]. intros (p & b). apply same_call. intros [d|]; apply same_refl.
Qed.

Lemma alone_resource : forall formula, same (alone cfg efuel (t_getMathResource ext wiki fuel formula)) (getMathResource ext cfg wiki efuel fuel formula).
Proof.
  intros. unfold t_getMathResource, getMathResource. eapply same_trans; [apply alone_bind|]. apply same_bind; [apply alone_lookup|].
  assert (R : same (alone cfg efuel (t_ok (t_doRequest fuel (mkRequest true (math_url wiki) (math_data ext formula) (math_data ext formula))) (fun response =>
        if str_eqb (a_location response) [] then TRet Err
        else t_ok (t_store MathCacheDirName (Hash ext formula) [a_location response] true) (fun _ => TRet (Ok (a_location response))))))
      (on_ok (PostFormEncoded fuel (math_url wiki) (math_data ext formula)) (fun response => if str_eqb (a_location response) [] then Ret Err
        else on_ok (CacheToFile cfg efuel MathCacheDirName (Hash ext formula) [a_location response] true) (fun _ => Ret (Ok (a_location response)))))).
  { apply alone_ok; [apply alone_request|]. intros a. destruct (str_eqb _ _); [apply same_refl|]. apply alone_ok; [apply alone_store|]. intros. apply same_refl. }
  intros [[]| | |]; try apply same_refl; exact R.
Qed.

Lemma alone_math : forall converter formula, same (alone cfg efuel (t_RenderMath ext wiki fuel converter formula)) (RenderMath ext cfg wiki efuel fuel converter formula).
Proof.
  intros. unfold t_RenderMath, RenderMath. apply alone_ok; [apply alone_resource|]. intros name. apply alone_ok; [apply alone_download|]. intros (svg & b).
  destruct converter; try apply same_refl.
  - apply alone_ok; [apply alone_download|]. intros (png & b2). apply same_refl.
Qed.
End Alone.

(** ** What workers may do *)

Section Service.
Variable ext : externals.

(** Where the content of a cached file comes from *)
Definition file_ok (J : list job) (net : list net_event) (p : path) (d : str) : Prop :=
  match p with
  | [folder; name] =>
    (folder = ArticleCacheDirName -> exists j host title, In j J /\ reads_article j host title /\ name = SanitizeFilename (article_file title) /\
       got net (article_url ext host title) d) /\
    (folder = TemplateCacheDirName -> exists wiki template, In (GetTemplate wiki template) J /\ name = SanitizeFilename (Hash ext template) /\
       got net (template_url ext wiki template) d) /\
    (folder = MathCacheDirName -> exists j wiki formula, In j J /\ reads_formula j wiki formula /\ name = SanitizeFilename (Hash ext formula) /\
       named net (math_url wiki) (math_data ext formula) d)
  | _ => True
  end.

Lemma got_mono : forall net net' url d, incl net net' -> got net url d -> got net' url d.
Proof. intros net net' url d I (q & a & H & R). exists q, a. split; auto. Qed.
Lemma named_mono : forall net net' url data d, incl net net' -> named net url data d -> named net' url data d.
Proof. intros net net' url data d I (q & a & H & R). exists q, a. split; auto. Qed.

Lemma file_ok_mono : forall J J' net net' p d, incl J J' -> incl net net' -> file_ok J net p d -> file_ok J' net' p d.
Proof.
  intros J J' net net' p d IJ IN H. destruct p as [|folder [|name [|]]]; auto. destruct H as (H1 & H2 & H3). split; [|split]; intros E.
  - destruct (H1 E) as (j & host & title & H & R & N & G). exists j, host, title. repeat split; auto. eapply got_mono; eauto.
  - destruct (H2 E) as (w & t & H & N & G). exists w, t. repeat split; auto. eapply got_mono; eauto.
  - destruct (H3 E) as (j & w & f & H & R & N & G). exists j, w, f. repeat split; auto. eapply named_mono; eauto.
Qed.

Definition in_images (p : path) : Prop := exists n, p = [ImageCacheDirName; n].

Definition allowed (c : syscall) : Prop :=
  match c with
  | SDo _ | SSleep _ | SReadFile _ | SExists _ => True
  | SConvert _ p | SRewrite p => in_images p
  | _ => False
  end.

Definition reply_ok (J : list job) (net : list net_event) (c : syscall) : reply c -> Prop :=
  match c return reply c -> Prop with
  | SDo q => fun r => In (Asked q r) net /\ (r <> None -> length (q_unread q) = length (q_body q))
  | SReadFile p => fun r => forall d, r = Some d -> in_tmp p = false -> file_ok J net p d
  | _ => fun _ => True
  end.

Fixpoint okt {A} (Q : list job -> list net_event -> A -> Prop) (p : thread A) (J : list job) (net : list net_event) : Prop :=
  match p with
  | TRet a => Q J net a
  | TLookup folder file k => In folder cache_folders /\ forall r J' net', incl J J' -> incl net net' -> okt Q (k r) J' net'
  | TStore folder file chunks readOk k => In folder cache_folders /\ (readOk = true -> file_ok J net (cache_path folder file) (all_data chunks)) /\
      forall r J' net', incl J J' -> incl net net' -> okt Q (k r) J' net'
  | TCall c k => allowed c /\ forall r J' net', incl J J' -> incl net net' -> reply_ok J' net' c r -> okt Q (k r) J' net'
  end.

Definition monotone {A} (Q : list job -> list net_event -> A -> Prop) : Prop :=
  forall J J' net net' a, incl J J' -> incl net net' -> Q J net a -> Q J' net' a.

Lemma okt_mono : forall A Q (p : thread A) J J' net net', monotone Q -> incl J J' -> incl net net' -> okt Q p J net -> okt Q p J' net'.
Proof.
  intros A Q p J J' net net' M IJ IN H. destruct p as [a|folder file k|folder file chunks ok k|c k]; cbn [okt] in *.
  - eapply M; eauto.
  - destruct H as (H1 & H2). split; auto. intros. apply H2; eapply incl_tran; eauto.
  - destruct H as (H1 & H2 & H3). split; auto. split; [intros E; eapply file_ok_mono; eauto|]. intros. apply H3; eapply incl_tran; eauto.
  - destruct H as (H1 & H2). split; auto. intros. apply H2; auto; eapply incl_tran; eauto.
Qed.

Lemma okt_bind : forall A C Q (p : thread A) (f : A -> thread C) J net, okt (fun J net a => okt Q (f a) J net) p J net -> okt Q (tbind p f) J net.
Proof.
  intros A C Q p f. induction p as [a|folder file k IH|folder file chunks ok k IH|c k IH]; intros J net H; cbn [okt tbind] in *; auto.
  - destruct H as (H1 & H2). split; auto.
  - destruct H as (H1 & H2 & H3). split; auto.
  - destruct H as (H1 & H2). split; auto.
Qed.

Lemma okt_weaken : forall A (Q Q' : list job -> list net_event -> A -> Prop) (p : thread A) J net,
  (forall J' net' a, incl J J' -> incl net net' -> Q J' net' a -> Q' J' net' a) -> okt Q p J net -> okt Q' p J net.
Proof.
  intros A Q Q' p. induction p as [a|folder file k IH|folder file chunks ok k IH|c k IH]; intros J net W H; cbn [okt] in *.
  - apply W; auto; apply incl_refl.
  - destruct H as (H1 & H2). split; auto. intros r J' net' IJ IN. apply IH; auto. intros J2 net2 a I1 I2. apply W; eapply incl_tran; eauto.
  - destruct H as (H1 & H2 & H3). split; auto. split; auto. intros r J' net' IJ IN. apply IH; auto. intros J2 net2 a I1 I2. apply W; eapply incl_tran; eauto.
  - destruct H as (H1 & H2). split; auto. intros r J' net' IJ IN R. apply IH; auto. intros J2 net2 a I1 I2. apply W; eapply incl_tran; eauto.
Qed.

(** Results that are no errors *)
Definition good {A} (Q : list job -> list net_event -> A -> Prop) (J : list job) (net : list net_event) (r : res A) : Prop :=
  match r with Ok a => Q J net a | _ => True end.

Lemma okt_ok : forall A C (P : list job -> list net_event -> A -> Prop) (Q : list job -> list net_event -> C -> Prop) p f J net, okt (good P) p J net ->
  (forall a J' net', incl J J' -> incl net net' -> P J' net' a -> okt (good Q) (f a) J' net') -> okt (good Q) (t_ok p f) J net.
Proof.
  intros A C P Q p f J net H1 H2. unfold t_ok. apply okt_bind. eapply okt_weaken; [|exact H1]. intros J' net' [a| | |] IJ IN X; cbn [okt good] in *; auto.
Qed.

Lemma okt_request : forall fuel q J net, q_unread q = q_body q \/ q_unread q = [] ->
  okt (good (fun _ net a => exists q', In (Asked q' (Some a)) net /\ q_url q' = q_url q /\ q_post q' = q_post q /\ q_body q' = q_body q /\
     q_unread q' = q_body q /\ successful a)) (t_doRequest fuel q) J net.
Proof.
  induction fuel as [|fuel IH]; intros q J net U; cbn [t_doRequest okt good]; auto. split; [exact I|].
  intros r J' net' _ _ (H & L). destruct r as [r|]; [|exact I]. destruct (a_status r =? 429)%Z.
  - cbn [okt]. split; [exact I|]. intros _ J2 net2 _ IN _. specialize (IH (mkRequest (q_post q) (q_url q) (q_body q) []) J2 net2 (or_intror eq_refl)). exact IH.
  - destruct (a_status r =? 200)%Z eqn:E1; [|exact I]. destruct (str_eqb (a_api_error r) []) eqn:E2; [|exact I]. cbn [negb okt good].
    exists q. repeat split; auto; [|apply Z.eqb_eq; auto|apply str_eqb_eq; auto].
    destruct U as [U|U]; auto. specialize (L ltac:(discriminate)). rewrite U in *. destruct (q_body q); auto. discriminate.
Qed.

(** ** Every function keeps the rules *)

Lemma okt_download : forall fuel url folder file J net, In folder cache_folders ->
  (forall J' net' d, incl J J' -> incl net net' -> got net' url d -> file_ok J' net' (cache_path folder file) d) ->
  okt (good (fun _ _ r => fst r = cache_path folder file)) (t_DownloadAndCache fuel url folder file) J net.
Proof.
  intros fuel url folder file J net F H. unfold t_DownloadAndCache. eapply okt_ok with (P := fun _ _ _ => True).
  - cbn [t_lookup okt]. split; auto. intros [] J' net' _ _; exact I.
  - intros [] J' net' IJ IN _; [reflexivity|]. eapply okt_ok; [apply okt_request; left; reflexivity|]. cbn [q_url q_post q_body].
    intros a J2 net2 IJ2 IN2 (q & A & U & P & _ & _ & G). eapply okt_ok with (P := fun _ _ _ => True).
    + cbn [t_store okt]. split; auto. split; [|intros [] J3 net3 _ _; exact I]. intros E. apply H; try (eapply incl_tran; eauto).
      exists q, a. repeat split; auto; apply G.
    + intros. reflexivity.
Qed.

Definition article_ok (title : str) (J : list job) (net : list net_event) (r : str * str) : Prop :=
  exists d, file_ok J net (cache_path ArticleCacheDirName (article_file title)) d /\ json_article_title ext d = Some (fst r) /\ json_article_text ext d = snd r.

Lemma okt_article : forall fuel j host title J net, In j J -> reads_article j host title ->
  okt (good (article_ok title)) (t_DownloadArticle ext fuel host title) J net.
Proof.
  intros fuel j host title J net HJ R. unfold t_DownloadArticle. eapply okt_ok.
  - apply okt_download; [vm_compute; tauto|]. intros J' net' d IJ IN G. split; [|split; discriminate]. intros _. exists j, host, title. auto.
  - intros (p & b) J' net' IJ IN E. cbn [fst] in E. subst p. cbn [okt]. split; [exact I|]. intros [d|] J2 net2 _ _ RO; [|exact I].
    destruct (json_article_title ext d) as [t|] eqn:T; [|exact I]. exists d. split; [|auto]. apply RO; reflexivity.
Qed.

Lemma okt_image : forall wiki fuel images image host J net, In (GetImages wiki images) J -> In image images -> In host (wikipediaImageArticleHosts wiki) ->
  okt (good (fun _ _ r => in_images (fst r))) (t_downloadImage ext wiki fuel host image) J net.
Proof.
  intros wiki fuel images image host J net HJ HI HH. unfold t_downloadImage. destruct (after_colon image) as [n| | |] eqn:AC; try exact I.
  assert (R : reads_article (GetImages wiki images) host (!"File:" ++ n)).
  { unfold after_colon in AC. destruct (split !":" image) as [|pre [|name rest]] eqn:SP; try discriminate. injection AC as <-. eapply reads_image; eauto. }
  eapply okt_ok; [eapply okt_article; eauto|]. intros (t & x) J' net' IJ IN _.
  destruct (after_colon (!"File:" ++ n)) as [o| | |]; try exact I. destruct (after_colon t) as [a| | |]; try exact I.
  eapply okt_ok; [apply okt_download; [vm_compute; tauto|]|].
  - intros. split; [|split]; discriminate.
  - intros (p & b) J2 net2 _ _ E. cbn [fst] in E. subst p. destruct (_ && _); cbn [okt].
    + split; [eexists; reflexivity|]. intros. eexists; reflexivity.
    + eexists; reflexivity.
Qed.

Lemma okt_rescale : forall wiki p b J net, in_images p -> okt (good (fun _ _ _ => True)) (t_rescale wiki p b) J net.
Proof. intros wiki p b J net H. unfold t_rescale. destruct (_ && _); [|exact I]. cbn [okt]. split; auto. intros [] J' net' _ _ _; exact I. Qed.

Lemma okt_post : forall wiki p b J net, in_images p -> okt (good (fun _ _ _ => True)) (t_postProcessImage wiki p b) J net.
Proof.
  intros wiki p b J net H. assert (H2 : in_images (png_path p)) by (destruct H as (n & ->); eexists; reflexivity).
  unfold t_postProcessImage. destruct (_ || _); [|apply okt_rescale; auto]. cbn [okt]. split; [exact I|].
  intros [] J' net' _ _ _; [apply okt_rescale; auto|]. cbn [okt]. split; auto. intros [] J2 net2 _ _ _; [apply okt_rescale; auto|exact I].
Qed.

Lemma okt_sources : forall wiki fuel images image hosts e J net, In (GetImages wiki images) J -> In image images -> incl hosts (wikipediaImageArticleHosts wiki) ->
  okt (good (fun _ _ _ => True)) (t_try_sources ext wiki fuel image e hosts) J net.
Proof.
  intros wiki fuel images image hosts. induction hosts as [|host hosts IH]; intros e J net HJ HI HH; cbn [t_try_sources].
  - destruct e; exact I.
  - apply okt_bind. eapply okt_weaken; [|eapply okt_image; eauto; apply HH; left; reflexivity]. intros J' net' [(p & b)| | |] IJ IN P; cbn beta; try exact I.
    + apply okt_post. exact P.
    + apply IH; auto. intros x X. apply HH. right; auto.
Qed.

Lemma okt_images : forall wiki fuel all images J net, In (GetImages wiki all) J -> incl images all ->
  okt (good (fun _ _ _ => True)) (t_DownloadImages ext wiki fuel images) J net.
Proof.
  intros wiki fuel all images. induction images as [|i images IH]; intros J net HJ HI; cbn [t_DownloadImages]; [exact I|].
  eapply okt_ok; [eapply okt_sources; eauto; [apply HI; left; reflexivity|apply incl_refl]|]. intros _ J' net' IJ IN _. apply IH; auto. intros x X. apply HI. right; auto.
Qed.

Definition template_ok (template : str) (J : list job) (net : list net_event) (r : str) : Prop :=
  exists d, file_ok J net (cache_path TemplateCacheDirName (Hash ext template)) d /\ json_template ext d = Some r.

Lemma okt_template : forall wiki fuel template J net, In (GetTemplate wiki template) J ->
  okt (good (template_ok template)) (t_EvaluateTemplate ext wiki fuel template (Hash ext template)) J net.
Proof.
  intros wiki fuel template J net HJ. unfold t_EvaluateTemplate. eapply okt_ok.
  - apply okt_download; [vm_compute; tauto|]. intros J' net' d IJ IN G. split; [discriminate|]. split; [|discriminate]. intros _. exists wiki, template. auto.
  - intros (p & b) J' net' IJ IN E. cbn [fst] in E. subst p. cbn [okt]. split; [exact I|]. intros [d|] J2 net2 _ _ RO; [|exact I]. cbn [okt].
    destruct (json_template ext d) as [t|] eqn:T; [|exact I]. exists d. split; [apply RO; reflexivity|exact T].
Qed.

Definition formula_ok (formula : str) (J : list job) (net : list net_event) (r : str) : Prop :=
  file_ok J net (cache_path MathCacheDirName (Hash ext formula)) r.

Lemma okt_resource : forall wiki fuel j formula J net, In j J -> reads_formula j wiki formula ->
  okt (good (formula_ok formula)) (t_getMathResource ext wiki fuel formula) J net.
Proof.
  intros wiki fuel j formula J net HJ R. unfold t_getMathResource.
  cbv zeta. match goal with |- context [t_ok (t_doRequest fuel ?q) ?f] =>
    assert (Z : forall J' net', incl J J' -> incl net net' -> okt (good (formula_ok formula)) (t_ok (t_doRequest fuel q) f) J' net') end.
  { intros J' net' IJ IN. eapply okt_ok; [apply okt_request; left; reflexivity|]. cbn [q_url q_post q_body].
    intros a J2 net2 IJ2 IN2 (q & A & U & P & B & UR & G). destruct (str_eqb (a_location a) []) eqn:E; [exact I|].
    assert (F : forall J3 net3, incl J2 J3 -> incl net2 net3 -> formula_ok formula J3 net3 (a_location a)).
    { intros J3 net3 IJ3 IN3. split; [discriminate|]. split; [discriminate|]. intros _. exists j, wiki, formula. split; [auto|]. split; [exact R|]. split; [reflexivity|].
      exists q, a. repeat split; auto; try apply G. intros X. rewrite X in E. discriminate. }
    eapply okt_ok with (P := fun _ _ _ => True).
    - cbn [t_store okt]. split; [vm_compute; tauto|]. split; [|intros [] J3 net3 _ _; exact I]. intros _. unfold all_data. cbn [concat]. rewrite app_nil_r.
      apply F; apply incl_refl.
    - intros _ J3 net3 IJ3 IN3 _. apply F; auto. }
  apply okt_bind. cbn [t_lookup okt]. split; [vm_compute; tauto|]. intros [[]| | |] J' net' IJ IN; try exact I; try (apply Z; solve [auto]).
  cbn [okt]. split; [exact I|]. intros [d|] J2 net2 _ _ RO; [|exact I]. apply RO; reflexivity.
Qed.

Definition files_ok (formula : str) (J : list job) (net : list net_event) (r : path * path) : Prop :=
  exists name, formula_ok formula J net name /\ fst r = cache_path ImageCacheDirName (name ++ !".svg") /\
    (snd r = fst r \/ snd r = cache_path ImageCacheDirName (name ++ !".png")).

Lemma formula_mono : forall formula, monotone (formula_ok formula).
Proof. intros formula J J' net net' a IJ IN. apply file_ok_mono; auto. Qed.

Lemma okt_math : forall wiki fuel converter formula J net, In (GetMath wiki converter formula) J ->
  okt (good (files_ok formula)) (t_RenderMath ext wiki fuel converter formula) J net.
Proof.
  intros wiki fuel converter formula J net HJ. unfold t_RenderMath. eapply okt_ok; [eapply okt_resource; [exact HJ|constructor]|].
  intros name J' net' IJ IN F. eapply okt_ok; [apply okt_download; [vm_compute; tauto|intros; split; [|split]; discriminate]|].
  intros (svg & b) J2 net2 IJ2 IN2 E. cbn [fst] in E. subst svg. pose proof (formula_mono _ _ _ _ _ _ IJ2 IN2 F) as F2. destruct converter.
  all: try exact I.
  - exists name. cbn [fst snd]. auto.
  - eapply okt_ok; [apply okt_download; [vm_compute; tauto|intros; split; [|split]; discriminate]|]. intros (png & b2) J3 net3 IJ3 IN3 E. cbn [fst] in E. subst png.
    exists name. cbn [fst snd]. split; [eapply formula_mono; eauto|auto].
  - cbn [okt]. split; [eexists; reflexivity|]. intros [] J3 net3 IJ3 IN3 _; [|exact I]. exists name. cbn [fst snd]. split; [eapply formula_mono; eauto|auto].
Qed.

(** ** All answers *)

Definition answer_ok (j : job) (J : list job) (net : list net_event) (a : ServiceModel.answer) : Prop :=
  match j with
  | GetArticle _ host title => exists t x, a = Article t x /\ article_ok title J net (t, x)
  | GetTemplate _ template => exists t, a = Text t /\ template_ok template J net t
  | GetMathResource _ formula => exists n, a = Location n /\ formula_ok formula J net n
  | GetMath _ _ formula => exists svg png, a = Files svg png /\ files_ok formula J net (svg, png)
  | _ => True
  end.

Lemma answer_mono : forall j, monotone (good (answer_ok j)).
Proof.
  intros j J J' net net' [a| | |] IJ IN H; auto. cbn [good] in *. destruct j; cbn [answer_ok] in *; auto.
  - destruct H as (t & x & -> & d & F & R). exists t, x. split; auto. exists d. split; auto. eapply file_ok_mono; eauto.
  - destruct H as (t & -> & d & F & R). exists t. split; auto. exists d. split; auto. eapply file_ok_mono; eauto.
  - destruct H as (n & -> & F). exists n. split; auto. eapply file_ok_mono; eauto.
  - destruct H as (svg & png & -> & n & F & R). exists svg, png. split; auto. exists n. split; auto. eapply file_ok_mono; eauto.
Qed.

Lemma okt_map : forall A (f : A -> ServiceModel.answer) p (P : list job -> list net_event -> A -> Prop) (Q : list job -> list net_event -> ServiceModel.answer -> Prop) J net, okt (good P) p J net ->
  (forall a J' net', P J' net' a -> Q J' net' (f a)) -> okt (good Q) (t_map f p) J net.
Proof. intros. unfold t_map. eapply okt_ok; eauto. intros a J' net' _ _ X. cbn [okt good]. auto. Qed.

Lemma okt_program : forall fuel j J net, In j J -> (forall folder filename chunks, j = Result folder filename chunks -> In folder [!"html"; !"stats"]) ->
  okt (good (answer_ok j)) (program ext fuel j) J net.
Proof.
  intros fuel j J net HJ HR. destruct j; cbn [program].
  - eapply okt_map; [eapply okt_article; [exact HJ|constructor]|]. intros (t & x) J' net' H. exists t, x. auto.
  - eapply okt_map; [eapply okt_images; [exact HJ|apply incl_refl]|]. intros. exact I.
  - eapply okt_map; [eapply okt_template; exact HJ|]. intros t J' net' H. exists t. auto.
  - eapply okt_map; [eapply okt_resource; [exact HJ|constructor]|]. intros n J' net' H. exists n. auto.
  - eapply okt_map; [eapply okt_math; exact HJ|]. intros (svg & png) J' net' H. exists svg, png. auto.
  - specialize (HR _ _ _ eq_refl). eapply okt_map with (P := fun _ _ _ => True); [|intros; exact I]. cbn [t_store okt].
    split; [cbn [In] in HR; unfold cache_folders; cbn [In]; intuition|]. split; [|intros [] J' net' _ _; exact I].
    intros _. destruct HR as [<-|[<-|[]]]; (split; [|split]); discriminate.
Qed.

(** ** The invariant *)

Definition disk_ok (J : list job) (net : list net_event) (w : world) : Prop :=
  forall p d, in_tmp p = false -> content w p = Some d -> file_ok J net p d.

Lemma images_free : forall J net p d, in_images p -> file_ok J net p d.
Proof. intros J net p d (n & ->). split; [|split]; discriminate. Qed.

Lemma cached_content : forall w w' p d, files w' = cached w -> content w' p = Some d -> content w p = Some d.
Proof.
  intros w w' p d E H. unfold content in *. rewrite E in H. unfold cached in H. induction (files w) as [|f fs IH]; [discriminate|].
  cbn [filter] in H. rewrite lookup_cons. destruct (negb (in_tmp (f_path f))) eqn:T.
  - rewrite lookup_cons in H. destruct (path_eq_dec (f_path f) p); auto.
  - destruct (path_eq_dec (f_path f) p) as [<-|]; auto. exfalso. unfold option_map in H. destruct (lookup (f_path f) _) as [g|] eqn:L; [|discriminate].
    apply find_some in L as (L & L2). apply filter_In in L as (_ & L). destruct (path_eq_dec (f_path g) (f_path f)) as [E2|]; [|discriminate]. rewrite E2 in L. congruence.
Qed.

Lemma disk_lookup : forall J net cfg folder file w rest w', (0 <= CacheMaxAge cfg)%Z -> disk_ok J net w -> steps true (GetFile cfg folder file) w rest w' -> disk_ok J net w'.
Proof.
  intros J net cfg folder file w rest w' A D H p d T C. destruct (C39_lookup_other_files_untouched _ _ _ _ _ _ A H) as (H1 & H2).
  apply D; auto. destruct (path_eq_dec p (cache_path folder file)) as [->|N].
  - destruct H2 as [H2|H2]; congruence.
  - unfold content in *. rewrite <- H1; auto.
Qed.

Lemma disk_store : forall J net cfg efuel folder file chunks ok w rest w', In folder cache_folders ->
  (ok = true -> file_ok J net (cache_path folder file) (all_data chunks)) -> disk_ok J net w ->
  steps true (CacheToFile cfg efuel folder file chunks ok) w rest w' -> disk_ok J net w'.
Proof.
  intros J net cfg efuel folder file chunks ok w rest w' F O D H p d T C.
  destruct (C35_cache_write_atomic _ _ _ _ _ _ _ _ _ F H p T) as [E|[E|(-> & R & E)]].
  - apply D; auto. congruence.
  - congruence.
  - replace d with (all_data chunks) by congruence. auto.
Qed.

Lemma disk_call : forall J net c w r w', allowed c -> disk_ok J net w -> sys_step true w c r w' -> disk_ok J net w'.
Proof.
  intros J net c w r w' A D H p d T C. destruct c; cbn [allowed] in A; try contradiction.
  - destruct H as (E & _). apply D; auto. unfold content in *. congruence.
  - destruct H as (E & _). apply D; auto. unfold content in *. congruence.
  - destruct H as (E & _). apply D; auto. unfold content in *. congruence.
  - destruct H as (E & _). apply D; auto. unfold content in *. congruence.
  - destruct (path_eq_dec p dst) as [->|N]; [apply images_free; auto|]. destruct H as (_ & H).
    assert (E : files w' = files w \/ exists x, files w' = mkFile dst x (clock w') :: delete dst (files w)) by (destruct r; [right|]; auto).
    apply D; auto. destruct E as [E|(x & E)]; unfold content in *; rewrite E in C; auto. rewrite lookup_cons in C. cbn [f_path] in C.
    destruct (path_eq_dec dst p); [congruence|]. rewrite lookup_delete_neq in C; auto.
  - destruct (path_eq_dec p p0) as [->|N]; [apply images_free; auto|]. destruct H as (_ & [(_ & E)|(x & E)]); [apply D; auto; unfold content in *; congruence|]. apply D; auto. rewrite <- C. symmetry.
    eapply content_update; [|exact E|auto]. reflexivity.
Qed.

Definition good_state (J : list job) (s : state) : Prop :=
  disk_ok J (network s) (disk s) /\
  forall j p, In (j, p) (workers s) -> In j J /\ okt (good (answer_ok j)) p J (network s).

Lemma disk_mono : forall J J' net net' w, incl J J' -> incl net net' -> disk_ok J net w -> disk_ok J' net' w.
Proof. intros J J' net net' w IJ IN D p d T C. eapply file_ok_mono; eauto. Qed.

Lemma action_good : forall J net cfg efuel A (Q : list job -> list net_event -> A -> Prop) (p : thread A) w ev p' w', (0 <= CacheMaxAge cfg)%Z -> disk_ok J net w ->
  okt Q p J net -> action cfg efuel p w ev p' w' -> disk_ok J (net ++ ev) w' /\ okt Q p' J (net ++ ev).
Proof.
  intros J net cfg efuel A Q p w ev p' w' CM D O H. destruct H as [folder file k w r w' H|folder file chunks ok k w r w' H|c k w r w' H]; cbn [okt] in O.
  - destruct O as (F & O). rewrite app_nil_r. split; [eapply disk_lookup; eauto|apply O; apply incl_refl].
  - destruct O as (F & G & O). rewrite app_nil_r. split; [eapply disk_store; eauto|apply O; apply incl_refl].
  - destruct O as (F & O). assert (I1 : incl net (net ++ event_of c r)) by (apply incl_appl, incl_refl).
    assert (D' : disk_ok J (net ++ event_of c r) w) by (eapply disk_mono; [apply incl_refl|exact I1|exact D]).
    split; [eapply disk_call; eauto|]. apply O; auto; [apply incl_refl|]. destruct c; try exact I; cbn [reply_ok].
    + intros d -> T. apply D'; auto. apply H.
    + split; [apply in_or_app; right; left; reflexivity|]. destruct H as (_ & _ & H). intros N. destruct (Nat.eq_dec (length (q_unread q)) (length (q_body q))); auto. destruct N; auto.
Qed.

Theorem runs_good : forall J s, runs ext J s -> good_state J s.
Proof.
  intros J s H. induction H as [w E|J s j fuel H IH HR|J before j p after w net cfg efuel ev p' w' H IH CM A|J ws w net w' H IH E C|J before j p after w net cfg efuel w1 w' H IH CM A E C].
  - split; [|intros j p []]. intros p d _ C. cbn [disk] in C. unfold content in C. rewrite E in C. discriminate.
  - destruct IH as (D & W). assert (I1 : incl J (j :: J)) by (apply incl_tl, incl_refl). split.
    + eapply disk_mono; [exact I1|apply incl_refl|exact D].
    + cbn [workers network]. intros j' p' [X|X].
      * injection X as <- <-. split; [left; reflexivity|]. apply okt_program; [left; reflexivity|exact HR].
      * apply W in X as (X1 & X2). split; [right; auto|]. eapply okt_mono; [apply answer_mono|exact I1|apply incl_refl|exact X2].
  - destruct IH as (D & W). cbn [disk network workers] in *. destruct (W j p) as (HJ & O); [apply in_or_app; right; left; reflexivity|].
    destruct (action_good _ _ _ _ _ _ _ _ _ _ _ CM D O A) as (D' & O'). split; auto. cbn [network workers]. intros j' q X.
    apply in_app_or in X as [X|[X|X]].
    + destruct (W j' q) as (X1 & X2); [apply in_or_app; auto|]. split; auto. eapply okt_mono; [apply answer_mono|apply incl_refl|apply incl_appl, incl_refl|exact X2].
    + injection X as <- <-. auto.
    + destruct (W j' q) as (X1 & X2); [apply in_or_app; right; right; auto|]. split; auto.
      eapply okt_mono; [apply answer_mono|apply incl_refl|apply incl_appl, incl_refl|exact X2].
  - destruct IH as (D & W). split; [|intros j p []]. cbn [disk network workers] in *. intros p d T X. apply D; auto. eapply cached_content; eauto.
  - destruct IH as (D & W). split; [|intros ? ? []]. cbn [disk network workers] in *. destruct (W j p) as (HJ & O); [apply in_or_app; right; left; reflexivity|].
    assert (D1 : disk_ok J net w1).
    { destruct A as [folder file k w rest w1 A|folder file chunks ok k w rest w1 A]; cbn [okt] in O.
      - eapply disk_lookup; eauto.
      - destruct O as (F & G & O). eapply disk_store; eauto. }
    intros q d T X. apply D1; auto. eapply cached_content; eauto.
Qed.
End Service.

(** ** Execution of a given schedule *)

Inductive move := Start (j : job) | Act (worker : nat) | Restart.

Definition answer_call (server : str -> option response) (w : world) (c : syscall) : option (reply c * world) :=
  match c return option (reply c * world) with
  | SConvert src dst => Some (true, mkWorld (mkFile dst !"png" (clock w) :: delete dst (files w)) (clock w))
  | c => answer_net server w c
  end.

Definition act {A} (server : str -> option response) (cfg : cache_config) (efuel : nat) (p : thread A) (w : world) : option (list net_event * thread A * world) :=
  match p with
  | TRet _ => None
  | TLookup folder file k => match exec (GetFile cfg folder file) w with Some (r, w') => Some ([], k r, w') | None => None end
  | TStore folder file chunks ok k => match exec (CacheToFile cfg efuel folder file chunks ok) w with Some (r, w') => Some ([], k r, w') | None => None end
  | TCall c k => match answer_call server w c with Some (r, w') => Some (event_of c r, k r, w') | None => None end
  end.

Definition is_result (j : job) : bool := match j with Result _ _ _ => true | _ => false end.

Definition do_move (ext : externals) (server : str -> option response) (cfg : cache_config) (m : move) (x : list job * state) : option (list job * state) :=
  let '(J, s) := x in
  match m with
  | Start j => if is_result j then None else Some (j :: J, mkState ((j, program ext 3 j) :: workers s) (disk s) (network s))
  | Act i =>
    match nth_error (workers s) i with
    | Some (j, p) =>
      match act server cfg 3 p (disk s) with
      | Some (ev, p', w') => Some (J, mkState (firstn i (workers s) ++ (j, p') :: skipn (S i) (workers s)) w' (network s ++ ev))
      | None => None
      end
    | None => None
    end
  | Restart => Some (J, mkState [] (mkWorld (cached (disk s)) (clock (disk s))) (network s))
  end.

Fixpoint schedule (ext : externals) (server : str -> option response) (cfg : cache_config) (ms : list move) (x : list job * state) : option (list job * state) :=
  match ms with
  | [] => Some x
  | m :: ms' => match do_move ext server cfg m x with Some x' => schedule ext server cfg ms' x' | None => None end
  end.

Lemma answer_net_step : forall server w c r w', answer_net server w c = Some (r, w') -> sys_step true w c r w'.
Proof.
  intros server w c r w' H. assert (T : tends false (Call c (fun x => Ret x)) w (event_of c r ++ []) r w').
  { apply (exec_net_tends server). cbn [exec_net]. rewrite H. reflexivity. }
  apply tends_call in T as (x & w1 & tr & E & T & _). apply tends_ret in T as (<- & _ & ->). apply sys_step_faulty. exact E.
Qed.

Lemma answer_call_step : forall server w c r w', answer_call server w c = Some (r, w') -> sys_step true w c r w'.
Proof.
  intros server w c r w' H. destruct c; try (apply (answer_net_step server); exact H). injection H as <- <-. unfold sys_step. split; [apply Z.le_refl|]. eexists. reflexivity.
Qed.

Lemma act_action : forall A server cfg efuel (p : thread A) w ev p' w', act server cfg efuel p w = Some (ev, p', w') -> action cfg efuel p w ev p' w'.
Proof.
  intros A server cfg efuel p w ev p' w' H. destruct p as [a|folder file k|folder file chunks ok k|c k]; cbn [act] in H; [discriminate|..].
  - destruct (exec _ w) as [[r x]|] eqn:E; [|discriminate]. injection H as <- <- <-. constructor. apply steps_faulty, exec_ends. exact E.
  - destruct (exec _ w) as [[r x]|] eqn:E; [|discriminate]. injection H as <- <- <-. constructor. apply steps_faulty, exec_ends. exact E.
  - destruct (answer_call server w c) as [[r x]|] eqn:E; [|discriminate]. injection H as <- <- <-. constructor. eapply answer_call_step; eauto.
Qed.

Lemma nth_split : forall A (l : list A) i x, nth_error l i = Some x -> l = firstn i l ++ x :: skipn (S i) l.
Proof. induction l as [|y l IH]; intros [|i] x H; try discriminate; [injection H as ->; reflexivity|]. cbn [firstn app skipn]. f_equal. apply IH. exact H. Qed.

Lemma schedule_runs : forall ext server cfg ms J s J' s', (0 <= CacheMaxAge cfg)%Z -> runs ext J s -> schedule ext server cfg ms (J, s) = Some (J', s') -> runs ext J' s'.
Proof.
  intros ext server cfg ms. induction ms as [|m ms IH]; intros J s J' s' CM R H; cbn [schedule] in H; [injection H as <- <-; exact R|].
  destruct (do_move ext server cfg m (J, s)) as [[J1 s1]|] eqn:E; [|discriminate]. eapply IH; [exact CM| |exact H]. clear IH H. destruct m; cbn [do_move] in E.
  - destruct (is_result j) eqn:IR; [discriminate|]. injection E as <- <-. apply run_start; [exact R|]. intros folder file chunks ->. discriminate.
  - destruct (nth_error (workers s) worker) as [[j p]|] eqn:N; [|discriminate]. destruct (act server cfg 3 p (disk s)) as [[[ev p'] w']|] eqn:AC; [|discriminate].
    injection E as <- <-. refine (run_action ext J (firstn worker (workers s)) j p (skipn (S worker) (workers s)) (disk s) (network s) cfg 3 ev p' w' _ CM (act_action _ _ _ _ _ _ _ _ _ AC)). rewrite <- (nth_split _ _ _ _ N). destruct s; exact R.
  - injection E as <- <-. destruct s as [ws w net]. eapply run_crash; [exact R|reflexivity|]. reflexivity.
Qed.
