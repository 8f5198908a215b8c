(** * Lemmas: the picture files a worker has seen on the disk, and who brings them back *)

From Coq Require Import Ascii String.
From Coq Require Import List Arith ZArith Bool Lia.
From Verif Require Import GoStr GoStrFacts UtilModel ConfigModel CacheModel CacheSpec CacheProofs PropCache HttpModel HttpSpec HttpProofs ServiceModel ServiceSpec ServiceProofs ImageSpec ImageFileProofs.
Import ListNotations.
Local Open Scope list_scope.

(** ** Files that exist after an action *)

Definition seen_call (c : syscall) : reply c -> list path :=
  match c return reply c -> list path with
  | SExists p => fun r : bool => if r then [p] else []
  | SConvert _ p => fun r : bool => if r then [p] else []
  | _ => fun _ => []
  end.
Definition seen_lookup (p : path) (r : res bool) : list path := match r with Ok true => [p] | _ => [] end.
Definition seen_store (p : path) (r : res unit) : list path := match r with Ok _ => [p] | _ => [] end.

(** [Q] holds at the end for the files seen by then. *)
Fixpoint ends_with {A} (Q : list path -> A -> Prop) (H : list path) (p : thread A) : Prop :=
  match p with
  | TRet a => Q H a
  | TLookup folder file k => forall r, ends_with Q (seen_lookup (cache_path folder file) r ++ H) (k r)
  | TStore folder file _ _ k => forall r, ends_with Q (seen_store (cache_path folder file) r ++ H) (k r)
  | TCall c k => forall r, ends_with Q (seen_call c r ++ H) (k r)
  end.

Definition gives {A} (P : list path -> A -> Prop) (H : list path) (r : res A) : Prop := match r with Ok a => P H a | _ => True end.

Lemma ends_weaken : forall A (Q Q' : list path -> A -> Prop) p H H', incl H H' ->
  (forall G G' a, incl H G -> incl G G' -> Q G a -> Q' G' a) -> ends_with Q H p -> ends_with Q' H' p.
Proof.
  intros A Q Q' p. induction p as [a|f n k IH|f n c o k IH|c k IH]; intros H H' I W X; cbn [ends_with] in *.
  - eapply W; [apply incl_refl|exact I|exact X].
  - intros r. eapply IH; [apply incl_app_app; [apply incl_refl|exact I]| |apply X]. intros G G' a Y. apply W. eapply incl_tran; [|exact Y]. apply incl_appr, incl_refl.
  - intros r. eapply IH; [apply incl_app_app; [apply incl_refl|exact I]| |apply X]. intros G G' a Y. apply W. eapply incl_tran; [|exact Y]. apply incl_appr, incl_refl.
  - intros r. eapply IH; [apply incl_app_app; [apply incl_refl|exact I]| |apply X]. intros G G' a Y. apply W. eapply incl_tran; [|exact Y]. apply incl_appr, incl_refl.
Qed.

Lemma ends_bind : forall A C Q (p : thread A) (f : A -> thread C) H, ends_with (fun G a => ends_with Q G (f a)) H p -> ends_with Q H (tbind p f).
Proof. intros A C Q p f. induction p as [a|fo n k IH|fo n c o k IH|c k IH]; intros H X; cbn [ends_with tbind] in *; auto. Qed.

Lemma ends_any : forall A (Q : list path -> A -> Prop) (p : thread A) H, (forall G a, incl H G -> Q G a) -> ends_with Q H p.
Proof.
  intros A Q p. induction p as [a|fo n k IH|fo n c o k IH|c k IH]; intros H X; cbn [ends_with]; try (apply X, incl_refl);
    (intros r; apply IH; intros G a Y; apply X; eapply incl_tran; [|exact Y]; apply incl_appr, incl_refl).
Qed.

(** A monotone predicate *)
Definition grows {A} (P : list path -> A -> Prop) : Prop := forall H H' a, incl H H' -> P H a -> P H' a.

Lemma ends_mono : forall A (P : list path -> A -> Prop) p H H', grows P -> incl H H' -> ends_with (gives P) H p -> ends_with (gives P) H' p.
Proof. intros A P p H H' M I. apply ends_weaken; auto. intros G G' [a| | |] _ J; cbn [gives]; auto. apply M; auto. Qed.

Lemma ends_ok : forall A C (P : list path -> A -> Prop) (Q : list path -> C -> Prop) p f H, ends_with (gives P) H p ->
  (forall a G, incl H G -> P G a -> ends_with (gives Q) G (f a)) -> ends_with (gives Q) H (t_ok p f).
Proof.
  intros A C P Q p f H X Y. unfold t_ok. apply ends_bind. revert X Y.
  induction p as [[a| | |]|fo n k IH|fo n c o k IH|c k IH] in H |- *; intros X Y; cbn [ends_with gives] in *; auto;
    try (intros r; apply IH; auto; intros a G I; apply Y; eapply incl_tran; [|exact I]; apply incl_appr, incl_refl).
  apply Y; auto. apply incl_refl.
Qed.

(** ** Programs after which a file exists *)

Definition owes {A} (x : path) (p : thread (res A)) : Prop := ends_with (gives (fun H _ => In x H)) [] p.

Lemma owes_seen : forall A x (p : thread (res A)) H, In x H -> ends_with (gives (fun H _ => In x H)) H p.
Proof. intros A x p H I. apply ends_any. intros G [a| | |] J; cbn [gives]; auto. Qed.

Lemma owes_unseen : forall A x (p : thread (res A)) H, ~ In x H -> ends_with (gives (fun H _ => In x H)) H p -> owes x p.
Proof.
  intros A x p. unfold owes.
  enough (G : forall H H', (In x H -> In x H') -> ends_with (gives (fun H _ => In x H)) H p -> ends_with (gives (fun H _ => In x H)) H' p)
    by (intros H N; apply G; intros X; contradiction).
  induction p as [[a| | |]|fo n k IH|fo n c o k IH|c k IH]; intros H H' I X; cbn [ends_with gives] in *; auto;
    (intros r; eapply IH; [|apply X]; intros Y; apply in_app_or in Y as [Y|Y]; apply in_or_app; auto).
Qed.

Lemma owes_more : forall A x (p : thread (res A)) H, owes x p -> ends_with (gives (fun H _ => In x H)) H p.
Proof. intros A x p H. apply ends_mono; [intros G G' a I; apply I|intros y []]. Qed.

Lemma owes_bind : forall A C x (p : thread (res A)) (f : res A -> thread (res C)), owes x p -> (forall r, (forall a, r <> Ok a) -> owes x (f r)) -> owes x (tbind p f).
Proof.
  intros A C x p f O F. unfold owes in O |- *. apply ends_bind. eapply ends_weaken; [apply incl_refl| |exact O]. intros G G' [a| | |] _ I X; cbn [gives] in X.
  - apply owes_seen. auto.
  - apply owes_more, F. discriminate.
  - apply owes_more, F. discriminate.
  - apply owes_more, F. discriminate.
Qed.

(** After a look for a picture that was not there, the picture is brought back. *)
Fixpoint careful {A} (X : path -> Prop) (p : thread (res A)) : Prop :=
  match p with
  | TRet _ => True
  | TLookup folder file k => In folder cache_folders /\ (folder = ImageCacheDirName -> X (cache_path folder file)) /\
      forall r, careful X (k r) /\ (folder = ImageCacheDirName -> r <> Ok true -> owes (cache_path folder file) (k r))
  | TStore folder file _ _ k => In folder cache_folders /\ forall r, careful X (k r)
  | TCall c k => allowed c /\ forall r, careful X (k r)
  end.

Lemma careful_weaken : forall A (X X' : path -> Prop) (p : thread (res A)), (forall x, X x -> X' x) -> careful X p -> careful X' p.
Proof.
  intros A X X' p W. induction p as [a|fo n k IH|fo n c o k IH|c k IH]; cbn [careful]; auto.
  - intros (H1 & H2 & H3). split; auto. split; auto. intros r. destruct (H3 r). auto.
  - intros (H1 & H2). auto.
  - intros (H1 & H2). auto.
Qed.

Lemma careful_bind : forall A C X (p : thread (res A)) (f : res A -> thread (res C)), careful X p -> (forall r, careful X (f r)) ->
  (forall r x, (forall a, r <> Ok a) -> X x -> owes x (f r)) -> careful X (tbind p f).
Proof.
  intros A C X p f H F O. induction p as [a|fo n k IH|fo n c o k IH|c k IH]; cbn [careful tbind] in *; auto.
  - destruct H as (H1 & H2 & H3). split; auto. split; auto. intros r. destruct (H3 r) as (H4 & H5). split; auto. intros E R. apply owes_bind; auto.
  - destruct H. auto.
  - destruct H. auto.
Qed.

Definition anywhere (x : path) : Prop := True.

Lemma careful_ok : forall A C X (p : thread (res A)) (f : A -> thread (res C)), careful X p -> (forall a, careful X (f a)) -> careful X (t_ok p f).
Proof. intros A C X p f H F. apply careful_bind; auto; intros [a| | |]; cbn [careful]; auto; intros x N _; try exact I. destruct (N a eq_refl). Qed.

Lemma careful_map : forall A X (f : A -> answer) p, careful X p -> careful X (t_map f p).
Proof. intros. apply careful_ok; auto. intros a. exact I. Qed.

(** ** The functions *)

Section Functions.
Variables (ext : externals) (fuel : nat) (wiki : wiki_config).

Lemma careful_request : forall X q, careful X (t_doRequest fuel q).
Proof.
  intros X. induction fuel as [|n IH]; intros q; cbn [t_doRequest careful]; auto. split; [exact I|]. intros [r|]; cbn [careful]; auto.
  destruct (a_status r =? 429)%Z; [cbn [careful]; split; [exact I|auto]|]. destruct (negb (a_status r =? 200)%Z); cbn [careful]; auto. destruct (negb _); cbn [careful]; auto.
Qed.

Lemma ends_download : forall url folder file H, ends_with (gives (fun H r => fst r = cache_path folder file /\ In (cache_path folder file) H)) H (t_DownloadAndCache fuel url folder file).
Proof.
  intros url folder file H. unfold t_DownloadAndCache.
  apply ends_ok with (P := fun H (b : bool) => b = true -> In (cache_path folder file) H).
  - cbn [t_lookup ends_with]. intros [[|]| | |]; cbn [gives seen_lookup app]; auto. intros _; left; auto. discriminate.
  - intros [|] G _ X; [cbn [ends_with gives fst]; auto|]. apply ends_ok with (P := fun _ _ => True); [apply ends_any; intros G' [] _; exact I|].
    intros r G1 _ _. apply ends_ok with (P := fun H _ => In (cache_path folder file) H).
    + cbn [t_store ends_with]. intros [[]| | |]; cbn [gives seen_store app]; auto. left. auto.
    + intros _ G2 _ Y. cbn [ends_with gives fst]. auto.
Qed.

Lemma owes_download : forall url folder file, owes (cache_path folder file) (t_DownloadAndCache fuel url folder file).
Proof.
  intros. eapply ends_weaken; [apply incl_refl| |apply ends_download]. intros G G' [a| | |] _ I X; cbn [gives] in *; auto. apply I, X.
Qed.

Lemma careful_download : forall (X : path -> Prop) url folder file, In folder cache_folders -> (folder = ImageCacheDirName -> X (cache_path folder file)) ->
  careful X (t_DownloadAndCache fuel url folder file).
Proof.
  intros X url folder file F XF. pose proof (owes_download url folder file) as O. unfold t_DownloadAndCache, owes in *. cbn [t_ok t_lookup tbind ends_with] in O.
  cbn [t_ok t_lookup tbind careful]. split; auto. split; auto. intros r. split.
  - destruct r as [[|]| | |]; try exact I. apply careful_ok; [apply careful_request|]. intros a. apply careful_ok; [cbn [t_store careful]; auto|]. intros; exact I.
  - intros _ N. specialize (O r). destruct r as [[|]| | |]; cbn [seen_lookup app] in O; auto. congruence.
Qed.

Lemma careful_article : forall X host title, careful X (t_DownloadArticle ext fuel host title).
Proof.
  intros. apply careful_ok; [apply careful_download; [vm_compute; tauto|discriminate]|]. intros (p & b). cbn [careful]. split; [exact I|].
  intros [d|]; [|exact I]. destruct (json_article_title ext d); exact I.
Qed.

Definition original_path (n : str) : path := cache_path ImageCacheDirName (replace_all !" " !"_" n).
Definition picture_path (n : str) : path := [ImageCacheDirName; stored_name wiki (replace_all !" " !"_" n)].

Lemma after_file : forall image n, after_colon image = Ok n -> after_colon (!"File:" ++ n) = Ok n.
Proof.
  intros image n A. unfold after_colon in *. change !":" with [":"%char] in *. change (!"File:" ++ n) with (!"File" ++ ":"%char :: n).
  rewrite split_single_app by (cbn; intuition discriminate). cbn [nth_error].
  pose proof (split_single_pieces ":" image) as P. destruct (split [":"%char] image) as [|a [|b l]]; try discriminate. injection A as ->.
  rewrite split_single_none; auto. exact (Forall_inv (Forall_inv_tail P)).
Qed.

Definition its_path (n : str) (H : list path) (r : path * bool) : Prop := fst r = original_path n /\ In (original_path n) H.

(** Programs that change images within the images folder only *)
Lemma careful_ok_post : forall A C X (P : list path -> A -> Prop) (p : thread (res A)) (f : A -> thread (res C)) H, careful X p -> ends_with (gives P) H p ->
  (forall a G, P G a -> careful X (f a)) -> careful X (t_ok p f).
Proof.
  intros A C X P p f H0 H E F. unfold t_ok. revert H0 E.
  induction p as [[a| | |]|fo n k IH|fo n c o k IH|c k IH]; intros H0 E; cbn [careful tbind ends_with gives] in *; auto.
  - eapply F; eauto.
  - destruct H as (H1 & H2 & H3). split; auto. split; auto. intros r. destruct (H3 r) as (H4 & H5). split; [eapply IH; eauto|]. intros Y R. apply owes_bind; auto.
    intros [a| | |] N; try exact I. destruct (N a eq_refl).
  - destruct H. split; auto. intros r. eapply IH; eauto.
  - destruct H. split; auto. intros r. eapply IH; eauto.
Qed.

Lemma ends_image : forall host image n H, after_colon image = Ok n -> ends_with (gives (its_path n)) H (t_downloadImage ext wiki fuel host image).
Proof.
  intros host image n H A. unfold t_downloadImage. rewrite A. apply ends_ok with (P := fun _ _ => True); [apply ends_any; intros G [] _; exact I|]. intros (t & x) G _ _.
  rewrite (after_file _ _ A). destruct (after_colon t) as [c| | |]; try exact I. eapply ends_ok; [apply ends_download|]. intros (p & b) G' _ (E1 & E2). cbn [fst] in E1. subst p.
  destruct (b && _ && _); cbn [ends_with gives seen_call app]; intros; split; auto.
Qed.

Lemma careful_image : forall (X : path -> Prop) host image, (forall n, after_colon image = Ok n -> X (original_path n)) -> careful X (t_downloadImage ext wiki fuel host image).
Proof.
  intros X host image H. unfold t_downloadImage. destruct (after_colon image) as [n| | |] eqn:A; try exact I. apply careful_ok; [apply careful_article|]. intros (t & x).
  rewrite (after_file _ _ A). destruct (after_colon t) as [c| | |]; try exact I. eapply careful_ok_post with (H := []); [apply careful_download; [vm_compute; tauto|intros _; apply H; auto]|apply ends_download|].
  intros (p & b) G (E & _). cbn [fst] in E. subst p. destruct (b && _ && _) eqn:E; [|exact I]. cbn [careful]. split; [eexists; reflexivity|intros; exact I].
Qed.

Lemma careful_rescale : forall X p b, in_images p -> careful X (t_rescale wiki p b).
Proof. intros X p b P. unfold t_rescale. destruct (b && _ && _ && _); [|exact I]. cbn [careful]. split; [exact P|intros; exact I]. Qed.

Lemma careful_post : forall X p b, in_images p -> careful X (t_postProcessImage wiki p b).
Proof.
  intros X p b P. assert (PP : in_images (png_path p)) by (destruct P as (n & ->); eexists; reflexivity).
  unfold t_postProcessImage. destruct (_ || _); [|apply careful_rescale; auto]. cbn [careful]. split; [exact I|]. intros [|]; [apply careful_rescale; auto|].
  cbn [careful]. split; [exact PP|]. intros [|]; [apply careful_rescale; auto|exact I].
Qed.

Lemma ends_rescale : forall (P : list path -> unit -> Prop) p b H, (forall G, incl H G -> P G tt) -> ends_with (gives P) H (t_rescale wiki p b).
Proof. intros P p b H X. apply ends_any. intros G [[]| | |] I; cbn [gives]; auto. Qed.

Lemma ends_post : forall n b H, In (original_path n) H -> ends_with (gives (fun H _ => In (original_path n) H /\ In (picture_path n) H)) H (t_postProcessImage wiki (original_path n) b).
Proof.
  intros n b H O. unfold t_postProcessImage, picture_path, stored_name, original_path, cache_path in *. cbn [last].
  set (file := replace_all !" " !"_" n) in *. fold (is_converted wiki file). destruct (is_converted wiki file).
  - change (png_path [ImageCacheDirName; SanitizeFilename file]) with [ImageCacheDirName; SanitizeFilename file ++ !".png"]. cbn [ends_with]. intros [|]; cbn [seen_call app].
    + apply ends_rescale. intros G I. split; apply I; [right; auto|left; auto].
    + cbn [ends_with]. intros [|]; cbn [seen_call app]; [|exact I]. apply ends_rescale. intros G I. split; apply I; [right; auto|left; auto].
  - rewrite app_nil_r. apply ends_rescale. intros G I. auto.
Qed.

Lemma ends_sources : forall image n hosts e H, after_colon image = Ok n -> e = true \/ hosts <> [] ->
  ends_with (gives (fun H _ => In (original_path n) H /\ In (picture_path n) H)) H (t_try_sources ext wiki fuel image e hosts).
Proof.
  intros image n. induction hosts as [|h hosts IH]; intros e H A E; cbn [t_try_sources].
  - destruct E as [->|E]; [exact I|congruence].
  - apply ends_bind. eapply ends_weaken; [apply incl_refl| |apply (ends_image h image n H A)]. intros G G' [(p & b)| | |] _ J X; cbn [gives] in *; try exact I.
    + destruct X as (X1 & X2). cbn [fst] in X1. subst p. apply ends_post. auto.
    + apply IH; auto.
Qed.

Lemma careful_sources : forall image n hosts e, after_colon image = Ok n -> e = true \/ hosts <> [] -> careful (eq (original_path n)) (t_try_sources ext wiki fuel image e hosts).
Proof.
  intros image n. induction hosts as [|h hosts IH]; intros e A E; cbn [t_try_sources]; [destruct E; exact I|].
  assert (O : owes (original_path n) (t_try_sources ext wiki fuel image true hosts)).
  { eapply ends_weaken; [apply incl_refl| |apply (ends_sources image n hosts true [] A (or_introl eq_refl))]. intros G G' [a| | |] _ J X; cbn [gives] in *; auto. apply J, X. }
  assert (C : careful (eq (original_path n)) (t_downloadImage ext wiki fuel h image)) by (apply careful_image; intros m M; congruence).
  pose proof (ends_image h image n [] A) as W. revert C W. generalize (t_downloadImage ext wiki fuel h image). intros p. generalize (@nil path).
  induction p as [[(q & b)| | |]|fo f k IHp|fo f c o k IHp|c k IHp]; intros G C W; cbn [careful tbind ends_with gives] in *; try exact I; auto.
  - destruct W as (W & _). cbn [fst] in W. subst q. apply careful_post. eexists. reflexivity.
  - destruct C as (H1 & H2 & H3). split; auto. split; auto. intros r. destruct (H3 r) as (H4 & H5). split; [eapply IHp; eauto|]. intros Y R. rewrite <- H2 by auto. apply owes_bind.
    + rewrite H2 by auto. apply H5; auto.
    + intros [a| | |] N; try exact I; auto. destruct (N a eq_refl).
  - destruct C. split; auto. intros r. eapply IHp; eauto.
  - destruct C. split; auto. intros r. eapply IHp; eauto.
Qed.

Lemma panics_sources : forall image hosts e, (forall n, after_colon image <> Ok n) -> e = true \/ hosts <> [] ->
  t_try_sources ext wiki fuel image e hosts = TRet (if hosts then Err else Panic).
Proof.
  intros image hosts e N E. destruct hosts as [|h hosts]; cbn [t_try_sources]; [destruct E as [->|E]; [auto|congruence]|]. unfold t_downloadImage.
  destruct (after_colon image) as [n| | |]; auto. destruct (N n eq_refl).
Qed.

Lemma ends_images : forall images H, wikipediaImageArticleHosts wiki <> [] ->
  ends_with (gives (fun H _ => forall image n, In image images -> after_colon image = Ok n -> In (picture_path n) H)) H (t_DownloadImages ext wiki fuel images).
Proof.
  intros images H HN. induction images as [|i images IH] in H |- *; cbn [t_DownloadImages].
  - cbn [ends_with gives]. intros image n [].
  - apply ends_ok with (P := fun H _ => forall n, after_colon i = Ok n -> In (picture_path n) H).
    + destruct (after_colon i) as [n| | |] eqn:A; try (apply ends_any; intros G [[]| | |] _; cbn [gives]; auto; discriminate).
      eapply ends_weaken; [apply incl_refl| |apply (ends_sources i n _ false H A (or_intror HN))]. intros G G' [a| | |] _ J X; cbn [gives] in *; auto.
      intros m M. injection M as <-. apply J, X.
    + intros _ G _ X. apply ends_weaken with (H := G) (Q := gives (fun H _ => incl G H /\ forall image n, In image images -> after_colon image = Ok n -> In (picture_path n) H)); [apply incl_refl| |].
      * intros G1 G2 [a| | |] _ J Y; cbn [gives] in *; auto. destruct Y as (Y1 & Y2). intros image n [<-|I1] A; [apply J, Y1, X, A|apply J; eauto].
      * specialize (IH G). revert IH. generalize (t_DownloadImages ext wiki fuel images). intros p Y.
        assert (Z : forall K, incl K G -> ends_with (gives (fun H _ => incl K H /\ forall image n, In image images -> after_colon image = Ok n -> In (picture_path n) H)) G p).
        { clear X. revert Y. induction p as [[a| | |]|fo f k IHp|fo f c o k IHp|c k IHp] in G |- *; intros Y K J; cbn [ends_with gives] in *; auto;
            (intros r; apply IHp; auto; apply incl_appr; auto). }
        apply Z, incl_refl.
Qed.

Lemma careful_images : forall images, careful anywhere (t_DownloadImages ext wiki fuel images).
Proof.
  induction images as [|i images IH]; cbn [t_DownloadImages]; [exact I|]. apply careful_ok; auto.
  destruct (wikipediaImageArticleHosts wiki) as [|h hosts] eqn:E; [exact I|]. destruct (after_colon i) as [n| | |] eqn:A.
  - eapply careful_weaken; [|apply careful_sources; [exact A|right; discriminate]]. intros; exact I.
  - rewrite panics_sources; [exact I|congruence|right; discriminate].
  - rewrite panics_sources; [exact I|congruence|right; discriminate].
  - rewrite panics_sources; [exact I|congruence|right; discriminate].
Qed.

Lemma careful_template : forall X template file, careful X (t_EvaluateTemplate ext wiki fuel template file).
Proof. intros. apply careful_ok; [apply careful_download; [vm_compute; tauto|discriminate]|]. intros (p & b). cbn [careful]. split; [exact I|]. intros [d|]; exact I. Qed.

Lemma careful_resource : forall X formula, careful X (t_getMathResource ext wiki fuel formula).
Proof.
  intros. unfold t_getMathResource. set (request := t_ok (t_doRequest fuel _) _).
  assert (Q : careful X request).
  { apply careful_ok; [apply careful_request|]. intros r. destruct (str_eqb (a_location r) []); [exact I|]. apply careful_ok; [|intros; exact I]. cbn [t_store careful]. split; [vm_compute; tauto|intros; exact I]. }
  cbn [t_lookup tbind careful]. split; [vm_compute; tauto|]. split; [discriminate|]. intros r. split; [|discriminate].
  destruct r as [[|]| | |]; auto; try exact I. cbn [careful]. split; [exact I|]. intros; exact I.
Qed.

Lemma careful_math : forall converter formula, careful anywhere (t_RenderMath ext wiki fuel converter formula).
Proof.
  intros. apply careful_ok; [apply careful_resource|]. intros name. apply careful_ok; [apply careful_download; [vm_compute; tauto|intros; exact I]|]. intros (svg & b). destruct converter; try exact I.
  - apply careful_ok; [apply careful_download; [vm_compute; tauto|intros; exact I]|]. intros (png & b2). exact I.
  - cbn [careful]. split; [eexists; reflexivity|]. intros; exact I.
Qed.

Lemma ends_math : forall converter formula H, ends_with (gives (fun H r => In (fst r) H /\ In (snd r) H)) H (t_RenderMath ext wiki fuel converter formula).
Proof.
  intros. unfold t_RenderMath. apply ends_ok with (P := fun _ _ => True); [apply ends_any; intros G [] _; exact I|]. intros name G _ _.
  eapply ends_ok; [apply ends_download|]. intros (svg & b) G1 _ (E1 & E2). cbn [fst] in E1. subst svg. destruct converter; try exact I.
  - cbn [ends_with gives fst snd]. auto.
  - eapply ends_ok.
    + apply ends_weaken with (H := G1) (Q := fun G r => incl G1 G /\ gives (fun H r => fst r = cache_path ImageCacheDirName (name ++ !".png") /\ In (fst r) H) G r); [apply incl_refl| |].
      * intros G2 G3 r _ J (Y1 & Y2). instantiate (1 := fun H r => In (cache_path ImageCacheDirName (name ++ !".svg")) H /\ In (fst r) H). destruct r as [a| | |]; cbn [gives] in *; auto. split; [apply J, Y1, E2|]. apply J, Y2.
      * pose proof (ends_download (wikipediaMathRestApi wiki ++ !"/render/png/" ++ name) ImageCacheDirName (name ++ !".png") G1) as Y. revert Y. generalize (t_DownloadAndCache fuel (wikipediaMathRestApi wiki ++ !"/render/png/" ++ name) ImageCacheDirName (name ++ !".png")). intros p Y.
        assert (Z : forall K, incl K G1 -> ends_with (fun G r => incl K G /\ gives (fun H r => fst r = cache_path ImageCacheDirName (name ++ !".png") /\ In (fst r) H) G r) G1 p).
        { clear E2. revert Y. induction p as [[a| | |]|fo f k IHp|fo f c o k IHp|c k IHp] in G1 |- *; intros Y K J; cbn [ends_with gives] in *; auto;
            try (intros r; apply IHp; auto; apply incl_appr; auto). destruct Y as (Y1 & Y2). split; auto. split; auto. rewrite Y1. auto. }
        apply Z, incl_refl.
    + intros (png & b2) G2 _ (Y1 & Y2). cbn [ends_with gives fst snd] in *. auto.
  - cbn [ends_with]. intros [|]; cbn [seen_call app gives fst snd ends_with]; auto. split; [right; auto|left; auto].
Qed.
End Functions.

Lemma careful_program : forall ext fuel j, (forall folder name chunks, j = Result folder name chunks -> In folder cache_folders) -> careful anywhere (program ext fuel j).
Proof.
  intros ext fuel j F. destruct j; cbn [program]; try apply careful_map; auto using careful_article, careful_images, careful_template, careful_resource, careful_math.
  cbn [t_store careful]. split; [eapply F; reflexivity|intros; exact I].
Qed.

(** ** Actions *)

Section Actions.
Variables (ccfg : cache_config) (efuel : nat).
Hypothesis CM : (0 <= CacheMaxAge ccfg)%Z.

Lemma seen_action : forall A (p : thread (res A)) X w ev p' w', careful X p -> action ccfg efuel p w ev p' w' ->
  exists seen, (forall x, In x seen -> content w' x <> None) /\ forall Q H, ends_with Q H p -> ends_with Q (seen ++ H) p'.
Proof.
  intros A p X w ev p' w' C H. destruct H as [f file k w r w' H|f file chunks ok k w r w' H|c k w r w' H]; cbn [careful] in C.
  - exists (seen_lookup (cache_path f file) r). split; [|intros Q G E; apply E]. intros x K. destruct r as [[|]| | |]; try solve [destruct K]. destruct K as [<-|[]].
    destruct (C39_outdated_never_served _ _ _ _ _ CM H) as (g & now & _ & _ & _ & E). congruence.
  - exists (seen_store (cache_path f file) r). split; [|intros Q G E; apply E]. intros x K. destruct r as [[]| | |]; try solve [destruct K]. destruct K as [<-|[]].
    destruct C as (F & _). destruct (C35_cache_write_success _ _ _ _ _ _ _ _ _ F H) as (_ & E). congruence.
  - exists (seen_call c r). split; [|intros Q G E; apply E]. destruct C as (AL & _). clear A X k. intros y K. destruct c; cbn [allowed] in AL; try contradiction; try solve [destruct K]; destruct r; try solve [destruct K]; destruct K as [<-|[]].
    + destruct H as (E & _ & Y). unfold content. rewrite E. destruct (lookup p (files w)); [discriminate|auto].
    + destruct H as (_ & d & E). unfold content. rewrite E, lookup_cons. cbn [f_path]. destruct (path_eq_dec _ _); [discriminate|congruence].
Qed.

Lemma careful_action : forall A (p : thread (res A)) X w ev p' w', careful X p -> action ccfg efuel p w ev p' w' -> careful X p'.
Proof.
  intros A p X w ev p' w' C H. destruct H as [f file k w r w' H|f file chunks ok k w r w' H|c k w r w' H]; cbn [careful] in C.
  - destruct C as (_ & _ & C). apply C.
  - destruct C as (_ & C). apply C.
  - destruct C as (_ & C). apply C.
Qed.

(** A picture that was there is there or is brought back. *)
Lemma picture_action : forall A (p : thread (res A)) X w ev p' w' x, CacheEvictionStrategy ccfg = StrategyNone -> careful X p -> action ccfg efuel p w ev p' w' ->
  in_images x -> content w x <> None -> content w' x <> None \/ owes x p'.
Proof.
  intros A p X w ev p' w' x ST C H IX CX.
  assert (T : in_tmp x = false) by (destruct IX as (n & ->); reflexivity).
  destruct H as [f file k w r w' H|f file chunks ok k w r w' H|c k w r w' H]; cbn [careful] in C.
  - destruct C as (F & _ & C). destruct (C39_lookup_other_files_untouched _ _ _ _ _ _ CM H) as (H1 & _). destruct (path_eq_dec x (cache_path f file)) as [->|N].
    + assert (E : f = ImageCacheDirName) by (destruct IX as (n & E); injection E as -> _; reflexivity).
      assert (D : r = Ok true \/ r <> Ok true) by (destruct r as [[|]| | |]; auto; right; discriminate). destruct D as [->|D].
      * left. destruct (C39_outdated_never_served _ _ _ _ _ CM H) as (g & now & _ & _ & _ & E2). congruence.
      * right. apply C; auto.
    + left. unfold content in *. rewrite H1; auto.
  - left. destruct C as (F & _). destruct (content w x) as [d|] eqn:E; [|congruence].
    destruct (safe_inv _ _ _ _ _ (safe_steps _ _ _ _ _ _ _ H (CacheToFile_keeps true ccfg efuel f file chunks ok w x d ST F T E))) as [E2|(_ & _ & E2)]; congruence.
  - left. destruct C as (AL & _). destruct c; cbn [allowed] in AL; try contradiction.
    + destruct H as (E & _). unfold content in *. congruence.
    + destruct H as (E & _). unfold content in *. congruence.
    + destruct H as (E & _). unfold content in *. congruence.
    + destruct H as (E & _). unfold content in *. congruence.
    + eapply convert_keeps; eauto.
    + eapply rewrite_keeps; eauto.
Qed.

(** Who owes a picture brings it or still owes it. *)
Lemma owes_action : forall A (p : thread (res A)) X w ev p' w' x, careful X p -> action ccfg efuel p w ev p' w' -> owes x p -> content w' x <> None \/ owes x p'.
Proof.
  intros A p X w ev p' w' x C H O. destruct (seen_action _ _ _ _ _ _ _ C H) as (seen & S1 & S2). specialize (S2 _ _ O). rewrite app_nil_r in S2.
  destruct (in_dec path_eq_dec x seen) as [I|N]; auto. right. eapply owes_unseen; eauto.
Qed.
End Actions.
