(** * Proofs about workers whose system calls are mixed *)

From Coq Require Import Ascii String.
From Coq Require Import List Arith ZArith Bool Permutation.
From Verif Require Import GoStr GoStrFacts UtilModel UtilProofs CacheModel CacheSpec CacheProofs HttpModel HttpSpec ServiceModel ServiceSpec ServiceProofs LockModel.
Import ListNotations.
Local Open Scope list_scope.

(** ** The functions of the cache, call by call *)

(** The temporary file of a function of the cache, and its content (None: some part of the data could not be written) *)
Definition draft := option (path * option str).

Definition holds (o : draft) (w : world) : Prop :=
  match o with
  | Some (t, Some d) => in_tmp t = true /\ content w t = Some d
  | Some (t, None) => in_tmp t = true
  | None => True
  end.

(** Calls of these functions.  [goal]: the file that is to be written, and its complete content *)
Definition decent (goal : option (path * str)) (o : draft) (c : syscall) : Prop :=
  match c with
  | SWrite tmp _ => exists d, o = Some (tmp, d)
  | SRename src dst => exists d, goal = Some (dst, d) /\ o = Some (src, Some d)
  | SConvert _ _ | SRewrite _ => False
  | _ => True
  end.

Definition later (o : draft) (c : syscall) : reply c -> draft :=
  match c return reply c -> draft with
  | SCreateTemp _ => fun r => match r with Some t => Some (t, Some []) | None => o end
  | SWrite tmp chunk => fun r => match o with Some (t, Some d) => Some (t, if r then Some (d ++ chunk) else None) | _ => o end
  | SRename _ _ => fun r => if r : bool then None else o
  | SRemove p => fun _ => match o with Some (t, _) => if path_eq_dec t p then None else o | None => None end
  | _ => fun _ => o
  end.

(** Searches find no temporary files. *)
Definition found_ok (c : syscall) : reply c -> Prop :=
  match c return reply c -> Prop with
  | SFindLargest | SFindLru => fun r => match r with FoundFile _ p => in_tmp p = false | _ => True end
  | SCreateTemp _ => fun r => match r with Some t => in_tmp t = true | None => True end
  | _ => fun _ => True
  end.

Fixpoint tidy {B} (goal : option (path * str)) (Q : draft -> B -> Prop) (o : draft) (p : prog B) : Prop :=
  match p with
  | Ret b => Q o b
  | Call c k => decent goal o c /\ forall r, found_ok c r -> tidy goal Q (later o c r) (k r)
  end.

Lemma tidy_bind : forall B C goal (Q : draft -> C -> Prop) (p : prog B) (f : B -> prog C) o,
  tidy goal (fun o b => tidy goal Q o (f b)) o p -> tidy goal Q o (pbind p f).
Proof. intros B C goal Q p f. induction p as [b|c k IH]; intros o H; cbn [pbind tidy] in *; auto. destruct H as [H1 H2]. split; auto. Qed.

Lemma tidy_weaken : forall B goal (Q Q' : draft -> B -> Prop) (p : prog B) o, (forall o b, Q o b -> Q' o b) -> tidy goal Q o p -> tidy goal Q' o p.
Proof. intros B goal Q Q' p. induction p as [b|c k IH]; intros o W H; cbn [tidy] in *; auto. destruct H as [H1 H2]. split; auto. Qed.

Definition any {B} (o : draft) (b : B) : Prop := True.

Lemma tidy_lookup : forall cfg folder file, tidy None any None (GetFile cfg folder file).
Proof.
  intros cfg folder file. unfold GetFile, isOutdated. cbn [pbind tidy decent later found_ok]. split; auto. intros [mtime| |] _; cbn [pbind tidy]; try exact I.
  split; [exact I|]. intros now _. cbn [pbind tidy later].
  assert (T : forall r o, tidy None any o (touch cfg (cache_path folder file) r)).
  { intros r o. unfold touch. destruct (CacheEvictionStrategy cfg); cbn [tidy decent later found_ok]; try exact I. repeat (split || intros || exact I). }
  destruct (_ <? _)%Z; cbn [tidy decent later found_ok]; auto. split; auto. intros [|] _; auto. exact I.
Qed.

Lemma tidy_then : forall goal (Q : draft -> res unit -> Prop) p q o, (forall o r, (forall x, r <> Ok x) -> Q o r) ->
  tidy goal (fun o r => forall x, r = Ok x -> tidy goal Q o q) o p -> tidy goal Q o (then_ok p q).
Proof.
  intros goal Q p q o E H. unfold then_ok. apply tidy_bind. eapply tidy_weaken; [|exact H]. intros o' [x| | |] W; cbn [tidy]; eauto; apply E; discriminate.
Qed.

Lemma tidy_copy : forall goal tmp ok chunks d, tidy goal (fun o r => forall x, r = Ok x -> ok = true /\ o = Some (tmp, Some (d ++ concat chunks))) (Some (tmp, Some d)) (Copy tmp chunks ok).
Proof.
  intros goal tmp ok. induction chunks as [|c chunks IH]; intros d; cbn [Copy tidy concat].
  - rewrite app_nil_r. intros x. destruct ok; [auto|discriminate].
  - split; [eexists; reflexivity|]. intros [|] _; cbn [later].
    + rewrite app_assoc. apply IH.
    + cbn [tidy]. intros x. discriminate.
Qed.

Lemma tidy_evict : forall goal cfg tmp d fuel net cs, in_tmp tmp = true -> tidy goal (fun o r => o = Some (tmp, d)) (Some (tmp, d)) (evict_loop cfg fuel net cs).
Proof.
  intros goal cfg tmp d.
  induction fuel as [|fuel IH]; intros net cs T; cbn [evict_loop]; destruct (_ <=? _)%Z; cbn [tidy]; auto.
  apply tidy_bind. apply tidy_weaken with (Q := fun o (_ : res Z) => o = Some (tmp, d)); [intros o [z| | |] ->; cbn [tidy]; auto|].
  destruct (CacheEvictionStrategy cfg); cbn [tidy]; auto.
  - unfold deleteLargestFileFromCache. cbn [tidy decent]. split; auto. intros [size p| |] F; cbn [later tidy]; auto. cbn [found_ok] in F. split; [exact I|]. intros b _. cbn [later]. destruct (path_eq_dec tmp p); [exfalso; congruence|]. destruct b; reflexivity.
  - unfold deleteLruFileFromCache. cbn [tidy decent]. split; auto. intros [size p| |] F; cbn [later tidy]; auto; cbn [found_ok] in F.
    + split; [exact I|]. intros b _. cbn [later]. destruct (path_eq_dec tmp p); [exfalso; congruence|]. destruct b; reflexivity.
    + split; [exact I|]. intros b _. cbn [later]. destruct (path_eq_dec tmp []); [subst; discriminate|]. destruct b; reflexivity.
Qed.

Lemma tidy_store : forall cfg efuel folder file chunks ok,
  tidy (if ok : bool then Some (cache_path folder file, all_data chunks) else None) any None (CacheToFile cfg efuel folder file chunks ok).
Proof.
  intros cfg efuel folder file chunks ok. unfold CacheToFile. cbn [tidy decent]. split; auto. intros m _. cbn [later].
  assert (X : tidy (if ok then Some (cache_path folder file, all_data chunks) else None) any None
    (Call (SCreateTemp (SanitizeFilename file)) (fun r => match r with None => Ret Err | Some tmp =>
          pbind (then_ok (Copy tmp chunks ok) (then_ok (CacheToFile_evict cfg efuel folder file tmp) (CacheToFile_move folder file tmp)))
            (fun res => Call (SRemove tmp) (fun _ => Call (SClose tmp) (fun _ => Ret res))) end))); [|destruct m; auto; exact I].
  cbn [tidy decent]. split; auto. intros [tmp|] T; cbn [later found_ok] in *; [|exact I]. apply tidy_bind.
  apply tidy_weaken with (Q := any); [intros o b _; cbn [tidy decent]; split; auto; intros r _; split; auto; intros r' _; exact I|].
  apply tidy_then; [intros; exact I|]. eapply tidy_weaken; [|apply (tidy_copy _ tmp ok chunks [])]. intros o r H x E. destruct (H x E) as [-> ->]. cbn [app].
  apply tidy_then; [intros; exact I|].
  assert (M : tidy (Some (cache_path folder file, all_data chunks)) any (Some (tmp, Some (concat chunks))) (CacheToFile_move folder file tmp)).
  { unfold CacheToFile_move. cbn [tidy decent]. split; auto. intros [|] _; cbn [later tidy]; [|exact I]. split; [exists (all_data chunks); auto|]. intros b _. exact I. }
  eapply tidy_weaken with (Q := fun o (_ : res unit) => o = Some (tmp, Some (concat chunks))); [intros o' r' -> x' _; exact M|].
  unfold CacheToFile_evict. destruct (CacheEvictionStrategy cfg); cbn [tidy]; auto.
  - split; [exact I|]. intros [size|] _; cbn [later tidy]; auto. split; [exact I|]. intros [n|] _; cbn [later tidy]; auto. unfold deleteFilesFromCacheIfNeeded. cbn [tidy]. split; [exact I|].
    intros e _. cbn [later]. apply tidy_evict; auto.
  - split; [exact I|]. intros [size|] _; cbn [later tidy]; auto. split; [exact I|]. intros [n|] _; cbn [later tidy]; auto. unfold deleteFilesFromCacheIfNeeded. cbn [tidy]. split; [exact I|].
    intros e _. cbn [later]. apply tidy_evict; auto.
Qed.

(** ** System calls *)

Lemma found_step : forall w c r w', sys_step true w c r w' -> found_ok c r.
Proof.
  intros w c r w' H. destruct c; try exact I; unfold sys_step in H; cbn [found_ok].
  - destruct r as [t|]; auto. destruct H as (_ & random & -> & _). apply in_tmp_temp.
  - destruct H as (_ & _ & [(-> & _)|(walk & P & ->)]); auto. destruct (FindLargestFile_walk None walk) as [f|] eqn:E; auto. apply FindLargest_spec in E; [|intros; discriminate]. apply E.
  - destruct H as (_ & _ & [(-> & _)|(walk & P & ->)]); auto. destruct (FindLruFile_walk None walk) as [f|] eqn:E; auto. apply FindLru_spec in E; [|intros; discriminate]. apply E.
Qed.

Lemma holds_files : forall o w w', files w' = files w -> holds o w -> holds o w'.
Proof. intros [[t [d|]]|] w w' E H; cbn [holds] in *; auto. unfold content in *. rewrite E. auto. Qed.

(** Other workers leave the temporary file alone. *)
Lemma holds_other : forall o c w r w', allowed c -> sys_step true w c r w' -> holds o w -> holds o w'.
Proof.
  intros o c w r w' A H O. destruct c; cbn [allowed] in A; try contradiction; unfold sys_step in H; try (eapply holds_files; [|exact O]; apply H).
  - destruct o as [[t [d|]]|]; auto. destruct O as [T O]. split; auto. destruct A as (n & ->). destruct H as (_ & H).
    assert (E : files w' = files w \/ exists x, files w' = mkFile [ImageCacheDirName; n] x (clock w') :: delete [ImageCacheDirName; n] (files w)) by (destruct r; [right|]; auto).
    assert (N : [ImageCacheDirName; n] <> t) by (intros <-; discriminate T).
    unfold content in *. destruct E as [->|(x & ->)]; auto. rewrite lookup_cons. cbn [f_path]. destruct (path_eq_dec _ t); [congruence|]. rewrite lookup_delete_neq; auto.
  - destruct o as [[t [d|]]|]; auto. destruct O as [T O]. split; auto. destruct A as (n & ->). assert (N : t <> [ImageCacheDirName; n]) by (intros ->; discriminate T).
    destruct H as (_ & [(_ & E)|(x & E)]); [unfold content in *; congruence|]. rewrite <- O. eapply content_update; [|exact E|exact N]. reflexivity.
Qed.

(** All files outside of the directory for temporary files have the property. *)
Definition disk_has (P : path -> str -> Prop) (w : world) : Prop := forall p d, in_tmp p = false -> content w p = Some d -> P p d.

(** A call within a function of the cache *)
Lemma tidy_call : forall (P : path -> str -> Prop) goal c o w r w', (forall p d, goal = Some (p, d) -> P p d) -> decent goal o c -> sys_step true w c r w' ->
  disk_has P w -> holds o w -> disk_has P w' /\ holds (later o c r) w'.
Proof.
  intros P0 goal c o w r w' G P H D O. pose proof (found_step _ _ _ _ H) as FO.
  assert (Z : files w' = files w -> disk_has P0 w' /\ holds o w').
  { intros E. split; [|eapply holds_files; eauto]. intros p d T C. apply D; auto. unfold content in *. congruence. }
  destruct c; cbn [decent] in P; try contradiction; unfold sys_step in H; cbn [later]; try (apply Z; apply H).
  - (* CreateTemp *) destruct r as [t|]; [|apply Z; apply H]. destruct H as (_ & random & E & L & F). cbn [found_ok] in FO. split.
    + intros p d T C. apply D; auto. unfold content in *. rewrite F, lookup_cons in C. cbn [f_path] in C. destruct (path_eq_dec t p); [congruence|]. auto.
    + split; auto. unfold content. rewrite F, lookup_cons. cbn [f_path]. destruct (path_eq_dec t t); [reflexivity|congruence].
  - (* Write *) destruct P as (d0 & ->). assert (T : in_tmp tmp = true) by (destruct d0; apply O). destruct H as (_ & H).
    assert (E : exists x, files w' = update tmp (fun f => mkFile (f_path f) (f_data f ++ x) (clock w')) (files w) /\ (r = true -> x = chunk)).
    { destruct r; [exists chunk; auto|]. destruct H as (_ & n & H). exists (firstn n chunk). split; auto. discriminate. }
    destruct E as (x & E & EX). split.
    + intros p d Tp C. apply D; auto. rewrite <- C. symmetry. eapply content_update; [|exact E|congruence]. reflexivity.
    + destruct d0 as [d|]; [|exact T]. destruct r; [|exact T]. rewrite (EX eq_refl) in E. destruct O as [_ O]. split; auto. unfold content in *. rewrite E, lookup_update by auto.
      destruct (lookup tmp (files w)) as [f|]; cbn [option_map] in *; [|discriminate]. destruct (path_eq_dec tmp tmp); [|congruence]. cbn [option_map f_data]. congruence.
  - (* Remove *) destruct H as (_ & H). assert (E : files w' = files w \/ files w' = delete p (files w)) by (destruct r; [right|left]; apply H). destruct E as [E|E].
    + destruct (Z E) as [Z1 Z2]. split; auto. destruct o as [[t d]|]; [|exact I]. destruct (path_eq_dec t p); [exact I|exact Z2].
    + split.
      * intros q d T C. apply D; auto. unfold content in *. rewrite E in C. destruct (path_eq_dec q p) as [->|N]; [rewrite lookup_delete_eq in C; discriminate|rewrite lookup_delete_neq in C; auto].
      * destruct o as [[t d]|]; auto. destruct (path_eq_dec t p) as [->|N]; [exact I|]. destruct d as [d|]; auto. destruct O as [T O]. split; auto. unfold content in *. rewrite E, lookup_delete_neq; auto.
  - (* Rename *) destruct P as (d & EG & ->). destruct O as [T O]. destruct H as (_ & H). destruct r; [|apply Z; apply H]. destruct H as (f & L & E). split; [|exact I].
    unfold content in O. rewrite L in O. injection O as O. intros q x Tq C. unfold content in C. rewrite E, lookup_cons in C. cbn [f_path] in C. destruct (path_eq_dec dst q) as [<-|N].
    + cbn [option_map f_data] in C. replace x with d by congruence. apply G; auto.
    + apply D; auto. unfold content. rewrite lookup_delete_neq in C by auto. destruct (path_eq_dec q src) as [->|N']; [congruence|]. rewrite lookup_delete_neq in C by auto. exact C.
  - (* Chtimes *) destruct H as (_ & H). destruct r; [|apply Z; apply H]. destruct H as (_ & E).
    assert (C : forall q, content w' q = content w q).
    { intros q. unfold content. rewrite E, lookup_update by auto. destruct (lookup q (files w)) as [f|]; [|reflexivity]. cbn [option_map]. destruct (path_eq_dec q p); reflexivity. }
    split; [intros q d T X; apply D; auto; congruence|]. destruct o as [[t' [d|]]|]; cbn [holds] in *; auto. rewrite C. auto.
Qed.

(** A call outside *)
Lemma other_call : forall (P : path -> str -> Prop) c w r w', (forall p d, in_images p -> P p d) -> allowed c -> sys_step true w c r w' -> disk_has P w -> disk_has P w'.
Proof.
  intros P c w r w' G A H D p d T C. destruct c; cbn [allowed] in A; try contradiction; unfold sys_step in H; try (apply D; auto; unfold content in *; replace (files w) with (files w') by apply H; exact C).
  - destruct (path_eq_dec p dst) as [->|N]; [apply G; auto|]. destruct H as (_ & H).
    assert (E : files w' = files w \/ exists x, files w' = mkFile dst x (clock w') :: delete dst (files w)) by (destruct r; [right|]; auto).
    apply D; auto. destruct E as [E|(x & E)]; unfold content in *; rewrite E in C; auto. rewrite lookup_cons in C. cbn [f_path] in C.
    destruct (path_eq_dec dst p); [congruence|]. rewrite lookup_delete_neq in C; auto.
  - destruct (path_eq_dec p p0) as [->|N]; [apply G; auto|]. destruct H as (_ & [(_ & E)|(x & E)]); [apply D; auto; unfold content in *; congruence|]. apply D; auto. rewrite <- C. symmetry.
    eapply content_update; [|exact E|auto]. reflexivity.
Qed.

(** ** Results *)

(** The data of a file of generated HTML or statistics is that of a job. *)
Definition result_ok (J : list job) (p : path) (d : str) : Prop :=
  forall folder name, p = [folder; name] -> In folder [!"html"; !"stats"] -> exists filename chunks, In (Result folder filename chunks) J /\ name = SanitizeFilename filename /\ d = all_data chunks.

(** Threads only store results of jobs. *)
Fixpoint stores {A} (J : list job) (p : thread A) : Prop :=
  match p with
  | TRet _ => True
  | TLookup _ _ k => forall r, stores J (k r)
  | TStore folder file chunks _ k => (In folder [!"html"; !"stats"] -> In (Result folder file chunks) J) /\ forall r, stores J (k r)
  | TCall _ k => forall r, stores J (k r)
  end.

Lemma stores_mono : forall A J J' (p : thread A), incl J J' -> stores J p -> stores J' p.
Proof. intros A J J' p I. induction p as [a|folder file k IH|folder file chunks ok k IH|c k IH]; cbn [stores]; auto. intros [H1 H2]. auto. Qed.
Lemma stores_bind : forall A C J (p : thread A) (f : A -> thread C), stores J p -> (forall a, stores J (f a)) -> stores J (tbind p f).
Proof. intros A C J p f. induction p as [a|folder file k IH|folder file chunks ok k IH|c k IH]; cbn [stores tbind]; auto. intros [H1 H2] H. auto. Qed.
Lemma stores_ok : forall A C J (p : thread (res A)) (f : A -> thread (res C)), stores J p -> (forall a, stores J (f a)) -> stores J (t_ok p f).
Proof. intros A C J p f H1 H2. apply stores_bind; auto. intros [a| | |]; cbn [stores]; auto. Qed.

Lemma stores_request : forall J fuel q, stores J (t_doRequest fuel q).
Proof.
  intros J. induction fuel as [|fuel IH]; intros q; cbn [t_doRequest stores]; auto. intros [a|]; cbn [stores]; auto. destruct (_ =? 429)%Z; cbn [stores]; auto.
  destruct (negb _); cbn [stores]; auto. destruct (negb _); cbn [stores]; auto.
Qed.
Lemma stores_download : forall J fuel url folder file, ~ In folder [!"html"; !"stats"] -> stores J (t_DownloadAndCache fuel url folder file).
Proof.
  intros J fuel url folder file N. unfold t_DownloadAndCache. apply stores_ok; [cbn [t_lookup stores]; auto|]. intros [|]; cbn [stores]; auto.
  apply stores_ok; [apply stores_request|]. intros a. apply stores_ok; [|cbn [stores]; auto]. cbn [t_store stores]. split; [intros I; contradiction|auto].
Qed.
Ltac other_folder := cbn [In]; intros [X|[X|[]]]; discriminate.
Lemma stores_article : forall ext J fuel host title, stores J (t_DownloadArticle ext fuel host title).
Proof.
  intros ext J fuel host title. unfold t_DownloadArticle. apply stores_ok; [apply stores_download; other_folder|]. intros [p b]. cbn [stores]. intros [d|]; cbn [stores]; auto.
  destruct (json_article_title ext d); cbn [stores]; auto.
Qed.
Lemma stores_image : forall ext wiki J fuel host image, stores J (t_downloadImage ext wiki fuel host image).
Proof.
  intros ext wiki J fuel host image. unfold t_downloadImage. destruct (after_colon image); cbn [stores]; auto. apply stores_ok; [apply stores_article|]. intros [title text].
  destruct (after_colon _); cbn [stores]; auto. destruct (after_colon _); cbn [stores]; auto. apply stores_ok; [apply stores_download; other_folder|]. intros [p b].
  destruct (_ && _ && _); cbn [stores]; auto.
Qed.
Lemma stores_rescale : forall wiki J p b, stores J (t_rescale wiki p b).
Proof. intros wiki J p b. unfold t_rescale. destruct (_ && _ && _ && _); cbn [stores]; auto. Qed.
Lemma stores_post : forall wiki J p b, stores J (t_postProcessImage wiki p b).
Proof.
  intros wiki J p b. unfold t_postProcessImage. destruct (_ || _); [|apply stores_rescale]. cbn [stores]. intros [|]; [apply stores_rescale|]. cbn [stores]. intros [|]; [apply stores_rescale|cbn [stores]; auto].
Qed.
Lemma stores_images : forall ext wiki J fuel images, stores J (t_DownloadImages ext wiki fuel images).
Proof.
  intros ext wiki J fuel. induction images as [|image images IH]; cbn [t_DownloadImages stores]; auto. apply stores_ok; auto. generalize (wikipediaImageArticleHosts wiki) as hosts. intros hosts. generalize false as e.
  induction hosts as [|host hosts IHh]; intros e; cbn [t_try_sources stores]; auto. apply stores_bind; [apply stores_image|]. intros [[p b]| | |]; cbn [stores]; auto. apply stores_post.
Qed.
Lemma stores_template : forall ext wiki J fuel template file, stores J (t_EvaluateTemplate ext wiki fuel template file).
Proof. intros ext wiki J fuel template file. unfold t_EvaluateTemplate. apply stores_ok; [apply stores_download; other_folder|]. intros [p b]. cbn [stores]. intros [d|]; cbn [stores]; auto. Qed.
Lemma stores_resource : forall ext wiki J fuel formula, stores J (t_getMathResource ext wiki fuel formula).
Proof.
  intros ext wiki J fuel formula. unfold t_getMathResource.
  match goal with |- context [t_ok (t_doRequest ?f ?q) ?g] => assert (X : stores J (t_ok (t_doRequest f q) g)) end.
  { apply stores_ok; [apply stores_request|]. intros a. destruct (str_eqb _ _); cbn [stores]; auto. apply stores_ok; [|cbn [stores]; auto]. cbn [t_store stores]. split; [|auto]. other_folder. }
  apply stores_bind; [cbn [t_lookup stores]; auto|]. intros [[|]| | |]; cbn [stores]; auto.
Qed.
Lemma stores_math : forall ext wiki J fuel converter formula, stores J (t_RenderMath ext wiki fuel converter formula).
Proof.
  intros ext wiki J fuel converter formula. unfold t_RenderMath. apply stores_ok; [apply stores_resource|]. intros name. apply stores_ok; [apply stores_download; other_folder|]. intros [svg b].
  destruct converter; cbn [stores]; auto. apply stores_ok; [apply stores_download; other_folder|]. intros [png b']. exact I.
Qed.
Lemma stores_program : forall ext fuel j J, In j J -> stores J (program ext fuel j).
Proof.
  intros ext fuel j J HJ. destruct j; cbn [program]; unfold t_map; apply stores_ok; try (intros a; destruct a; exact I); try (intros; exact I).
  - apply stores_article.
  - apply stores_images.
  - apply stores_template.
  - apply stores_resource.
  - apply stores_math.
  - cbn [t_store stores]. auto.
Qed.

Section Service.
Variable ext : externals.

Definition sound (J : list job) (net : list net_event) (p : path) (d : str) : Prop := file_ok ext J net p d /\ result_ok J p d.

Lemma sound_mono : forall J J' net net' p d, incl J J' -> incl net net' -> sound J net p d -> sound J' net' p d.
Proof.
  intros J J' net net' p d IJ IN [H1 H2]. split; [eapply file_ok_mono; eauto|]. intros folder name E F. destruct (H2 folder name E F) as (filename & chunks & I & R). exists filename, chunks. auto.
Qed.
Lemma sound_images : forall J net p d, in_images p -> sound J net p d.
Proof. intros J net p d H. split; [apply images_free; auto|]. destruct H as (n & ->). intros folder name E. injection E as <- <-. cbn [In]. intros [X|[X|[]]]; discriminate. Qed.

(** ** The invariant *)

Definition activity_ok (Q : list job -> list net_event -> res answer -> Prop) (a : activity) (J : list job) (net : list net_event) (w : world) : Prop :=
  match a with
  | Free p => okt ext Q p J net /\ stores J p
  | Looking q k => (exists o, holds o w /\ tidy None any o q) /\ forall r J' net', incl J J' -> incl net net' -> okt ext Q (k r) J' net' /\ stores J' (k r)
  | Storing q k => (exists goal o, (forall p d, goal = Some (p, d) -> sound J net p d) /\ holds o w /\ tidy goal any o q) /\
      forall r J' net', incl J J' -> incl net net' -> okt ext Q (k r) J' net' /\ stores J' (k r)
  end.

Lemma activity_mono : forall Q a J J' net net' w w', monotone Q -> incl J J' -> incl net net' -> (forall o, (exists p, a = Free p) \/ (holds o w -> holds o w')) ->
  activity_ok Q a J net w -> activity_ok Q a J' net' w'.
Proof.
  intros Q a J J' net net' w w' M IJ IN HO H. destruct a as [p|q k|q k]; cbn [activity_ok] in *.
  - destruct H as [H1 H2]. split; [eapply okt_mono; eauto|eapply stores_mono; eauto].
  - destruct H as ((o & H1 & H2) & H3). split; [|intros; apply H3; eapply incl_tran; eauto]. exists o. split; auto. destruct (HO o) as [(p & X)|X]; [discriminate|auto].
  - destruct H as ((goal & o & H0 & H1 & H2) & H3). split; [|intros; apply H3; eapply incl_tran; eauto]. exists goal, o. split; [intros p d E; eapply sound_mono; eauto|]. split; auto.
    destruct (HO o) as [(p & X)|X]; [discriminate|auto].
Qed.

(** At most one worker holds the lock. *)
Definition one_inside (l : list (job * activity)) : Prop := forall before x after, l = before ++ x :: after -> is_free x \/ Forall is_free (before ++ after).

Definition good_crowd (J : list job) (s : crowd) : Prop :=
  disk_has (sound J (traffic s)) (drive s) /\ one_inside (staff s) /\
  forall j a, In (j, a) (staff s) -> In j J /\ activity_ok (good (answer_ok ext j)) a J (traffic s) (drive s).

Lemma step_good : forall J net cfg efuel others Q a w ev a' w', disk_has (sound J net) w -> activity_ok Q a J net w -> worker_step cfg efuel others a w ev a' w' ->
  disk_has (sound J (net ++ ev)) w' /\ activity_ok Q a' J (net ++ ev) w'.
Proof.
  intros J net cfg efuel others Q a w ev a' w' D O H.
  destruct H as [folder file k w F|folder file chunks ok k w F|c q k w r w' H|c q k w r w' H|r k w|r k w|c k w r w' H]; rewrite ?app_nil_r; cbn [activity_ok okt stores] in *.
  - destruct O as ((_ & O) & S). split; auto. split; [|intros r J' net' I1 I2; split; [auto|eapply stores_mono; [exact I1|apply S]]]. exists None. split; [exact I|apply tidy_lookup].
  - destruct O as ((_ & G & O) & SR & S). split; auto. split; [|intros r J' net' I1 I2; split; [auto|eapply stores_mono; [exact I1|apply S]]]. exists (if ok then Some (cache_path folder file, all_data chunks) else None), None.
    split; [|split; [exact I|apply tidy_store]]. intros p d E. destruct ok; [|discriminate]. injection E as <- <-. split; auto.
    intros f n X I. unfold cache_path in X. injection X as <- <-. exists file, chunks. auto.
  - destruct O as ((o & H1 & P & H2) & O). assert (G : forall (p : path) (d : str), @None (path * str) = Some (p, d) -> sound J net p d) by discriminate.
    destruct (tidy_call _ _ _ _ _ _ _ G P H D H1) as [D' H1']. split; auto. split; auto. eexists. split; [exact H1'|]. apply H2. eapply found_step; eauto.
  - destruct O as ((goal & o & G & H1 & P & H2) & O). destruct (tidy_call _ _ _ _ _ _ _ G P H D H1) as [D' H1']. split; auto. split; auto. exists goal. eexists. split; [exact G|]. split; [exact H1'|].
    apply H2. eapply found_step; eauto.
  - destruct O as (_ & O). split; auto. apply O; apply incl_refl.
  - destruct O as (_ & O). split; auto. apply O; apply incl_refl.
  - destruct O as [O S]. destruct (action_good ext J net (mkCacheConfig StrategyNone 0 0) 0 _ Q (TCall c k) w (event_of c r) (k r) w') as [_ O']; [apply Z.le_refl|intros p d T C; apply D; auto|exact O|constructor; exact H|].
    split; [|auto]. eapply other_call; [apply sound_images|apply O|exact H|]. intros p d T C. eapply sound_mono; [apply incl_refl|apply incl_appl, incl_refl|]. apply D; auto.
Qed.

Lemma free_other : forall l (x : job * activity) before after, Forall is_free l -> l = before ++ x :: after -> is_free x.
Proof. intros l x before after F ->. rewrite Forall_forall in F. apply F. apply in_or_app. right. left. reflexivity. Qed.

(** The lock stays with one worker. *)
Lemma step_inside : forall cfg efuel before j a after w ev a' w', one_inside (before ++ (j, a) :: after) -> worker_step cfg efuel (before ++ after) a w ev a' w' -> one_inside (before ++ (j, a') :: after).
Proof.
  intros cfg efuel before j a after w ev a' w' U H.
  assert (K : Forall is_free (before ++ after) \/ (exists p, a' = Free p) /\ is_free (j, a)).
  { destruct (U before (j, a) after eq_refl) as [X|X]; [|auto]. inversion H; subst; auto; try (right; split; [eexists; reflexivity|exact X]). destruct X as (p & X); discriminate. all: destruct X as (p & X); discriminate. }
  intros b x c E. apply app_eq_app in E as (l & [[E1 E2]|[E1 E2]]).
  - destruct l as [|y l]; cbn [app] in E2.
    + injection E2 as -> ->. rewrite app_nil_r in E1. subst b. destruct K as [K|[(p & ->) _]]; [auto|left; exists p; reflexivity].
    + injection E2 as -> ->. subst before. destruct K as [K|[(p & ->) X]]; [left; rewrite Forall_forall in K; apply K; apply in_or_app; left; apply in_or_app; right; left; reflexivity|].
      destruct (U b y (l ++ (j, a) :: after)) as [Y|Y]; [rewrite <- !app_assoc; reflexivity|auto|]. right. rewrite app_assoc in *. apply Forall_app in Y as [Y1 Y2]. inversion Y2; subst. apply Forall_app. split; auto. constructor; auto. exists p. reflexivity.
  - destruct l as [|y l]; cbn [app] in E2.
    + injection E2 as <- <-. rewrite app_nil_r in E1. subst b. destruct K as [K|[(p & ->) _]]; [auto|left; exists p; reflexivity].
    + injection E2 as <- ->. subst b. destruct K as [K|[(p & ->) X]]; [left; rewrite Forall_forall in K; apply K; apply in_or_app; right; apply in_or_app; right; left; reflexivity|].
      destruct (U (before ++ (j, a) :: l) x c) as [Y|Y]; [rewrite <- !app_assoc; reflexivity|auto|]. right. rewrite <- app_assoc in *. cbn [app] in *. apply Forall_app in Y as [Y1 Y2]. inversion Y2; subst. apply Forall_app. split; auto. constructor; auto. exists p. reflexivity.
Qed.

Theorem mixed_good : forall J s, mixed ext J s -> good_crowd J s.
Proof.
  intros J s H. induction H as [w E|J s j fuel H IH HR|J before j a after w net cfg efuel ev a' w' H IH CM A|J s w' H IH E C].
  - split; [|split; [intros [|? ?] x after X; discriminate|intros j p []]]. intros p d _ C. cbn [drive] in C. unfold content in C. rewrite E in C. discriminate.
  - destruct IH as (D & U & W). assert (I1 : incl J (j :: J)) by (apply incl_tl, incl_refl). split; [|split].
    + intros p d T C. eapply sound_mono; [exact I1|apply incl_refl|]. apply D; auto.
    + cbn [staff]. intros [|y before] x after X; cbn [app] in X; injection X as <- X; [left; eexists; reflexivity|]. destruct (U _ _ _ X) as [Y|Y]; auto. right. constructor; auto. eexists. reflexivity.
    + cbn [staff traffic drive]. intros j' p' [X|X].
      * injection X as <- <-. split; [left; reflexivity|]. split; [apply okt_program; [left; reflexivity|exact HR]|apply stores_program; left; reflexivity].
      * apply W in X as (X1 & X2). split; [right; auto|]. eapply activity_mono; [apply answer_mono|exact I1|apply incl_refl|intros o; right; exact (fun h => h)|exact X2].
  - destruct IH as (D & U & W). cbn [drive traffic staff] in *. destruct (W j a) as (HJ & O); [apply in_or_app; right; left; reflexivity|].
    destruct (step_good _ _ _ _ _ _ _ _ _ _ _ D O A) as (D' & O'). split; [exact D'|]. split; [eapply step_inside; eauto|]. cbn [traffic staff drive]. intros j' b X.
    assert (Y : In (j', b) (before ++ after) \/ (j, a') = (j', b)) by (apply in_app_or in X as [X|[X|X]]; auto; left; apply in_or_app; auto).
    destruct Y as [Y|Y]; [|injection Y as <- <-; auto].
    destruct (W j' b) as (X1 & X2); [apply in_app_or in Y as [Y|Y]; apply in_or_app; [left|right; right]; auto|]. split; auto.
    eapply activity_mono; [apply answer_mono|apply incl_refl|apply incl_appl, incl_refl| |exact X2].
    intros o. destruct (U before (j, a) after eq_refl) as [(p & F)|F]; [|left; rewrite Forall_forall in F; apply (F _ Y)]. cbn [snd] in F. subst a.
    inversion A as [? ? ? ? F|? ? ? ? ? ? F| | | | |c k ? r ? S]; subst; [right; auto|right; auto|]. right. eapply holds_other; [|exact S]. cbn [activity_ok okt] in O. apply O.
  - destruct IH as (D & U & W). split; [|split; [intros [|? ?] x after X; discriminate|intros j p []]]. cbn [drive traffic staff] in *. intros p d T X. apply D; auto. eapply cached_content; eauto.
Qed.

(** ** Every execution of ServiceModel.v is one of these. *)

Definition crowd_of (s : state) : crowd := mkCrowd (map (fun x => (fst x, Free (snd x))) (workers s)) (disk s) (network s).

Lemma all_free : forall (l : list (job * thread (res answer))), Forall is_free (map (fun x => (fst x, Free (snd x))) l).
Proof. intros l. apply Forall_map. apply Forall_forall. intros x _. eexists. reflexivity. Qed.

Lemma looking_steps : forall J before j q k after w net cfg q' w', (0 <= CacheMaxAge cfg)%Z -> steps true q w q' w' ->
  mixed ext J (mkCrowd (before ++ (j, Looking q k) :: after) w net) -> mixed ext J (mkCrowd (before ++ (j, Looking q' k) :: after) w' net).
Proof.
  intros J before j q k after w net cfg q' w' CM H. induction H as [p w|c kk w r w1 p2 w2 S H IH]; intros M; auto. apply IH. rewrite <- (app_nil_r net). eapply mixed_step; [exact M|exact CM|]. apply (call_looking cfg 0). exact S.
Qed.
Lemma storing_steps : forall J before j q k after w net cfg q' w', (0 <= CacheMaxAge cfg)%Z -> steps true q w q' w' ->
  mixed ext J (mkCrowd (before ++ (j, Storing q k) :: after) w net) -> mixed ext J (mkCrowd (before ++ (j, Storing q' k) :: after) w' net).
Proof.
  intros J before j q k after w net cfg q' w' CM H. induction H as [p w|c kk w r w1 p2 w2 S H IH]; intros M; auto. apply IH. rewrite <- (app_nil_r net). eapply mixed_step; [exact M|exact CM|]. apply (call_storing cfg 0). exact S.
Qed.

Theorem runs_mixed : forall J s, runs ext J s -> mixed ext J (crowd_of s).
Proof.
  intros J s H. induction H as [w E|J s j fuel H IH HR|J before j p after w net cfg efuel ev p' w' H IH CM A|J ws w net w' H IH E C|J before j p after w net cfg efuel w1 w' H IH CM A E C].
  - apply mixed_begin. exact E.
  - unfold crowd_of. cbn [workers disk network map fst snd]. apply (mixed_start ext J (crowd_of s) j fuel IH HR).
  - unfold crowd_of in *. cbn [workers disk network] in *. rewrite map_app in *. cbn [map fst snd] in *.
    destruct A as [folder file k w r w' A|folder file chunks ok k w r w' A|c k w r w' A].
    + eapply mixed_step in IH; [|exact CM|apply (lock_lookup cfg 0); apply Forall_app; split; apply all_free]. rewrite app_nil_r in IH. eapply looking_steps in IH; [|exact CM|exact A].
      eapply mixed_step in IH; [|exact CM|apply (unlock_lookup cfg 0)]. exact IH.
    + eapply mixed_step in IH; [|exact CM|apply (lock_store cfg efuel); apply Forall_app; split; apply all_free]. rewrite app_nil_r in IH. eapply storing_steps in IH; [|exact CM|exact A].
      eapply mixed_step in IH; [|exact CM|apply (unlock_store cfg 0)]. exact IH.
    + eapply mixed_step in IH; [exact IH|exact CM|]. apply (call_free cfg efuel). exact A.
  - eapply mixed_crash in IH; [exact IH|exact E|exact C].
  - unfold crowd_of in IH. cbn [workers disk network] in IH. rewrite map_app in IH. cbn [map fst snd] in IH.
    destruct A as [folder file k w rest w1 A|folder file chunks ok k w rest w1 A].
    + eapply mixed_step in IH; [|exact CM|apply (lock_lookup cfg 0); apply Forall_app; split; apply all_free]. rewrite app_nil_r in IH. eapply looking_steps in IH; [|exact CM|exact A].
      eapply mixed_crash in IH; [exact IH|exact E|exact C].
    + eapply mixed_step in IH; [|exact CM|apply (lock_store cfg efuel); apply Forall_app; split; apply all_free]. rewrite app_nil_r in IH. eapply storing_steps in IH; [|exact CM|exact A].
      eapply mixed_crash in IH; [exact IH|exact E|exact C].
Qed.
End Service.

(** ** Execution of a given schedule *)

Definition freeb (x : job * activity) : bool := match snd x with Free _ => true | _ => false end.

Definition act_once (server : str -> option response) (cfg : cache_config) (others : list (job * activity)) (a : activity) (w : world) : option (list net_event * activity * world) :=
  match a with
  | Free (TRet _) => None
  | Free (TLookup folder file k) => if forallb freeb others then Some ([], Looking (GetFile cfg folder file) k, w) else None
  | Free (TStore folder file chunks ok k) => if forallb freeb others then Some ([], Storing (CacheToFile cfg 3 folder file chunks ok) k, w) else None
  | Free (TCall c k) => match answer_call server w c with Some (r, w') => Some (event_of c r, Free (k r), w') | None => None end
  | Looking (Ret r) k => Some ([], Free (k r), w)
  | Looking (Call c q) k => match answer_call server w c with Some (r, w') => Some ([], Looking (q r) k, w') | None => None end
  | Storing (Ret r) k => Some ([], Free (k r), w)
  | Storing (Call c q) k => match answer_call server w c with Some (r, w') => Some ([], Storing (q r) k, w') | None => None end
  end.

Lemma act_once_step : forall server cfg others a w ev a' w', act_once server cfg others a w = Some (ev, a', w') -> worker_step cfg 3 others a w ev a' w'.
Proof.
  intros server cfg others a w ev a' w' H. assert (F : forallb freeb others = true -> Forall is_free others).
  { intros F. rewrite forallb_forall in F. apply Forall_forall. intros [j b] I. apply F in I. unfold freeb in I. cbn [snd] in I. destruct b; try discriminate. eexists. reflexivity. }
  destruct a as [[r|folder file k|folder file chunks ok k|c k]|[r|c q] k|[r|c q] k]; cbn [act_once] in H; try discriminate.
  - destruct (forallb freeb others); [|discriminate]. injection H as <- <- <-. constructor; auto.
  - destruct (forallb freeb others); [|discriminate]. injection H as <- <- <-. constructor; auto.
  - destruct (answer_call server w c) as [[r x]|] eqn:E; [|discriminate]. injection H as <- <- <-. constructor. eapply answer_call_step; eauto.
  - injection H as <- <- <-. constructor.
  - destruct (answer_call server w c) as [[r x]|] eqn:E; [|discriminate]. injection H as <- <- <-. constructor. eapply answer_call_step; eauto.
  - injection H as <- <- <-. constructor.
  - destruct (answer_call server w c) as [[r x]|] eqn:E; [|discriminate]. injection H as <- <- <-. constructor. eapply answer_call_step; eauto.
Qed.

Definition do_once (ext : externals) (server : str -> option response) (cfg : cache_config) (m : ServiceProofs.move) (x : list job * crowd) : option (list job * crowd) :=
  let '(J, s) := x in
  match m with
  | Start j => if is_result j then None else Some (j :: J, mkCrowd ((j, Free (program ext 3 j)) :: staff s) (drive s) (traffic s))
  | Act i =>
    match nth_error (staff s) i with
    | Some (j, a) =>
      match act_once server cfg (firstn i (staff s) ++ skipn (S i) (staff s)) a (drive s) with
      | Some (ev, a', w') => Some (J, mkCrowd (firstn i (staff s) ++ (j, a') :: skipn (S i) (staff s)) w' (traffic s ++ ev))
      | None => None
      end
    | None => None
    end
  | Restart => Some (J, mkCrowd [] (mkWorld (cached (drive s)) (clock (drive s))) (traffic s))
  end.

Fixpoint schedule_once (ext : externals) (server : str -> option response) (cfg : cache_config) (ms : list ServiceProofs.move) (x : list job * crowd) : option (list job * crowd) :=
  match ms with
  | [] => Some x
  | m :: ms' => match do_once ext server cfg m x with Some x' => schedule_once ext server cfg ms' x' | None => None end
  end.

Lemma schedule_mixed : forall ext server cfg ms J s J' s', (0 <= CacheMaxAge cfg)%Z -> mixed ext J s -> schedule_once ext server cfg ms (J, s) = Some (J', s') -> mixed ext J' s'.
Proof.
  intros ext server cfg ms. induction ms as [|m ms IH]; intros J s J' s' CM R H; cbn [schedule_once] in H; [injection H as <- <-; exact R|].
  destruct (do_once ext server cfg m (J, s)) as [[J1 s1]|] eqn:E; [|discriminate]. eapply IH; [exact CM| |exact H]. clear IH H. destruct m; cbn [do_once] in E.
  - destruct (is_result j) eqn:IR; [discriminate|]. injection E as <- <-. apply mixed_start; [exact R|]. intros folder file chunks ->. discriminate.
  - destruct (nth_error (staff s) worker) as [[j a]|] eqn:N; [|discriminate]. destruct (act_once _ _ _ _ _) as [[[ev a'] w']|] eqn:AC; [|discriminate].
    injection E as <- <-. refine (mixed_step ext J (firstn worker (staff s)) j a (skipn (S worker) (staff s)) (drive s) (traffic s) cfg 3 ev a' w' _ CM (act_once_step _ _ _ _ _ _ _ _ AC)).
    rewrite <- (nth_split _ _ _ _ N). destruct s. exact R.
  - injection E as <- <-. eapply mixed_crash; [exact R|reflexivity|]. reflexivity.
Qed.
