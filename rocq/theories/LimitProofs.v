(** * Proofs about the size of the cache while several workers use it *)

From Coq Require Import Ascii String.
From Coq Require Import List Arith ZArith Bool Lia.
From Verif Require Import GoStr UtilModel CacheModel CacheSpec CacheProofs HttpModel HttpSpec ServiceModel LockModel LimitSpec.
Import ListNotations.
Local Open Scope list_scope.

(** A later clock allows no other results. *)
Lemma sys_step_later : forall fl w v c r w', files v = files w -> (clock w <= clock v)%Z -> sys_step fl v c r w' -> sys_step fl w c r w'.
Proof.
  intros fl w v c r w' E L H. destruct c; unfold sys_step, content in *; rewrite ?E in H;
    repeat match goal with H : _ /\ _ |- _ => destruct H end; repeat split; auto; try (eapply Z.le_trans; eassumption).
Qed.

Lemma safe_later : forall A fl (I : world -> Prop) (Q : A -> world -> Prop) (p : prog A) w v, (forall x y, files y = files x -> I x -> I y) -> (forall a x y, files y = files x -> Q a x -> Q a y) ->
  files v = files w -> (clock w <= clock v)%Z -> safe fl I Q p w -> safe fl I Q p v.
Proof.
  intros A fl I Q p w v HI HQ E L H. destruct p as [a|c k]; cbn [safe] in *; destruct H as [H1 H2]; split; eauto.
  intros r w' S. apply H2. eapply sys_step_later; eauto.
Qed.

(** Outside of the functions of the cache a worker changes no files. *)
Definition looks (c : syscall) : Prop := match c with SReadFile _ | SExists _ | SDo _ | SSleep _ => True | _ => False end.

Lemma looks_files : forall fl w c r w', looks c -> sys_step fl w c r w' -> files w' = files w /\ (clock w <= clock w')%Z.
Proof. intros fl w c r w' L H. destruct c; try contradiction; unfold sys_step in H; intuition. Qed.

Fixpoint polite {A} (p : thread A) : Prop :=
  match p with
  | TRet _ => True
  | TLookup folder _ k => In folder cache_folders /\ forall r, polite (k r)
  | TStore folder _ _ _ k => In folder cache_folders /\ forall r, polite (k r)
  | TCall c k => looks c /\ forall r, polite (k r)
  end.

Lemma polite_bind : forall A C (p : thread A) (f : A -> thread C), polite p -> (forall a, polite (f a)) -> polite (tbind p f).
Proof. intros A C p f. induction p as [a|fo fi k IH|fo fi ch ok k IH|c k IH]; cbn [polite tbind]; intros H F; auto; destruct H; split; auto. Qed.
Lemma polite_ok : forall A C (p : thread (res A)) (f : A -> thread (res C)), polite p -> (forall a, polite (f a)) -> polite (t_ok p f).
Proof. intros A C p f H F. apply polite_bind; auto. intros [a| | |]; cbn [polite]; auto. Qed.

Ltac folder := cbn; tauto.

Lemma polite_request : forall fuel q, polite (t_doRequest fuel q).
Proof.
  induction fuel as [|fuel IH]; intros q; cbn [t_doRequest polite]; auto. split; [exact I|]. intros [r|]; cbn [polite]; auto.
  destruct (_ =? _)%Z; cbn [polite]; [split; [exact I|auto]|]. destruct (negb _); cbn [polite]; auto. destruct (negb _); cbn [polite]; auto.
Qed.
Lemma polite_download : forall fuel url folder file, In folder cache_folders -> polite (t_DownloadAndCache fuel url folder file).
Proof.
  intros fuel url folder file F. unfold t_DownloadAndCache. apply polite_ok; [split; [auto|intros; exact I]|]. intros [|]; [exact I|].
  apply polite_ok; [apply polite_request|]. intros r. apply polite_ok; [split; [auto|intros; exact I]|]. intros; exact I.
Qed.
Lemma polite_article : forall ext fuel host title, polite (t_DownloadArticle ext fuel host title).
Proof.
  intros. unfold t_DownloadArticle. apply polite_ok; [apply polite_download; folder|]. intros [p x]. split; [exact I|]. intros [d|]; [|exact I]. destruct (json_article_title ext d); exact I.
Qed.
Lemma polite_math : forall ext wiki fuel formula, polite (t_getMathResource ext wiki fuel formula).
Proof.
  intros. unfold t_getMathResource. apply polite_bind; [split; [folder|intros; exact I]|].
  assert (R : polite (t_ok (t_doRequest fuel (mkRequest true (math_url wiki) (math_data ext formula) (math_data ext formula))) (fun response =>
    if str_eqb (a_location response) [] then TRet Err
    else t_ok (t_store MathCacheDirName (Hash ext formula) [a_location response] true) (fun _ => TRet (Ok (a_location response)))))).
  { apply polite_ok; [apply polite_request|]. intros r. destruct (str_eqb _ _); [exact I|]. apply polite_ok; [split; [folder|intros; exact I]|]. intros; exact I. }
  intros [[|]| | |]; try exact R; try exact I. split; [exact I|]. intros; exact I.
Qed.

Lemma polite_program : forall ext fuel j, leaves_images j -> (forall folder filename chunks, j = Result folder filename chunks -> In folder [!"html"; !"stats"]) ->
  polite (program ext fuel j).
Proof.
  intros ext fuel j L R. destruct j as [wiki host title|wiki images|wiki template|wiki formula|wiki converter formula|folder file chunks]; cbn [program]; unfold t_map.
  - apply polite_ok; [apply polite_article|]. intros [t x]. exact I.
  - clear R. destruct L as (L1 & L2 & L3 & L4 & L5). apply polite_ok; [|intros; exact I]. induction images as [|i images IH]; cbn [t_DownloadImages]; [exact I|].
    apply polite_ok; [|auto]. generalize (wikipediaImageArticleHosts wiki), false. induction l as [|h hs IHh]; intros e; cbn [t_try_sources]; [exact I|].
    apply polite_bind.
    + unfold t_downloadImage. destruct (after_colon i); try exact I. apply polite_ok; [apply polite_article|]. intros [t x].
      destruct (after_colon _); try exact I. destruct (after_colon t); try exact I. apply polite_ok; [apply polite_download; folder|]. intros [p f].
      rewrite L5, andb_false_r. exact I.
    + intros [[p f]| | |]; try exact I; [|apply IHh]. unfold t_postProcessImage, t_rescale. rewrite L1, L2, L3, L4, !andb_false_r. exact I.
  - apply polite_ok; [|intros; exact I]. unfold t_EvaluateTemplate. apply polite_ok; [apply polite_download; folder|]. intros [p x]. split; [exact I|]. intros [d|]; exact I.
  - apply polite_ok; [apply polite_math|]. intros; exact I.
  - apply polite_ok; [|intros [p x]; exact I]. unfold t_RenderMath. apply polite_ok; [apply polite_math|]. intros name.
    apply polite_ok; [apply polite_download; folder|]. intros [svg x]. destruct converter; try exact I; [|exfalso; apply L; reflexivity].
    apply polite_ok; [apply polite_download; folder|]. intros [png y]. exact I.
  - apply polite_ok; [|intros; exact I]. split; [|intros; exact I]. specialize (R _ _ _ eq_refl). cbn in *. tauto.
Qed.

Section Limit.
  Variable ext : externals.
  Variable max : Z.
  Variable w0 : world.

  Definition fitting {A} : prog A -> world -> Prop := safe true (fits max) (fun _ _ => True).
  Definition activity_fits (w : world) (a : activity) : Prop :=
    match a with
    | Free p => polite p
    | Looking rest k => fitting rest w /\ forall r, polite (k r)
    | Storing rest k => fitting rest w /\ forall r, polite (k r)
    end.

  Lemma fitting_later : forall A (p : prog A) w v, files v = files w -> (clock w <= clock v)%Z -> fitting p w -> fitting p v.
  Proof. intros A p w v E L. apply safe_later; auto. intros x y F. apply fits_files. auto. Qed.
  Lemma activity_later : forall w v a, files v = files w -> (clock w <= clock v)%Z -> activity_fits w a -> activity_fits v a.
  Proof. intros w v [p|rest k|rest k] E L; cbn [activity_fits]; auto; intros [H1 H2]; split; auto; eapply fitting_later; eauto. Qed.

  Definition alone (l : list (job * activity)) : Prop := forall before x after, l = before ++ x :: after -> is_free x \/ Forall is_free (before ++ after).
  Definition good (s : crowd) : Prop := fits max (drive s) /\ (forall j a, In (j, a) (staff s) -> activity_fits (drive s) a) /\ alone (staff s).

  Lemma free_activity : forall w v j a, is_free (j, a) -> activity_fits w a -> activity_fits v a.
  Proof. intros w v j a [p E]. cbn [snd] in E. subst. auto. Qed.

  Lemma split_two : forall A (b : list A) x a b' x' a', b ++ x :: a = b' ++ x' :: a' ->
    (b = b' /\ x = x' /\ a = a') \/ (exists m, b' = b ++ x :: m /\ a = m ++ x' :: a') \/ (exists m, b = b' ++ x' :: m /\ a' = m ++ x :: a).
  Proof.
    induction b as [|y b IH]; intros x a [|y' b'] x' a' E; cbn [app] in E; injection E as E1 E2; subst.
    - auto.
    - right. left. exists b'. auto.
    - right. right. exists b. auto.
    - apply IH in E2 as [(-> & -> & ->)|[(m & -> & ->)|(m & -> & ->)]]; auto; right; [left|right]; exists m; auto.
  Qed.

  (** One worker changes: the others stay alone. *)
  Lemma alone_change : forall before j a a' after, alone (before ++ (j, a) :: after) ->
    (Forall is_free (before ++ after) \/ (is_free (j, a'))) -> alone (before ++ (j, a') :: after).
  Proof.
    intros before j a a' after H C b x c E. apply split_two in E as [(<- & <- & <-)|[(m & -> & ->)|(m & -> & ->)]].
    - destruct C; auto.
    - destruct C as [C|C].
      + left. rewrite Forall_forall in C. apply C. rewrite !in_app_iff. cbn. auto.
      + destruct (H (before ++ (j, a) :: m) x c) as [F|F]; [rewrite <- app_assoc; reflexivity|auto|].
        right. rewrite Forall_forall in F |- *. intros y Y. rewrite <- app_assoc in F, Y. rewrite in_app_iff in Y. cbn in Y. destruct Y as [Y|[<-|Y]]; auto; apply F; rewrite in_app_iff; cbn; auto.
    - destruct C as [C|C].
      + left. rewrite Forall_forall in C. apply C. rewrite !in_app_iff. cbn. auto.
      + destruct (H b x (m ++ (j, a) :: after)) as [F|F]; [rewrite <- app_assoc; reflexivity|auto|].
        right. rewrite Forall_forall in F |- *. intros y Y. rewrite !in_app_iff in Y. cbn in Y. destruct Y as [Y|[Y|[<-|Y]]]; auto; apply F; rewrite !in_app_iff; cbn; auto.
  Qed.

  Theorem bounded_good : wf w0 -> (cache_size w0 < max)%Z -> forall jobs s, bounded ext max w0 jobs s -> Forall leaves_images jobs -> good s.
  Proof.
    intros W0 F0 jobs s H. induction H as [|jobs s j fuel H IH R|jobs before j a after w net cfg efuel events a' w' H IH M St S|jobs s w' H IH E L]; intros J.
    - split; [split; [auto|rewrite <- cache_size_tsum; auto]|]. split; [intros j a []|]. intros [|y b] x c E; discriminate.
    - inversion J as [|j' jobs' J1 J2]; subst. destruct (IH J2) as (D & A & N). split; [exact D|]. cbn [drive staff]. split.
      + intros j' a [X|X]; [|eapply A; eauto]. injection X as <- <-. cbn [activity_fits]. apply polite_program; auto.
      + intros [|y b] x c E; cbn [app] in E; injection E as E1 E2; [left; subst; eexists; reflexivity|].
        destruct (N b x c E2) as [F|F]; auto. right. cbn [app]. constructor; auto. subst. eexists. reflexivity.
    - destruct (IH J) as (D & A & N). cbn [drive staff] in *. assert (A1 : activity_fits w a) by (apply (A j); rewrite in_app_iff; cbn; auto).
      assert (O : forall j' b, In (j', b) (before ++ after) -> activity_fits w b).
      { intros j' b X. apply (A j'). rewrite in_app_iff in *. cbn. tauto. }
      assert (K : forall a'', activity_fits w' a'' -> (forall j' b, In (j', b) (before ++ after) -> activity_fits w' b) ->
                  forall j' b, In (j', b) (before ++ (j, a'') :: after) -> activity_fits w' b).
      { intros a'' X Y j' b Z. rewrite in_app_iff in Z. cbn in Z. destruct Z as [Z|[Z|Z]]; [apply (Y j'); rewrite in_app_iff; auto|injection Z as <- <-; auto|apply (Y j'); rewrite in_app_iff; auto]. }
      assert (U : ~ is_free (j, a) -> forall v j' b, In (j', b) (before ++ after) -> activity_fits v b).
      { intros NF v j' b X. destruct (N before (j, a) after eq_refl) as [F|F]; [contradiction|]. rewrite Forall_forall in F. eapply free_activity; [apply F; eauto|eapply O; eauto]. }
      unfold good. cbn [drive staff].
      destruct S as [folder file k w F|folder file chunks ok k w F|c q k w r w' S|c q k w r w' S|r k w|r k w|c k w r w' S]; cbn [activity_fits polite] in A1.
      + split; [exact D|]. split; [apply K; auto; cbn [activity_fits]; split; [apply GetFile_fits; auto|apply A1]|]. eapply alone_change; eauto.
      + split; [exact D|]. split; [apply K; auto; cbn [activity_fits]; split; [apply CacheToFile_fits; auto; apply A1|apply A1]|]. eapply alone_change; eauto.
      + destruct A1 as [[A1 A2] A3]. assert (G : fitting (q r) w') by (apply A2; auto). split; [eapply safe_inv; exact G|].
        assert (NF : ~ is_free (j, Looking (Call c q) k)) by (intros [p X]; discriminate). split; [apply K; [split; auto|apply U; auto]|].
        eapply alone_change; eauto. left. destruct (N before (j, Looking (Call c q) k) after eq_refl); [contradiction|auto].
      + destruct A1 as [[A1 A2] A3]. assert (G : fitting (q r) w') by (apply A2; auto). split; [eapply safe_inv; exact G|].
        assert (NF : ~ is_free (j, Storing (Call c q) k)) by (intros [p X]; discriminate). split; [apply K; [split; auto|apply U; auto]|].
        eapply alone_change; eauto. left. destruct (N before (j, Storing (Call c q) k) after eq_refl); [contradiction|auto].
      + split; [exact D|]. split; [apply K; auto; apply A1|]. eapply alone_change; eauto. right. eexists. reflexivity.
      + split; [exact D|]. split; [apply K; auto; apply A1|]. eapply alone_change; eauto. right. eexists. reflexivity.
      + destruct A1 as [A1 A2]. destruct (looks_files _ _ _ _ _ A1 S) as [E L]. split; [eapply fits_files; eauto|].
        split; [apply K; [apply A2|intros; eapply activity_later; eauto]|]. eapply alone_change; eauto. right. eexists. reflexivity.
    - destruct (IH J) as (D & _ & _). destruct D as [D1 D2]. unfold good. cbn [drive staff]. split; [|split; [intros ? ? []|intros [|y b] x c X; discriminate]]. split.
      + unfold wf. rewrite E. apply NoDup_filter_path; auto.
      + rewrite E. unfold cached, tsum. change (fun f => noT (f_path f)) with (fun f => negb (in_tmp (f_path f))). rewrite filter_idem. exact D2.
  Qed.
End Limit.
