(** * Proofs about data that is in the cache already *)

From Coq Require Import Ascii String.
From Coq Require Import List Arith ZArith Bool Lia.
From Verif Require Import GoStr UtilModel CacheModel CacheSpec CacheProofs HttpModel HttpSpec HttpProofs ServiceModel LockModel LockProofs LimitProofs OnceSpec.
Import ListNotations.
Local Open Scope list_scope.

(** ** Programs of the workers *)

Definition usual (c : syscall) : Prop := match c with SReadFile _ | SExists _ | SDo _ | SSleep _ | SConvert _ _ | SRewrite _ => True | _ => False end.

Fixpoint modest {A} (p : thread A) : Prop :=
  match p with
  | TRet _ => True
  | TLookup folder _ k => forall r, modest (k r)
  | TStore folder _ _ _ k => forall r, modest (k r)
  | TCall c k => usual c /\ forall r, modest (k r)
  end.

Lemma modest_bind : forall A C (p : thread A) (f : A -> thread C), modest p -> (forall a, modest (f a)) -> modest (tbind p f).
Proof. intros A C p f. induction p as [a|fo fi k IH|fo fi ch ok k IH|c k IH]; cbn [modest tbind]; intros H F; auto. destruct H; split; auto. Qed.
Lemma modest_ok : forall A C (p : thread (res A)) (f : A -> thread (res C)), modest p -> (forall a, modest (f a)) -> modest (t_ok p f).
Proof. intros A C p f H F. apply modest_bind; auto. intros [a| | |]; cbn [modest]; auto. Qed.
Lemma modest_request : forall fuel q, modest (t_doRequest fuel q).
Proof.
  induction fuel as [|fuel IH]; intros q; cbn [t_doRequest modest]; auto. split; [exact I|]. intros [r|]; cbn [modest]; auto.
  destruct (_ =? _)%Z; cbn [modest]; [split; [exact I|auto]|]. destruct (negb _); cbn [modest]; auto. destruct (negb _); cbn [modest]; auto.
Qed.
Lemma modest_download : forall fuel url folder file, modest (t_DownloadAndCache fuel url folder file).
Proof.
  intros fuel url folder file. unfold t_DownloadAndCache. apply modest_ok; [intros r; exact I|]. intros [|]; [exact I|].
  apply modest_ok; [apply modest_request|]. intros r. apply modest_ok; [intros x; exact I|]. intros; exact I.
Qed.
Lemma modest_article : forall ext fuel host title, modest (t_DownloadArticle ext fuel host title).
Proof.
  intros. unfold t_DownloadArticle. apply modest_ok; [apply modest_download|]. intros [p x]. split; [exact I|]. intros [d|]; [|exact I]. destruct (json_article_title ext d); exact I.
Qed.
Lemma modest_math : forall ext wiki fuel formula, modest (t_getMathResource ext wiki fuel formula).
Proof.
  intros. unfold t_getMathResource. apply modest_bind; [intros r; exact I|].
  assert (R : modest (t_ok (t_doRequest fuel (mkRequest true (math_url wiki) (math_data ext formula) (math_data ext formula))) (fun response =>
    if str_eqb (a_location response) [] then TRet Err
    else t_ok (t_store MathCacheDirName (Hash ext formula) [a_location response] true) (fun _ => TRet (Ok (a_location response)))))).
  { apply modest_ok; [apply modest_request|]. intros r. destruct (str_eqb _ _); [exact I|]. apply modest_ok; [intros x; exact I|]. intros; exact I. }
  intros [[|]| | |]; try exact R; try exact I. split; [exact I|]. intros; exact I.
Qed.
Lemma modest_rescale : forall wiki p fresh, modest (t_rescale wiki p fresh).
Proof. intros. unfold t_rescale. destruct (_ && _); [split; [exact I|intros; exact I]|exact I]. Qed.

Lemma modest_program : forall ext fuel j, modest (program ext fuel j).
Proof.
  intros ext fuel j. destruct j as [wiki host title|wiki images|wiki template|wiki formula|wiki converter formula|folder file chunks]; cbn [program]; unfold t_map.
  - apply modest_ok; [apply modest_article|]. intros [t x]. exact I.
  - apply modest_ok; [|intros; exact I]. induction images as [|i images IH]; cbn [t_DownloadImages]; [exact I|].
    apply modest_ok; [|auto]. generalize (wikipediaImageArticleHosts wiki), false. induction l as [|h hs IHh]; intros e; cbn [t_try_sources]; [exact I|].
    apply modest_bind.
    + unfold t_downloadImage. destruct (after_colon i); try exact I. apply modest_ok; [apply modest_article|]. intros [t x].
      destruct (after_colon _); try exact I. destruct (after_colon t); try exact I. apply modest_ok; [apply modest_download|]. intros [p f].
      destruct (_ && _); [split; [exact I|intros; exact I]|exact I].
    + intros [[p f]| | |]; try exact I; [|apply IHh]. unfold t_postProcessImage. destruct (_ || _); [|apply modest_rescale].
      split; [exact I|]. intros [|]; [apply modest_rescale|]. split; [exact I|]. intros [|]; [apply modest_rescale|exact I].
  - apply modest_ok; [|intros; exact I]. unfold t_EvaluateTemplate. apply modest_ok; [apply modest_download|]. intros [p x]. split; [exact I|]. intros [d|]; exact I.
  - apply modest_ok; [apply modest_math|]. intros; exact I.
  - apply modest_ok; [|intros [p x]; exact I]. unfold t_RenderMath. apply modest_ok; [apply modest_math|]. intros name.
    apply modest_ok; [apply modest_download|]. intros [svg x]. destruct converter; try exact I.
    + apply modest_ok; [apply modest_download|]. intros [png y]. exact I.
    + split; [exact I|]. intros [|]; exact I.
  - apply modest_ok; [|intros; exact I]. intros r; exact I.
Qed.

(** ** The file stays in the cache *)
Section Once.
  Variable ext : externals.
  Variable cfg : cache_config.
  Variable m0 : Z.
  Variable p : path.
  Hypothesis TMP : in_tmp p = false.
  Hypothesis ST : CacheEvictionStrategy cfg = StrategyNone.
  Hypothesis AGE : (0 <= CacheMaxAge cfg)%Z.
  Let limit : Z := (m0 + CacheMaxAge cfg * ns_per_minute)%Z.

  Definition recent (w : world) : Prop := (m0 <= clock w)%Z /\ forall f, In f (files w) -> (m0 <= f_mtime f)%Z.

  Definition keeps (c : syscall) : Prop :=
    match c with
    | SRemove q => q <> p
    | SRename src _ => src <> p
    | SChtimes _ _ => False
    | _ => True
    end.
  (** [o]: is the file [p] known to be in the cache? *)
  Definition stored (o : bool) (w : world) : Prop := o = true -> lookup p (files w) <> None.

  Lemma in_delete : forall q fs (f : file), In f (delete q fs) -> In f fs.
  Proof. intros q fs f H. unfold delete in H. apply filter_In in H. apply H. Qed.
  Lemma in_update : forall q g fs (f : file), In f (update q g fs) -> exists e, In e fs /\ (f = e \/ f = g e).
  Proof. intros q g fs f H. unfold update in H. apply in_map_iff in H as (e & <- & H). exists e. split; auto. destruct (path_eq_dec _ _); auto. Qed.

  Lemma recent_step : forall w c r w', keeps c -> recent w -> sys_step true w c r w' -> recent w'.
  Proof.
    intros w c r w' K (C & M) S. pose proof (sys_step_clock _ _ _ _ _ S) as L. split; [lia|].
    assert (U : forall q g, (forall e, f_mtime (g e) = clock w') -> forall f, In f (update q g (files w)) -> (m0 <= f_mtime f)%Z).
    { intros q g G f X. apply in_update in X as (e & X & [->| ->]); auto. rewrite G. lia. }
    assert (N : forall dst d, forall f, In f (mkFile dst d (clock w') :: delete dst (files w)) -> (m0 <= f_mtime f)%Z).
    { intros dst d f [<-|X]; [cbn; lia|]. apply in_delete in X. auto. }
    intros f X. destruct c; unfold sys_step in S; try (destruct S as (E & _); rewrite E in X; auto; fail).
    - destruct S as (_ & S). destruct r; [destruct S as (x & _ & _ & E); rewrite E in X; destruct X as [<-|X]; [cbn; lia|auto]|destruct S as (_ & E); rewrite E in X; auto].
    - destruct S as (_ & S). destruct r; [rewrite S in X; eapply U; [|exact X]; reflexivity|destruct S as (_ & n & E); rewrite E in X; eapply U; [|exact X]; reflexivity].
    - destruct S as (_ & S). destruct r; [destruct S as (_ & E); rewrite E in X; apply in_delete in X; auto|destruct S as (_ & E); rewrite E in X; auto].
    - destruct S as (_ & S). destruct r; [|destruct S as (_ & E); rewrite E in X; auto].
      destruct S as (e & F & E). rewrite E in X. destruct X as [<-|X]; [cbn; apply lookup_some in F; apply M, F|]. apply in_delete, in_delete in X. auto.
    - destruct K.
    - destruct S as (_ & S). destruct r; [destruct S as (d & E)|destruct S as [E|(d & E)]]; rewrite E in X; eauto.
    - destruct S as (_ & [(_ & E)|(d & E)]); rewrite E in X; auto. eapply U; [|exact X]; reflexivity.
  Qed.

  Lemma stored_step : forall o w c r w', keeps c -> stored o w -> sys_step true w c r w' -> stored o w'.
  Proof.
    intros o w c r w' K M S O. specialize (M O).
    assert (U : forall q g, (forall e, f_path (g e) = f_path e) -> lookup p (update q g (files w)) <> None).
    { intros q g G. rewrite lookup_none. rewrite lookup_none in M. intros X. apply M. intros Y. apply X. unfold update. rewrite map_map.
      erewrite map_ext; [exact Y|]. intros e. destruct (path_eq_dec _ _); auto. }
    assert (N : forall dst d t, lookup p (mkFile dst d t :: delete dst (files w)) <> None).
    { intros dst d t. rewrite lookup_cons. cbn [f_path]. destruct (path_eq_dec dst p); [discriminate|]. rewrite lookup_delete_neq; auto. }
    destruct c; unfold sys_step in S; try (destruct S as (E & _); rewrite E; auto; fail).
    - destruct S as (_ & S). destruct r; [destruct S as (x & _ & _ & E)|destruct S as (_ & E)]; rewrite E; auto. rewrite lookup_cons. destruct (path_eq_dec _ _); [discriminate|auto].
    - destruct S as (_ & S). destruct r; [rewrite S; apply U; reflexivity|destruct S as (_ & n & E); rewrite E; apply U; reflexivity].
    - destruct S as (_ & S). cbn [keeps] in K. destruct r; destruct S as (_ & E); rewrite E; auto. rewrite lookup_delete_neq; auto.
    - destruct S as (_ & S). cbn [keeps] in K. destruct r; [|destruct S as (_ & E); rewrite E; auto].
      destruct S as (e & F & E). rewrite E, lookup_cons. cbn [f_path]. destruct (path_eq_dec _ _); [discriminate|]. rewrite !lookup_delete_neq; auto; congruence.
    - destruct K.
    - destruct S as (_ & S). destruct r; [destruct S as (d & E)|destruct S as [E|(d & E)]]; rewrite E; auto.
    - destruct S as (_ & [(_ & E)|(d & E)]); rewrite E; auto.
  Qed.

  (** Results of calls while the file is there *)
  Definition fine (o : bool) (c : syscall) : reply c -> Prop :=
    match c return reply c -> Prop with
    | SCreateTemp _ => fun r => match r with Some t => in_tmp t = true | None => True end
    | SStat q => fun r => match r with StatOk t => (m0 <= t)%Z | StatNotExist => o = true -> q <> p | StatErr => True end
    | SNow => fun r => (r <= limit)%Z
    | _ => fun _ => True
    end.
  Lemma fine_step : forall o w c r w', recent w -> stored o w -> sys_step true w c r w' -> (clock w' <= limit)%Z -> fine o c r.
  Proof.
    intros o w c r w' (C & M) P S L. pose proof (found_step _ _ _ _ S) as F. destruct c; try exact I; unfold sys_step in S; cbn [fine].
    - destruct r; [exact F|exact I].
    - destruct S as (_ & _ & S). destruct r; auto; [destruct S as (e & X & ->); apply lookup_some in X; apply M, X|]. intros O ->. exact (P O S).
    - destruct S as (_ & _ & ->). exact L.
  Qed.

  Fixpoint tame {B} (o : bool) (Q : B -> Prop) (q : prog B) : Prop :=
    match q with
    | Ret b => Q b
    | Call c k => keeps c /\ forall r, fine o c r -> tame o Q (k r)
    end.
  Lemma tame_bind : forall B C o (Q : C -> Prop) (q : prog B) (f : B -> prog C), tame o (fun b => tame o Q (f b)) q -> tame o Q (pbind q f).
  Proof. intros B C o Q q f. induction q as [b|c k IH]; cbn [pbind tame]; auto. intros [H1 H2]. split; auto. Qed.
  Lemma tame_all : forall B o (q : prog B) (Q Q' : B -> Prop), (forall b, Q b -> Q' b) -> tame o Q q -> tame o Q' q.
  Proof. intros B o q Q Q' W. induction q as [b|c k IH]; cbn [tame]; auto. intros [H1 H2]. split; auto. Qed.

  Lemma tame_lookup : forall o folder file, tame o (fun r => o = true -> p = cache_path folder file -> r <> Ok false) (GetFile cfg folder file).
  Proof.
    intros o folder file. unfold GetFile, isOutdated. cbn [pbind tame keeps fine]. split; [exact I|]. intros [t| |] F; cbn [pbind tame].
    - split; [exact I|]. cbn [fine]. intros now L. unfold touch. rewrite ST. cbn [pbind tame].
      assert (X : (CacheMaxAge cfg <? Z.quot (now - t) ns_per_minute)%Z = false).
      { apply Z.ltb_ge. unfold limit, ns_per_minute in *. destruct (Z.le_gt_cases 0 (now - t)).
        - rewrite Z.quot_div_nonneg by lia. apply Z.div_le_upper_bound; lia.
        - apply Z.le_trans with 0%Z; [|lia]. pose proof (Z.quot_opp_l (-(now - t)) 60000000000 ltac:(lia)) as E. rewrite Z.opp_involutive in E. rewrite E.
          pose proof (Z.quot_pos (-(now - t)) 60000000000 ltac:(lia) ltac:(lia)). lia. }
      rewrite X. cbn [tame]. intros _ _. discriminate.
    - intros O E. exfalso. apply (F O). auto.
    - intros _ _. discriminate.
  Qed.

  Lemma not_tmp : forall t, in_tmp t = true -> t <> p.
  Proof. intros t T E. congruence. Qed.

  Lemma tame_found : forall B Q (q : prog B), tame false Q q -> tame true Q q.
  Proof. intros B Q q. induction q as [b|c k IH]; cbn [tame]; auto. intros [H1 H2]. split; auto. intros r F. apply IH, H2. destruct c; auto. cbn [fine] in *. destruct r; auto. Qed.

  Lemma tame_store : forall o efuel folder file chunks ok, tame o (fun _ => True) (CacheToFile cfg efuel folder file chunks ok).
  Proof.
    intros o efuel folder file chunks ok. unfold CacheToFile. cbn [tame keeps fine]. split; [exact I|].
    assert (G : tame o (fun _ : res unit => True) (Call (SCreateTemp (SanitizeFilename file)) (fun r => match r with None => Ret Err | Some tmp =>
      pbind (then_ok (Copy tmp chunks ok) (then_ok (CacheToFile_evict cfg efuel folder file tmp) (CacheToFile_move folder file tmp)))
            (fun res => Call (SRemove tmp) (fun _ => Call (SClose tmp) (fun _ => Ret res))) end))).
    { cbn [tame keeps fine]. split; [exact I|]. intros [tmp|] T; [|exact I]. apply tame_bind.
      apply tame_all with (Q := fun _ => True); [intros b _; cbn [tame keeps fine]; split; [apply not_tmp; auto|]; intros; split; [exact I|]; intros; exact I|].
      unfold then_ok at 1. apply tame_bind. apply tame_all with (Q := fun _ => True).
      - intros [x| | |] _; try exact I. unfold then_ok. apply tame_bind. unfold CacheToFile_evict. rewrite ST. cbn [tame]. unfold CacheToFile_move. cbn [tame keeps fine].
        split; [exact I|]. intros [|] _; [|exact I]. cbn [tame keeps fine]. split; [apply not_tmp; auto|]. intros; exact I.
      - clear - tmp. induction chunks as [|c chunks IH]; cbn [Copy tame keeps]; [exact I|]. split; [exact I|]. intros [|] _; [auto|exact I]. }
    intros [| |] _; try exact G. exact I.
  Qed.

  (** ** All workers *)
  Definition calm_activity (o : bool) (a : activity) : Prop :=
    match a with
    | Free p => modest p
    | Looking rest k => tame o (fun _ => True) rest /\ forall r, modest (k r)
    | Storing rest k => tame o (fun _ => True) rest /\ forall r, modest (k r)
    end.

  (** A worker that needs the file [p] *)
  Fixpoint mute {A} (t : thread A) : Prop :=
    match t with
    | TRet _ => True
    | TLookup folder file k => forall r, (p = cache_path folder file -> r <> Ok false) -> mute (k r)
    | TStore _ _ _ _ k => forall r, mute (k r)
    | TCall c k => (forall q, c <> SDo q) /\ forall r, mute (k r)
    end.
  Definition mute_activity (a : activity) : Prop :=
    match a with
    | Free t => mute t
    | Looking rest k => tame true (fun r => mute (k r)) rest
    | Storing rest k => forall r, mute (k r)
    end.

  Lemma usual_keeps : forall c, usual c -> keeps c.
  Proof. intros c U. destruct c; try contradiction; exact I. Qed.
  Lemma worker_calm : forall o efuel others a w events a' w',
    worker_step cfg efuel others a w events a' w' -> (clock w' <= limit)%Z -> recent w -> stored o w -> calm_activity o a ->
    recent w' /\ stored o w' /\ calm_activity o a' /\ (clock w <= clock w')%Z.
  Proof.
    intros o efuel others a w events a' w' S L R P C.
    destruct S as [folder file k w F|folder file chunks ok k w F|c q k w r w' S|c q k w r w' S|r k w|r k w|c k w r w' S]; cbn [calm_activity modest] in *; try (split; [exact R|split; [exact P|split; [|lia]]]).
    - split; [|exact C]. eapply tame_all; [|apply tame_lookup]. auto.
    - split; [|exact C]. apply tame_store; auto.
    - destruct C as [[K C] D]. split; [eapply recent_step; eauto|]. split; [eapply stored_step; eauto|]. split; [|eapply sys_step_clock; eauto]. split; auto. apply C. eapply fine_step; eauto.
    - destruct C as [[K C] D]. split; [eapply recent_step; eauto|]. split; [eapply stored_step; eauto|]. split; [|eapply sys_step_clock; eauto]. split; auto. apply C. eapply fine_step; eauto.
    - apply C.
    - apply C.
    - destruct C as [K C]. split; [eapply recent_step; eauto; apply usual_keeps; auto|]. split; [eapply stored_step; eauto; apply usual_keeps; auto|]. split; [auto|]. eapply sys_step_clock; eauto.
  Qed.

  Lemma worker_mute : forall efuel others a w events a' w', worker_step cfg efuel others a w events a' w' -> (clock w' <= limit)%Z -> recent w -> stored true w ->
    mute_activity a -> mute_activity a'.
  Proof.
    intros efuel others a w events a' w' S L R P C.
    destruct S as [folder file k w F|folder file chunks ok k w F|c q k w r w' S|c q k w r w' S|r k w|r k w|c k w r w' S]; cbn [mute_activity mute tame] in *; auto.
    - eapply tame_all; [|apply tame_lookup]. intros r H. cbn beta in H. apply C. auto.
    - apply C. eapply fine_step; eauto.
    - apply C.
  Qed.

  Definition all_calm (o : bool) (s : crowd) : Prop := recent (drive s) /\ stored o (drive s) /\ forall j a, In (j, a) (staff s) -> calm_activity o a.

  Lemma process_calm : forall o s s', process ext cfg s s' -> (clock (drive s') <= limit)%Z -> all_calm o s ->
    all_calm o s'.
  Proof.
    intros o s s' H. induction H as [s|s s' j fuel H IH|s before j a after w net efuel events a' w' H IH S]; intros L G; auto.
    - cbn [drive staff] in *. destruct (IH L G) as (A & B & C). split; [exact A|]. split; [exact B|]. cbn [staff]. intros j' a [X|X]; [|eapply C; eauto]. injection X as <- <-. apply modest_program.
    - cbn [drive staff] in *. assert (L' : (clock w <= limit)%Z).
      { assert (X : (clock w <= clock w')%Z) by (destruct S; try lia; eapply sys_step_clock; eauto). lia. }
      destruct (IH L' G) as (A & B & C). cbn [drive staff] in *.
      destruct (worker_calm o _ _ _ _ _ _ _ S L A B) as (A' & B' & C' & _); [apply (C j); rewrite in_app_iff; cbn; auto|].
      split; [exact A'|]. split; [exact B'|]. cbn [staff]. intros j' b X. rewrite in_app_iff in X. cbn in X.
      destruct X as [X|[X|X]]; [apply (C j'); rewrite in_app_iff; auto|injection X as <- <-; auto|apply (C j'); rewrite in_app_iff; cbn; auto].
  Qed.

  (** The worker with [n] workers behind it *)
  Lemma process_mute : forall s s' n, process ext cfg s s' -> (clock (drive s') <= limit)%Z -> all_calm true s ->
    n < length (staff s) ->
    (forall before j a after, staff s = before ++ (j, a) :: after -> length after = n -> mute_activity a) ->
    n < length (staff s') /\ forall before j a after, staff s' = before ++ (j, a) :: after -> length after = n -> mute_activity a.
  Proof.
    intros s s' n H.
    induction H as [s|s s' j fuel H IH|s before j a after w net efuel events a' w' H IH S]; intros L G N M; auto.
    - cbn [drive staff] in *. destruct (IH L G N M) as (N' & M'). split; [cbn [length]; lia|]. intros [|x b] j' a c E LE; cbn [app] in E; injection E as E1 E2.
      + subst. lia.
      + eapply M'; eauto.
    - cbn [drive staff] in *. assert (L' : (clock w <= limit)%Z).
      { assert (X : (clock w <= clock w')%Z) by (destruct S; try lia; eapply sys_step_clock; eauto). lia. }
      destruct (IH L' G N M) as (N' & M'). destruct (process_calm _ _ _ H L' G) as (A & B & C). cbn [drive staff] in *.
      split; [rewrite app_length in *; cbn [length] in *; exact N'|]. intros b j' x c E LE.
      apply split_two in E as [(<- & X & <-)|[(m & -> & ->)|(m & -> & ->)]].
      + injection X as <- <-. eapply worker_mute; eauto.
      + apply (M' (before ++ (j, a) :: m) j' x c); auto. rewrite <- app_assoc. reflexivity.
      + apply (M' b j' x (m ++ (j, a) :: after)); [rewrite <- app_assoc; reflexivity|]. rewrite app_length in *. cbn [length] in *. exact LE.
  Qed.

  Lemma calm_found : forall s, all_calm false s -> lookup p (files (drive s)) <> None -> all_calm true s.
  Proof.
    intros s (A & _ & C) F. split; [exact A|]. split; [intros _; exact F|]. intros j a X. apply C in X. destruct a; cbn [calm_activity] in *; auto; destruct X; split; auto; apply tame_found; auto.
  Qed.
End Once.
