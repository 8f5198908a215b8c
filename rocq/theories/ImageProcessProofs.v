(** * Proofs about the processing of images *)

From Coq Require Import Ascii String.
From Coq Require Import List Arith NArith ZArith Bool Lia.
From Verif Require Import GoStr GoStrFacts UtilModel CacheModel CacheSpec CacheProofs CacheProofs2 HttpModel HttpSpec HttpProofs HtmlModel ServiceSpec UtilProofs ImageSpec ImageFileProofs RequestSpec RequestProofs.
Import ListNotations.
Local Open Scope list_scope.

Section Process.
Variable wiki : wiki_config.

Lemma image_file_unique : forall file p, image_file wiki file p -> p = [!"images"; stored_name wiki file].
Proof.
  intros file p H. unfold stored_name. destruct (is_converted wiki file) eqn:E.
  - apply is_converted_spec in E. destruct H as [(N & _)|(_ & ->)]; [contradiction|reflexivity].
  - destruct H as [(_ & ->)|(C & _)]; [rewrite app_nil_r; reflexivity|]. apply is_converted_spec in C. congruence.
Qed.

Lemma rescale_other : forall p fresh w tr r w' q, tends true (rescale wiki p fresh) w tr r w' -> q <> p -> lookup q (files w') = lookup q (files w).
Proof.
  intros p fresh w tr r w' q H N. unfold rescale in H. destruct (_ && _ && _ && _); [|apply tends_ret in H as (_ & _ & ->); reflexivity].
  apply tends_call in H as (x & w1 & tr1 & (_ & E) & H & _). apply tends_ret in H as (_ & _ & ->). destruct E as [(_ & E)|(d & E)]; [rewrite E; reflexivity|]. rewrite E, lookup_update by auto. destruct (lookup q (files w)); [|reflexivity]. cbn [option_map]. destruct (path_eq_dec q p); [contradiction|reflexivity].
Qed.

Lemma process_other : forall file fresh w tr r w' shown q, tends true (postProcessImage wiki (cache_path !"images" file) fresh) w tr r w' -> image_file wiki file shown -> q <> shown ->
  lookup q (files w') = lookup q (files w).
Proof.
  intros file fresh w tr r w' shown q H S N. apply image_file_unique in S. subst shown. unfold stored_name in N. unfold postProcessImage in H. unfold cache_path in H. cbn [last] in H. fold (is_converted wiki file) in H.
  destruct (is_converted wiki file); [|rewrite app_nil_r in N; eapply rescale_other; eauto].
  change (png_path [!"images"; SanitizeFilename file]) with [!"images"; SanitizeFilename file ++ !".png"] in H.
  apply tends_call in H as (x & w1 & tr1 & (E & _ & _) & H & _). destruct x; [rewrite <- E; eapply rescale_other; eauto|].
  apply tends_call in H as (y & w2 & tr2 & (_ & S) & H & _). rewrite <- E.
  assert (L : lookup q (files w2) = lookup q (files w1)).
  { assert (S' : files w2 = files w1 \/ exists d, files w2 = mkFile [!"images"; SanitizeFilename file ++ !".png"] d (clock w2) :: delete [!"images"; SanitizeFilename file ++ !".png"] (files w1)) by (destruct y; auto).
    destruct S' as [->|(d & ->)]; [reflexivity|]. rewrite lookup_cons. cbn [f_path]. destruct (path_eq_dec _ q) as [X|_]; [exfalso; apply N; auto|]. apply lookup_delete_neq. auto. }
  rewrite <- L. destruct y; [eapply rescale_other; eauto|]. apply tends_ret in H as (_ & _ & ->). reflexivity.
Qed.

Lemma process_step_call : forall p w1 w2, sys_step true w1 (SRewrite p) true w2 -> process_step p w1 w2.
Proof. intros p w1 w2 S. exists w1, w2. auto. Qed.

Lemma process_step_files : forall p w w1 w2, files w1 = files w -> process_step p w1 w2 -> process_step p w w2.
Proof. intros p w w1 w2 E (v & v' & A & B & C). exists v, v'. split; [congruence|auto]. Qed.

Lemma vector_spec : forall file, negb (str_eqb (path_ext (to_lower (SanitizeFilename file))) !".svg") && negb (str_eqb (path_ext (to_lower (SanitizeFilename file))) !".pdf") = true <-> ~ vector file.
Proof.
  intros file. rewrite andb_true_iff, !negb_true_iff, <- !not_true_iff_false.
  pose proof (extension_test !"pdf" file (small_all !"pdf" eq_refl) (clean_all _ (small_all !"pdf" eq_refl))) as A.
  pose proof (extension_test !"svg" file (small_all !"svg" eq_refl) (clean_all _ (small_all !"svg" eq_refl))) as B.
  change ("."%char :: !"pdf") with !".pdf" in A. change ("."%char :: !"svg") with !".svg" in B. unfold vector. tauto.
Qed.

Lemma png_not_vector : forall file, negb (str_eqb (path_ext (to_lower (SanitizeFilename file ++ !".png"))) !".svg") && negb (str_eqb (path_ext (to_lower (SanitizeFilename file ++ !".png"))) !".pdf") = true.
Proof.
  intros file. assert (P : SanitizeFilename file ++ !".png" = SanitizeFilename (file ++ !".png")) by (rewrite !sanitize_enc, flat_map_app; reflexivity). rewrite P. apply vector_spec.
  intros [(b & E)|(b & E)]; unfold to_lower in E; rewrite map_app in E; apply (f_equal (@rev ascii)) in E; rewrite !rev_app_distr in E; cbn in E; discriminate.
Qed.

(** What post-processing does with the image *)
Lemma process_steps : forall file fresh w tr w' shown, tends true (postProcessImage wiki (cache_path !"images" file) fresh) w tr (Ok tt) w' -> image_file wiki file shown ->
  (~ converted wiki file /\ fresh = true /\ ProcessImages wiki = true /\ ~ vector file /\ process_step shown w w') \/
  (~ converted wiki file /\ (fresh = false \/ ProcessImages wiki = false \/ vector file) /\ files w' = files w) \/
  (converted wiki file /\ exists w1 new, ((new = true /\ convert_step (cache_path !"images" file) shown w w1) \/ (new = fresh /\ content w shown <> None /\ files w1 = files w)) /\
    (if new && ProcessImages wiki then process_step shown w1 w' else files w' = files w1)).
Proof.
  intros file fresh w tr w' shown H S. apply image_file_unique in S. subst shown. unfold stored_name. unfold postProcessImage in H. unfold cache_path in *. cbn [last] in H. fold (is_converted wiki file) in H.
  destruct (is_converted wiki file) eqn:C.
  - right. right. apply is_converted_spec in C. split; auto. change (png_path [!"images"; SanitizeFilename file]) with [!"images"; SanitizeFilename file ++ !".png"] in H.
    cbv iota. set (shown := [!"images"; SanitizeFilename file ++ !".png"]) in *.
    assert (R : forall new v tr v', tends true (rescale wiki shown new) v tr (Ok tt) v' -> if new && ProcessImages wiki then process_step shown v v' else files v' = files v).
    { intros new v t v' K. unfold rescale in K. cbn [last shown] in K. unfold shown in K at 1 2. cbn [last] in K. rewrite <- andb_assoc, png_not_vector, andb_true_r in K. destruct (new && ProcessImages wiki).
      - apply tends_call in K as (x & v1 & t1 & P & K & _). apply tends_ret in K as (K & _ & ->). destruct x; [|discriminate]. apply process_step_call. exact P.
      - apply tends_ret in K as (_ & _ & ->). reflexivity. }
    apply tends_call in H as (x & w1 & tr1 & (E & _ & X) & H & _). destruct x.
    + exists w1, fresh. split; [|eapply R; exact H]. right. split; auto. split; auto. intros Y. apply X. apply content_lookup_none. exact Y.
    + apply tends_call in H as (y & w2 & tr2 & P & H & _). destruct y; [|apply tends_ret in H as (H & _); discriminate]. exists w2, true. split; [|eapply R; exact H]. left. split; auto. exists w1, w2. auto.
  - assert (NC : ~ converted wiki file) by (intros D; apply is_converted_spec in D; congruence). cbv iota. rewrite app_nil_r. unfold rescale in H. cbn [last] in H. rewrite <- andb_assoc in H.
    destruct (negb _ && negb _) eqn:V.
    + apply vector_spec in V. rewrite andb_true_r in H. destruct fresh, (ProcessImages wiki); cbn [andb] in H;
        try (right; left; apply tends_ret in H as (_ & _ & ->); split; auto; fail). left. repeat split; auto.
      apply tends_call in H as (x & v1 & t1 & P & K & _). apply tends_ret in K as (K & _ & ->). destruct x; [|discriminate]. apply process_step_call. exact P.
    + rewrite andb_false_r in H. right. left. apply tends_ret in H as (_ & _ & ->). split; auto. split; auto. right. right.
      pose proof (extension_test !"pdf" file (small_all !"pdf" eq_refl) (clean_all _ (small_all !"pdf" eq_refl))) as A.
      pose proof (extension_test !"svg" file (small_all !"svg" eq_refl) (clean_all _ (small_all !"svg" eq_refl))) as B.
      change ("."%char :: !"pdf") with !".pdf" in A. change ("."%char :: !"svg") with !".svg" in B. unfold vector.
      apply andb_false_iff in V as [V|V]; apply negb_false_iff in V; [left; apply B; exact V|right; apply A; exact V].
Qed.

(** Without requests the images stay as they are. *)
Lemma process_not_fresh : forall file w tr w', tends true (postProcessImage wiki (cache_path !"images" file) false) w tr (Ok tt) w' -> ~ converted wiki file -> files w' = files w.
Proof.
  intros file w tr w' H N. destruct (process_steps file false w tr w' _ H (image_file_stored wiki file)) as [(_ & X & _)|[(_ & _ & X)|(X & _)]]; [discriminate|auto|contradiction].
Qed.
End Process.

Section Cached.
Variables (ext : externals) (cfg : cache_config) (wiki : wiki_config) (efuel fuel : nat).
Hypothesis lib : library ext.
Hypothesis age : (0 <= CacheMaxAge cfg)%Z.
Hypothesis no_viewbox : SvgSizeToViewbox wiki = false.

Lemma fresh_requested : forall host image w tr p w', tends true (downloadImage ext cfg wiki efuel fuel host image) w tr (Ok (p, true)) w' -> tr <> [].
Proof.
  intros host image w tr p w' H E. subst tr. unfold downloadImage in H. destruct (after_colon image) as [n| | |]; try (apply tends_ret in H as (H & _); discriminate).
  apply tends_on_ok in H as [((t & x) & w1 & tr1 & tr2 & _ & Y & E)|(_ & N)]; [|eapply N; reflexivity]. symmetry in E. apply app_eq_nil in E as (_ & ->).
  destruct (after_colon (!"File:" ++ n)) as [o| | |]; try (apply tends_ret in Y as (Y & _); discriminate). destruct (after_colon t) as [y| | |]; try (apply tends_ret in Y as (Y & _); discriminate).
  apply tends_on_ok in Y as [((p' & b) & w2 & tr3 & tr4 & D & Z & E)|(_ & N)]; [|eapply N; reflexivity]. symmetry in E. apply app_eq_nil in E as (-> & ->). rewrite no_viewbox, andb_false_r in Z. cbn [andb] in Z.
  apply tends_ret in Z as (Z & _). injection Z as _ <-. apply DownloadAndCache_fresh in D as (_ & d & (tr' & a & E & _) & _); [|exact age|cbn; tauto]. destruct tr'; discriminate.
Qed.

Lemma unrequested : forall host image w r w', tends true (downloadImage ext cfg wiki efuel fuel host image) w [] r w' -> only_written (fun _ _ => False) w w' /\
  forall p fresh, r = Ok (p, fresh) -> fresh = false /\ exists n, name_in_title image n /\ p = cache_path !"images" (underscores n).
Proof.
  intros host image w r w' H. pose proof (image_written ext cfg wiki efuel fuel (proj1 lib) age host image w [] r w' (proj1 (proj2 lib)) (proj2 (proj2 lib)) H) as [(_ & -> & N)|(n & NT & _ & W & R)].
  - split; [apply written_refl|]. intros p fresh ->. exfalso. unfold downloadImage in H. unfold after_colon in H. change !":" with [":"%char] in H. rewrite split_single_none in H by auto. cbn [nth_error] in H. apply tends_ret in H as (H & _). discriminate.
  - split.
    + eapply written_mono; [|exact W]. intros p d [(_ & (q & a & [] & _))|(_ & [(q & a & [] & _)|(E & _)])]. congruence.
    + intros p fresh ->. split; [|eauto]. destruct fresh; auto. exfalso. eapply fresh_requested; [exact H|reflexivity].
Qed.

Lemma cached_unchanged : forall image w w', tends true (downloadImageUsingAllSources ext cfg wiki efuel fuel image) w [] (Ok tt) w' ->
  (forall n, name_in_title image n -> ~ converted wiki (underscores n)) -> only_written (fun _ _ => False) w w'.
Proof.
  intros image w w' H N. apply downloadImageUsingAllSources_order in H as (o & w1 & A & B); [|auto].
  assert (G : forall tr, tr = [] -> forall hosts w o w1, asked_in_order true (fun host => downloadImage ext cfg wiki efuel fuel host image) hosts w tr o w1 -> only_written (fun _ _ => False) w w1 /\
    forall p fresh, o = Some (p, fresh) -> fresh = false /\ exists n, name_in_title image n /\ p = cache_path !"images" (underscores n)).
  { clear w w' N o w1 A B. intros tr E hosts w o w1 H. induction H as [w|host hosts w tr (p & b) w' H|host hosts w tr w1 tr1 r w' H H2 IH].
    - split; [apply written_refl|discriminate].
    - subst tr. destruct (unrequested _ _ _ _ _ H) as (W & R). split; auto. intros p' b' X. injection X as <- <-. auto.
    - apply app_eq_nil in E as (-> & ->). destruct (unrequested _ _ _ _ _ H) as (W & _). destruct (IH eq_refl) as (W2 & R). split; auto. eapply written_trans; eauto. }
  destruct (G [] eq_refl _ _ _ _ A) as (W & R). destruct o as [(p & fresh)|].
  - destruct (R p fresh eq_refl) as (-> & n & NT & ->). eapply written_trans; [exact W|]. apply written_same. eapply process_not_fresh; [exact B|]. apply N. exact NT.
  - destruct B as (-> & _). exact W.
Qed.
End Cached.
