(** * Downloaded images and the paths in the HTML *)

From Coq Require Import Ascii String.
From Coq Require Import List Arith NArith ZArith Bool Lia.
From Verif Require Import GoStr GoStrFacts UtilModel UtilSpec UtilProofs ConfigModel CacheModel CacheSpec CacheProofs CacheProofs2 HttpModel HttpSpec HttpProofs HtmlModel ImageSpec.
Import ListNotations.
Local Open Scope list_scope.

Lemma decode_char : forall c rest, c <> " "%char -> percent_decode (escape_char c ++ rest) = c :: percent_decode rest.
Proof.
  intros c rest N.
  assert (U : forall c, c <> "%"%char -> percent_decode ([c] ++ rest) = c :: percent_decode rest).
  { intros d D. cbn [app percent_decode]. rewrite (proj2 (Ascii.eqb_neq d "%")); auto. }
  unfold escape_char. destruct (unreserved c) eqn:E.
  - apply U. intros ->. discriminate.
  - rewrite (proj2 (Ascii.eqb_neq c " ")) by auto. cbn [app percent_decode]. change (Ascii.eqb "%" "%") with true. cbn [negb].
    assert (H : hex_value (hex_digit (N_of_ascii c / 16)) = Some (N_of_ascii c / 16)%N /\ hex_value (hex_digit (N_of_ascii c mod 16)) = Some (N_of_ascii c mod 16)%N
      /\ ascii_of_N (16 * (N_of_ascii c / 16) + N_of_ascii c mod 16) = c).
    { clear. destruct c as [[] [] [] [] [] [] [] []]; vm_compute; auto. }
    destruct H as (-> & -> & H). rewrite H. auto.
Qed.
Lemma decode_escape : forall s rest, ~ In " "%char s -> percent_decode (query_escape s ++ rest) = s ++ percent_decode rest.
Proof.
  intros s rest. induction s as [|c s IH]; intros N; auto. cbn [query_escape flat_map]. rewrite <- app_assoc. rewrite decode_char by (intros ->; apply N; left; auto).
  fold (query_escape s). rewrite IH by (intros H; apply N; right; auto). auto.
Qed.
Lemma decode_path : forall a b, ~ In "/"%char a -> ~ In "/"%char b -> ~ In " "%char a -> ~ In " "%char b ->
  percent_decode (escapePathComponents (a ++ !"/" ++ b)) = a ++ !"/" ++ b.
Proof.
  intros a b A B SA SB. unfold escapePathComponents. change !"/" with ["/"%char].
  change (split ["/"%char] (a ++ ["/"%char] ++ b)) with (split ["/"%char] (a ++ "/"%char :: b)). rewrite (split_single_app "/" a b A), (split_single_none "/" b B).
  cbn [map join]. rewrite decode_escape by auto. cbn [app]. apply f_equal. cbn [percent_decode]. change (Ascii.eqb "/" "%") with false. cbn iota.
  apply f_equal. rewrite <- (app_nil_r (query_escape b)). rewrite decode_escape by auto. cbn [percent_decode]. apply app_nil_r.
Qed.

(** Extensions *)
Lemma ext_go_cases : forall u acc, ext_go u acc = [] \/ exists v x, u = v ++ "."%char :: x /\ ext_go u acc = "."%char :: rev v ++ acc.
Proof.
  induction u as [|c u IH]; intros acc; cbn [ext_go]; auto. destruct (Ascii.eqb c "/"); auto. destruct (Ascii.eqb c ".") eqn:E.
  - apply Ascii.eqb_eq in E. subst c. right. exists [], u. auto.
  - destruct (IH (c :: acc)) as [H|(v & x & -> & H)]; auto. right. exists (c :: v), x. split; auto. rewrite H. cbn [rev]. rewrite <- app_assoc. auto.
Qed.
Lemma ext_go_clean : forall u x acc, Forall (fun c => c <> "/"%char /\ c <> "."%char) u -> ext_go (u ++ "."%char :: x) acc = "."%char :: rev u ++ acc.
Proof.
  induction u as [|c u IH]; intros x acc F; [reflexivity|]. cbn [app ext_go]. destruct (Forall_inv F) as [A B].
  rewrite (proj2 (Ascii.eqb_neq c "/")), (proj2 (Ascii.eqb_neq c ".")) by auto. rewrite IH by exact (Forall_inv_tail F). cbn [rev]. rewrite <- app_assoc. auto.
Qed.
Lemma path_ext_suffix : forall e s, Forall (fun c => c <> "/"%char /\ c <> "."%char) e ->
  path_ext s = "."%char :: e <-> exists base, s = base ++ "."%char :: e.
Proof.
  intros e s F. unfold path_ext. split.
  - intros H. destruct (ext_go_cases (rev s) []) as [E|(v & x & R & E)]; [congruence|]. rewrite H in E. rewrite app_nil_r in E. injection E as E.
    exists (rev x). rewrite <- (rev_involutive s), R, rev_app_distr. cbn [rev]. rewrite <- app_assoc, E. auto.
  - intros [base ->]. rewrite rev_app_distr. cbn [rev]. rewrite <- app_assoc. cbn [app]. rewrite ext_go_clean; [|apply Forall_rev; auto].
    rewrite rev_involutive, app_nil_r. auto.
Qed.

Definition small (c : ascii) : Prop := (97 <= N_of_ascii c <= 122)%N.
Lemma enc_cases : forall c, enc c = [c] \/
  (exists h l, map lower_char (enc c) = ["%"%char; h; l] /\ h <> "."%char /\ l <> "."%char /\ lower_char c <> "."%char /\ ~ small (lower_char c)).
Proof.
  intros c. destruct c as [[] [] [] [] [] [] [] []]; first [left; reflexivity|right; do 2 eexists; split; [reflexivity|]; repeat split; try discriminate; vm_compute; intros [? ?]; congruence].
Qed.

Lemma small_sanitized : forall f x, Forall small x -> map lower_char (flat_map enc f) = x <-> map lower_char f = x.
Proof.
  induction f as [|c f IH]; intros x F; [reflexivity|]. cbn [flat_map]. rewrite map_app. destruct (enc_cases c) as [E|(h & l & E & _ & _ & _ & N)]; rewrite E.
  - cbn [map app]. destruct x as [|y x]; [split; discriminate|]. split; intros H; injection H as -> H; f_equal; apply (IH x (Forall_inv_tail F)); auto.
  - split.
    + intros <-. pose proof (Forall_inv F) as S. vm_compute in S. destruct S as [S _]. contradiction S. auto.
    + intros <-. cbn [map] in F. pose proof (Forall_inv F). contradiction.
Qed.

Lemma sanitized_extension : forall x f, Forall small x ->
  (exists base, to_lower (SanitizeFilename f) = base ++ "."%char :: x) <-> has_extension ("."%char :: x) f.
Proof.
  intros x f F. unfold has_extension, to_lower. rewrite sanitize_enc. induction f as [|c f IH].
  - split; intros [[|] H]; discriminate.
  - cbn [flat_map]. rewrite map_app. destruct (enc_cases c) as [E|(h & l & E & H1 & H2 & H3 & H4)]; rewrite E; cbn [map app].
    + split; intros [[|d b] H]; cbn [app] in H; injection H as -> H.
      * exists []. cbn [app]. f_equal. apply small_sanitized; auto.
      * destruct (proj1 IH (ex_intro _ b H)) as [b' ->]. exists (d :: b'). auto.
      * exists []. cbn [app]. f_equal. apply small_sanitized; auto.
      * destruct (proj2 IH (ex_intro _ b H)) as [b' ->]. exists (d :: b'). auto.
    + split.
      * intros [[|d1 [|d2 [|d3 b]]] H]; cbn [app] in H; injection H; intros; try congruence; try discriminate.
        destruct (proj1 IH (ex_intro _ b H0)) as [b' ->]. exists (lower_char c :: b'). auto.
      * intros [[|d b] H]; cbn [app] in H; injection H as H' H; [congruence|]. destruct (proj2 IH (ex_intro _ b H)) as [b' ->]. exists ("%"%char :: h :: l :: b'). auto.
Qed.

Lemma lower_app : forall a b, to_lower (a ++ b) = to_lower a ++ to_lower b.
Proof. intros a b. apply map_app. Qed.

(** The test of the code is the specified one. *)
Lemma extension_test : forall x f, Forall small x -> Forall (fun c => c <> "/"%char /\ c <> "."%char) x ->
  str_eqb (path_ext (to_lower (SanitizeFilename f))) ("."%char :: x) = true <-> has_extension ("."%char :: x) f.
Proof. intros x f S C. rewrite str_eqb_eq, path_ext_suffix by auto. apply sanitized_extension. auto. Qed.

Lemma ext_go_slash : forall a b, ~ In "/"%char b -> forall acc, ext_go (rev b ++ "/"%char :: a) acc = ext_go (rev b) acc.
Proof.
  intros a b N. assert (R : ~ In "/"%char (rev b)) by (intros H; apply in_rev in H; auto). revert R. generalize (rev b). clear.
  induction l as [|c l IH]; intros N acc; [reflexivity|]. cbn [app ext_go]. rewrite (proj2 (Ascii.eqb_neq c "/")) by (intros ->; apply N; left; auto).
  destruct (Ascii.eqb c "."); auto. apply IH. intros H. apply N. right. auto.
Qed.
Lemma path_ext_last : forall a b, ~ In "/"%char b -> path_ext (a ++ "/"%char :: b) = path_ext b.
Proof. intros a b N. unfold path_ext. rewrite rev_app_distr. cbn [rev]. rewrite <- app_assoc. cbn [app]. apply ext_go_slash. auto. Qed.

Lemma lower_slash : forall c, lower_char c = "/"%char -> c = "/"%char.
Proof. intros c. destruct c as [[] [] [] [] [] [] [] []]; vm_compute; intros H; try discriminate H; auto. Qed.

Definition small_check (c : ascii) : bool := (97 <=? N_of_ascii c)%N && (N_of_ascii c <=? 122)%N.
Lemma small_all : forall x, forallb small_check x = true -> Forall small x.
Proof. intros x H. apply Forall_forall. intros c I. rewrite forallb_forall in H. apply H in I. apply andb_true_iff in I. unfold small. rewrite !N.leb_le in I. auto. Qed.
Lemma clean_all : forall x, Forall small x -> Forall (fun c => c <> "/"%char /\ c <> "."%char) x.
Proof.
  intros x F. eapply Forall_impl; [|exact F]. intros c [A B]. split; intros ->; vm_compute in A; contradiction A; auto.
Qed.

Section Wiki.
Variables (cfg : configuration) (wiki : wiki_config).
Hypothesis settings : same_settings cfg wiki.

Definition is_converted (file : str) : bool :=
  let e := path_ext (to_lower (SanitizeFilename file)) in
  (ConvertPdf wiki && str_eqb e !".pdf") || (ConvertSvg wiki && str_eqb e !".svg") || (ConvertWebp wiki && str_eqb e !".webp").

Lemma is_converted_spec : forall file, is_converted file = true <-> converted wiki file.
Proof.
  intros file. unfold is_converted, converted. rewrite !orb_true_iff, !andb_true_iff.
  pose proof (extension_test !"pdf" file (small_all !"pdf" eq_refl) (clean_all _ (small_all !"pdf" eq_refl))) as A.
  pose proof (extension_test !"svg" file (small_all !"svg" eq_refl) (clean_all _ (small_all !"svg" eq_refl))) as B.
  pose proof (extension_test !"webp" file (small_all !"webp" eq_refl) (clean_all _ (small_all !"webp" eq_refl))) as C.
  change ("."%char :: !"pdf") with !".pdf" in A. change ("."%char :: !"svg") with !".svg" in B. change ("."%char :: !"webp") with !".webp" in C. tauto.
Qed.

Definition stored_name (file : str) : str := SanitizeFilename file ++ (if is_converted file then !".png" else []).

Lemma image_file_stored : forall file, image_file wiki file [!"images"; stored_name file].
Proof.
  intros file. unfold image_file, stored_name. destruct (is_converted file) eqn:E.
  - right. split; auto. apply is_converted_spec. auto.
  - left. split; [rewrite <- is_converted_spec; congruence|]. rewrite app_nil_r. auto.
Qed.

Lemma sanitized_chars : forall file c, (c = "/" \/ c = " ")%char -> In c (SanitizeFilename file) -> c = " "%char /\ In c file.
Proof.
  intros file c [->| ->] H.
  - exfalso. revert H. apply SanitizeFilename_reserved. cbn; tauto.
  - split; auto. rewrite sanitize_enc in H. apply in_flat_map in H. destruct H as (d & D & H). 
    assert (d = " "%char); [|subst; auto]. revert H. clear. destruct d as [[] [] [] [] [] [] [] []]; vm_compute; intuition congruence.
Qed.

Lemma setting_bool : forall (b : bool) (s : str), (b = true <-> s <> []) -> negb (str_eqb s []) = b.
Proof. intros b [|c s] H; destruct b; cbn; auto; [destruct (proj1 H eq_refl); auto|]. symmetry. apply H. discriminate. Qed.

Lemma html_path : forall file, image_name file -> filenameToImagePath cfg file = !"images/" ++ stored_name file.
Proof.
  intros file (_ & _ & N1 & N2 & N3). unfold filenameToImagePath, stored_name, is_converted.
  rewrite GetRelativeFilePath_eq by (auto; apply cache_folders_entry; cbn; tauto).
  set (n := SanitizeFilename file). change (!"images" ++ !"/" ++ n) with (!"images" ++ "/"%char :: n).
  assert (E : path_ext (to_lower (!"images" ++ "/"%char :: n)) = path_ext (to_lower n)).
  { rewrite lower_app. change (to_lower ("/"%char :: n)) with ("/"%char :: to_lower n). apply path_ext_last. intros H. apply in_map_iff in H. destruct H as (c & L & H).
    apply lower_slash in L. subst c. destruct (sanitized_chars file "/"%char) as [X _]; auto. discriminate. }
  rewrite E. clear E. destruct settings as (A & B & C). rewrite (setting_bool _ _ A), (setting_bool _ _ B), (setting_bool _ _ C).
  set (e := path_ext (to_lower n)). change (!"images" ++ "/"%char :: n) with (!"images/" ++ n).
  destruct (ConvertPdf wiki && _); cbn [orb]; [rewrite <- app_assoc; auto|].
  destruct (ConvertSvg wiki && _); cbn [orb]; [rewrite <- app_assoc; auto|].
  destruct (ConvertWebp wiki && _); cbn [orb]; [rewrite <- app_assoc; auto|]. rewrite app_nil_r. auto.
Qed.

Lemma html_path_decoded : forall file, image_name file ->
  percent_decode (escapePathComponents (filenameToImagePath cfg file)) = join !"/" [!"images"; stored_name file].
Proof.
  intros file I. rewrite html_path by auto. change (!"images/" ++ stored_name file) with (!"images" ++ !"/" ++ stored_name file). rewrite decode_path; [reflexivity| | | |].
  - cbn. intuition discriminate.
  - unfold stored_name. intros H. apply in_app_or in H. destruct H as [H|H].
    + destruct (sanitized_chars file "/"%char) as [X _]; auto. discriminate.
    + destruct (is_converted file); cbn in H; intuition discriminate.
  - cbn. intuition discriminate.
  - unfold stored_name. intros H. apply in_app_or in H. destruct H as [H|H].
    + destruct (sanitized_chars file " "%char) as [_ X]; auto. apply I in X. auto.
    + destruct (is_converted file); cbn in H; intuition discriminate.
Qed.

(** ** The download *)
Variables (ext : externals) (ccfg : cache_config) (efuel fuel : nat).
Hypothesis age : (0 <= CacheMaxAge ccfg)%Z.

Lemma DownloadAndCache_ok : forall url folder name w tr p fresh w', In folder cache_folders ->
  tends true (DownloadAndCache ccfg efuel fuel url folder name) w tr (Ok (p, fresh)) w' -> p = cache_path folder name /\ content w' p <> None.
Proof.
  intros url folder name w tr p fresh w' F H. destruct fresh.
  - apply DownloadAndCache_fresh in H; auto. destruct H as (-> & d & _ & E). split; auto. congruence.
  - apply DownloadAndCache_hit in H; auto. destruct H as (-> & _ & f & now & _ & _ & _ & E). split; auto. congruence.
Qed.

Lemma rewrite_keeps : forall fl q r w w' p, sys_step fl w (SRewrite q) r w' -> content w p <> None -> content w' p <> None.
Proof.
  intros fl q r w w' p [_ [[_ E]|[d E]]] C; [unfold content in *; rewrite E; exact C|]. unfold content in *. rewrite E, lookup_update by auto. destruct (lookup p (files w)); [|auto]. destruct (path_eq_dec p q); discriminate.
Qed.
Lemma convert_keeps : forall fl s q r w w' p, sys_step fl w (SConvert s q) r w' -> content w p <> None -> content w' p <> None.
Proof.
  intros fl s q r w w' p [_ E] C. assert (K : files w' = files w \/ exists d, files w' = mkFile q d (clock w') :: delete q (files w)) by (destruct r; auto).
  destruct K as [K|[d K]]; [rewrite (content_files w w'); auto|]. unfold content in *. rewrite K, lookup_cons. cbn [f_path].
  destruct (path_eq_dec q p); [discriminate|]. rewrite lookup_delete_neq by auto. auto.
Qed.

Lemma downloadImage_ok : forall host image w tr p fresh w', tends true (downloadImage ext ccfg wiki efuel fuel host image) w tr (Ok (p, fresh)) w' ->
  exists n, after_colon image = Ok n /\ p = cache_path !"images" (replace_all !" " !"_" n) /\ content w' p <> None.
Proof.
  intros host image w tr p fresh w' H. unfold downloadImage in H. destruct (after_colon image) as [n| | |] eqn:A; try (apply tends_ret in H; destruct H; discriminate).
  exists n. split; auto. apply tends_on_ok in H. destruct H as [([title text] & w1 & tr1 & tr2 & _ & H & _)|[_ H]]; [|exfalso; eapply H; eauto].
  assert (O : after_colon (!"File:" ++ n) = Ok n).
  { unfold after_colon in *. change !":" with [":"%char] in *. change (!"File:" ++ n) with (!"File" ++ ":"%char :: n).
    rewrite split_single_app by (cbn; intuition discriminate). cbn [nth_error].
    pose proof (split_single_pieces ":" image) as P. destruct (split [":"%char] image) as [|a [|b l]]; try discriminate. injection A as ->.
    rewrite split_single_none; auto. exact (Forall_inv (Forall_inv_tail P)). }
  rewrite O in H. destruct (after_colon title) as [actual| | |]; try (apply tends_ret in H; destruct H; discriminate).
  apply tends_on_ok in H. destruct H as [([q fresh'] & w2 & tr3 & tr4 & H1 & H & _)|[_ H]]; [|exfalso; eapply H; eauto].
  apply DownloadAndCache_ok in H1; [|cbn; tauto]. destruct H1 as [-> C].
  destruct (_ && _).
  - apply tends_call in H. destruct H as (r & w3 & tr5 & S & H & _). apply tends_ret in H. destruct H as (H & _ & ->). injection H as -> ->.
    split; auto. eapply rewrite_keeps; eauto.
  - apply tends_ret in H. destruct H as (H & _ & ->). injection H as -> ->. auto.
Qed.

Lemma rescale_keeps : forall q fresh w tr r w' p, tends true (rescale wiki q fresh) w tr r w' -> content w p <> None -> content w' p <> None.
Proof.
  intros q fresh w tr r w' p H C. unfold rescale in H. destruct (_ && _ && _ && _).
  - apply tends_call in H. destruct H as (x & w3 & tr5 & S & H & _). apply tends_ret in H. destruct H as (_ & _ & ->). eapply rewrite_keeps; eauto.
  - apply tends_ret in H. destruct H as (_ & _ & ->). auto.
Qed.

Lemma postProcess_keeps : forall q fresh w tr r w' p, tends true (postProcessImage wiki q fresh) w tr r w' -> content w p <> None -> content w' p <> None.
Proof.
  intros q fresh w tr r w' p H C. unfold postProcessImage in H. destruct (_ || _ || _); [|eapply rescale_keeps; eauto].
  apply tends_call in H. destruct H as (x & w1 & tr1 & (E & _ & _) & H & _). rewrite <- (content_files w w1) in C by auto. destruct x; [eapply rescale_keeps; eauto|].
  apply tends_call in H. destruct H as (y & w2 & tr2 & S & H & _). apply (convert_keeps _ _ _ _ _ _ _ S) in C.
  destruct y; [eapply rescale_keeps; eauto|]. apply tends_ret in H. destruct H as (_ & _ & ->). auto.
Qed.

Lemma postProcess_ok : forall file fresh w tr w', content w (cache_path !"images" file) <> None ->
  tends true (postProcessImage wiki (cache_path !"images" file) fresh) w tr (Ok tt) w' -> content w' [!"images"; stored_name file] <> None.
Proof.
  intros file fresh w tr w' C H. unfold stored_name. pose proof H as H0. unfold postProcessImage in H. unfold cache_path in H. cbn [last] in H. fold (is_converted file) in H.
  destruct (is_converted file); [|rewrite app_nil_r; eapply postProcess_keeps; eauto].
  change (png_path [!"images"; SanitizeFilename file]) with [!"images"; SanitizeFilename file ++ !".png"] in H.
  apply tends_call in H. destruct H as (x & w1 & tr1 & (E & _ & X) & H & _). destruct x.
  - eapply rescale_keeps; eauto. unfold content. rewrite E. destruct (lookup _ (files w)); [discriminate|auto].
  - apply tends_call in H. destruct H as (y & w2 & tr2 & S & H & _). destruct y; [|apply tends_ret in H; destruct H; discriminate].
    eapply rescale_keeps; eauto. destruct S as (_ & d & S). unfold content. rewrite S, lookup_cons. cbn [f_path].
    destruct (path_eq_dec _ _) as [|NE]; [discriminate|exfalso; apply NE; reflexivity].
Qed.

Lemma asked_some : forall {A} fl (attempt : str -> prog (res A)) hosts w tr a w', asked_in_order fl attempt hosts w tr (Some a) w' ->
  exists host w1 tr1, tends fl (attempt host) w1 tr1 (Ok a) w'.
Proof. intros A fl attempt hosts w tr a w' H. remember (Some a) as o. induction H; try discriminate; [injection Heqo as ->; eauto|auto]. Qed.

Lemma after_colon_name : forall mt file, ~ In ":"%char mt -> image_name file -> after_colon (mt ++ !":" ++ file) = Ok file.
Proof.
  intros mt file M (N & _). unfold after_colon. change !":" with [":"%char]. change (mt ++ [":"%char] ++ file) with (mt ++ ":"%char :: file).
  rewrite split_single_app, split_single_none by auto. auto.
Qed.
Lemma replace_none_space : forall s, ~ In " "%char s -> replace_all !" " !"_" s = s.
Proof. intros s N. change !" " with [" "%char]. rewrite replace_all_single. induction s as [|c s IH]; auto. cbn [flat_map].
  rewrite (proj2 (Ascii.eqb_neq _ _)); [cbn [app]; rewrite IH; auto|]; cbn [In] in N; intuition. Qed.

Lemma image_downloaded : forall mt file w tr w', ~ In ":"%char mt -> image_name file -> wikipediaImageArticleHosts wiki <> [] ->
  tends true (downloadImageUsingAllSources ext ccfg wiki efuel fuel (mt ++ !":" ++ file)) w tr (Ok tt) w' ->
  content w' [!"images"; stored_name file] <> None.
Proof.
  intros mt file w tr w' M N HO H. apply downloadImageUsingAllSources_order in H; auto. destruct H as (o & w1 & A & P).
  destruct o as [[p fresh]|].
  - apply asked_some in A. destruct A as (host & w0 & tr0 & A). apply downloadImage_ok in A. destruct A as (n & E & -> & C).
    rewrite after_colon_name in E by auto. injection E as <-. rewrite replace_none_space in * by apply N. eapply postProcess_ok; eauto.
  - destruct P as [_ P]. apply P in HO. discriminate.
Qed.

(** ** Without eviction no image disappears while others are downloaded *)
Hypothesis no_eviction : CacheEvictionStrategy ccfg = StrategyNone.

Lemma DownloadAndCache_others : forall url folder name w tr r w' p, In folder cache_folders ->
  tends true (DownloadAndCache ccfg efuel fuel url folder name) w tr r w' ->
  p <> cache_path folder name -> in_tmp p = false -> content w p <> None -> content w' p <> None.
Proof.
  intros url folder name w tr r w' p F H N T C. unfold DownloadAndCache in H.
  assert (G : forall tr1 (r1 : res bool) w1, tends true (GetFile ccfg folder name) w tr1 r1 w1 -> content w1 p <> None).
  { intros tr1 r1 w1 G. apply tsteps_steps in G. apply GetFile_others in G; auto. destruct G as [G _]. unfold content. rewrite G; auto. }
  apply tends_on_ok in H. destruct H as [(hit & w1 & tr1 & tr2 & H1 & H & _)|[H _]]; [|eapply G; eauto]. apply G in H1.
  destruct hit; [apply tends_ret in H; destruct H as (_ & _ & ->); auto|].
  assert (D : forall tr1 r1 w2, tends true (download fuel url) w1 tr1 r1 w2 -> content w2 p <> None).
  { intros tr3 r1 w2 D. apply download_decided in D. rewrite (content_files w1 w2); tauto. }
  apply tends_on_ok in H. destruct H as [(a & w2 & tr3 & tr4 & H2 & H & _)|[H _]]; [|eapply D; eauto]. apply D in H2.
  assert (K : forall tr1 r1 w3, tends true (CacheToFile ccfg efuel folder name (a_body a) (a_complete a)) w2 tr1 r1 w3 -> content w3 p <> None).
  { intros tr5 r1 w3 K. apply tsteps_steps in K. destruct (content w2 p) as [d|] eqn:E; [|congruence].
    pose proof (safe_inv _ _ _ _ _ (safe_steps _ _ _ _ _ _ _ K (CacheToFile_keeps true ccfg efuel folder name (a_body a) (a_complete a) w2 p d no_eviction F T E))) as [X|(_ & _ & X)]; congruence. }
  apply tends_on_ok in H. destruct H as [(u & w3 & tr5 & tr6 & H3 & H & _)|[H _]]; [|eapply K; eauto]. apply K in H3.
  apply tends_ret in H. destruct H as (_ & _ & ->). auto.
Qed.

Lemma DownloadArticle_keeps : forall host title w tr r w' x,
  tends true (DownloadArticle ext ccfg efuel fuel host title) w tr r w' -> content w [!"images"; x] <> None -> content w' [!"images"; x] <> None.
Proof.
  intros host title w tr r w' x H C. unfold DownloadArticle in H.
  assert (D : forall tr1 r1 w1, tends true (DownloadAndCache ccfg efuel fuel (article_url ext host title) ArticleCacheDirName (article_file title)) w tr1 r1 w1 -> content w1 [!"images"; x] <> None).
  { intros tr1 r1 w1 D. eapply DownloadAndCache_others in D; eauto; [cbn; tauto|]. unfold cache_path. intros E. discriminate E. }
  apply tends_on_ok in H. destruct H as [([p fresh] & w1 & tr1 & tr2 & H1 & H & _)|[H _]]; [|eapply D; eauto]. apply D in H1.
  apply tends_call in H. destruct H as (y & w2 & tr3 & (E & _ & _) & H & _). rewrite <- (content_files w1 w2) in H1 by auto.
  assert (w' = w2); [|subst; auto]. destruct y as [bytes|]; [destruct (json_article_title ext bytes)|]; apply tends_ret in H; tauto.
Qed.

Definition target_of (image : str) (x : str) : Prop := exists n, after_colon image = Ok n /\ x = SanitizeFilename (replace_all !" " !"_" n).

Lemma downloadImage_keeps : forall host image w tr r w' x,
  tends true (downloadImage ext ccfg wiki efuel fuel host image) w tr r w' -> ~ target_of image x -> content w [!"images"; x] <> None -> content w' [!"images"; x] <> None.
Proof.
  intros host image w tr r w' x H N C. unfold downloadImage in H. destruct (after_colon image) as [n| | |] eqn:A.
  2-4: apply tends_ret in H; destruct H as (_ & _ & ->); auto.
  assert (O : after_colon (!"File:" ++ n) = Ok n).
  { unfold after_colon in *. change !":" with [":"%char] in *. change (!"File:" ++ n) with (!"File" ++ ":"%char :: n).
    rewrite split_single_app by (cbn; intuition discriminate). cbn [nth_error].
    pose proof (split_single_pieces ":" image) as P. destruct (split [":"%char] image) as [|a [|b l]]; try discriminate. injection A as ->.
    rewrite split_single_none; auto. exact (Forall_inv (Forall_inv_tail P)). }
  apply tends_on_ok in H. destruct H as [([title text] & w1 & tr1 & tr2 & H1 & H & _)|[H _]]; [|eapply DownloadArticle_keeps; eauto].
  eapply DownloadArticle_keeps in H1; eauto. rewrite O in H.
  destruct (after_colon title) as [actual| | |]. 2-4: apply tends_ret in H; destruct H as (_ & _ & ->); auto.
  assert (D : forall tr1 r1 w2, tends true (DownloadAndCache ccfg efuel fuel (image_url ext wiki host (replace_all !" " !"_" actual)) ImageCacheDirName (replace_all !" " !"_" n)) w1 tr1 r1 w2 -> content w2 [!"images"; x] <> None).
  { intros tr3 r1 w2 D. eapply DownloadAndCache_others in D; eauto; [cbn; tauto|]. unfold cache_path. intros E. apply N. exists n. split; auto. congruence. }
  apply tends_on_ok in H. destruct H as [([q fresh'] & w2 & tr3 & tr4 & H2 & H & _)|[H _]]; [|eapply D; eauto]. apply D in H2.
  destruct (_ && _).
  - apply tends_call in H. destruct H as (y & w3 & tr5 & S & H & _). apply tends_ret in H. destruct H as (_ & _ & ->). eapply rewrite_keeps; eauto.
  - apply tends_ret in H. destruct H as (_ & _ & ->). auto.
Qed.

Lemma asked_keeps : forall image x hosts w tr o w', asked_in_order true (fun host => downloadImage ext ccfg wiki efuel fuel host image) hosts w tr o w' ->
  ~ target_of image x -> content w [!"images"; x] <> None -> content w' [!"images"; x] <> None.
Proof.
  intros image x hosts w tr o w' H N. induction H; intros C; auto.
  - eapply downloadImage_keeps; eauto.
  - eapply downloadImage_keeps in H; eauto.
Qed.

Lemma source_keeps : forall image w tr w' x, tends true (downloadImageUsingAllSources ext ccfg wiki efuel fuel image) w tr (Ok tt) w' ->
  content w [!"images"; x] <> None -> content w' [!"images"; x] <> None.
Proof.
  intros image w tr w' x H C. destruct (wikipediaImageArticleHosts wiki) as [|h hs] eqn:HO.
  { unfold downloadImageUsingAllSources in H. rewrite HO in H. apply tends_ret in H. destruct H as (_ & _ & ->). auto. }
  assert (HN : wikipediaImageArticleHosts wiki <> []) by congruence. clear HO.
  apply downloadImageUsingAllSources_order in H; auto. destruct H as (o & w1 & A & P). destruct o as [[p fresh]|].
  - eapply postProcess_keeps; eauto. pose proof A as A0. apply asked_some in A. destruct A as (host & w0 & tr0 & A). apply downloadImage_ok in A.
    destruct A as (n & E & -> & K).
    destruct (str_eq_dec x (SanitizeFilename (replace_all !" " !"_" n))) as [->|NE]; [exact K|].
    eapply asked_keeps; eauto. intros (m & M & ->). assert (m = n) by congruence. subst. auto.
  - destruct P as [_ P]. apply P in HN. discriminate.
Qed.

Lemma all_images_downloaded : forall imgs w tr w', tends true (DownloadImages ext ccfg wiki efuel fuel imgs) w tr (Ok tt) w' -> wikipediaImageArticleHosts wiki <> [] ->
  (forall x, content w [!"images"; x] <> None -> content w' [!"images"; x] <> None) /\
  forall mt file, ~ In ":"%char mt -> image_name file -> In (mt ++ !":" ++ file) imgs -> content w' [!"images"; stored_name file] <> None.
Proof.
  intros imgs w tr w' H HN. revert w tr H. induction imgs as [|i imgs IH]; intros w tr H; cbn [DownloadImages] in H.
  - apply tends_ret in H. destruct H as (_ & _ & ->). split; auto.
  - apply tends_on_ok in H. destruct H as [([] & w1 & tr1 & tr2 & H1 & H & _)|[_ H]]; [|exfalso; eapply H; eauto].
    destruct (IH _ _ H) as [K A]. split.
    + intros x C. apply K. eapply source_keeps; eauto.
    + intros mt file M N [->|I]; [|eauto]. apply K. eapply image_downloaded; eauto.
Qed.
End Wiki.
