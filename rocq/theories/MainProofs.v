(** * Proofs about src/main.go and external commands *)

From Coq Require Import Ascii String.
From Coq Require Import List Arith Bool Lia.
From Verif Require Import GoStr GoStrFacts UtilModel UtilSpec UtilProofs PoolModel PoolSpec PoolProofs MainModel MainSpec.
Import ListNotations.
Local Open Scope list_scope.

(** ** Replacing inside of words *)

Lemma replace_brace_app : forall r new a s, ~ In "{"%char a ->
  replace_all ("{"%char :: r) new (a ++ s) = a ++ replace_all ("{"%char :: r) new s.
Proof.
  intros r new a s H; induction a as [|c a IH]; auto. cbn [app]. rewrite replace_all_cons.
  - rewrite IH; auto. intros X; apply H; right; auto.
  - cbn [has_prefix]. destruct (Ascii.eqb "{" c) eqn:E; [|auto]. apply Ascii.eqb_eq in E. subst. exfalso; apply H; left; auto.
Qed.

(** The word after the first of the two replacements *)
Definition half (i : str) (w : word) : str :=
  List.concat (map (fun p => match p with Literal s => s | InputFile => i | OutputFile => !"{OUTPUT}" end) w).

Fixpoint joined (f : word -> str) (ws : list word) : str :=
  match ws with [] => [] | [w] => f w | w :: r => f w ++ space :: joined f r end.

Lemma join_joined : forall f ws, join [space] (map f ws) = joined f ws.
Proof.
  intros f ws; induction ws as [|w ws IH]; auto. destruct ws as [|v ws]; auto.
  cbn [map]. cbn [map] in IH. cbn [join joined]. cbn [join joined] in IH. rewrite IH. auto.
Qed.

Lemma replace_input_app : forall new a s, ~ In "{"%char a ->
  replace_all InputPlaceholder new (a ++ s) = a ++ replace_all InputPlaceholder new s.
Proof. exact (replace_brace_app !"INPUT}"). Qed.

Lemma replace_output_app : forall new a s, ~ In "{"%char a ->
  replace_all OutputPlaceholder new (a ++ s) = a ++ replace_all OutputPlaceholder new s.
Proof. exact (replace_brace_app !"OUTPUT}"). Qed.

Lemma replace_input_word : forall i w s, plain_word w ->
  replace_all InputPlaceholder i (written w ++ s) = half i w ++ replace_all InputPlaceholder i s.
Proof.
  intros i w s P. induction w as [|p w IH]; auto.
  assert (Pw : plain_word w) by (intros x Hx; apply P; right; auto). specialize (IH Pw).
  destruct p as [t| |].
  - change (written (Literal t :: w)) with (t ++ written w). change (half i (Literal t :: w)) with (t ++ half i w).
    rewrite <- !app_assoc, replace_input_app by (apply (P t); left; auto). rewrite IH; auto.
  - change (written (InputFile :: w)) with (InputPlaceholder ++ written w). change (half i (InputFile :: w)) with (i ++ half i w).
    rewrite <- !app_assoc, replace_all_hit by discriminate. rewrite IH; auto.
  - change (written (OutputFile :: w) ++ s) with ("{"%char :: (!"OUTPUT}" ++ (written w ++ s))).
    rewrite replace_all_cons, replace_input_app, IH; auto. simpl. intuition discriminate.
Qed.

Lemma replace_output_word : forall i o w s, plain_word w -> ~ In "{"%char i ->
  replace_all OutputPlaceholder o (half i w ++ s) = filled i o w ++ replace_all OutputPlaceholder o s.
Proof.
  intros i o w s P NI. induction w as [|p w IH]; auto.
  assert (Pw : plain_word w) by (intros x Hx; apply P; right; auto). specialize (IH Pw).
  destruct p as [t| |].
  - change (filled i o (Literal t :: w)) with (t ++ filled i o w). change (half i (Literal t :: w)) with (t ++ half i w).
    rewrite <- !app_assoc, replace_output_app by (apply (P t); left; auto). rewrite IH; auto.
  - change (filled i o (InputFile :: w)) with (i ++ filled i o w). change (half i (InputFile :: w)) with (i ++ half i w).
    rewrite <- !app_assoc, replace_output_app by auto. rewrite IH; auto.
  - change (filled i o (OutputFile :: w)) with (o ++ filled i o w). change (half i (OutputFile :: w)) with (OutputPlaceholder ++ half i w).
    rewrite <- !app_assoc, replace_all_hit by discriminate. rewrite IH; auto.
Qed.

Lemma command_words : forall ws i o, Forall plain_word ws -> ~ In "{"%char i ->
  command_string (join [space] (map written ws)) i o = join [space] (map (filled i o) ws).
Proof.
  intros ws i o F NI. rewrite !join_joined. unfold command_string.
  assert (E1 : replace_all InputPlaceholder i (joined written ws) = joined (half i) ws).
  { induction F as [|w ws P F IH]; auto. destruct ws as [|v ws].
    - cbn [joined]. rewrite <- (app_nil_r (written w)), replace_input_word by auto. rewrite replace_all_nil. apply app_nil_r.
    - change (joined written (w :: v :: ws)) with (written w ++ [space] ++ joined written (v :: ws)).
      rewrite replace_input_word, replace_input_app, IH; auto. simpl; intuition discriminate. }
  rewrite E1. clear E1. induction F as [|w ws P F IH]; auto. destruct ws as [|v ws].
  - cbn [joined]. rewrite <- (app_nil_r (half i w)), replace_output_word by auto. rewrite replace_all_nil. apply app_nil_r.
  - change (joined (half i) (w :: v :: ws)) with (half i w ++ [space] ++ joined (half i) (v :: ws)).
    rewrite replace_output_word, replace_output_app, IH; auto. simpl; intuition discriminate.
Qed.

Lemma filled_no_space : forall i o w, plain_word w -> ~ In space i -> ~ In space o -> ~ In space (filled i o w).
Proof.
  intros i o w P Hi Ho. induction w as [|p w IH]; [intros []|].
  assert (Pw : plain_word w) by (intros x Hx; apply P; right; auto).
  unfold filled in *. cbn [map List.concat]. rewrite in_app_iff. intros [H|H]; [|apply IH in H; auto].
  destruct p; auto. apply (P text) in H; auto. left; auto.
Qed.

Lemma convert_argv_words : forall ws i o, ws <> [] -> Forall plain_word ws ->
  ~ In "{"%char i -> ~ In space i -> ~ In space o ->
  convert_argv (join [space] (map written ws)) i o = map (filled i o) ws.
Proof.
  intros ws i o N F NI Hi Ho. unfold convert_argv, command_argv. rewrite command_words by auto.
  change !" " with [space]. apply split_join_single.
  - destruct ws; [congruence|discriminate].
  - apply Forall_forall. intros x Hx. apply in_map_iff in Hx as (w & <- & Hw). rewrite Forall_forall in F.
    apply filled_no_space; auto.
Qed.

Lemma argv_no_space : forall template i o a, In a (convert_argv template i o) -> ~ In space a.
Proof. intros template i o a H. exact (proj1 (Forall_forall _ _) (split_single_pieces space _) a H). Qed.

(** ** Paths *)

Lemma path_join_abs : forall d l, path_is_abs d = true -> path_is_abs (path_join (d :: l)) = true.
Proof.
  intros d l H. destruct d as [|c d]; [discriminate|].
  assert (E : exists r, join !"/" ((c :: d) :: l) = (c :: d) ++ r).
  { destruct l as [|x l]; [exists []; simpl; rewrite app_nil_r; auto|]. rewrite join_cons by discriminate. eauto. }
  destruct E as (r & E).
  change (path_join ((c :: d) :: l)) with (path_clean (join !"/" ((c :: d) :: l))).
  unfold path_clean. assert (P : has_prefix !"/" (join !"/" ((c :: d) :: l)) = true).
  { rewrite E. unfold path_is_abs in H. cbn in H. rewrite andb_true_r in H. cbn. rewrite H. auto. }
  rewrite P. unfold render_path, path_is_abs.
  destruct (fold_left (clean_step true) (split !"/" (join !"/" ((c :: d) :: l))) []); reflexivity.
Qed.

Lemma ToAbsolutePath_abs : forall cwd p, path_is_abs cwd = true -> p <> [] -> path_is_abs (ToAbsolutePath cwd p) = true.
Proof.
  intros cwd p H N. unfold ToAbsolutePath. destruct p as [|c p]; [congruence|].
  destruct (path_is_abs (c :: p)) eqn:A; cbn [negb andb str_eqb]; auto. apply path_join_abs; auto.
Qed.

Lemma ToAbsolutePath_id : forall cwd p, path_is_abs p = true -> ToAbsolutePath cwd p = p.
Proof. intros cwd p H. unfold ToAbsolutePath. rewrite H. rewrite andb_false_r. auto. Qed.

Lemma abs_nonempty : forall p, path_is_abs p = true -> str_eqb p [] = false.
Proof. intros [|c p] H; [discriminate|auto]. Qed.

(** ** Pandoc *)

Definition add_option (o : str * str) (r : list (str * str) * list str) := (o :: fst r, snd r).

Lemma read_value : forall o v rest, In o value_options -> read_args (o :: v :: rest) = add_option (o, v) (read_args rest).
Proof.
  intros o v rest H. simpl in H. cbn [read_args].
  assert (E : existsb (str_eqb o) value_options = true) by (apply existsb_exists; exists o; split; [auto|apply str_eqb_refl]).
  rewrite E. destruct (read_args rest). reflexivity.
Qed.

Lemma read_toc : forall rest, read_args (!"--toc" :: rest) = add_option (!"--toc", []) (read_args rest).
Proof. intros rest. cbn. destruct (read_args rest). reflexivity. Qed.

Lemma read_cover : forall v rest, read_args ((!"--epub-cover-image=" ++ v) :: rest) = add_option (!"--epub-cover-image=", v) (read_args rest).
Proof. intros v rest. cbn. destruct (read_args rest). reflexivity. Qed.

Lemma read_fonts : forall l rest, read_args (map (fun f => !"--epub-embed-font=" ++ f) l ++ rest) =
  (map (fun f => (!"--epub-embed-font=", f)) l ++ fst (read_args rest), snd (read_args rest)).
Proof.
  induction l as [|v l IH]; intros rest; cbn [map app]; [destruct (read_args rest); auto|].
  assert (E : forall r, read_args ((!"--epub-embed-font=" ++ v) :: r) = add_option (!"--epub-embed-font=", v) (read_args r)).
  { intros r. cbn. destruct (read_args r). reflexivity. }
  rewrite E, IH. reflexivity.
Qed.

Lemma read_files : forall l, Forall (fun f => has_prefix !"-" f = false) l -> read_args l = ([], l).
Proof.
  induction l as [|f l IH]; intros F; auto. inversion F as [|? ? Hf Hl]; subst.
  assert (N : forall o r, o = "-"%char :: r -> str_eqb f o = false).
  { intros o r ->. apply str_eqb_neq. intros ->. cbn in Hf. discriminate. }
  assert (P : forall r, has_prefix ("-"%char :: r) f = false).
  { intros r. destruct f as [|c f]; auto. cbn [has_prefix] in *. rewrite andb_true_r in Hf. rewrite Hf. auto. }
  cbn [read_args]. assert (E1 : existsb (str_eqb f) value_options = false).
  { unfold value_options. cbn [existsb]. rewrite !(N _ _ eq_refl). auto. }
  rewrite E1. rewrite (N !"--toc" _ eq_refl).
  unfold equals_options. cbn [find]. rewrite (P _), (P _). rewrite IH by auto. auto.
Qed.

Lemma pandoc_args_read : forall c files out m, Forall (fun f => has_prefix !"-" f = false) files ->
  read_args (pandoc_args c files out m) =
  ([(!"-f", !"html"); (!"-t", pc_output_type c); (!"-o", out);
    (!"--metadata", !"title=" ++ md_title m); (!"--metadata", !"author=" ++ md_author m);
    (!"--metadata", !"rights=" ++ md_license m); (!"--metadata", !"language=" ++ md_language m);
    (!"--metadata", !"date=" ++ md_date m)] ++
   (match pc_toc_depth c with 0 => [] | S n => [(!"--toc", []); (!"--toc-depth", itoa (S n))] end) ++
   (match pc_data_dir c with [] => [] | d => [(!"--data-dir", d)] end) ++
   (match pc_style_file c with [] => [] | f => [(!"--css", f)] end) ++
   (match pc_cover_image c with [] => [] | f => [(!"--epub-cover-image=", f)] end) ++
   map (fun f => (!"--epub-embed-font=", f)) (pc_font_files c), files).
Proof.
  intros c files out m F. unfold pandoc_args. cbn [app].
  do 8 (rewrite read_value by (unfold value_options; simpl; tauto)).
  assert (D : forall (b : nat) r, read_args ((if Nat.ltb 0 b then [!"--toc"; !"--toc-depth"; itoa b] else []) ++ r) =
    ((match b with 0 => [] | S n => [(!"--toc", []); (!"--toc-depth", itoa (S n))] end) ++ fst (read_args r), snd (read_args r))).
  { intros b r. destruct b as [|b]; [cbn [Nat.ltb Nat.leb app]; destruct (read_args r); auto|].
    change (Nat.ltb 0 (S b)) with true. cbn [app]. rewrite read_toc, read_value by (unfold value_options; simpl; tauto). reflexivity. }
  assert (V : forall o x r, In o value_options -> read_args ((if negb (str_eqb x []) then [o; x] else []) ++ r) =
    ((match x with [] => [] | d => [(o, d)] end) ++ fst (read_args r), snd (read_args r))).
  { intros o x r H. destruct x as [|y x]; [cbn; destruct (read_args r); auto|]. change (str_eqb (y :: x) []) with false. cbn [negb app].
    rewrite read_value by auto. reflexivity. }
  assert (C : forall x r, read_args ((if negb (str_eqb x []) then [!"--epub-cover-image=" ++ x] else []) ++ r) =
    ((match x with [] => [] | d => [(!"--epub-cover-image=", d)] end) ++ fst (read_args r), snd (read_args r))).
  { intros x r. destruct x as [|y x]; [cbn; destruct (read_args r); auto|]. change (str_eqb (y :: x) []) with false. cbn [negb].
    exact (read_cover (y :: x) r). }
  rewrite D, (V !"--data-dir"), (V !"--css"), C, read_fonts, read_files by (auto; unfold value_options; simpl; tauto).
  unfold add_option. cbn [fst snd app]. rewrite !app_nil_r.
  destruct (pc_data_dir c), (pc_style_file c), (pc_cover_image c); reflexivity.
Qed.

(** ** Chapters *)

Lemma html_file_name : forall n, no_slash n -> html_file n = !"html/" ++ n ++ !".html".
Proof.
  intros n H. unfold html_file. rewrite path_join_entries; [reflexivity|discriminate|].
  constructor; [|constructor]. unfold entry_name.
  assert (E : forall x, List.length x < 5 -> n ++ !".html" <> x).
  { intros x Hx E. rewrite <- E, app_length in Hx. simpl in Hx. lia. }
  split; [apply E; simpl; lia|]. split; [apply E; simpl; lia|]. split; [apply E; simpl; lia|].
  rewrite in_app_iff. intros [K|K]; [apply H; auto|]. simpl in K. intuition discriminate.
Qed.

Lemma existing_html_empty : forall t cwd file_exists generate articleName,
  t = Epub2 \/ t = Epub3 ->
  file_exists (path_join [cwd; !"html/" ++ articleName ++ !".html"]) = true ->
  no_slash articleName ->
  processArticle t false cwd file_exists generate articleName = [].
Proof.
  intros t cwd ex gen n T E H. unfold processArticle.
  assert (X : ex (path_join [cwd; html_file n]) = true) by (rewrite html_file_name by auto; exact E).
  match goal with |- context [ex ?p] => replace (ex p) with true by (symmetry; exact X) end. destruct T; subst; reflexivity.
Qed.

Lemma cached_html_regenerated : exists cwd cacheDir file_exists articleName,
    file_exists (generated_html cacheDir articleName) = true /\
    forall generate, processArticle Epub2 false cwd file_exists generate articleName = generate articleName.
Proof.
  exists !"/home/u", !"/home/u/.cache/wiki2book", (str_eqb !"/home/u/.cache/wiki2book/html/A.html"), !"A".
  split; [reflexivity|]. intros gen. reflexivity.
Qed.

Lemma chapter_file : forall t force cwd file_exists generate name,
  let existing := path_join [cwd; html_file name] in
  ((force = true \/ t = StatsJson \/ t = StatsTxt \/ file_exists existing = false) ->
   processArticle t force cwd file_exists generate name = generate name /\
   standalone_chapter t force cwd file_exists generate name = generate name) /\
  (force = false -> t = Epub2 \/ t = Epub3 -> file_exists existing = true ->
   standalone_chapter t force cwd file_exists generate name = html_file name).
Proof.
  intros t force cwd ex gen n existing. unfold processArticle, standalone_chapter.
  assert (X : forall b, ex existing = b -> shouldRecreateHtml t (ex (path_join [cwd; html_file n])) force = shouldRecreateHtml t b force).
  { intros b <-. reflexivity. }
  split.
  - intros H. assert (E : shouldRecreateHtml t (ex (path_join [cwd; html_file n])) force = true); [|rewrite E; auto].
    destruct H as [H|[H|[H|H]]]; [..|rewrite (X _ H); unfold shouldRecreateHtml; destruct (force || is_stats t); auto];
      subst; unfold shouldRecreateHtml; rewrite ?orb_true_r; auto.
  - intros F T H. rewrite (X _ H). subst force. destruct T; subst t; reflexivity.
Qed.

Lemma pool_existing_html : forall articles threads cwd file_exists generate n s k a,
  1 <= threads -> NoDup articles ->
  nsteps (pool_step articles threads (process_relation Epub2 false cwd file_exists generate)) n (pool_start articles threads) s ->
  pool_finished s -> nth_error articles k = Some a ->
  file_exists (path_join [cwd; html_file a]) = true ->
  nth_error (outputs s) k = Some [].
Proof.
  intros articles threads cwd ex gen n s k a T ND H F E X.
  destruct (pool_result _ _ _ n s k a T H F E) as [R _]. destruct R as (r & Hr & Er).
  - intros j L Y. rewrite NoDup_nth_error in ND. assert (K : k < List.length articles) by (apply nth_error_Some; congruence).
    assert (j = k); [|lia]. apply ND; [lia|auto].
  - rewrite Er. unfold process_relation, processArticle in Hr. match type of Hr with context [ex ?p] => replace (ex p) with true in Hr by (symmetry; exact X) end. simpl in Hr. rewrite Hr. reflexivity.
Qed.

(** ** Output file *)

Lemma output_epub : forall t cwd is_dir f, t = Epub2 \/ t = Epub3 -> path_is_abs f = true ->
  output_path t cwd is_dir f = Ok (if is_dir f then path_join [f; !"ebook.epub"] else f).
Proof.
  intros t cwd is_dir f T A. unfold output_path. destruct T; subst; rewrite abs_nonempty by auto;
  (destruct (is_dir f); [rewrite ToAbsolutePath_id by (apply path_join_abs; auto)|rewrite ToAbsolutePath_id by auto]; reflexivity).
Qed.

Lemma epub_single : forall t cwd is_dir cli,
  t = Epub2 \/ t = Epub3 -> path_is_abs cwd = true -> cli <> Some [] ->
  exists wanted,
    wanted = ToAbsolutePath cwd (match cli with Some f => f | None => !"ebook.epub" end) /\
    single_output t cwd is_dir cli = Ok (if is_dir wanted then path_join [wanted; !"ebook.epub"] else wanted).
Proof.
  intros t cwd is_dir cli T C N. eexists. split; [reflexivity|]. unfold single_output.
  apply output_epub; auto. apply ToAbsolutePath_abs; auto. destruct cli; [congruence|discriminate].
Qed.

Lemma epub_project : forall t cwd project_dir is_dir cli project_file,
  t = Epub2 \/ t = Epub3 -> path_is_abs cwd = true -> path_is_abs project_dir = true ->
  cli <> Some [] -> (cli = None -> project_file <> []) ->
  exists wanted,
    wanted = match cli with Some f => ToAbsolutePath cwd f | None => ToAbsolutePath project_dir project_file end /\
    project_output t cwd project_dir is_dir cli project_file = Ok (if is_dir wanted then path_join [wanted; !"ebook.epub"] else wanted).
Proof.
  intros t cwd pd is_dir cli pf T C P N PF. eexists. split; [reflexivity|]. unfold project_output.
  destruct cli as [f|].
  - assert (A : path_is_abs (ToAbsolutePath cwd f) = true) by (apply ToAbsolutePath_abs; congruence).
    rewrite abs_nonempty by auto. cbn [negb]. rewrite ToAbsolutePath_id by auto. apply output_epub; auto.
  - change (str_eqb [] []) with true. cbn [negb]. apply output_epub; auto. apply ToAbsolutePath_abs; auto.
Qed.

Lemma project_without_output : forall t cwd project_dir is_dir,
  t = Epub2 \/ t = Epub3 -> project_output t cwd project_dir is_dir None [] = Err.
Proof. intros t cwd pd is_dir [->| ->]; reflexivity. Qed.

Lemma stats_redirected : forall cwd is_dir f,
  path_is_abs cwd = true -> f <> [] -> path_is_abs f = true ->
  (has_suffix !"json" f = false -> is_dir (path_join [cwd; !"stats.json"]) = false ->
   single_output StatsJson cwd is_dir (Some f) = Ok (path_join [cwd; !"stats.json"])) /\
  (has_suffix !"txt" f = false -> is_dir (path_join [cwd; !"stats.txt"]) = false ->
   single_output StatsTxt cwd is_dir (Some f) = Ok (path_join [cwd; !"stats.txt"])).
Proof.
  intros cwd is_dir f C N A. unfold single_output, output_path. rewrite (ToAbsolutePath_id _ f) by auto.
  assert (J : forall x, x <> [] -> path_is_abs x = false -> ToAbsolutePath cwd x = path_join [cwd; x]).
  { intros x Nx Ax. unfold ToAbsolutePath. rewrite Ax. destruct x; [congruence|reflexivity]. }
  split; intros S D; rewrite S; cbn [negb].
  - rewrite (J defaultStatsJsonOutputFile) by (auto; discriminate). rewrite abs_nonempty by (apply path_join_abs; auto).
    change defaultStatsJsonOutputFile with !"stats.json". rewrite D. rewrite ToAbsolutePath_id; auto. apply path_join_abs; auto.
  - rewrite (J defaultStatsTxtOutputFile) by (auto; discriminate). rewrite abs_nonempty by (apply path_join_abs; auto).
    change defaultStatsTxtOutputFile with !"stats.txt". rewrite D. rewrite ToAbsolutePath_id; auto. apply path_join_abs; auto.
Qed.

Lemma stats_kept : forall cwd is_dir f,
  path_is_abs cwd = true -> path_is_abs f = true ->
  (has_suffix !"json" f = true ->
   single_output StatsJson cwd is_dir (Some f) = Ok (if is_dir f then path_join [f; !"stats.json"] else f)) /\
  (has_suffix !"txt" f = true ->
   single_output StatsTxt cwd is_dir (Some f) = Ok (if is_dir f then path_join [f; !"stats.txt"] else f)).
Proof.
  intros cwd is_dir f C A. unfold single_output, output_path. rewrite (ToAbsolutePath_id _ f) by auto.
  split; intros S; rewrite S; cbn [negb]; rewrite abs_nonempty by auto;
  (destruct (is_dir f); [rewrite ToAbsolutePath_id by (apply path_join_abs; auto)|rewrite ToAbsolutePath_id by auto]; reflexivity).
Qed.
