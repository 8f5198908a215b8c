(** * C46-C48: configuration *)

From Coq Require Import Ascii String.
From Coq Require Import List Arith ZArith Bool Permutation.
From Verif Require Import GoStr UtilModel MainModel ConfigModel ConfigSpec ConfigProofs.
Import ListNotations.
Local Open Scope list_scope.

Definition example_env : environment := mkEnvironment !"/home/u/.cache" true false.
Definition example_file (l : layer) : option (str * layer) := Some (!"conf/w2b.json", l).

(** ** C46 *)

(** Projects: every option has the value of the command line if given, else of the project file if given, else of the
    configuration file if given, else the default -- provided that the values given on the command line and in the project file
    are not the default value (and do not only differ in order from it). *)
Theorem C46_project_partial : forall env cwd pd cf project cli c,
  usual_paths env cwd pd cf ->
  project_config env cwd pd cf project cli = Ok c ->
  let D := NewDefaultConfig env in
  (forall k, given_strings cli k <> Some (strings D k) -> given_strings project k <> Some (strings D k) ->
     strings c k = first_given [option_map (meaning pd k) (given_strings cli k);
                                option_map (meaning pd k) (given_strings project k);
                                from_file (fun l => given_strings l k) (fun d => file_meaning d k) cwd cf] (strings D k)) /\
  (forall k, (forall v, given_lists cli k = Some v -> differs v (lists D k)) ->
             (forall v, given_lists project k = Some v -> differs v (lists D k)) ->
     lists c k = first_given [option_map (list_meaning pd k) (given_lists cli k);
                              option_map (list_meaning pd k) (given_lists project k);
                              from_file (fun l => given_lists l k) (fun d => file_list_meaning d k) cwd cf] (lists D k)) /\
  (forall k, given_ints cli k <> Some (ints D k) -> given_ints project k <> Some (ints D k) ->
     ints c k = first_given [given_ints cli k; given_ints project k;
                             from_file (fun l => given_ints l k) (fun _ v => v) cwd cf] (ints D k)) /\
  (forall k, given_bools cli k <> Some (bools D k) -> given_bools project k <> Some (bools D k) ->
     bools c k = first_given [given_bools cli k; given_bools project k;
                              from_file (fun l => given_bools l k) (fun _ v => v) cwd cf] (bools D k)).
Proof. exact project_precedence. Qed.
Print Assumptions C46_project_partial.
Example C46_project_example :
  match project_config example_env !"/home/u" !"/home/u/books"
          (example_file (with_string StyleFile !"../my.css" (with_string WikipediaInstance !"de" (with_int TocDepth 4 empty_layer))))
          (with_string WikipediaInstance !"fr" (with_int TocDepth 1 empty_layer))
          (with_int TocDepth 6 empty_layer) with
  | Ok c => ints c TocDepth = 6%Z /\ strings c WikipediaInstance = !"fr" /\ strings c StyleFile = !"/home/u/my.css" /\
            strings c WikipediaHost = !"wikipedia.org"
  | _ => False
  end.
Proof. vm_compute. repeat split. Qed.

(** The same for single articles and standalone files, which have no project file *)
Theorem C46_article_partial : forall env cwd pd cf cli c,
  usual_paths env cwd pd cf ->
  article_config env cwd cf cli = Ok c ->
  let D := NewDefaultConfig env in
  (forall k, given_strings cli k <> Some (strings D k) ->
     strings c k = first_given [option_map (meaning cwd k) (given_strings cli k);
                                from_file (fun l => given_strings l k) (fun d => file_meaning d k) cwd cf] (strings D k)) /\
  (forall k, (forall v, given_lists cli k = Some v -> differs v (lists D k)) ->
     lists c k = first_given [option_map (list_meaning cwd k) (given_lists cli k);
                              from_file (fun l => given_lists l k) (fun d => file_list_meaning d k) cwd cf] (lists D k)) /\
  (forall k, given_ints cli k <> Some (ints D k) ->
     ints c k = first_given [given_ints cli k; from_file (fun l => given_ints l k) (fun _ v => v) cwd cf] (ints D k)) /\
  (forall k, given_bools cli k <> Some (bools D k) ->
     bools c k = first_given [given_bools cli k; from_file (fun l => given_bools l k) (fun _ v => v) cwd cf] (bools D k)).
Proof. exact article_precedence. Qed.
Print Assumptions C46_article_partial.
Example C46_article_example :
  match article_config example_env !"/home/u" None (with_list WikipediaImageArticleHosts [!"de.wikipedia.org"] empty_layer) with
  | Ok c => lists c WikipediaImageArticleHosts = [!"de.wikipedia.org"] /\ lists c FilePrefixes = [!"file"; !"image"; !"media"]
  | _ => False
  end.
Proof. vm_compute. repeat split. Qed.

(** The claim is false for default values: an option explicitly set to its default on the command line (for lists also a
    reordered default) has no effect, the value of the project or configuration file stays. *)
Theorem C46_explicit_default_refuted : forall env cwd pd cf project cli c,
  usual_paths env cwd pd cf ->
  project_config env cwd pd cf project cli = Ok c ->
  let D := NewDefaultConfig env in
  (forall k, given_strings cli k = Some (strings D k) -> given_strings project k <> Some (strings D k) ->
     strings c k = first_given [option_map (meaning pd k) (given_strings project k);
                                from_file (fun l => given_strings l k) (fun d => file_meaning d k) cwd cf] (strings D k)) /\
  (forall k v, given_lists cli k = Some v -> Permutation v (lists D k) -> NoDup v ->
             (forall v, given_lists project k = Some v -> differs v (lists D k)) ->
     lists c k = first_given [option_map (list_meaning pd k) (given_lists project k);
                              from_file (fun l => given_lists l k) (fun d => file_list_meaning d k) cwd cf] (lists D k)) /\
  (forall k, given_ints cli k = Some (ints D k) -> given_ints project k <> Some (ints D k) ->
     ints c k = first_given [given_ints project k; from_file (fun l => given_ints l k) (fun _ v => v) cwd cf] (ints D k)) /\
  (forall k, given_bools cli k = Some (bools D k) -> given_bools project k <> Some (bools D k) ->
     bools c k = first_given [given_bools project k; from_file (fun l => given_bools l k) (fun _ v => v) cwd cf] (bools D k)).
Proof. exact cli_default_ignored. Qed.
Print Assumptions C46_explicit_default_refuted.

(** The project asks for the German Wikipedia, the command line for the English one *)
Example C46_explicit_default_example :
  match project_config example_env !"/home/u" !"/home/u" None
          (with_string WikipediaInstance !"de" (with_list WikipediaImageArticleHosts [!"x"] empty_layer))
          (with_string WikipediaInstance !"en" (with_list WikipediaImageArticleHosts [!"en.wikipedia.org"; !"commons.wikimedia.org"] empty_layer)) with
  | Ok c => strings c WikipediaInstance = !"de" /\ lists c WikipediaImageArticleHosts = [!"x"]
  | _ => False
  end.
Proof. vm_compute. repeat split. Qed.

(** ** C47 *)

(** Validation accepts exactly the valid configurations. *)
Theorem C47_validation : forall c, AssertValidity c = true <-> valid_configuration c.
Proof. exact AssertValidity_spec. Qed.
Print Assumptions C47_validation.
Example C47_example : valid_configuration (NewDefaultConfig example_env) /\
  ~ valid_configuration (apply_layer (NewDefaultConfig example_env) (with_int TocDepth 7 empty_layer)).
Proof.
  split.
  - apply C47_validation. vm_compute. reflexivity.
  - intros V. apply C47_validation in V. vm_compute in V. discriminate.
Qed.

(** Whatever is given in the files and on the command line, the program only runs with a valid configuration. *)
Theorem C47_effective_valid : forall env cwd pd cf project cli c,
  project_config env cwd pd cf project cli = Ok c -> valid_configuration c.
Proof. exact project_valid. Qed.
Print Assumptions C47_effective_valid.

(** Every layer is validated alone: a project file and command line which only together are valid are rejected, although the
    combination is accepted in a single file. *)
Theorem C47_combination_refuted : exists env cwd pd project cli both,
  given_strings project OutputType = Some !"stats-json" /\ given_strings project OutputDriver = None /\
  given_strings cli OutputType = None /\ given_strings cli OutputDriver = Some !"internal" /\
  given_strings both OutputType = Some !"stats-json" /\ given_strings both OutputDriver = Some !"internal" /\
  project_config env cwd pd None project cli = Err /\
  exists c, project_config env cwd pd None both empty_layer = Ok c.
Proof.
  exists example_env, !"/home/u", !"/home/u",
    (with_string OutputType !"stats-json" empty_layer), (with_string OutputDriver !"internal" empty_layer),
    (with_string OutputType !"stats-json" (with_string OutputDriver !"internal" empty_layer)).
  assert (E : match project_config example_env !"/home/u" !"/home/u" None
                (with_string OutputType !"stats-json" (with_string OutputDriver !"internal" empty_layer)) empty_layer with
              | Ok _ => true | _ => false end = true) by (vm_compute; reflexivity).
  assert (E2 : project_config example_env !"/home/u" !"/home/u" None
                (with_string OutputType !"stats-json" empty_layer) (with_string OutputDriver !"internal" empty_layer) = Err)
    by (vm_compute; reflexivity).
  split; [vm_compute; reflexivity|]. split; [vm_compute; reflexivity|]. split; [vm_compute; reflexivity|].
  split; [vm_compute; reflexivity|]. split; [vm_compute; reflexivity|]. split; [vm_compute; reflexivity|].
  split; [exact E2|].
  destruct (project_config _ _ _ None (with_string OutputType _ (with_string _ _ _)) _) as [c| | |]; try discriminate E.
  exists c. reflexivity.
Qed.
Print Assumptions C47_combination_refuted.

(** ** C48 *)

(** The paths of a configuration file: relative paths are relative to its folder, absolute paths are kept.  For font files this
    holds if they are relative. *)
Theorem C48_config_file_partial : forall env cwd file content c,
  has_prefix !"/" (user_cache_dir env) = true -> has_prefix !"/" cwd = true -> file <> [] ->
  LoadConfig cwd file content (NewDefaultConfig env) = Ok c ->
  (forall k v, is_path k -> given_strings content k = Some v -> strings c k = resolved (path_dir (resolved cwd file)) v) /\
  (forall v, given_lists content FontFiles = Some v -> (forall f, In f v -> f <> [] /\ has_prefix !"/" f = false) ->
     lists c FontFiles = map (resolved (path_dir (resolved cwd file))) v).
Proof. exact load_paths. Qed.
Print Assumptions C48_config_file_partial.
Example C48_config_file_example :
  match LoadConfig !"/home/u" !"conf/w2b.json"
          (with_string CoverImage !"img/c.png" (with_string CacheDir !"/tmp/w2b" (with_list FontFiles [!"../a.ttf"] empty_layer)))
          (NewDefaultConfig example_env) with
  | Ok c => strings c CoverImage = !"/home/u/conf/img/c.png" /\ strings c CacheDir = !"/tmp/w2b" /\ lists c FontFiles = [!"/home/u/a.ttf"]
  | _ => False
  end.
Proof. vm_compute. repeat split. Qed.

(** The claim is false for absolute font files: they are put below the folder of the configuration file. *)
Theorem C48_fonts_refuted :
  (forall env cwd file content c v,
    has_prefix !"/" (user_cache_dir env) = true -> has_prefix !"/" cwd = true -> file <> [] ->
    LoadConfig cwd file content (NewDefaultConfig env) = Ok c ->
    given_lists content FontFiles = Some v ->
    lists c FontFiles = map (fun f => path_join [path_dir (resolved cwd file); f]) v) /\
  path_join [!"/home/u/conf"; !"/path/to/fontB.ttf"] = !"/home/u/conf/path/to/fontB.ttf".
Proof. split; [exact load_font_below|reflexivity]. Qed.
Print Assumptions C48_fonts_refuted.

(** The path of an executable in a configuration file is not resolved. *)
Theorem C48_executable_refuted : forall env cwd file content c v,
  has_prefix !"/" (user_cache_dir env) = true -> has_prefix !"/" cwd = true -> file <> [] ->
  LoadConfig cwd file content (NewDefaultConfig env) = Ok c ->
  given_strings content PandocExecutable = Some v -> strings c PandocExecutable = v.
Proof. exact load_executable. Qed.
Print Assumptions C48_executable_refuted.
Example C48_executable_example :
  match LoadConfig !"/home/u" !"conf/w2b.json" (with_string PandocExecutable !"./bin/pandoc" empty_layer) (NewDefaultConfig example_env) with
  | Ok c => strings c PandocExecutable = !"./bin/pandoc"
  | _ => False
  end.
Proof. vm_compute. reflexivity. Qed.

(** For projects, relative paths given on the command line are relative to the folder of the project file, not to the working
    directory of the user. *)
Theorem C48_command_line_refuted : forall env cwd pd cf project cli c k v,
  usual_paths env cwd pd cf -> project_config env cwd pd cf project cli = Ok c ->
  is_path k -> given_strings cli k = Some v -> v <> [] -> has_prefix !"/" v = false ->
  strings c k = path_join [pd; v].
Proof. exact cli_path_project. Qed.
Print Assumptions C48_command_line_refuted.
Example C48_command_line_example :
  match project_config example_env !"/home/u" !"/home/u/books" None empty_layer (with_string StyleFile !"my.css" empty_layer) with
  | Ok c => strings c StyleFile = !"/home/u/books/my.css"
  | _ => False
  end.
Proof. vm_compute. reflexivity. Qed.

(** All effective paths are absolute or empty. *)
Theorem C48_absolute : forall env cwd pd cf project cli c k,
  usual_paths env cwd pd cf -> project_config env cwd pd cf project cli = Ok c -> is_path k ->
  strings c k = [] \/ has_prefix !"/" (strings c k) = true.
Proof. exact effective_paths_absolute. Qed.
Print Assumptions C48_absolute.
