(** * Model of src/config/config.go and src/config/project.go: loading, merging and validation

    A configuration is modelled by one function per type of option.  Log output, reading of files and the JSON syntax are
    left out: the content of a configuration or project file is given as [layer], the options which are present in it.
    A violated restriction ends the program (config.go:54-57), which is the result [Err] here. *)

From Coq Require Import Ascii String.
From Coq Require Import List Arith ZArith Bool.
From Verif Require Import GoStr UtilModel MainModel.
Import ListNotations.
Local Open Scope list_scope.

(** ** Options, config.go:118-480 *)

Inductive bool_option := ForceRegenerateHtml | SvgSizeToViewbox.

Inductive int_option := CacheMaxSize | CacheMaxAge | TocDepth | WorkerThreads.

Inductive string_option :=
| OutputType | OutputDriver | CacheDir | CacheEvictionStrategy | StyleFile | CoverImage
| CommandTemplateSvgToPng | CommandTemplateMathSvgToPng | CommandTemplateImageProcessing | CommandTemplatePdfToPng
| CommandTemplateWebpToPng | PandocExecutable | PandocDataDir | WikipediaInstance | WikipediaHost | WikipediaImageHost
| WikipediaMathRestApi | MathConverter | UserAgentTemplate.

Inductive list_option :=
| FontFiles | IgnoredTemplates | TrailingTemplates | IgnoredImageParams | IgnoredMediaTypes | WikipediaImageArticleHosts
| FilePrefixes | AllowedLinkPrefixes | CategoryPrefixes.

Record configuration := mkConfiguration {
  bools : bool_option -> bool;
  ints : int_option -> Z;
  strings : string_option -> str;
  lists : list_option -> list str
}.

(** The options given in a file or on the command line *)
Record layer := mkLayer {
  given_bools : bool_option -> option bool;
  given_ints : int_option -> option Z;
  given_strings : string_option -> option str;
  given_lists : list_option -> option (list str)
}.

(** json.Unmarshal into an existing configuration (config.go:846, project.go:46), and the command line parser with the values
    of an existing configuration as defaults (main.go:73-114) *)
Definition apply_layer (c : configuration) (l : layer) : configuration :=
  mkConfiguration
    (fun k => match given_bools l k with Some v => v | None => bools c k end)
    (fun k => match given_ints l k with Some v => v | None => ints c k end)
    (fun k => match given_strings l k with Some v => v | None => strings c k end)
    (fun k => match given_lists l k with Some v => v | None => lists c k end).

(** ** Default values *)

(** The environment: os.UserCacheDir and whether the style files installed on Linux exist (config.go:94-116) *)
Record environment := mkEnvironment {
  user_cache_dir : str;
  style_file_exists : bool;
  math_style_file_exists : bool
}.

(** NewDefaultConfig, config.go:59-92, with getDefaultCacheDir, getDefaultStyleFile and
    getDefaultMathSvgToPngCommandTemplate (94-116) *)
Definition NewDefaultConfig (env : environment) : configuration :=
  mkConfiguration
    (fun k => match k with
              | ForceRegenerateHtml => false
              | SvgSizeToViewbox => false
              end)
    (fun k => match k with
              | CacheMaxSize => 100000000
              | CacheMaxAge => 40320
              | TocDepth => 2
              | WorkerThreads => 5
              end)%Z
    (fun k => match k with
              | OutputType => !"epub2"
              | OutputDriver => !"pandoc"
              | CacheDir => path_join [user_cache_dir env; !"wiki2book"]
              | CacheEvictionStrategy => !"lru"
              | StyleFile => if style_file_exists env then !"/usr/share/wiki2book/style.css" else []
              | CoverImage => []
              | CommandTemplateSvgToPng => !"rsvg-convert -o {OUTPUT} {INPUT}"
              | CommandTemplateMathSvgToPng =>
                if math_style_file_exists env then !"rsvg-convert -s /usr/share/wiki2book/rsvg-math.css -o {OUTPUT} {INPUT}"
                else !"rsvg-convert -o {OUTPUT} {INPUT}"
              | CommandTemplateImageProcessing =>
                !"magick {INPUT} -resize 600x600> -quality 75 -define PNG:compression-level=9 -define PNG:compression-filter=0 -colorspace gray {OUTPUT}"
              | CommandTemplatePdfToPng => !"magick -density 300 {INPUT} {OUTPUT}"
              | CommandTemplateWebpToPng => !"magick {INPUT} {OUTPUT}"
              | PandocExecutable => !"pandoc"
              | PandocDataDir => []
              | WikipediaInstance => !"en"
              | WikipediaHost => !"wikipedia.org"
              | WikipediaImageHost => !"upload.wikimedia.org"
              | WikipediaMathRestApi => !"https://wikimedia.org/api/rest_v1/media/math"
              | MathConverter => !"wikimedia"
              | UserAgentTemplate => !"wiki2book {{VERSION}} (https://github.com/hauke96/wiki2book)"
              end)
    (fun k => match k with
              | FontFiles => []
              | IgnoredTemplates => []
              | TrailingTemplates => []
              | IgnoredImageParams => []
              | IgnoredMediaTypes => [!"gif"; !"mp3"; !"mp4"; !"pdf"; !"oga"; !"ogg"; !"ogv"; !"wav"; !"webm"]
              | WikipediaImageArticleHosts => [!"commons.wikimedia.org"; !"en.wikipedia.org"]
              | FilePrefixes => [!"file"; !"image"; !"media"]
              | AllowedLinkPrefixes => [!"arxiv"; !"doi"]
              | CategoryPrefixes => [!"category"]
              end).

(** ** Validation *)

(** VerifyOutputAndDriver, config.go:789-817: true if there is no error *)
Definition VerifyOutputAndDriver (outputType outputDriver : str) : bool :=
  if str_eqb outputType !"epub2" then str_eqb outputDriver !"pandoc"
  else if str_eqb outputType !"epub3" then str_eqb outputDriver !"pandoc" || str_eqb outputDriver !"internal"
  else if str_eqb outputType !"stats-json" then str_eqb outputDriver !"internal"
  else if str_eqb outputType !"stats-txt" then str_eqb outputDriver !"internal"
  else false.

Definition has_placeholders (template : str) : bool :=
  contains InputPlaceholder template && contains OutputPlaceholder template.

(** AssertValidity, config.go:703-786: true if no error handler is called *)
Definition AssertValidity (c : configuration) : bool :=
  let t := strings c OutputType in
  let d := strings c OutputDriver in
  let isOutputTypeValid := negb (negb (str_eqb t !"epub2") && negb (str_eqb t !"epub3") && negb (str_eqb t !"stats-json") &&
                                 negb (str_eqb t !"stats-txt")) in
  let isOutputDriverValid := negb (negb (str_eqb d !"pandoc") && negb (str_eqb d !"internal")) in
  isOutputTypeValid && isOutputDriverValid && VerifyOutputAndDriver t d &&
  negb (negb (str_eqb (strings c MathConverter) !"none") && negb (str_eqb (strings c MathConverter) !"wikimedia") &&
        negb (str_eqb (strings c MathConverter) !"template")) &&
  negb ((ints c TocDepth <? 0)%Z || (6 <? ints c TocDepth)%Z) &&
  negb (ints c WorkerThreads <? 1)%Z &&
  (if negb (str_eqb (strings c CommandTemplateSvgToPng) []) then has_placeholders (strings c CommandTemplateSvgToPng) else true) &&
  negb (str_eqb (strings c CommandTemplateMathSvgToPng) []) && has_placeholders (strings c CommandTemplateMathSvgToPng) &&
  (if negb (str_eqb (strings c CommandTemplateImageProcessing) []) then has_placeholders (strings c CommandTemplateImageProcessing) else true) &&
  (if negb (str_eqb (strings c CommandTemplatePdfToPng) []) then has_placeholders (strings c CommandTemplatePdfToPng) else true) &&
  (if negb (str_eqb (strings c CommandTemplateWebpToPng) []) then has_placeholders (strings c CommandTemplateWebpToPng) else true) &&
  negb (ints c CacheMaxSize <=? 0)%Z &&
  negb (ints c CacheMaxAge <=? 0)%Z &&
  negb (negb (str_eqb (strings c CacheEvictionStrategy) !"none") && negb (str_eqb (strings c CacheEvictionStrategy) !"lru") &&
        negb (str_eqb (strings c CacheEvictionStrategy) !"largest")).

Definition asserted (c : configuration) : res configuration := if AssertValidity c then Ok c else Err.

(** ** Paths *)

(** util.ToAbsolutePathWithBasedir, src/util/files.go:82-89.  filepath.Abs of an absolute path cleans it. *)
Definition ToAbsolutePathWithBasedir (cwd basedir path : str) : str :=
  if negb (str_eqb path []) && negb (path_is_abs path) then
    let joined := path_join [basedir; path] in
    if path_is_abs joined then path_clean joined else path_join [cwd; joined]
  else path.

(** filepath.Dir: everything up to the last slash, cleaned.  The path is reversed here. *)
Fixpoint drop_to_slash (rev_path : str) : str :=
  match rev_path with
  | [] => []
  | c :: r => if Ascii.eqb c "/" then rev_path else drop_to_slash r
  end.
Definition path_dir (path : str) : str := path_clean (rev (drop_to_slash (rev path))).

(** makePathsAbsolute, config.go:646-669; [file] is the path of the configuration file *)
Definition makePathsAbsolute (cwd file : str) (c : configuration) : configuration :=
  let absoluteConfigDir := path_dir (ToAbsolutePath cwd file) in
  let abs := ToAbsolutePathWithBasedir cwd absoluteConfigDir in
  mkConfiguration (bools c) (ints c)
    (fun k => match k with
              | CacheDir => abs (strings c CacheDir)
              | StyleFile => abs (strings c StyleFile)
              | CoverImage => abs (strings c CoverImage)
              | PandocDataDir => abs (strings c PandocDataDir)
              | _ => strings c k
              end)
    (fun k => match k with
              | FontFiles => map (fun f => path_join [absoluteConfigDir; f]) (lists c FontFiles)
              | _ => lists c k
              end).

(** MakePathsAbsoluteToWorkingDir, config.go:671-691 *)
Definition MakePathsAbsoluteToWorkingDir (cwd : str) (c : configuration) : configuration :=
  mkConfiguration (bools c) (ints c)
    (fun k => match k with
              | CacheDir => ToAbsolutePath cwd (strings c CacheDir)
              | StyleFile => ToAbsolutePath cwd (strings c StyleFile)
              | CoverImage => ToAbsolutePath cwd (strings c CoverImage)
              | PandocDataDir => ToAbsolutePath cwd (strings c PandocDataDir)
              | _ => strings c k
              end)
    (fun k => match k with
              | FontFiles => map (ToAbsolutePath cwd) (lists c FontFiles)
              | _ => lists c k
              end).

(** ** Loading and merging *)

Section Merge.
  Variable env : environment.
  Let defaultConfig := NewDefaultConfig env.

  (** One case of MergeIntoCurrentConfig for options of the different types *)
  Definition override_bool (cur c : configuration) (k : bool_option) : bool :=
    if negb (Bool.eqb (bools c k) (bools defaultConfig k)) then bools c k else bools cur k.
  Definition override_int (cur c : configuration) (k : int_option) : Z :=
    if negb (ints c k =? ints defaultConfig k)%Z then ints c k else ints cur k.
  Definition override_string (cur c : configuration) (k : string_option) : str :=
    if negb (str_eqb (strings c k) (strings defaultConfig k)) then strings c k else strings cur k.
  Definition override_path (cwd : str) (cur c : configuration) (k : string_option) : str :=
    if negb (str_eqb (strings c k) (strings defaultConfig k)) then ToAbsolutePath cwd (strings c k) else strings cur k.
  Definition override_list (cur c : configuration) (k : list_option) : list str :=
    if negb (EqualsInAnyOrder (lists c k) (lists defaultConfig k)) then lists c k else lists cur k.

  (** The assignments of MergeIntoCurrentConfig, config.go:485-638 *)
  Definition merge_options (cwd : str) (cur c : configuration) : configuration :=
    mkConfiguration
      (fun k => match k with
                | ForceRegenerateHtml => override_bool cur c ForceRegenerateHtml
                | SvgSizeToViewbox => override_bool cur c SvgSizeToViewbox
                end)
      (fun k => match k with
                | CacheMaxSize => override_int cur c CacheMaxSize
                | CacheMaxAge => override_int cur c CacheMaxAge
                | TocDepth => override_int cur c TocDepth
                | WorkerThreads => override_int cur c WorkerThreads
                end)
      (fun k => match k with
                | OutputType => override_string cur c OutputType
                | OutputDriver => override_string cur c OutputDriver
                | CacheDir => override_path cwd cur c CacheDir
                | CacheEvictionStrategy => override_string cur c CacheEvictionStrategy
                | StyleFile => override_path cwd cur c StyleFile
                | CoverImage => override_path cwd cur c CoverImage
                | CommandTemplateSvgToPng => override_string cur c CommandTemplateSvgToPng
                | CommandTemplateMathSvgToPng => override_string cur c CommandTemplateMathSvgToPng
                | CommandTemplateImageProcessing => override_string cur c CommandTemplateImageProcessing
                | CommandTemplatePdfToPng => override_string cur c CommandTemplatePdfToPng
                | CommandTemplateWebpToPng => override_string cur c CommandTemplateWebpToPng
                | PandocExecutable =>
                  if contains !"/" (strings c PandocExecutable) then override_path cwd cur c PandocExecutable
                  else override_string cur c PandocExecutable
                | PandocDataDir => override_path cwd cur c PandocDataDir
                | WikipediaInstance => override_string cur c WikipediaInstance
                | WikipediaHost => override_string cur c WikipediaHost
                | WikipediaImageHost => override_string cur c WikipediaImageHost
                | WikipediaMathRestApi => override_string cur c WikipediaMathRestApi
                | MathConverter => override_string cur c MathConverter
                | UserAgentTemplate => override_string cur c UserAgentTemplate
                end)
      (fun k => match k with
                | FontFiles =>
                  if negb (EqualsInAnyOrder (lists c FontFiles) (lists defaultConfig FontFiles))
                  then map (ToAbsolutePath cwd) (lists c FontFiles) else lists cur FontFiles
                | IgnoredTemplates => override_list cur c IgnoredTemplates
                | TrailingTemplates => override_list cur c TrailingTemplates
                | IgnoredImageParams => override_list cur c IgnoredImageParams
                | IgnoredMediaTypes => override_list cur c IgnoredMediaTypes
                | WikipediaImageArticleHosts => override_list cur c WikipediaImageArticleHosts
                | FilePrefixes => override_list cur c FilePrefixes
                | AllowedLinkPrefixes => override_list cur c AllowedLinkPrefixes
                | CategoryPrefixes => override_list cur c CategoryPrefixes
                end).

  (** MergeIntoCurrentConfig, config.go:485-644 *)
  Definition MergeIntoCurrentConfig (cwd : str) (cur c : configuration) : res configuration :=
    asserted (MakePathsAbsoluteToWorkingDir cwd (merge_options cwd cur c)).

  (** LoadConfig, config.go:837-855 *)
  Definition LoadConfig (cwd file : str) (content : layer) (cur : configuration) : res configuration :=
    asserted (makePathsAbsolute cwd file (apply_layer cur content)).

  (** initialize, main.go:186-189; the file is optional *)
  Definition initial_config (cwd : str) (config_file : option (str * layer)) : res configuration :=
    match config_file with
    | Some (file, content) => LoadConfig cwd file content (NewDefaultConfig env)
    | None => Ok (NewDefaultConfig env)
    end.

  (** The effective configuration of the article and standalone command, main.go:135 and 146 *)
  Definition article_config (cwd : str) (config_file : option (str * layer)) (cli : layer) : res configuration :=
    let! cur := initial_config cwd config_file in
    MergeIntoCurrentConfig cwd cur (apply_layer (NewDefaultConfig env) cli).

  (** The effective configuration of the project command, main.go:228-253; [project_dir] is the folder of the project file,
      which is the new working directory (main.go:234-238) *)
  Definition project_config (cwd project_dir : str) (config_file : option (str * layer)) (project cli : layer) : res configuration :=
    let! cur := initial_config cwd config_file in
    let! cur := MergeIntoCurrentConfig project_dir cur (apply_layer (NewDefaultConfig env) project) in
    MergeIntoCurrentConfig project_dir cur (apply_layer (NewDefaultConfig env) cli).
End Merge.
