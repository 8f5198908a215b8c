(** * Specification vocabulary for configurations *)

From Coq Require Import Ascii String.
From Coq Require Import List Arith ZArith Bool Permutation.
From Verif Require Import GoStr UtilModel MainModel ConfigModel.
Import ListNotations.
Local Open Scope list_scope.

(** The first value which is given, otherwise the default *)
Fixpoint first_given {A} (values : list (option A)) (default : A) : A :=
  match values with
  | [] => default
  | Some v :: _ => v
  | None :: values' => first_given values' default
  end.

(** A path of a setting in a file in the folder [dir]: relative paths are relative to this folder, absolute and empty paths
    are kept *)
Definition resolved (dir path : str) : str :=
  match path with
  | [] => []
  | _ => if has_prefix !"/" path then path else path_join [dir; path]
  end.

(** Options which are paths *)
Definition is_path (k : string_option) : Prop :=
  k = CacheDir \/ k = StyleFile \/ k = CoverImage \/ k = PandocDataDir.

(** The meaning of a value given in a layer with folder [dir] *)
Definition meaning (dir : str) (k : string_option) (v : str) : str :=
  match k with
  | CacheDir | StyleFile | CoverImage | PandocDataDir => resolved dir v
  | PandocExecutable => if contains !"/" v then resolved dir v else v
  | _ => v
  end.

Definition list_meaning (dir : str) (k : list_option) (v : list str) : list str :=
  match k with FontFiles => map (resolved dir) v | _ => v end.

(** ** Valid configurations, according to the documentation of the options *)

Definition one_of (l : list str) (v : str) : Prop := In v l.

(** A template for a command contains both placeholders *)
Definition usable_template (t : str) : Prop :=
  (exists a b, t = a ++ !"{INPUT}" ++ b) /\ (exists a b, t = a ++ !"{OUTPUT}" ++ b).

Record valid_configuration (c : configuration) : Prop := {
  valid_output : In (strings c OutputType, strings c OutputDriver)
    [(!"epub2", !"pandoc"); (!"epub3", !"pandoc"); (!"epub3", !"internal"); (!"stats-json", !"internal"); (!"stats-txt", !"internal")];
  valid_math_converter : one_of [!"none"; !"wikimedia"; !"template"] (strings c MathConverter);
  valid_toc_depth : (0 <= ints c TocDepth <= 6)%Z;
  valid_worker_threads : (1 <= ints c WorkerThreads)%Z;
  valid_svg_template : strings c CommandTemplateSvgToPng = [] \/ usable_template (strings c CommandTemplateSvgToPng);
  valid_math_template : usable_template (strings c CommandTemplateMathSvgToPng);
  valid_image_template : strings c CommandTemplateImageProcessing = [] \/ usable_template (strings c CommandTemplateImageProcessing);
  valid_pdf_template : strings c CommandTemplatePdfToPng = [] \/ usable_template (strings c CommandTemplatePdfToPng);
  valid_webp_template : strings c CommandTemplateWebpToPng = [] \/ usable_template (strings c CommandTemplateWebpToPng);
  valid_cache_size : (0 < ints c CacheMaxSize)%Z;
  valid_cache_age : (0 < ints c CacheMaxAge)%Z;
  valid_cache_strategy : one_of [!"none"; !"lru"; !"largest"] (strings c CacheEvictionStrategy)
}.

(** A layer which gives nothing, and with one value added *)
Definition empty_layer : layer := mkLayer (fun _ => None) (fun _ => None) (fun _ => None) (fun _ => None).

Definition string_eq_dec : forall x y : string_option, {x = y} + {x <> y}. Proof. decide equality. Defined.
Definition list_eq_dec' : forall x y : list_option, {x = y} + {x <> y}. Proof. decide equality. Defined.
Definition int_eq_dec : forall x y : int_option, {x = y} + {x <> y}. Proof. decide equality. Defined.

Definition with_string (k : string_option) (v : str) (l : layer) : layer :=
  mkLayer (given_bools l) (given_ints l) (fun x => if string_eq_dec x k then Some v else given_strings l x) (given_lists l).
Definition with_list (k : list_option) (v : list str) (l : layer) : layer :=
  mkLayer (given_bools l) (given_ints l) (given_strings l) (fun x => if list_eq_dec' x k then Some v else given_lists l x).
Definition with_int (k : int_option) (v : Z) (l : layer) : layer :=
  mkLayer (given_bools l) (fun x => if int_eq_dec x k then Some v else given_ints l x) (given_strings l) (given_lists l).

(** In a configuration file the executable is not treated as path, and all font files are put below its folder *)
Definition file_meaning (dir : str) (k : string_option) (v : str) : str :=
  match k with PandocExecutable => v | _ => meaning dir k v end.
Definition file_list_meaning (dir : str) (k : list_option) (v : list str) : list str :=
  match k with FontFiles => map (fun f => path_join [dir; f]) v | _ => v end.

(** Lists which differ by more than the order: in length or in an element *)
Definition differs (v d : list str) : Prop := List.length v <> List.length d \/ exists x, In x v /\ ~ In x d.

(** A value given by the configuration file (path and content), with its meaning relative to the folder of the file *)
Definition from_file {A} (get : layer -> option A) (m : str -> A -> A) (cwd : str) (config_file : option (str * layer)) : option A :=
  match config_file with
  | Some (file, content) => option_map (m (path_dir (resolved cwd file))) (get content)
  | None => None
  end.

(** The working directory, the folder of the project and the cache folder of the user are absolute; if there is a configuration
    file, its path is not empty *)
Definition usual_paths (env : environment) (cwd project_dir : str) (config_file : option (str * layer)) : Prop :=
  has_prefix !"/" cwd = true /\ has_prefix !"/" project_dir = true /\ has_prefix !"/" (user_cache_dir env) = true /\
  match config_file with Some (file, _) => file <> [] | None => True end.
