(** * Specification vocabulary for the requests to the wiki and the files of images *)

From Coq Require Import Ascii String.
From Coq Require Import List NArith Bool.
From Verif Require Import GoStr UtilModel CacheModel CacheSpec HttpModel HttpSpec HtmlModel ServiceSpec ImageSpec.
Import ListNotations.
Local Open Scope list_scope.

(** ** How a server reads a form: fields separated by ampersands, each one with its name and its value; a plus sign is a blank, a percent sign and two digits are a byte *)

Fixpoint cut (c : ascii) (s : str) : str * option str :=
  match s with
  | [] => ([], None)
  | d :: s' => if Ascii.eqb d c then ([], Some s') else let (a, b) := cut c s' in (d :: a, b)
  end.
Fixpoint pieces (c : ascii) (s : str) : list str :=
  match s with
  | [] => [[]]
  | d :: s' => if Ascii.eqb d c then [] :: pieces c s' else match pieces c s' with [] => [[d]] | p :: ps => (d :: p) :: ps end
  end.
Definition form_decode (s : str) : str := percent_decode (map (fun c => if Ascii.eqb c "+" then " "%char else c) s).
Definition form_field (s : str) : str * option str := let (name, value) := cut "=" s in (form_decode name, option_map form_decode value).
Definition form (s : str) : list (str * option str) := map form_field (pieces "&" s).

(** Titles and names of images are asked for with underscores instead of blanks. *)
Definition underscores (s : str) : str := map (fun c => if Ascii.eqb c " " then "_"%char else c) s.

(** ** The library functions that the URLs depend on: url.QueryEscape is the one of HtmlModel.v, an MD5 sum has at least two digits, and host names that match the regular
    expression for wikis contain a dot. *)

Definition library (ext : externals) : Prop :=
  (forall s, QueryEscape ext s = query_escape s) /\ (forall s, 2 <= List.length (md5hex ext s)) /\ (forall host, is_wiki_domain ext host = true -> In "."%char host).

(** ** Requests *)

(** All requests of an execution *)
Definition every_request (P : request -> Prop) (tr : list net_event) : Prop :=
  Forall (fun e => match e with Asked q _ => P q | Slept _ => True end) tr.

(** A GET request for a page, with the given fields *)
Definition asks_page (page : str) (fields : list (str * str)) (q : request) : Prop :=
  q_post q = false /\ exists query, q_url q = page ++ !"?" ++ query /\ form query = map (fun f => (fst f, Some (snd f))) fields.

(** A POST request with the given fields *)
Definition posts (page : str) (fields : list (str * str)) (q : request) : Prop :=
  q_post q = true /\ q_url q = page /\ form (q_body q) = map (fun f => (fst f, Some (snd f))) fields.

(** A GET request for a URL *)
Definition gets (url : str) (q : request) : Prop := q_post q = false /\ q_url q = url.

(** The data is the complete body of an answer without error to such a request. *)
Definition delivered_for (P : request -> Prop) (tr : list net_event) (data : str) : Prop :=
  exists q a, In (Asked q (Some a)) tr /\ P q /\ successful a /\ a_complete a = true /\ data = all_data (a_body a).

(** The request for an article *)
Definition asks_article (host title : str) : request -> Prop :=
  asks_page (!"https://" ++ host ++ !"/w/api.php")
    [(!"action", !"parse"); (!"prop", !"wikitext"); (!"redirects", !"true"); (!"format", !"json"); (!"page", underscores title)].

(** The address of an image file: the folders are the first character and the first two characters of the MD5 sum of the name *)
Definition image_address (ext : externals) (wiki : wiki_config) (host name url : str) : Prop :=
  exists site a b digits encoded, md5hex ext name = a :: b :: digits /\
    (if is_wiki_domain ext host then exists rest, host = site ++ !"." ++ rest /\ ~ In "."%char site else site = []) /\
    url = !"https://" ++ wikipediaImageHost wiki ++ !"/wikipedia/" ++ site ++ !"/" ++ [a] ++ !"/" ++ [a; b] ++ !"/" ++ encoded /\
    percent_decode encoded = name /\ (forall c, In c encoded -> ~ In c [" "; "/"; "?"; "#"; "&"]%char).

(** The part of the title of an image article that is the name of the image: from the first colon to the second one *)
Definition name_in_title (title name : str) : Prop :=
  exists prefix rest, title = prefix ++ !":" ++ name ++ rest /\ ~ In ":"%char prefix /\ ~ In ":"%char name /\ (rest = [] \/ exists more, rest = !":" ++ more).

(** ** Files *)

(** All files outside of .tmp have their content, are deleted, or have one of the given contents. *)
Definition only_written (allowed : path -> str -> Prop) (w w' : world) : Prop :=
  forall p, in_tmp p = false -> content w' p = content w p \/ content w' p = None \/ exists d, content w' p = Some d /\ allowed p d.

(** Requests for a formula: it is sent to be checked, and the answer contains the name of its pictures. *)
Definition posts_formula (wiki : wiki_config) (formula : str) : request -> Prop :=
  posts (wikipediaMathRestApi wiki ++ !"/check/tex") [(!"q", !"{\displaystyle " ++ formula ++ !"}")].
Definition svg_address (wiki : wiki_config) (name : str) : str := wikipediaMathRestApi wiki ++ !"/render/svg/" ++ name.
Definition png_address (wiki : wiki_config) (name : str) : str := wikipediaMathRestApi wiki ++ !"/render/png/" ++ name.

(** The title of an image article, as the host has delivered it now or as it is cached *)
Definition titled (ext : externals) (host article title : str) (w : world) (tr : list net_event) : Prop :=
  exists bytes, json_article_title ext bytes = Some title /\
    (content w (cache_path !"articles" (underscores article ++ !".json")) = Some bytes \/ delivered_for (asks_article host article) tr bytes).

(** The request for the file of an image, whose name is in the title of its article *)
Definition asks_image (ext : externals) (wiki : wiki_config) (host article : str) (w : world) (tr : list net_event) (q : request) : Prop :=
  q_post q = false /\ exists title name, titled ext host article title w tr /\ name_in_title title name /\ image_address ext wiki host (underscores name) (q_url q).

(** The requests for the pictures of a formula, and the files written: the name of its pictures, the SVG file and the PNG file, which is downloaded or the result of a conversion *)
Definition math_request (wiki : wiki_config) (converter : math_converter) (formula name : str) (q : request) : Prop :=
  posts_formula wiki formula q \/ gets (svg_address wiki name) q \/ (converter = MathWikimedia /\ gets (png_address wiki name) q).

Definition math_file (ext : externals) (wiki : wiki_config) (converter : math_converter) (formula name : str) (tr : list net_event) (p : path) (d : str) : Prop :=
  (p = cache_path !"math" (Hash ext formula) /\ d = name) \/
  (p = cache_path !"images" (name ++ !".svg") /\ delivered_for (gets (svg_address wiki name)) tr d) \/
  (p = cache_path !"images" (name ++ !".png") /\ (converter = MathTemplate \/ (converter = MathWikimedia /\ delivered_for (gets (png_address wiki name)) tr d))).

(** The files written for an image with the name [n]: its article and the image itself, as delivered; the size of an SVG image can be changed *)
Definition image_written_file (ext : externals) (wiki : wiki_config) (host n : str) (w : world) (tr : list net_event) (p : path) (d : str) : Prop :=
  (p = cache_path !"articles" (underscores (!"File:" ++ n) ++ !".json") /\ delivered_for (asks_article host (!"File:" ++ n)) tr d) \/
  (p = cache_path !"images" (underscores n) /\ (delivered_for (asks_image ext wiki host (!"File:" ++ n) w tr) tr d \/ (SvgSizeToViewbox wiki = true /\ path_ext (last p []) = !".svg"))).

(** ** Processing of images *)

(** The successful conversion of one file to another one, and the successful processing of a file; between the functions of the cache time may pass *)
Definition convert_step (src dst : path) (w w' : world) : Prop := exists v v', files v = files w /\ sys_step true v (SConvert src dst) true v' /\ files w' = files v'.
Definition process_step (p : path) (w w' : world) : Prop := exists v v', files v = files w /\ sys_step true v (SRewrite p) true v' /\ files w' = files v'.

(** Images of these formats are never processed. *)
Definition vector (file : str) : Prop := has_extension !".svg" file \/ has_extension !".pdf" file.
