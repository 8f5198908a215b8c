(** * Model of src/parser/image.go *)

From Coq Require Import Ascii String.
From Coq Require Import List Arith ZArith Bool.
From Verif Require Import GoStr UtilModel ConfigModel BracketModel TokenModel HeadingModel.
Import ListNotations.
Local Open Scope list_scope.

(** src/parser/image.go 14-17 *)
Definition imageNonInlineParameters : list str := [!"mini"; !"thumb"].

(** strings.ToUpper of the first rune, src/parser/image.go 74-76.  Simplification: letters other than ASCII letters and invalid
    UTF-8 are left as they are.  The first rune of an empty name does not exist, which panics. *)
Definition upper_first (filename : str) : res str :=
  match filename with
  | [] => Panic
  | c :: s => Ok (upper_char c :: s)
  end.

Section Recursive.
Variable cfg : configuration.
Variable tokenizeContent : str -> M str.

(** src/parser/image.go 56-66: the file is ignored *)
Definition ignored_media (filename : str) : bool :=
  let fileExtension := to_lower (trim_prefix !"." (path_ext filename)) in
  mem_str fileExtension (lists cfg IgnoredMediaTypes) &&
  negb (str_eqb fileExtension !"pdf" && negb (str_eqb (strings cfg CommandTemplatePdfToPng) [])) &&
  negb (str_eqb fileExtension !"svg" && negb (str_eqb (strings cfg CommandTemplateSvgToPng) [])).

(** [escapeImages], src/parser/image.go 42-84 *)
Definition escapeImages (content : str) : M str :=
  let segments := split !"|" content in
  let fileSegments := split2 !":" (hd [] segments) in
  let '(mediaType, filename) :=
    match fileSegments with
    | mediaType :: filename :: _ => (mediaType, trim_space filename)
    | _ => (!"File", trim_space (hd [] fileSegments))
    end in
  if ignored_media filename then ret []
  else
    let filename := replace_all !" " !"_" filename in
    let filename := replace_all !"%20" !"_" filename in
    do! filename := (fun t => let! f := upper_first filename in Ok (f, t)) in
    let filenameWithMediaType := mediaType ++ !":" ++ filename in
    do! _ := addImage filenameWithMediaType in
    ret (join !"|" (filenameWithMediaType :: tl segments)).

(** galleryStartRegex and imagemapStartRegex, src/parser/pattern.go 43-44: the tag at the beginning of the line is removed.  Lines
    contain no newline.  Simplification: case folding of ASCII letters only. *)
Definition remove_start_tag (tag line : str) : option str :=
  if HasPrefixIgnoreCase line tag then
    option_map (fun i => skipn (List.length tag + i + 1) line) (tag_end (skipn (List.length tag) line))
  else None.

(** [ReplaceAllIgnoreCase], src/util/string.go 41-44, with an empty replacement: every occurrence from left to right *)
Fixpoint remove_ignore_case (old s : str) (skip : nat) : str :=
  match s with
  | [] => []
  | c :: s' =>
      match skip with
      | S k => remove_ignore_case old s' k
      | O => if HasPrefixIgnoreCase s old then remove_ignore_case old s' (pred (List.length old)) else c :: remove_ignore_case old s' 0
      end
  end.

(** hasNonInlineParameterRegex, src/parser/pattern.go 45 *)
Definition hasNonInlineParameter (line : str) : bool := existsb (fun p => contains p (to_lower line)) imageNonInlineParameters.

(** src/parser/image.go 120-142: an image of a gallery *)
Definition galleryLine (trimmedLine : str) : M str :=
  let trimmedLine :=
    if hasNonInlineParameter trimmedLine then trimmedLine
    else match split !"|" trimmedLine with
         | [] => trimmedLine
         | name :: parameters => join !"|" (name :: !"mini" :: parameters)
         end in
  do! line := escapeImages trimmedLine in
  ret (match line with [] => [] | _ => !"[[" ++ line ++ !"]]" end).

(** The loop of [parseGalleries], src/parser/image.go 91-147: the lines of the result *)
Fixpoint parseGalleries_go (lines : list str) (withinGallery : bool) : M (list str) :=
  match lines with
  | [] => ret []
  | line :: lines' =>
      let trimmedLine := trim_space line in
      if HasPrefixIgnoreCase trimmedLine !"</gallery>" then
        if EqualsIgnoreCase trimmedLine !"</gallery>" then parseGalleries_go lines' false
        else
          do! r := parseGalleries_go lines' false in
          ret (remove_ignore_case !"</gallery>" line 0 :: r)
      else
        let '(withinGallery, trimmedLine) :=
          match remove_start_tag !"<gallery" trimmedLine with
          | Some l => (true, l)
          | None => (withinGallery, trimmedLine)
          end in
        if withinGallery then
          match trimmedLine with
          | [] => parseGalleries_go lines' withinGallery
          | _ =>
              do! line := galleryLine trimmedLine in
              do! r := parseGalleries_go lines' withinGallery in
              ret (line :: r)
          end
        else
          do! r := parseGalleries_go lines' withinGallery in
          ret (line :: r)
  end.

(** [parseGalleries], src/parser/image.go 86-151 *)
Definition parseGalleries (content : str) : M str :=
  do! lines := parseGalleries_go (split nl content) false in
  ret (join nl lines).

(** The loop of [parseImageMaps], src/parser/image.go 158-190.  If the tag is the only text of the last line, there is no next line,
    which panics. *)
Fixpoint parseImageMaps_go (lines : list str) (withinImageMap : bool) : M (list str) :=
  match lines with
  | [] => ret []
  | line :: lines' =>
      if withinImageMap || EqualsIgnoreCase line !"</imagemap>" then
        parseImageMaps_go lines' (withinImageMap && negb (EqualsIgnoreCase line !"</imagemap>"))
      else
        match remove_start_tag !"<imagemap" line with
        | None =>
            do! r := parseImageMaps_go lines' false in
            ret (line :: r)
        | Some l =>
            match trim_space l with
            | [] =>
                match lines' with
                | [] => panic
                | next :: lines' =>
                    do! image := escapeImages next in
                    do! r := parseImageMaps_go lines' true in
                    ret ((!"[[" ++ image ++ !"]]") :: r)
                end
            | l =>
                do! image := escapeImages l in
                do! r := parseImageMaps_go lines' true in
                ret ((!"[[" ++ image ++ !"]]") :: r)
            end
        end
  end.

(** [parseImageMaps], src/parser/image.go 153-194 *)
Definition parseImageMaps (content : str) : M str :=
  do! lines := parseImageMaps_go (split nl content) false in
  ret (join nl lines).

(** A match of internalLinkStartRegex (src/parser/pattern.go 38) at the beginning of [s]: its length.  Behind the brackets: at
    least one character other than a closing bracket, and then up to the first colon no closing bracket. *)
Fixpoint prefix_end (s : str) : option nat :=
  match s with
  | [] => None
  | c :: s' => if Ascii.eqb c ":" then Some 0 else if Ascii.eqb c "]" then None else option_map S (prefix_end s')
  end.
Definition link_start_match (s : str) : option nat :=
  if has_prefix !"[[" s then
    match skipn 2 s with
    | [] => None
    | c :: s' => if Ascii.eqb c "]" then None else option_map (fun i => 4 + i) (prefix_end s')
    end
  else None.

(** internalLinkStartRegex.FindStringIndex: begin and end of the leftmost match *)
Fixpoint find_link_start (s : str) : option (nat * nat) :=
  match s with
  | [] => None
  | _ :: s' =>
      match link_start_match s with
      | Some n => Some (0, n)
      | None => option_map (fun p => (S (fst p), S (snd p))) (find_link_start s')
      end
  end.

(** src/parser/image.go 235-259: the size of an option with the suffix px *)
Definition option_size (option : str) : Z * Z :=
  let sizes := split !"x" (trim_suffix !"px" option) in
  let xSize := trim_space (hd [] sizes) in
  let ySize := match sizes with [_; y] => trim_space y | _ => [] end in
  (match atoi xSize with Some n => n | None => (-1)%Z end, match atoi ySize with Some n => n | None => (-1)%Z end).

Record image_options := mkImageOptions { isImage : bool; hasCaption : bool; caption : str; xSizeInt : Z; ySizeInt : Z }.

(** The loop over the options in [parseImages], src/parser/image.go 230-270 *)
Fixpoint parseOptions (options : list str) (o : image_options) : M image_options :=
  match options with
  | [] => ret o
  | option :: options' =>
      if HasAnyPrefix option imageNonInlineParameters then
        parseOptions options' (mkImageOptions true true (caption o) (xSizeInt o) (ySizeInt o))
      else if has_suffix !"px" option then
        let (x, y) := option_size option in
        parseOptions options' (mkImageOptions (isImage o || (50 <=? y)%Z || (100 <=? x)%Z) (hasCaption o) (caption o) x y)
      else if (List.length options' =? 0) && isImage o then
        do! c := tokenizeContent option in
        parseOptions options' (mkImageOptions (isImage o) (hasCaption o) c (xSizeInt o) (ySizeInt o))
      else parseOptions options' o
  end.

(** src/parser/image.go 213-292: the token for the escaped image *)
Definition image_token (imageContent : str) : M str :=
  let options := split !"|" imageContent in
  do! filename := (fun t => match split2 !":" (hd [] options) with _ :: f :: _ => Ok (f, t) | _ => Panic end) in
  let filteredOptions := filter (fun option => negb (HasAnyPrefix option (lists cfg IgnoredImageParams))) options in
  do! o := parseOptions filteredOptions (mkImageOptions false false [] (-1) (-1)) in
  let captionToken := if hasCaption o then caption o else [] in
  let '(tokenType, imageToken) :=
    if isImage o then (TOKEN_IMAGE, ImageToken filename captionToken (xSizeInt o) (ySizeInt o))
    else (TOKEN_IMAGE_INLINE, InlineImageToken filename (xSizeInt o) (ySizeInt o)) in
  do! token := getToken tokenType in
  do! _ := setRawToken token imageToken in
  ret token.

(** The loop of [parseImages], src/parser/image.go 199-299.  The slice up to index -1 panics if the closing bracket is missing, the
    slice from [endIndex + 2] if it is the last character. *)
Fixpoint parseImages_go (fuel : nat) (content : str) : M str :=
  match fuel with
  | O => out_of_fuel
  | S fuel' =>
      match find_link_start content with
      | None => ret content
      | Some (startIndex0, startIndex1) =>
          match FindCorrespondingCloseToken content startIndex1 !"[" !"]" with
          | None => panic
          | Some endIndex =>
              do! imageContent := tokenizeContent (sub content startIndex1 endIndex) in
              do! imageContent := escapeImages imageContent in
              let filePrefix := to_lower (hd [] (split2 !":" imageContent)) in
              do! token :=
                if str_eqb imageContent [] || negb (mem_str filePrefix (lists cfg FilePrefixes)) then ret []
                else image_token imageContent in
              if List.length content <? endIndex + 2 then panic
              else parseImages_go fuel' (firstn startIndex0 content ++ token ++ skipn (endIndex + 2) content)
          end
      end
  end.

(** [parseImages], src/parser/image.go 196-302.  Every round removes at least two opening brackets, so the fuel is enough (see
    [parseImages_go_ends] in EndProofs). *)
Definition parseImages (content : str) : M str := parseImages_go (S (List.length (filter (Ascii.eqb "[") content))) content.
End Recursive.
