(** * Model of src/parser/link.go *)

From Coq Require Import Ascii String.
From Coq Require Import List Arith Bool.
From Verif Require Import GoStr UtilModel ConfigModel TokenModel.
Import ListNotations.
Local Open Scope list_scope.

(** src/parser/link.go 10-15 *)
Inductive LinkType := LINK_TYPE_INTERNAL | LINK_TYPE_EXTERNAL.

Section Recursive.
Variable cfg : configuration.
Variable tokenizeContent : str -> M str.

(** src/parser/link.go 64-71: the part behind opening brackets is a file *)
Definition is_file (splitItem : str) : bool :=
  contains !":" splitItem &&
  match split2 !":" splitItem with
  | prefix :: _ => mem_str (to_lower prefix) (lists cfg FilePrefixes)
  | [] => false
  end.

(** src/parser/link.go 78-82: the link target *)
Definition link_target (linkDelimiter possibleLinkWikitext : str) (removeSectionReference : bool) : str :=
  let linkTarget := hd [] (split linkDelimiter possibleLinkWikitext) in
  let linkTarget := if removeSectionReference then hd [] (split2 !"#" linkTarget) else linkTarget in
  trim_space linkTarget.

(** src/parser/link.go 109-133: the token, if any, with its type *)
Definition link_token (linkType : LinkType) (linkTarget linkText : str) : M (option (Token * str)) :=
  match linkType with
  | LINK_TYPE_INTERNAL =>
      do! text := tokenizeContent linkText in
      ret (Some (InternalLinkToken linkTarget text, TOKEN_INTERNAL_LINK))
  | LINK_TYPE_EXTERNAL =>
      if HasAnyPrefix linkTarget [!"http://"; !"https://"] then
        do! text := tokenizeContent linkText in
        ret (Some (ExternalLinkToken linkTarget text, TOKEN_EXTERNAL_LINK))
      else if contains !"://" linkTarget then
        do! text := tokenizeContent linkText in
        ret (Some (StringToken text, TOKEN_STRING))
      else ret None
  end.

(** The body of the loop of [parseLink], src/parser/link.go 63-149, for the parts behind opening brackets: the text that is
    appended to the result.  The first character of an empty link target does not exist (line 93), which panics. *)
Definition parseLinkItem (openingBrackets closingBrackets linkDelimiter : str) (linkType : LinkType)
    (delimiterRequired removeSectionReference : bool) (splitItem : str) : M str :=
  if is_file splitItem then ret (openingBrackets ++ splitItem)
  else
    let segments := split closingBrackets splitItem in
    let possibleLinkWikitext := hd [] segments in
    let wikitextElements := split linkDelimiter possibleLinkWikitext in
    let linkTarget := link_target linkDelimiter possibleLinkWikitext removeSectionReference in
    if (List.length wikitextElements =? 1) && delimiterRequired then ret (openingBrackets ++ splitItem)
    else
      do! linkText :=
        if List.length wikitextElements =? 1 then
          match linkTarget with
          | [] => panic
          | c :: _ => ret (if Ascii.eqb c ":" then last (split !":" linkTarget) [] else linkTarget)
          end
        else ret (join linkDelimiter (tl wikitextElements)) in
      do! token := link_token linkType linkTarget linkText in
      do! link :=
        match token with
        | Some (token, linkTokenKey) =>
            do! tokenKey := getToken linkTokenKey in
            do! _ := setRawToken tokenKey token in
            ret tokenKey
        | None => ret (openingBrackets ++ possibleLinkWikitext ++ closingBrackets)
        end in
      ret (link ++ join closingBrackets (tl segments)).

(** [parseLink], src/parser/link.go 42-153 *)
Definition parseLink (content openingBrackets closingBrackets linkDelimiter : str) (linkType : LinkType)
    (delimiterRequired removeSectionReference : bool) : M str :=
  match split openingBrackets content with
  | [] => ret []
  | first :: items =>
      do! results := mapM (parseLinkItem openingBrackets closingBrackets linkDelimiter linkType delimiterRequired removeSectionReference) items in
      ret (first ++ concat results)
  end.

(** [parseInternalLinks], src/parser/link.go 29-31 *)
Definition parseInternalLinks (content : str) : M str := parseLink content !"[[" !"]]" !"|" LINK_TYPE_INTERNAL false true.

(** [parseExternalLinks], src/parser/link.go 33-35 *)
Definition parseExternalLinks (content : str) : M str := parseLink content !"[" !"]" !" " LINK_TYPE_EXTERNAL true false.
End Recursive.
