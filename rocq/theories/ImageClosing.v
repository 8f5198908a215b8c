(** * The tokenizer with a check that no image swallows the beginning of a key

    [parseImages] skips the character behind the closing bracket of an image whatever it is (src/parser/image.go 217, 294).  The
    definitions here are the ones of the model with one addition: if [strict] is set, the run stops when that character is a
    dollar sign, the first character of a key or marker. *)

From Coq Require Import Ascii String.
From Coq Require Import List Arith Bool.
From Verif Require Import GoStr ConfigModel BracketModel TokenModel FormattingModel ParagraphModel HeadingModel LinkModel ImageModel ListModel TableModel ReferenceModel TokenizerModel.
Import ListNotations.
Local Open Scope list_scope.

Section Config.
Variables (strict : bool) (cfg : configuration).

Section Recursive.
Variable tokenizeContent : str -> M str.
Fixpoint parseImages_check (fuel : nat) (content : str) : M str :=
  match fuel with
  | O => out_of_fuel
  | S fuel' =>
      match find_link_start content with
      | None => ret content
      | Some (startIndex0, startIndex1) =>
          match FindCorrespondingCloseToken content startIndex1 !"[" !"]" with
          | None => panic
          | Some endIndex =>
              do! imageContent := tokenizeContent (sub content startIndex1 endIndex) in
              do! imageContent := escapeImages cfg imageContent in
              let filePrefix := to_lower (hd [] (split2 !":" imageContent)) in
              do! token :=
                if str_eqb imageContent [] || negb (mem_str filePrefix (lists cfg FilePrefixes)) then ret []
                else image_token cfg tokenizeContent imageContent in
              if List.length content <? endIndex + 2 then panic
              else if strict && has_prefix !"$" (skipn (S endIndex) content) then panic
              else parseImages_check fuel' (firstn startIndex0 content ++ token ++ skipn (endIndex + 2) content)
          end
      end
  end.
End Recursive.

Definition later_check (tokenizeContent : str -> M str) (content : str) : M str :=
  do! content := lift (parseBoldAndItalic content) in
  do! content := parseHeadings tokenizeContent content in
  do! content := parseReferences tokenizeContent content in
  do! content := parseInternalLinks cfg tokenizeContent content in
  do! content := parseGalleries cfg content in
  do! content := parseImageMaps cfg content in
  do! content := parseImages_check tokenizeContent (S (List.length (filter (Ascii.eqb "[") content))) content in
  do! content := parseExternalLinks cfg tokenizeContent content in
  do! content := parseMath content in
  do! content := parseLists tokenizeContent content in
  do! content := parseTables tokenizeContent content in
  ret (parseParagraphs content).

Definition passes_check (tokenizeContent : str -> M str) (content : str) : M str :=
  do! content := parseNowiki content in
  later_check tokenizeContent content.

Fixpoint tokenizeContent_check (fuel : nat) (content : str) : M str :=
  match fuel with
  | O => out_of_fuel
  | S fuel' =>
      do! newContent := passes_check (tokenizeContent_check fuel') content in
      if str_eqb newContent content then ret newContent else tokenizeContent_check fuel' newContent
  end.
End Config.

(** Without the check, these are the functions of the model. *)
Lemma no_check : tokenizeContent_check false = tokenizeContent.
Proof. reflexivity. Qed.
