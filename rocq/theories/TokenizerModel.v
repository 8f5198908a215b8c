(** * Model of src/parser/tokenizer.go *)

From Coq Require Import Ascii String.
From Coq Require Import List Arith Bool.
From Verif Require Import GoStr ConfigModel TokenModel FormattingModel ParagraphModel HeadingModel LinkModel ImageModel ListModel TableModel ReferenceModel.
Import ListNotations.
Local Open Scope list_scope.

Section Config.
Variable cfg : configuration.

(** The body of the loop of [tokenizeContent], src/parser/tokenizer.go 140-157 *)
Definition passes (tokenizeContent : str -> M str) (content : str) : M str :=
  do! content := parseNowiki content in
  do! content := lift (parseBoldAndItalic content) in
  do! content := parseHeadings tokenizeContent content in
  do! content := parseReferences tokenizeContent content in
  do! content := parseInternalLinks cfg tokenizeContent content in
  do! content := parseGalleries cfg content in
  do! content := parseImageMaps cfg content in
  do! content := parseImages cfg tokenizeContent content in
  do! content := parseExternalLinks cfg tokenizeContent content in
  do! content := parseMath content in
  do! content := parseLists tokenizeContent content in
  do! content := parseTables tokenizeContent content in
  ret (parseParagraphs content).

(** [tokenizeContent], src/parser/tokenizer.go 138-165.  The next round of the loop is the same as a call with the new content. *)
Fixpoint tokenizeContent (fuel : nat) (content : str) : M str :=
  match fuel with
  | O => out_of_fuel
  | S fuel' =>
      do! newContent := passes (tokenizeContent fuel') content in
      if str_eqb newContent content then ret newContent else tokenizeContent fuel' newContent
  end.
End Config.
