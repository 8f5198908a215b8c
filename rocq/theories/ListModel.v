(** * Model of src/parser/list.go *)

From Coq Require Import Ascii String.
From Coq Require Import List Arith Bool.
From Verif Require Import GoStr TokenModel.
Import ListNotations.
Local Open Scope list_scope.

(** [isListStartingCharacter], src/parser/list.go 237-239 *)
Definition isListStartingCharacter (c : ascii) : bool :=
  Ascii.eqb c "*" || Ascii.eqb c "#" || Ascii.eqb c ";" || Ascii.eqb c ":".

(** [belongsToListPrefix], src/parser/list.go 222-235 *)
Definition belongsToListPrefix (line : str) (itemPrefix : ascii) : bool :=
  match line with
  | [] => false
  | linePrefix :: _ =>
      if Ascii.eqb itemPrefix ";" then Ascii.eqb linePrefix ":" || Ascii.eqb linePrefix ";"
      else Ascii.eqb linePrefix itemPrefix
  end.

(** [getListTokenKey], src/parser/list.go 261-274, and the kind of the token, src/parser/list.go 200-217.  List prefixes are list
    starting characters, so that the other cases do not occur. *)
Definition getListTokenKey (listItemPrefix : ascii) : str :=
  if Ascii.eqb listItemPrefix "*" then TOKEN_UNORDERED_LIST
  else if Ascii.eqb listItemPrefix "#" then TOKEN_ORDERED_LIST
  else TOKEN_DESCRIPTION_LIST.
Definition kind_of_list (listPrefix : ascii) : list_kind :=
  if Ascii.eqb listPrefix "*" then Unordered else if Ascii.eqb listPrefix "#" then Ordered else Description.

(** [getListItemTypeForList], src/parser/list.go 276-289 *)
Definition getListItemTypeForList (listItemPrefix : ascii) : ListItemTokenType :=
  if Ascii.eqb listItemPrefix "*" || Ascii.eqb listItemPrefix "#" then NORMAL_ITEM
  else if Ascii.eqb listItemPrefix ";" then DESCRIPTION_HEAD
  else DESCRIPTION_ITEM.

(** src/parser/list.go 137-149: the sub-list is added to the last item, or to a new one if there is none *)
Definition addSubList (listPrefix : ascii) (items : list ListItemToken) (subListToken : ListToken) : list ListItemToken :=
  match rev items with
  | [] => [mkListItemToken (getListItemTypeForList listPrefix) [] [subListToken]]
  | mkListItemToken type content subLists :: before => rev before ++ [mkListItemToken type content (subLists ++ [subListToken])]
  end.

(** The longest prefix of lines that satisfy the condition: the loops in src/parser/list.go 91-101 and 126-131 *)
Fixpoint take_while (f : str -> bool) (lines : list str) : list str :=
  match lines with
  | [] => []
  | line :: lines' => if f line then line :: take_while f lines' else []
  end.

Section Recursive.
Variable tokenizeContent : str -> M str.

(** src/parser/list.go 160-196: the items of a line that starts no sub-list; [linePrefix] is the first character of the line, [text]
    the rest *)
Definition lineItems (linePrefix : ascii) (text : str) : M (list ListItemToken) :=
  if Ascii.eqb linePrefix ";" then
    match split2 !":" text with
    | [head; item] =>
        do! headPart := tokenizeContent head in
        do! itemPart := tokenizeContent item in
        ret [mkListItemToken DESCRIPTION_HEAD headPart []; mkListItemToken DESCRIPTION_ITEM itemPart []]
    | _ =>
        do! headPart := tokenizeContent text in
        ret [mkListItemToken DESCRIPTION_HEAD headPart []]
    end
  else if Ascii.eqb linePrefix ":" then
    do! content := tokenizeContent text in
    ret [mkListItemToken DESCRIPTION_ITEM content []]
  else
    do! content := tokenizeContent text in
    ret [mkListItemToken NORMAL_ITEM content []].

(** The loop over the lines of a list, src/parser/list.go 106-197.  [tokenizeSubList] is the recursive call, [skip] the number of
    lines that belong to a sub-list that has been handled.  The lines of a list are not empty. *)
Fixpoint listItems (tokenizeSubList : list str -> ascii -> M ListToken) (listPrefix : ascii) (listLines : list str) (skip : nat)
    (allListItemTokens : list ListItemToken) : M (list ListItemToken) :=
  match listLines with
  | [] => ret allListItemTokens
  | line :: listLines' =>
      match skip with
      | S k => listItems tokenizeSubList listPrefix listLines' k allListItemTokens
      | O =>
          match line with
          | [] => listItems tokenizeSubList listPrefix listLines' 0 allListItemTokens
          | linePrefix :: text =>
              match text with
              | subListPrefix :: _ =>
                  if isListStartingCharacter subListPrefix then
                    let trimmedListLines := take_while (fun l => belongsToListPrefix l subListPrefix) (map (@tl ascii) listLines) in
                    do! subListToken := tokenizeSubList trimmedListLines subListPrefix in
                    listItems tokenizeSubList listPrefix listLines' (pred (List.length trimmedListLines))
                      (addSubList listPrefix allListItemTokens subListToken)
                  else
                    do! items := lineItems linePrefix text in
                    listItems tokenizeSubList listPrefix listLines' 0 (allListItemTokens ++ items)
              | [] =>
                  do! items := lineItems linePrefix text in
                  listItems tokenizeSubList listPrefix listLines' 0 (allListItemTokens ++ items)
              end
          end
      end
  end.

(** [tokenizeList], src/parser/list.go 74-220, from the given lines on: the token, its key and the number of lines of the list.  The
    lines of a sub-list are shorter, so a fuel that is larger than the length of the lines is enough (see [tokenizeList_ends] in EndProofs). *)
Fixpoint tokenizeList (fuel : nat) (lines : list str) (listPrefix : ascii) : M (ListToken * str * nat) :=
  match fuel with
  | O => out_of_fuel
  | S fuel' =>
      let listLines := take_while (fun line => belongsToListPrefix line listPrefix) (map trim_space lines) in
      do! allListItemTokens := listItems (fun lines prefix => do! (token, _, _) := tokenizeList fuel' lines prefix in ret token)
                                 listPrefix listLines 0 [] in
      do! listTokenKey := getToken (getListTokenKey listPrefix) in
      let listToken := AnyListToken (kind_of_list listPrefix) allListItemTokens in
      do! _ := setRawToken listTokenKey (ListTokenOf listToken) in
      ret (listToken, listTokenKey, List.length listLines)
  end.

(** A fuel that is enough *)
Definition longest (lines : list str) : nat := fold_right (fun line n => max (List.length line) n) 0 lines.

(** The loop of [parseLists], src/parser/list.go 46-65: the lines from index [i] on.  [skip] is the number of lines that belong to a list. *)
Fixpoint parseLists_go (lines : list str) (skip : nat) : M (list str) :=
  match lines with
  | [] => ret []
  | line0 :: lines' =>
      match skip with
      | S k => parseLists_go lines' k
      | O =>
          match trim_space line0 with
          | [] => do! r := parseLists_go lines' 0 in ret (line0 :: r)
          | lineStartCharacter :: _ =>
              if isListStartingCharacter lineStartCharacter then
                do! (_, tokenKey, length) := tokenizeList (S (longest lines)) lines lineStartCharacter in
                do! r := parseLists_go lines' (pred length) in
                ret (tokenKey :: r)
              else
                do! r := parseLists_go lines' 0 in
                ret (line0 :: r)
          end
      end
  end.

(** [parseLists], src/parser/list.go 43-69 *)
Definition parseLists (content : str) : M str :=
  do! lines := parseLists_go (split nl content) 0 in
  ret (join nl lines).
End Recursive.
