(** * Model of src/parser/util.go *)

From Coq Require Import Ascii String.
From Coq Require Import List Arith Bool.
From Verif Require Import GoStr.
Import ListNotations.
Local Open Scope list_scope.

(** src/parser/util.go 34-43, 47-60: the text at the cursor (the beginning of [s]) is the token.  The comparison of a slice of
    the length of the token with the token is a prefix test. *)
Definition at_token (ignoreCase : bool) (token s : str) : bool :=
  if ignoreCase then has_prefix (to_lower token) (to_lower s) else has_prefix token s.

(** src/parser/util.go 47-53: openingAndClosingTokenAreDifferent *)
Definition tokens_differ (ignoreCase : bool) (openingToken closingToken : str) : bool :=
  if ignoreCase then negb (str_eqb (to_lower openingToken) (to_lower closingToken)) else negb (str_eqb openingToken closingToken).

(** The loop of [findCorrespondingCloseToken], src/parser/util.go 30-76.  [s] is the content from index [i] on, [skip] the number
    of characters still to be skipped behind a token (the Go code changes the loop variable), [closeTokenCounter] the counter.
    Tokens are not empty (true for all callers). *)
Fixpoint findClose_go (ignoreCase : bool) (openingToken closingToken s : str) (skip closeTokenCounter i : nat) : option nat :=
  match s with
  | [] => None
  | _ :: s' =>
      match skip with
      | S k => findClose_go ignoreCase openingToken closingToken s' k closeTokenCounter (S i)
      | O =>
          if tokens_differ ignoreCase openingToken closingToken && at_token ignoreCase openingToken s then
            findClose_go ignoreCase openingToken closingToken s' (pred (List.length openingToken)) (S closeTokenCounter) (S i)
          else if at_token ignoreCase closingToken s then
            match closeTokenCounter with
            | O => Some i
            | S n => findClose_go ignoreCase openingToken closingToken s' (pred (List.length closingToken)) n (S i)
            end
          else findClose_go ignoreCase openingToken closingToken s' 0 closeTokenCounter (S i)
      end
  end.

(** [findCorrespondingCloseToken], src/parser/util.go 19-78.  [None] stands for -1. *)
Definition findCorrespondingCloseToken (content : str) (startIndex : nat) (openingToken closingToken : str) (ignoreCase : bool) : option nat :=
  findClose_go ignoreCase openingToken closingToken (skipn startIndex content) 0 0 startIndex.

(** [FindCorrespondingCloseToken], src/parser/util.go 7-9 *)
Definition FindCorrespondingCloseToken (content : str) (startIndex : nat) (openingToken closingToken : str) : option nat :=
  findCorrespondingCloseToken content startIndex openingToken closingToken false.

(** [FindCorrespondingCloseTokenIgnoreCase], src/parser/util.go 13-15 *)
Definition FindCorrespondingCloseTokenIgnoreCase (content : str) (startIndex : nat) (openingToken closingToken : str) : option nat :=
  findCorrespondingCloseToken content startIndex openingToken closingToken true.
