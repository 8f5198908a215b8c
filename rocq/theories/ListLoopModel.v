(** * Model of the loop of parseLists with its index: src/parser/list.go 43-69

    ListModel.v takes the lines one after the other.  Here the loop has its index, and the lines are replaced by new ones while it runs over them. *)

From Coq Require Import Ascii String.
From Coq Require Import List Arith Bool.
From Verif Require Import GoStr TokenModel ListModel.
Import ListNotations.
Local Open Scope list_scope.

Section Recursive.
  Variable tokenizeContent : str -> M str.

  (** The loop, src/parser/list.go 46-65.  [newIndex] is a field of the result of tokenizeList (as a number of lines, see ListModel.v), so [length] is 56. *)
  Fixpoint parseLists_loop (fuel : nat) (lines : list str) (i : nat) : M (list str) :=
    match fuel with
    | O => out_of_fuel
    | S fuel' =>
        if i <? List.length lines then
          match trim_space (nth i lines []) with
          | [] => parseLists_loop fuel' lines (S i)
          | lineStartCharacter :: _ =>
              if isListStartingCharacter lineStartCharacter then
                do! (_, tokenKey, length) := tokenizeList tokenizeContent (S (longest (skipn i lines))) (skipn i lines) lineStartCharacter in
                let newLines := firstn i lines in
                let newLines := newLines ++ [tokenKey] in
                let newLines := if i + length <? List.length lines then newLines ++ skipn (i + length) lines else newLines in
                parseLists_loop fuel' newLines (S i)
              else parseLists_loop fuel' lines (S i)
          end
        else ret lines
    end.

  (** parseLists, src/parser/list.go 43-69 *)
  Definition parseLists_index (content : str) : M str :=
    let lines := split nl content in
    do! lines := parseLists_loop (S (List.length lines)) lines 0 in
    ret (join nl lines).
End Recursive.
