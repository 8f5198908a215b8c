(** * Model of the loops of parseTables and tokenizeTables with their indices: src/parser/table.go 33-92

    TableModel.v takes the lines one after the other.  Here the loops have their indices, a nested table moves the index of the loop around it, and the lines are replaced by new
    ones while the outer loop runs over them. *)

From Coq Require Import Ascii String.
From Coq Require Import List Arith Bool.
From Verif Require Import GoStr TokenModel TableModel.
Import ListNotations.
Local Open Scope list_scope.

Section Recursive.
  Variable tokenizeContent : str -> M str.

  (** The loop of tokenizeTables, src/parser/table.go 69-81: the lines of the table and the index behind the loop *)
  Fixpoint tokenizeTables_loop (fuel : nat) (lines : list str) (i : nat) (tableLines : list str) : M (list str * nat) :=
    match fuel with
    | O => out_of_fuel
    | S fuel' =>
        if i <? List.length lines then
          let line := trim_space (nth i lines []) in
          if has_prefix !"{|" line || has_prefix !":{|" line then
            do! (nestedLines, i) := tokenizeTables_loop fuel' lines (S i) [nth i lines []] in
            do! tableToken := finishTable tokenizeContent nestedLines in
            tokenizeTables_loop fuel' lines (S i) (tableLines ++ [tableToken])
          else if has_prefix !"|}" line then ret (tableLines ++ [nth i lines []], i)
          else tokenizeTables_loop fuel' lines (S i) (tableLines ++ [nth i lines []])
        else ret (tableLines, i)
    end.

  (** tokenizeTables, src/parser/table.go 62-92 *)
  Definition tokenizeTables_index (lines : list str) (i : nat) : M (str * nat) :=
    do! (tableLines, j) := tokenizeTables_loop (List.length lines - i) lines (S i) [nth i lines []] in
    do! tokenKey := finishTable tokenizeContent tableLines in
    ret (tokenKey, j).

  (** The loop of parseTables, src/parser/table.go 36-55 *)
  Fixpoint parseTables_loop (fuel : nat) (lines : list str) (i : nat) : M (list str) :=
    match fuel with
    | O => out_of_fuel
    | S fuel' =>
        if i <? List.length lines then
          match table_start (trim_space (nth i lines [])) with
          | Some listPrefix =>
              do! (token, newIndex) := tokenizeTables_index lines i in
              let length := newIndex - i in
              let newLines := firstn i lines in
              let newLines := newLines ++ [listPrefix ++ token] in
              let newLines := if i + length + 1 <? List.length lines then newLines ++ skipn (i + length + 1) lines else newLines in
              parseTables_loop fuel' newLines (S i)
          | None => parseTables_loop fuel' lines (S i)
          end
        else ret lines
    end.

  (** parseTables, src/parser/table.go 33-59 *)
  Definition parseTables_index (content : str) : M str :=
    let lines := split nl content in
    do! lines := parseTables_loop (S (List.length lines)) lines 0 in
    ret (join nl lines).
End Recursive.
