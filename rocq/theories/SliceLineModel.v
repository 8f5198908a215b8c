(** * Model of parseImageMaps (src/parser/image.go) with the memory of its lines

    In ImageModel.v the loop is a recursion over the lines.  In Go the lines are one array: lines are deleted by moving all later lines one place to the front within
    this array, while an index runs over it that has to be corrected. *)

From Coq Require Import Ascii String.
From Coq Require Import List Arith Bool.
From Verif Require Import GoStr UtilModel ConfigModel TokenModel ImageModel SliceModel.
Import ListNotations.
Local Open Scope list_scope.

Section Lines.
Variable cfg : configuration.
Variable room : heap str -> slice -> list str -> list str.

(** lines = append(lines[:i], lines[i+1:]...), src/parser/image.go 164, 180.  append moves memory that overlaps correctly. *)
Definition delete_line (h : heap str) (lines : slice) (i : nat) : heap str * slice :=
  go_append room h (mkSlice (base lines) i) (skipn (S i) (view h lines)).

(** lines[i] = line, src/parser/image.go 185 *)
Definition write_line (h : heap str) (lines : slice) (i : nat) (line : str) : heap str :=
  set_block h (base lines) (overwrite i [line] (block h lines)).

(** The loop, src/parser/image.go 158-190.  [i] is the index at the beginning of a round: behind a deleted line it stays as it is (165).  Reading behind the end is a panic (181). *)
Fixpoint parseImageMaps_mem (fuel : nat) (h : heap str) (lines : slice) (i : nat) (withinImageMap : bool) : M (heap str * slice) :=
  match fuel with
  | O => fun _ => OutOfFuel
  | S fuel' =>
      if i <? len lines then
        match nth_error (view h lines) i with
        | None => panic
        | Some line =>
            if withinImageMap || EqualsIgnoreCase line !"</imagemap>" then
              let (h, lines) := delete_line h lines i in
              parseImageMaps_mem fuel' h lines i (if EqualsIgnoreCase line !"</imagemap>" then false else withinImageMap)
            else
              match remove_start_tag !"<imagemap" line with
              | None => parseImageMaps_mem fuel' h lines (S i) withinImageMap
              | Some l =>
                  match trim_space l with
                  | [] =>
                      let (h, lines) := delete_line h lines i in
                      match nth_error (view h lines) i with
                      | None => panic
                      | Some line =>
                          do! image := escapeImages cfg line in
                          parseImageMaps_mem fuel' (write_line h lines i (!"[[" ++ image ++ !"]]")) lines (S i) true
                      end
                  | line =>
                      do! image := escapeImages cfg line in
                      parseImageMaps_mem fuel' (write_line h lines i (!"[[" ++ image ++ !"]]")) lines (S i) true
                  end
              end
        end
      else ret (h, lines)
  end.

(** [parseImageMaps], src/parser/image.go 153-194: strings.Split makes a new array. *)
Definition image_maps_mem (h : heap str) (content : str) : M str :=
  let (h, lines) := allocate room h (split nl content) in
  do! (h, lines) := parseImageMaps_mem (S (len lines)) h lines 0 false in
  ret (join nl (view h lines)).
End Lines.
