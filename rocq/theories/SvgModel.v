(** * Model of src/image/svg.go *)

From Coq Require Import Ascii String.
From Coq Require Import List Arith Bool.
From Verif Require Import GoStr.
Import ListNotations.
Local Open Scope list_scope.

(** [strings.SplitN(s, sep, 3)] of the Go standard library *)
Definition split3 (sep s : str) : list str :=
  match split2 sep s with
  | [a; b] => a :: split2 sep b
  | l => l
  end.

(** [replaceRelativeSizeByViewboxSize], src/image/svg.go 77-115.  Logging is left out. *)
Definition replaceRelativeSizeByViewboxSize (fileString width height : str) : str :=
  match index (!"viewBox=" ++ dq) fileString with
  | None => fileString
  | Some viewboxIndex =>
      match split3 dq (skipn viewboxIndex fileString) with
      | _ :: viewboxAttributeString :: _ =>
          let values :=
            if contains !"," viewboxAttributeString then Some (split !"," viewboxAttributeString)
            else if contains !" " viewboxAttributeString then Some (split !" " viewboxAttributeString)
            else None in
          match values with
          | Some [_; _; w; h] =>
              let fileString := replace_first (!"width=" ++ dq ++ width ++ dq) (!"width=" ++ dq ++ w ++ !"pt" ++ dq) fileString in
              replace_first (!"height=" ++ dq ++ height ++ dq) (!"height=" ++ dq ++ h ++ !"pt" ++ dq) fileString
          | _ => fileString
          end
      | _ => fileString
      end
  end.

(** [MakeSvgSizeAbsolute], src/image/svg.go 45-75, as function from the old to the new content of the file.  [parse] is
    [parseSimpleSvgAttributes] (117-136): the width and height attribute of the root element as seen by the XML decoder (empty
    if missing), [None] if the file is no XML.  Failing file operations are left out (both end in an error). *)
Definition MakeSvgSizeAbsolute (parse : str -> option (str * str)) (file : str) : res str :=
  match parse file with
  | None => Err
  | Some (width, height) =>
      if negb (has_suffix !"%" width) && has_suffix !"%" height then Ok file
      else Ok (replaceRelativeSizeByViewboxSize file width height)
  end.
