(** * Model of src/parser/cleaner.go and src/parser/hacks.go *)

From Coq Require Import Ascii String.
From Coq Require Import List Arith ZArith Bool.
From Verif Require Import GoStr UtilModel BracketModel ConfigModel.
Import ListNotations.
Local Open Scope list_scope.

(** ** Comments *)

(** src/parser/cleaner.go 56-61: without trailing newline *)
Definition drop_trailing_newline (s : str) : str :=
  match rev s with
  | c :: r => if Ascii.eqb c nl_char then rev r else s
  | [] => s
  end.

(** The loop of [removeComments], src/parser/cleaner.go 40-65 *)
Fixpoint removeComments_go (splitContent : list str) : list str :=
  match splitContent with
  | [] => []
  | [splitItem] => [splitItem]
  | splitItem :: splitContent' =>
      match split !"<!--" splitItem with
      | nonCommentSegment :: _ :: _ => drop_trailing_newline nonCommentSegment :: removeComments_go splitContent'
      | segments => segments ++ [!"-->"] ++ removeComments_go splitContent'
      end
  end.

(** [removeComments], src/parser/cleaner.go 31-68 *)
Definition removeComments (content : str) : str := join [] (removeComments_go (split !"-->" content)).

(** ** Internal links *)

Section Links.
  Variable cfg : configuration.      (* config.Current *)

  (** src/parser/cleaner.go 87-91, 104-119: some prefix of the link is forbidden *)
  Definition forbidden_prefix (linkPrefix : str) : bool :=
    negb (str_eqb linkPrefix []) &&
    ((negb (mem_str linkPrefix (lists cfg FilePrefixes)) && negb (mem_str linkPrefix (lists cfg AllowedLinkPrefixes))) ||
     mem_str linkPrefix (lists cfg CategoryPrefixes)).

  (** The decision for one link, src/parser/cleaner.go 81-119; [totalLinkContent] is the text between the brackets and
      [next] the character behind the opening brackets *)
  Definition link_unwanted (totalLinkContent : str) (next : ascii) : bool :=
    let allPrefixes := removelast (split !":" totalLinkContent) in
    match allPrefixes with
    | p :: _ => if mem_str (to_lower p) (lists cfg FilePrefixes) then false
                else if Ascii.eqb next ":" then false
                else existsb (fun p => forbidden_prefix (to_lower p)) allPrefixes
    | [] => false
    end.

  (** The loop of [removeUnwantedInternalLinks], src/parser/cleaner.go 75-119.  [s] is the content from index i on, [skip] the
      number of characters still to be removed.  Content before index i is never looked at again. *)
  Fixpoint removeLinks_go (s : str) (skip : nat) : res str :=
    match s with
    | [] => Ok []
    | c :: s' =>
        match skip with
        | S k => removeLinks_go s' k
        | O =>
            if (List.length s <=? 2) then Ok s
            else if has_prefix !"[[" s then
              match FindCorrespondingCloseToken s 2 !"[" !"]" with
              | None => Panic                                 (* content[i+2 : -1] *)
              | Some endIndex =>
                  if link_unwanted (sub s 2 endIndex) (nth 2 s zero) then
                    if (endIndex + 2 <=? List.length s) then removeLinks_go s' (endIndex + 1)
                    else Panic                                (* content[endIndex+2:] *)
                  else let! r := removeLinks_go s' 0 in Ok (c :: r)
              end
            else let! r := removeLinks_go s' 0 in Ok (c :: r)
        end
    end.

  (** [removeUnwantedInternalLinks], src/parser/cleaner.go 73-122 *)
  Definition removeUnwantedInternalLinks (content : str) : res str := removeLinks_go content 0.

  (** ** Templates *)

  (** White space in regular expressions *)
  Definition re_space (c : ascii) : bool := mem_str [c] [[byte 9]; [byte 10]; [byte 12]; [byte 13]; !" "].

  Fixpoint take_while (f : ascii -> bool) (s : str) : str :=
    match s with
    | c :: s' => if f c then c :: take_while f s' else []
    | [] => []
    end.
  Fixpoint drop_while (f : ascii -> bool) (s : str) : str :=
    match s with
    | c :: s' => if f c then drop_while f s' else s
    | [] => []
    end.

  Definition name_char (c : ascii) : bool := negb (Ascii.eqb c nl_char) && negb (Ascii.eqb c "|") && negb (Ascii.eqb c "}").

  (** [templateNameRegex], src/parser/pattern.go 32, matched at the beginning of [s]: two opening braces, white space, and at
      least one character which is no newline, bar or closing brace.  If there is only white space before the next such
      character, the expression matches by giving back white space; the group then consists of white space and is empty after
      trimming (cleaner.go 150). *)
  Definition template_name_at (s : str) : option str :=
    if has_prefix !"{{" s then
      let rest := skipn 2 s in
      match take_while name_char (drop_while re_space rest) with
      | [] => if existsb (fun c => negb (Ascii.eqb c nl_char)) (take_while re_space rest) then Some !" " else None
      | name => Some name
      end
    else None.

  (** FindStringSubmatch: the leftmost match *)
  Fixpoint template_name (s : str) : option str :=
    match template_name_at s with
    | Some n => Some n
    | None => match s with [] => None | _ :: s' => template_name s' end
    end.

  (** The loop of [handleUnwantedAndTrailingTemplates], src/parser/cleaner.go 130-166.  The result is the new content and
      foundTrailingTemplates. *)
  Fixpoint handleTemplates_go (fuel : nat) (content : str) (i : nat) (found : list str) : res (str * list str) :=
    match fuel with
    | O => OutOfFuel
    | S fuel' =>
        if (i + 1 <? List.length content) then
          if has_prefix !"{{" (skipn i content) then
            match FindCorrespondingCloseToken content (i + 2) !"{{" !"}}" with
            | None => handleTemplates_go fuel' content (S i) found
            | Some closedTemplateIndex =>
                let templateText := sub content i (closedTemplateIndex + 2) in
                match template_name templateText with
                | None => handleTemplates_go fuel' content (S i) found
                | Some n =>
                    let templateName := trim_space (to_lower n) in
                    if HasAnyPrefix templateName (map to_lower (lists cfg IgnoredTemplates)) ||
                       HasAnyPrefix templateName (map to_lower (lists cfg TrailingTemplates)) then
                      handleTemplates_go fuel' (replace_first templateText [] content) i
                        (if mem_str templateName (map to_lower (lists cfg TrailingTemplates)) then found ++ [templateName] else found)
                    else handleTemplates_go fuel' content (S i) found
                end
            end
          else handleTemplates_go fuel' content (S i) found
        else Ok (content, found)
    end.

  (** [handleUnwantedAndTrailingTemplates], src/parser/cleaner.go 124-173.  Every round moves on or shortens the content, so
      the number of rounds is at most the length of the content. *)
  Definition handleUnwantedAndTrailingTemplates (content : str) : res str :=
    let! (content, found) := handleTemplates_go (S (List.length content)) content 0 [] in
    Ok (content ++ concat (map (fun t => nl ++ !"{{" ++ t ++ !"}}") found)).
End Links.

(** [removeUnwantedWikitext], src/parser/cleaner.go 179-181 *)
Definition removeUnwantedWikitext (content : str) : str := replace_all !"__NOTOC__" [] content.

(** ** Lists *)

(** [isListBeginning], src/parser/cleaner.go 211-213 *)
Definition isListBeginning (c : ascii) : bool :=
  Ascii.eqb c "*" || Ascii.eqb c "#" || Ascii.eqb c ";" || Ascii.eqb c ":".

(** The body of the loop of [removeEmptyListEntries], src/parser/cleaner.go 186-205: the line to keep, if any.  List characters
    are single bytes, so counting them among the runes is counting them among the bytes. *)
Definition keepListLine (line : str) : option str :=
  let line := trim_space line in
  match line with
  | [] => Some line
  | c :: _ =>
      if negb (isListBeginning c) then Some line
      else if (List.length (filter isListBeginning line) =? List.length line) then None else Some line
  end.

Fixpoint filter_map {A C} (f : A -> option C) (l : list A) : list C :=
  match l with
  | [] => []
  | a :: l' => match f a with Some c => c :: filter_map f l' | None => filter_map f l' end
  end.

(** [removeEmptyListEntries], src/parser/cleaner.go 183-209 *)
Definition removeEmptyListEntries (content : str) : str := join nl (filter_map keepListLine (split nl content)).

(** ** Sections *)

Definition semiHeadingDepth : nat := 10.

(** The loop of [headingDepth], src/parser/cleaner.go 309-318, over the line and its reverse.  The characters are only compared
    with each other and with the equal sign, so bytes can be used instead of runes. *)
Fixpoint headingDepth_go (line rline : str) (headingDepthCounter : nat) : nat :=
  match line, rline with
  | c :: line', r :: rline' =>
      if negb (Ascii.eqb c "=") && negb (Ascii.eqb r "=") then headingDepthCounter
      else if negb (Ascii.eqb c r) then 0
      else headingDepth_go line' rline' (S headingDepthCounter)
  | _, _ => headingDepthCounter
  end.

(** [headingDepth], src/parser/cleaner.go 296-321 *)
Definition headingDepth (line : str) : nat :=
  if negb (has_prefix !"=" line) || negb (has_suffix !"=" line) then
    if has_prefix !"'''" line && has_suffix !"'''" line then semiHeadingDepth else 0
  else headingDepth_go line (rev line) 0.

(** [walkSection], src/parser/cleaner.go 267-292, on the lines from index i on: the number of lines walked over and whether
    the section is empty *)
Fixpoint walkSection (lines : list str) (previousHeadingDepth : nat) (sectionIsEmpty : bool) : nat * bool :=
  match lines with
  | [] => (0, sectionIsEmpty)
  | l :: lines' =>
      let line := trim_space l in
      let depth := headingDepth line in
      if (0 <? depth) then
        (0, if (previousHeadingDepth <? depth) then false else sectionIsEmpty)
      else
        let (n, e) := walkSection lines' previousHeadingDepth (sectionIsEmpty && (List.length line =? 0)) in (S n, e)
  end.

(** The loop of [removeEmptySections], src/parser/cleaner.go 219-260, on the lines from index i on; [skip] is the number of
    lines still to be jumped over.  An empty section of n lines behind its heading is jumped over; if it ends at a line that is
    a heading only after trimming, that line is jumped over as well (255-257). *)
Fixpoint removeSections_go (lines : list str) (skip : nat) : list str :=
  match lines with
  | [] => []
  | line :: lines' =>
      match skip with
      | S k => removeSections_go lines' k
      | O =>
          let currentHeadingDepth := headingDepth line in
          if (0 <? currentHeadingDepth) then
            match lines' with
            | [] => if (currentHeadingDepth =? semiHeadingDepth) then [line] else []
            | _ :: _ =>
                let (n, sectionIsEmpty) := walkSection lines' currentHeadingDepth true in
                if sectionIsEmpty then
                  match skipn n lines' with
                  | l :: _ => removeSections_go lines' (if (0 <? headingDepth l) then n else S n)
                  | [] => []
                  end
                else line :: removeSections_go lines' 0
            end
          else line :: removeSections_go lines' 0
      end
  end.

(** [removeEmptySections], src/parser/cleaner.go 215-263 *)
Definition removeEmptySections (content : str) : str := join nl (removeSections_go (split nl content) 0).

(** ** Railway templates *)

Definition bs_start : str := !"{{BS-table}}".

(** [hackGermanRailwayTemplates], src/parser/hacks.go 16-57.  Every call and every round consume at least one character
    behind the index, so the fuel of [clean] below is enough (see [hack_fuel] in CleanerTemplateProofs). *)
Fixpoint hackGermanRailwayTemplates (fuel : nat) (content : str) (i : nat) : res str :=
  match fuel with
  | O => OutOfFuel
  | S fuel' =>
      if (i + List.length bs_start <? List.length content) then
        if has_prefix bs_start (skipn i content) then
          let! content := hackGermanRailwayTemplates fuel' content (i + List.length bs_start) in
          match FindCorrespondingCloseToken content (i + List.length bs_start) bs_start !"|}" with
          | None => Err
          | Some endIndex =>
              let content := firstn endIndex content ++ skipn (endIndex + 2) content in
              let content := firstn i content ++ skipn (i + List.length bs_start) content in
              hackGermanRailwayTemplates fuel' content (S i)
          end
        else hackGermanRailwayTemplates fuel' content (S i)
      else Ok content
  end.

(** [clean], src/parser/cleaner.go 11-29 *)
Definition clean (cfg : configuration) (content : str) : res str :=
  let content := removeComments content in
  let! content := removeUnwantedInternalLinks cfg content in
  let! content := handleUnwantedAndTrailingTemplates cfg content in
  let content := removeUnwantedWikitext content in
  let content := removeEmptyListEntries content in
  let content := removeEmptySections content in
  hackGermanRailwayTemplates (S (List.length content)) content 0.
