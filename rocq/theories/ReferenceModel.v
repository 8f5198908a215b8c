(** * Model of src/parser/reference.go *)

From Coq Require Import Ascii String.
From Coq Require Import List Arith Bool.
From Verif Require Import GoStr UtilModel BracketModel TokenModel TableModel.
Import ListNotations.
Local Open Scope list_scope.

(** src/parser/reference.go 22 *)
Definition defaultReferenceGroup : str := !"__wiki2book_ungrouped_references_group__".

(** [getAttribute], src/parser/reference.go 249-276.  Simplification: invalid UTF-8 in a value without quotation marks is kept. *)
Fixpoint quoted_value (attributeName : str) (parts : list str) : res str :=
  match parts with
  | [] => Ok []
  | part :: parts' =>
      if has_suffix (!" " ++ attributeName ++ !"=") part then
        match parts' with
        | value :: _ => Ok value
        | [] => Panic
        end
      else quoted_value attributeName parts'
  end.
Fixpoint unquoted_value (s : str) : str :=
  match s with
  | [] => []
  | letter :: s' => if Ascii.eqb letter "/" || Ascii.eqb letter " " || Ascii.eqb letter ">" then [] else letter :: unquoted_value s'
  end.
Definition getAttribute (content attributeName : str) : res str :=
  if contains (!" " ++ attributeName ++ !"=" ++ dq) content then quoted_value attributeName (split dq content)
  else if contains (!" " ++ attributeName ++ !"=") content then
    match split2 (!" " ++ attributeName ++ !"=") content with
    | _ :: value :: _ => Ok (unquoted_value value)
    | _ => Panic
    end
  else Ok [].

(** [getNameAttribute], src/parser/reference.go 234-236 *)
Definition getNameAttribute (content : str) : res str := getAttribute content !"name".

(** [getGroupOrDefault], src/parser/reference.go 238-244 *)
Definition getGroupOrDefault (content : str) : res str :=
  let! groupAttributeValue := getAttribute content !"group" in
  Ok (if negb (str_eqb groupAttributeValue []) then groupAttributeValue else defaultReferenceGroup).

(** The three maps of [parseReferences] for one group, src/parser/reference.go 49-51; numbers are in no particular order *)
Record group := mkGroup { refNumberToContent : list (nat * str); nameToRefNumber : list (str * nat); refNumberCounter : nat }.
Definition groups := str -> group.
Definition set_group (gs : groups) (name : str) (g : group) : groups := fun n => if str_eqb n name then g else gs n.
Fixpoint get_number (name : str) (l : list (str * nat)) : option nat :=
  match l with
  | [] => None
  | (n, i) :: l' => if str_eqb name n then Some i else get_number name l'
  end.
Fixpoint get_content (i : nat) (l : list (nat * str)) : option str :=
  match l with
  | [] => None
  | (j, c) :: l' => if i =? j then Some c else get_content i l'
  end.

(** The white space of regular expressions *)
Definition regex_space (c : ascii) : bool :=
  existsb (Ascii.eqb c) [" "%char; "009"%char; "010"%char; "012"%char; "013"%char].
Fixpoint space_then_close (s : str) : bool :=
  match s with
  | [] => false
  | c :: s' => Ascii.eqb c ">" || (regex_space c && space_then_close s')
  end.
(** The rest of referencePlaceholderShortRegex and of referencePlaceholderStartRegex behind the name of the tag *)
Fixpoint short_rest (s : str) : bool :=
  match s with
  | [] => false
  | c :: s' => (Ascii.eqb c "/" && space_then_close s') || (negb (Ascii.eqb c nl_char) && short_rest s')
  end.
Fixpoint start_rest (s : str) : bool :=
  match s with
  | [] => false
  | c :: s' => space_then_close s || (negb (Ascii.eqb c nl_char) && start_rest s')
  end.
(** MatchString for a regular expression that begins with a text and ignores the case.  Simplification: case folding of ASCII
    letters only. *)
Fixpoint tag_match (tag : str) (rest : str -> bool) (s : str) : bool :=
  match s with
  | [] => false
  | _ :: s' => (HasPrefixIgnoreCase s tag && rest (skipn (List.length tag) s)) || tag_match tag rest s'
  end.
(** src/parser/pattern.go 57-59 *)
Definition is_placeholder_short : str -> bool := tag_match !"<references" short_rest.
Definition is_placeholder_start : str -> bool := tag_match !"<references" start_rest.
Definition is_placeholder_end : str -> bool := tag_match !"</references" space_then_close.

(** strings.TrimRight with newlines *)
Fixpoint drop_newlines (s : str) : str :=
  match s with
  | c :: s' => if Ascii.eqb c nl_char then drop_newlines s' else s
  | [] => []
  end.
Definition trim_newlines (s : str) : str := rev (drop_newlines (rev s)).

(** The loop of [parseReferenceEndPlaceholder], src/parser/reference.go 146-160: the keys with newlines.  The entries are deleted
    afterwards; every number is smaller than the counter, so nothing is left (see [filter_small] in ReferenceProofs.v). *)
Fixpoint definitions (numbers : list nat) (contents : list (nat * str)) : M str :=
  match numbers with
  | [] => ret []
  | refNumber :: numbers' =>
      match get_content refNumber contents with
      | None => definitions numbers' contents
      | Some content =>
          do! tokenKey := getToken TOKEN_REF_DEF in
          do! _ := setRawToken tokenKey (RefDefinitionToken refNumber content) in
          do! r := definitions numbers' contents in
          ret (tokenKey ++ nl ++ r)
      end
  end.

(** [parseReferenceEndPlaceholder], src/parser/reference.go 139-164: the content, and what is left in the map *)
Definition parseReferenceEndPlaceholder (content : str) (i startEndIndex : nat) (g : group) : M (str * group) :=
  let contentBefore := trim_newlines (firstn i content) ++ nl in
  let contentAfter := skipn (S startEndIndex) content in
  do! keys := definitions (seq 0 (refNumberCounter g)) (refNumberToContent g) in
  ret (trim_newlines (contentBefore ++ keys) ++ contentAfter,
       mkGroup (filter (fun p => refNumberCounter g <=? fst p) (refNumberToContent g)) (nameToRefNumber g) (refNumberCounter g)).

(** [parseNamedReferenceUsage], src/parser/reference.go 170-194 *)
Definition parseNamedReferenceUsage (content : str) (i : nat) (name : str) (g : group) (within : bool) (startEndIndex : nat) : M (str * group) :=
  if negb (str_eqb name []) then
    let '(refNumber, g) :=
      match get_number name (nameToRefNumber g) with
      | Some n => (n, g)
      | None => (refNumberCounter g, mkGroup (refNumberToContent g) ((name, refNumberCounter g) :: nameToRefNumber g) (S (refNumberCounter g)))
      end in
    do! key :=
      if negb within then
        do! tokenKey := getToken TOKEN_REF_USAGE in
        do! _ := setRawToken tokenKey (RefUsageToken refNumber) in
        ret tokenKey
      else ret [] in
    ret (firstn i content ++ key ++ skipn (S startEndIndex) content, g)
  else ret (content, g).

Section Recursive.
Variable tokenizeContent : str -> M str.

(** [parseReferenceDefinition], src/parser/reference.go 201-232 *)
Definition parseReferenceDefinition (content : str) (i startEndIndex refEndIndex : nat) (g : group) (name : str) (within : bool) : M (str * group) :=
  let refNumber :=
    if negb (str_eqb name []) then match get_number name (nameToRefNumber g) with Some n => n | None => refNumberCounter g end
    else refNumberCounter g in
  let names :=
    if negb (str_eqb name []) then
      match get_number name (nameToRefNumber g) with Some _ => nameToRefNumber g | None => (name, refNumberCounter g) :: nameToRefNumber g end
    else nameToRefNumber g in
  do! text := tokenizeContent (sub content (S startEndIndex) refEndIndex) in
  do! key :=
    if negb within then
      do! tokenKey := getToken TOKEN_REF_USAGE in
      do! _ := setRawToken tokenKey (RefUsageToken refNumber) in
      ret tokenKey
    else ret [] in
  ret (firstn i content ++ key ++ skipn (refEndIndex + 6) content,
       mkGroup ((refNumber, text) :: refNumberToContent g) names
               (if refNumber =? refNumberCounter g then S (refNumberCounter g) else refNumberCounter g)).

(** src/parser/reference.go 60-65: the index of the next tag *)
Definition at_reference_tag (s : str) : bool :=
  (4 <? List.length s) && (EqualsIgnoreCase (firstn 4 s) !"<ref" || EqualsIgnoreCase (firstn 4 s) !"</re").
Fixpoint next_tag (s : str) : option nat :=
  match s with
  | [] => None
  | _ :: s' => if at_reference_tag s then Some 0 else option_map S (next_tag s')
  end.

(** One round of the loop of [parseReferences] at a tag, src/parser/reference.go 67-129.  The state is the content, the groups and the
    group of the current placeholder (None: not within a placeholder).  A missing end of the tag or of the reference panics in
    the slices up to index -1 behind the log output. *)
Definition parseReferenceTag (content : str) (i : nat) (gs : groups) (within : option str) : M (str * groups * option str) :=
  match FindCorrespondingCloseTokenIgnoreCase content (i + 4) !"<ref" !">" with
  | None => panic
  | Some startEndIndex =>
      let tag := sub content i (S startEndIndex) in
      if is_placeholder_end tag || is_placeholder_short tag then
        do! name := match within with Some name => ret name | None => lift (getGroupOrDefault (sub content i startEndIndex)) end in
        do! (content, g) := parseReferenceEndPlaceholder content i startEndIndex (gs name) in
        ret (content, set_group gs name g, None)
      else if is_placeholder_start tag then
        do! name := lift (getGroupOrDefault (sub content i startEndIndex)) in
        ret (firstn i content ++ skipn (S startEndIndex) content, gs, Some name)
      else
        do! nameAttributeValue := lift (getNameAttribute (sub content (i + 4) startEndIndex)) in
        do! groupName := lift (getGroupOrDefault (sub content (i + 4) startEndIndex)) in
        let inside := match within with Some _ => true | None => false end in
        do! (content, g) :=
          if has_prefix !"/" (skipn (pred startEndIndex) content) then
            parseNamedReferenceUsage content i nameAttributeValue (gs groupName) inside startEndIndex
          else
            match FindCorrespondingCloseTokenIgnoreCase content startEndIndex !"<ref" !"</ref>" with
            | None => panic
            | Some refEndIndex => parseReferenceDefinition content i startEndIndex refEndIndex (gs groupName) nameAttributeValue inside
            end in
        ret (content, set_group gs groupName g, within)
  end.

(** The loop of [parseReferences], src/parser/reference.go 60-130.  The rounds at characters without a tag do nothing and are skipped.
    Every round at a tag consumes a less-than sign, so the fuel is enough (see [parseReferences_go_ends] in EndProofs). *)
Fixpoint parseReferences_go (fuel : nat) (content : str) (i : nat) (gs : groups) (within : option str) : M str :=
  match next_tag (skipn i content) with
  | None => ret content
  | Some d =>
      match fuel with
      | O => out_of_fuel
      | S fuel' =>
          do! (content, gs, within) := parseReferenceTag content (i + d) gs within in
          parseReferences_go fuel' content (S (i + d)) gs within
      end
  end.

(** [parseReferences], src/parser/reference.go 24-133 *)
Definition parseReferences (content : str) : M str :=
  parseReferences_go (List.length (filter (Ascii.eqb "<") content)) content 0 (fun _ => mkGroup [] [] 0) None.
End Recursive.
