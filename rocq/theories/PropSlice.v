(** * Property C75: memory that is shared or changed in place does not mix up the text *)

From Coq Require Import Ascii String.
From Coq Require Import List Arith Bool.
From Verif Require Import GoStr FormattingModel FormattingSpec FormattingProofs PropFormatting PassSpec PropPasses ConfigModel TokenModel ImageModel ListModel ListLoopModel ListLoopProofs TableModel TableLoopModel TableLoopProofs SliceModel SliceProofs SliceLineModel SliceLineProofs.
Import ListNotations.
Local Open Scope list_scope.

(** However large the arrays are that are made for slices, and whatever is in the unused part of them: The pass with its memory ends, without slicing behind the end of the
    text, with the text that C15 and C16 are about. *)
Theorem C75_memory : forall room more content, parseBoldAndItalic_mem room more content = parseBoldAndItalic content.
Proof. intros room more content. apply parse_mem_agrees. Qed.
Print Assumptions C75_memory.

(** In other words: the result does not depend on the memory, it is the input with markers instead of quotes, and the markers are balanced and properly nested. *)
Theorem C75_nested : forall content, exists l, content = concat (map before l) /\ Forall replaced l /\ nested_markers (markers l) /\
  forall room more, parseBoldAndItalic_mem room more content = Ok (concat (map after l)).
Proof.
  intros content. destruct (parse_spec content) as (l & E & B & R & N). exists l. repeat split; auto. intros room more. rewrite C75_memory. exact E.
Qed.
Print Assumptions C75_nested.

(** A stack that the search goes back to is unchanged, although longer stacks were made from it in the same memory. *)
Theorem C75_back : forall room s after_quote index h stack repair bold italic h' result,
  base stack < length h -> len stack <= length (block h stack) ->
  tokenize_mem room s after_quote index h stack repair bold italic = (h', result) -> view h' stack = view h stack.
Proof.
  intros room s aq i h stack rep bo it h' r P1 P2 E. assert (P : proper h stack) by (split; auto). destruct (tokenize_agrees room (length s) s aq i h stack rep bo it (le_n _) P) as [K _]. rewrite E in K. cbn [fst] in K.
  apply (kept_view _ _ _ _ stack K P). right. apply le_n.
Qed.
Print Assumptions C75_back.

(** Memory is really shared: a second append to the same slice changes the result of the first one, if there is room. *)
Example C75_example_shared : exists h s h1 s1 h2 s2, view h s = !"a" /\ go_append (fun _ _ _ => []) h s !"b" = (h1, s1) /\ view h1 s1 = !"ab" /\
  go_append (fun _ _ _ => []) h1 s !"c" = (h2, s2) /\ view h2 s1 = !"ac".
Proof. exists [!"a..."], (mkSlice 0 1). eexists _, _, _, _. repeat split; reflexivity. Qed.

(** The search goes back here (italic text is tried first), with room for eight more items in each array *)
Example C75_example : parseBoldAndItalic_mem (fun _ _ _ => repeat (mkItem BOLD_OPEN 0 0) 8) (fun _ _ _ => repeat "?"%char 50) !"'''''a''' b'' '''c'''" =
  Ok !"$$MARKER_ITALIC_OPEN$$$$MARKER_BOLD_OPEN$$a$$MARKER_BOLD_CLOSE$$ b$$MARKER_ITALIC_CLOSE$$ $$MARKER_BOLD_OPEN$$c$$MARKER_BOLD_CLOSE$$".
Proof. reflexivity. Qed.
Example C75_example_back : exists h h' stack, view h stack = [mkItem BOLD_OPEN 0 3] /\ length (block h stack) = 6 /\
  tokenize_mem (fun _ _ _ => []) !"''a" false 3 h stack false true false = (h', None) /\ view h' stack = view h stack /\ h' <> h.
Proof.
  exists [mkItem BOLD_OPEN 0 3 :: repeat (mkItem BOLD_OPEN 0 0) 5]. eexists _, (mkSlice 0 1). repeat split; try reflexivity. vm_compute. discriminate.
Qed.

(** The lines of image maps are deleted in place, within the array that the loop runs over: the result (text, images, crash) is that of C58, which takes each line once. *)
Theorem C75_image_maps : forall cfg room h content t, image_maps_mem cfg room h content t = parseImageMaps cfg content t.
Proof. intros cfg room h content t. apply image_maps_agree. Qed.
Print Assumptions C75_image_maps.

Example C75_example_maps : exists t',
  image_maps_mem default_config (fun _ _ _ => [!"?"]) [] (join nl [!"a"; !"<imagemap>"; !"File:b c.jpg|mini|Text"; !"rect 1 2 3 4 [[b]]"; !"</Imagemap>"; !"f"]) NewTokenizer =
  Ok (join nl [!"a"; !"[[File:B_c.jpg|mini|Text]]"; !"f"], t').
Proof. eexists. vm_compute. reflexivity. Qed.
Example C75_example_maps_panic : image_maps_mem default_config (fun _ _ _ => [!"?"]) [] !"<imagemap>" NewTokenizer = Panic.
Proof. reflexivity. Qed.

(** The lines of a list are replaced by one line while the loop runs over the lines with its index: the result (text, tokens, crash) is the one of the pass that takes each line once,
    whatever the recursive calls do. *)
Theorem C75_lists : forall tokenizeContent content t, parseLists_index tokenizeContent content t = parseLists tokenizeContent content t.
Proof. intros tokenizeContent content t. apply index_agrees. Qed.
Print Assumptions C75_lists.

Example C75_example_lists : exists t',
  parseLists_index (fun s => ret s) (join nl [!"a"; !"* b"; !"* c"; !"** d"; !"e"; !""; !"# f"; !"; g"]) NewTokenizer =
  Ok (join nl [!"a"; !"$$TOKEN_UNORDERED_LIST_1$$"; !"e"; !""; !"$$TOKEN_ORDERED_LIST_2$$"; !"$$TOKEN_DESCRIPTION_LIST_3$$"], t').
Proof. eexists. vm_compute. reflexivity. Qed.

(** The same for tables: a nested table moves the index of the loop around it, and the lines of a table are replaced by one line while the outer loop runs over the lines. *)
Theorem C75_tables : forall tokenizeContent content t, parseTables_index tokenizeContent content t = parseTables tokenizeContent content t.
Proof. intros tokenizeContent content t. apply tables_index_agree. Qed.
Print Assumptions C75_tables.

Example C75_example_tables : exists t',
  parseTables_index (fun s => ret s) (join nl [!"a"; !"{|"; !"| b"; !"{|"; !"| c"; !"|}"; !"|}"; !"d"; !":{|"; !"| e"; !"|}"]) NewTokenizer =
  Ok (join nl [!"a"; !"$$TOKEN_TABLE_1$$"; !"d"; !":$$TOKEN_TABLE_2$$"], t').
Proof. eexists. vm_compute. reflexivity. Qed.
