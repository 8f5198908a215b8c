(** * Properties of bold and italic text and of paragraphs: C15, C16 and C27 *)

From Coq Require Import Ascii String.
From Coq Require Import List Arith Bool Lia.
From Verif Require Import GoStr GoStrFacts FormattingModel FormattingSpec FormattingProofs ParagraphModel ParagraphSpec ParagraphProofs.
Import ListNotations.
Local Open Scope list_scope.

(** C15: For every text, the pass ends (without error, panic or running forever) with a text that is the input with markers in
    it, and the markers are balanced and properly nested. *)
Theorem C15_nested : forall content, exists l, parseBoldAndItalic content = Ok (concat (map after l)) /\
  content = concat (map before l) /\ nested_markers (markers l).
Proof. intros content. destruct (parse_spec content) as (l & E & B & _ & N). exists l. auto. Qed.
Print Assumptions C15_nested.

(** C16: The pass only replaces quotes by markers: the text is a sequence of characters that are kept and of markers that stand
    for the quotes of their style or for nothing. *)
Theorem C16_replaced : forall content, exists l, parseBoldAndItalic content = Ok (concat (map after l)) /\
  content = concat (map before l) /\ Forall replaced l.
Proof. intros content. destruct (parse_spec content) as (l & E & B & R & _). exists l. auto. Qed.
Print Assumptions C16_replaced.

(** ... in the words of the claim: the result without the markers and the apostrophes is the input without apostrophes. *)
Definition no_apostrophes (s : str) : str := filter (fun c => negb (Ascii.eqb c "'")) s.
Definition no_markers (l : list part) : str := flat_map (fun p => match p with Text c => [c] | Mark _ _ => [] end) l.
Theorem C16_text : forall content, exists l, parseBoldAndItalic content = Ok (concat (map after l)) /\
  no_apostrophes (no_markers l) = no_apostrophes content.
Proof.
  intros content. destruct (parse_spec content) as (l & E & B & R & _). exists l. split; [exact E|]. subst content. clear E.
  unfold no_apostrophes. induction R as [|p l Rp R IH]; [reflexivity|].
  cbn [map concat]. rewrite filter_app, <- IH. destruct p as [c|m q].
  - change (no_markers (Text c :: l)) with ([c] ++ no_markers l). rewrite filter_app. reflexivity.
  - change (no_markers (Mark m q :: l)) with (no_markers l). cbn [replaced] in Rp. destruct Rp as [->| ->]; [reflexivity|].
    destruct (style_of m); reflexivity.
Qed.
Print Assumptions C16_text.

(** What is formatted: If the quotes of a text are separated by other characters and everything is closed at the end, then each
    pair of quotes begins or ends its style; styles that overlap are closed and opened again. *)
Theorem C15_separated : forall s x, proper_separated false s -> formatted [] s = (x, []) ->
  parseBoldAndItalic (separated_text s) = Ok x.
Proof. exact parse_separated. Qed.
Print Assumptions C15_separated.

Example C15_example : parseBoldAndItalic !"a ''b '''c''' d'' e" =
  Ok !"a $$MARKER_ITALIC_OPEN$$b $$MARKER_BOLD_OPEN$$c$$MARKER_BOLD_CLOSE$$ d$$MARKER_ITALIC_CLOSE$$ e".
Proof.
  apply (C15_separated (Word !"a " Italic (Word !"b " Bold (Word !"c" Bold (Word !" d" Italic (Last !" e")))))); [|reflexivity].
  cbn [proper_separated]; repeat split; try (intros _; discriminate); try discriminate; apply plain_intro; try reflexivity; discriminate.
Qed.
(** Single apostrophes are text. *)
Example C15_example_apostrophe : parseBoldAndItalic !"It's ''Ohm's law'' isn't it" =
  Ok !"It's $$MARKER_ITALIC_OPEN$$Ohm's law$$MARKER_ITALIC_CLOSE$$ isn't it".
Proof.
  apply (C15_separated (Word !"It's " Italic (Word !"Ohm's law" Italic (Last !" isn't it")))); [|reflexivity].
  cbn [proper_separated]; repeat split; try (intros _; discriminate); try discriminate; apply plain_intro; try reflexivity; discriminate.
Qed.
(** Overlapping styles *)
Example C15_example_overlapping : parseBoldAndItalic !"''b '''c'' d'''" =
  Ok !"$$MARKER_ITALIC_OPEN$$b $$MARKER_BOLD_OPEN$$c$$MARKER_BOLD_CLOSE$$$$MARKER_ITALIC_CLOSE$$$$MARKER_BOLD_OPEN$$ d$$MARKER_BOLD_CLOSE$$".
Proof.
  apply (C15_separated (Word [] Italic (Word !"b " Bold (Word !"c" Italic (Word !" d" Bold (Last [])))))); [|reflexivity].
  cbn [proper_separated]; repeat split; try (intros _; discriminate); try discriminate; apply plain_intro; try reflexivity; discriminate.
Qed.
(** Adjacent quotes and text that cannot be formatted *)
Example C15_example_adjacent : parseBoldAndItalic !"'''''a''' b'' c" =
  Ok !"$$MARKER_ITALIC_OPEN$$$$MARKER_BOLD_OPEN$$a$$MARKER_BOLD_CLOSE$$ b$$MARKER_ITALIC_CLOSE$$ c".
Proof. vm_compute. reflexivity. Qed.
Example C15_example_unclosed : parseBoldAndItalic !"a ''b" = Ok !"a ''b".
Proof. vm_compute. reflexivity. Qed.

(** C27: For every text, the result consists of the non-blank lines of the text, in order, and of a marker where blank lines are
    between two lines that are not block elements. *)
Theorem C27_paragraphs : forall content, exists result,
  parseParagraphs content = join nl result /\ paragraphs None (split nl content) result.
Proof. exact paragraphs_spec. Qed.
Print Assumptions C27_paragraphs.

(** The specification determines the result. *)
Theorem C27_determined : forall previous lines r1 r2, paragraphs previous lines r1 -> paragraphs previous lines r2 -> r1 = r2.
Proof. intros previous lines r1 r2 H1 H2. exact (paragraphs_det _ _ _ H1 _ H2). Qed.
Print Assumptions C27_determined.

(** Every line other than blank lines and markers is kept, in order. *)
Theorem C27_kept : forall content, exists result, parseParagraphs content = join nl result /\
  Forall (fun line => line <> []) result /\
  forall f : str -> bool, f [] = false -> f paragraph_marker = false -> filter f result = filter f (split nl content).
Proof.
  intros content. destruct (paragraphs_spec content) as (r & E & P). exists r. split; [exact E|]. split.
  - exact (paragraphs_nonblank _ _ _ P).
  - intros f F1 F2. exact (paragraphs_keep f _ _ _ F1 F2 P).
Qed.
Print Assumptions C27_kept.

(** Parsing the result again, as the tokenizer does until nothing changes, changes nothing. *)
Theorem C27_again : forall content, parseParagraphs (parseParagraphs content) = parseParagraphs content.
Proof. exact parseParagraphs_twice. Qed.
Print Assumptions C27_again.

Example C27_example : parseParagraphs (join nl [[]; !"a"; !"b"; []; []; !"c"; []; !"$$TOKEN_LIST_UNORDERED_12$$"; []; !"d"; []; []]) =
  join nl [!"a"; !"b"; !"$$MARKER_PARAGRAPH$$"; !"c"; !"$$TOKEN_LIST_UNORDERED_12$$"; !"d"].
Proof. vm_compute. reflexivity. Qed.
(** Text behind a token on the same line: not a block element *)
Example C27_example_inline : parseParagraphs (join nl [!"a"; []; !"$$TOKEN_IMAGE_1$$ b"]) =
  join nl [!"a"; !"$$MARKER_PARAGRAPH$$"; !"$$TOKEN_IMAGE_1$$ b"].
Proof. vm_compute. reflexivity. Qed.
