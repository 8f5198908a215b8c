(** * C29-C31: the generated HTML *)

From Coq Require Import Ascii String.
From Coq Require Import List Arith NArith ZArith Bool Lia.
From Verif Require Import GoStr GoStrFacts ConfigModel TokenModel TokenSpec TokenProofs TokenizerModel PassSpec ExpandModel ExpandSpec HtmlModel HtmlSpec
  HtmlProofs HtmlTokenProofs HtmlNestProofs HtmlTotalProofs PropTokens.
Import ListNotations.
Local Open Scope list_scope.

(** ** C29 *)

(** The HTML for a text of plain text, markers and keys is the text in which every marker is replaced by its HTML and every key by the
    expansion of its token; there is no other result.  (Missing: texts with dollar signs and plain text like the name of a marker, see below.) *)
Theorem C29_expanded_partial : forall cfg renderMath m fuel d html, layout_ok d ->
  htmlExpand cfg renderMath m (S fuel) (layout_text d) = Ok html <->
  exists texts, Forall2 (key_text m (fun token h => expandToken (HtmlGenerator cfg renderMath m) fuel token tt = Ok (h, tt))) (map fst (snd d)) texts /\
    html = filled d texts.
Proof. exact expandString_html. Qed.
Print Assumptions C29_expanded_partial.

(** An unknown key is an error, if the tokens before it can be expanded. *)
Theorem C29_unknown : forall cfg renderMath m fuel d keys k keys', layout_ok d ->
  map fst (snd d) = keys ++ k :: keys' -> is_key k -> lookup_token k m = None ->
  Forall (fun k => exists h, key_text m (fun token h => expandToken (HtmlGenerator cfg renderMath m) fuel token tt = Ok (h, tt)) k h) keys ->
  htmlExpand cfg renderMath m (S fuel) (layout_text d) = Err.
Proof. intros. eapply expandString_unknown; eauto. Qed.
Print Assumptions C29_unknown.

(** If every token only uses older tokens, as it is the case for the tokens of the tokenizer (C18), the expansion of every text succeeds. *)
Theorem C29_total : forall cfg renderMath m fuel s, NoDup (map fst m) -> known_map m -> rendered renderMath m ->
  length m < fuel -> known m s -> exists html, htmlExpand cfg renderMath m fuel s = Ok html.
Proof. intros cfg renderMath m fuel s N K R L S. eapply (known_total cfg renderMath m N K R fuel [] m s); eauto. Qed.
Print Assumptions C29_total.

(** ** C31 *)

(** Every piece of text that is in the text, in its tokens, in the tokens of its tokens and so on, is in the HTML, in the same order.  *)
Theorem C31_in_order_partial : forall cfg renderMath m fuel s pieces html, text_pieces m s pieces ->
  htmlExpand cfg renderMath m fuel s = Ok html -> in_order pieces html.
Proof. exact pieces_ordered. Qed.
Print Assumptions C31_in_order_partial.

(** This covers all texts if there is no StringToken.  (Missing: StringTokens, see below, and texts that are no layouts, as in C29.) *)
Theorem C31_all_partial : forall cfg renderMath m fuel s, NoDup (map fst m) -> known_map m -> rendered renderMath m ->
  (forall k text, ~ In (k, StringToken text) m) -> length m < fuel -> known m s ->
  exists pieces html, text_pieces m s pieces /\ htmlExpand cfg renderMath m fuel s = Ok html /\ in_order pieces html.
Proof.
  intros cfg renderMath m fuel s N K R NS L S.
  destruct (known_total cfg renderMath m N K R fuel [] m s) as [html H]; auto.
  destruct (pieces_exist m N K NS fuel [] m s) as [ps P]; auto.
  exists ps, html. split; auto. split; auto. eapply pieces_ordered; eauto.
Qed.
Print Assumptions C31_all_partial.

(** ** C30 *)

(** The file consists of a header, the well-nested content and a footer.  (Missing: texts that are no layouts, as in C29.) *)
Theorem C30_nested_partial : forall cfg renderMath m fuel styleFile title content file,
  (forall f png width height style, renderMath f = Ok (png, width, height, style) -> no_angles width /\ no_angles height /\ no_angles style) ->
  Forall (fun p => proper_token (snd p)) m -> no_angles title -> proper_text content ->
  generateHtml cfg renderMath m fuel styleFile title content = Ok file ->
  exists inner, file = HEADER styleFile ++ inner ++ FOOTER /\ nested Flow inner.
Proof.
  intros cfg renderMath m fuel styleFile title content file R P T C H. unfold generateHtml in H.
  destruct (htmlExpand cfg renderMath m fuel content) as [html| | |] eqn:E; try discriminate. cbn [bind] in H. assert (F : file = HEADER styleFile ++ nl ++ !"<h1>" ++ title ++ !"</h1>" ++ nl ++ html ++ FOOTER) by congruence. clear H.
  exists (nl ++ (!"<h1>" ++ title ++ !"</h1>") ++ nl ++ html). split; [rewrite F; apply f_equal; rewrite <- !app_assoc; reflexivity|].
  apply nested_space. apply nested_app.
  - eapply (wrap Flow Flow !"h1" [] title); [cbn; tauto|apply attributes_none|apply nested_text; auto|reflexivity].
  - apply nested_space. eapply html_nested; eauto.
Qed.
Print Assumptions C30_nested_partial.

(** ** An example with nested tokens *)

Definition no_math (f : str) : res (str * str * str * str) := Ok (!"math/x.png", !"2ex", !"3ex", !"vertical-align: 1ex").
Definition link_key : str := token_key TOKEN_INTERNAL_LINK 0.
Definition math_key : str := token_key TOKEN_MATH 1.
Definition list_key : str := token_key TOKEN_UNORDERED_LIST 2.
Definition table_key : str := token_key TOKEN_TABLE 3.
Definition link_text : layout := (!"b ", [(!"$$MARKER_BOLD_OPEN$$", !"c"); (!"$$MARKER_BOLD_CLOSE$$", [])]).
Definition item_text : layout := (!"d ", [(link_key, !" e ")]).
Definition sub_text : layout := ([], [(math_key, !" f")]).
Definition cell_text : layout := ([], [(list_key, [])]).
Definition caption_text : layout := (!"A_1 ", [(link_key, [])]).
Definition content_text : layout := (!"g ", [(!"$$MARKER_ITALIC_OPEN$$", [])
  ; (!"$$MARKER_BOLD_OPEN$$", !"h"); (!"$$MARKER_BOLD_CLOSE$$", []); (!"$$MARKER_ITALIC_CLOSE$$", !"i"); (!"$$MARKER_PARAGRAPH$$", []); (table_key, !" j")]).
Definition example_map : list (str * Token) :=
  [(table_key, TableToken [[mkTableColToken [!"colspan=2"] !"k" true]; [mkTableColToken [] (layout_text cell_text) false; mkTableColToken [] !"l" false]] (layout_text caption_text));
   (list_key, ListTokenOf (AnyListToken Unordered [mkListItemToken NORMAL_ITEM (layout_text item_text)
      [AnyListToken Description [mkListItemToken DESCRIPTION_HEAD (layout_text sub_text) []]]]));
   (math_key, MathToken !"x<y"); (link_key, InternalLinkToken !"a" (layout_text link_text))].

Lemma plain_check : forall s, forallb (fun c => negb (Ascii.eqb c "$")) s = true ->
  forallb (fun c => negb (Ascii.eqb c "_")) s = true \/ (exists c, In c s /\ ~ capital c) -> plain_text s.
Proof.
  intros s H K. split.
  - intros I. rewrite forallb_forall in H. apply H in I. discriminate.
  - destruct K as [K|K]; auto. left. intros I. rewrite forallb_forall in K. apply K in I. discriminate.
Qed.
Lemma example_key : forall ty n, forallb ParagraphModel.token_char ty = true -> ty <> [] -> is_key (token_key ty n).
Proof. intros ty n H N. exists ty, n. split; auto. split; auto. apply Forall_forall. apply forallb_forall. auto. Qed.

Ltac plain_piece := apply plain_check; [reflexivity|first [left; reflexivity|right; exists "1"%char; split; [cbn; tauto|
  intros [X|X]; [discriminate X|cbn in X; repeat (destruct X as [X|X]; [discriminate X|]); destruct X]]]].
Ltac one_key := first [left; cbn; tauto|right; apply example_key; [reflexivity|discriminate]].
Ltac lay := split; [plain_piece|cbn [snd]; repeat (apply Forall_cons; [split; [one_key|plain_piece]|]); apply Forall_nil].
Ltac known_text d := exists d; split; [lay|split; [reflexivity|repeat (apply Forall_cons; [cbn; tauto|]); apply Forall_nil]].
Ltac clean := apply na_check; reflexivity.
Ltac proper d := exists d; split; [lay|split; [reflexivity|split; [clean|split; [repeat (apply Forall_cons; [clean|]); apply Forall_nil|]]]].

Lemma example_known : known_map example_map /\ known example_map (layout_text content_text).
Proof.
  split; [|known_text content_text].
  apply known_token; [apply known_token; [apply known_token; [apply known_token; [apply known_none|]|]|]|].
  - apply Forall_cons; [known_text link_text|apply Forall_nil].
  - apply Forall_nil.
  - apply Forall_cons; [known_text item_text|apply Forall_cons; [known_text sub_text|apply Forall_nil]].
  - apply Forall_cons; [known_text caption_text|]. apply Forall_cons; [known_text ((!"k", []) : layout)|].
    apply Forall_cons; [known_text cell_text|]. apply Forall_cons; [known_text ((!"l", []) : layout)|apply Forall_nil].
Qed.

Lemma example_proper : Forall (fun p => proper_token (snd p)) example_map /\ proper_text (layout_text content_text).
Proof.
  assert (K : forall ty n, forallb ParagraphModel.token_char ty = true -> ty <> [] -> balanced [token_key ty n]).
  { intros ty n H N. apply balanced_key; [right; apply example_key; auto|apply balanced_none]. }
  split.
  - apply Forall_cons; [|apply Forall_cons; [|apply Forall_cons; [|apply Forall_cons; [|apply Forall_nil]]]].
    + split.
      * apply Forall_cons; [proper caption_text; apply (K TOKEN_INTERNAL_LINK 0); [reflexivity|discriminate]|]. apply Forall_cons; [proper ((!"k", []) : layout); apply balanced_none|].
        apply Forall_cons; [proper cell_text; apply (K TOKEN_UNORDERED_LIST 2); [reflexivity|discriminate]|]. apply Forall_cons; [proper ((!"l", []) : layout); apply balanced_none|apply Forall_nil].
      * repeat (apply Forall_cons; [repeat (apply Forall_cons; [repeat (apply Forall_cons; [clean|]); apply Forall_nil|]); apply Forall_nil|]); apply Forall_nil.
    + split; [|cbn; intuition discriminate].
      apply Forall_cons; [proper item_text; apply (K TOKEN_INTERNAL_LINK 0); [reflexivity|discriminate]|]. apply Forall_cons; [proper sub_text; apply (K TOKEN_MATH 1); [reflexivity|discriminate]|apply Forall_nil].
    + split; [apply Forall_nil|exact I].
    + split; [|exact I]. apply Forall_cons; [proper link_text; apply (balanced_bold [] []); apply balanced_none|apply Forall_nil].
  - proper content_text. apply (balanced_italic [!"$$MARKER_BOLD_OPEN$$"; !"$$MARKER_BOLD_CLOSE$$"] [!"$$MARKER_PARAGRAPH$$"; table_key]).
    + apply (balanced_bold [] []); apply balanced_none.
    + apply balanced_key; [left; reflexivity|]. apply (K TOKEN_TABLE 3); [reflexivity|discriminate].
Qed.

Example C29_C30_C31_example : NoDup (map fst example_map) /\ known_map example_map /\ known example_map (layout_text content_text) /\
  rendered no_math example_map /\ (forall k text, ~ In (k, StringToken text) example_map) /\
  Forall (fun p => proper_token (snd p)) example_map /\ proper_text (layout_text content_text) /\
  exists file, generateHtml default_config no_math example_map 5 !"style.css" !"T" (layout_text content_text) = Ok file /\
    file = HEADER !"style.css" ++ nl ++ !"<h1>T</h1>" ++ nl ++
      !"g <i><b>h</b></i>i<br><br><div class=" ++ dq ++ !"figure" ++ dq ++ !">" ++ nl ++ !"<table>" ++ nl ++
      !"<tr>" ++ nl ++ !"<th colspan=2>" ++ nl ++ !"k" ++ nl ++ !"</th>" ++ nl ++ nl ++ !"</tr>" ++ nl ++
      !"<tr>" ++ nl ++ !"<td>" ++ nl ++ !"<ul>" ++ nl ++ !"<li>" ++ nl ++ !"d b <b>c</b> e " ++ nl ++
      !"<div class=" ++ dq ++ !"description-list" ++ dq ++ !">" ++ nl ++ !"<div class=" ++ dq ++ !"dt" ++ dq ++ !">" ++ nl ++
      !"<img alt=" ++ dq ++ !"image" ++ dq ++ !" src=" ++ dq ++ !"./math/x.png" ++ dq ++ !" style=" ++ dq ++ !"width: 2ex; height: 3ex; vertical-align: 1ex" ++ dq ++ !"> f" ++ nl ++
      !"</div>" ++ nl ++ !"</div>" ++ nl ++ !"</li>" ++ nl ++ !"</ul>" ++ nl ++ !"</td>" ++ nl ++ !"<td>" ++ nl ++ !"l" ++ nl ++ !"</td>" ++ nl ++ !"</tr>" ++ nl ++
      !"</table>" ++ nl ++ !"<div class=" ++ dq ++ !"caption" ++ dq ++ !">" ++ nl ++ !"A_1 b <b>c</b>" ++ nl ++ !"</div>" ++ nl ++ !"</div> j" ++ FOOTER.
Proof.
  split; [|split; [|split; [|split; [|split; [|split; [|split]]]]]]; try apply example_known; try apply example_proper.
  - repeat (apply NoDup_cons; [intros I; cbn [map fst In example_map] in I; repeat (destruct I as [I|I]; [discriminate I|]); destruct I|]). apply NoDup_nil.
  - intros k f _. eexists. reflexivity.
  - intros k text I. cbn [In example_map] in I. repeat (destruct I as [I|I]; [discriminate I|]). destruct I.
  - eexists. split; [vm_compute; reflexivity|]. vm_compute. reflexivity.
Qed.

(** An unknown key behind a known one *)
Example C29_unknown_example : htmlExpand default_config no_math example_map 5 (layout_text (!"a", [(link_key, !"b"); (token_key TOKEN_MATH 7, [])])) = Err.
Proof. reflexivity. Qed.

(** ** Counterexamples *)

(** Text that is the name of a marker, between two links, is mistaken for a marker: the keys are in the HTML instead of the links, and a
    tag is opened that is never closed. *)
Theorem C29_refuted : exists t,
  tokenizeContent default_config 3 !"[[a]]MARKER_BOLD_OPEN[[b]]" NewTokenizer = Ok (link_key ++ !"MARKER_BOLD_OPEN" ++ token_key TOKEN_INTERNAL_LINK 1, t) /\
  htmlExpand default_config no_math (tokenMap t) 3 (link_key ++ !"MARKER_BOLD_OPEN" ++ token_key TOKEN_INTERNAL_LINK 1) =
    Ok !"$$TOKEN_INTERNAL_LINK_0<b>TOKEN_INTERNAL_LINK_1$$".
Proof. eexists. split; [vm_compute; reflexivity|]. vm_compute. reflexivity. Qed.
Print Assumptions C29_refuted.

(** Text with two dollar signs crashes the program if there is a link as well. *)
Theorem C29_refuted_dollars : exists t,
  tokenizeContent default_config 3 !"[[a]] costs 5 $$" NewTokenizer = Ok (link_key ++ !" costs 5 $$", t) /\
  htmlExpand default_config no_math (tokenMap t) 3 (link_key ++ !" costs 5 $$") = Panic.
Proof. eexists. split; [vm_compute; reflexivity|]. vm_compute. reflexivity. Qed.
Print Assumptions C29_refuted_dollars.

(** The text of a link with an unknown protocol is lost. *)
Theorem C31_refuted : exists t,
  tokenizeContent default_config 3 !"x [ftp://y lost] z" NewTokenizer = Ok (!"x " ++ token_key TOKEN_STRING 0 ++ !" z", t) /\
  lookup_token (token_key TOKEN_STRING 0) (tokenMap t) = Some (StringToken !"lost") /\
  htmlExpand default_config no_math (tokenMap t) 3 (!"x " ++ token_key TOKEN_STRING 0 ++ !" z") = Ok !"x  z".
Proof. eexists. split; [vm_compute; reflexivity|]. split; vm_compute; reflexivity. Qed.
Print Assumptions C31_refuted.
