(** * C62: every element of an article is shown in the HTML with all its data *)

From Coq Require Import Ascii String.
From Coq Require Import List Arith ZArith Bool Lia.
From Verif Require Import GoStr ConfigModel TokenModel TokenSpec PassSpec ExpandModel ExpandSpec HtmlModel HtmlSpec HtmlTotalProofs ImageSpec ShowSpec ShowProofs PropTokens PropHtml.
Import ListNotations.
Local Open Scope list_scope.

(** The HTML of a text is the text with the elements for its markers and tokens. *)
Theorem C62_shown : forall cfg renderMath m fuel s html,
  (forall k text, ~ In (k, StringToken text) m) -> (forall k token, In (k, token) m -> Forall laid_out (texts token)) -> laid_out s ->
  htmlExpand cfg renderMath m fuel s = Ok html ->
  text_shown cfg (fun formula r => renderMath formula = Ok r) m s html.
Proof. intros cfg renderMath m fuel s html N L Ls H. eapply all_shown; eauto. Qed.

(** The file of an article *)
Theorem C62_file : forall cfg renderMath m fuel style title s file,
  (forall k text, ~ In (k, StringToken text) m) -> (forall k token, In (k, token) m -> Forall laid_out (texts token)) -> laid_out s ->
  generateHtml cfg renderMath m fuel style title s = Ok file ->
  exists html, file = page style title html /\ text_shown cfg (fun formula r => renderMath formula = Ok r) m s html.
Proof.
  intros cfg renderMath m fuel style title s file N L Ls H. unfold generateHtml in H. destruct (htmlExpand cfg renderMath m fuel s) as [html| | |] eqn:E; try discriminate.
  exists html. split; [|eapply C62_shown; eauto]. injection H as <-. apply page_shown.
Qed.

(** There is such a file if all keys are known and all formulas can be rendered. *)
Lemma known_laid_out : forall m s, known m s -> laid_out s.
Proof. intros m s (d & O & -> & _). exists d. auto. Qed.

Lemma known_map_laid_out : forall m, known_map m -> forall k token, In (k, token) m -> Forall laid_out (texts token).
Proof.
  intros m K. induction K as [|k v m K IH F]; intros k' t I; [destruct I|]. destruct I as [I|I]; [|eauto]. injection I as <- <-.
  eapply Forall_impl; [|exact F]. intros s. apply known_laid_out.
Qed.

Theorem C62_written : forall cfg renderMath m style title s,
  NoDup (map fst m) -> known_map m -> known m s -> rendered renderMath m -> (forall k text, ~ In (k, StringToken text) m) ->
  exists fuel file html, generateHtml cfg renderMath m fuel style title s = Ok file /\ file = page style title html /\
    text_shown cfg (fun formula r => renderMath formula = Ok r) m s html.
Proof.
  intros cfg renderMath m style title s U K Ks R N.
  destruct (known_total cfg renderMath m U K R (S (length m)) [] m s) as [html E]; auto.
  exists (S (length m)), (HEADER style ++ nl ++ !"<h1>" ++ title ++ !"</h1>" ++ nl ++ html ++ FOOTER), html. split; [|split].
  - unfold generateHtml. rewrite E. reflexivity.
  - apply page_shown.
  - eapply C62_shown; eauto; [apply known_map_laid_out; auto|eapply known_laid_out; eauto].
Qed.

(** A token without an element in the HTML: a StringToken is not shown at all.  (The parser never makes one.) *)
Theorem C62_string_refuted : exists cfg renderMath m s, known_map m /\ known m s /\ htmlExpand cfg renderMath m 3 s = Ok [] /\ s = token_key TOKEN_NOWIKI 0 /\ m = [(s, StringToken !"a")].
Proof.
  exists default_config, no_math, [(token_key TOKEN_NOWIKI 0, StringToken !"a")], (token_key TOKEN_NOWIKI 0). split; [|split; [|split; [vm_compute; reflexivity|auto]]].
  - apply known_token; [apply known_none|]. apply Forall_cons; [known_text ((!"a", []) : layout)|apply Forall_nil].
  - pose (d := (([], [(token_key TOKEN_NOWIKI 0, [])]) : layout)). known_text d.
Qed.

(** ** Example *)

Definition image_key : str := token_key TOKEN_IMAGE 0.
Definition note_key : str := token_key TOKEN_REF_DEF 1.
Definition icon_key : str := token_key TOKEN_IMAGE_INLINE 2.
Definition icon_text : layout := (!"the ", [(icon_key, !" icon")]).
Definition note_text : layout := (!"see ", [(image_key, [])]).
Definition picture_map : list (str * Token) :=
  [(note_key, RefDefinitionToken 6 (layout_text note_text)); (image_key, ImageToken !"A&B.svg" (layout_text icon_text) (-1) 20); (icon_key, InlineImageToken !"C.png" 10 (-1))].
Definition picture_text : layout := (!"a", [(note_key, !"b")]).

Example C62_example : NoDup (map fst picture_map) /\ known_map picture_map /\ known picture_map (layout_text picture_text) /\ rendered no_math picture_map /\
  (forall k text, ~ In (k, StringToken text) picture_map) /\
  htmlExpand default_config no_math picture_map 4 (layout_text picture_text) = Ok
    (!"a[7] see <div class=" ++ dq ++ !"figure" ++ dq ++ !">" ++ nl ++
     !"<img alt=" ++ dq ++ !"image" ++ dq ++ !" src=" ++ dq ++ !"./images/A%26B.svg.png" ++ dq ++ !" style=" ++ dq ++ !"vertical-align: middle; width: auto; height: 20px;" ++ dq ++ !">" ++ nl ++
     !"<div class=" ++ dq ++ !"caption" ++ dq ++ !">" ++ nl ++ !"the <img alt=" ++ dq ++ !"image" ++ dq ++ !" class=" ++ dq ++ !"inline" ++ dq ++ !" src=" ++ dq ++ !"./images/C.png" ++ dq ++
     !" style=" ++ dq ++ !"vertical-align: middle; width: 10px; height: auto;" ++ dq ++ !"> icon" ++ nl ++ !"</div>" ++ nl ++ !"</div><br>b").
Proof.
  split; [|split; [|split; [|split; [|split]]]].
  - repeat (apply NoDup_cons; [intros I; cbn [map fst In picture_map] in I; repeat (destruct I as [I|I]; [discriminate I|]); destruct I|]). apply NoDup_nil.
  - apply known_token; [apply known_token; [apply known_token; [apply known_none|]|]|].
    + apply Forall_nil.
    + apply Forall_cons; [known_text icon_text|apply Forall_nil].
    + apply Forall_cons; [known_text note_text|apply Forall_nil].
  - known_text picture_text.
  - intros k f _. eexists. reflexivity.
  - intros k text I. cbn [In picture_map] in I. repeat (destruct I as [I|I]; [discriminate I|]). destruct I.
  - vm_compute. reflexivity.
Qed.

Print Assumptions C62_shown.
Print Assumptions C62_file.
Print Assumptions C62_written.
Print Assumptions C62_string_refuted.
