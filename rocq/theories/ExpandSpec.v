(** * Specification of texts that are expanded *)

From Coq Require Import Ascii String.
From Coq Require Import List Arith Bool.
From Verif Require Import GoStr TokenModel TokenSpec PassSpec.
Import ListNotations.
Local Open Scope list_scope.

(** A text: the text before the first key, and the keys with the texts behind them.  Keys are keys of tokens and markers. *)
Definition layout : Type := str * list (str * str).
Definition layout_text (d : layout) : str := fst d ++ concat (map (fun p => fst p ++ snd p) (snd d)).

Definition is_key (k : str) : Prop := exists ty n, type_ok ty /\ k = token_key ty n.

(** Text between keys has no dollar signs and is not like the name of a marker: it has no underscore or has a character that is neither an
    underscore nor a capital letter. *)
Definition capital (c : ascii) : Prop := c = "_"%char \/ In c !"ABCDEFGHIJKLMNOPQRSTUVWXYZ".
Definition plain_text (s : str) : Prop := no_char "$" s /\ (no_char "_" s \/ exists c, In c s /\ ~ capital c).

Definition layout_ok (d : layout) : Prop :=
  plain_text (fst d) /\ Forall (fun p => (In (fst p) all_markers \/ is_key (fst p)) /\ plain_text (snd p)) (snd d).

(** The text [d] in which every key is replaced by the given text *)
Definition filled (d : layout) (texts : list str) : str := fst d ++ concat (map (fun p => fst p ++ snd p) (combine texts (map snd (snd d)))).

(** The HTML for a marker *)
Definition marker_html : list (str * str) :=
  [(!"$$MARKER_BOLD_OPEN$$", !"<b>"); (!"$$MARKER_BOLD_CLOSE$$", !"</b>"); (!"$$MARKER_ITALIC_OPEN$$", !"<i>");
   (!"$$MARKER_ITALIC_CLOSE$$", !"</i>"); (!"$$MARKER_PARAGRAPH$$", !"<br><br>")].

(** The text for a key: the HTML for a marker, the expansion of the token for the key of a token *)
Inductive key_text (tokens : list (str * Token)) (expanded : Token -> str -> Prop) : str -> str -> Prop :=
| text_of_marker : forall k html, In (k, html) marker_html -> key_text tokens expanded k html
| text_of_token : forall k token html, is_key k -> lookup_token k tokens = Some token -> expanded token html -> key_text tokens expanded k html.
