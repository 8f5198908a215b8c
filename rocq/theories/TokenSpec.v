(** * Specification of token keys *)

From Coq Require Import Ascii String.
From Coq Require Import List Arith Bool.
From Verif Require Import GoStr TokenModel ParagraphModel.
Import ListNotations.
Local Open Scope list_scope.

(** The markers for inline formatting and paragraphs, which are no tokens *)
Definition all_markers : list str :=
  [!"$$MARKER_BOLD_OPEN$$"; !"$$MARKER_BOLD_CLOSE$$"; !"$$MARKER_ITALIC_OPEN$$"; !"$$MARKER_ITALIC_CLOSE$$"; !"$$MARKER_PARAGRAPH$$"].

(** The text consists of characters other than the dollar sign and of the given keys. *)
Inductive keyed (keys : list str) : str -> Prop :=
| keyed_nil : keyed keys []
| keyed_char : forall c s, c <> "$"%char -> keyed keys s -> keyed keys (c :: s)
| keyed_key : forall k s, In k keys -> keyed keys s -> keyed keys (k ++ s).

(** The keys in a text can be resolved: it consists of characters other than the dollar sign, of markers and of keys of the map. *)
Definition resolvable (m : list (str * Token)) (s : str) : Prop := keyed (all_markers ++ map fst m) s.

(** The texts of a token that are formatted when the token is written into the book *)
Fixpoint list_texts (l : ListToken) : list str :=
  match l with AnyListToken _ items => flat_map item_texts items end
with item_texts (i : ListItemToken) : list str :=
  match i with mkListItemToken _ content subLists => content :: flat_map list_texts subLists end.

Definition texts (t : Token) : list str :=
  match t with
  | HeadingToken content _ => [content]
  | InternalLinkToken _ text => [text]
  | ExternalLinkToken _ text => [text]
  | StringToken text => [text]
  | ImageToken _ caption _ _ => [caption]
  | InlineImageToken _ _ _ => []
  | RefDefinitionToken _ content => [content]
  | RefUsageToken _ => []
  | MathToken _ => []
  | NowikiToken _ => []
  | ListTokenOf l => list_texts l
  | TableToken rows caption => caption :: flat_map (map ColContent) rows
  end.

(** Every key in every token can be resolved, and only older tokens are used (the list has the latest token first). *)
Inductive resolvable_map : list (str * Token) -> Prop :=
| resolvable_none : resolvable_map []
| resolvable_token : forall k v m, resolvable_map m -> Forall (resolvable m) (texts v) -> resolvable_map ((k, v) :: m).

(** The type of a token consists of characters that may occur in a key. *)
Definition type_ok (ty : str) : Prop := ty <> [] /\ Forall (fun c => token_char c = true) ty.

Definition map_keys (t : Tokenizer) : list str := map fst (tokenMap t).

(** A state of a tokenizer in which no key is used twice and the counter is larger than the number in every key.  This is so for
    every state that is reached from a new tokenizer (C17_state). *)
Definition key_below (n : nat) (k : str) : Prop := exists ty i, type_ok ty /\ k = token_key ty i /\ i < n.
Definition unique (t : Tokenizer) : Prop := Forall (key_below (tokenCounter t)) (map_keys t) /\ NoDup (map_keys t).

(** Every token of the first state is a token of the second one. *)
Definition extends (t t' : Tokenizer) : Prop :=
  forall key token, lookup_token key (tokenMap t) = Some token -> lookup_token key (tokenMap t') = Some token.

(** The text has been parsed by [tokenizeContent] with the given result, in some state, and the tokens of the result are tokens of the
    state [t']. *)
Definition parsed_as (tokenizeContent : str -> M str) (t' : Tokenizer) (text content : str) : Prop :=
  exists t1 t2, unique t1 /\ tokenizeContent text t1 = Ok (content, t2) /\ extends t2 t'.
