(** * Model of src/generator/expand.go *)

From Coq Require Import Ascii String.
From Coq Require Import List Arith ZArith Bool.
From Verif Require Import GoStr BracketModel TokenModel ParagraphModel.
Import ListNotations.
Local Open Scope list_scope.

(** Functions that read and change the state of a generator (the statistics; the HTML generator has no state) *)
Definition X (A R : Type) : Type := A -> res (R * A).
Definition retX {A R} (r : R) : X A R := fun a => Ok (r, a).
Definition bindX {A R T} (m : X A R) (f : R -> X A T) : X A T := fun a => let! (r, a) := m a in f r a.
Definition failX {A R} (e : res R) : X A R := fun a => match e with Ok r => Ok (r, a) | Err => Err | Panic => Panic | OutOfFuel => OutOfFuel end.
Notation "'let*' p ':=' e 'in' f" := (bindX e (fun x => match x with p => f end))
  (at level 200, p pattern, e at level 99, f at level 200, right associativity).
Fixpoint mapX {A R T} (f : R -> X A T) (l : list R) : X A (list T) :=
  match l with
  | [] => retX []
  | x :: l' => let* y := f x in let* ys := mapX f l' in retX (y :: ys)
  end.

(** The interface ExpansionHandler, src/generator/expand.go 132-154.  The map is the one that getToken reads.  [handleToken] is [expandToken]
    (src/generator/expand.go 10-56) for this handler: the switch over the type of the token with the methods of the handler; its argument is
    [expand] for a text. *)
Record ExpansionHandler (A : Type) := mkExpansionHandler {
  handlerTokens : list (str * Token);
  expandSimpleString : str -> X A str;
  expandMarker : str -> str;
  handleToken : (str -> X A str) -> Token -> X A str }.
Arguments mkExpansionHandler {A}.
Arguments handlerTokens {A}.
Arguments expandSimpleString {A}.
Arguments expandMarker {A}.
Arguments handleToken {A}.

(** TOKEN_REGEX, src/parser/pattern.go 21: a match at the beginning of the text, and a match anywhere *)
Definition token_here (s : str) : bool :=
  has_prefix !"$$TOKEN_" s &&
  (let (m, rest) := span token_char (skipn 8 s) in token_middle m && has_prefix !"$$" rest).
Fixpoint has_token (s : str) : bool :=
  match s with
  | [] => false
  | _ :: s' => token_here s || has_token s'
  end.

Section Handler.
Context {A : Type}.
Variable g : ExpansionHandler A.
Variable expandToken : Token -> X A str.

(** The text before a token or at the end, src/generator/expand.go 92-96, 123-127.  textSegmentStartIndex is -1 if this text is empty. *)
Definition expandSegment (text : str) : X A str := match text with [] => retX [] | _ => expandSimpleString g text end.

(** The loop of [expandString], src/generator/expand.go 87-129.  [s] is the content from index [i] on; [skip] is the number of characters still
    to be skipped behind the beginning of a token (the Go code changes the loop variable); [text] is the text from textSegmentStartIndex to [i].
    A missing end of a token panics in the slice up to index -1. *)
Fixpoint expandString_go (s : str) (skip : nat) (text : str) : X A str :=
  match s with
  | [] => expandSegment text
  | c :: s' =>
      match skip with
      | S k => expandString_go s' k text
      | O =>
          if has_prefix !"$$" s then
            let* before := expandSegment text in
            match FindCorrespondingCloseToken s 2 !"$$" !"$$" with
            | None => failX Panic
            | Some tokenEndIndex =>
                match lookup_token (!"$$" ++ sub s 2 tokenEndIndex ++ !"$$") (handlerTokens g) with
                | None => failX Err
                | Some tokenContent =>
                    let* expandedContent := expandToken tokenContent in
                    let* rest := expandString_go s' (S tokenEndIndex) [] in
                    retX (before ++ expandedContent ++ rest)
                end
            end
          else expandString_go s' 0 (text ++ [c])
      end
  end.
End Handler.

(** [expandString], src/generator/expand.go 71-130, which is [expand] for a text (58-67).  The fuel bounds the nesting of tokens: a token that
    contains its own key is expanded forever. *)
Fixpoint expandString {A} (g : ExpansionHandler A) (fuel : nat) (content : str) : X A str :=
  match fuel with
  | O => failX OutOfFuel
  | S fuel' =>
      let content := expandMarker g content in
      if has_token content then expandString_go g (handleToken g (expandString g fuel')) content 0 []
      else expandSimpleString g content
  end.

(** [expandToken], src/generator/expand.go 10-56 *)
Definition expandToken {A} (g : ExpansionHandler A) (fuel : nat) (token : Token) : X A str := handleToken g (expandString g fuel) token.
