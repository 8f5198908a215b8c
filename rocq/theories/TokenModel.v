(** * Model of tokens and of the state of the tokenizer

    src/parser/tokenizer.go and the token types in src/parser/*.go *)

From Coq Require Import Ascii String.
From Coq Require Import List Arith ZArith Bool.
From Verif Require Import GoStr.
Import ListNotations.
Local Open Scope list_scope.

(** src/parser/tokenizer.go 11-35 *)
Definition TOKEN_HEADING : str := !"HEADING".
Definition TOKEN_INTERNAL_LINK : str := !"INTERNAL_LINK".
Definition TOKEN_EXTERNAL_LINK : str := !"EXTERNAL_LINK".
Definition TOKEN_TABLE : str := !"TABLE".
Definition TOKEN_UNORDERED_LIST : str := !"UNORDERED_LIST".
Definition TOKEN_ORDERED_LIST : str := !"ORDERED_LIST".
Definition TOKEN_DESCRIPTION_LIST : str := !"DESCRIPTION_LIST".
Definition TOKEN_IMAGE : str := !"IMAGE".
Definition TOKEN_IMAGE_INLINE : str := !"IMAGE_INLINE".
Definition TOKEN_REF_USAGE : str := !"REF_USAGE".
Definition TOKEN_REF_DEF : str := !"REF_DEF".
Definition TOKEN_MATH : str := !"REF_MATH".
Definition TOKEN_NOWIKI : str := !"HEADINNOWIKI".
Definition TOKEN_STRING : str := !"STRING".

(** src/parser/list.go 23-29 *)
Inductive ListItemTokenType := NORMAL_ITEM | DESCRIPTION_ITEM | DESCRIPTION_HEAD.

(** src/parser/list.go 9-41: OrderedListToken, UnorderedListToken and DescriptionListToken, which implement ListToken *)
Inductive list_kind := Ordered | Unordered | Description.
Inductive ListToken := AnyListToken (kind : list_kind) (Items : list ListItemToken)
with ListItemToken := mkListItemToken (Type_ : ListItemTokenType) (Content : str) (SubLists : list ListToken).

(** src/parser/table.go 5-32.  A TableCaptionToken and a TableColAttributeToken are represented by their only field. *)
Record TableColToken := mkTableColToken { Attributes : list str; ColContent : str; IsHeading : bool }.
Definition TableRowToken := list TableColToken.

(** The token types in src/parser: heading.go 7-11, link.go 17-27, tokenizer.go 66-70, image.go 19-38 (a CaptionToken is
    represented by its content), reference.go 10-19, math.go 5-8, nowiki.go 5-8, list.go, table.go *)
Inductive Token :=
| HeadingToken (Content : str) (Depth : nat)
| InternalLinkToken (ArticleName LinkText : str)
| ExternalLinkToken (URL LinkText : str)
| StringToken (String_ : str)
| ImageToken (Filename : str) (Caption : str) (SizeX SizeY : Z)
| InlineImageToken (Filename : str) (SizeX SizeY : Z)
| RefDefinitionToken (Index : nat) (Content : str)
| RefUsageToken (Index : nat)
| MathToken (Content : str)
| NowikiToken (Content : str)
| ListTokenOf (l : ListToken)
| TableToken (Rows : list TableRowToken) (Caption : str).

(** src/parser/tokenizer.go 47-54.  The map is a list of its entries, the latest one first. *)
Record Tokenizer := mkTokenizer { tokenMap : list (str * Token); tokenCounter : nat; images : list str }.

(** [NewTokenizer], src/parser/tokenizer.go 72-81 *)
Definition NewTokenizer : Tokenizer := mkTokenizer [] 0 [].

(** Functions that read and change the tokenizer *)
Definition M (A : Type) : Type := Tokenizer -> res (A * Tokenizer).
Definition ret {A} (a : A) : M A := fun t => Ok (a, t).
Definition bindM {A C} (m : M A) (f : A -> M C) : M C := fun t => let! (a, t) := m t in f a t.
Definition panic {A} : M A := fun _ => Panic.
Definition out_of_fuel {A} : M A := fun _ => OutOfFuel.
Notation "'do!' p ':=' e 'in' f" := (bindM e (fun x => match x with p => f end))
  (at level 200, p pattern, e at level 99, f at level 200, right associativity).

Fixpoint mapM {A C} (f : A -> M C) (l : list A) : M (list C) :=
  match l with
  | [] => ret []
  | x :: l' => do! y := f x in do! ys := mapM f l' in ret (y :: ys)
  end.

(** TOKEN_TEMPLATE, src/parser/pattern.go 23 *)
Definition token_key (tokenType : str) (n : nat) : str := !"$$TOKEN_" ++ tokenType ++ !"_" ++ itoa n ++ !"$$".

(** [getToken], src/parser/tokenizer.go 122-126 *)
Definition getToken (tokenType : str) : M str := fun t =>
  Ok (token_key tokenType (tokenCounter t), mkTokenizer (tokenMap t) (S (tokenCounter t)) (images t)).

(** [setRawToken], src/parser/tokenizer.go 132-134.  An older entry with the same key is not visible any more. *)
Definition setRawToken (key : str) (tokenContent : Token) : M unit := fun t =>
  Ok (tt, mkTokenizer ((key, tokenContent) :: tokenMap t) (tokenCounter t) (images t)).

(** The lookup in the map *)
Fixpoint lookup_token (key : str) (m : list (str * Token)) : option Token :=
  match m with
  | [] => None
  | (k, v) :: m' => if str_eqb key k then Some v else lookup_token key m'
  end.

(** t.images = append(t.images, ...), src/parser/image.go 81 *)
Definition addImage (filename : str) : M unit := fun t =>
  Ok (tt, mkTokenizer (tokenMap t) (tokenCounter t) (images t ++ [filename])).
