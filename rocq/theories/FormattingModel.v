(** * Model of src/parser/formatting.go *)

From Coq Require Import Ascii String.
From Coq Require Import List Arith ZArith Bool.
From Verif Require Import GoStr.
Import ListNotations.
Local Open Scope list_scope.

(** src/parser/tokenizer.go 38-44 *)
Definition MARKER_BOLD_OPEN : str := !"$$MARKER_BOLD_OPEN$$".
Definition MARKER_BOLD_CLOSE : str := !"$$MARKER_BOLD_CLOSE$$".
Definition MARKER_ITALIC_OPEN : str := !"$$MARKER_ITALIC_OPEN$$".
Definition MARKER_ITALIC_CLOSE : str := !"$$MARKER_ITALIC_CLOSE$$".
Definition MARKER_PARAGRAPH : str := !"$$MARKER_PARAGRAPH$$".

(** src/parser/formatting.go 10-17 *)
Inductive BoldItalicStackItemType := BOLD_OPEN | BOLD_CLOSE | ITALIC_OPEN | ITALIC_CLOSE.

(** src/parser/formatting.go 19-23 *)
Record BoldItalicStackItem := mkItem { itemType : BoldItalicStackItemType; item_index : nat; item_length : nat }.

(** [hasOddNumberOfItems], src/parser/formatting.go 268-287: true if all counters are zero *)
Definition hasOddNumberOfItems (stack : list BoldItalicStackItem) : bool :=
  let count := fold_left (fun n item =>
    match itemType item with
    | BOLD_OPEN => (fst n, snd n + 1)
    | BOLD_CLOSE => (fst n, snd n - 1)
    | ITALIC_OPEN => (fst n + 1, snd n)
    | ITALIC_CLOSE => (fst n - 1, snd n)
    end)%Z stack (0, 0)%Z in
  ((fst count =? 0) && (snd count =? 0))%Z.

(** The last item of the stack has this type; src/parser/formatting.go 121, 161.  [stack] has the latest item first. *)
Definition last_is_bold_open (stack : list BoldItalicStackItem) : bool :=
  match stack with item :: _ => match itemType item with BOLD_OPEN => true | _ => false end | [] => false end.
Definition last_is_italic_open (stack : list BoldItalicStackItem) : bool :=
  match stack with item :: _ => match itemType item with ITALIC_OPEN => true | _ => false end | [] => false end.

Definition quote : ascii := "'"%char.

(** [tokenizeBoldAndItalic], src/parser/formatting.go 96-210.  [s] is the content from [index] on, [after_quote] says that the
    character before it is a quote.  The stack is kept with the latest item first.  [None] stands for failure (the stack that is
    returned then is never used).  The stacks in Go share memory; here they are modelled as values.
    SliceModel.v has the memory, and C75 shows that this makes no difference. *)
Fixpoint tokenizeBoldAndItalic (s : str) (after_quote : bool) (index : nat) (stack : list BoldItalicStackItem)
    (repairCrossovers isBoldOpen isItalicOpen : bool) : option (list BoldItalicStackItem) :=
  match s with
  | [] => if hasOddNumberOfItems stack then Some stack else None
  | c :: s1 =>
      let nextTokenMightBeItalic := has_prefix !"''" s in
      let nextTokenMightBeBold := has_prefix !"'''" s in
      let mightBelongToPrevToken := after_quote && Ascii.eqb c quote in
      (* 110-148: [italic] is the result, if this part returns one *)
      let italic :=
        if nextTokenMightBeItalic then
          let itemType := if isItalicOpen then ITALIC_CLOSE else ITALIC_OPEN in
          let hasCrossover := last_is_bold_open stack && isItalicOpen in
          let next newStack :=
            match s1 with
            | _ :: s2 =>
                match tokenizeBoldAndItalic s2 true (index + 2) newStack repairCrossovers isBoldOpen (negb isItalicOpen) with
                | Some newStack => Some (Some newStack)
                | None => None
                end
            | [] => None
            end in
          if hasCrossover then
            if repairCrossovers then
              next (mkItem BOLD_OPEN (index + 2) 0 :: mkItem itemType index 2 :: mkItem BOLD_CLOSE index 0 :: stack)
            else if nextTokenMightBeBold then None else Some None
          else next (mkItem itemType index 2 :: stack)
        else None in
      match italic with
      | Some result => result
      | None =>
          if nextTokenMightBeBold then
            (* 149-183 *)
            let itemType := if isBoldOpen then BOLD_CLOSE else BOLD_OPEN in
            let hasCrossover := last_is_italic_open stack && isBoldOpen in
            let next newStack :=
              match s1 with
              | _ :: _ :: s3 => tokenizeBoldAndItalic s3 true (index + 3) newStack repairCrossovers (negb isBoldOpen) isItalicOpen
              | _ => None
              end in
            if hasCrossover then
              if repairCrossovers then
                next (mkItem ITALIC_OPEN (index + 3) 0 :: mkItem itemType index 3 :: mkItem ITALIC_CLOSE index 0 :: stack)
              else None
            else next (mkItem itemType index 3 :: stack)
          else if mightBelongToPrevToken then None
          else if nextTokenMightBeItalic then None
          else if (0 <? List.length stack) && hasOddNumberOfItems stack then Some stack
          else tokenizeBoldAndItalic s1 (Ascii.eqb c quote) (S index) stack repairCrossovers isBoldOpen isItalicOpen
      end
  end.

(** src/parser/formatting.go 68-81 *)
Definition marker_of (t : BoldItalicStackItemType) : str :=
  match t with
  | BOLD_OPEN => MARKER_BOLD_OPEN
  | BOLD_CLOSE => MARKER_BOLD_CLOSE
  | ITALIC_OPEN => MARKER_ITALIC_OPEN
  | ITALIC_CLOSE => MARKER_ITALIC_CLOSE
  end.

(** The loop that inserts the markers, src/parser/formatting.go 60-86: the text and [index] after the loop.  Markers are never
    shorter than what they replace, so the offset is a natural number. *)
Fixpoint insert_markers (stack : list BoldItalicStackItem) (chars : str) (offset index : nat) : str * nat :=
  match stack with
  | [] => (chars, index)
  | item :: stack' =>
      let itemIndex := item_index item + offset in
      let lenBefore := List.length chars in
      let charsBefore := firstn itemIndex chars in
      let charsAfter := skipn (itemIndex + item_length item) chars in
      let chars := charsBefore ++ marker_of (itemType item) in
      let index := List.length chars in
      let chars := chars ++ charsAfter in
      insert_markers stack' chars (offset + (List.length chars - lenBefore)) index
  end.

(** [parseBoldAndItalic], src/parser/formatting.go 25-92.  Skipping to the next two quotes (35-42) is the search for them.  The
    fuel is enough: see FormattingProofs, [parse_enough]. *)
Fixpoint parseBoldAndItalic_go (fuel : nat) (content : str) (idx : nat) : res str :=
  match fuel with
  | O => OutOfFuel
  | S fuel' =>
      match GoStr.index !"''" (skipn idx content) with
      | None => Ok content
      | Some k =>
          let idx := idx + k in
          let s := skipn idx content in
          let after_quote := match idx with O => false | S i => match nth_error content i with Some c => Ascii.eqb c quote | None => false end end in
          let stack :=
            match tokenizeBoldAndItalic s after_quote idx [] false false false with
            | Some stack => Some stack
            | None => tokenizeBoldAndItalic s after_quote idx [] true false false
            end in
          match stack with
          | None => Ok content
          | Some stack => let (content, idx) := insert_markers (rev stack) content 0 idx in parseBoldAndItalic_go fuel' content idx
          end
      end
  end.
Definition parseBoldAndItalic (content : str) : res str := parseBoldAndItalic_go (S (List.length content)) content 0.
