(** * Model of src/parser/formatting.go with the memory of its slices

    In FormattingModel.v the stacks and the text are values.  In Go they are slices, and different slices use the same memory: append writes behind the end of a slice
    into the memory of other slices, if there is room.  The search of tokenizeBoldAndItalic goes back to older stacks after it has appended to them, and the loop that
    inserts the markers appends to the beginning of the text that it still needs.  Here this memory is modelled. *)

From Coq Require Import Ascii String.
From Coq Require Import List Arith Bool.
From Verif Require Import GoStr FormattingModel.
Import ListNotations.
Local Open Scope list_scope.

(** Arrays, and slices of them.  All slices of this code begin at the beginning of an array; the capacity is the length of the array. *)
Definition heap (A : Type) := list (list A).
Record slice := mkSlice { base : nat; len : nat }.

Section Memory.
Context {A : Type}.

Definition block (h : heap A) (s : slice) : list A := nth (base s) h [].
(** The elements of a slice *)
Definition view (h : heap A) (s : slice) : list A := firstn (len s) (block h s).

(** How much larger than needed a new array is (and what is in the rest of it): any amount *)
Variable room : heap A -> slice -> list A -> list A.

Definition overwrite (n : nat) (xs a : list A) : list A := firstn n a ++ xs ++ skipn (n + List.length xs) a.
Definition set_block (h : heap A) (b : nat) (a : list A) : heap A := firstn b h ++ a :: skipn (S b) h.

(** A new array with these elements: an empty slice, []byte(content), or append([]byte(nil), x...); src/parser/formatting.go 44, 49, 60, 69, 72, 75, 78 *)
Definition allocate (h : heap A) (xs : list A) : heap A * slice :=
  (h ++ [xs ++ room h (mkSlice (List.length h) 0) xs], mkSlice (List.length h) (List.length xs)).

(** append(s, xs...): in place if there is room, otherwise in a new array *)
Definition go_append (h : heap A) (s : slice) (xs : list A) : heap A * slice :=
  if len s + List.length xs <=? List.length (block h s)
  then (set_block h (base s) (overwrite (len s) xs (block h s)), mkSlice (base s) (len s + List.length xs))
  else (h ++ [view h s ++ xs ++ room h s xs], mkSlice (List.length h) (len s + List.length xs)).
End Memory.

(** stack[len(stack)-1].itemType == t; src/parser/formatting.go 121, 161 *)
Definition last_type (h : heap BoldItalicStackItem) (stack : slice) : option BoldItalicStackItemType :=
  match len stack with O => None | S n => option_map itemType (nth_error (block h stack) n) end.
Definition last_is_BOLD_OPEN h stack : bool := match last_type h stack with Some BOLD_OPEN => true | _ => false end.
Definition last_is_ITALIC_OPEN h stack : bool := match last_type h stack with Some ITALIC_OPEN => true | _ => false end.

Section Formatting.
Variable room : heap BoldItalicStackItem -> slice -> list BoldItalicStackItem -> list BoldItalicStackItem.
Variable more : heap ascii -> slice -> str -> str.

(** [tokenizeBoldAndItalic], src/parser/formatting.go 96-210: the memory afterwards and, in case of success, the stack.  (The stack that is returned in case of failure
    is never used: 135, 177, 46, 51.)  [s] and [after_quote]: see FormattingModel.v *)
Fixpoint tokenize_mem (s : str) (after_quote : bool) (index : nat) (h : heap BoldItalicStackItem) (stack : slice)
    (repairCrossovers isBoldOpen isItalicOpen : bool) : heap BoldItalicStackItem * option slice :=
  match s with
  | [] => (h, if hasOddNumberOfItems (view h stack) then Some stack else None)
  | c :: s1 =>
      let nextTokenMightBeItalic := has_prefix !"''" s in
      let nextTokenMightBeBold := has_prefix !"'''" s in
      let mightBelongToPrevToken := after_quote && Ascii.eqb c quote in
      (* 110-148: the memory, and the result, if this part returns one *)
      let italic :=
        if nextTokenMightBeItalic then
          let itemType := if isItalicOpen then ITALIC_CLOSE else ITALIC_OPEN in
          let (h, newStack) := go_append room h stack [mkItem itemType index 2] in
          let hasCrossover := last_is_BOLD_OPEN h stack && isItalicOpen in
          let next h newStack :=
            match s1 with
            | _ :: s2 =>
                match tokenize_mem s2 true (index + 2) h newStack repairCrossovers isBoldOpen (negb isItalicOpen) with
                | (h, Some newStack) => (h, Some (Some newStack))
                | (h, None) => (h, None)
                end
            | [] => (h, None)
            end in
          if hasCrossover then
            if repairCrossovers then
              let (h, newStack) := go_append room h stack [mkItem BOLD_CLOSE index 0] in
              let (h, newStack) := go_append room h newStack [mkItem itemType index 2] in
              let (h, newStack) := go_append room h newStack [mkItem BOLD_OPEN (index + 2) 0] in
              next h newStack
            else if nextTokenMightBeBold then (h, None) else (h, Some None)
          else next h newStack
        else (h, None) in
      match italic with
      | (h, Some result) => (h, result)
      | (h, None) =>
          if nextTokenMightBeBold then
            (* 149-183 *)
            let itemType := if isBoldOpen then BOLD_CLOSE else BOLD_OPEN in
            let (h, newStack) := go_append room h stack [mkItem itemType index 3] in
            let hasCrossover := last_is_ITALIC_OPEN h stack && isBoldOpen in
            let next h newStack :=
              match s1 with
              | _ :: _ :: s3 => tokenize_mem s3 true (index + 3) h newStack repairCrossovers (negb isBoldOpen) isItalicOpen
              | _ => (h, None)
              end in
            if hasCrossover then
              if repairCrossovers then
                let (h, newStack) := go_append room h stack [mkItem ITALIC_CLOSE index 0] in
                let (h, newStack) := go_append room h newStack [mkItem itemType index 3] in
                let (h, newStack) := go_append room h newStack [mkItem ITALIC_OPEN (index + 3) 0] in
                next h newStack
              else (h, None)
            else next h newStack
          else if mightBelongToPrevToken then (h, None)
          else if nextTokenMightBeItalic then (h, None)
          else if (0 <? len stack) && hasOddNumberOfItems (view h stack) then (h, Some stack)
          else tokenize_mem s1 (Ascii.eqb c quote) (S index) h stack repairCrossovers isBoldOpen isItalicOpen
      end
  end.

(** The loop that inserts the markers, src/parser/formatting.go 61-86.  Slicing behind the end of the text is a panic (69, 72, 75, 78). *)
Fixpoint insert_mem (stack : list BoldItalicStackItem) (h : heap ascii) (chars : slice) (offset index : nat) : res (heap ascii * slice * nat) :=
  match stack with
  | [] => Ok (h, chars, index)
  | item :: stack' =>
      let itemIndex := item_index item + offset in
      let lenBefore := len chars in
      if len chars <? itemIndex + item_length item then Panic
      else
        let charsBefore := mkSlice (base chars) itemIndex in
        let (h, charsAfter) := allocate more h (skipn (itemIndex + item_length item) (view h chars)) in
        let (h, chars) := go_append more h charsBefore (marker_of (itemType item)) in
        let index := len chars in
        let (h, chars) := go_append more h chars (view h charsAfter) in
        insert_mem stack' h chars (offset + (len chars - lenBefore)) index
  end.

(** [parseBoldAndItalic], src/parser/formatting.go 25-92, see FormattingModel.v.  Memory is never freed. *)
Fixpoint parse_mem_go (fuel : nat) (hi : heap BoldItalicStackItem) (hb : heap ascii) (content : str) (idx : nat) : res str :=
  match fuel with
  | O => OutOfFuel
  | S fuel' =>
      match GoStr.index !"''" (skipn idx content) with
      | None => Ok content
      | Some k =>
          let idx := idx + k in
          let s := skipn idx content in
          let after_quote := match idx with O => false | S i => match nth_error content i with Some c => Ascii.eqb c quote | None => false end end in
          let (hi, stack) := allocate room hi [] in
          let (hi, result) :=
            match tokenize_mem s after_quote idx hi stack false false false with
            | (hi, Some stack) => (hi, Some stack)
            | (hi, None) => let (hi, stack) := allocate room hi [] in tokenize_mem s after_quote idx hi stack true false false
            end in
          match result with
          | None => Ok content
          | Some stack =>
              let (hb, chars) := allocate more hb content in
              match insert_mem (view hi stack) hb chars 0 idx with
              | Ok (hb, chars, idx) => parse_mem_go fuel' hi hb (view hb chars) idx
              | Err => Err | Panic => Panic | OutOfFuel => OutOfFuel
              end
          end
      end
  end.
Definition parseBoldAndItalic_mem (content : str) : res str := parse_mem_go (S (List.length content)) [] [] content 0.
End Formatting.
