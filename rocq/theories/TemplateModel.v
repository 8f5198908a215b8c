(** * Model of src/parser/template.go *)

From Coq Require Import Ascii String.
From Coq Require Import List Arith Bool.
From Coq Require Import Permutation.
From Verif Require Import GoStr BracketModel.
Import ListNotations.
Local Open Scope list_scope.

(** src/parser/template.go 12 *)
Definition templatePlaceholderPrefix : str := !"$$TEMPLATE_PLACEHOLDER_".

(** fmt.Sprintf(templatePlaceholderTemplate, key), src/parser/template.go 13 *)
Definition placeholder (key : str) : str := templatePlaceholderPrefix ++ key ++ !"$$".

Section Templates.
  (** util.Hash, src/util/hash.go 8-12 *)
  Variable Hash : str -> str.

  (** t.wikipediaService.EvaluateTemplate, called in src/parser/template.go 82: the answer to a request, given the earlier
      requests (latest first).  [None] is an error. *)
  Variable service : list str -> str -> option str.

  (** The requests so far (latest first) and placeholderToContent (latest entry first; earlier entries with the same key are
      overwritten ones) *)
  Record tstate := mkTState { requests : list str; placeholders : list (str * str) }.

  (** src/parser/template.go 79-90 *)
  Definition evaluate (st : tstate) (templateText : str) : tstate * res str :=
    let key := Hash templateText in
    let answer := service (requests st) templateText in
    let st := mkTState (templateText :: requests st) (placeholders st) in
    match answer with
    | None => (st, Err)
    | Some evaluatedTemplate => (mkTState (requests st) ((key, evaluatedTemplate) :: placeholders st), Ok (placeholder key))
    end.

  (** [replaceTemplateByPlaceholders], src/parser/template.go 55-100: [i] is the loop variable.  The fuel of
      [evaluateTemplates] below is enough (see TemplateProofs, [replace_enough]). *)
  Fixpoint replaceTemplateByPlaceholders (fuel : nat) (st : tstate) (content : str) (i : nat) : tstate * res str :=
    match fuel with
    | O => (st, OutOfFuel)
    | S fuel' =>
        if (i + 2 <? List.length content) then
          if has_prefix !"{{" (skipn i content) then
            match FindCorrespondingCloseToken content (i + 2) !"{{" !"}}" with
            | None => (st, Err)
            | Some endIndex =>
                let originalTemplateText := sub content i (endIndex + 2) in
                let (st, templateText) :=
                  if contains !"{{" (skipn 2 originalTemplateText) then
                    let (st, r) := replaceTemplateByPlaceholders fuel' st (skipn 2 originalTemplateText) 0 in
                    (st, let! newContent := r in Ok (!"{{" ++ newContent))
                  else (st, Ok originalTemplateText) in
                match templateText with
                | Ok templateText =>
                    match evaluate st templateText with
                    | (st, Ok p) => replaceTemplateByPlaceholders fuel' st (replace_first originalTemplateText p content) (S i)
                    | (st, Err) => (st, Err)
                    | (st, Panic) => (st, Panic)
                    | (st, OutOfFuel) => (st, OutOfFuel)
                    end
                | Err => (st, Err)
                | Panic => (st, Panic)
                | OutOfFuel => (st, OutOfFuel)
                end
            end
          else replaceTemplateByPlaceholders fuel' st content (S i)
        else (st, Ok content)
    end.

  (** Entry of a key in the map: the latest one *)
  Fixpoint lookup (key : str) (m : list (str * str)) : option str :=
    match m with
    | [] => None
    | (k, v) :: m' => if str_eqb key k then Some v else lookup key m'
    end.

  (** One iteration over the map, src/parser/template.go 43-52, in the order [order] of its keys: every entry is looked up and
      replaced everywhere.  (Replacing without the test for containment gives the same text.) *)
  Definition replace_round (m : list (str * str)) (order : list str) (content : str) : str :=
    fold_left (fun content key => match lookup key m with Some v => replace_all (placeholder key) v content | None => content end)
      order content.

  (** The order of iteration is any permutation of the keys. *)
  Definition iteration_order (m : list (str * str)) (order : list str) : Prop :=
    NoDup order /\ forall key, In key order <-> exists v, lookup key m = Some v.

  (** The loop of [evaluateTemplates], src/parser/template.go 40-53: [resolves m content result] if the loop may end with
      [result]. *)
  Inductive resolves (m : list (str * str)) : str -> str -> Prop :=
  | resolves_end : forall content, contains templatePlaceholderPrefix content = false -> resolves m content content
  | resolves_round : forall content order result, contains templatePlaceholderPrefix content = true -> iteration_order m order ->
      resolves m (replace_round m order content) result -> resolves m content result.

  (** The loop ends for every order of iteration. *)
  Inductive resolving_ends (m : list (str * str)) : str -> Prop :=
  | ends_now : forall content, contains templatePlaceholderPrefix content = false -> resolving_ends m content
  | ends_later : forall content, contains templatePlaceholderPrefix content = true ->
      (forall order, iteration_order m order -> resolving_ends m (replace_round m order content)) -> resolving_ends m content.

  (** Fuel: every character takes a round, a template is replaced by a placeholder of 65 characters. *)
  Definition template_fuel (content : str) : nat := S (66 * List.length content).

  (** The first part of [evaluateTemplates], src/parser/template.go 24-34; the second part is [resolves]. *)
  Definition evaluateTemplates_first (content : str) : tstate * res str :=
    replaceTemplateByPlaceholders (template_fuel content) (mkTState [] []) content 0.
End Templates.
