(** * C08-C12: cleaning the wikitext *)

From Coq Require Import Ascii String.
From Coq Require Import List Arith Bool Lia.
From Verif Require Import GoStr GoStrFacts BracketSpec ConfigModel ConfigSpec CleanerModel CleanerSpec CleanerProofs CleanerLinkProofs
  CleanerTemplateProofs.
Import ListNotations.
Local Open Scope list_scope.

Definition cleaner_config (allowed categories files ignored trailing : list str) : configuration :=
  apply_layer (NewDefaultConfig (mkEnvironment !"/home/u/.cache" true false))
    (with_list AllowedLinkPrefixes allowed (with_list CategoryPrefixes categories (with_list FilePrefixes files
      (with_list IgnoredTemplates ignored (with_list TrailingTemplates trailing empty_layer))))).
Definition example_cleaner_config : configuration :=
  cleaner_config [!"s"] [!"kategorie"] [!"datei"; !"file"] [!"Navi"] [!"Commons"].

(** ** C08 Comments *)

(** Properly delimited comments are removed together with one newline before each of them. *)
Theorem C08_comments : forall l last, proper_comments l last ->
  exists r, uncommented l r /\ removeComments (commented l last) = r ++ last.
Proof. exact removeComments_spec. Qed.
Print Assumptions C08_comments.

(** Without the end of a comment nothing changes. *)
Theorem C08_no_comment : forall s, contains !"-->" s = false -> removeComments s = s.
Proof. exact removeComments_none. Qed.
Print Assumptions C08_no_comment.

Example C08_example :
  proper_comments [(!"foo" ++ nl, !" a - b "); (!"bar", [])] !"<!-- open" /\
  commented [(!"foo" ++ nl, !" a - b "); (!"bar", [])] !"<!-- open" = !"foo" ++ nl ++ !"<!-- a - b -->bar<!----><!-- open" /\
  removeComments (commented [(!"foo" ++ nl, !" a - b "); (!"bar", [])] !"<!-- open") = !"foobar<!-- open".
Proof.
  split; [|split; reflexivity]. split; [|right; reflexivity].
  intros t c [[= <- <-]|[[= <- <-]|[]]]; split; reflexivity.
Qed.

(** ** C09 Unwanted links *)

(** For all texts in which brackets are properly nested (and no three brackets are next to each other). *)
Theorem C09_unwanted_links_partial : forall cfg l, proper_brackets l -> exists l', without_unwanted cfg l l' /\
  removeUnwantedInternalLinks cfg (bracketed_texts l) = Ok (bracketed_texts l').
Proof. exact removeUnwantedInternalLinks_spec. Qed.
Print Assumptions C09_unwanted_links_partial.

(** The result is determined by the specification. *)
Theorem C09_unique : forall cfg l r1 r2, without_unwanted cfg l r1 -> without_unwanted cfg l r2 -> r1 = r2.
Proof. intros cfg l r1 r2 A. exact (without_unwanted_det cfg l r1 A r2). Qed.
Print Assumptions C09_unique.

(** Without double brackets nothing changes. *)
Theorem C09_no_link : forall cfg s, contains !"[[" s = false -> removeUnwantedInternalLinks cfg s = Ok s.
Proof. exact removeUnwantedInternalLinks_none. Qed.
Print Assumptions C09_no_link.

Definition plain (s : str) : list bracketed := map Plain s.
Definition C09_text : list bracketed :=
  plain !"a " ++ [Link (plain !"Datei:x.jpg|see " ++ [Link (plain !"Kategorie:Foo")] ++ plain !" and " ++ [Link (plain !":Kategorie:Bar")])]
  ++ [Single (plain !"http://x.y z"); Link (plain !"fr:Foo"); Link (plain !"s:Foo")].
Example C09_example :
  proper_brackets C09_text /\
  bracketed_texts C09_text = !"a [[Datei:x.jpg|see [[Kategorie:Foo]] and [[:Kategorie:Bar]]]][http://x.y z][[fr:Foo]][[s:Foo]]" /\
  removeUnwantedInternalLinks example_cleaner_config (bracketed_texts C09_text) =
  Ok !"a [[Datei:x.jpg|see  and [[:Kategorie:Bar]]]][http://x.y z][[s:Foo]]".
Proof.
  split; [|split; vm_compute; reflexivity].
  repeat match goal with
  | |- proper_brackets [] => apply pb_nil
  | |- proper_brackets (Plain _ :: _) => apply pb_plain; [intros [=]|intros [=]|]
  | |- proper_brackets (Single _ :: _) => apply pb_single
  | |- proper_brackets (Link _ :: _) => apply pb_link
  | |- not_bracket_first _ => intros e l' [= <- <-]; eexists; reflexivity
  | |- _ => progress cbn [C09_text plain map app]
  | |- proper_brackets C09_text => unfold C09_text
  end.
Qed.

(** The colon need not belong to a namespace: a link whose text contains a colon is lost together with its text. *)
Theorem C09_colon_in_text_refuted :
  exists cfg, removeUnwantedInternalLinks cfg !"capital of Germany: [[Berlin|city: Berlin]]!" = Ok !"capital of Germany: !".
Proof. exists example_cleaner_config. vm_compute. reflexivity. Qed.
Print Assumptions C09_colon_in_text_refuted.

(** Links that are not closed crash the program. *)
Theorem C09_unclosed_refuted : forall cfg, removeUnwantedInternalLinks cfg !"[[abc" = Panic.
Proof. intros. reflexivity. Qed.
Print Assumptions C09_unclosed_refuted.

(** If all links are closed, cleaning does not crash. *)
Theorem C09_closed : forall cfg content,
  (forall a b, removeComments content = a ++ !"[[" ++ b -> b <> [] ->
     exists e, closes b 0 !"[" !"]" e /\ e + 2 <= List.length b) ->
  (exists r, clean cfg content = Ok r) \/ clean cfg content = Err.
Proof. exact clean_total. Qed.
Print Assumptions C09_closed.

(** ** C10 Templates *)

(** For all texts in which templates have plain names and are properly nested: ignored templates disappear, the keys of trailing
    templates are added at the end as templates without arguments. *)
Theorem C10_templates_partial : forall cfg l, proper_templates l [] -> exists l' f, without_templates cfg l l' f /\
  handleUnwantedAndTrailingTemplates cfg (templated_texts l) =
  Ok (templated_texts l' ++ concat (map (fun t => nl ++ !"{{" ++ t ++ !"}}") f)).
Proof. exact handleTemplates_spec. Qed.
Print Assumptions C10_templates_partial.

Theorem C10_unique : forall cfg l r1 f1 r2 f2, without_templates cfg l r1 f1 -> without_templates cfg l r2 f2 -> r1 = r2 /\ f1 = f2.
Proof. intros cfg l r1 f1 r2 f2 A. exact (without_templates_det cfg l r1 f1 A r2 f2). Qed.
Print Assumptions C10_unique.

(** There is always an answer, even if braces are not balanced. *)
Theorem C10_total : forall cfg content, exists r, handleUnwantedAndTrailingTemplates cfg content = Ok r.
Proof. exact handleTemplates_total. Qed.
Print Assumptions C10_total.

Definition chars (s : str) : list templated := map Char s.
Definition C10_text : list templated :=
  chars !"a " ++ [Template [] !"Navigation" (chars !"|x=" ++ [Template !" " !"b " []])] ++
  [Template nl !"Infobox " (chars (nl ++ !"|y=") ++ [Template [] !"navi" []] ++ chars !"{|b|} ")] ++
  [Template [] !"commons" []] ++ chars !" c".
Example C10_example :
  proper_templates C10_text [] /\
  templated_texts C10_text = !"a {{Navigation|x={{ b }}}}{{" ++ nl ++ !"Infobox " ++ nl ++ !"|y={{navi}}{|b|} }}{{commons}} c" /\
  handleUnwantedAndTrailingTemplates example_cleaner_config (templated_texts C10_text) =
  Ok (!"a {{" ++ nl ++ !"Infobox " ++ nl ++ !"|y={|b|} }} c" ++ nl ++ !"{{commons}}").
Proof.
  split; [|split; vm_compute; reflexivity].
  unfold C10_text, chars, nl. cbn [map app].
  repeat match goal with
  | |- proper_templates [] _ => apply pt_nil
  | |- proper_templates (Char _ :: _) _ => apply pt_char; [intros [=]; reflexivity|intros [=]; reflexivity|]
  | |- proper_templates (Template _ _ _ :: _) _ => apply pt_template
  | |- Forall _ _ => repeat (apply Forall_cons; [unfold blank_character; cbn [In]; auto 10|]); apply Forall_nil
  | |- exists c n, _ => eexists; eexists; split; [reflexivity|]; unfold blank_character; cbn [In]; intuition discriminate
  | |- forall c, In c _ -> _ => intros c Hc Hn; cbn [In] in Hc, Hn;
         repeat (destruct Hc as [<-|Hc]; [repeat (destruct Hn as [Hn|Hn]; [discriminate|]); exact Hn|]); exact Hc
  | |- [] = [] \/ _ => left; reflexivity
  | |- _ :: _ = [] \/ _ => right; eexists; eexists; split; [reflexivity|auto]
  end.
Qed.

(** A trailing template is not moved but replaced: its arguments and the case of its name are lost. *)
Theorem C10_trailing_arguments_refuted : exists cfg,
  handleUnwantedAndTrailingTemplates cfg !"{{Commons|Berlin}} x" = Ok (!" x" ++ nl ++ !"{{commons}}").
Proof. exists example_cleaner_config. vm_compute. reflexivity. Qed.
Print Assumptions C10_trailing_arguments_refuted.

(** A template that is neither ignored nor trailing is lost if its name only begins like a trailing one. *)
Theorem C10_trailing_prefix_refuted : exists cfg,
  handleUnwantedAndTrailingTemplates cfg !"{{Commonscat}} x" = Ok !" x" /\ lists cfg IgnoredTemplates = [] /\
  ~ In !"commonscat" (map to_lower (lists cfg TrailingTemplates)).
Proof.
  exists (cleaner_config [] [] [] [] [!"Commons"]). split; [vm_compute; reflexivity|]. split; [reflexivity|].
  vm_compute. intros [[=]|[]].
Qed.
Print Assumptions C10_trailing_prefix_refuted.

(** ** C11 Empty list entries *)

Theorem C11_lines : forall content,
  exists r, without_empty_entries (split nl content) r /\ removeEmptyListEntries content = join nl r.
Proof. exact removeEmptyListEntries_spec. Qed.
Print Assumptions C11_lines.

(** No empty entry is left. *)
Theorem C11_no_empty_entry : forall content,
  Forall (fun l => ~ empty_entry l /\ trim_space l = l) (split nl (removeEmptyListEntries content)).
Proof. exact removeEmptyListEntries_lines. Qed.
Print Assumptions C11_no_empty_entry.

Theorem C11_idempotent : forall content,
  removeEmptyListEntries (removeEmptyListEntries content) = removeEmptyListEntries content.
Proof. exact removeEmptyListEntries_idem. Qed.
Print Assumptions C11_idempotent.

Example C11_example :
  removeEmptyListEntries (!"* a" ++ nl ++ !" ** " ++ nl ++ !";:" ++ nl ++ nl ++ !"*b*") = !"* a" ++ nl ++ nl ++ !"*b*" /\
  empty_entry !" ** " /\ ~ empty_entry !"*b*".
Proof.
  split; [vm_compute; reflexivity|]. split.
  - split; [discriminate|]. change (trim_space !" ** ") with !"**". repeat constructor.
  - intros [_ H]. change (trim_space !"*b*") with !"*b*" in H. inversion H as [|? ? _ H2]. inversion H2 as [|? ? K _].
    destruct K as [K|[K|[K|K]]]; discriminate.
Qed.

(** ** C12 Empty sections *)

(** Lines are trimmed because empty list entries are removed before (C11_no_empty_entry). *)
Theorem C12_sections : forall lines, Forall (fun l => trim_space l = l) lines ->
  without_empty_sections lines (removeSections_go lines 0).
Proof. exact removeSections_spec. Qed.
Print Assumptions C12_sections.

Theorem C12_content : forall content,
  exists r, without_empty_sections (split nl (removeEmptyListEntries content)) r /\
            removeEmptySections (removeEmptyListEntries content) = join nl r.
Proof.
  intros content. eexists. split; [apply removeSections_spec|reflexivity].
  eapply Forall_impl; [|apply removeEmptyListEntries_lines]. intros a H. apply H.
Qed.
Print Assumptions C12_content.

(** Text is kept: exactly the lines that are neither blank nor headings survive, in order. *)
Theorem C12_text_kept : forall lines r, without_empty_sections lines r ->
  forall is_text, (forall l, is_text l = true <-> l <> [] /\ forall d, ~ heading_line l d) ->
  filter is_text r = filter is_text lines.
Proof.
  intros lines r W f F. assert (E : forall l, f l = text_line l).
  { intros l. unfold text_line. destruct (f l) eqn:Q.
    - apply F in Q as [N H]. apply headingDepth_none in H. rewrite H. destruct l; [congruence|reflexivity].
    - destruct (negb (str_eqb l []) && (headingDepth l =? 0)) eqn:G; auto. exfalso.
      apply andb_true_iff in G as [G1 G2]. apply Nat.eqb_eq in G2. assert (f l = true); [|congruence].
      apply F. split; [intros ->; discriminate|]. apply headingDepth_none. auto. }
  rewrite (filter_ext _ _ E), (filter_ext _ _ E). apply sections_text. auto.
Qed.
Print Assumptions C12_text_kept.

Example C12_example :
  let lines := [!"== A =="; []; !"=== B ==="; !"text"; !"=== C ==="; []; !"== D =="; !"'''E'''"; !"more"; !"== F =="; []] in
  Forall (fun l => trim_space l = l) lines /\
  removeSections_go lines 0 = [!"== A =="; []; !"=== B ==="; !"text"; !"== D =="; !"'''E'''"; !"more"].
Proof. split; [repeat constructor|vm_compute; reflexivity]. Qed.

(** A line of text that begins and ends with bold text counts as heading and may be lost. *)
Theorem C12_bold_text_refuted :
  removeEmptySections (!"'''Foo''' is a '''bar'''" ++ nl ++ nl ++ !"== A ==" ++ nl ++ !"text") = !"== A ==" ++ nl ++ !"text".
Proof. vm_compute. reflexivity. Qed.
Print Assumptions C12_bold_text_refuted.
