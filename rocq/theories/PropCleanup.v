(** * C73: the cleanup as a whole *)

From Coq Require Import Ascii String.
From Coq Require Import List Arith Bool Lia.
From Verif Require Import GoStr GoStrFacts BracketSpec ConfigModel CleanerModel CleanerSpec CleanupSpec CleanupProofs RailwaySpec PropCleaner.
Import ListNotations.
Local Open Scope list_scope.

(** If the comments, brackets and templates of a text are properly written, then exactly what the rules say is removed from it, and the rest is kept.  (Missing: texts with other brackets and braces.) *)
Theorem C73_cleanup_partial : forall cfg source text, tidied cfg source text -> clean cfg source = Ok text.
Proof. exact tidied_clean. Qed.
Print Assumptions C73_cleanup_partial.

(** The rules say one thing only. *)
Theorem C73_unique : forall cfg source text text', tidied cfg source text -> tidied cfg source text' -> text = text'.
Proof. intros cfg source text text' A B. apply tidied_clean in A. apply tidied_clean in B. congruence. Qed.
Print Assumptions C73_unique.

(** A comment, an unwanted link in the caption of a picture, an ignored and a trailing template, the word, an empty entry, an empty section and a railway table *)
Definition cleanup_source : str :=
  !"a__NOTOC__ [[File:x.jpg|b [[Kategorie:c]]d]]" ++ nl ++ !"<!-- e -->{{Navi|f}}{{Commons}} {{g|h}}" ++ nl ++ !"* " ++ nl ++ !"* i" ++ nl ++ !"== j ==" ++ nl ++ nl ++ !"== k ==" ++ nl ++ !"{{BS-table}}l|}".
Definition cleanup_links : list bracketed :=
  plain !"a__NOTOC__ " ++ [Link (plain !"File:x.jpg|b " ++ [Link (plain !"Kategorie:c")] ++ plain !"d")] ++
  plain (!"{{Navi|f}}{{Commons}} {{g|h}}" ++ nl ++ !"* " ++ nl ++ !"* i" ++ nl ++ !"== j ==" ++ nl ++ nl ++ !"== k ==" ++ nl ++ !"{{BS-table}}l|}").
Definition cleanup_templates : list templated :=
  chars !"a__NOTOC__ [[File:x.jpg|b d]]" ++ [Template [] !"Navi" (chars !"|f"); Template [] !"Commons" []] ++ chars !" " ++ [Template [] !"g" (chars !"|h")] ++
  chars (nl ++ !"* " ++ nl ++ !"* i" ++ nl ++ !"== j ==" ++ nl ++ nl ++ !"== k ==" ++ nl) ++ [Template [] !"BS-table" []] ++ chars !"l|}".

Ltac proper_text := repeat match goal with
  | |- proper_brackets [] => apply pb_nil
  | |- proper_brackets (Plain _ :: _) => apply pb_plain; [intros [=]|intros [=]|]
  | |- proper_brackets (Single _ :: _) => apply pb_single
  | |- proper_brackets (Link _ :: _) => apply pb_link
  | |- not_bracket_first _ => intros ? ? [= <- <-]; eexists; reflexivity
  | |- proper_templates [] _ => apply pt_nil
  | |- proper_templates (Char _ :: _) _ => apply pt_char; [intros [=]; reflexivity|intros [=]; reflexivity|]
  | |- proper_templates (Template _ _ _ :: _) _ => apply pt_template
  | |- Forall blank_character _ => repeat (apply Forall_cons; [unfold blank_character; cbn [In]; auto 10|]); apply Forall_nil
  | |- exists c n, _ => eexists; eexists; split; [reflexivity|]; unfold blank_character; cbn [In]; intuition discriminate
  | |- forall c, In c _ -> _ => let Hc := fresh in let Hn := fresh in intros c Hc Hn; cbn [In] in Hc, Hn;
         repeat (destruct Hc as [<-|Hc]; [repeat (destruct Hn as [Hn|Hn]; [discriminate|]); exact Hn|]); exact Hc
  | |- [] = [] \/ _ => left; reflexivity
  | |- _ :: _ = [] \/ _ => right; eexists; eexists; split; [reflexivity|auto]
  end.

Example C73_example : tidied example_cleaner_config cleanup_source (!"a [[File:x.jpg|b d]] {{g|h}}" ++ nl ++ !"* i" ++ nl ++ !"== k ==" ++ nl ++ !"l" ++ nl ++ !"{{commons}}").
Proof.
  assert (E : cleanup_source = commented [(!"a__NOTOC__ [[File:x.jpg|b [[Kategorie:c]]d]]" ++ nl, !" e ")] (skipn 55 cleanup_source)) by (vm_compute; reflexivity). rewrite E.
  eapply tidy with (links := cleanup_links) (ts := cleanup_templates).
  - split; [|left; vm_compute; reflexivity]. intros t c [[= <- <-]|[]]. split; vm_compute; reflexivity.
  - eapply uncommented_next; [left; reflexivity|apply uncommented_end].
  - vm_compute. reflexivity.
  - unfold cleanup_links, plain, nl. cbn [map app]. proper_text.
  - vm_compute. reflexivity.
  - unfold cleanup_templates, chars, nl. cbn [map app]. proper_text.
  - vm_compute. reflexivity.
  - match goal with |- railway ?a ?b => replace a with (firstn 41 b ++ table_head ++ !"l" ++ table_end ++ nl ++ !"{{commons}}") by (vm_compute; reflexivity) end.
    vm_compute.
    repeat first [apply railway_nil | apply railway_text; [reflexivity|] | apply (railway_table !"l" !"l"); [apply no_railway; reflexivity|reflexivity|]].
  - vm_compute. reflexivity.
Qed.

(** A section is kept although only an empty section is in it: the inner one is removed, the outer one stays and is empty then.  A second cleanup would remove it, too. *)
Theorem C73_again_refuted : exists cfg source text text', clean cfg source = Ok text /\ clean cfg text = Ok text' /\ text' <> text.
Proof.
  exists example_cleaner_config, (!"== a ==" ++ nl ++ !"=== b ===" ++ nl ++ !"== c ==" ++ nl ++ !"d"), (!"== a ==" ++ nl ++ !"== c ==" ++ nl ++ !"d"), (!"== c ==" ++ nl ++ !"d").
  split; [vm_compute; reflexivity|]. split; [vm_compute; reflexivity|discriminate].
Qed.
Print Assumptions C73_again_refuted.
