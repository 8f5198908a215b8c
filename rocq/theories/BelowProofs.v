(** * A run with the check stops at the check, or is the run without it

    The check of ImageClosing never stops the run on a calm text, so the two runs are the same there. *)

From Coq Require Import Ascii String.
From Coq Require Import List Arith ZArith Bool Lia.
From Verif Require Import GoStr GoStrFacts ConfigModel BracketModel SafeSpec SafeTextProofs SafeProofs.
From Verif Require Import TokenModel FormattingModel ParagraphModel HeadingModel LinkModel ImageModel ListModel TableModel ReferenceModel TokenizerModel ImageClosing .
Import ListNotations.
Local Open Scope list_scope.

Definition below {A} (m1 m2 : M A) : Prop := forall t, m1 t = Panic \/ m1 t = m2 t.

Lemma below_refl : forall A (m : M A), below m m.
Proof. intros A m t. auto. Qed.

Lemma below_bind : forall A C (m1 m2 : M A) (f1 f2 : A -> M C), below m1 m2 -> (forall a, below (f1 a) (f2 a)) -> below (bindM m1 f1) (bindM m2 f2).
Proof.
  intros A C m1 m2 f1 f2 H F t. unfold bindM in *. destruct (H t) as [E|E]; rewrite E; [auto|]. destruct (m2 t) as [[a t']| | |]; auto. apply F.
Qed.

Lemma below_panic : forall A (m : M A), below panic m.
Proof. intros A m t. left. auto. Qed.

Lemma below_mapM : forall A C (f1 f2 : A -> M C) l, (forall a, below (f1 a) (f2 a)) -> below (mapM f1 l) (mapM f2 l).
Proof.
  intros A C f1 f2 l F. induction l; cbn [mapM]; [apply below_refl|]. apply below_bind; auto. intros c. apply below_bind; auto.
  intros. apply below_refl.
Qed.

Ltac lower :=
  first
    [ solve [auto]
    | apply below_refl
    | apply below_panic
    | apply below_bind; [lower|intros; lower]
    | apply below_mapM; intros; lower
    | match goal with |- below (match ?x with _ => _ end) (match ?x with _ => _ end) => destruct x; lower end
    | match goal with |- below (let (_, _) := ?x in _) _ => destruct x; lower end ].

Section Recursive.
Variables (cfg : configuration) (f g : str -> M str).
Hypothesis rec : forall s, below (f s) (g s).

Lemma parseHeadings_below : forall s, below (parseHeadings f s) (parseHeadings g s).
Proof.
  intros s. unfold parseHeadings. apply below_bind; [|intros; lower]. generalize (split nl s). generalize 7.
  induction n as [|n IH]; intros lines; cbn [parseHeadings_go]; [lower|]. apply below_bind; [|intros; apply IH].
  apply below_mapM. intros line. unfold parseHeadingLine. lower.
Qed.

Lemma parseLink_below : forall s op cl d ty req rm, below (parseLink cfg f s op cl d ty req rm) (parseLink cfg g s op cl d ty req rm).
Proof.
  intros. unfold parseLink. destruct (split op s); [lower|]. apply below_bind; [|intros; lower]. apply below_mapM. intros item.
  unfold parseLinkItem, link_token. lower.
Qed.

Lemma referenceTag_below : forall content i gs w, below (parseReferenceTag f content i gs w) (parseReferenceTag g content i gs w).
Proof. intros. unfold parseReferenceTag, parseReferenceDefinition. lower. Qed.

Lemma parseReferences_below : forall s, below (parseReferences f s) (parseReferences g s).
Proof.
  intros s. unfold parseReferences. generalize (fun _ : str => mkGroup [] [] 0). generalize (@None str). generalize 0. generalize (length (filter (Ascii.eqb "<") s)) as n.
  revert s. intros s n. revert s. induction n as [|n IH]; intros s i w gs; cbn [parseReferences_go]; [lower|]. destruct (next_tag _); [|lower].
  apply below_bind; [apply referenceTag_below|]. intros [[c gs'] w']. apply IH.
Qed.

Lemma options_below : forall options o, below (parseOptions f options o) (parseOptions g options o).
Proof. induction options as [|x l IH]; intros o; cbn [parseOptions]; lower. Qed.

Lemma images_below : forall fuel s, below (parseImages_check true cfg f fuel s) (parseImages_check false cfg g fuel s).
Proof.
  induction fuel as [|fuel IH]; intros s; cbn [parseImages_check]; [lower|].
  assert (T : forall x, below (image_token cfg f x) (image_token cfg g x)).
  { intros x. unfold image_token. apply below_bind; [lower|]. intros y. apply below_bind; [apply options_below|]. intros o. lower. }
  destruct (find_link_start s) as [[i j]|]; [|lower]. destruct (FindCorrespondingCloseToken _ _ _ _); [|lower].
  apply below_bind; [lower|]. intros c. apply below_bind; [lower|]. intros c2. apply below_bind; [lower|]. intros k. destruct (_ <? _); [lower|].
  destruct (has_prefix _ _); cbn [andb]; [lower|]. apply IH.
Qed.

Lemma listItems_below : forall sub1 sub2 p, (forall l c, below (sub1 l c) (sub2 l c)) ->
  forall lines k items, below (listItems f sub1 p lines k items) (listItems g sub2 p lines k items).
Proof.
  intros sub1 sub2 p H. induction lines as [|line lines IH]; intros k items; cbn [listItems]; [lower|]. destruct k; [|lower].
  destruct line as [|c text]; [lower|]. assert (L : below (lineItems f c text) (lineItems g c text)) by (unfold lineItems; lower).
  destruct text as [|q text]; lower.
Qed.

Lemma tokenizeList_below : forall fuel lines p, below (tokenizeList f fuel lines p) (tokenizeList g fuel lines p).
Proof.
  induction fuel as [|fuel IH]; intros lines p; cbn [tokenizeList]; [lower|]. apply below_bind; [|intros; lower].
  apply listItems_below. intros l c. apply below_bind; [apply IH|]. intros [[? ?] ?]. lower.
Qed.

Lemma parseLists_below : forall s, below (parseLists f s) (parseLists g s).
Proof.
  intros s. unfold parseLists. apply below_bind; [|intros; lower]. generalize 0. generalize (split nl s).
  induction l as [|line lines IH]; intros k; cbn [parseLists_go]; [lower|]. destruct k; [|lower]. destruct (trim_space line); [lower|].
  destruct (isListStartingCharacter _); [|lower]. apply below_bind; [apply tokenizeList_below|]. intros [[? ?] ?]. lower.
Qed.

Lemma entry_below : forall s, below (tokenizeTableEntry f s) (tokenizeTableEntry g s).
Proof. intros s. unfold tokenizeTableEntry. lower. Qed.

Lemma row_below : forall fuel lines, below (tokenizeTableRow_go f fuel lines) (tokenizeTableRow_go g fuel lines).
Proof.
  induction fuel as [|fuel IH]; intros lines; destruct lines as [|line lines]; cbn [tokenizeTableRow_go]; try lower. destruct (_ || _ || _); [lower|].
  apply below_bind; [lower|]. intros [more after]. apply below_bind; [apply entry_below|]. intros [x a]. lower.
Qed.

Lemma table_below : forall fuel lines rows cap, below (tokenizeTable_go f fuel lines rows cap) (tokenizeTable_go g fuel lines rows cap).
Proof.
  induction fuel as [|fuel IH]; intros lines rows cap; destruct lines as [|line lines]; cbn [tokenizeTable_go]; try lower.
  assert (R : forall l, below (tokenizeTableRow f l) (tokenizeTableRow g l)) by (intros; apply row_below).
  assert (C : below (tokenizeTableCaption f line lines) (tokenizeTableCaption g line lines)).
  { unfold tokenizeTableCaption. apply below_bind; [lower|]. intros [more after]. apply below_bind; [apply entry_below|]. intros; lower. }
  lower.
Qed.

Lemma finishTable_below : forall lines, below (finishTable f lines) (finishTable g lines).
Proof.
  intros lines. unfold finishTable, tokenizeTable. apply below_bind; [|intros; lower]. apply below_bind; [apply table_below|]. intros; lower.
Qed.

Lemma tables_below : forall fuel lines, below (tokenizeTables_go f fuel lines) (tokenizeTables_go g fuel lines).
Proof.
  pose proof finishTable_below. induction fuel as [|fuel IH]; intros lines; destruct lines as [|line lines]; cbn [tokenizeTables_go]; lower.
Qed.

Lemma parseTables_below : forall s, below (parseTables f s) (parseTables g s).
Proof.
  intros s. unfold parseTables. apply below_bind; [|intros; lower]. generalize (length (split nl s)) as n. generalize (split nl s). intros l n. revert l.
  induction n as [|n IH]; intros lines; destruct lines as [|line lines]; cbn [parseTables_go]; try lower.
  destruct (table_start _); [|lower]. apply below_bind; [|intros; lower]. unfold tokenizeTables. apply below_bind; [apply tables_below|].
  intros [r after]. apply below_bind; [apply finishTable_below|]. intros; lower.
Qed.

Lemma passes_below : forall s, below (passes_check true cfg f s) (passes_check false cfg g s).
Proof.
  intros s. unfold passes_check, later_check, parseInternalLinks, parseExternalLinks.
  apply below_bind; [lower|intros s1]. apply below_bind; [lower|intros s2]. apply below_bind; [apply parseHeadings_below|intros s3].
  apply below_bind; [apply parseReferences_below|intros s4]. apply below_bind; [apply parseLink_below|intros s5].
  apply below_bind; [lower|intros s6]. apply below_bind; [lower|intros s7]. apply below_bind; [apply images_below|intros s8].
  apply below_bind; [apply parseLink_below|intros s9]. apply below_bind; [lower|intros s10]. apply below_bind; [apply parseLists_below|intros s11].
  apply below_bind; [apply parseTables_below|intros s12]. lower.
Qed.
End Recursive.

Theorem checked_below : forall cfg fuel s, below (tokenizeContent_check true cfg fuel s) (tokenizeContent cfg fuel s).
Proof.
  intros cfg. rewrite <- no_check. induction fuel as [|fuel IH]; intros s; cbn [tokenizeContent_check]; [lower|].
  apply below_bind; [apply passes_below; auto|]. intros s'. destruct (str_eqb s' s); lower.
Qed.

(** The run with the check on a calm text *)
Section Calm.
Variable cfg : configuration.
Hypothesis words : prefixes_are_words cfg.

Lemma images_check_safe : forall f s, settled cfg s -> safe (parseImages_check true cfg f (S (List.length (filter (Ascii.eqb "[") s))) s) (calm cfg).
Proof. intros f s [C U]. cbn [parseImages_check]. rewrite no_link_start by auto. apply safe_ret. auto. Qed.

Lemma passes_check_safe : forall f, (forall s, calm cfg s -> safe (f s) (calm cfg)) -> forall s, calm cfg s -> safe (passes_check true cfg f s) (calm cfg).
Proof.
  intros f rec s H. unfold passes_check, later_check.
  eapply safe_bind; [apply (parseNowiki_safe cfg); [exact words|exact H]|intros s1 H1].
  eapply safe_bind; [apply parseBoldAndItalic_safe; [exact words|exact H1]|intros s2 H2].
  eapply safe_bind; [apply parseHeadings_safe; [exact words|exact rec|exact H2]|intros s3 H3].
  eapply safe_bind; [apply parseReferences_safe; [exact words|exact H3]|intros s4 H4].
  eapply safe_bind; [apply parseInternalLinks_safe; [exact words|exact rec|exact H4]|intros s5 H5].
  eapply safe_bind; [apply parseGalleries_safe; [exact words|exact H5]|intros s6 H6].
  eapply safe_bind; [apply parseImageMaps_safe; [exact words|exact H6]|intros s7 H7].
  eapply safe_bind; [apply images_check_safe; exact H7|intros s8 H8].
  eapply safe_bind; [apply parseExternalLinks_safe; [exact words|exact rec|exact H8]|intros s9 H9].
  eapply safe_bind; [apply parseMath_safe; [exact words|exact H9]|intros s10 H10].
  eapply safe_bind; [apply parseLists_safe; [exact words|exact rec|exact H10]|intros s11 H11].
  eapply safe_bind; [apply parseTables_safe; [exact words|exact H11]|intros s12 H12].
  apply safe_ret. apply parseParagraphs_calm; [exact words|exact H12].
Qed.

Lemma tokenizeContent_check_safe : forall fuel s, calm cfg s -> safe (tokenizeContent_check true cfg fuel s) (calm cfg).
Proof.
  induction fuel as [|fuel IH]; intros s H; cbn [tokenizeContent_check]; [apply safe_fuel|]. eapply safe_bind; [apply passes_check_safe; [exact IH|exact H]|].
  intros s' H'. destruct (str_eqb s' s); [apply safe_ret; exact H'|]. apply IH. exact H'.
Qed.

Theorem calm_checked : forall fuel s t, calm cfg s -> tokenizeContent_check true cfg fuel s t = tokenizeContent cfg fuel s t.
Proof.
  intros fuel s t C. destruct (checked_below cfg fuel s t) as [E|E]; [|exact E]. pose proof (tokenizeContent_check_safe fuel s C t) as H. rewrite E in H. contradiction.
Qed.
End Calm.
