(** * The tokens that exist already do not influence parsing *)

From Coq Require Import Ascii String.
From Coq Require Import List Arith ZArith Bool Lia.
From Verif Require Import GoStr GoStrFacts ConfigModel BracketModel.
From Verif Require Import TokenModel FormattingModel ParagraphModel HeadingModel LinkModel ImageModel ListModel TableModel ReferenceModel TokenizerModel.
Import ListNotations.
Local Open Scope list_scope.

Section Frame.
(** Two maps that are extended by the same tokens *)
Variables base1 base2 : list (str * Token).

Definition twins (t1 t2 : Tokenizer) : Prop :=
  tokenCounter t1 = tokenCounter t2 /\ images t1 = images t2 /\ exists l, tokenMap t1 = l ++ base1 /\ tokenMap t2 = l ++ base2.

Definition same_result {A} (r1 r2 : res (A * Tokenizer)) : Prop :=
  match r1, r2 with
  | Ok (a1, t1), Ok (a2, t2) => a1 = a2 /\ twins t1 t2
  | Err, Err => True
  | Panic, Panic => True
  | OutOfFuel, OutOfFuel => True
  | _, _ => False
  end.

Definition framed {A} (m : M A) : Prop := forall t1 t2, twins t1 t2 -> same_result (m t1) (m t2).

Lemma framed_ret : forall A (a : A), framed (ret a).
Proof. intros A a t1 t2 R. split; auto. Qed.

Lemma framed_panic : forall A, framed (@panic A).
Proof. intros A t1 t2 R. exact I. Qed.

Lemma framed_fuel : forall A, framed (@out_of_fuel A).
Proof. intros A t1 t2 R. exact I. Qed.

Lemma framed_bind : forall A C (m : M A) (f : A -> M C), framed m -> (forall a, framed (f a)) -> framed (bindM m f).
Proof.
  intros A C m f H F t1 t2 R. specialize (H t1 t2 R). unfold bindM.
  destruct (m t1) as [[a1 u1]| | |], (m t2) as [[a2 u2]| | |]; cbn [same_result bind] in *; try contradiction; auto.
  destruct H as [-> R']. apply F. auto.
Qed.

Lemma framed_getToken : forall ty, framed (getToken ty).
Proof. intros ty t1 t2 (C & I & l & E1 & E2). unfold getToken. rewrite C. split; auto. split; [auto|]. split; auto. exists l. auto. Qed.

Lemma framed_setRawToken : forall k v, framed (setRawToken k v).
Proof.
  intros k v t1 t2 (C & I & l & E1 & E2). split; auto. split; [auto|]. split; auto. exists ((k, v) :: l). cbn [tokenMap]. rewrite E1, E2. auto.
Qed.

Lemma framed_addImage : forall f, framed (addImage f).
Proof. intros f t1 t2 (C & I & l & E). split; auto. split; [auto|]. split; [cbn; rewrite I; auto|]. exists l. auto. Qed.

Lemma framed_lift : forall A (r : res A), framed (lift r).
Proof. intros A r t1 t2 R. unfold lift. destruct r; cbn; auto. Qed.

Lemma framed_mapM : forall A C (f : A -> M C) l, (forall a, framed (f a)) -> framed (mapM f l).
Proof.
  intros A C f l F. induction l; cbn [mapM]; [apply framed_ret|]. apply framed_bind; auto. intros c. apply framed_bind; auto. intros. apply framed_ret.
Qed.

Ltac frame :=
  first
    [ solve [auto]
    | apply framed_ret
    | apply framed_panic
    | apply framed_fuel
    | apply framed_getToken
    | apply framed_setRawToken
    | apply framed_addImage
    | apply framed_lift
    | apply framed_bind; [frame|intros; frame]
    | apply framed_mapM; intros; frame
    | match goal with |- framed (match ?x with _ => _ end) => destruct x; frame end ].

Lemma parseNowiki_framed : forall s, framed (parseNowiki s).
Proof. intros s. unfold parseNowiki. generalize 0. induction s as [|c s IH]; intros k; cbn [parseNowiki_go]; frame. Qed.

Lemma parseMath_framed : forall s, framed (parseMath s).
Proof. intros s. unfold parseMath. generalize (math_matches s 0). intros l. revert s. induction l as [|[m g] l IH]; intros s; cbn [parseMath_go]; frame. Qed.

Section Recursive.
Variables (cfg : configuration) (f : str -> M str).
Hypothesis rec : forall s, framed (f s).

Lemma parseHeadings_framed : forall s, framed (parseHeadings f s).
Proof.
  intros s. unfold parseHeadings. apply framed_bind; [|intros; frame]. generalize (split nl s). generalize 7.
  induction n as [|n IH]; intros lines; cbn [parseHeadings_go]; [frame|]. apply framed_bind; [|intros; apply IH].
  apply framed_mapM. intros line. unfold parseHeadingLine. frame.
Qed.

Lemma parseLink_framed : forall s op cl d ty req rm, framed (parseLink cfg f s op cl d ty req rm).
Proof.
  intros. unfold parseLink. destruct (split op s); [frame|]. apply framed_bind; [|intros; frame]. apply framed_mapM. intros item.
  unfold parseLinkItem, link_token. frame.
Qed.

Lemma definitions_framed : forall ns cs, framed (definitions ns cs).
Proof. induction ns as [|n ns IH]; intros cs; cbn [definitions]; frame. Qed.

Lemma referenceTag_framed : forall content i gs w, framed (parseReferenceTag f content i gs w).
Proof.
  pose proof definitions_framed. intros. unfold parseReferenceTag, parseReferenceDefinition, parseReferenceEndPlaceholder, parseNamedReferenceUsage. frame.
Qed.

Lemma parseReferences_framed : forall s, framed (parseReferences f s).
Proof.
  intros s. unfold parseReferences. generalize (fun _ : str => mkGroup [] [] 0). generalize (@None str). generalize 0. generalize (length (filter (Ascii.eqb "<") s)) as n.
  revert s. intros s n. revert s. induction n as [|n IH]; intros s i w gs; cbn [parseReferences_go]; [frame|]. destruct (next_tag _); [|frame].
  apply framed_bind; [apply referenceTag_framed|]. intros [[c gs'] w']. apply IH.
Qed.

Lemma escapeImages_framed : forall s, framed (escapeImages cfg s).
Proof.
  intros s. unfold escapeImages. destruct (match split2 !":" _ with [] => _ | _ => _ end) as [mt fn]. destruct (ignored_media _ _); [frame|].
  apply framed_bind; [|intros; frame]. intros t1 t2 R. destruct (upper_first _); cbn; auto.
Qed.

Lemma galleries_framed : forall s, framed (parseGalleries cfg s).
Proof.
  pose proof escapeImages_framed as E. intros s. unfold parseGalleries. apply framed_bind; [|intros; frame]. generalize false. generalize (split nl s).
  induction l as [|x l IH]; intros b; cbn [parseGalleries_go]; unfold galleryLine; frame.
Qed.

Lemma imageMaps_framed : forall s, framed (parseImageMaps cfg s).
Proof.
  pose proof escapeImages_framed as E. intros s. unfold parseImageMaps. apply framed_bind; [|intros; frame]. generalize false. generalize (split nl s).
  fix IH 1. intros [|x l] b; cbn [parseImageMaps_go]; [frame|]. destruct (b || _); [apply IH|]. destruct (remove_start_tag _ x) as [y|].
  - destruct (trim_space y).
    + destruct l as [|z l]; [frame|]. apply framed_bind; [apply E|]. intros a. apply framed_bind; [apply IH|intros; frame].
    + apply framed_bind; [apply E|]. intros a'. apply framed_bind; [apply IH|intros; frame].
  - apply framed_bind; [apply IH|intros; frame].
Qed.

Lemma options_framed : forall options o, framed (parseOptions f options o).
Proof. induction options as [|x l IH]; intros o; cbn [parseOptions]; frame. Qed.

Lemma images_framed : forall s, framed (parseImages cfg f s).
Proof.
  pose proof escapeImages_framed as E. intros s. unfold parseImages. generalize (S (length (filter (Ascii.eqb "[") s))) as fuel. intros fuel. revert s.
  assert (T : forall x, framed (image_token cfg f x)).
  { intros x. unfold image_token. apply framed_bind.
    - intros t1 t2 R. destruct (split2 _ _) as [|y [|z l]]; cbn; auto.
    - intros y. apply framed_bind; [apply options_framed|]. intros o. destruct (isImage o); frame. }
  induction fuel as [|fuel IH]; intros s; cbn [parseImages_go]; [frame|].
  destruct (find_link_start s) as [[i j]|]; [|frame]. destruct (FindCorrespondingCloseToken _ _ _ _); [|frame].
  apply framed_bind; [auto|]. intros c. apply framed_bind; [auto|]. intros c2. frame.
Qed.

Lemma listItems_framed : forall sub p, (forall l c, framed (sub l c)) -> forall lines k items, framed (listItems f sub p lines k items).
Proof.
  intros sub p H. induction lines as [|line lines IH]; intros k items; cbn [listItems]; [frame|]. destruct k; [|frame].
  destruct line as [|c text]; [frame|]. assert (L : framed (lineItems f c text)) by (unfold lineItems; frame).
  destruct text as [|q text]; frame.
Qed.

Lemma tokenizeList_framed : forall fuel lines p, framed (tokenizeList f fuel lines p).
Proof.
  induction fuel as [|fuel IH]; intros lines p; cbn [tokenizeList]; [frame|]. apply framed_bind; [|intros; frame].
  apply listItems_framed. intros l c. apply framed_bind; [apply IH|]. intros [[? ?] ?]. frame.
Qed.

Lemma parseLists_framed : forall s, framed (parseLists f s).
Proof.
  intros s. unfold parseLists. apply framed_bind; [|intros; frame]. generalize 0. generalize (split nl s).
  induction l as [|line lines IH]; intros k; cbn [parseLists_go]; [frame|]. destruct k; [|frame]. destruct (trim_space line); [frame|].
  destruct (isListStartingCharacter _); [|frame]. apply framed_bind; [apply tokenizeList_framed|]. intros [[? ?] ?]. frame.
Qed.

Lemma entry_framed : forall s, framed (tokenizeTableEntry f s).
Proof. intros s. unfold tokenizeTableEntry. frame. Qed.

Lemma row_framed : forall fuel lines, framed (tokenizeTableRow_go f fuel lines).
Proof.
  induction fuel as [|fuel IH]; intros lines; destruct lines as [|line lines]; cbn [tokenizeTableRow_go]; try frame. destruct (_ || _ || _); [frame|].
  apply framed_bind; [frame|]. intros [more after]. apply framed_bind; [apply entry_framed|]. intros [x a]. frame.
Qed.

Lemma table_framed : forall fuel lines rows cap, framed (tokenizeTable_go f fuel lines rows cap).
Proof.
  induction fuel as [|fuel IH]; intros lines rows cap; destruct lines as [|line lines]; cbn [tokenizeTable_go]; try frame.
  assert (R : forall l, framed (tokenizeTableRow f l)) by (intros; apply row_framed).
  assert (C : framed (tokenizeTableCaption f line lines)).
  { unfold tokenizeTableCaption. apply framed_bind; [frame|]. intros [more after]. apply framed_bind; [apply entry_framed|]. intros; frame. }
  frame.
Qed.

Lemma finishTable_framed : forall lines, framed (finishTable f lines).
Proof.
  intros lines. unfold finishTable, tokenizeTable. apply framed_bind; [|intros; frame]. apply framed_bind; [apply table_framed|]. intros; frame.
Qed.

Lemma tables_framed : forall fuel lines, framed (tokenizeTables_go f fuel lines).
Proof.
  pose proof finishTable_framed. induction fuel as [|fuel IH]; intros lines; destruct lines as [|line lines]; cbn [tokenizeTables_go]; frame.
Qed.

Lemma parseTables_framed : forall s, framed (parseTables f s).
Proof.
  intros s. unfold parseTables. apply framed_bind; [|intros; frame]. generalize (length (split nl s)) as n. generalize (split nl s). intros l n. revert l.
  induction n as [|n IH]; intros lines; destruct lines as [|line lines]; cbn [parseTables_go]; try frame.
  destruct (table_start _); [|frame]. apply framed_bind; [|intros; frame]. unfold tokenizeTables. apply framed_bind; [apply tables_framed|].
  intros [r after]. apply framed_bind; [apply finishTable_framed|]. intros; frame.
Qed.

(** The passes behind the first one *)
Definition later_passes (content : str) : M str :=
  do! content := lift (parseBoldAndItalic content) in
  do! content := parseHeadings f content in
  do! content := parseReferences f content in
  do! content := parseInternalLinks cfg f content in
  do! content := parseGalleries cfg content in
  do! content := parseImageMaps cfg content in
  do! content := parseImages cfg f content in
  do! content := parseExternalLinks cfg f content in
  do! content := parseMath content in
  do! content := parseLists f content in
  do! content := parseTables f content in
  ret (parseParagraphs content).

Lemma later_framed : forall s, framed (later_passes s).
Proof.
  intros s. unfold later_passes, parseInternalLinks, parseExternalLinks.
  apply framed_bind; [frame|intros s2]; apply framed_bind; [apply parseHeadings_framed|intros s3];
   apply framed_bind; [apply parseReferences_framed|intros s4]; apply framed_bind; [apply parseLink_framed|intros s5];
   apply framed_bind; [apply galleries_framed|intros s6]; apply framed_bind; [apply imageMaps_framed|intros s7]; apply framed_bind; [apply images_framed|intros s8];
   apply framed_bind; [apply parseLink_framed|intros s9]; apply framed_bind; [apply parseMath_framed|intros s10]; apply framed_bind; [apply parseLists_framed|intros s11];
   apply framed_bind; [apply parseTables_framed|intros s12]; frame.
Qed.

Lemma passes_framed : forall s, framed (passes cfg f s).
Proof. intros s. unfold passes. apply framed_bind; [apply parseNowiki_framed|]. apply later_framed. Qed.
End Recursive.

Theorem tokenizeContent_framed : forall cfg fuel s, framed (tokenizeContent cfg fuel s).
Proof.
  intros cfg. induction fuel as [|fuel IH]; intros s; cbn [tokenizeContent]; [frame|]. apply framed_bind; [apply passes_framed; auto|].
  intros s'. destruct (str_eqb s' s); [frame|]. apply IH.
Qed.
End Frame.
