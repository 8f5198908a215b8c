(** * More fuel never changes a result *)

From Coq Require Import Ascii String.
From Coq Require Import List Arith NArith ZArith Bool Lia.
From Verif Require Import GoStr UtilModel ConfigModel BracketModel.
From Verif Require Import TokenModel FormattingModel ParagraphModel HeadingModel LinkModel ImageModel ListModel TableModel ReferenceModel TokenizerModel.
Import ListNotations.
Local Open Scope list_scope.

(** The first computation lacks fuel or has the same result as the second one. *)
Definition agrees {A} (m m' : M A) : Prop := forall t, m t = OutOfFuel \/ m t = m' t.

Lemma agrees_refl : forall A (m : M A), agrees m m.
Proof. intros A m t. right. auto. Qed.

Lemma agrees_fuel : forall A (m : M A), agrees out_of_fuel m.
Proof. intros A m t. left. auto. Qed.

Lemma agrees_bind : forall A C (m m' : M A) (k k' : A -> M C), agrees m m' -> (forall a, agrees (k a) (k' a)) -> agrees (bindM m k) (bindM m' k').
Proof.
  intros A C m m' k k' H K t. unfold bindM. destruct (H t) as [E|E]; rewrite E; [left; auto|]. destruct (m' t) as [[a t']| | |]; auto. apply K.
Qed.

Lemma agrees_mapM : forall A C (f f' : A -> M C) l, (forall a, agrees (f a) (f' a)) -> agrees (mapM f l) (mapM f' l).
Proof.
  intros A C f f' l H. induction l as [|a l IH]; cbn [mapM]; [apply agrees_refl|]. apply agrees_bind; auto. intros c. apply agrees_bind; auto. intros. apply agrees_refl.
Qed.

Create HintDb agreement.
Ltac agreement := intros; repeat match goal with
  | |- forall _, _ => intro
  | |- agrees ?m ?m => apply agrees_refl
  | |- agrees out_of_fuel _ => apply agrees_fuel
  | H : forall _, _ |- agrees _ _ => solve [apply H]
  | |- agrees _ _ => solve [auto with agreement nocore]
  | |- agrees (bindM _ _) (bindM _ _) => apply agrees_bind
  | |- agrees (mapM _ _) (mapM _ _) => apply agrees_mapM
  | |- agrees (match ?x with _ => _ end) (match ?x with _ => _ end) => destruct x
  | |- agrees (let (_, _) := ?x in _) (let (_, _) := ?x in _) => destruct x
  end.

Section Recursive.
Variable cfg : configuration.
Variables tok tok' : str -> M str.
Hypothesis H : forall x, agrees (tok x) (tok' x).

Lemma parseHeadings_agrees : forall s, agrees (parseHeadings tok s) (parseHeadings tok' s).
Proof.
  intros s. unfold parseHeadings. apply agrees_bind; [|agreement]. generalize (split nl s). generalize 7. induction n as [|n IH]; intros l; cbn [parseHeadings_go]; agreement.
  unfold parseHeadingLine. agreement.
Qed.

Lemma parseLink_agrees : forall s a b c d e f, agrees (parseLink cfg tok s a b c d e f) (parseLink cfg tok' s a b c d e f).
Proof. intros. unfold parseLink. agreement. unfold parseLinkItem. agreement. unfold link_token. agreement. Qed.

Lemma parseInternalLinks_agrees : forall s, agrees (parseInternalLinks cfg tok s) (parseInternalLinks cfg tok' s).
Proof. intros. apply parseLink_agrees. Qed.
Lemma parseExternalLinks_agrees : forall s, agrees (parseExternalLinks cfg tok s) (parseExternalLinks cfg tok' s).
Proof. intros. apply parseLink_agrees. Qed.

Lemma parseOptions_agrees : forall l o, agrees (parseOptions tok l o) (parseOptions tok' l o).
Proof. induction l as [|x l IH]; intros o; cbn [parseOptions]; agreement. Qed.

Lemma parseImages_agrees : forall s, agrees (parseImages cfg tok s) (parseImages cfg tok' s).
Proof.
  intros s. unfold parseImages. generalize (S (length (filter (Ascii.eqb "[") s))). intros n. revert s. induction n as [|n IH]; intros s; cbn [parseImages_go]; agreement.
  unfold image_token. agreement. apply parseOptions_agrees.
Qed.

Lemma listItems_agrees : forall f f', (forall l p, agrees (f l p) (f' l p)) -> forall prefix lines skip items,
  agrees (listItems tok f prefix lines skip items) (listItems tok' f' prefix lines skip items).
Proof.
  intros f f' F prefix. induction lines as [|line lines IH]; intros skip items; cbn [listItems]; agreement; unfold lineItems; agreement.
Qed.

Lemma tokenizeList_agrees : forall fuel lines prefix, agrees (tokenizeList tok fuel lines prefix) (tokenizeList tok' fuel lines prefix).
Proof.
  induction fuel as [|fuel IH]; intros lines prefix; cbn [tokenizeList]; agreement. apply listItems_agrees. agreement.
Qed.

Lemma parseLists_agrees : forall s, agrees (parseLists tok s) (parseLists tok' s).
Proof.
  intros s. unfold parseLists. apply agrees_bind; [|agreement]. generalize 0. generalize (split nl s). induction l as [|x l IH]; intros n; cbn [parseLists_go]; agreement.
  apply tokenizeList_agrees.
Qed.

Lemma tokenizeTableEntry_agrees : forall s, agrees (tokenizeTableEntry tok s) (tokenizeTableEntry tok' s).
Proof. intros s. unfold tokenizeTableEntry. agreement. Qed.

Lemma tokenizeTableRow_agrees : forall fuel lines, agrees (tokenizeTableRow_go tok fuel lines) (tokenizeTableRow_go tok' fuel lines).
Proof. pose proof tokenizeTableEntry_agrees. induction fuel as [|fuel IH]; intros [|line lines]; cbn [tokenizeTableRow_go]; agreement. Qed.

Lemma tokenizeTable_agrees : forall fuel lines rows caption, agrees (tokenizeTable_go tok fuel lines rows caption) (tokenizeTable_go tok' fuel lines rows caption).
Proof.
  pose proof tokenizeTableEntry_agrees. pose proof tokenizeTableRow_agrees.
  induction fuel as [|fuel IH]; intros [|line lines] rows caption; cbn [tokenizeTable_go]; agreement; unfold tokenizeTableCaption; agreement.
Qed.

Lemma finishTable_agrees : forall lines, agrees (finishTable tok lines) (finishTable tok' lines).
Proof. pose proof tokenizeTable_agrees. intros lines. unfold finishTable, tokenizeTable. agreement. Qed.

Lemma tokenizeTables_agrees : forall fuel lines, agrees (tokenizeTables_go tok fuel lines) (tokenizeTables_go tok' fuel lines).
Proof. pose proof finishTable_agrees. induction fuel as [|fuel IH]; intros [|line lines]; cbn [tokenizeTables_go]; agreement. Qed.

Lemma parseTables_agrees : forall s, agrees (parseTables tok s) (parseTables tok' s).
Proof.
  pose proof finishTable_agrees. pose proof tokenizeTables_agrees.
  intros s. unfold parseTables. apply agrees_bind; [|agreement]. generalize (length (split nl s)). generalize (split nl s). intros l n. revert l.
  induction n as [|n IH]; intros [|line lines]; cbn [parseTables_go]; agreement. unfold tokenizeTables. agreement.
Qed.

Lemma parseReferences_agrees : forall s, agrees (parseReferences tok s) (parseReferences tok' s).
Proof.
  intros s. unfold parseReferences. generalize (length (filter (Ascii.eqb "<") s)). intros n. generalize 0 (fun _ : str => mkGroup [] [] 0) (@None str). revert s.
  induction n as [|n IH]; intros s i gs within; cbn [parseReferences_go]; agreement.
  unfold parseReferenceTag. agreement. unfold parseReferenceDefinition. agreement.
Qed.

Lemma passes_agrees : forall s, agrees (passes cfg tok s) (passes cfg tok' s).
Proof.
  pose proof parseHeadings_agrees. pose proof parseReferences_agrees. pose proof parseInternalLinks_agrees. pose proof parseImages_agrees.
  pose proof parseExternalLinks_agrees. pose proof parseLists_agrees. pose proof parseTables_agrees. intros s. unfold passes. agreement.
Qed.
End Recursive.

Theorem tokenizeContent_agrees : forall cfg n m s, n <= m -> agrees (tokenizeContent cfg n s) (tokenizeContent cfg m s).
Proof.
  intros cfg n. induction n as [|n IH]; intros m s L; [apply agrees_fuel|]. destruct m as [|m]; [lia|]. cbn [tokenizeContent]. apply agrees_bind.
  - apply passes_agrees. intros x. apply IH. lia.
  - intros x. destruct (str_eqb x s); [apply agrees_refl|apply IH; lia].
Qed.
