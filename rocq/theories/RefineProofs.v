(** * More fuel, or fewer checks, do not change the result of a run *)

From Coq Require Import Ascii String.
From Coq Require Import List Arith ZArith Bool Lia.
From Verif Require Import GoStr GoStrFacts ConfigModel BracketModel.
From Verif Require Import TokenModel FormattingModel ParagraphModel HeadingModel LinkModel ImageModel ListModel TableModel ReferenceModel TokenizerModel ImageClosing TokenSpec TokenProofs BlockPassProofs.
Import ListNotations.
Local Open Scope list_scope.

Definition refines {A} (m1 m2 : M A) : Prop := forall t r, m1 t = Ok r -> m2 t = Ok r.

Lemma refines_refl : forall A (m : M A), refines m m.
Proof. intros A m t r H. auto. Qed.

Lemma refines_trans : forall A (m1 m2 m3 : M A), refines m1 m2 -> refines m2 m3 -> refines m1 m3.
Proof. intros A m1 m2 m3 H K t r E. auto. Qed.

Lemma refines_bind : forall A C (m1 m2 : M A) (f1 f2 : A -> M C), refines m1 m2 -> (forall a, refines (f1 a) (f2 a)) -> refines (bindM m1 f1) (bindM m2 f2).
Proof.
  intros A C m1 m2 f1 f2 H F t r E. unfold bindM in *. destruct (m1 t) as [[a t']| | |] eqn:E1; try discriminate. rewrite (H _ _ E1). cbn in *. apply F. auto.
Qed.

Lemma refines_fuel : forall A (m : M A), refines out_of_fuel m.
Proof. intros A m t r H. discriminate. Qed.

Lemma refines_panic : forall A (m : M A), refines panic m.
Proof. intros A m t r H. discriminate. Qed.

Lemma refines_mapM : forall A C (f1 f2 : A -> M C) l, (forall a, refines (f1 a) (f2 a)) -> refines (mapM f1 l) (mapM f2 l).
Proof.
  intros A C f1 f2 l F. induction l; cbn [mapM]; [apply refines_refl|]. apply refines_bind; auto. intros c. apply refines_bind; auto.
  intros. apply refines_refl.
Qed.

Ltac mono :=
  first
    [ solve [auto]
    | apply refines_refl
    | apply refines_panic
    | apply refines_fuel
    | apply refines_bind; [mono|intros; mono]
    | apply refines_mapM; intros; mono
    | match goal with |- refines (match ?x with _ => _ end) (match ?x with _ => _ end) => destruct x; mono end
    | match goal with |- refines (let (_, _) := ?x in _) _ => destruct x; mono end ].

Section Recursive.
Variables (cfg : configuration) (f g : str -> M str).
Hypothesis rec : forall s, refines (f s) (g s).

Lemma parseHeadings_refines : forall s, refines (parseHeadings f s) (parseHeadings g s).
Proof.
  intros s. unfold parseHeadings. apply refines_bind; [|intros; mono]. generalize (split nl s). generalize 7.
  induction n as [|n IH]; intros lines; cbn [parseHeadings_go]; [mono|]. apply refines_bind; [|intros; apply IH].
  apply refines_mapM. intros line. unfold parseHeadingLine. mono.
Qed.

Lemma parseLink_refines : forall s op cl d ty req rm, refines (parseLink cfg f s op cl d ty req rm) (parseLink cfg g s op cl d ty req rm).
Proof.
  intros. unfold parseLink. destruct (split op s); [mono|]. apply refines_bind; [|intros; mono]. apply refines_mapM. intros item.
  unfold parseLinkItem, link_token. mono.
Qed.

Lemma referenceTag_refines : forall content i gs w, refines (parseReferenceTag f content i gs w) (parseReferenceTag g content i gs w).
Proof. intros. unfold parseReferenceTag, parseReferenceDefinition. mono. Qed.

Lemma parseReferences_refines : forall s, refines (parseReferences f s) (parseReferences g s).
Proof.
  intros s. unfold parseReferences. generalize (fun _ : str => mkGroup [] [] 0). generalize (@None str). generalize 0. generalize (length (filter (Ascii.eqb "<") s)) as n.
  revert s. intros s n. revert s. induction n as [|n IH]; intros s i w gs; cbn [parseReferences_go]; [mono|]. destruct (next_tag _); [|mono].
  apply refines_bind; [apply referenceTag_refines|]. intros [[c gs'] w']. apply IH.
Qed.

Lemma options_refines : forall options o, refines (parseOptions f options o) (parseOptions g options o).
Proof. induction options as [|x l IH]; intros o; cbn [parseOptions]; mono. Qed.

Lemma images_refines : forall b2 fuel s, refines (parseImages_check true cfg f fuel s) (parseImages_check b2 cfg g fuel s) /\
  refines (parseImages_check b2 cfg f fuel s) (parseImages_check b2 cfg g fuel s).
Proof.
  intros b2 fuel. induction fuel as [|fuel IH]; intros s; cbn [parseImages_check]; [split; mono|].
  assert (T : forall x, refines (image_token cfg f x) (image_token cfg g x)).
  { intros x. unfold image_token. apply refines_bind; [mono|]. intros y. apply refines_bind; [apply options_refines|]. intros o. mono. }
  split; (destruct (find_link_start s) as [[i j]|]; [|mono]; destruct (FindCorrespondingCloseToken _ _ _ _); [|mono];
    apply refines_bind; [mono|]; intros c; apply refines_bind; [mono|]; intros c2; apply refines_bind; [mono|]; intros k; destruct (_ <? _); [mono|]).
  - destruct (has_prefix _ _); cbn [andb]; [mono|]. rewrite andb_false_r. apply IH.
  - destruct (b2 && _); [mono|]. apply IH.
Qed.

Lemma listItems_refines : forall sub1 sub2 p, (forall l c, refines (sub1 l c) (sub2 l c)) ->
  forall lines k items, refines (listItems f sub1 p lines k items) (listItems g sub2 p lines k items).
Proof.
  intros sub1 sub2 p H. induction lines as [|line lines IH]; intros k items; cbn [listItems]; [mono|]. destruct k; [|mono].
  destruct line as [|c text]; [mono|]. assert (L : refines (lineItems f c text) (lineItems g c text)) by (unfold lineItems; mono).
  destruct text as [|q text]; mono.
Qed.

Lemma tokenizeList_refines : forall fuel lines p, refines (tokenizeList f fuel lines p) (tokenizeList g fuel lines p).
Proof.
  induction fuel as [|fuel IH]; intros lines p; cbn [tokenizeList]; [mono|]. apply refines_bind; [|intros; mono].
  apply listItems_refines. intros l c. apply refines_bind; [apply IH|]. intros [[? ?] ?]. mono.
Qed.

Lemma parseLists_refines : forall s, refines (parseLists f s) (parseLists g s).
Proof.
  intros s. unfold parseLists. apply refines_bind; [|intros; mono]. generalize 0. generalize (split nl s).
  induction l as [|line lines IH]; intros k; cbn [parseLists_go]; [mono|]. destruct k; [|mono]. destruct (trim_space line); [mono|].
  destruct (isListStartingCharacter _); [|mono]. apply refines_bind; [apply tokenizeList_refines|]. intros [[? ?] ?]. mono.
Qed.

Lemma entry_refines : forall s, refines (tokenizeTableEntry f s) (tokenizeTableEntry g s).
Proof. intros s. unfold tokenizeTableEntry. mono. Qed.

Lemma row_refines : forall fuel lines, refines (tokenizeTableRow_go f fuel lines) (tokenizeTableRow_go g fuel lines).
Proof.
  induction fuel as [|fuel IH]; intros lines; destruct lines as [|line lines]; cbn [tokenizeTableRow_go]; try mono. destruct (_ || _ || _); [mono|].
  apply refines_bind; [mono|]. intros [more after]. apply refines_bind; [apply entry_refines|]. intros [x a]. mono.
Qed.

Lemma table_refines : forall fuel lines rows cap, refines (tokenizeTable_go f fuel lines rows cap) (tokenizeTable_go g fuel lines rows cap).
Proof.
  induction fuel as [|fuel IH]; intros lines rows cap; destruct lines as [|line lines]; cbn [tokenizeTable_go]; try mono.
  assert (R : forall l, refines (tokenizeTableRow f l) (tokenizeTableRow g l)) by (intros; apply row_refines).
  assert (C : refines (tokenizeTableCaption f line lines) (tokenizeTableCaption g line lines)).
  { unfold tokenizeTableCaption. apply refines_bind; [mono|]. intros [more after]. apply refines_bind; [apply entry_refines|]. intros; mono. }
  mono.
Qed.

Lemma finishTable_refines : forall lines, refines (finishTable f lines) (finishTable g lines).
Proof.
  intros lines. unfold finishTable, tokenizeTable. apply refines_bind; [|intros; mono]. apply refines_bind; [apply table_refines|]. intros; mono.
Qed.

Lemma tables_refines : forall fuel lines, refines (tokenizeTables_go f fuel lines) (tokenizeTables_go g fuel lines).
Proof.
  pose proof finishTable_refines. induction fuel as [|fuel IH]; intros lines; destruct lines as [|line lines]; cbn [tokenizeTables_go]; mono.
Qed.

Lemma parseTables_refines : forall s, refines (parseTables f s) (parseTables g s).
Proof.
  intros s. unfold parseTables. apply refines_bind; [|intros; mono]. generalize (length (split nl s)) as n. generalize (split nl s). intros l n. revert l.
  induction n as [|n IH]; intros lines; destruct lines as [|line lines]; cbn [parseTables_go]; try mono.
  destruct (table_start _); [|mono]. apply refines_bind; [|intros; mono]. unfold tokenizeTables. apply refines_bind; [apply tables_refines|].
  intros [r after]. apply refines_bind; [apply finishTable_refines|]. intros; mono.
Qed.

Lemma passes_refines : forall b2 s, refines (passes_check true cfg f s) (passes_check b2 cfg g s) /\ refines (passes_check b2 cfg f s) (passes_check b2 cfg g s).
Proof.
  intros b2 s. unfold passes_check, later_check, parseInternalLinks, parseExternalLinks. split;
  (apply refines_bind; [mono|intros s1]; apply refines_bind; [mono|intros s2]; apply refines_bind; [apply parseHeadings_refines|intros s3];
   apply refines_bind; [apply parseReferences_refines|intros s4]; apply refines_bind; [apply parseLink_refines|intros s5];
   apply refines_bind; [mono|intros s6]; apply refines_bind; [mono|intros s7]; apply refines_bind; [apply images_refines|intros s8];
   apply refines_bind; [apply parseLink_refines|intros s9]; apply refines_bind; [mono|intros s10]; apply refines_bind; [apply parseLists_refines|intros s11];
   apply refines_bind; [apply parseTables_refines|intros s12]; mono).
Qed.
End Recursive.

(** A run with the check that succeeds is a run without the check. *)
Theorem checked_run : forall cfg fuel s, refines (tokenizeContent_check true cfg fuel s) (tokenizeContent cfg fuel s).
Proof.
  intros cfg. rewrite <- no_check. induction fuel as [|fuel IH]; intros s; cbn [tokenizeContent_check]; [mono|].
  apply refines_bind; [apply passes_refines; auto|]. intros s'. destruct (str_eqb s' s); mono.
Qed.

(** More fuel gives the same result. *)
Theorem more_fuel : forall b cfg fuel fuel' s, fuel <= fuel' -> refines (tokenizeContent_check b cfg fuel s) (tokenizeContent_check b cfg fuel' s).
Proof.
  intros b cfg. induction fuel as [|fuel IH]; intros fuel' s L; cbn [tokenizeContent_check]; [mono|]. destruct fuel' as [|fuel']; [lia|]. cbn [tokenizeContent_check].
  apply refines_bind; [apply passes_refines; intros; apply IH; lia|]. intros s'. destruct (str_eqb s' s); [mono|]. apply IH. lia.
Qed.

(** The states of the tokenizer, for all texts *)
Theorem tokenizeContent_runs : forall cfg fuel t text, unique t -> holds false t (tokenizeContent cfg fuel text) (fun _ _ => True).
Proof.
  intros cfg fuel t text U. rewrite <- no_check. assert (O : ok false t) by (split; [exact U|discriminate]).
  assert (G : good false t text) by discriminate.
  intros a t' E. destruct (tokenizeContent_sound cfg false fuel t text O G a t' E) as (O' & G' & _). auto.
Qed.
