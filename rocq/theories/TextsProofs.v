(** * What holds for every parsed text holds for the texts of all tokens *)

From Coq Require Import Ascii String.
From Coq Require Import List Arith ZArith Bool Lia.
From Verif Require Import GoStr GoStrFacts UtilModel ConfigModel BracketModel TokenSpec ShapeProofs.
From Verif Require Import TokenModel FormattingModel ParagraphModel HeadingModel LinkModel ImageModel ListModel TableModel ReferenceModel TokenizerModel.
Import ListNotations.
Local Open Scope list_scope.

Section Good.
Variable good : str -> Prop.
Hypothesis good_nil : good [].
Hypothesis good_trim : forall x, good x -> good (trim_space x).

Definition token_good (v : Token) : Prop := Forall good (texts v).
Definition all_good (t : Tokenizer) : Prop := Forall (fun p => token_good (snd p)) (tokenMap t).

Definition holds {A} (m : M A) (Q : A -> Prop) : Prop := forall t a t', all_good t -> m t = Ok (a, t') -> all_good t' /\ Q a.

Lemma holds_ret : forall A (a : A) (Q : A -> Prop), Q a -> holds (ret a) Q.
Proof. intros A a Q H t b t' G E. injection E as <- <-. auto. Qed.
Lemma holds_panic : forall A Q, holds (@panic A) Q.
Proof. discriminate. Qed.
Lemma holds_fuel : forall A Q, holds (@out_of_fuel A) Q.
Proof. discriminate. Qed.
Lemma holds_bind : forall A C (m : M A) (k : A -> M C) P Q, holds m P -> (forall a, P a -> holds (k a) Q) -> holds (bindM m k) Q.
Proof.
  intros A C m k P Q H F t c t'' G E. apply bindM_ok in E. destruct E as (a & t' & E1 & E2).
  destruct (H _ _ _ G E1) as (G1 & P1). exact (F a P1 _ _ _ G1 E2).
Qed.
Lemma holds_weaken : forall A (m : M A) (P Q : A -> Prop), (forall a, P a -> Q a) -> holds m P -> holds m Q.
Proof. intros A m P Q W K t a t' G E. destruct (K _ _ _ G E) as (G1 & P1). auto. Qed.
Lemma holds_getToken : forall ty, holds (getToken ty) any.
Proof. intros ty t a t' G E. unfold getToken in E. injection E as <- <-. split; [exact G|exact I]. Qed.
Lemma holds_setRawToken : forall k v, token_good v -> holds (setRawToken k v) any.
Proof. intros k v H t a t' G E. unfold setRawToken in E. injection E as <- <-. split; [|exact I]. apply Forall_cons; [apply H|exact G]. Qed.
Lemma holds_addImage : forall f, holds (addImage f) any.
Proof. intros f t a t' G E. unfold addImage in E. injection E as <- <-. split; [exact G|exact I]. Qed.
Lemma holds_lift : forall A (r : res A), holds (lift r) any.
Proof. intros A r t a t' G E. unfold lift in E. destruct r; try discriminate. injection E as <- <-. split; [auto|exact I]. Qed.
Lemma holds_mapM : forall A C (f : A -> M C) l, (forall a, holds (f a) any) -> holds (mapM f l) any.
Proof.
  intros A C f l F. induction l; cbn [mapM]; [apply holds_ret; exact I|]. apply holds_bind with any; auto. intros c _. apply holds_bind with any; auto.
  intros. apply holds_ret. exact I.
Qed.

Ltac keep :=
  first
    [ solve [auto]
    | apply holds_ret; exact I
    | apply holds_panic
    | apply holds_fuel
    | apply holds_getToken
    | apply holds_setRawToken; apply Forall_nil
    | apply holds_addImage
    | apply holds_lift
    | apply holds_bind with any; [keep|intros ? _; keep]
    | apply holds_mapM; intros; keep
    | match goal with |- holds (match ?x with _ => _ end) _ => destruct x; keep end ].

Lemma one_good : forall x, good x -> Forall good [x].
Proof. intros. apply Forall_cons; [auto|apply Forall_nil]. Qed.

Lemma parseNowiki_holds : forall s, holds (parseNowiki s) any.
Proof. intros s. unfold parseNowiki. generalize 0. induction s as [|c s IH]; intros k; cbn [parseNowiki_go]; keep. Qed.

Lemma parseMath_holds : forall s, holds (parseMath s) any.
Proof. intros s. unfold parseMath. generalize (math_matches s 0). intros l. revert s. induction l as [|[m g] l IH]; intros s; cbn [parseMath_go]; keep. Qed.

Section Recursive.
Variables (cfg : configuration) (f : str -> M str).
Hypothesis rec : forall s, holds (f s) good.

Lemma rec_any : forall s, holds (f s) any.
Proof. intros s. eapply holds_weaken; [|apply rec]. intros; exact I. Qed.

Lemma parseHeadings_holds : forall s, holds (parseHeadings f s) any.
Proof.
  intros s. unfold parseHeadings. apply holds_bind with any; [|intros; keep]. generalize (split nl s). generalize 7.
  induction n as [|n IH]; intros lines; cbn [parseHeadings_go]; [keep|]. apply holds_bind with any; [|intros; apply IH].
  apply holds_mapM. intros line. unfold parseHeadingLine. destruct (_ && _); [|keep]. apply holds_bind with any; [keep|]. intros key _.
  eapply holds_bind; [apply rec|]. intros title T. apply holds_bind with any; [|intros; keep]. apply holds_setRawToken. apply one_good. exact T.
Qed.

Lemma parseLink_holds : forall s op cl d ty req rm, holds (parseLink cfg f s op cl d ty req rm) any.
Proof.
  intros. unfold parseLink. destruct (split op s); [keep|]. apply holds_bind with any; [|intros; keep]. apply holds_mapM. intros item.
  unfold parseLinkItem. destruct (is_file cfg item); [keep|]. destruct (_ && _); [keep|]. apply holds_bind with any; [keep|]. intros text _.
  apply holds_bind with (fun token => match token with Some (v, _) => token_good v | None => True end).
  - unfold link_token.
    repeat match goal with |- holds (match ?x with _ => _ end) _ => destruct x end;
    first [apply holds_ret; exact I|eapply holds_bind; [apply rec|]; intros x X; apply holds_ret; apply one_good; exact X].
  - intros [[v k]|] V; [|keep]. apply holds_bind with any; [|intros; keep]. apply holds_bind with any; [keep|]. intros key _.
    apply holds_bind with any; [apply holds_setRawToken; auto|]. intros; keep.
Qed.

(** References *)
Definition group_good (g : group) : Prop := Forall (fun p => good (snd p)) (refNumberToContent g).

Lemma get_content_good : forall n cs c, Forall (fun p : nat * str => good (snd p)) cs -> get_content n cs = Some c -> good c.
Proof.
  intros n cs c F. induction F as [|[k x] cs X F IH]; cbn [get_content]; [discriminate|]. destruct (n =? k); [intros E; injection E as <-; exact X|exact IH].
Qed.

Lemma definitions_holds : forall ns cs, Forall (fun p : nat * str => good (snd p)) cs -> holds (definitions ns cs) any.
Proof.
  induction ns as [|n ns IH]; intros cs F; cbn [definitions]; [keep|]. destruct (get_content n cs) as [c|] eqn:C; [|auto].
  apply holds_bind with any; [keep|]. intros key _. apply holds_bind with any; [apply holds_setRawToken; apply one_good; exact (get_content_good _ _ _ F C)|]. intros _ _.
  apply holds_bind with any; [auto|]. intros; keep.
Qed.

Definition groups_good (gs : groups) : Prop := forall n, group_good (gs n).

Lemma set_group_good : forall gs n g, groups_good gs -> group_good g -> groups_good (set_group gs n g).
Proof. intros gs n g H G m. unfold set_group. destruct (str_eqb _ _); auto. Qed.

Lemma referenceTag_holds : forall content i gs w, groups_good gs -> holds (parseReferenceTag f content i gs w) (fun r => groups_good (snd (fst r))).
Proof.
  intros content i gs w G. unfold parseReferenceTag. destruct (FindCorrespondingCloseTokenIgnoreCase _ _ _ _) as [e|]; [|apply holds_panic].
  destruct (_ || _).
  - eapply holds_bind with any; [destruct w; keep|]. intros name _. eapply holds_bind with (fun r => group_good (snd r)).
    + unfold parseReferenceEndPlaceholder. apply holds_bind with any; [apply definitions_holds; apply G|]. intros keys _. apply holds_ret. unfold group_good. cbn [snd refNumberToContent].
      apply incl_Forall with (refNumberToContent (gs name)); [|apply G]. intros x X. apply filter_In in X. tauto.
    + intros [c g] X. apply holds_ret. apply set_group_good; auto.
  - destruct (is_placeholder_start _); [apply holds_bind with any; [keep|]; intros name _; apply holds_ret; exact G|].
    apply holds_bind with any; [keep|]. intros name _. apply holds_bind with any; [keep|]. intros groupName _.
    eapply holds_bind with (fun r => group_good (snd r)).
    + destruct (has_prefix _ _).
      * unfold parseNamedReferenceUsage. destruct (negb _); [|apply holds_ret; apply G].
        assert (X : group_good (snd match get_number name (nameToRefNumber (gs groupName)) with
          | Some n => (n, gs groupName)
          | None => (refNumberCounter (gs groupName), mkGroup (refNumberToContent (gs groupName)) ((name, refNumberCounter (gs groupName)) :: nameToRefNumber (gs groupName)) (S (refNumberCounter (gs groupName)))) end)).
        { destruct (get_number _ _); apply G. }
        destruct (match get_number _ _ with Some _ => _ | None => _ end) as [n g']. apply holds_bind with any; [destruct (negb _); keep|]. intros key _. apply holds_ret. exact X.
      * destruct (FindCorrespondingCloseTokenIgnoreCase _ _ _ _) as [e2|]; [|apply holds_panic]. unfold parseReferenceDefinition. eapply holds_bind; [apply rec|]. intros text T.
        apply holds_bind with any; [destruct (negb _); keep|]. intros key _. apply holds_ret. unfold group_good. cbn [snd refNumberToContent]. apply Forall_cons; [exact T|apply G].
    + intros [c g] X. apply holds_ret. apply set_group_good; auto.
Qed.

Lemma parseReferences_holds : forall s, holds (parseReferences f s) any.
Proof.
  intros s. unfold parseReferences. assert (G : groups_good (fun _ => mkGroup [] [] 0)) by (intros n; apply Forall_nil). revert G. generalize (fun _ : str => mkGroup [] [] 0).
  generalize (@None str). generalize 0. generalize (length (filter (Ascii.eqb "<") s)) as n.
  revert s. intros s n. revert s. induction n as [|n IH]; intros s i w gs G; cbn [parseReferences_go]; destruct (next_tag _); try keep.
  eapply holds_bind; [apply referenceTag_holds; exact G|]. intros [[c gs'] w'] X. apply IH. exact X.
Qed.

(** Images *)
Lemma escapeImages_holds : forall s, holds (escapeImages cfg s) any.
Proof.
  intros s. unfold escapeImages. destruct (match split2 _ _ with _ :: _ => _ | _ => _ end) as [mt fn]. destruct (ignored_media cfg fn); [keep|]. apply holds_bind with any; [|intros; keep].
  intros t a t' G E. destruct (upper_first _); try discriminate. cbn [bind] in E. assert (t' = t) by congruence. subst. split; [exact G|exact I].
Qed.

Lemma galleries_holds : forall s, holds (parseGalleries cfg s) any.
Proof.
  pose proof escapeImages_holds as E. intros s. unfold parseGalleries. apply holds_bind with any; [|intros; keep]. generalize false. generalize (split nl s).
  induction l as [|x l IH]; intros b; cbn [parseGalleries_go]; unfold galleryLine; keep.
Qed.

Lemma imageMaps_holds : forall s, holds (parseImageMaps cfg s) any.
Proof.
  pose proof escapeImages_holds as E. intros s. unfold parseImageMaps. apply holds_bind with any; [|intros; keep].
  assert (H : forall n l b, length l <= n -> holds (parseImageMaps_go cfg l b) any).
  { induction n as [|n IH]; intros l b L; destruct l as [|x l]; cbn [parseImageMaps_go length] in *; try keep; [lia|].
    destruct (_ || _); [apply IH; lia|]. destruct (remove_start_tag _ _) as [y|].
    - destruct (trim_space y); [destruct l as [|z l]; [keep|]|]; (apply holds_bind with any; [auto|intros; apply holds_bind with any; [apply IH; cbn [length] in L; lia|intros; keep]]).
    - apply holds_bind with any; [apply IH; lia|intros; keep]. }
  apply (H (length (split nl s))). auto.
Qed.

Lemma options_holds : forall options o, good (caption o) -> holds (parseOptions f options o) (fun o => good (caption o)).
Proof.
  induction options as [|x l IH]; intros o C; cbn [parseOptions]; [apply holds_ret; auto|]. destruct (HasAnyPrefix _ _); [apply IH; exact C|].
  destruct (has_suffix _ _); [destruct (option_size x); apply IH; exact C|]. destruct (_ && _); [|apply IH; exact C]. eapply holds_bind; [apply rec|]. intros c G. apply IH. exact G.
Qed.

Lemma images_holds : forall s, holds (parseImages cfg f s) any.
Proof.
  pose proof rec_any as R. intros s. unfold parseImages. generalize (S (length (filter (Ascii.eqb "[") s))) as fuel. intros fuel. revert s.
  induction fuel as [|fuel IH]; intros s; cbn [parseImages_go]; [keep|].
  destruct (find_link_start s) as [[i j]|]; [|keep]. destruct (FindCorrespondingCloseToken _ _ _ _); [|keep].
  apply holds_bind with any; [auto|]. intros c _. apply holds_bind with any; [apply escapeImages_holds|]. intros c2 _. apply holds_bind with any; [|intros; keep].
  destruct (_ || _); [keep|]. unfold image_token. apply holds_bind with any.
  { intros t a t' G E. destruct (split2 _ _) as [|x [|y l]]; try discriminate. injection E as _ <-. split; [exact G|exact I]. }
  intros fn _. eapply holds_bind; [apply options_holds; exact good_nil|]. intros o O. cbn beta in O. destruct (isImage o).
  all: apply holds_bind with any; [keep|]; intros key _; apply holds_bind with any; [|intros; keep].
  - apply holds_setRawToken. apply one_good. destruct (hasCaption o); auto.
  - apply holds_setRawToken. apply Forall_nil.
Qed.

(** Lists *)
Definition item_good (i : ListItemToken) : Prop := Forall good (item_texts i).
Definition list_good (l : ListToken) : Prop := Forall good (list_texts l).

Lemma flat_map_good : forall A (g : A -> list str) l, Forall (fun x => Forall good (g x)) l <-> Forall good (flat_map g l).
Proof.
  intros A g l. induction l as [|x l IH]; cbn [flat_map]; [split; intros; apply Forall_nil|]. rewrite Forall_app, <- IH. split; intros H; [inversion H; auto|].
  destruct H. apply Forall_cons; auto.
Qed.
Lemma list_good_all : forall kind items, list_good (AnyListToken kind items) <-> Forall item_good items.
Proof. intros. unfold list_good, item_good. cbn [list_texts]. symmetry. apply flat_map_good. Qed.
Lemma item_good_all : forall type c ls, item_good (mkListItemToken type c ls) <-> good c /\ Forall list_good ls.
Proof.
  intros. unfold list_good, item_good. cbn [item_texts]. rewrite Forall_cons_iff. apply and_iff_compat_l. symmetry. apply flat_map_good.
Qed.

Lemma addSubList_good : forall p items l, Forall item_good items -> list_good l -> Forall item_good (addSubList p items l).
Proof.
  intros p items l H L. unfold addSubList. apply Forall_rev in H. destruct (rev items) as [|[type c ls] before].
  - apply Forall_cons; [|apply Forall_nil]. apply item_good_all. split; auto.
  - apply Forall_app. split; [apply Forall_rev; exact (Forall_inv_tail H)|]. apply Forall_cons; [|apply Forall_nil].
    pose proof (Forall_inv H) as K. apply item_good_all in K as [K1 K2]. apply item_good_all. split; [exact K1|]. apply Forall_app. auto.
Qed.

Lemma simple_item : forall t c, good c -> item_good (mkListItemToken t c []).
Proof. intros. apply item_good_all. auto. Qed.

Lemma lineItems_good : forall c text, holds (lineItems f c text) (Forall item_good).
Proof.
  intros c text. unfold lineItems. repeat match goal with |- holds (match ?x with _ => _ end) _ => destruct x end.
  all: repeat (eapply holds_bind; [apply rec|intros ? ?]); apply holds_ret; repeat (apply Forall_cons; [apply simple_item; auto|]); apply Forall_nil.
Qed.

Lemma listItems_holds : forall sub p, (forall l c, holds (sub l c) list_good) ->
  forall lines k items, Forall item_good items -> holds (listItems f sub p lines k items) (Forall item_good).
Proof.
  intros sub p H. induction lines as [|line lines IH]; intros k items P; cbn [listItems]; [apply holds_ret; auto|].
  destruct k; [|auto]. destruct line as [|c text]; [auto|].
  assert (N : holds (bindM (lineItems f c text) (fun x => listItems f sub p lines 0 (items ++ x))) (Forall item_good)).
  { eapply holds_bind; [apply lineItems_good|]. intros x X. apply IH. apply Forall_app. auto. }
  destruct text as [|q text]; [exact N|]. destruct (isListStartingCharacter q) eqn:Q; [|exact N].
  eapply holds_bind; [apply H|]. intros x X. apply IH; auto. apply addSubList_good; auto.
Qed.

Lemma tokenizeList_holds : forall fuel lines p, holds (tokenizeList f fuel lines p) (fun r => list_good (fst (fst r))).
Proof.
  induction fuel as [|fuel IH]; intros lines p; cbn [tokenizeList]; [apply holds_fuel|]. eapply holds_bind.
  - apply listItems_holds; [|apply Forall_nil]. intros l c. eapply holds_bind; [apply IH; auto|]. intros [[x y] z] X. apply holds_ret. exact X.
  - intros items X. apply holds_bind with any; [apply holds_getToken|]. intros key _. apply (list_good_all (kind_of_list p)) in X. eapply holds_bind.
    + apply holds_setRawToken. exact X.
    + intros _ _. apply holds_ret. exact X.
Qed.

Lemma parseLists_holds : forall s, holds (parseLists f s) any.
Proof.
  intros s. unfold parseLists. apply holds_bind with any; [|intros; keep]. generalize 0. generalize (split nl s).
  induction l as [|line lines IH]; intros k; cbn [parseLists_go]; [keep|]. destruct k; [|keep]. destruct (trim_space line) as [|c text]; [keep|].
  destruct (isListStartingCharacter c) eqn:C; [|keep]. eapply holds_bind; [apply tokenizeList_holds; auto|]. intros [[x y] z] _. keep.
Qed.

(** Tables *)
Lemma entry_holds : forall s, holds (tokenizeTableEntry f s) (fun r => good (fst r)).
Proof.
  intros s. unfold tokenizeTableEntry. repeat match goal with |- holds (match ?x with _ => _ end) _ => destruct x end.
  all: eapply holds_bind; [apply rec|]; intros x X; apply holds_ret; exact X.
Qed.

Definition row_good (r : TableRowToken) : Prop := Forall good (map ColContent r).

Lemma row_holds : forall fuel lines, holds (tokenizeTableRow_go f fuel lines) (fun r => row_good (fst r)).
Proof.
  induction fuel as [|fuel IH]; intros lines; destruct lines as [|line lines]; cbn [tokenizeTableRow_go];
    try solve [apply holds_fuel|apply holds_ret; apply Forall_nil]. destruct (_ || _ || _); [apply holds_ret; apply Forall_nil|].
  apply holds_bind with any; [keep|]. intros [more after] _. eapply holds_bind; [apply entry_holds|]. intros [x a] X. eapply holds_bind; [apply IH|].
  intros [columns r] Y. apply holds_ret. apply Forall_cons; [apply good_trim; exact X|exact Y].
Qed.

Definition table_good (r : list TableRowToken * str) : Prop := Forall row_good (fst r) /\ good (snd r).

Lemma table_holds : forall fuel lines rows cap, Forall row_good rows -> good cap -> holds (tokenizeTable_go f fuel lines rows cap) table_good.
Proof.
  induction fuel as [|fuel IH]; intros lines rows cap R C; destruct lines as [|line lines]; cbn [tokenizeTable_go];
    try solve [apply holds_fuel|apply holds_ret; split; auto].
  assert (Row : forall l, holds (do! (rowToken, after) := tokenizeTableRow f l in tokenizeTable_go f fuel after (rows ++ [rowToken]) cap) table_good).
  { intros l. eapply holds_bind; [apply row_holds|]. intros [row after] X. apply IH; auto. apply Forall_app. split; auto. }
  destruct (has_prefix !"|+" _).
  { eapply holds_bind with (fun r => good (fst r)); [|intros [c after] X; apply IH; auto]. unfold tokenizeTableCaption. apply holds_bind with any; [keep|]. intros [more after] _.
    eapply holds_bind; [apply entry_holds|]. intros [x a] X. apply holds_ret. apply good_trim. exact X. }
  destruct (has_prefix !"!" _); [apply Row|]. destruct (has_prefix !"|-" _).
  { destruct lines as [|next lines]; [apply holds_panic|]. destruct (_ || _); [apply Row|apply IH; auto]. }
  destruct (has_prefix !"|}" _); [apply holds_ret; split; auto|]. destruct (has_prefix !"|" _); [apply Row|apply IH; auto].
Qed.

Lemma finishTable_holds : forall lines, holds (finishTable f lines) any.
Proof.
  intros lines. unfold finishTable, tokenizeTable. apply holds_bind with token_good.
  - eapply holds_bind; [apply table_holds; [apply Forall_nil|exact good_nil]|]. intros [rows cap] [R C]. apply holds_ret. cbn [fst snd] in *. apply Forall_cons; [exact C|].
    apply flat_map_good. exact R.
  - intros token T. apply holds_bind with any; [keep|]. intros key _. apply holds_bind with any; [apply holds_setRawToken; exact T|]. intros; keep.
Qed.

Lemma tables_holds : forall fuel lines, holds (tokenizeTables_go f fuel lines) any.
Proof.
  pose proof finishTable_holds. induction fuel as [|fuel IH]; intros lines; destruct lines as [|line lines]; cbn [tokenizeTables_go]; keep.
Qed.

Lemma parseTables_holds : forall s, holds (parseTables f s) any.
Proof.
  intros s. unfold parseTables. apply holds_bind with any; [|intros; keep]. generalize (length (split nl s)) as n. generalize (split nl s). intros l n. revert l.
  induction n as [|n IH]; intros lines; destruct lines as [|line lines]; cbn [parseTables_go]; try keep.
  destruct (table_start _); [|keep]. apply holds_bind with any; [|intros; keep]. unfold tokenizeTables. apply holds_bind with any; [apply tables_holds|].
  intros [r after] _. apply holds_bind with any; [apply finishTable_holds|]. intros; keep.
Qed.

Lemma passes_holds : forall s, holds (passes cfg f s) any.
Proof.
  intros s. unfold passes, parseInternalLinks, parseExternalLinks.
  apply holds_bind with any; [apply parseNowiki_holds|intros s1 _].
  apply holds_bind with any; [keep|intros s2 _]; apply holds_bind with any; [apply parseHeadings_holds|intros s3 _];
   apply holds_bind with any; [apply parseReferences_holds|intros s4 _]; apply holds_bind with any; [apply parseLink_holds|intros s5 _];
   apply holds_bind with any; [apply galleries_holds|intros s6 _]; apply holds_bind with any; [apply imageMaps_holds|intros s7 _]; apply holds_bind with any; [apply images_holds|intros s8 _];
   apply holds_bind with any; [apply parseLink_holds|intros s9 _]; apply holds_bind with any; [apply parseMath_holds|intros s10 _]; apply holds_bind with any; [apply parseLists_holds|intros s11 _];
   apply holds_bind with any; [apply parseTables_holds|intros s12 _]; keep.
Qed.
End Recursive.

(** If the results of all calls are good then so are the texts of all tokens. *)
Theorem tokenizeContent_good : forall cfg, (forall fuel s t r t', tokenizeContent cfg fuel s t = Ok (r, t') -> good r) ->
  forall fuel s, holds (tokenizeContent cfg fuel s) any.
Proof.
  intros cfg Good. induction fuel as [|fuel IH]; intros s; cbn [tokenizeContent]; [keep|]. apply holds_bind with any.
  - apply passes_holds. intros x t a t' G E. split; [apply (IH x _ _ _ G E)|exact (Good _ _ _ _ _ E)].
  - intros s' _. destruct (str_eqb s' s); [keep|]. apply IH.
Qed.
End Good.
