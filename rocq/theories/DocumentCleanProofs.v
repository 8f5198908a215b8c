(** * The cleanup does not change a document *)

From Coq Require Import Ascii String.
From Coq Require Import List Arith NArith Bool Lia.
From Verif Require Import GoStr GoStrFacts TextFacts TrimFacts UtilModel BracketModel ConfigModel CleanerModel CleanerSpec CleanerProofs CleanerLinkProofs CleanerTemplateProofs TokenModel TokenSpec TokenProofs PassSpec SafeSpec SafeTextProofs.
From Verif Require Import FormattingSpec FormattingProofs HeadingModel TokenizerModel HeadingProofs.
From Verif Require Import DocumentSpec DocumentSettledProofs DocumentLineProofs DocumentPictureProofs DocumentRunProofs DocumentBlockProofs DocumentListProofs DocumentGridProofs DocumentPassProofs DocumentStartProofs.
Import ListNotations.
Local Open Scope list_scope.

Section Doc.
Context {cfg : configuration}.

(** ** The text as a line *)

Definition free (i : inline) : Prop := match i with Words s => forall c, In c !"[]_" -> ~ In c s | Quotes _ => True | _ => atom_ok i end.

Lemma calm_free : forall s, calm s -> forall c, In c !"[]_" -> ~ In c s.
Proof. intros s C c K I. apply (proj1 C c I). cbn in K |- *. intuition. Qed.

Lemma simple_free : forall i, simple_ok cfg i -> free i.
Proof. intros [s|k|x y|x y|f|p|nn nr] A; try exact A. destruct A as [_ W]. intros c K. apply letter_not; auto. cbn in K |- *. intuition. Qed.

(** The parts of a text: a footnote is its tags and the parts of its text. *)
Definition parted (i : inline) : Prop := exists l, Forall free l /\ line_wikitext l = inline_wikitext i.

Lemma free_parted : forall i, free i -> parted i.
Proof. intros i F. exists [i]. split; auto. unfold line_wikitext. cbn [map concat]. apply app_nil_r. Qed.

Lemma ok_parted : forall i, inline_ok i -> parted i.
Proof.
  intros i A. destruct i as [s|k|x y|x y|f|p|nn [a b]]; try (apply free_parted; apply simple_free; exact A). destruct A as [A B]. cbn [ReferenceSpec.ref_attributes ReferenceSpec.ref_body] in *. destruct (attributes_calm a A) as [C _]. pose proof (calm_free _ C) as C'.
  assert (O : forall e, (forall c, In c !"[]_" -> ~ In c e) -> free (Words (!"<ref" ++ ReferenceSpec.attributes_text a ++ e))).
  { intros e E c K I. rewrite !in_app_iff in I. destruct I as [I|[I|I]]; [cbn in I, K; intuition (subst; discriminate)|revert I; apply C'; auto|revert I; apply E; auto]. }
  cbn [inline_wikitext]. unfold parted, ReferenceSpec.reference_text. cbn [ReferenceSpec.ref_attributes ReferenceSpec.ref_body inline_wikitext]. destruct b as [body|].
  - destruct B as (l & -> & (_ & F & _) & _). exists (Words (!"<ref" ++ ReferenceSpec.attributes_text a ++ !">") :: l ++ [Words !"</ref>"]). split.
    + constructor; [apply O; intros c K I; cbn in I, K; intuition (subst; discriminate)|]. apply Forall_app. split; [eapply Forall_impl; [|exact F]; apply simple_free|]. constructor; auto. intros c K I. cbn in I, K. intuition (subst; discriminate).
    + rewrite line_cons, line_app, one_text. cbn [inline_wikitext]. rewrite <- !app_assoc. reflexivity.
  - exists [Words (!"<ref" ++ ReferenceSpec.attributes_text a ++ !"/>")]. split; [|apply one_text]. constructor; auto. apply O. intros c K I. cbn in I, K. intuition (subst; discriminate).
Qed.

Lemma parted_line : forall l, Forall parted l -> exists l', Forall free l' /\ line_wikitext l' = line_wikitext l.
Proof.
  intros l F. induction F as [|i l (x & X1 & X2) F (l' & L1 & L2)]; [exists []; auto|]. exists (x ++ l'). split; [apply Forall_app; auto|]. rewrite line_app, line_cons, X2, L2. auto.
Qed.

(** Words between the lines, and before and behind the text of a line *)
Definition frame (s : str) : Prop := forall c, In c s -> ~ In c !"[]_".

Lemma frame_free : forall s, frame s -> free (Words s).
Proof. intros s F c K I. apply (F c I). auto. Qed.

Lemma frame_equals : forall n, frame (equals n).
Proof. intros n c I. apply repeat_spec in I. subst. cbn. intuition discriminate. Qed.
Lemma frame_app : forall a b, frame a -> frame b -> frame (a ++ b).
Proof. intros a b A B c I. apply in_app_iff in I as [I|I]; auto. Qed.
Ltac a_frame := let c := fresh in let I := fresh in intros c I; cbn in I |- *; intuition (subst; discriminate).
Lemma frame_space : frame !" ".
Proof. a_frame. Qed.
Lemma frame_newline : frame nl.
Proof. a_frame. Qed.
Lemma frame_sign : forall c, frame (cell_sign c).
Proof. intros [[[] a] x]; a_frame. Qed.
Lemma frame_start : forall h c, kind_ok h (fst c) -> frame (cell_start c).
Proof. intros h c K d I J. apply (cell_start_char h) in I as [->|[->|I]]; auto; [cbn in J; intuition discriminate..|]. apply I. cbn in J |- *. intuition. Qed.
Lemma frame_words : forall s, words s -> frame s.
Proof. intros s W c I J. revert I. apply letter_not; auto. cbn in J |- *. intuition. Qed.
Lemma frame_listing : forall a, note_attributes_ok a -> frame (listing a).
Proof. intros a A. destruct (attributes_calm a A) as [C _]. unfold listing, ReferenceSpec.element_text. apply frame_app; [a_frame|]. apply frame_app; [|a_frame]. intros c I J. revert I. apply calm_free; auto. Qed.

(** What holds for the parts of the lines, and for the frame, holds for all of the document. *)
Lemma cells_parts : forall (Q : inline -> Prop) cells, (forall i, inline_ok i -> Q i) -> (forall s, s <> [] -> frame s -> Q (Words s)) -> cells_ok cells -> Forall Q (cells_row cells).
Proof.
  assert (P1 : forall c, cell_start c <> []) by (intros [[[] a] x]; discriminate). intros Q cells A B (h & [(k & -> & K)|[N F]]); cbn [cells_row].
  - cbn [map concat app snd]. constructor; auto. apply B; [apply P1|apply (frame_start h); auto].
  - destruct F as [|c cells [K [(_ & C & _) _]] F]; [contradiction|]. cbn [cells_row]. apply Forall_app. split.
    + assert (X : Forall Q (snd c)) by (eapply Forall_impl; [|exact C]; auto). destruct (snd c) as [|i text]; [constructor; auto; apply B; [apply P1|apply (frame_start h); auto]|].
      constructor; auto. apply B; [intros E; apply app_eq_nil in E as [_ E]; discriminate|apply frame_app; [apply (frame_start h); auto|apply frame_space]].
    + apply Forall_concat. apply Forall_map. eapply Forall_impl; [|exact F]. intros d [Kd [(_ & D & _) _]]. constructor; [|eapply Forall_impl; [|exact D]; auto].
      apply B; [discriminate|]. apply frame_app; [apply frame_space|]. apply frame_app; [apply frame_sign|]. apply frame_app; [apply (frame_start h); auto|apply frame_space].
Qed.

Lemma doc_parts : forall (Q : inline -> Prop) g doc, (forall i, inline_ok i -> Q i) -> (forall s, s <> [] -> frame s -> Q (Words s)) -> Forall block_ok doc -> Forall Q (flat (doc_lines g doc)).
Proof.
  intros Q g doc A B F. apply flat_Forall; [apply B; [discriminate|apply frame_newline]|]. apply layout_Forall; [constructor|]. apply Forall_map. eapply Forall_impl; [|exact F].
  assert (L : forall l, line_ok l -> Forall Q l) by (intros l (_ & L & _); eapply Forall_impl; [|exact L]; auto).
  assert (Hd : forall n title, line_ok title -> Forall Q (Words (equals n ++ !" ") :: title ++ [Words (!" " ++ equals n)])).
  { intros n title T. constructor; [apply B; [intros E; apply app_eq_nil in E as [_ E]; discriminate|apply frame_app; [apply frame_equals|apply frame_space]]|].
    apply Forall_app. split; [apply L; auto|]. constructor; auto. apply B; [discriminate|]. apply frame_app; [apply frame_space|apply frame_equals]. }
  intros [n title|lines|items|a caption rows|p|fn ft fa fx]; cbn [block_ok lines_of].
  - intros (_ & T & _). constructor; auto.
  - intros (_ & T). eapply Forall_impl; [|exact T]. intros l (H & _). auto.
  - intros T. apply list_ok_good in T. eapply list_rows; [|exact T]. intros above m x Ab [X _]. constructor; [|apply L; auto]. apply B; [intros E; apply app_eq_nil in E as [_ E]; discriminate|].
    apply frame_app; [|apply frame_app; [destruct m; a_frame|apply frame_space]]. intros c I. rewrite Forall_forall in Ab. apply Ab in I. cbn in I |- *. intuition (subst; discriminate).
  - intros ((W & _) & C & Fr). constructor; [constructor; [apply B; [discriminate|apply frame_app; [a_frame|apply frame_words; auto]]|constructor]|]. apply Forall_app. split; [|apply Forall_app; split].
    + destruct caption as [k|]; constructor; [|constructor]. constructor; [apply B; [discriminate|a_frame]|]. apply L. apply C. auto.
    + unfold grid_rows. apply Forall_concat. apply Forall_map. eapply Forall_impl; [|exact Fr]. intros row R. constructor; [constructor; [apply B; [discriminate|a_frame]|constructor]|].
      apply Forall_map. eapply Forall_impl; [|exact R]. intros cells H. apply cells_parts; auto.
    + constructor; [|constructor]. constructor; [apply B; [discriminate|a_frame]|constructor].
  - intros T. constructor; [|constructor]. apply L. apply picture_line. auto.
  - intros ((_ & T & _) & A' & _). constructor; auto. constructor; [|constructor]. constructor; [|constructor]. apply B; [discriminate|]. apply frame_listing. auto.
Qed.

Lemma doc_free : forall g doc, Forall block_ok doc -> exists l, Forall free l /\ line_wikitext l = laid g doc.
Proof.
  intros g doc F. rewrite doc_text. apply parted_line. apply doc_parts; auto; [apply ok_parted|intros; apply free_parted; apply frame_free; auto].
Qed.

(** ** Links *)

Definition phrase_brackets (x : phrase) : list bracketed :=
  match x with
  | Said s => map Plain s
  | Linked article label => [Link (map Plain (article ++ match label with Some l => !"|" ++ l | None => [] end))]
  end.

Definition brackets_of (i : inline) : list bracketed :=
  match i with
  | Words s => map Plain s
  | Quotes k => map Plain (quotes_of k)
  | LinkTo article label => [Link (map Plain (article ++ match label with Some l => !"|" ++ l | None => [] end))]
  | Address url label => [Single (map Plain (url ++ !" " ++ label))]
  | Math f => map Plain (inline_wikitext (Math f))
  | Picture p => [Link (map Plain (picture_head p) ++ match caption_text p with Some c => map Plain !"|" ++ concat (map phrase_brackets c) | None => [] end)]
  | Note _ r => map Plain (ReferenceSpec.reference_text r)
  end.

Lemma plain_texts : forall s, bracketed_texts (map Plain s) = s.
Proof. unfold bracketed_texts. induction s as [|c s IH]; auto. cbn [map concat bracketed_text app]. f_equal. auto. Qed.

Lemma texts_app : forall a b, bracketed_texts (a ++ b) = bracketed_texts a ++ bracketed_texts b.
Proof. intros. unfold bracketed_texts. rewrite map_app, concat_app. auto. Qed.

Lemma phrase_brackets_text : forall x, bracketed_texts (phrase_brackets x) = phrase_wikitext x.
Proof.
  intros [s|a label]; cbn [phrase_brackets phrase_wikitext]; [apply plain_texts|]. unfold bracketed_texts at 1; cbn [map concat bracketed_text]; change (concat (map bracketed_text ?l)) with (bracketed_texts l); rewrite plain_texts, app_nil_r, <- ?app_assoc; auto.
Qed.

Lemma phrases_brackets_text : forall c, bracketed_texts (concat (map phrase_brackets c)) = caption_wikitext c.
Proof. unfold caption_wikitext. induction c as [|x c IH]; auto. cbn [map concat]. rewrite texts_app, phrase_brackets_text, IH. auto. Qed.

Lemma picture_brackets_text : forall p, bracketed_texts (map Plain (picture_head p) ++ match caption_text p with Some c => map Plain !"|" ++ concat (map phrase_brackets c) | None => [] end) = picture_inside p.
Proof. intros p. rewrite texts_app, plain_texts, inside_parts. destruct (caption_text p) as [c|]; auto. rewrite texts_app, plain_texts, phrases_brackets_text. auto. Qed.

Lemma brackets_text : forall i, bracketed_texts (brackets_of i) = inline_wikitext i.
Proof.
  intros [s|k|a label|u label|f|p|nn nr]; [| | | | |cbn [inline_wikitext]; rewrite picture_text; cbn [brackets_of]; unfold bracketed_texts; cbn [map concat bracketed_text]; change (concat (map bracketed_text ?l)) with (bracketed_texts l); rewrite picture_brackets_text, app_nil_r; auto|apply plain_texts]; cbn [brackets_of inline_wikitext]; try apply plain_texts; unfold bracketed_texts at 1; cbn [map concat bracketed_text]; change (concat (map bracketed_text ?l)) with (bracketed_texts l); rewrite plain_texts, app_nil_r, <- !app_assoc; auto.
Qed.

Lemma brackets_texts : forall l, bracketed_texts (concat (map brackets_of l)) = line_wikitext l.
Proof. induction l as [|i l IH]; auto. cbn [map concat]. rewrite texts_app, brackets_text, line_cons, IH. auto. Qed.

Lemma plain_proper : forall s l, ~ In "["%char s -> ~ In "]"%char s -> proper_brackets l -> proper_brackets (map Plain s ++ l).
Proof.
  induction s as [|c s IH]; intros l A B L; auto. cbn [map app]. constructor.
  - intros ->. apply A. left. auto.
  - intros ->. apply B. left. auto.
  - apply IH; auto; intros I; [apply A|apply B]; right; auto.
Qed.

Lemma plain_kept : forall s l, without_unwanted cfg l l -> without_unwanted cfg (map Plain s ++ l) (map Plain s ++ l).
Proof. induction s as [|c s IH]; intros l L; auto. cbn [map app]. constructor. auto. Qed.

Lemma plain_first : forall s, not_bracket_first (map Plain s).
Proof. intros [|c s] e l E; [discriminate|]. cbn [map] in E. injection E as <- _. eauto. Qed.

Lemma link_text_chars : forall a label c, inline_ok (LinkTo a label) -> In c !"[]:" -> ~ In c (a ++ match label with Some l => !"|" ++ l | None => [] end).
Proof.
  intros a label c (_ & W & W' & N & N' & _) C I.
  assert (Z : forall s, words s -> no_char ":" s -> ~ In c s).
  { intros s S D. cbn in C. destruct C as [<-|[<-|[<-|[]]]]; [apply letter_not; auto; cbn; auto|apply letter_not; auto; cbn; auto|exact D]. }
  apply in_app_iff in I as [I|I]; [revert I; apply Z; auto|]. destruct label as [y|]; [|destruct I]. apply in_app_iff in I as [[<-|[]]|I]; [cbn in C; intuition discriminate|revert I; apply Z; auto].
Qed.

Lemma address_text_chars : forall u label c, inline_ok (Address u label) -> In c !"[]" -> ~ In c (u ++ !" " ++ label).
Proof.
  intros u label c (_ & _ & U & _ & W & _) C I. rewrite !in_app_iff in I. destruct I as [I|[I|I]].
  - rewrite Forall_forall in U. apply (U c I). cbn in C |- *. intuition.
  - destruct I as [<-|[]]. cbn in C. intuition discriminate.
  - revert I. apply letter_not; auto. cbn in C |- *. intuition.
Qed.

Lemma quotes_chars : forall k c, In c (quotes_of k) -> c = "'"%char.
Proof. intros [] c I; cbn in I; intuition. Qed.

Lemma plain_first_app : forall s l, s <> [] -> not_bracket_first (map Plain s ++ l).
Proof. intros [|c s] k N e l E; [contradiction|]. cbn [map app] in E. injection E as <- _. eauto. Qed.

Lemma link_brackets : forall a label l, inline_ok (LinkTo a label) -> proper_brackets l -> without_unwanted cfg l l ->
  proper_brackets ([Link (map Plain (a ++ match label with Some l => !"|" ++ l | None => [] end))] ++ l) /\
  without_unwanted cfg ([Link (map Plain (a ++ match label with Some l => !"|" ++ l | None => [] end))] ++ l) ([Link (map Plain (a ++ match label with Some l => !"|" ++ l | None => [] end))] ++ l).
Proof.
  intros a label l A IH1 IH2. pose proof (link_text_chars a label) as C. set (x := a ++ _) in *. assert (Px : proper_brackets (map Plain x)) by (rewrite <- (app_nil_r (map Plain x)); apply plain_proper; [apply C; auto; cbn; auto..|constructor]).
  cbn [app]. split; [constructor; auto; apply plain_first|]. apply wu_keep; auto.
  + rewrite plain_texts. intros ((p & (_ & y & z & E & _) & _) & _). apply (C ":"%char A); [cbn; auto|]. rewrite E. rewrite !in_app_iff. right. right. left. left. auto.
  + rewrite <- (app_nil_r (map Plain x)). apply plain_kept. constructor.
Qed.

Lemma phrases_brackets : forall c, Forall phrase_ok c -> proper_brackets (concat (map phrase_brackets c)) /\ without_unwanted cfg (concat (map phrase_brackets c)) (concat (map phrase_brackets c)).
Proof.
  intros c F. induction F as [|x c A F [IH1 IH2]]; [split; constructor|]. cbn [map concat]. destruct x as [s|a label]; cbn [phrase_brackets phrase_ok] in *.
  - split; [apply plain_proper; auto; apply letter_not; auto; cbn; auto|apply plain_kept; auto].
  - apply link_brackets; auto.
Qed.

Lemma line_brackets : forall l, Forall free l -> proper_brackets (concat (map brackets_of l)) /\ without_unwanted cfg (concat (map brackets_of l)) (concat (map brackets_of l)).
Proof.
  intros l F. induction F as [|i l A F [IH1 IH2]]; [split; constructor|]. cbn [map concat]. destruct i as [s|k|a label|u label|f|p|nn nr]; cbn [brackets_of free] in *.
  - split; [apply plain_proper; auto; apply A; cbn; auto|apply plain_kept; auto].
  - split; [|apply plain_kept; auto]. apply plain_proper; auto; intros J; apply quotes_chars in J; discriminate.
  - apply link_brackets; auto.
  - pose proof (address_text_chars u label) as C. set (x := u ++ _) in *. assert (Px : proper_brackets (map Plain x)) by (rewrite <- (app_nil_r (map Plain x)); apply plain_proper; [apply C; auto; cbn; auto..|constructor]).
    cbn [app]. split; [constructor; auto; apply plain_first|]. apply wu_single; auto. rewrite <- (app_nil_r (map Plain x)). apply plain_kept. constructor.
  - split; [|apply plain_kept; auto]. apply plain_proper; auto; apply formula_chars; auto; cbn; auto.
  - pose proof (fun c => head_chars p c A) as C. assert (B : forall c, caption_text p = Some c -> Forall phrase_ok c) by (intros c Cp; apply A; auto).
    assert (Q : proper_brackets (match caption_text p with Some c => map Plain !"|" ++ concat (map phrase_brackets c) | None => [] end) /\ without_unwanted cfg (match caption_text p with Some c => map Plain !"|" ++ concat (map phrase_brackets c) | None => [] end) (match caption_text p with Some c => map Plain !"|" ++ concat (map phrase_brackets c) | None => [] end)).
    { destruct (caption_text p) as [c|]; [|split; constructor]. destruct (phrases_brackets c (B c eq_refl)). split; [apply plain_proper; auto; cbn; intuition discriminate|apply plain_kept; auto]. }
    destruct Q as [Q1 Q2]. cbn [app]. split.
    + constructor; auto; [|apply plain_proper; auto; apply C; cbn; auto].
      apply plain_first_app. intros Z. unfold picture_head in Z. apply app_eq_nil in Z as [_ Z]. discriminate.
    + apply wu_keep; auto; [|apply plain_kept; auto]. rewrite picture_brackets_text. destruct A as (I & _ & _ & _ & N & _). intros (_ & _ & U). apply (U (file_prefix p)); auto. split; auto. exists (picture_body p). reflexivity.
  - destruct A.
Qed.

Lemma doc_links : forall g doc, Forall block_ok doc -> removeUnwantedInternalLinks cfg (laid g doc) = Ok (laid g doc).
Proof.
  intros g doc F. destruct (doc_free g doc F) as (l & L & <-). rewrite <- brackets_texts. destruct (line_brackets _ L) as [A B].
  destruct (removeUnwantedInternalLinks_spec cfg _ A) as (l' & W & ->). rewrite (without_unwanted_det cfg _ _ W _ B). auto.
Qed.

(** ** Templates *)

Lemma no_braces : forall s, lonely "{" s -> handleUnwantedAndTrailingTemplates cfg s = Ok s.
Proof.
  intros s A. unfold handleUnwantedAndTrailingTemplates. assert (G : forall fuel i, length s < fuel + i -> i <= length s -> handleTemplates_go cfg fuel s i [] = Ok (s, [])).
  { induction fuel as [|fuel IH]; intros i L I; [lia|]. cbn [handleTemplates_go]. destruct (Nat.ltb_spec (i + 1) (length s)) as [K|K]; auto. destruct (has_prefix !"{{" (skipn i s)) eqn:E; [|apply IH; lia].
    apply has_prefix_spec in E as (x & E). exfalso. apply (A (firstn i s) x). rewrite <- (firstn_skipn i s) at 1. rewrite E. reflexivity. }
  rewrite G by lia. cbn [bind map concat]. rewrite app_nil_r. auto.
Qed.

(** ** The table of contents *)

(** An occurrence of a word behind a text without the first character of the word *)
Lemma skip_text : forall x (c : ascii) w r a b, ~ In c x -> x ++ r = a ++ (c :: w) ++ b -> exists a', a = x ++ a' /\ r = a' ++ (c :: w) ++ b.
Proof.
  intros x c w r a b N E. apply app_eq_app in E as (m & [[-> H]|[-> H]]).
  - destruct m as [|d m]; [exists []; rewrite !app_nil_r in *; auto|]. assert (d = c) by (cbn [app] in H; congruence). subst d. exfalso. apply N. apply in_app_iff. right. left. auto.
  - exists m. auto.
Qed.

Definition notoc : str := !"_NOTOC__".
Lemma toc_text : forall s d r a b, contains !"__NOTOC__" s = false -> ~ In d ("_"%char :: notoc) -> s ++ d :: r = a ++ ("_"%char :: notoc) ++ b -> exists a', d :: r = a' ++ ("_"%char :: notoc) ++ b.
Proof.
  intros s d r a b T D E. apply app_eq_app in E as (m & [[E1 E2]|[-> E2]]); [|eauto]. destruct m as [|c m]; [cbn [app] in E2; injection E2 as <- _; exfalso; apply D; left; auto|].
  assert (X : exists m', "_"%char :: notoc = (c :: m) ++ m' \/ c :: m = ("_"%char :: notoc) ++ m').
  { apply app_eq_app in E2 as (z & [[Z1 Z2]|[Z1 Z2]]); eauto. }
  exfalso. destruct X as (m' & [X|X]).
  - destruct m' as [|e m'].
    + rewrite app_nil_r in X. rewrite <- X in E1. apply contains_false with (a := a) (b := []) in T. rewrite app_nil_r in T. auto.
    + assert (E3 : e = d). { rewrite X in E2. rewrite <- app_assoc in E2. apply app_inv_head in E2. cbn [app] in E2. congruence. }
      subst e. apply D. rewrite X. apply in_app_iff. right. left. auto.
  - rewrite X in E1. apply contains_false with (a := a) (b := m') in T. auto.
Qed.

Lemma no_toc : forall l a b, Forall free l -> line_wikitext l <> a ++ ("_"%char :: notoc) ++ b.
Proof.
  intros l a b F. revert a b. induction F as [|i l A F IH]; intros a b E; [destruct a; discriminate|]. rewrite line_cons in E.
  assert (Z : forall s r a, ~ In "_"%char s -> s ++ r = a ++ ("_"%char :: notoc) ++ b -> exists a', r = a' ++ ("_"%char :: notoc) ++ b).
  { intros s r a0 N H. apply skip_text in H as (a' & _ & H); eauto. }
  assert (D : ~ In "_"%char (inline_wikitext i) -> False).
  { intros N. apply Z in E as (a' & E); auto. eapply IH; eauto. }
  destruct i as [s|k|x label|u label|f|p|nn nr].
  - apply D. apply A. cbn. auto.
  - apply D. intros J. apply quotes_chars in J. discriminate.
  - apply D. destruct A as (_ & W & W' & _). cbn [inline_wikitext]. assert (V : forall s, words s -> ~ In "_"%char s) by (intros; apply letter_not; auto; cbn; auto 20).
    rewrite !in_app_iff. intros [J|[J|[J|J]]]; [cbn in J; intuition discriminate|revert J; apply V; auto| |cbn in J; intuition discriminate].
    destruct label as [y|]; [|destruct J]. apply in_app_iff in J as [J|J]; [cbn in J; intuition discriminate|revert J; apply V; auto].
  - destruct A as (_ & _ & _ & T & W & _). cbn [inline_wikitext] in E. rewrite <- !app_assoc in E. apply Z in E as (a1 & E); [|cbn; intuition discriminate].
    apply toc_text in E as (a2 & E2); [|auto|cbn; intuition discriminate]. apply (Z !" ") in E2 as (a3 & E2); [|cbn; intuition discriminate]. apply Z in E2 as (a4 & E2); [|apply letter_not; auto; cbn; auto 20].
    apply Z in E2 as (a5 & E2); [|cbn; intuition discriminate]. eapply IH; eauto.
  - destruct A as (_ & _ & T & _). cbn [inline_wikitext] in E. rewrite <- !app_assoc in E. apply Z in E as (a1 & E); [|cbn; intuition discriminate].
    apply toc_text in E as (a2 & E2); [|auto|cbn; intuition discriminate]. apply (Z !"</math>") in E2 as (a3 & E2); [|cbn; intuition discriminate]. eapply IH; eauto.
  - pose proof (fun c => options_chars p c A) as O. destruct A as (_ & _ & _ & W & _ & _ & _ & _ & _ & _ & _ & T & _). cbn [inline_wikitext] in E. unfold picture_wikitext in E. rewrite <- !app_assoc in E.
    apply Z in E as (a1 & E); [|cbn; intuition discriminate]. apply Z in E as (a2 & E); [|apply letter_not; auto; cbn; auto 20]. apply Z in E as (a3 & E); [|cbn; intuition discriminate].
    set (o := concat _) in *. assert (X : exists d r, o ++ !"]]" ++ line_wikitext l = d :: r /\ ~ In d ("_"%char :: notoc)).
    { unfold o. destruct (picture_options p) as [|y ys]; cbn [map concat app]; eexists _, _; (split; [reflexivity|cbn; intuition discriminate]). }
    destruct X as (d & r & X & Nd). rewrite X in E. apply toc_text in E as (a4 & E); auto. rewrite <- X in E. apply Z in E as (a5 & E); [|apply O; cbn; auto 20]. apply Z in E as (a6 & E); [|cbn; intuition discriminate]. eapply IH; eauto.
  - destruct A.
Qed.

Lemma doc_toc : forall g doc, Forall block_ok doc -> removeUnwantedWikitext (laid g doc) = laid g doc.
Proof.
  intros g doc F. unfold removeUnwantedWikitext. apply replace_all_none. apply contains_false_index. apply contains_false. intros a b.
  destruct (doc_free g doc F) as (l & L & <-). apply no_toc. auto.
Qed.

(** ** Lines *)

Lemma first_of : forall s, trim_space s = s -> no_block_start s -> forall c x, s = c :: x -> ~ starts_block c.
Proof. intros s T N c x E. apply (N c x). rewrite T. auto. Qed.

Lemma heading_trim : forall n s, 0 < n -> trim_space (equals n ++ s ++ equals n) = equals n ++ s ++ equals n.
Proof.
  intros n s L. apply trimmed_iff. destruct n as [|n]; [lia|]. split; intros r I.
  - cbn [equals repeat app]. apply solid_first; auto.
  - change (repeat "="%char (S n)) with (equals (S n)). assert (E : equals (S n) = equals n ++ !"=") by apply CleanerProofs.equals_snoc. rewrite E at 2. rewrite !app_assoc. apply solid_last; auto.
Qed.

Record plain_line (s : str) : Prop := { line_trim : trim_space s = s; line_some : s <> []; line_full : ~ empty_entry s; line_depth : headingDepth s = 0 }.

Lemma depth_none : forall s, (forall x, s <> "="%char :: x) -> (has_prefix !"'''" s = true -> has_suffix !"'''" s = true -> False) -> headingDepth s = 0.
Proof.
  intros s N B. unfold headingDepth. assert (E : has_prefix !"=" s = false) by (destruct (has_prefix !"=" s) eqn:E; auto; apply has_prefix_spec in E as (x & E); exfalso; eapply N; eauto).
  rewrite E. cbn [negb orb]. destruct (has_prefix !"'''" s) eqn:E1, (has_suffix !"'''" s) eqn:E2; auto. exfalso. auto.
Qed.

Lemma text_some : forall l, line_ok l -> line_wikitext l <> [].
Proof.
  intros l (N & F & _). destruct l as [|i l]; [contradiction|]. inversion F; subst. rewrite line_cons. intros E. apply app_eq_nil in E as [E _].
  destruct i as [s|k|x y|x y|f|p|nn nr]; try discriminate E; [destruct H1 as [H1 _]; contradiction|destruct k; discriminate E].
Qed.

(** Lines that begin with a sign *)
Lemma sign_depth : forall c x, c <> "="%char -> c <> "'"%char -> headingDepth (c :: x) = 0.
Proof. intros c x A B. apply depth_none; [intros y E; congruence|]. intros H. apply has_prefix_spec in H as (y & H). cbn [app] in H. congruence. Qed.

Lemma framed_plain : forall c p s, solid c = true -> c <> "="%char -> c <> "'"%char -> s <> [] -> trim_space s = s -> plain_line ((c :: p) ++ !" " ++ s).
Proof.
  intros c p s S A B N T. assert (T' := framed_trim c p s S N T). constructor; auto; [discriminate| |apply sign_depth; auto].
  intros [_ E]. rewrite T' in E. rewrite Forall_forall in E. specialize (E " "%char). destruct E as [E|[E|[E|E]]]; try discriminate E. apply in_app_iff. right. left. auto.
Qed.

Lemma sign_plain : forall c x, trim_space (c :: x) = c :: x -> ~ In c !"=';*#:" -> plain_line (c :: x).
Proof.
  intros c x T N. constructor; auto; [discriminate| |apply sign_depth; intros ->; apply N; cbn; auto].
  intros [_ E]. rewrite T in E. inversion E as [|? ? H _]; subst. apply N. destruct H as [->|[->|[->| ->]]]; cbn; auto 10.
Qed.

Lemma snoc_cells : forall A (l : list A), l = [] \/ exists l' a, l = l' ++ [a].
Proof. intros A l. induction l as [|a l [->|(l' & b & ->)]] using rev_ind; eauto. Qed.

Lemma cells_plain_line : forall cells, cells_ok cells -> plain_line (cells_line cells).
Proof.
  intros cells (h & [([k [|b a]] & -> & K)|[N F]]); [destruct k; apply sign_plain; [reflexivity|cbn; intuition discriminate|reflexivity|cbn; intuition discriminate]| |].
  { cbn [cells_line snd map concat app]. rewrite !app_nil_r. unfold cell_start. cbn [fst cell_attributes]. destruct (cell_sign_shape (mkKind k (b :: a), [])) as (d & -> & D).
    assert (E : [d] ++ !" " ++ attributes_source (b :: a) ++ !" |" = (d :: !" " ++ attributes_source (b :: a)) ++ !" " ++ !"|") by (cbn [app]; rewrite <- ?app_assoc; reflexivity).
    rewrite E. apply framed_plain; auto; try discriminate; destruct D; subst; try discriminate; reflexivity. }
  assert (X : exists c p s, cells_line cells = (c :: p) ++ !" " ++ s /\ (c = "|"%char \/ c = "!"%char) /\ s <> [] /\ trim_space s = s).
  { assert (G : forall k : grid_cell, grid_text_ok (snd k) -> line_wikitext (snd k) <> [] /\ trim_space (line_wikitext (snd k)) = line_wikitext (snd k)).
    { intros k [K _]. split; [apply text_some; auto|apply K]. }
    destruct cells as [|k cells]; [contradiction|]. cbn [cells_line]. destruct (cell_start_shape k) as (c & z & -> & C). inversion F as [|? ? [_ K] F']; subst. pose proof (G k K) as Gk. assert (Nk : snd k <> []) by apply K.
    destruct (snoc_cells _ cells) as [->|(cells' & d & ->)].
    - exists c, z, (line_wikitext (snd k)). split; [|split; auto]. destruct (snd k); [contradiction|]. cbn [map concat]. rewrite app_nil_r. reflexivity.
    - apply Forall_app in F' as [_ F']. inversion F' as [|? ? [_ D] _]; subst. exists c, (z ++ match snd k with [] => [] | _ => !" " ++ line_wikitext (snd k) end ++ concat (map (fun c => !" " ++ cell_sign c ++ cell_start c ++ !" " ++ line_wikitext (snd c)) cells') ++ !" " ++ cell_sign d ++ cell_start d), (line_wikitext (snd d)).
      split; [|split; auto]. rewrite map_app, concat_app. cbn [map concat]. rewrite app_nil_r. cbn [app]. f_equal. rewrite <- !app_assoc. f_equal. f_equal. cbn [app]. rewrite <- !app_assoc. reflexivity. }
  destruct X as (c & p & s & -> & C & Ns & T). apply framed_plain; auto; destruct C; subst; try discriminate; reflexivity.
Qed.

(** The edges of a line that begins and ends with three quotes *)
Lemma inline_no_quote : forall i, inline_ok i -> is_quotes i = false -> plain (inline_wikitext i) /\ inline_wikitext i <> [].
Proof. intros i A Q. apply ok_plain in A. apply A in Q as [Q1 Q2]. auto. Qed.

Lemma quotes_first : forall l x, Forall inline_ok l -> quotes_apart l -> line_wikitext l = !"'''" ++ x -> exists l', l = Quotes Bold :: l'.
Proof.
  intros [|i l] x F Q E; [discriminate|]. inversion F as [|? ? A F']; subst. rewrite line_cons in E. destruct (is_quotes i) eqn:K.
  - destruct i as [s|[]|a b|a b|f|p|nn nr]; try discriminate K; eauto. exfalso. cbn [inline_wikitext quotes_of] in E. change (!"''" ++ line_wikitext l = !"''" ++ !"'" ++ x) in E. apply app_inv_head in E.
    destruct l as [|j l]; [discriminate|]. inversion F' as [|? ? A' F'']; subst. rewrite line_cons in E. destruct (is_quotes j) eqn:K'.
    + destruct j as [s|k'|a b|a b|f|p|nn nr]; try discriminate K'. destruct Q as [Q _]. eapply (Q Italic k' l); auto.
    + apply inline_no_quote in K' as [N1 N2]; auto. destruct (inline_wikitext j) as [|c y]; [contradiction|]. apply FormattingProofs.plain_first in N1. apply N1. change (c = "'"%char). cbn [app] in E. congruence.
  - exfalso. apply inline_no_quote in K as [N1 N2]; auto. destruct (inline_wikitext i) as [|c y]; [contradiction|]. apply FormattingProofs.plain_first in N1. apply N1. change (c = "'"%char). cbn [app] in E. congruence.
Qed.

Lemma snoc_cases : forall A (l : list A), l = [] \/ exists l' a, l = l' ++ [a].
Proof. intros A l. induction l as [|a l [->|(l' & b & ->)]] using rev_ind; eauto. Qed.

Lemma last_char : forall (s x : str) (c d : ascii), s <> [] -> s ++ [c] = x ++ [d] -> c = d.
Proof. intros s x c d _ E. apply app_inj_tail in E as [_ E]. auto. Qed.

Lemma apart_end : forall l k k', ~ quotes_apart (l ++ [Quotes k; Quotes k']).
Proof.
  induction l as [|i l IH]; intros k k' Q.
  - destruct Q as [Q _]. eapply (Q k k' []); auto.
  - destruct Q as [_ Q]. eapply IH; eauto.
Qed.

Lemma quotes_last : forall l x, Forall inline_ok l -> quotes_apart l -> line_wikitext l = x ++ !"'''" -> exists l', l = l' ++ [Quotes Bold].
Proof.
  intros l x F Q E. destruct (snoc_cases _ l) as [->|(l' & i & ->)]; [destruct x; discriminate|]. apply Forall_app in F as [F' F]. inversion F as [|? ? A _]; subst.
  assert (G : forall (y s z : str), is_quotes i = false \/ True -> s <> [] -> plain s -> y ++ s <> z ++ !"'").
  { intros y s z _ N1 N2 H. destruct (snoc_cases _ s) as [->|(s' & c & ->)]; [contradiction|]. rewrite app_assoc in H. apply app_inj_tail in H as [_ H]. apply (proj2 (proj2 N2) s'). subst. reflexivity. }
  rewrite line_app, line_cons in E. unfold line_wikitext at 2 in E. cbn [map concat] in E. rewrite app_nil_r in E. destruct (is_quotes i) eqn:K.
  - destruct i as [s|[]|a b|a b|f|p|nn nr]; try discriminate K; eauto. exfalso. cbn [inline_wikitext quotes_of] in E. replace (x ++ !"'''") with ((x ++ !"'") ++ !"''") in E by (rewrite <- app_assoc; auto). apply app_inv_tail in E.
    destruct (snoc_cases _ l') as [->|(l2 & j & ->)]; [destruct x; discriminate|]. apply Forall_app in F' as [F2 F'']. inversion F'' as [|? ? A' _]; subst.
    rewrite line_app, line_cons in E. unfold line_wikitext at 2 in E. cbn [map concat] in E. rewrite app_nil_r in E. destruct (is_quotes j) eqn:K'.
    + destruct j as [s|k'|a b|a b|f|p|nn nr]; try discriminate K'. rewrite <- app_assoc in Q. exact (apart_end _ _ _ Q).
    + apply inline_no_quote in K' as [N1 N2]; auto. eapply G; eauto.
  - exfalso. apply inline_no_quote in K as [N1 N2]; auto. replace (x ++ !"'''") with ((x ++ !"''") ++ !"'") in E by (rewrite <- app_assoc; auto). eapply G; eauto.
Qed.

Lemma paragraph_plain : forall l, line_ok l -> ~ all_bold l -> plain_line (line_wikitext l).
Proof.
  intros l L B. assert (N : line_wikitext l <> []) by (apply text_some; auto).
  destruct L as (Nl & F & Q & S & T & St). pose proof (first_of _ T St) as C. constructor; auto.
  - intros [_ E]. rewrite T in E. destruct (line_wikitext l) as [|c x]; [contradiction|]. apply (C c x eq_refl). inversion E as [|? ? H _]; subst. destruct H as [->|[->|[->| ->]]]; cbn; auto 10.
  - apply depth_none; [intros x E; apply (C _ _ E); cbn; auto|]. intros H1 H2. apply has_prefix_spec in H1 as (x & H1). apply has_suffix_spec in H2 as (y & H2).
    apply quotes_first in H1 as (l1 & ->); auto. apply quotes_last in H2 as (l2 & E); auto. destruct l2 as [|i l2].
    + assert (l1 = []) by (cbn [app] in E; congruence). subst. discriminate S.
    + apply B. exists l2. cbn [app] in E. congruence.
Qed.

Lemma heading_depth : forall n s, 0 < n -> headingDepth (equals n ++ !" " ++ s ++ !" " ++ equals n) = n.
Proof.
  intros n s L. apply headingDepth_spec; auto. replace (equals n ++ !" " ++ s ++ !" " ++ equals n) with (equals n ++ (!" " ++ s ++ !" ") ++ equals n) by (rewrite <- !app_assoc; auto).
  apply CleanerSpec.heading_title; auto; [discriminate|]. destruct (has_suffix !"=" (!" " ++ s ++ !" ")) eqn:E; auto. apply has_suffix_spec in E as (x & E). rewrite app_assoc in E. apply app_inj_tail in E as [_ E]. discriminate.
Qed.

Definition doc_line (s : str) : Prop := ~ empty_entry s /\ trim_space s = s.

Lemma doc_line_plain : forall s, plain_line s -> doc_line s.
Proof. intros s []. split; auto. Qed.

Lemma text_block_lines : forall b, block_ok b -> section_level b = None -> Forall plain_line (block_lines b).
Proof.
  intros b B N. rewrite <- lines_of_text. apply Forall_map. destruct b as [n title|lines|items|a caption rows|p|fn ft fa fx]; cbn [lines_of]; try discriminate N.
  - destruct B as [_ B]. eapply Forall_impl; [|exact B]. intros l (L & _ & A). apply paragraph_plain; auto.
  - cbn in B. apply list_ok_good in B. eapply list_rows; [|exact B]. intros above m x Ab [X _]. rewrite line_cons. cbn [inline_wikitext].
    assert (Y : exists c p, above ++ [sign m] = c :: p /\ In c signs).
    { destruct Ab as [|c above C Ab]; [exists (sign m), []; split; [reflexivity|apply sign_In]|]. exists c, (above ++ [sign m]). auto. }
    destruct Y as (c & p & E & C). replace ((above ++ [sign m] ++ !" ") ++ line_wikitext x) with ((c :: p) ++ !" " ++ line_wikitext x) by (rewrite <- E, <- !app_assoc; reflexivity).
    apply framed_plain; [apply signs_solid; auto|intros ->; cbn in C; intuition discriminate|intros ->; cbn in C; intuition discriminate|apply text_some; auto|apply X].
  - destruct B as ((_ & _ & T) & C & F). constructor; [rewrite one_text; apply (sign_plain "{"%char (!"|" ++ a)); [exact T|cbn; intuition discriminate]|]. apply Forall_app. split; [|apply Forall_app; split].
    + destruct caption as [c|]; constructor; [|constructor]. destruct (C c eq_refl) as [L _]. rewrite line_cons. cbn [inline_wikitext]. apply (framed_plain "|"%char !"+"); [reflexivity|discriminate|discriminate|apply text_some; auto|apply L].
    + unfold grid_rows. apply Forall_concat. apply Forall_map. eapply Forall_impl; [|exact F]. intros row R. constructor; [rewrite one_text; apply sign_plain; [reflexivity|cbn; intuition discriminate]|].
      apply Forall_map. eapply Forall_impl; [|exact R]. intros cells H. rewrite cells_row_text. apply cells_plain_line. auto.
    + constructor; [|constructor]. rewrite one_text. apply sign_plain; [reflexivity|cbn; intuition discriminate].
  - constructor; [|constructor]. apply paragraph_plain; [apply picture_line; auto|]. intros (l & H). discriminate.
Qed.

Lemma listing_line : forall a, plain_line (listing a).
Proof.
  intros a. unfold listing, ReferenceSpec.element_text. apply (sign_plain "<"%char (!"references" ++ ReferenceSpec.attributes_text a ++ !"/>")); [|cbn; intuition discriminate].
  apply trimmed_iff. split; intros r I; [apply (solid_first "<"%char); auto|]. change ("<"%char :: !"references" ++ ReferenceSpec.attributes_text a ++ !"/>") with (!"<references" ++ ReferenceSpec.attributes_text a ++ !"/" ++ !">"). rewrite !app_assoc. apply solid_last; auto.
Qed.

Definition section_line (n : nat) (title : list inline) : str := equals n ++ !" " ++ line_wikitext title ++ !" " ++ equals n.

Lemma section_lines : forall b n, block_ok b -> section_level b = Some n -> 0 < n /\ exists title rest, block_lines b = section_line n title :: rest /\ Forall plain_line rest /\ (rest = [] -> b = Heading n title).
Proof.
  intros [n' title|lines|items|a caption rows|p|fn ft fa fx] n B E; try discriminate E; injection E as ->.
  - destruct B as (B1 & _). split; [lia|]. exists title, []. auto.
  - destruct B as ((B1 & _) & _). split; [lia|]. exists ft, [listing fa]. split; [reflexivity|]. split; [|discriminate]. constructor; auto. apply listing_line.
Qed.

Lemma section_doc_line : forall n title, 0 < n -> doc_line (section_line n title).
Proof.
  intros n title L. unfold section_line. replace (equals n ++ !" " ++ line_wikitext title ++ !" " ++ equals n) with (equals n ++ (!" " ++ line_wikitext title ++ !" ") ++ equals n) by (rewrite <- !app_assoc; auto).
  assert (T := heading_trim n (!" " ++ line_wikitext title ++ !" ") L). split; auto. intros [_ E]. rewrite T in E. destruct n as [|n]; [lia|]. cbn [equals repeat app] in E. inversion E as [|? ? H _]; subst. destruct H as [H|[H|[H|H]]]; discriminate.
Qed.

Lemma block_doc_lines : forall b, block_ok b -> Forall doc_line (block_lines b).
Proof.
  intros b B. destruct (section_level b) as [n|] eqn:E; [|eapply Forall_impl; [|apply text_block_lines; auto]; apply doc_line_plain].
  destruct (section_lines b n B E) as (L & title & rest & -> & P & _). constructor; [apply section_doc_line; auto|]. eapply Forall_impl; [|exact P]. apply doc_line_plain.
Qed.

(** ** Sections *)

Lemma walk_false : forall lines d, snd (walkSection lines d false) = false.
Proof.
  induction lines as [|l lines IH]; intros d; auto. cbn [walkSection]. destruct (_ <? _); [destruct (_ <? _); auto|]. cbn [andb]. specialize (IH d). destruct (walkSection lines d false). auto.
Qed.

Lemma text_kept : forall ls tail, Forall plain_line ls -> removeSections_go (ls ++ tail) 0 = ls ++ removeSections_go tail 0.
Proof. intros ls tail F. induction F as [|l ls L F IH]; auto. cbn [app]. rewrite removeSections_cons, (line_depth _ L). cbn [Nat.ltb Nat.leb]. f_equal. auto. Qed.

Definition all_lines (g : list nat) (doc : list block) : list str := layout [] g (map block_lines doc).

Lemma all_lines_cons : forall g b doc, all_lines g (b :: doc) = repeat [] (hd 0 g) ++ block_lines b ++ all_lines (tl g) doc.
Proof. reflexivity. Qed.

Lemma blanks_kept : forall m rest, removeSections_go (repeat [] m ++ rest) 0 = repeat [] m ++ removeSections_go rest 0.
Proof. induction m as [|m IH]; intros rest; auto. cbn [repeat app]. rewrite removeSections_cons. change (headingDepth []) with 0. cbn [Nat.ltb Nat.leb]. rewrite IH. auto. Qed.

Lemma walk_blanks : forall m rest n, snd (walkSection (repeat [] m ++ rest) n true) = snd (walkSection rest n true).
Proof.
  induction m as [|m IH]; intros rest n; auto. cbn [repeat app walkSection]. change (trim_space []) with (@nil ascii). change (headingDepth []) with 0. cbn [Nat.ltb Nat.leb length Nat.eqb andb].
  rewrite <- IH. destruct (walkSection (repeat [] m ++ rest) n true). reflexivity.
Qed.

Lemma walk_text : forall l ls n, plain_line l -> snd (walkSection (l :: ls) n true) = false.
Proof.
  intros l ls n [T N1 E D]. cbn [walkSection]. rewrite T, D. cbn [Nat.ltb Nat.leb]. destruct l as [|c x]; [contradiction|]. cbn [length Nat.eqb andb].
  pose proof (walk_false ls n) as W. destruct (walkSection ls n false). auto.
Qed.

Lemma walk_filled : forall g b doc n, block_ok b -> (forall n', section_level b = Some n' -> n < n') -> exists k, walkSection (all_lines g (b :: doc)) n true = (k, false).
Proof.
  intros g b doc n B L. rewrite all_lines_cons. set (tail := all_lines (tl g) doc).
  assert (H : snd (walkSection (block_lines b ++ tail) n true) = false).
  { destruct (section_level b) as [n'|] eqn:E.
    - destruct (section_lines b n' B E) as (P & title & rest & -> & _). destruct (section_doc_line n' title P) as [_ T]. cbn [app walkSection]. rewrite T. unfold section_line. rewrite heading_depth by auto.
      destruct (Nat.ltb_spec 0 n'); [|lia]. specialize (L n' eq_refl). destruct (Nat.ltb_spec n n'); [auto|lia].
    - pose proof (text_block_lines b B E) as Pl. pose proof (ok_lines b B) as Ne. rewrite <- lines_of_text in *. destruct (lines_of b) as [|l ls]; [contradiction|]. cbn [map app] in *. apply walk_text. apply Forall_inv in Pl. auto. }
  rewrite <- (walk_blanks (hd 0 g)) in H. destruct (walkSection (repeat [] (hd 0 g) ++ block_lines b ++ tail) n true) as [k e]. cbn [snd] in H. subst. eauto.
Qed.

Lemma sections_kept : forall doc g, Forall block_ok doc -> sections_filled doc -> removeSections_go (all_lines g doc) 0 = all_lines g doc.
Proof.
  intros doc g F. revert g. induction F as [|b doc B F IH]; intros g S; [unfold all_lines; cbn [map layout]; rewrite blanks_kept; reflexivity|]. destruct S as [S1 S2]. specialize (IH (tl g) S2). rewrite all_lines_cons, blanks_kept. f_equal.
  set (tail := all_lines (tl g) doc) in *. rename IH into K.
  destruct (section_level b) as [n|] eqn:Lv; [|rewrite text_kept; [rewrite K; auto|apply text_block_lines; auto]].
  destruct (section_lines b n B Lv) as (P & title & rest & -> & R & H). cbn [app]. assert (D : headingDepth (section_line n title) = n) by (apply heading_depth; auto). rewrite removeSections_cons, D. destruct (Nat.ltb_spec 0 n); [|lia].
  assert (W : exists k, walkSection (rest ++ tail) n true = (k, false)).
  { destruct rest as [|l rest].
    - destruct (S1 n title (H eq_refl)) as (b' & doc'' & -> & L). cbn [app]. apply walk_filled; auto. apply Forall_inv in F. auto.
    - pose proof (walk_text l (rest ++ tail) n (Forall_inv R)) as W. cbn [app]. destruct (walkSection (l :: rest ++ tail) n true) as [k e]. cbn [snd] in W. subst. eauto. }
  destruct W as (k & W). destruct (rest ++ tail) as [|l ls] eqn:X; [cbn in W; discriminate W|]. rewrite W, <- X, text_kept, K by auto. auto.
Qed.

(** ** The cleanup *)

Lemma doc_line_newline : forall b, block_ok b -> Forall (fun s => ~ In nl_char s) (block_lines b).
Proof.
  intros b B. rewrite <- lines_of_text. apply Forall_map. eapply Forall_impl; [|apply row_chars; auto]. cbn beta. intros r H. apply H. apply in_app_iff. right. left. auto.
Qed.

Lemma doc_split : forall g doc, doc <> [] -> Forall block_ok doc -> split nl (laid g doc) = all_lines g doc.
Proof.
  intros g doc N F. unfold laid. apply split_join_single.
  - apply layout_nonempty; [intros X; apply map_eq_nil in X; auto|]. apply Forall_map. eapply Forall_impl; [|exact F]. intros b B. rewrite <- lines_of_text. intros X. apply map_eq_nil in X. revert X. apply ok_lines. auto.
  - apply layout_Forall; [intros []|]. apply Forall_map. eapply Forall_impl; [|exact F]. apply doc_line_newline.
Qed.

Lemma doc_clean : forall g doc, document_ok doc -> clean cfg (laid g doc) = Ok (laid g doc).
Proof.
  intros g doc (N & F & S & _). destruct (doc_neat g doc F) as (_ & _ & En & Br). pose proof (doc_split g doc N F) as Sp. assert (Jo : laid g doc = join nl (all_lines g doc)) by reflexivity.
  assert (Co : contains !"-->" (laid g doc) = false).
  { apply contains_false. intros a b E. destruct (En (a ++ !"--") b) as (z & d & Z & D); [rewrite E, <- app_assoc; reflexivity|]. change (a ++ !"--") with (a ++ !"-" ++ !"-") in Z. rewrite app_assoc in Z. apply app_inj_tail in Z as [_ Z]. auto. }
  unfold clean. rewrite removeComments_none by exact Co. rewrite doc_links by auto. cbn [bind]. rewrite no_braces by exact Br. cbn [bind].
  rewrite doc_toc by auto. assert (E1 : removeEmptyListEntries (laid g doc) = laid g doc).
  { unfold removeEmptyListEntries. rewrite Sp, entries_of_trimmed; [auto|]. apply layout_Forall; [split; [intros [X _]; apply X; reflexivity|reflexivity]|]. apply Forall_map. eapply Forall_impl; [|exact F]. apply block_doc_lines. }
  rewrite E1. assert (E2 : removeEmptySections (laid g doc) = laid g doc) by (unfold removeEmptySections; rewrite Sp, sections_kept; auto). rewrite E2.
  apply hack_none; [lia|]. apply contains_false. intros a b E. apply (Br a (!"BS-table}}" ++ b)). exact E.
Qed.

(** ** Ways to write a document *)

Lemma first_line_text : forall b, block_ok b -> forall ls, block_lines b <> [] :: ls.
Proof.
  intros b B ls E. destruct (section_level b) as [n|] eqn:Lv.
  - destruct (section_lines b n B Lv) as (P & title & rest & Eb & _). rewrite E in Eb. injection Eb as Z _. destruct n as [|n]; [lia|]. discriminate Z.
  - pose proof (text_block_lines b B Lv) as Pl. rewrite E in Pl. apply Forall_inv in Pl. destruct Pl as [_ X _ _]. apply X. auto.
Qed.

Lemma written_laid : forall doc text, Forall block_ok doc -> writes doc text -> exists g, gaps_ok g doc /\ text = laid g doc.
Proof.
  intros doc text F W. apply writes_laid; auto; eapply Forall_impl; [|exact F| |exact F]; [apply first_line_text|]. intros b B E. rewrite <- lines_of_text in E. apply map_eq_nil in E. revert E. apply ok_lines. auto.
Qed.

Lemma wikitext_written : forall doc, Forall block_ok doc -> writes doc (wikitext doc).
Proof.
  intros doc F. assert (X : exists lines, document_lines doc lines /\ wikitext doc = join nl lines /\ (doc <> [] -> lines <> [])); [|destruct X as (lines & A & B & _); exists lines; auto].
  induction F as [|b doc B F (lines & D & E & N)]; [exists []; split; [constructor|split; auto]|].
  assert (Nb : block_lines b <> []) by (intros Z; rewrite <- lines_of_text in Z; apply map_eq_nil in Z; revert Z; apply ok_lines; auto). destruct F as [|b1 doc B1 F].
  - inversion D; subst; [exists (block_lines b ++ []); split; [constructor; [constructor|discriminate]|]; split; [rewrite app_nil_r; reflexivity|rewrite app_nil_r; auto]|].
    exists (block_lines b ++ []). split; [constructor; [constructor|discriminate]|]. split; [rewrite app_nil_r; reflexivity|rewrite app_nil_r; auto].
  - exists (block_lines b ++ [] :: lines). split; [constructor; [constructor; exact D|intros; right; eauto]|]. split; [|intros _ Z; apply app_eq_nil in Z as [_ Z]; discriminate Z].
    rewrite join_together by (auto; discriminate). rewrite join_nil_cons by (apply N; discriminate). rewrite <- E. unfold wikitext. cbn [map]. rewrite join_more, <- app_assoc. reflexivity.
Qed.
End Doc.
