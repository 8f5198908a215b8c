(** * The statistics of a document *)

From Coq Require Import Ascii String.
From Coq Require Import List Arith NArith Bool Lia.
From Verif Require Import GoStr GoStrFacts TextFacts TrimFacts ConfigModel TokenModel TokenSpec TokenProofs PassSpec ExpandModel ExpandSpec ExpandProofs HtmlSpec HtmlProofs
  StatsModel StatsSpec StatsProofs StatsTotalProofs.
From Verif Require Import FormattingModel FormattingSpec LinkProofs PropPasses DocumentSpec DocumentLineProofs DocumentPictureProofs DocumentRunProofs DocumentBlockProofs DocumentListProofs DocumentGridProofs DocumentPassProofs
  DocumentStartProofs DocumentImageProofs DocumentHtmlProofs DocumentStatsSpec.
Import ListNotations.
Local Open Scope list_scope.

(** ** Texts with keys *)

Definition border (v : Token) : thing :=
  match v with
  | InternalLinkToken a _ => Thing (Link a)
  | ExternalLinkToken _ _ => Thing WebLink
  | ImageToken _ _ _ _ | InlineImageToken _ _ _ => Thing Image
  | MathToken _ => Thing Formula
  | RefUsageToken _ => Thing FootnoteMark
  | RefDefinitionToken _ _ => Thing FootnoteText
  | _ => End
  end.

Section Sees.
Variable m : list (str * Token).

Inductive sees : str -> list thing -> Prop :=
| sees_nil : sees [] []
| sees_text : forall x s h, ~ In "$"%char x -> ~ In "_"%char x -> sees s h -> sees (x ++ s) (TextOf x :: h)
| sees_marker : forall k s h, In k all_markers -> sees s h -> sees (k ++ s) h
| sees_key : forall k v inner s h, is_key k -> lookup_token k m = Some v -> sees_all (counted_texts v) inner -> sees s h -> sees (k ++ s) (border v :: inner ++ h)
with sees_all : list str -> list thing -> Prop :=
| all_none : sees_all [] []
| all_more : forall s ss h hs, sees s h -> sees_all ss hs -> sees_all (s :: ss) (h ++ End :: hs).

Scheme sees_ind2 := Induction for sees Sort Prop
with sees_all_ind2 := Induction for sees_all Sort Prop.
Combined Scheme sees_both from sees_ind2, sees_all_ind2.

Lemma sees_app : forall a x b y, sees a x -> sees b y -> sees (a ++ b) (x ++ y).
Proof.
  intros a x b y A B. induction A as [|z s h N1 N2 A IH|k s h K A IH|k v inner s h K L I A IH]; auto.
  - rewrite <- app_assoc. cbn [app]. constructor; auto.
  - rewrite <- app_assoc. constructor; auto.
  - rewrite <- app_assoc. cbn [app]. rewrite <- app_assoc. apply sees_key; auto.
Qed.

Lemma sees_words : forall x, ~ In "$"%char x -> ~ In "_"%char x -> sees x [TextOf x].
Proof. intros x A B. rewrite <- (app_nil_r x) at 1. constructor; auto. constructor. Qed.

Lemma sees_mark : forall k, In k all_markers -> sees k [].
Proof. intros k K. rewrite <- (app_nil_r k). constructor; auto. constructor. Qed.

Lemma all_map : forall A (f : A -> str) (g : A -> list thing) l, Forall (fun a => sees (f a) (g a)) l -> sees_all (map f l) (concat (map (fun a => g a ++ [End]) l)).
Proof. intros A f g l F. induction F as [|a l H F IH]; cbn [map concat]; [constructor|]. rewrite <- app_assoc. cbn [app]. constructor; auto. Qed.

Lemma all_app : forall a x b y, sees_all a x -> sees_all b y -> sees_all (a ++ b) (x ++ y).
Proof. intros a x b y A B. induction A as [|s ss h hs H A IH]; auto. cbn [app]. rewrite <- app_assoc. cbn [app]. constructor; auto. Qed.

(** *** What is counted *)

Definition token_kinds (v : Token) : list kind := match border v with Thing k => [k] | _ => [] end.
Definition agree (before : str) (h : list thing) (es : list event) : Prop :=
  seen_runs es = texts_from before h /\ flat_map token_kinds (seen_tokens es) = all_kinds h.

Lemma texts_end : forall h before hs, texts_from before (h ++ End :: hs) = texts_from before h ++ texts_from [] hs.
Proof. induction h as [|[s|k|] h IH]; intros before hs; cbn [app texts_from]; auto; rewrite IH; reflexivity. Qed.

Lemma kinds_app : forall a b, all_kinds (a ++ b) = all_kinds a ++ all_kinds b.
Proof. intros a b. apply flat_map_app. Qed.

(** Every text behind the first one begins behind an end. *)
Definition agree_all (h : list thing) (es : list event) : Prop :=
  (forall rest, texts_from [] (h ++ rest) = seen_runs es ++ texts_from [] rest) /\ flat_map token_kinds (seen_tokens es) = all_kinds h.

Lemma sees_events :
  (forall s h, sees s h -> exists d, layout_ok d /\ no_char "_" (fst d) /\ s = layout_text d /\
     forall before, exists es, layout_events counted_texts m (before ++ fst d) (snd d) es /\ agree before h es) /\
  (forall ss h, sees_all ss h -> exists es, texts_events counted_texts m ss es /\ agree_all h es).
Proof.
  apply (sees_both (fun s h _ => exists d, layout_ok d /\ no_char "_" (fst d) /\ s = layout_text d /\
     forall before, exists es, layout_events counted_texts m (before ++ fst d) (snd d) es /\ agree before h es)
     (fun ss h _ => exists es, texts_events counted_texts m ss es /\ agree_all h es)).
  - exists ([], []). split; [split; [split; [intros []|left; intros []]|constructor]|]. split; [intros []|]. split; [reflexivity|].
    intros before. cbn [fst snd]. rewrite app_nil_r. exists [Run before]. split; [constructor|]. repeat split.
  - intros x s h N1 N2 _ (d & O & N & -> & H). destruct d as [u l]. cbn [fst snd] in *. exists (x ++ u, l). cbn [fst snd]. destruct O as [[O1 O2] O3].
    assert (Y : ~ In "_"%char (x ++ u)) by (intros I; apply in_app_iff in I as [I|I]; [apply N2|apply N]; auto).
    assert (Z : ~ In "$"%char (x ++ u)) by (intros I; apply in_app_iff in I as [I|I]; [apply N1|apply O1]; auto).
    split; [split; [split; [exact Z|left; exact Y]|exact O3]|]. split; [exact Y|]. split; [unfold layout_text; cbn [fst snd]; rewrite <- app_assoc; reflexivity|].
    intros before. destruct (H (before ++ x)) as (es & E & A). rewrite <- app_assoc in E. exists es. split; [exact E|exact A].
  - intros k s h K _ (d & O & N & -> & H). destruct d as [u l]. cbn [fst snd] in *. exists ([], (k, u) :: l). cbn [fst snd]. destruct O as [O1 O3].
    split; [split; [split; [intros []|left; intros []]|constructor; [split; [left; exact K|exact O1]|exact O3]]|]. split; [intros []|].
    split; [unfold layout_text; cbn [fst snd map concat app]; rewrite <- app_assoc; reflexivity|].
    intros before. destruct (H before) as (es & E & A). exists es. split; [|exact A]. apply events_marker; auto. rewrite app_nil_r. exact E.
  - intros k v inner s h K L _ (ie & IE & I1 & I2) _ (d & O & N & -> & H). destruct d as [u l]. cbn [fst snd] in *. exists ([], (k, u) :: l). cbn [fst snd]. destruct O as [O1 O3].
    split; [split; [split; [intros []|left; intros []]|constructor; [split; [right; exact K|exact O1]|exact O3]]|]. split; [intros []|].
    split; [unfold layout_text; cbn [fst snd map concat app]; rewrite <- app_assoc; reflexivity|].
    intros before. destruct (H []) as (es & E & A1 & A2). cbn [app] in E. exists (Run before :: Seen v :: ie ++ es). rewrite app_nil_r. split; [eapply events_token; eauto|].
    split.
    + unfold seen_runs. cbn [flat_map app]. rewrite flat_map_app. fold (seen_runs ie). fold (seen_runs es). rewrite A1. rewrite <- I1. destruct v; reflexivity.
    + unfold seen_tokens. cbn [flat_map app]. rewrite flat_map_app. fold (seen_tokens ie). fold (seen_tokens es). rewrite flat_map_app, I2, A2.
      unfold all_kinds at 3. cbn [flat_map]. fold (all_kinds (inner ++ h)). rewrite kinds_app. unfold token_kinds. destruct (border v); reflexivity.
  - exists []. split; [constructor|]. split; reflexivity.
  - intros s ss h hs _ (d & O & _ & -> & H) _ (es' & E' & A1' & A2'). destruct (H []) as (es & E & A1 & A2). exists (es ++ es'). split; [constructor; [constructor; auto|auto]|]. split.
    + intros rest. rewrite <- app_assoc. cbn [app]. rewrite texts_end, A1'. unfold seen_runs. rewrite flat_map_app, <- app_assoc. fold (seen_runs es). rewrite A1. reflexivity.
    + unfold seen_tokens. rewrite !flat_map_app. fold (seen_tokens es). fold (seen_tokens es'). rewrite A2, A2', kinds_app. reflexivity.
Qed.

Lemma counted_kinds : forall c ts, c <> NumberOfCharacters -> c <> NumberOfWords -> length (filter (counted_by c) ts) = length (filter (is_kind c) (flat_map token_kinds ts)).
Proof.
  intros c ts C1 C2. induction ts as [|v ts IH]; auto. cbn [filter flat_map]. rewrite filter_app, app_length, <- IH.
  destruct v; destruct c; cbn; auto; contradiction.
Qed.

Lemma links_kinds : forall name ts, length (filter (fun t => match t with InternalLinkToken n _ => str_eqb n name | _ => false end) ts) =
  length (filter (fun k => match k with Link n => str_eqb n name | _ => false end) (flat_map token_kinds ts)).
Proof.
  intros name ts. induction ts as [|v ts IH]; auto. cbn [filter flat_map]. rewrite filter_app, app_length, <- IH. destruct v; cbn; auto. destruct (str_eqb ArticleName name); reflexivity.
Qed.

Lemma agree_number : forall letter c h es, agree [] h es -> c <> EstimatedReadingTimeMinutes -> number letter c es = number_of letter c h.
Proof.
  intros letter c h es (A1 & A2) C. unfold number, number_of, all_texts. rewrite A1, <- A2. destruct c; auto; apply counted_kinds; auto; discriminate.
Qed.

Lemma agree_links : forall name h es, agree [] h es -> links_to name es = links_in name h.
Proof. intros name h es (A1 & A2). unfold links_to, links_in. rewrite <- A2. apply links_kinds. Qed.

(** *** The statistics can be made. *)

Variable letter : N -> bool.
Let g := StatsGenerator letter m.

Lemma events_work :
  (forall s es, text_events counted_texts m s es -> exists n, forall fuel, n <= fuel -> works (expandString g fuel s)) /\
  (forall s l es, layout_events counted_texts m s l es -> exists n, forall k, In k (map fst l) -> is_key k -> exists v, lookup_token k m = Some v /\ forall fuel, n <= fuel -> works (expandToken g fuel v)) /\
  (forall ss es, texts_events counted_texts m ss es -> exists n, forall fuel, n <= fuel -> Forall (fun s => works (expandString g fuel s)) ss).
Proof.
  apply (events_mind counted_texts m
    (fun s es => exists n, forall fuel, n <= fuel -> works (expandString g fuel s))
    (fun s l es => exists n, forall k, In k (map fst l) -> is_key k -> exists v, lookup_token k m = Some v /\ forall fuel, n <= fuel -> works (expandToken g fuel v))
    (fun ss es => exists n, forall fuel, n <= fuel -> Forall (fun s => works (expandString g fuel s)) ss)).
  - intros d es O _ (n & H). exists (S n). intros [|fuel] L; [lia|]. destruct (stats_expand letter m fuel d O) as [K' X]. intros st. fold g in X. rewrite X. revert st.
    pose proof (fun k => joined_keys all_markers (snd d) (fst d) k) as J. destruct (joined all_markers (fst d) (snd d)) as [s' l']. cbn [fst snd] in *. destruct l' as [|p l'].
    + change (works (countString letter s')). apply works_bind; [apply works_change|intros]. apply works_bind; [apply works_change|intros; apply works_ret].
    + change (works (segments g (expandToken g fuel) s' (p :: l'))). apply segments_works. intros k I. destruct (H k (J k I) (K' k I)) as (v & Lv & W). exists v. split; auto. apply W. lia.
  - intros s. exists 0. intros k [].
  - intros s k u l es I _ (n & H). exists n. intros k' [<-|J] K'; [exfalso; eapply marker_not_key; eauto|auto].
  - intros s k u l v inner es K L _ (n1 & H1) _ (n2 & H2). exists (Nat.max n1 n2). intros k' I K'. destruct (list_eq_dec ascii_dec k' k) as [->|D].
    + exists v. split; auto. intros fuel Lf. change (works (statsToken (expandString g fuel) v)). apply token_works. apply H1. lia.
    + destruct I as [E|I]; [exfalso; apply D; auto|]. destruct (H2 k' I K') as (v' & L' & W'). exists v'. split; auto. intros fuel Lf. apply W'. lia.
  - exists 0. constructor.
  - intros s ss es es' _ (n1 & H1) _ (n2 & H2). exists (Nat.max n1 n2). intros fuel L. constructor; [apply H1; lia|apply H2; lia].
Qed.
End Sees.

(** ** Documents *)

Lemma section_first : forall name section, no_char "#" name -> section = [] \/ starts_with "#" section -> before_section (name ++ section) = name.
Proof.
  intros name section N S. induction name as [|c name IH]; cbn [app before_section].
  - destruct S as [->|(y & ->)]; reflexivity.
  - destruct (Ascii.eqb c "#") eqn:E; [apply Ascii.eqb_eq in E; subst; exfalso; apply N; left; auto|]. rewrite IH; auto. intros I. apply N. right. auto.
Qed.

Lemma article_linked : forall a b, article_of a b -> b = linked_article a.
Proof. intros a b (name & section & -> & N & S & ->). unfold linked_article. rewrite section_first; auto. Qed.

Section Documents.
Context {cfg : configuration}.
Variable t : Tokenizer.
Hypothesis U : unique t.
Let m := tokenMap t.

Lemma key_sees : forall k v inner, In (k, v) m -> sees_all m (counted_texts v) inner -> sees m k (border v :: inner).
Proof.
  intros k v inner I A. rewrite <- (app_nil_r k), <- (app_nil_r inner). apply sees_key; auto; [eapply state_is_key; eauto|apply In_key; auto|constructor].
Qed.

Lemma words_see : forall s, words s -> sees m s [TextOf s].
Proof. intros s W. apply sees_words; apply letter_not; auto; cbn; auto 20. Qed.

Lemma one_sees : forall s h, sees m s h -> sees_all m [s] (h ++ [End]).
Proof. intros s h H. constructor; [exact H|constructor]. Qed.

Lemma opened_sees : forall ms, sees m (opened ms) [].
Proof. induction ms as [|k ms IH]; [constructor|]. rewrite opened_cons. constructor; auto. destruct k as [[]|[]]; cbn; auto 10. Qed.

Lemma phrases_see : forall c c', Forall phrase_ok c -> Forall2 (phrase_linked t) c c' -> sees m (concat (map phrase_html c')) (concat (map phrase_things c)).
Proof.
  intros c c' F L. induction L as [|x x' c c' X L IH]; [constructor|]. inversion F as [|? ? A F']; subst. cbn [map concat]. apply sees_app; [|apply IH; auto].
  destruct x as [s|a label]; cbn [phrase_linked phrase_ok phrase_things] in *.
  - subst x'. apply words_see. exact A.
  - destruct X as (key & b & -> & B & I). cbn [phrase_html]. apply article_linked in B. subst b. apply (key_sees _ _ _ I). apply (one_sees _ [TextOf (link_label a label)]). apply words_see. apply A.
Qed.

Lemma picture_sees : forall key p p', picture_ok cfg p -> captioned t p p' -> In (key, picture_token p') m -> sees m key (picture_things p).
Proof.
  intros key p p' A C I. destruct (captioned_frame t p p' C) as (E1 & _ & _). unfold picture_things, picture_token in *. rewrite E1 in I. destruct (as_figure p).
  - apply (key_sees _ _ _ I). apply one_sees. unfold caption_things, shown_caption. unfold captioned in C. destruct (caption_text p) as [c|] eqn:E.
    + destruct C as (c' & L & ->). cbn [caption_text thumbnail with_caption]. destruct (thumbnail p); [|constructor]. apply phrases_see; auto. apply A. auto.
    + subst p'. rewrite E. constructor.
  - apply (key_sees _ _ _ I). constructor.
Qed.

Lemma line_sees : forall l o l', Forall inline_ok l -> Forall2 (shown t) (bold o l) l' -> sees m (line_wikitext l') (line_things l).
Proof.
  induction l as [|i l IH]; intros o l' F S; cbn [bold] in S; [inversion S; subst; constructor|]. inversion F as [|? ? A F']; subst.
  change (line_things (i :: l)) with (inline_things i ++ line_things l).
  destruct i as [s|k|a lb|u lb|f|p|nn nr]; inversion S as [|? i' ? l1 S1 S2]; subst; rewrite line_cons; cbn [inline_things shown] in *; (apply sees_app; [|eapply IH; eauto]).
  - subst i'. apply words_see. apply A.
  - subst i'. apply opened_sees.
  - destruct S1 as (key & b & -> & B & I). apply article_linked in B. subst b. apply (key_sees _ _ _ I). apply (one_sees _ [TextOf (link_label a lb)]). apply words_see. apply A.
  - destruct S1 as (key & -> & I). apply (key_sees _ _ _ I). apply (one_sees _ [TextOf lb]). apply words_see. apply A.
  - destruct S1 as (key & -> & I). apply (key_sees _ _ _ I). constructor.
  - destruct S1 as (key & -> & p' & I & C). eapply picture_sees; eauto.
  - destruct S1 as (key & -> & I). apply (key_sees _ _ _ I). constructor.
Qed.

Lemma items_see : forall items items', Forall item_ok items -> Forall2 (item_rel (Forall2 (shown t))) (map bold_item items) items' ->
  sees_all m (map (fun i => match i with mkListItemToken _ content _ => content end) (map item_token items')) (concat (map item_things (map flat_item items))).
Proof.
  intros items items' F. revert items'. induction F as [|i items A F IH]; intros items' R; inversion R as [|? i' ? r R1 R2]; subst; cbn [map concat]; [constructor|].
  destruct A as [k x below (_ & A & _) _ _ _]. inversion R1; subst. cbn [item_token flat_item item_things map concat]. rewrite app_comm_cons, <- app_assoc. cbn [app].
  apply (all_more m (!" " ++ line_wikitext x') _ ([TextOf !" "] ++ line_things x)); [|apply IH; auto]. apply sees_app; [apply sees_words; cbn; intuition discriminate|]. eapply line_sees; eauto.
Qed.

Lemma cells_see : forall cells cells', Forall (fun c : grid_cell => Forall inline_ok (snd c)) cells -> Forall2 (cell_rel (Forall2 (shown t))) (map bold_cell cells) cells' ->
  sees_all m (map ColContent (map cell_token cells')) (concat (map cell_things cells)).
Proof.
  intros cells cells' F. revert cells'. induction F as [|c cells A F IH]; intros cells' R; inversion R as [|? c' ? r [R1 R1'] R2]; subst; cbn [map concat]; [constructor|].
  unfold cell_things at 1. rewrite <- app_assoc. cbn [app]. apply all_more; [|apply IH; auto]. cbn [cell_token ColContent]. apply (line_sees (snd c) []); auto.
Qed.

Lemma row_sees : forall row row', Forall cells_ok row -> Forall2 (Forall2 (cell_rel (Forall2 (shown t)))) (map (map bold_cell) row) row' ->
  sees_all m (map ColContent (map cell_token (concat row'))) (concat (map cell_things (concat row))).
Proof.
  intros row row' F. revert row'. induction F as [|cells row A F IH]; intros row' R; inversion R as [|? c' ? r R1 R2]; subst; cbn [map concat]; [constructor|].
  rewrite !map_app, concat_app. apply all_app; [|apply IH; auto]. apply cells_see; auto. apply (@cells_inline cfg). auto.
Qed.

Lemma rows_see : forall rows rows', Forall (Forall cells_ok) rows -> Forall2 (Forall2 (Forall2 (cell_rel (Forall2 (shown t))))) (map (map (map bold_cell)) rows) rows' ->
  sees_all m (flat_map (map ColContent) (map (fun row => map cell_token (concat row)) rows')) (concat (map (fun row => concat (map cell_things (concat row))) rows)).
Proof.
  intros rows rows' F. revert rows'. induction F as [|row rows A F IH]; intros rows' R; inversion R as [|? c' ? r R1 R2]; subst; cbn [map concat flat_map]; [constructor|].
  apply all_app; [|apply IH; auto]. apply row_sees; auto.
Qed.

Lemma lines_see : forall lines lines', Forall (Forall inline_ok) lines -> Forall2 (Forall2 (shown t)) (map (bold []) lines) lines' -> sees m (join nl (map line_wikitext lines')) (lines_things lines).
Proof.
  intros lines lines' F. revert lines'. induction F as [|l lines A F IH]; intros lines' R; inversion R as [|? l' ? r R1 R2]; subst; [constructor|].
  pose proof (line_sees l [] l' A R1) as X. destruct lines as [|l2 lines]; [inversion R2; subst; exact X|]. specialize (IH _ R2). inversion R2 as [|? l2' ? r2 R3 R4]; subst.
  cbn [map] in *. rewrite join_more. change (lines_things (l :: l2 :: lines)) with (line_things l ++ [TextOf nl] ++ lines_things (l2 :: lines)). apply sees_app; auto. apply sees_app; auto. apply sees_words; cbn; intuition discriminate.
Qed.

Lemma notes_see : forall keys texts, Forall2 (defined t) keys texts -> Forall (fun p => note_text_ok cfg (snd p)) texts -> forall x h, sees m x h ->
  sees m (join nl (x :: keys)) (h ++ concat (map (fun p => TextOf nl :: Thing FootnoteText :: line_things (snd p) ++ [End]) texts)).
Proof.
  intros keys texts D. induction D as [|k q keys texts (y & I & Sx) D IH]; intros Tx x h X; cbn [map concat]; [rewrite app_nil_r; exact X|]. inversion Tx as [|? ? T1 T2]; subst. rewrite join_more.
  apply sees_app; auto. cbn [app]. apply (sees_app m nl [TextOf nl]); [apply sees_words; cbn; intuition discriminate|]. apply (IH T2 k (Thing FootnoteText :: line_things (snd q) ++ [End])).
  apply (key_sees _ _ _ I). apply one_sees. apply (line_sees (snd q) []); [apply (simple_line (snd q)); apply T1|]. rewrite no_quotes_bold by apply T1. exact Sx.
Qed.

Lemma block_sees : forall b ss, block_ok b -> placed t (bold_block b) ss -> sees m (join nl ss) (block_things (flat_block b)).
Proof.
  intros [n title|lines|items|a caption rows|p|fn ft fa fx] ss B H; cbn [bold_block placed flat_block block_things] in *.
  - destruct H as (key & title' & -> & I & Sh). cbn [join]. apply (key_sees _ _ _ I). apply one_sees. eapply line_sees; eauto. apply B.
  - destruct H as (lines' & -> & Sh). apply lines_see; auto. destruct B as [_ B]. eapply Forall_impl; [|exact B]. intros l (L & _). apply L.
  - destruct H as (key & items' & -> & I & Sh). cbn [join]. apply (key_sees _ _ _ I). apply items_see; auto. inversion B; subst. auto.
  - destruct H as (key & caption' & rows' & -> & I & c2 & r2 & E & Rc & Rr). injection E as <- <-. destruct B as (_ & C & F). cbn [join]. apply (key_sees _ _ _ I). apply all_app; [apply rows_see; auto|].
    apply one_sees. destruct caption as [c|], caption' as [c'|]; cbn [option_map] in Rc; try contradiction; [eapply line_sees; eauto; apply (C c eq_refl)|constructor].
  - destruct H as (key & -> & p' & I & C). cbn [join]. eapply picture_sees; eauto.
  - destruct B as ((_ & L & _) & _ & Tx). rewrite (texts_bold fx Tx) in H. destruct H as (key & keys & E & (title' & I & Sh) & D). apply (same_keys _ (key :: keys)) in E. subst ss.
    change (End :: line_things ft ++ End :: ?y) with ((End :: line_things ft) ++ [End] ++ y). rewrite app_assoc. apply notes_see; auto. apply (key_sees _ _ _ I). apply one_sees. eapply line_sees; eauto. apply L.
Qed.

Lemma document_sees : forall doc bs, Forall block_ok doc -> Forall2 (placed t) (map bold_block doc) bs -> sees m (join nl (breaks (map bold_block doc) bs)) (document_things (flat_document doc)).
Proof.
  intros doc bs F. revert bs. induction F as [|b doc B F IH]; intros bs Sh; inversion Sh as [|? s ? bs' S1 S2]; subst; [constructor|].
  pose proof (block_sees b s B S1) as X. specialize (IH _ S2). assert (Ne : s <> []) by (eapply (@placed_some cfg); eauto).
  assert (L : sees m nl [TextOf nl]) by (apply sees_words; cbn; intuition discriminate).
  unfold flat_document in *. cbn [map breaks document_things]. destruct doc as [|b2 doc].
  - inversion S2; subst. cbn [map breaks document_things]. destruct b; cbn [bold_block flat_block app]; rewrite !app_nil_r; exact X.
  - inversion S2 as [|? s2 ? bs2 S3 S4]; subst. assert (Ne2 : s2 <> []) by (inversion F; subst; eapply (@placed_some cfg); eauto).
    assert (Y : breaks (map bold_block (b2 :: doc)) (s2 :: bs2) <> []) by (cbn [map breaks]; intros E; apply app_eq_nil in E as [E _]; contradiction).
    remember (breaks (map bold_block (b2 :: doc)) (s2 :: bs2)) as w eqn:W. clear W.
    assert (Z : sees m (join nl (s ++ w)) (block_things (flat_block b) ++ [TextOf nl] ++ document_things (map flat_block (b2 :: doc)))) by (rewrite join_together by auto; apply sees_app; auto; apply sees_app; auto).
    assert (Z2 : sees m (join nl (s ++ [MARKER_PARAGRAPH] ++ w)) (block_things (flat_block b) ++ [TextOf nl; TextOf nl] ++ document_things (map flat_block (b2 :: doc)))).
    { rewrite join_together by (auto; discriminate). rewrite (join_together nl [MARKER_PARAGRAPH] w) by (auto; discriminate). apply sees_app; auto. apply (sees_app m nl [TextOf nl]); auto.
      apply (sees_app m (join nl [MARKER_PARAGRAPH]) [] (nl ++ join nl w) (TextOf nl :: document_things (map flat_block (b2 :: doc)))); [apply sees_mark; cbn; auto 10|]. apply (sees_app m nl [TextOf nl]); auto. }
    cbn [map] in *. destruct b, b2; cbn [bold_block flat_block app] in *; auto.
Qed.
End Documents.
