(** * Lines of a document: text, quotes and links *)

From Coq Require Import Ascii String.
From Coq Require Import List Arith Bool Lia.
From Verif Require Import GoStr GoStrFacts TextFacts TrimFacts UtilModel BracketModel ConfigModel TokenModel TokenSpec TokenProofs PassSpec MarkupSpec SafeSpec.
From Verif Require Import FormattingModel FormattingSpec FormattingProofs HeadingModel LinkModel ImageModel ReferenceModel ListModel TableModel ParagraphModel ParagraphProofs TokenizerModel JudgeProofs HeadingProofs LinkProofs NowikiProofs SafeTextProofs SafeProofs ShapeProofs.
From Verif Require Import MathQuietProofs PropPasses DocumentSpec DocumentSettledProofs.
Import ListNotations.
Local Open Scope list_scope.

(** The configuration of the statements below is the one of their context. *)
Existing Class configuration.
#[global] Arguments inline_ok {cfg}.
#[global] Arguments line_ok {cfg}.
#[global] Arguments list_ok {cfg}.
#[global] Arguments item_ok {cfg}.
#[global] Arguments grid_text_ok {cfg}.
#[global] Arguments cells_ok {cfg}.
#[global] Arguments block_ok {cfg}.
#[global] Arguments document_ok {cfg}.

Lemma line_app : forall a b, line_wikitext (a ++ b) = line_wikitext a ++ line_wikitext b.
Proof. intros. unfold line_wikitext. rewrite map_app, concat_app. auto. Qed.

Lemma line_cons : forall i l, line_wikitext (i :: l) = inline_wikitext i ++ line_wikitext l.
Proof. reflexivity. Qed.

(** ** Quotes *)

Definition opened (k : list marker) : str := concat (map marker_text k).

(** The line with markers in place of the quotes *)
Fixpoint bold (open : list style) (l : list inline) : list inline :=
  match l with
  | [] => []
  | Quotes k :: l' => Words (opened (fst (toggle open k))) :: bold (snd (toggle open k)) l'
  | i :: l' => i :: bold open l'
  end.

Lemma bold_app : forall a b o, bold o (a ++ b) = bold o a ++ bold (styles o a) b.
Proof. induction a as [|[s|k|x y|x y|f|p|nn nr] a IH]; intros b o; cbn [app bold styles]; auto; rewrite IH; auto. Qed.

Lemma styles_app : forall a b o, styles o (a ++ b) = styles (styles o a) b.
Proof. induction a as [|[s|k|x y|x y|f|p|nn nr] a IH]; intros b o; cbn [app styles]; auto; rewrite IH; auto. Qed.

Fixpoint sep (acc : str) (l : list inline) : separated :=
  match l with
  | [] => Last acc
  | Quotes k :: l' => Word acc k (sep [] l')
  | i :: l' => sep (acc ++ inline_wikitext i) l'
  end.

Lemma sep_text : forall l acc, separated_text (sep acc l) = acc ++ line_wikitext l.
Proof.
  induction l as [|i l IH]; intros acc; [unfold line_wikitext; cbn; rewrite app_nil_r; auto|].
  rewrite line_cons. destruct i; cbn [sep separated_text]; rewrite IH; [rewrite app_assoc; auto|auto|rewrite app_assoc; auto..].
Qed.

Lemma sep_formatted : forall l acc o, formatted o (sep acc l) = (acc ++ line_wikitext (bold o l), styles o l).
Proof.
  induction l as [|[s|k|x y|x y|f|p|nn nr] l IH]; intros acc o; cbn [sep formatted bold styles]; [unfold line_wikitext; cbn; rewrite app_nil_r; auto|..]; try (rewrite IH, line_cons, app_assoc; auto).
  destruct (toggle o k) as [m o'] eqn:E. rewrite IH. cbn [fst snd]. rewrite line_cons. cbn [inline_wikitext]. unfold opened. auto.
Qed.

Definition is_quotes (i : inline) : bool := match i with Quotes _ => true | _ => false end.
Definition inline_plain (i : inline) : Prop := is_quotes i = false -> plain (inline_wikitext i) /\ inline_wikitext i <> [].

Lemma sep_proper : forall l acc inner, Forall inline_plain l -> quotes_apart l -> plain acc -> (inner = true -> acc = [] -> forall k l', l <> Quotes k :: l') -> proper_separated inner (sep acc l).
Proof.
  induction l as [|i l IH]; intros acc inner F Q A N; [exact A|]. inversion F as [|? ? P F']; subst. destruct Q as [Q1 Q2].
  assert (G : is_quotes i = false -> proper_separated inner (sep (acc ++ inline_wikitext i) l)).
  { intros E. specialize (P E) as [P1 P2]. apply IH; auto.
    - apply plain_app; auto.
    - intros _ Z. apply app_eq_nil in Z as [_ Z]. contradiction. }
  destruct i as [s|k|x y|x y|f|p|nn nr]; try (apply G; reflexivity). cbn [sep proper_separated]. split; auto. split.
  - intros I Z. eapply N; eauto.
  - apply IH; auto. + apply plain_without. intros []. + intros _ _ k' l' Z. eapply Q1; eauto.
Qed.

Lemma bold_pass : forall l, Forall inline_plain l -> quotes_apart l -> styles [] l = [] -> parseBoldAndItalic (line_wikitext l) = Ok (line_wikitext (bold [] l)).
Proof.
  intros l F Q S. pose proof (parse_separated (sep [] l) (line_wikitext (bold [] l))) as P. rewrite sep_text in P. apply P.
  - apply sep_proper; auto; [apply plain_without; intros []|discriminate].
  - rewrite sep_formatted, S. auto.
Qed.

(** ** Edges of lines *)

Definition keylike (s : str) : Prop := solid_ends s /\ starts_with "$"%char s.
Definition swapped (x x' : str) : Prop := x = x' \/ (solid_ends x /\ keylike x').

Lemma prefix_solid : forall r c p z, In r space_runes -> solid c = true -> has_prefix r (p ++ c :: z) = has_prefix r p.
Proof.
  intros r c p z I S. destruct (has_prefix r p) eqn:E.
  - apply has_prefix_spec in E as (x & ->). apply has_prefix_spec. exists (x ++ c :: z). rewrite app_assoc. auto.
  - destruct (has_prefix r (p ++ c :: z)) eqn:E'; auto. exfalso. apply has_prefix_spec in E' as (x & E'). apply app_eq_app in E' as (m & [[-> H]|[-> H]]).
    + assert (has_prefix r (r ++ m) = true) by (apply has_prefix_spec; eauto). congruence.
    + destruct m as [|d m]; [rewrite app_nil_r in *; assert (has_prefix p p = true) by (apply has_prefix_spec; exists []; rewrite app_nil_r; auto); congruence|].
      injection H as <- ->. eapply (solid_In c); eauto. apply in_app_iff. right. left. auto.
Qed.

Lemma suffix_solid : forall r c p z, In r space_runes -> solid c = true -> has_suffix r (z ++ c :: p) = has_suffix r p.
Proof.
  intros r c p z I S. destruct (has_suffix r p) eqn:E.
  - apply has_suffix_spec in E as (x & ->). apply has_suffix_spec. exists (z ++ c :: x). rewrite <- app_assoc. auto.
  - destruct (has_suffix r (z ++ c :: p)) eqn:E'; auto. exfalso. apply has_suffix_spec in E' as (x & E'). apply app_eq_app in E' as (m & [[-> H]|[-> H]]).
    + subst r. eapply (solid_In c); eauto. apply in_app_iff. right. left. auto.
    + destruct m as [|d m].
      * cbn [app] in H. eapply (solid_In c); eauto. rewrite <- H. left. auto.
      * injection H as <- ->. assert (has_suffix r (m ++ r) = true) by (apply has_suffix_spec; eauto). congruence.
Qed.

Definition no_white_start (s : str) : Prop := forall r, In r space_runes -> has_prefix r s = false.
Definition no_white_end (s : str) : Prop := forall r, In r space_runes -> has_suffix r s = false.

Lemma trimmed_iff : forall s, trim_space s = s <-> no_white_start s /\ no_white_end s.
Proof.
  intros s. split.
  - intros E. destruct (trim_space_spec s) as (l & r & _ & _ & _ & A). rewrite E in A. split; intros q I; apply (A q I).
  - intros [A B]. apply trim_space_fix; auto.
Qed.

Lemma solid_end_of : forall s, solid_ends s -> exists c x d y, solid c = true /\ solid d = true /\ s = c :: x /\ s = y ++ [d].
Proof. intros s (c & C & (x & X) & d & y & D & Y). exists c, x, d, y. auto. Qed.

Lemma swap_start : forall xs xs' p, Forall2 swapped xs xs' -> no_white_start (p ++ concat xs) -> no_white_start (p ++ concat xs').
Proof.
  intros xs xs' p F. revert p. induction F as [|x x' xs xs' S F IH]; intros p N; auto. cbn [concat] in *. destruct S as [->|[S (S' & _)]].
  - rewrite app_assoc in *. auto.
  - apply solid_end_of in S as (c & z & _ & _ & C & _ & -> & _). apply solid_end_of in S' as (c' & z' & _ & _ & C' & _ & -> & _).
    intros r I. specialize (N r I). cbn [app] in *. rewrite prefix_solid in *; auto.
Qed.

Lemma swap_end : forall xs xs' p, Forall2 swapped xs xs' -> no_white_end (concat xs ++ p) -> no_white_end (concat xs' ++ p).
Proof.
  intros xs xs' p F. assert (F' : Forall2 swapped (rev xs) (rev xs')).
  { induction F; cbn [rev]; auto. apply Forall2_app; auto. }
  rewrite <- (rev_involutive xs), <- (rev_involutive xs'). revert F'. generalize (rev xs) (rev xs'). clear xs xs' F. intros xs xs' F. revert p.
  induction F as [|x x' xs xs' S F IH]; intros p N; auto. cbn [rev] in *. rewrite concat_app in *. cbn [concat] in *. rewrite app_nil_r, <- app_assoc in *. destruct S as [->|[S (S' & _)]].
  - auto.
  - apply solid_end_of in S as (_ & _ & c & z & _ & C & _ & ->). apply solid_end_of in S' as (_ & _ & c' & z' & _ & C' & _ & ->).
    intros r I. specialize (N r I). rewrite <- (app_assoc z) in N. rewrite <- (app_assoc z'). rewrite app_assoc in *. cbn [app] in *. rewrite suffix_solid in *; auto.
Qed.

Lemma swap_trim : forall xs xs', Forall2 swapped xs xs' -> trim_space (concat xs) = concat xs -> trim_space (concat xs') = concat xs'.
Proof.
  intros xs xs' F T. apply trimmed_iff in T as [A B]. apply trimmed_iff. split.
  - apply (swap_start xs xs' []); auto.
  - pose proof (swap_end xs xs' [] F) as E. rewrite !app_nil_r in E. auto.
Qed.

(** The first visible character *)
Definition starts_block (c : ascii) : Prop := In c !"=*#;:".
Lemma block_solid : forall c, starts_block c -> solid c = true.
Proof. intros c I. cbn in I. repeat (destruct I as [<-|I]; [reflexivity|]). contradiction. Qed.

Lemma blank_no_solid : forall a c, blank a -> In c a -> solid c = false.
Proof.
  intros a c B. destruct (solid c) eqn:E; auto. intros I. exfalso. induction B as [|r s R B IH]; [destruct I|]. apply in_app_iff in I as [I|I]; auto.
  eapply solid_In; eauto.
Qed.

Lemma start_iff : forall s, no_block_start s <-> forall a c x, s = a ++ c :: x -> blank a -> ~ starts_block c.
Proof.
  intros s. split.
  - intros N a c x -> B I. destruct (trim_right_spec (c :: x)) as (r & E & R & _).
    assert (K : trim_space (a ++ c :: x) = trim_right (c :: x)).
    { unfold trim_space. rewrite trim_left_blank by auto. f_equal. apply trim_left_fix. intros p P. apply solid_first; auto. apply block_solid; auto. }
    destruct (trim_right (c :: x)) as [|d y].
    + cbn [app] in E. subst r. eapply blank_no_solid in R; [|left; reflexivity]. rewrite (block_solid _ I) in R. discriminate.
    + injection E as <- _. eapply N; eauto.
  - intros H c x T I. destruct (trim_space_spec s) as (l & r & E & L & _). rewrite T in E. eapply H; eauto.
Qed.

Lemma swap_block_start : forall xs xs', Forall2 swapped xs xs' -> no_block_start (concat xs) -> no_block_start (concat xs').
Proof.
  intros xs xs' F N. rewrite start_iff in *. assert (G : forall p, (forall a c x, p ++ concat xs = a ++ c :: x -> blank a -> ~ starts_block c) -> forall a c x, p ++ concat xs' = a ++ c :: x -> blank a -> ~ starts_block c); [|apply (G []); auto].
  clear N. induction F as [|x x' xs xs' S F IH]; intros p N; auto. cbn [concat] in *. destruct S as [->|[S (_ & y & ->)]].
  - intros a c z E. rewrite app_assoc in E. revert a c z E. apply (IH (p ++ x')). intros a c z E. rewrite <- app_assoc in E. eapply N; eauto.
  - intros a c z E B I. apply app_eq_app in E as (m & [[-> H]|[-> H]]).
    + destruct m as [|d m].
      * assert (Z : c = "$"%char) by (cbn [app] in H; congruence). subst c. cbn in I. repeat (destruct I as [I|I]; [discriminate I|]). contradiction.
      * injection H as <- ->. eapply N; [|exact B|exact I]. rewrite <- app_assoc. reflexivity.
    + destruct m as [|d m].
      * assert (Z : c = "$"%char) by (cbn [app] in H; congruence). subst c. cbn in I. repeat (destruct I as [I|I]; [discriminate I|]). contradiction.
      * injection H as <- _. eapply blank_no_solid in B; [|apply in_app_iff; right; left; reflexivity]. discriminate.
Qed.

(** ** Links *)

(** Every character [c] is followed by a character with a property. *)
Definition followed (c : ascii) (P : ascii -> Prop) (s : str) : Prop := forall a b, s = a ++ c :: b -> exists d b', b = d :: b' /\ P d.

Lemma followed_none : forall c P s, ~ In c s -> followed c P s.
Proof. intros c P s N a b ->. exfalso. apply N. apply in_app_iff. right. left. auto. Qed.

Lemma followed_app : forall c P x y, followed c P x -> followed c P y -> followed c P (x ++ y).
Proof.
  intros c P x y X Y a b E. apply app_eq_app in E as (m & [[-> H]|[-> H]]).
  - destruct m as [|d m]; [apply (Y [] b); symmetry; exact H|]. injection H as <- ->. destruct (X a m eq_refl) as (e & m' & -> & Q). exists e, (m' ++ y). auto.
  - apply (Y m b). exact H.
Qed.

Lemma followed_cons : forall (c d : ascii) (P : ascii -> Prop) s, P d -> ~ In c (d :: s) -> followed c P (c :: d :: s).
Proof.
  intros c d P s D N a b E. destruct a as [|e a]; [assert (b = d :: s) by (cbn [app] in E; congruence); subst; eauto|]. assert (X : d :: s = a ++ c :: b) by (cbn [app] in E; congruence). clear E. rename X into E. exfalso. apply N. rewrite E. apply in_app_iff. right. left. auto.
Qed.

Definition other_bracket (c : ascii) : Prop := c <> "["%char.
Lemma followed_no_link : forall s, followed "[" other_bracket s -> no_link s.
Proof.
  intros s F. split.
  - apply contains_false. intros a b E. destruct (F a ("["%char :: b) E) as (d & b' & H & D). injection H as <- _. apply D. auto.
  - intros (x & E). destruct (F x [] E) as (d & b' & H & _). discriminate.
Qed.

(** Characters of the keys, and of the text that the passes leave alone *)
Definition inert (s : str) : Prop := (forall c, In c !"[]{}|<>" -> ~ In c s) /\ plain s.
(** Text without the characters of links and elements *)
Definition loose (s : str) : Prop := (forall c, In c !"[]<>" -> ~ In c s) /\ plain s.
Definition atom_ok {cfg : configuration} (i : inline) : Prop := match i with Words s => loose s /\ s <> [] | Quotes _ | Note _ _ => False | _ => inline_ok i end.

Lemma inert_loose : forall s, inert s -> loose s.
Proof. intros s [H Q]. split; auto. intros c I. apply H. cbn in I |- *. intuition. Qed.

Lemma letter_not : forall c s, In c (!"[]{}|<>$_" ++ nl) -> words s -> ~ In c s.
Proof. intros c s I [W _] J. rewrite Forall_forall in W. apply (W c J I). Qed.

Lemma words_inert : forall s, words s -> inert s.
Proof. intros s W. split; [|apply W]. intros c I. apply letter_not; auto. cbn in I |- *. intuition. Qed.

Lemma words_settled : forall s, words s -> no_block_start s -> settled s.
Proof.
  intros s W N. apply settled_single; auto.
  - intros c I. apply letter_not; auto. cbn in I |- *. intuition.
  - apply W.
  - apply letter_not; auto. apply in_app_iff. right. left. auto.
Qed.

(** Formulas *)
Lemma formula_chars : forall {cfg : configuration} f c, inline_ok (Math f) -> In c (!"[]$" ++ nl) -> ~ In c (inline_wikitext (Math f)).
Proof.
  intros cfg f c (F & _) I J. rewrite Forall_forall in F. cbn [inline_wikitext] in J. rewrite !in_app_iff in J.
  destruct J as [J|[J|J]]; [|apply (F c J); cbn in I |- *; intuition|]; cbn in I, J; intuition (subst; discriminate).
Qed.

Lemma no_quotes_app : forall s t, (forall a b, s <> a ++ !"''" ++ b) -> (forall a b, t <> a ++ !"''" ++ b) -> (forall a, s <> a ++ !"'") \/ (forall b, t <> !"'" ++ b) ->
  forall a b, s ++ t <> a ++ !"''" ++ b.
Proof.
  intros s t S T E x y X. apply app_eq_app in X as (z & [[E1 E2]|[E1 E2]]); [|apply (T z y); exact E2]. destruct z as [|c [|d z]].
  - apply (T [] y). symmetry. exact E2.
  - injection E2 as <- E2. destruct E as [E|E]; [apply (E x); exact E1|apply (E y); symmetry; exact E2].
  - injection E2 as <- <- E2. apply (S x z). exact E1.
Qed.
Lemma formula_plain : forall {cfg : configuration} f, inline_ok (Math f) -> plain (inline_wikitext (Math f)).
Proof.
  intros cfg f (_ & _ & _ & N). rewrite contains_false in N. cbn [inline_wikitext]. assert (A : plain !"<math>") by (apply plain_intro; try reflexivity; discriminate). assert (B : plain !"</math>") by (apply plain_intro; try reflexivity; discriminate).
  split; [|split].
  - apply no_quotes_app; [apply A| |left; apply A]. apply no_quotes_app; [exact N|apply B|right; apply B].
  - intros a E. discriminate E.
  - intros a E. change !"</math>" with (!"</math" ++ [">"%char]) in E. rewrite !app_assoc in E. apply app_inj_tail in E as [_ E]. discriminate E.
Qed.
(** Pictures *)
Definition picture_body (p : picture) : str := file_name p ++ concat (map (fun o => !"|" ++ o) (picture_options p)).
Definition picture_inside (p : picture) : str := file_prefix p ++ !":" ++ picture_body p.

Lemma picture_text : forall p, picture_wikitext p = !"[[" ++ picture_inside p ++ !"]]".
Proof. intros p. unfold picture_wikitext, picture_inside, picture_body. rewrite <- !app_assoc. auto. Qed.

Lemma itoa_letters : forall n c, In c (!"'[]{}|<>$_x: " ++ nl) -> ~ In c (itoa n).
Proof. intros n c I J. pose proof (itoa_digits n) as D. rewrite Forall_forall in D. apply D in J. cbn in I. repeat (destruct I as [<-|I]; [discriminate J|]). destruct I. Qed.

Lemma caption_chars : forall c d, Forall phrase_ok c -> In d (!"{}<>$_" ++ nl) -> ~ In d (caption_wikitext c).
Proof.
  intros c d F I J. apply in_concat in J as (x & X & J). apply in_map_iff in X as (y & <- & X). rewrite Forall_forall in F. specialize (F _ X). assert (L : In d (!"[]{}|<>$_" ++ nl)) by (cbn in I |- *; intuition).
  destruct y as [s|a label]; cbn [phrase_ok phrase_wikitext] in *; [revert J; apply letter_not; auto|]. destruct F as (_ & W & W' & _). rewrite !in_app_iff in J. destruct J as [J|[J|[J|J]]].
  - cbn in I, J. intuition (subst; discriminate).
  - revert J. apply letter_not; auto.
  - destruct label as [y|]; [|destruct J]. apply in_app_iff in J as [J|J]; [cbn in I, J; intuition (subst; discriminate)|]. revert J. apply letter_not; auto.
  - cbn in I, J. intuition (subst; discriminate).
Qed.

(** The options of a picture without its caption *)
Definition frame_options (p : picture) : list str :=
  (if thumbnail p then [!"thumb"] else []) ++ match size p with Some (width, height) => [itoa width ++ !"x" ++ itoa height ++ !"px"] | None => [] end.
Definition caption_option (p : picture) : list str := match caption_text p with Some c => [caption_wikitext c] | None => [] end.

Lemma options_parts : forall p, picture_options p = frame_options p ++ caption_option p.
Proof. intros p. unfold picture_options, frame_options, caption_option. rewrite <- app_assoc. auto. Qed.

Lemma frame_chars : forall p o c, In o (frame_options p) -> In c (!"'[]{}|<>$_" ++ nl) -> ~ In c o.
Proof.
  intros p o c I C J. unfold frame_options in I. rewrite !in_app_iff in I. destruct I as [I|I].
  - destruct (thumbnail p); [destruct I as [<-|[]]|destruct I]. cbn in C, J. intuition (subst; discriminate).
  - destruct (size p) as [[w h]|]; [destruct I as [<-|[]]|destruct I]. rewrite !in_app_iff in J. destruct J as [J|[J|[J|J]]].
    + revert J. apply itoa_letters. cbn in C |- *. intuition.
    + cbn in C, J. intuition (subst; discriminate).
    + revert J. apply itoa_letters. cbn in C |- *. intuition.
    + cbn in C, J. intuition (subst; discriminate).
Qed.

Lemma option_chars : forall {cfg : configuration} p o c, picture_ok cfg p -> In o (picture_options p) -> In c (!"{}<>$_" ++ nl) -> ~ In c o.
Proof.
  intros cfg p o c (_ & _ & _ & _ & _ & _ & _ & _ & _ & _ & _ & _ & _ & _ & _ & _ & Cap) I C J. rewrite options_parts in I. apply in_app_iff in I as [I|I].
  - revert J. apply (frame_chars p); auto. cbn in C |- *. intuition.
  - unfold caption_option in I. destruct (caption_text p) as [x|]; [destruct I as [<-|[]]|destruct I]. destruct (Cap x eq_refl) as (W & _). revert J. apply caption_chars; auto.
Qed.

Lemma options_chars : forall {cfg : configuration} p c, picture_ok cfg p -> In c (!"{}<>$_" ++ nl) -> ~ In c (concat (map (fun o => !"|" ++ o) (picture_options p))).
Proof.
  intros cfg p c A I J. apply in_concat in J as (x & X & J). apply in_map_iff in X as (o & <- & X). apply in_app_iff in J as [J|J]; [cbn in I, J; intuition (subst; discriminate)|].
  revert J. eapply option_chars; eauto.
Qed.

Lemma body_chars : forall {cfg : configuration} p c, picture_ok cfg p -> In c (!"{}<>$" ++ nl) -> ~ In c (picture_body p).
Proof.
  intros cfg p c A I J. apply in_app_iff in J as [J|J]; [|revert J; apply options_chars; auto; cbn in I |- *; intuition].
  destruct A as (_ & _ & _ & _ & _ & _ & F & _). rewrite Forall_forall in F. apply (F c J). cbn in I |- *. intuition.
Qed.

Lemma inside_chars : forall {cfg : configuration} p c, picture_ok cfg p -> In c (!"{}<>$" ++ nl) -> ~ In c (picture_inside p).
Proof.
  intros cfg p c A I J. unfold picture_inside in J. rewrite !in_app_iff in J. destruct J as [J|[J|J]].
  - revert J. destruct A as (_ & _ & _ & W & _). apply letter_not; auto. cbn in I |- *. intuition.
  - cbn in I, J. intuition (subst; discriminate).
  - revert J. apply body_chars; auto.
Qed.

Lemma picture_chars : forall {cfg : configuration} p c, picture_ok cfg p -> In c (!"{}<>$" ++ nl) -> ~ In c (picture_wikitext p).
Proof.
  intros cfg p c A I J. rewrite picture_text, !in_app_iff in J. destruct J as [J|[J|J]].
  - cbn in I, J. intuition (subst; discriminate).
  - revert J. apply inside_chars; auto.
  - cbn in I, J. intuition (subst; discriminate).
Qed.

(** The picture up to its caption *)
Definition picture_head (p : picture) : str := file_prefix p ++ !":" ++ file_name p ++ concat (map (fun o => !"|" ++ o) (frame_options p)).

Lemma inside_parts : forall p, picture_inside p = picture_head p ++ match caption_text p with Some c => !"|" ++ caption_wikitext c | None => [] end.
Proof.
  intros p. unfold picture_inside, picture_head, picture_body. rewrite options_parts, map_app, concat_app, <- !app_assoc. do 4 f_equal. unfold caption_option. destruct (caption_text p); cbn [map concat]; rewrite ?app_nil_r; auto.
Qed.

Lemma head_chars : forall {cfg : configuration} p c, picture_ok cfg p -> In c (!"[]{}<>$" ++ nl) -> ~ In c (picture_head p).
Proof.
  intros cfg p c A I J. unfold picture_head in J. rewrite !in_app_iff in J. destruct J as [J|[J|[J|J]]].
  - revert J. destruct A as (_ & _ & _ & W & _). apply letter_not; auto. cbn in I |- *. intuition.
  - cbn in I, J. intuition (subst; discriminate).
  - destruct A as (_ & _ & _ & _ & _ & _ & F & _). rewrite Forall_forall in F. apply (F c J). cbn in I |- *. intuition.
  - apply in_concat in J as (x & X & J). apply in_map_iff in X as (o & <- & X). apply in_app_iff in J as [J|J]; [cbn in I, J; intuition (subst; discriminate)|]. revert J. apply (frame_chars p); auto. cbn in I |- *. intuition.
Qed.

(** Apostrophes within pictures are single *)
Ltac marks := apply plain_intro; [reflexivity|discriminate|discriminate].
Lemma phrase_plain : forall x, phrase_ok x -> plain (phrase_wikitext x).
Proof.
  intros [s|a label] H; cbn [phrase_ok phrase_wikitext] in *; [apply H|]. destruct H as (_ & W & W' & _). apply plain_app; [marks|]. apply plain_app; [apply W|]. apply plain_app; [|marks].
  destruct label as [y|]; [|apply plain_without; intros []]. apply plain_app; [marks|apply W'].
Qed.
Lemma concat_plain : forall l, Forall plain l -> plain (concat l).
Proof. induction 1; cbn [concat]; [apply plain_without; intros []|apply plain_app; auto]. Qed.
Lemma caption_plain : forall c, Forall phrase_ok c -> plain (caption_wikitext c).
Proof. intros c F. apply concat_plain. apply Forall_map. eapply Forall_impl; [|exact F]. apply phrase_plain. Qed.
Lemma option_plain : forall {cfg : configuration} p o, picture_ok cfg p -> In o (picture_options p) -> plain o.
Proof.
  intros cfg p o (_ & _ & _ & _ & _ & _ & _ & _ & _ & _ & _ & _ & _ & _ & _ & _ & Cap) I. rewrite options_parts in I. apply in_app_iff in I as [I|I].
  - apply plain_without. apply (frame_chars p); auto. cbn. auto.
  - unfold caption_option in I. destruct (caption_text p) as [x|]; [destruct I as [<-|[]]|destruct I]. destruct (Cap x eq_refl) as (W & _). apply caption_plain; auto.
Qed.
Lemma picture_plain : forall {cfg : configuration} p, picture_ok cfg p -> plain (picture_wikitext p).
Proof.
  intros cfg p A. rewrite picture_text. apply plain_app; [marks|]. apply plain_app; [|marks]. unfold picture_inside, picture_body. apply plain_app; [apply A|]. apply plain_app; [marks|]. apply plain_app.
  - apply plain_without. destruct A as (_ & _ & _ & _ & _ & _ & F & _). rewrite Forall_forall in F. intros I. apply (F _ I). cbn. auto.
  - apply concat_plain. apply Forall_map. apply Forall_forall. intros o I. apply plain_app; [marks|]. eapply option_plain; eauto.
Qed.

(** The picture with another caption *)
Definition with_caption (p : picture) (c : list phrase) : picture := mkPicture (file_prefix p) (file_name p) (thumbnail p) (size p) (Some c).

(** The caption with the keys of its links *)
Definition phrase_linked (t : Tokenizer) (x x' : phrase) : Prop :=
  match x with
  | Said _ => x' = x
  | Linked a label => exists key b, x' = Said key /\ article_of a b /\ In (key, InternalLinkToken b (link_label a label)) (tokenMap t)
  end.
Definition captioned (t : Tokenizer) (p p' : picture) : Prop :=
  match caption_text p with
  | Some c => exists c', Forall2 (phrase_linked t) c c' /\ p' = with_caption p c'
  | None => p' = p
  end.

Section Links.
Context {cfg : configuration}.
Hypothesis P : prefixes_ok cfg.

Lemma prefixes_closing : forall p, In p (lists cfg FilePrefixes) -> ~ In "]"%char p.
Proof. intros p I J. destruct P as [W _]. apply (W p _ I J). cbn. auto. Qed.

Definition link_of (a : str) (label : option str) (after : str) : link := mkLink a label after.

Lemma link_text_eq : forall a label f, link_wikitext (mkLink a label f) = inline_wikitext (LinkTo a label) ++ f.
Proof. intros. unfold link_wikitext. cbn [target text after_link inline_wikitext]. rewrite <- !app_assoc. auto. Qed.

Lemma bracket_text_eq : forall u label f, bracket_wikitext (mkBracket (u ++ !" " ++ label) f) = inline_wikitext (Address u label) ++ f.
Proof. intros. unfold bracket_wikitext. cbn [inside behind inline_wikitext]. rewrite <- !app_assoc. auto. Qed.

Lemma link_is_ok : forall a label after, inline_ok (LinkTo a label) -> no_link after -> link_ok (lists cfg FilePrefixes) (mkLink a label after).
Proof.
  intros a label after ((c & x & E & C) & W & W' & N & N' & B & T) L. unfold link_ok. cbn [target text after_link].
  split; [apply letter_not; auto; cbn; auto|]. split; [apply letter_not; auto; cbn; auto|]. split; [apply letter_not; auto; cbn; auto 8|].
  split; [intros y ->; cbn [link_label] in W'; split; apply letter_not; auto; cbn; auto|]. split.
  - intros Z y (n & sec & E' & N1 & S & ->). destruct (T Z) as [H1 H2]. destruct S as [->|(w & ->)].
    + rewrite app_nil_r in E'. subst n. rewrite H2, E. discriminate.
    + exfalso. apply H1. rewrite E'. apply in_app_iff. right. left. auto.
  - split; auto. intros (p & r & E' & _). assert (I : In ":"%char (a ++ match label with None => [] | Some x => !"|" ++ x end)) by (rewrite E'; apply in_app_iff; right; left; auto).
    apply in_app_iff in I as [I|I]; [apply N; auto|]. destruct label as [y|]; [|destruct I]. apply in_app_iff in I as [I|I]; [cbn in I; intuition discriminate|]. apply N'. auto.
Qed.

Variable fuel : nat.
Let rec := tokenizeContent cfg fuel.

Definition linked (t : Tokenizer) (i i' : inline) : Prop :=
  match i with
  | LinkTo a label => exists key b, i' = Words key /\ article_of a b /\ In (key, InternalLinkToken b (link_label a label)) (tokenMap t)
  | Picture p => exists p', i' = Picture p' /\ captioned t p p'
  | _ => i' = i
  end.

Lemma link_shows : forall a label after s, inline_ok (LinkTo a label) -> shows (mkLink a label after) s -> s = link_label a label.
Proof.
  intros a label after s ((c & x & E & C) & W & W' & N & N' & B & T) (b & A & H). cbn [target text] in *.
  destruct label as [y|]; [exact H|]. cbn [link_label]. destruct (T eq_refl) as [H1 H2]. destruct A as (n & sec & E' & N1 & S & ->).
  assert (n = a). { destruct S as [->|(w & ->)]; [rewrite app_nil_r in E'; auto|]. exfalso. apply H1. rewrite E'. apply in_app_iff. right. left. auto. } subst n.
  rewrite H2 in H. destruct H as [[_ ->]|[(w & S') _]]; auto. exfalso. apply N. rewrite S'. left. auto.
Qed.

Lemma label_settled : forall a label, inline_ok (LinkTo a label) -> settled (link_label a label).
Proof. intros a label (_ & W & W' & N & N' & B & T). apply words_settled; auto. Qed.

Lemma rec_settled : forall t s, unique t -> settled s -> judge true t (rec s) (fun _ _ => True).
Proof. intros t s U S. eapply judge_weaken; [apply settled_judge; auto; apply ok_false; auto|auto]. Qed.

Lemma link_content : forall t a label after key, inline_ok (LinkTo a label) -> is_link rec t (mkLink a label after) key ->
  exists b, article_of a b /\ In (key, InternalLinkToken b (link_label a label)) (tokenMap t).
Proof.
  intros t a label after key A (b & s & content & A' & H & I & (t1 & t2 & U & R & K)). assert (Hs : s = link_label a label) by (eapply link_shows; eauto; exists b; eauto).
  subst s. apply settled_result in R as [-> _]; [eauto|apply label_settled; auto].
Qed.

Lemma address_followed : forall u l, inline_ok (Address u l) -> followed "[" other_bracket (inline_wikitext (Address u l)).
Proof.
  intros u l (H & _ & U & _ & W & _). cbn [inline_wikitext]. assert (X : exists c u', u = c :: u' /\ c <> "["%char) by (destruct H as [(x & ->)|(x & ->)]; do 2 eexists; (split; [reflexivity|discriminate])).
  destruct X as (c & u' & -> & C). change (!"[" ++ (c :: u') ++ !" " ++ l ++ !"]") with ("["%char :: c :: (u' ++ !" " ++ l ++ !"]")). apply followed_cons; [exact C|]. intros [I|I]; [apply C; auto|]. inversion U as [|? ? _ U']; subst. rewrite Forall_forall in U'.
  rewrite !in_app_iff in I. destruct I as [I|[I|[I|I]]]; [apply (U' _ I); cbn; auto|cbn in I; intuition discriminate|revert I; apply letter_not; auto; cbn; auto|cbn in I; intuition discriminate].
Qed.

(** The links of a line: links to articles, and pictures, which this pass leaves alone *)
Definition part : Type := link + str.
Definition part_wikitext (p : part) : str := match p with inl l => link_wikitext l | inr s => !"[[" ++ s end.
Definition part_item (p : part) : str := match p with inl l => inner l ++ !"]]" ++ after_link l | inr s => s end.
Definition part_ok (p : part) : Prop :=
  match p with
  | inl l => link_ok (lists cfg FilePrefixes) l /\ forall s, shows l s -> settled s
  | inr s => is_file cfg s = true /\ fresh !"[[" s
  end.
Definition part_result (t : Tokenizer) (p : part) (r : str) : Prop :=
  match p with
  | inl l => exists key, r = key ++ after_link l /\ is_link rec t l key
  | inr s => r = !"[[" ++ s
  end.

Lemma closed_no_link : forall a s, ~ In "["%char a -> followed "[" other_bracket s -> fresh !"[[" (a ++ !"]]" ++ s).
Proof.
  intros a s N F. apply no_link_fresh. apply followed_no_link. apply followed_app; [apply followed_none; auto|]. apply followed_app; auto. apply followed_none. cbn. intuition discriminate.
Qed.

Lemma part_items : forall parts, concat (map part_wikitext parts) = concat (map (app !"[[") (map part_item parts)).
Proof.
  intros parts. rewrite map_map. f_equal. apply map_ext. intros [l|s]; cbn [part_wikitext part_item]; auto. unfold link_wikitext, inner. rewrite <- !app_assoc. auto.
Qed.

Lemma link_fresh : forall l, link_ok (lists cfg FilePrefixes) l -> fresh !"[[" (inner l ++ !"]]" ++ after_link l).
Proof.
  intros l L. destruct (inner_brackets cfg l L) as [B _]. pose proof L as (_ & _ & _ & _ & _ & _ & A).
  apply (app_fresh "[" (inner l) (!"]]" ++ after_link l)); auto; [discriminate|]. destruct A as [A1 A2]. split.
  + destruct (contains !"[[" (!"]]" ++ after_link l)) eqn:C; auto. apply contains_spec in C as (u & v & C). exfalso.
    destruct u as [|u1 [|u2 u]]; [discriminate C|discriminate C|]. injection C as _ _ C. apply (proj1 (contains_false _ _) A1 u v). exact C.
  + intros (u & U). destruct u as [|u1 [|u2 u]]; [discriminate U|discriminate U|]. injection U as _ _ U. apply A2. exists u. exact U.
Qed.

Lemma internal_mixed : forall first parts t, no_link first -> Forall part_ok parts -> ok false t ->
  judge true t (parseInternalLinks cfg rec (first ++ concat (map part_wikitext parts)))
    (fun t' r => exists rs, r = first ++ concat rs /\ Forall2 (part_result t') parts rs).
Proof.
  intros first parts t F L O. unfold parseInternalLinks, parseLink. rewrite part_items, LinkProofs.split_items; [|discriminate|apply no_link_fresh; auto|].
  - eapply judge_bind.
    + apply (judge_mapM2 str part str true (parseLinkItem cfg rec !"[[" !"]]" !"|" LINK_TYPE_INTERNAL false true)
               (fun t p item => part_ok p /\ item = part_item p) part_result); auto.
      * intros t1 t2 [l|s] r G; cbn [part_result]; auto. intros (k & E & I). exists k. split; auto. eapply is_link_mono; eauto.
      * intros t1 [l|s] item O1 (Ok & ->); cbn [part_ok part_item part_result] in *.
        { destruct Ok as [Ok1 Ok2]. apply (internalItem cfg rec true settled rec_settled prefixes_closing); auto. }
        { unfold parseLinkItem. rewrite (proj1 Ok). apply judge_ret; auto. reflexivity. }
      * instantiate (1 := parts). clear F. induction L; cbn [map]; constructor; auto.
    + cbn beta. intros results t' O' G' F2. apply judge_ret; auto. exists results. auto.
  - apply Forall_forall. intros x I. apply in_map_iff in I as ([l|s] & <- & I); rewrite Forall_forall in L; specialize (L _ I); cbn [part_item part_ok] in *; [apply link_fresh|]; apply L.
Qed.

Lemma is_file_of : forall p s, In (to_lower p) (lists cfg FilePrefixes) -> no_char ":" p -> is_file cfg (p ++ !":" ++ s) = true.
Proof.
  intros p s I N. unfold is_file. change (p ++ !":" ++ s) with (p ++ ":"%char :: s). change !":" with [":"%char]. rewrite split2_first by auto. apply andb_true_iff. split.
  - apply contains_spec. exists p, s. auto.
  - apply mem_str_In. auto.
Qed.

Lemma caption_parts : forall c tail parts, Forall phrase_ok c -> followed "[" other_bracket tail -> Forall part_ok parts ->
  exists first parts', caption_wikitext c ++ tail ++ concat (map part_wikitext parts) = first ++ concat (map part_wikitext parts') /\ followed "[" other_bracket first /\ Forall part_ok parts' /\
    forall t rs, Forall2 (part_result t) parts' rs -> exists c' rs', Forall2 (phrase_linked t) c c' /\ Forall2 (part_result t) parts rs' /\ first ++ concat rs = caption_wikitext c' ++ tail ++ concat rs'.
Proof.
  intros c tail parts F T Ps. induction F as [|x c X F (first & parts' & E & N & L & K)].
  - exists tail, parts. split; auto. split; auto. split; auto. intros t rs H. exists [], rs. auto.
  - destruct x as [s|a label]; cbn [phrase_ok] in X.
    + exists (s ++ first), parts'. split; [unfold caption_wikitext in *; cbn [map concat phrase_wikitext]; rewrite <- !app_assoc, E; auto|]. split; [apply followed_app; auto; apply followed_none; apply letter_not; auto; cbn; auto|]. split; auto.
      intros t rs H. destruct (K t rs H) as (c' & rs' & H1 & H2 & H3). exists (Said s :: c'), rs'. split; [constructor; auto; reflexivity|]. split; auto. unfold caption_wikitext in *. cbn [map concat phrase_wikitext]. rewrite <- !app_assoc, H3. auto.
    + exists [], (inl (mkLink a label first) :: parts'). split; [cbn [map concat part_wikitext]; rewrite link_text_eq, <- app_assoc, <- E; unfold caption_wikitext; cbn [map concat phrase_wikitext inline_wikitext]; rewrite <- !app_assoc; auto|].
      split; [apply followed_none; auto|]. assert (X' : inline_ok (LinkTo a label)) by exact X. split.
      { constructor; auto. split; [apply link_is_ok; auto; apply followed_no_link; auto|]. intros s Sh. apply link_shows in Sh; auto; subst s; apply label_settled; auto. }
      intros t rs H. inversion H as [|? r ? rs0 H0 H2]; subst. cbn [part_result] in H0. destruct H0 as (key & -> & H1). destruct (K t rs0 H2) as (c' & rs' & H3 & H4 & H5). exists (Said key :: c'), rs'. split.
      * constructor; auto. cbn [phrase_linked]. destruct (link_content t a label first key X' H1) as (b & A0 & I). exists key, b. auto.
      * split; auto. unfold caption_wikitext in *. cbn [map concat phrase_wikitext after_link app]. rewrite <- !app_assoc, H5. auto.
Qed.

Lemma head_file : forall p z, picture_ok cfg p -> is_file cfg (picture_head p ++ z) = true.
Proof. intros p z A. unfold picture_head. rewrite <- !app_assoc. apply is_file_of; apply A. Qed.

Lemma with_caption_text : forall p c, picture_wikitext (with_caption p c) = !"[[" ++ picture_head p ++ !"|" ++ caption_wikitext c ++ !"]]".
Proof. intros p c. rewrite picture_text, inside_parts. cbn [with_caption caption_text]. rewrite <- !app_assoc. auto. Qed.

Lemma internal_parts : forall l, Forall atom_ok l -> exists first parts, line_wikitext l = first ++ concat (map part_wikitext parts) /\
  followed "[" other_bracket first /\ Forall part_ok parts /\
  forall t rs, Forall2 (part_result t) parts rs -> exists l', Forall2 (linked t) l l' /\ first ++ concat rs = line_wikitext l'.
Proof.
  induction 1 as [|i l A F (first & parts & E & N & L & K)].
  - exists [], []. repeat split; auto; [apply followed_none; auto|]. intros t rs H. inversion H; subst. exists []. auto.
  - rewrite line_cons, E.
    assert (Simple : linked (mkTokenizer [] 0 []) i i -> (forall t, linked t i i) -> followed "[" other_bracket (inline_wikitext i) ->
      exists first0 parts0, inline_wikitext i ++ first ++ concat (map part_wikitext parts) = first0 ++ concat (map part_wikitext parts0) /\
        followed "[" other_bracket first0 /\ Forall part_ok parts0 /\
        forall t rs, Forall2 (part_result t) parts0 rs -> exists l', Forall2 (linked t) (i :: l) l' /\ first0 ++ concat rs = line_wikitext l').
    { intros _ H1 H2. exists (inline_wikitext i ++ first), parts. rewrite app_assoc. split; auto. split; [apply followed_app; auto|]. split; auto.
      intros t rs H. destruct (K t rs H) as (l' & H3 & H4). exists (i :: l'). split; [constructor; auto|]. rewrite line_cons, <- H4, <- app_assoc. auto. }
    destruct i as [s|k|a label|u label|f|p|nn nr]; [|destruct A| | | | |destruct A].
    + apply Simple; try reflexivity. destruct A as [A A']. apply followed_none; apply A; cbn; auto.
    + exists [], (inl (mkLink a label first) :: parts). split; [cbn [map concat part_wikitext]; rewrite link_text_eq, <- app_assoc; auto|].
      split; [apply followed_none; auto|]. split.
      { constructor; auto. split; [apply link_is_ok; auto; apply followed_no_link; auto|]. intros s Sh; apply link_shows in Sh; auto; subst s; apply label_settled; auto. }
      intros t rs H. inversion H as [|? r ? rs' H0 H2]; subst. cbn [part_result] in H0. destruct H0 as (key & -> & H1). destruct (K t rs' H2) as (l' & H3 & H4). exists (Words key :: l'). split.
      * constructor; auto. cbn [linked]. destruct (link_content t a label first key A H1) as (b & A0 & I). exists key, b. auto.
      * rewrite line_cons, <- H4. cbn [concat after_link app inline_wikitext]. rewrite <- app_assoc. auto.
    + apply Simple; try reflexivity. apply address_followed; auto.
    + apply Simple; try reflexivity. apply followed_none; apply formula_chars; auto; cbn; auto.
    + cbn [atom_ok inline_ok] in A. cbn [inline_wikitext]. pose proof (fun z => head_file p z A) as HF. assert (HN : followed "[" other_bracket (picture_head p)) by (apply followed_none; apply (head_chars p); auto; cbn; auto).
      destruct (caption_text p) as [c|] eqn:Cp.
      * assert (Ph : Forall phrase_ok c) by (destruct A as (_ & _ & _ & _ & _ & _ & _ & _ & _ & _ & _ & _ & _ & _ & _ & _ & Cap); apply (Cap c Cp)).
        destruct (caption_parts c (!"]]" ++ first) parts Ph) as (first' & parts' & E' & N' & L' & K'); auto; [apply followed_app; auto; apply followed_none; cbn; intuition discriminate|].
        exists [], (inr (picture_head p ++ !"|" ++ first') :: parts'). split; [|split; [apply followed_none; auto|split]].
        { cbn [map concat part_wikitext app]. rewrite picture_text, inside_parts, Cp, <- !app_assoc. rewrite <- !app_assoc in E'. rewrite E'. cbn [app]. rewrite <- ?app_assoc. auto. }
        { constructor; auto. split; auto. apply no_link_fresh. apply followed_no_link. apply followed_app; auto. apply followed_app; auto. apply followed_none. cbn. intuition discriminate. }
        intros t rs H. inversion H as [|? r ? rs0 H1 H2]; subst. cbn [part_result] in H1. subst r. destruct (K' t rs0 H2) as (c' & rs' & H3 & H4 & H5). destruct (K t rs' H4) as (l' & H6 & H7).
        exists (Picture (with_caption p c') :: l'). split; [constructor; auto; exists (with_caption p c'); split; auto; unfold captioned; rewrite Cp; eauto|].
        rewrite line_cons, <- H7. cbn [concat app inline_wikitext]. rewrite with_caption_text. cbn [app]. rewrite <- !app_assoc in *. cbn [app] in *. rewrite H5, <- !app_assoc. reflexivity.
      * exists [], (inr (picture_inside p ++ !"]]" ++ first) :: parts). split; [cbn [map concat part_wikitext app]; rewrite picture_text, <- !app_assoc; auto|].
        split; [apply followed_none; auto|]. split.
        { constructor; auto. rewrite inside_parts, Cp, app_nil_r. split; auto.
          apply closed_no_link; auto. apply (head_chars p); auto. cbn. auto. }
        intros t rs H. inversion H as [|? r ? rs' H1 H2]; subst. destruct (K t rs' H2) as (l' & H3 & H4). exists (Picture p :: l'). split; [constructor; auto; exists p; split; auto; unfold captioned; rewrite Cp; auto|].
        cbn [part_result] in H1. subst r. rewrite line_cons, <- H4. cbn [concat app inline_wikitext]. rewrite picture_text, <- !app_assoc. auto.
Qed.

Lemma internal_pass : forall l t, Forall atom_ok l -> ok false t ->
  judge true t (parseInternalLinks cfg rec (line_wikitext l)) (fun t' r => exists l', Forall2 (linked t') l l' /\ r = line_wikitext l').
Proof.
  intros l t A O. destruct (internal_parts l A) as (first & parts & E & N & L & K). rewrite E. eapply judge_weaken; [apply (internal_mixed first parts t); auto using followed_no_link|].
  cbn beta. intros r t' _ _ (rs & -> & F). destruct (K t' rs F) as (l' & H1 & H2). exists l'. auto.
Qed.

(** *** Links to web pages *)

Definition addressed (t : Tokenizer) (i i' : inline) : Prop :=
  match i with
  | Address u label => exists key, i' = Words key /\ In (key, ExternalLinkToken u label) (tokenMap t)
  | _ => i' = i
  end.

Lemma address_url : forall u l, inline_ok (Address u l) -> url_and_text (u ++ !" " ++ l) u l.
Proof.
  intros u l (_ & T & U & _). exists u. split; auto. split; auto. intros I. rewrite Forall_forall in U. apply (U _ I). cbn. auto 20.
Qed.

Lemma bracket_is_ok : forall u l b, inline_ok (Address u l) -> no_char "[" b -> bracket_ok (lists cfg FilePrefixes) (mkBracket (u ++ !" " ++ l) b).
Proof.
  intros u l b (H & _ & U & _ & W & _) B. unfold bracket_ok. cbn [inside behind]. rewrite Forall_forall in U.
  assert (N : forall c, In c !"[]" -> ~ In c (u ++ !" " ++ l)).
  { intros c I J. rewrite !in_app_iff in J. destruct J as [J|[J|J]].
    - apply (U c J). cbn in I |- *. intuition.
    - destruct J as [<-|[]]. cbn in I. intuition discriminate.
    - revert J. apply letter_not; auto. cbn in I |- *. intuition. }
  split; [apply N; cbn; auto|]. split; [apply N; cbn; auto|]. split; auto.
  intros (p & r & E & C & I). destruct P as (_ & P1 & P2).
  assert (X : p = !"http" \/ p = !"https").
  { assert (G : forall q x : str, ~ In ":"%char q -> q ++ ":"%char :: x = p ++ ":"%char :: r -> p = q).
    { clear - C. intros q x Q E. apply app_eq_app in E as (m & [[-> H]|[-> H]]); destruct m as [|d m]; rewrite ?app_nil_r; auto; injection H as <- _; exfalso; [apply Q|apply C]; apply in_app_iff; right; left; auto. }
    destruct H as [(x & ->)|(x & ->)]; [left|right]; eapply G; try exact E; cbn; intuition discriminate. }
  destruct X as [->| ->]; contradiction.
Qed.

Lemma bracket_content : forall t u l b key, inline_ok (Address u l) -> is_bracket rec t (mkBracket (u ++ !" " ++ l) b) key -> In (key, ExternalLinkToken u l) (tokenMap t).
Proof.
  intros t u l b key A H. pose proof (address_url _ _ A) as U. pose proof A as (Ht & _ & _ & _ & W & B). cbn [is_bracket inside] in H. unfold is_bracket in H. cbn [inside] in H.
  destruct H as [(u' & x & c & U' & _ & I & (t1 & t2 & _ & R & _))|[(u' & x & c & U' & N & _)|[N _]]].
  - destruct (url_unique _ _ _ _ _ U U') as [<- <-]. apply settled_result in R as [-> _]; [auto|apply words_settled; auto].
  - destruct (url_unique _ _ _ _ _ U U') as [<- <-]. contradiction.
  - apply N in U. rewrite (http_url _ Ht) in U. discriminate.
Qed.

Definition no_linkto (i : inline) : Prop := match i with LinkTo _ _ => False | _ => True end.
Definition no_picture (i : inline) : Prop := match i with Picture _ => False | _ => True end.

Lemma external_parts : forall l, Forall atom_ok l -> Forall no_linkto l -> Forall no_picture l -> exists first brackets, line_wikitext l = first ++ concat (map bracket_wikitext brackets) /\
  no_char "[" first /\ Forall (bracket_ok (lists cfg FilePrefixes)) brackets /\ Forall (fun b => forall url text, url_and_text (inside b) url text -> settled text) brackets /\
  forall t rs, Forall2 (is_bracket rec t) brackets rs -> exists l', Forall2 (addressed t) l l' /\
    first ++ concat (map (fun p => snd p ++ behind (fst p)) (combine brackets rs)) = line_wikitext l'.
Proof.
  induction 1 as [|i l A F IH]; intros Z Y; [|inversion Z as [|? ? Z1 Z2]; subst; inversion Y as [|? ? Y1 Y2]; subst; destruct (IH Z2 Y2) as (first & links & E & N & L & St & K)].
  - exists [], []. repeat split; auto; [intros []|]. intros t keys H. inversion H; subst. exists []. auto.
  - rewrite line_cons, E. destruct i as [s|k|a label|u label|f|p|nn nr]; [|destruct A|destruct Z1| | |destruct Y1|destruct A].
    + destruct A as [A A']. exists (s ++ first), links. cbn [inline_wikitext]. rewrite app_assoc. split; auto. split; [intros I; apply in_app_iff in I as [I|I]; auto; revert I; apply A; cbn; auto|]. split; auto. split; auto.
      intros t keys H. destruct (K t keys H) as (l' & H1 & H2). exists (Words s :: l'). split; [constructor; cbn; auto|]. rewrite line_cons, <- H2, <- app_assoc. auto.
    + exists [], (mkBracket (u ++ !" " ++ label) first :: links). split; [cbn [map concat]; rewrite bracket_text_eq, <- app_assoc; auto|].
      split; [intros []|]. split; [constructor; auto; apply bracket_is_ok; auto|].
      split; [constructor; auto; intros u' x' Ut; cbn [inside] in Ut; destruct (url_unique _ _ _ _ _ (address_url _ _ A) Ut) as [<- <-]; apply words_settled; apply A|].
      intros t keys H. inversion H as [|? key ? ks H1 H2]; subst. destruct (K t ks H2) as (l' & H3 & H4). exists (Words key :: l'). split.
      * constructor; auto. cbn [addressed]. exists key. split; auto. eapply bracket_content; eauto.
      * rewrite line_cons, <- H4. cbn [combine map concat fst snd behind app inline_wikitext]. rewrite <- app_assoc. auto.
    + exists (inline_wikitext (Math f) ++ first), links. rewrite app_assoc. split; auto. split; [intros I; apply in_app_iff in I as [I|I]; auto; revert I; apply formula_chars; auto; cbn; auto|]. split; auto. split; auto.
      intros t keys H. destruct (K t keys H) as (l' & H1 & H2). exists (Math f :: l'). split; [constructor; cbn; auto|]. rewrite line_cons, <- H2, <- app_assoc. auto.
Qed.

Lemma external_pass : forall l t, Forall atom_ok l -> Forall no_linkto l -> Forall no_picture l -> ok false t ->
  judge true t (parseExternalLinks cfg rec (line_wikitext l)) (fun t' r => exists l', Forall2 (addressed t') l l' /\ r = line_wikitext l').
Proof.
  intros l t A Z Y O. destruct (external_parts l A Z Y) as (first & links & E & N & L & St & K). rewrite E. eapply judge_weaken; [apply (external_links cfg rec true settled rec_settled prefixes_closing first links t); auto|].
  cbn beta. intros r t' _ _ (keys & -> & F). destruct (K t' keys F) as (l' & H1 & H2). exists l'. auto.
Qed.
End Links.
