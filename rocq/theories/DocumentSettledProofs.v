(** * Texts without markup: no pass of the tokenizer changes them *)

From Coq Require Import Ascii String.
From Coq Require Import List Arith Bool Lia.
From Verif Require Import GoStr GoStrFacts TextFacts UtilModel BracketModel ConfigModel TokenModel TokenSpec TokenProofs PassSpec MarkupSpec.
From Verif Require Import FormattingModel FormattingSpec HeadingModel LinkModel ImageModel ReferenceModel ListModel TableModel ParagraphModel ParagraphProofs TokenizerModel JudgeProofs HeadingProofs NowikiProofs SafeTextProofs SafeProofs ShapeProofs.
From Verif Require Import MathQuietProofs DocumentSpec.
Import ListNotations.
Local Open Scope list_scope.

Lemma no_angle_tag : forall tag s, ~ In "<"%char s -> no_tag ("<"%char :: tag) s.
Proof.
  intros tag s N. unfold no_tag. apply contains_false. intros a b E. apply N.
  assert (I : In "<"%char (to_lower s)) by (rewrite E; apply in_app_iff; right; left; auto). apply in_map_iff in I as (c & C & I).
  apply lower_symbol in C; [subst; auto|]. left. cbn. auto.
Qed.

(** The tags that the passes before the formulas look for *)
Definition early_tags : list str := [!"<nowiki>"; !"<ref"; !"</re"; !"<gallery"; !"</gallery>"; !"<imagemap"; !"</imagemap>"].
Definition no_tags (s : str) : Prop := forall tag, In tag early_tags -> no_tag tag s.

Lemma angle_no_tags : forall s, ~ In "<"%char s -> no_tags s.
Proof. intros s N tag I. cbn in I. repeat (destruct I as [<-|I]; [apply no_angle_tag; exact N|]). destruct I. Qed.

(** All tags are those of formulas. *)
Definition math_angles (s : str) : Prop := forall a b, s = a ++ "<"%char :: b -> (exists x, b = !"math>" ++ x) \/ exists x, b = !"/math>" ++ x.

Lemma math_angles_none : forall s, ~ In "<"%char s -> math_angles s.
Proof. intros s N a b ->. exfalso. apply N. apply in_app_iff. right. left. auto. Qed.

Lemma math_angles_app : forall x y, math_angles x -> math_angles y -> math_angles (x ++ y).
Proof.
  intros x y X Y a b E. apply app_eq_app in E as (m & [[-> H]|[-> H]]).
  - destruct m as [|d m]; [apply (Y [] b); symmetry; exact H|]. injection H as <- ->. destruct (X a m eq_refl) as [(z & ->)|(z & ->)]; [left|right]; exists (z ++ y); rewrite <- app_assoc; reflexivity.
  - apply (Y m b). exact H.
Qed.

Lemma math_angles_text : forall f, ~ In "<"%char f -> math_angles (!"<math>" ++ f ++ !"</math>").
Proof.
  intros f N a b E. destruct a as [|c a]; [left; exists (f ++ !"</math>"); cbn [app] in E |- *; congruence|]. right. assert (X : !"math>" ++ f ++ !"</math>" = a ++ "<"%char :: b) by (cbn [app] in E |- *; congruence). clear E.
  rewrite app_assoc in X. apply app_eq_app in X as (m & [[E H]|[-> H]]).
  - destruct m as [|d m]; [exists []; cbn [app] in H |- *; congruence|]. exfalso. injection H as <- ->. assert (I : In "<"%char (!"math>" ++ f)) by (rewrite E; apply in_app_iff; right; left; auto).
    apply in_app_iff in I as [I|I]; auto. cbn in I. intuition discriminate.
  - destruct m as [|d m]; [exists []; cbn [app] in H |- *; congruence|]. exfalso. cbn [app] in H. injection H as <- H. assert (I : In "<"%char !"/math>") by (change !"/math>" with ["/"; "m"; "a"; "t"; "h"; ">"]%char; rewrite H; apply in_app_iff; right; left; auto). cbn in I. intuition discriminate.
Qed.

Lemma math_no_tags : forall s, math_angles s -> no_tags s.
Proof.
  intros s M tag I. unfold no_tag. apply contains_false. intros a b E.
  assert (X : exists tag', tag = "<"%char :: tag' /\ forall x y, tag' ++ x <> !"math>" ++ y /\ tag' ++ x <> !"/math>" ++ y).
  { cbn in I. repeat (destruct I as [<-|I]; [eexists; split; [reflexivity|]; intros x y; split; intros Z; cbn [app] in Z; discriminate Z|]). destruct I. }
  destruct X as (tag' & -> & X). unfold to_lower in E. apply map_eq_app in E as (s1 & s2 & -> & E1 & E2). cbn [app] in E2. apply map_eq_cons in E2 as (c & s3 & -> & C & E2). apply lower_symbol in C; [subst c|left; cbn; auto].
  destruct (M s1 s3 eq_refl) as [(x & ->)|(x & ->)]; [apply (proj1 (X b (to_lower x)))|apply (proj2 (X b (to_lower x)))]; rewrite <- E2; rewrite map_app; reflexivity.
Qed.

(** All tags are those of formulas and footnotes. *)
Definition known_tags : list str := [!"math>"; !"/math>"; !"ref"; !"/ref>"].
Definition tag_angles (s : str) : Prop := forall a b, s = a ++ "<"%char :: b -> exists w x, In w known_tags /\ b = w ++ x.

Lemma tag_angles_none : forall s, ~ In "<"%char s -> tag_angles s.
Proof. intros s N a b ->. exfalso. apply N. apply in_app_iff. right. left. auto. Qed.

Lemma tag_angles_math : forall s, math_angles s -> tag_angles s.
Proof. intros s M a b E. destruct (M a b E) as [(x & ->)|(x & ->)]; eexists _, x; (split; [|reflexivity]); cbn; auto. Qed.

Lemma tag_angles_app : forall x y, tag_angles x -> tag_angles y -> tag_angles (x ++ y).
Proof.
  intros x y X Y a b E. apply app_eq_app in E as (m & [[-> H]|[-> H]]).
  - destruct m as [|d m]; [apply (Y [] b); symmetry; exact H|]. injection H as <- ->. destruct (X a m eq_refl) as (w & z & W & ->). exists w, (z ++ y). rewrite <- app_assoc. auto.
  - apply (Y m b). exact H.
Qed.

Lemma tag_no_nowiki : forall s, tag_angles s -> no_tag !"<nowiki>" s.
Proof.
  intros s M. unfold no_tag. apply contains_false. intros a b E. change (!"<nowiki>") with ("<"%char :: !"nowiki>") in E.
  unfold to_lower in E. apply map_eq_app in E as (s1 & s2 & -> & E1 & E2). cbn [app] in E2. apply map_eq_cons in E2 as (c & s3 & -> & C & E2). apply lower_symbol in C; [subst c|left; cbn; auto].
  destruct (M s1 s3 eq_refl) as (w & x & W & ->). rewrite map_app in E2. cbn in W. destruct W as [<-|[<-|[<-|[<-|[]]]]]; discriminate E2.
Qed.

Section Texts.
Variable cfg : configuration.
Variable f : str -> M str.
Variable s : str.

Lemma nowiki_none : no_tag !"<nowiki>" s -> unchanged (parseNowiki s) s.
Proof.
  intros N.
  intros t. pose proof (nowiki_run s [] t) as R. unfold nowiki_text in R. cbn [map concat] in R. rewrite app_nil_r in R.
  rewrite R; [|exact N|constructor]. cbn [replaced_areas]. rewrite app_nil_r. destruct t; reflexivity.
Qed.

Section NoTags.
Hypothesis N : no_tags s.

Lemma nowiki_same : unchanged (parseNowiki s) s.
Proof. apply nowiki_none. apply N. cbn. auto 10. Qed.

Lemma references_same : unchanged (parseReferences f s) s.
Proof.
  intros t. unfold parseReferences. assert (X : next_tag s = None).
  { assert (A : no_tag !"<ref" s) by (apply N; cbn; auto 10). assert (B : no_tag !"</re" s) by (apply N; cbn; auto 10). revert A B. generalize s.
    induction s0 as [|c s0 IH]; intros A B; auto. cbn [next_tag]. unfold at_reference_tag. rewrite !no_tag_first by (auto; reflexivity). rewrite andb_false_r, IH; auto; eapply no_tag_cons; eauto. }
  destruct (length _); cbn [parseReferences_go skipn]; rewrite X; reflexivity.
Qed.

Lemma galleries_same : unchanged (parseGalleries cfg s) s.
Proof.
  intros t. unfold parseGalleries, bindM. assert (G : forall lines, (forall line, In line lines -> line_of line s) -> parseGalleries_go cfg lines false t = Ok (lines, t)).
  { induction lines as [|line lines IH]; intros H; [reflexivity|]. cbn [parseGalleries_go].
    rewrite no_tag_prefix; [|reflexivity|apply no_tag_trim; eapply no_tag_line; [apply N; cbn; auto 10|apply H; left; auto]].
    unfold remove_start_tag. rewrite no_tag_prefix; [|reflexivity|apply no_tag_trim; eapply no_tag_line; [apply N; cbn; auto 10|apply H; left; auto]].
    unfold bindM. rewrite IH by (intros; apply H; right; auto). reflexivity. }
  rewrite G by (intros; apply split_line; auto). cbn [bind]. rewrite join_split by discriminate. reflexivity.
Qed.

Lemma imagemaps_same : unchanged (parseImageMaps cfg s) s.
Proof.
  intros t. unfold parseImageMaps, bindM. assert (G : forall lines, (forall line, In line lines -> line_of line s) -> parseImageMaps_go cfg lines false t = Ok (lines, t)).
  { induction lines as [|line lines IH]; intros H; [reflexivity|]. cbn [parseImageMaps_go orb].
    pose proof (no_tag_first !"</imagemap>" line (length line) eq_refl) as E. rewrite firstn_all in E.
    rewrite E by (eapply no_tag_line; [apply N; cbn; auto 10|apply H; left; auto]). clear E.
    unfold remove_start_tag. rewrite no_tag_prefix; [|reflexivity|eapply no_tag_line; [apply N; cbn; auto 10|apply H; left; auto]].
    unfold bindM. rewrite IH by (intros; apply H; right; auto). reflexivity. }
  rewrite G by (intros; apply split_line; auto). cbn [bind]. rewrite join_split by discriminate. reflexivity.
Qed.

End NoTags.

Lemma math_same : ~ In "<"%char s -> unchanged (parseMath s) s.
Proof.
  intros N t. unfold parseMath. assert (X : math_matches s 0 = []).
  { revert N. generalize s. induction s0 as [|c s0 IH]; intros H; auto. cbn [math_matches]. unfold math_match.
    rewrite has_prefix_neq by (intros <-; apply H; left; auto). apply IH. intros I. apply H. right. auto. }
  rewrite X. reflexivity.
Qed.

Lemma formatting_same : (forall a b, s <> a ++ !"''" ++ b) -> unchanged (lift (parseBoldAndItalic s)) s.
Proof. intros N t. unfold lift, parseBoldAndItalic. cbn [parseBoldAndItalic_go skipn]. rewrite (proj2 (index_none _ _)); [reflexivity|exact N]. Qed.

Lemma internal_same : ~ In "["%char s -> unchanged (parseInternalLinks cfg f s) s.
Proof.
  intros N t. unfold parseInternalLinks, parseLink. rewrite split_none; [cbn; rewrite app_nil_r; reflexivity|].
  apply index_none. intros a b E. apply N. rewrite E. apply in_app_iff. right. left. auto.
Qed.

Lemma external_same : ~ In "["%char s -> unchanged (parseExternalLinks cfg f s) s.
Proof.
  intros N t. unfold parseExternalLinks, parseLink. rewrite split_none; [cbn; rewrite app_nil_r; reflexivity|].
  apply index_none. intros a b E. apply N. rewrite E. apply in_app_iff. right. left. auto.
Qed.

Lemma images_same : index !"[[" s = None -> unchanged (parseImages cfg f s) s.
Proof. intros N t. unfold parseImages. cbn [parseImages_go]. rewrite no_link_start by exact N. reflexivity. Qed.

Lemma tables_same : ~ In "{"%char s -> unchanged (parseTables f s) s.
Proof.
  intros N t. unfold parseTables, bindM.
  assert (T : forall l, ~ In "{"%char l -> table_start l = None).
  { induction l as [|c l IH]; intros H; auto. cbn [table_start]. rewrite has_prefix_neq by (intros <-; apply H; left; auto).
    rewrite IH by (intros I; apply H; right; auto). destruct (Ascii.eqb c ":"); reflexivity. }
  assert (G : forall lines, (forall line, In line lines -> ~ In "{"%char line) -> parseTables_go f (length lines) lines t = Ok (lines, t)).
  { induction lines as [|line lines IH]; intros H; [reflexivity|]. cbn [parseTables_go length].
    rewrite T by (intros I; apply trim_space_In in I; revert I; apply H; left; auto). unfold bindM. rewrite IH by (intros; apply H; right; auto). reflexivity. }
  rewrite G.
  - cbn [bind]. rewrite join_split by discriminate. reflexivity.
  - intros line I J. apply N. exact (split_flat_In nl_char s line _ I J).
Qed.

Section Lines.
Hypothesis L : Forall no_block_start (split nl s).

Lemma start_matches : forall line n, no_block_start line -> 1 <= n -> matches n line = false.
Proof.
  intros line n H Hn. unfold matches. destruct (has_prefix (equals n) (trim_space line)) eqn:E; [|reflexivity].
  apply has_prefix_spec in E as (x & E). destruct n as [|n]; [lia|]. exfalso. apply (H equal_sign (equals n ++ x)); [exact E|left; auto].
Qed.

Lemma headings_same : unchanged (parseHeadings f s) s.
Proof.
  intros t. unfold parseHeadings, bindM. assert (G : forall n t, parseHeadings_go f n (split nl s) t = Ok (split nl s, t)).
  { induction n as [|n IH]; intros t'; [reflexivity|]. cbn [parseHeadings_go]. unfold bindM. rewrite mapM_unchanged; [cbn [bind]; apply IH|].
    intros line I t0. rewrite Forall_forall in L. rewrite headingLine_eq, start_matches; [reflexivity|auto|lia]. }
  rewrite G. cbn [bind]. rewrite join_split by discriminate. reflexivity.
Qed.

Lemma start_list : forall line c x, no_block_start line -> trim_space line = c :: x -> isListStartingCharacter c = false.
Proof.
  intros line c x H E. specialize (H c x E). unfold isListStartingCharacter.
  destruct (Ascii.eqb_spec c "*") as [->|_]; [exfalso; apply H; cbn; auto|]. destruct (Ascii.eqb_spec c "#") as [->|_]; [exfalso; apply H; cbn; auto|].
  destruct (Ascii.eqb_spec c ";") as [->|_]; [exfalso; apply H; cbn; auto|]. destruct (Ascii.eqb_spec c ":") as [->|_]; [exfalso; apply H; cbn; auto 6|]. reflexivity.
Qed.

Lemma lists_same : unchanged (parseLists f s) s.
Proof.
  intros t. unfold parseLists, bindM. assert (G : forall lines, Forall no_block_start lines -> parseLists_go f lines 0 t = Ok (lines, t)).
  { induction 1 as [|line lines H F IH]; [reflexivity|]. cbn [parseLists_go]. destruct (trim_space line) as [|c x] eqn:E.
    - unfold bindM. rewrite IH. reflexivity.
    - rewrite (start_list _ _ _ H E). unfold bindM. rewrite IH. reflexivity. }
  rewrite G by auto. cbn [bind]. rewrite join_split by discriminate. reflexivity.
Qed.
End Lines.
End Texts.

(** Texts that are the result of parsing *)
Record settled (s : str) : Prop := {
  settled_chars : forall c, In c !"[<{" -> ~ In c s;
  settled_quotes : forall a b, s <> a ++ !"''" ++ b;
  settled_lines : Forall no_block_start (split nl s);
  settled_paragraphs : parseParagraphs s = s }.

Lemma settled_passes : forall cfg f s, settled s -> unchanged (passes cfg f s) s.
Proof.
  intros cfg f s [C C1 L P] t. assert (C2 : ~ In "["%char s) by (apply C; cbn; auto).
  assert (C3 : ~ In "<"%char s) by (apply C; cbn; auto). assert (C4 : ~ In "{"%char s) by (apply C; cbn; auto).
  unfold passes. unfold bindM at 1. rewrite nowiki_same by (apply angle_no_tags; auto). cbn [bind]. unfold bindM at 1. rewrite formatting_same by auto. cbn [bind].
  unfold bindM at 1. rewrite headings_same by auto. cbn [bind]. unfold bindM at 1. rewrite references_same by (apply angle_no_tags; auto). cbn [bind].
  unfold bindM at 1. rewrite internal_same by auto. cbn [bind]. unfold bindM at 1. rewrite galleries_same by (apply angle_no_tags; auto). cbn [bind].
  unfold bindM at 1. rewrite imagemaps_same by (apply angle_no_tags; auto). cbn [bind]. unfold bindM at 1.
  rewrite images_same by (apply index_none; intros a b E; apply C2; rewrite E; apply in_app_iff; right; left; auto). cbn [bind].
  unfold bindM at 1. rewrite external_same by auto. cbn [bind]. unfold bindM at 1. rewrite math_same by auto. cbn [bind].
  unfold bindM at 1. rewrite lists_same by auto. cbn [bind]. unfold bindM at 1. rewrite tables_same by auto. cbn [bind].
  rewrite P. reflexivity.
Qed.

Lemma settled_result : forall cfg fuel s t c t', settled s -> tokenizeContent cfg fuel s t = Ok (c, t') -> c = s /\ t' = t.
Proof.
  intros cfg [|fuel] s t c t' S E; [discriminate|]. cbn [tokenizeContent] in E. unfold bindM in E. rewrite (settled_passes _ _ _ S) in E. cbn [bind] in E.
  rewrite str_eqb_refl in E. injection E as <- <-. auto.
Qed.

Lemma settled_judge : forall strict cfg fuel s t, settled s -> ok false t -> judge strict t (tokenizeContent cfg fuel s) (fun _ r => r = s).
Proof.
  intros strict cfg fuel s t S O. split.
  - intros c t' E. apply settled_result in E as [-> ->]; auto. split; auto. split; [apply grows_refl|auto].
  - intros _. destruct fuel as [|fuel]; [exact I|]. cbn [tokenizeContent]. unfold bindM. rewrite (settled_passes _ _ _ S). cbn [bind]. rewrite str_eqb_refl. exact I.
Qed.

(** A single line *)
Lemma single_paragraph : forall s, ~ In nl_char s -> parseParagraphs s = s.
Proof.
  intros s N. unfold parseParagraphs. change nl with [nl_char] at 2. rewrite split_single_none by auto. cbn [parseParagraphs_go].
  destruct (is_token_line s); [reflexivity|]. destruct (str_eqb s []) eqn:E; [apply str_eqb_eq in E; subst; reflexivity|reflexivity].
Qed.

Lemma settled_single : forall s, (forall c, In c !"[<{" -> ~ In c s) -> (forall a b, s <> a ++ !"''" ++ b) -> ~ In nl_char s -> no_block_start s -> settled s.
Proof.
  intros s C Q N H. constructor; auto; [|apply single_paragraph; auto]. change nl with [nl_char]. rewrite split_single_none by auto. constructor; auto.
Qed.
