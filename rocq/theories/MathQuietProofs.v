(** * The passes before the formulas do not change a quiet text *)

From Coq Require Import Ascii String.
From Coq Require Import List Arith Bool Lia.
From Verif Require Import GoStr GoStrFacts TextFacts UtilModel BracketModel ConfigModel TokenModel TokenSpec TokenProofs PassSpec MarkupSpec MathSpec.
From Verif Require Import FormattingModel HeadingModel LinkModel ImageModel ReferenceModel ListModel TableModel ParagraphModel TokenizerModel HeadingProofs NowikiProofs SafeProofs ShapeProofs.
Import ListNotations.
Local Open Scope list_scope.

Definition unchanged (m : M str) (s : str) : Prop := forall t, m t = Ok (s, t).

Lemma split_line : forall s line, In line (split nl s) -> line_of line s.
Proof.
  intros s. pattern s. apply (split_ind_len nl); [discriminate| |].
  - intros x E line I. rewrite split_none in I by auto. destruct I as [<-|[]]. split.
    + intros J. apply in_split in J as (a & b & ->). rewrite index_none in E. exact (E a b eq_refl).
    + exists [], []. rewrite app_nil_r. auto.
  - intros a b E IH line I. rewrite split_first in I by (auto; discriminate). destruct I as [<-|I].
    + split.
      * pose proof (index_prefix_none _ _ _ E ltac:(discriminate)) as N. intros J. apply in_split in J as (x & y & ->). rewrite index_none in N. exact (N x y eq_refl).
      * exists [], (nl ++ b). repeat split; auto. right. exists b. auto.
    + destruct (IH line I) as (N & before & after & -> & B & A). split; auto. exists (a ++ nl ++ before), after. rewrite <- !app_assoc. repeat split; auto.
      right. destruct B as [->|(b' & ->)]; [exists a; rewrite app_nil_r; auto|exists (a ++ nl ++ b'); rewrite <- !app_assoc; auto].
Qed.

Lemma no_tag_part : forall tag a s b, no_tag tag (a ++ s ++ b) -> no_tag tag s.
Proof. intros tag a s b N. unfold no_tag in *. rewrite !to_lower_app in N. apply contains_app_false in N as [_ N]. apply contains_app_false in N. apply N. Qed.

Lemma no_tag_line : forall tag s line, no_tag tag s -> line_of line s -> no_tag tag line.
Proof. intros tag s line N (_ & a & b & -> & _). eapply no_tag_part; eauto. Qed.

Lemma no_tag_trim : forall tag s, no_tag tag s -> no_tag tag (trim_space s).
Proof. intros tag s N. destruct (trim_space_spec s) as (l & r & E & _). rewrite E in N. eapply no_tag_part; eauto. Qed.

Lemma no_tag_prefix : forall tag s, to_lower tag = tag -> no_tag tag s -> HasPrefixIgnoreCase s tag = false.
Proof.
  intros tag s L N. unfold HasPrefixIgnoreCase. rewrite L. destruct (has_prefix _ _) eqn:E; auto. apply has_prefix_spec in E as (x & E). unfold no_tag in N. rewrite E in N.
  assert (contains tag (tag ++ x) = true) by (apply contains_spec; exists [], x; auto). congruence.
Qed.

Lemma no_tag_first : forall tag s n, to_lower tag = tag -> no_tag tag s -> EqualsIgnoreCase (firstn n s) tag = false.
Proof.
  intros tag s n L N. unfold EqualsIgnoreCase. rewrite L. destruct (str_eqb _ _) eqn:E; auto. apply str_eqb_eq in E. unfold no_tag in N.
  rewrite <- (firstn_skipn n s), to_lower_app, E in N. assert (contains tag (tag ++ to_lower (skipn n s)) = true) by (apply contains_spec; exists [], (to_lower (skipn n s)); auto). congruence.
Qed.

Lemma mapM_unchanged : forall A (f : A -> M A) l, (forall a, In a l -> forall t, f a t = Ok (a, t)) -> forall t, mapM f l t = Ok (l, t).
Proof.
  intros A f l. induction l as [|a l IH]; intros H t; [reflexivity|]. cbn [mapM]. unfold bindM. rewrite H by (left; auto). cbn [bind]. rewrite IH by (intros; apply H; right; auto). reflexivity.
Qed.

Section Quiet.
Variable cfg : configuration.
Variable f : str -> M str.
Variable s : str.
Hypothesis Q : quiet s.

Lemma tag_absent : forall tag, In tag [!"<nowiki>"; !"<ref"; !"</re"; !"<gallery"; !"</gallery>"; !"<imagemap"; !"</imagemap>"] -> no_tag tag s.
Proof. apply (no_reserved_tag _ Q). Qed.

Lemma nowiki_unchanged : unchanged (parseNowiki s) s.
Proof.
  intros t. pose proof (nowiki_run s [] t) as R. unfold nowiki_text in R. cbn [map concat] in R. rewrite app_nil_r in R.
  rewrite R; [|apply tag_absent; left; auto|constructor]. cbn [replaced_areas]. rewrite app_nil_r. destruct t; reflexivity.
Qed.

Lemma formatting_unchanged : unchanged (lift (parseBoldAndItalic s)) s.
Proof.
  intros t. unfold lift, parseBoldAndItalic. cbn [parseBoldAndItalic_go skipn]. rewrite (proj2 (index_none _ _)); [reflexivity|]. apply (no_format _ Q).
Qed.

Lemma headings_unchanged : unchanged (parseHeadings f s) s.
Proof.
  intros t. unfold parseHeadings, bindM. assert (G : forall n t, parseHeadings_go f n (split nl s) t = Ok (split nl s, t)).
  { induction n as [|n IH]; intros t'; [reflexivity|]. cbn [parseHeadings_go]. unfold bindM. rewrite mapM_unchanged; [cbn [bind]; apply IH|].
    intros line I t0. rewrite headingLine_eq, ordinary_matches; [reflexivity|lia|]. apply (no_heading _ Q). apply split_line. auto. }
  rewrite G. cbn [bind]. rewrite join_split by discriminate. reflexivity.
Qed.

Lemma references_unchanged : unchanged (parseReferences f s) s.
Proof.
  intros t. unfold parseReferences. assert (N : next_tag s = None).
  { assert (A : no_tag !"<ref" s) by (apply tag_absent; cbn; auto). assert (B : no_tag !"</re" s) by (apply tag_absent; cbn; auto). revert A B. generalize s.
    induction s0 as [|c s0 IH]; intros A B; auto. cbn [next_tag]. unfold at_reference_tag. rewrite !no_tag_first by (auto; reflexivity). rewrite andb_false_r, IH; auto; eapply no_tag_cons; eauto. }
  destruct (length _); cbn [parseReferences_go skipn]; rewrite N; reflexivity.
Qed.

Lemma no_double : index !"[[" s = None.
Proof.
  rewrite index_none. intros a b E. destruct (only_closed_brackets _ Q a (!"[" ++ b) E) as (x & y & E2 & N). destruct x as [|c x]; [discriminate E2|].
  injection E2 as <- _. apply N. left. auto.
Qed.

Lemma internal_unchanged : unchanged (parseInternalLinks cfg f s) s.
Proof. intros t. unfold parseInternalLinks, parseLink. rewrite split_none by apply no_double. cbn. rewrite app_nil_r. reflexivity. Qed.

Lemma galleries_unchanged : unchanged (parseGalleries cfg s) s.
Proof.
  intros t. unfold parseGalleries, bindM. assert (G : forall lines, (forall line, In line lines -> line_of line s) -> parseGalleries_go cfg lines false t = Ok (lines, t)).
  { induction lines as [|line lines IH]; intros H; [reflexivity|]. cbn [parseGalleries_go].
    rewrite no_tag_prefix; [|reflexivity|apply no_tag_trim; eapply no_tag_line; [apply tag_absent; cbn; auto 8|apply H; left; auto]].
    unfold remove_start_tag. rewrite no_tag_prefix; [|reflexivity|apply no_tag_trim; eapply no_tag_line; [apply tag_absent; cbn; auto 8|apply H; left; auto]].
    unfold bindM. rewrite IH by (intros; apply H; right; auto). reflexivity. }
  rewrite G by (intros; apply split_line; auto). cbn [bind]. rewrite join_split by discriminate. reflexivity.
Qed.

Lemma imagemaps_unchanged : unchanged (parseImageMaps cfg s) s.
Proof.
  intros t. unfold parseImageMaps, bindM. assert (G : forall lines, (forall line, In line lines -> line_of line s) -> parseImageMaps_go cfg lines false t = Ok (lines, t)).
  { induction lines as [|line lines IH]; intros H; [reflexivity|]. cbn [parseImageMaps_go orb].
    pose proof (no_tag_first !"</imagemap>" line (length line) eq_refl) as E. rewrite firstn_all in E.
    rewrite E by (eapply no_tag_line; [apply tag_absent; cbn; auto 9|apply H; left; auto]). clear E.
    unfold remove_start_tag. rewrite no_tag_prefix; [|reflexivity|eapply no_tag_line; [apply tag_absent; cbn; auto 8|apply H; left; auto]].
    unfold bindM. rewrite IH by (intros; apply H; right; auto). reflexivity. }
  rewrite G by (intros; apply split_line; auto). cbn [bind]. rewrite join_split by discriminate. reflexivity.
Qed.

Lemma images_unchanged : unchanged (parseImages cfg f s) s.
Proof. intros t. unfold parseImages. cbn [parseImages_go]. rewrite no_link_start by exact no_double. reflexivity. Qed.

Lemma item_closed : forall a item b, s = a ++ !"[" ++ item ++ b -> (b = [] \/ exists b', b = !"[" ++ b') -> In "]"%char item.
Proof.
  intros a item b E B. destruct (only_closed_brackets _ Q a (item ++ b) E) as (x & y & E2 & N).
  destruct (app_app_cases _ _ _ _ E2) as [(z & -> & K)|(z & -> & K)].
  - destruct B as [->|(b' & ->)]; [symmetry in K; apply app_eq_nil in K as [_ K]; discriminate K|]. destruct z as [|c z]; [discriminate K|]. injection K as <- _.
    exfalso. apply N. apply in_app_iff. right. left. auto.
  - destruct z as [|c z].
    + cbn in K. rewrite app_nil_r. destruct B as [->|(b' & ->)]; discriminate K.
    + injection K as <- _. apply in_app_iff. right. left. auto.
Qed.

Lemma item_unchanged : forall a item b, s = a ++ !"[" ++ item ++ b -> (b = [] \/ exists b', b = !"[" ++ b') ->
  unchanged (parseLinkItem cfg f !"[" !"]" !" " LINK_TYPE_EXTERNAL true false item) (!"[" ++ item).
Proof.
  intros a item b E B t. unfold parseLinkItem. destruct (is_file cfg item); [reflexivity|].
  destruct (length (split !" " (hd [] (split !"]" item))) =? 1) eqn:L; [reflexivity|]. cbn [andb].
  assert (T : contains !"://" (link_target !" " (hd [] (split !"]" item)) false) = false).
  { apply contains_false. intros x y E2.
    assert (P : forall sep u, sep <> [] -> exists v, u = hd [] (split sep u) ++ v).
    { intros sep u Hs. pose proof (join_split sep u Hs) as J. pose proof (split_nonempty sep u) as Ne. destruct (split sep u) as [|h l]; [congruence|]. cbn [hd]. rewrite <- J.
      destruct l; [exists []; cbn; rewrite app_nil_r; auto|]. rewrite join_cons by discriminate. eexists. reflexivity. }
    unfold link_target in E2. destruct (P !"]" item) as (v & V); [discriminate|]. destruct (P !" " (hd [] (split !"]" item))) as (w & W); [discriminate|].
    destruct (trim_space_spec (hd [] (split !" " (hd [] (split !"]" item))))) as (l & r & R & _). rewrite E2 in R. rewrite R in W. rewrite W in V. rewrite V in E.
    apply (no_link_address _ Q (a ++ !"[" ++ l ++ x) (y ++ r ++ w ++ v ++ b)). rewrite E. rewrite <- !app_assoc. reflexivity. }
  set (target := link_target _ _ _) in *.
  assert (H : HasAnyPrefix target [!"http://"; !"https://"] = false).
  { unfold HasAnyPrefix. cbn [existsb]. rewrite contains_false in T. 
    assert (P : forall u, has_prefix (u ++ !"://") target = false).
    { intros u. destruct (has_prefix (u ++ !"://") target) eqn:P; auto. exfalso. apply has_prefix_spec in P as (x & P). apply (T u x). rewrite P, <- app_assoc. reflexivity. }
    pose proof (P !"http") as P1. pose proof (P !"https") as P2. cbn [List.app list_ascii_of_string] in P1, P2. rewrite P1, P2. reflexivity. }
  unfold link_token. rewrite H, T. unfold bindM, ret. cbn [bind]. f_equal. f_equal. rewrite <- !app_assoc. cbn [List.app]. f_equal.
  pose proof (item_closed a item b E B) as I. apply in_split in I as (x & y & I).
  destruct (in_split_first "]"%char item) as (x' & y' & I' & N); [rewrite I; apply in_app_iff; right; left; auto|].
  rewrite I'. change !"]" with ["]"%char]. rewrite split_single_app by auto. cbn [hd tl]. rewrite join_split by discriminate. reflexivity.
Qed.

Lemma external_unchanged : unchanged (parseExternalLinks cfg f s) s.
Proof.
  intros t. unfold parseExternalLinks, parseLink. destruct (split_items !"[" s) as (first & items & E & E2); [discriminate|]. rewrite E. unfold bindM.
  assert (G : forall items a, s = a ++ parts !"[" items -> forall t, mapM (parseLinkItem cfg f !"[" !"]" !" " LINK_TYPE_EXTERNAL true false) items t = Ok (map (app !"[") items, t)).
  { clear - Q. induction items as [|item items IH]; intros a E t; [reflexivity|]. unfold parts in E. cbn [map concat] in E. fold (parts !"[" items) in E. rewrite <- app_assoc in E. cbn [mapM map].
    unfold bindM. rewrite (item_unchanged a item (parts !"[" items) E).
    - cbn [bind]. rewrite (IH (a ++ !"[" ++ item)); [reflexivity|]. rewrite E at 1. rewrite <- !app_assoc. reflexivity.
    - destruct items; [left; auto|right]. unfold parts. cbn [map concat]. rewrite <- app_assoc. eexists. reflexivity. }
  rewrite (G items first E2). unfold bind, ret. f_equal. f_equal. unfold parts in E2. auto.
Qed.

Definition after_math (content : str) : M str :=
  do! content := parseLists f content in
  do! content := parseTables f content in
  ret (parseParagraphs content).

Lemma quiet_passes : forall t, passes cfg f s t = (do! content := parseMath s in after_math content) t.
Proof.
  intros t. unfold passes. unfold bindM at 1. rewrite nowiki_unchanged. cbn [bind]. unfold bindM at 1. rewrite formatting_unchanged. cbn [bind].
  unfold bindM at 1. rewrite headings_unchanged. cbn [bind]. unfold bindM at 1. rewrite references_unchanged. cbn [bind].
  unfold bindM at 1. rewrite internal_unchanged. cbn [bind]. unfold bindM at 1. rewrite galleries_unchanged. cbn [bind].
  unfold bindM at 1. rewrite imagemaps_unchanged. cbn [bind]. unfold bindM at 1. rewrite images_unchanged. cbn [bind].
  unfold bindM at 1. rewrite external_unchanged. cbn [bind]. reflexivity.
Qed.
End Quiet.
