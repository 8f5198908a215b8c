(** * Parsing a document: paragraphs, and all passes *)

From Coq Require Import Ascii String.
From Coq Require Import List Arith Bool Lia.
From Verif Require Import GoStr GoStrFacts TextFacts TrimFacts UtilModel BracketModel ConfigModel TokenModel TokenSpec TokenProofs PassSpec MarkupSpec SafeSpec.
From Verif Require Import FormattingModel FormattingSpec FormattingProofs HeadingModel LinkModel ImageModel ReferenceModel ListModel TableModel TableSpec ParagraphModel ParagraphSpec ParagraphProofs TokenizerModel JudgeProofs HeadingProofs LinkProofs TableProofs NowikiProofs SafeTextProofs SafeProofs ShapeProofs.
From Verif Require Import MathQuietProofs PropPasses DocumentSpec DocumentSettledProofs DocumentLineProofs DocumentPictureProofs DocumentRunProofs DocumentBlockProofs DocumentListProofs DocumentGridProofs.
Import ListNotations.
Local Open Scope list_scope.

(** ** Paragraphs *)

Section Doc.
Context {cfg : configuration}.

Fixpoint breaks (doc : list block) (bs : list (list str)) : list str :=
  match doc, bs with
  | b :: doc', s :: bs' => s ++ (match b, doc' with Paragraph _, Paragraph _ :: _ => [MARKER_PARAGRAPH] | _, _ => [] end) ++ breaks doc' bs'
  | _, _ => []
  end.

Lemma key_token_line : forall t k v, unique t -> In (k, v) (tokenMap t) -> is_token_line k = true.
Proof.
  intros t k v [F _] I. rewrite Forall_forall in F. destruct (F k) as (ty & i & [N T] & -> & _); [apply (in_map fst) in I; exact I|]. apply is_token_line_spec.
  exists ty, (itoa i). split; [reflexivity|]. split; auto. split; [apply itoa_nonempty|]. split.
  - intros c J. rewrite Forall_forall in T. apply token_char_in. auto.
  - intros c J. apply is_digit_in. pose proof (itoa_digits i) as D. rewrite Forall_forall in D. auto.
Qed.

Lemma shown_piece : forall t i i', unique t -> piece i -> shown t i i' -> piece i'.
Proof.
  intros t i i' U H S. destruct i as [s|k|a lb|u lb|f|p|nn nr]; cbn [shown] in S; [subst; auto|destruct S|destruct S as (key & b & -> & _ & I)|destruct S as (key & -> & I)|destruct S as (key & -> & I)|destruct S as (key & -> & p' & I & _)|destruct S as (key & -> & I)];
  right; exists key, []; (split; [eapply state_key; eauto|rewrite app_nil_r; auto]).
Qed.

Lemma paragraph_no_token : forall t l l', unique t -> fine l -> Forall piece l -> (exists s, In (Words s) l /\ ~ In "$"%char s) -> Forall2 (shown t) l l' -> is_token_line (line_wikitext l') = false.
Proof.
  intros t l l' U F Pi (s & I & N) S. destruct (shown_fine _ _ _ U S F) as [F' W]. destruct (is_token_line (line_wikitext l')) eqn:E; auto. exfalso. apply is_token_line_spec in E as (name & number & E & N1 & N2 & C1 & C2).
  assert (I' : In (Words s) l'). { clear - S I. induction S as [|i i' l l' H S IH]; [destruct I|]. destruct I as [->|I]; [left; auto|right; auto]. }
  assert (Pi' : Forall piece l'). { clear - S Pi U. induction S as [|i i' l l' H S IH]; constructor; inversion Pi; subst; auto. eapply shown_piece; eauto. }
  destruct l' as [|i l']; [destruct I'|]. inversion Pi' as [|? ? Pi1 Pi2]; subst. inversion W as [|? ? (s1 & -> & _ & Ne) W2]; subst. rewrite line_cons in E. cbn [inline_wikitext piece] in *.
  destruct Pi1 as [Pi1|(a & r & A & ->)].
  - destruct s1 as [|c s1]; [contradiction|]. assert (c = "$"%char) by (cbn [app] in E; congruence). apply Pi1. left. auto.
  - destruct A as (b & -> & Nb & Fb). set (m := !"TOKEN_" ++ name ++ !"_" ++ number).
    assert (E' : b ++ "$"%char :: "$"%char :: r ++ line_wikitext l' = m ++ "$"%char :: ["$"%char]).
    { unfold m. rewrite <- !app_assoc in E |- *. apply (app_inv_head !"$$"). exact E. }
    assert (Db : ~ In "$"%char b). { intros J. rewrite Forall_forall in Fb. apply Fb in J. discriminate. }
    assert (Dm : ~ In "$"%char m). { unfold m. rewrite !in_app_iff. intros [J|[J|[J|J]]]; [cbn in J; intuition discriminate|apply C1 in J; cbn in J; intuition discriminate|cbn in J; intuition discriminate|apply C2 in J; cbn in J; intuition discriminate]. }
    assert (Z : r ++ line_wikitext l' = []).
    { apply app_eq_app in E' as (z & [[-> H]|[-> H]]); destruct z as [|d z]; cbn [app] in H; try congruence; exfalso; [apply Db|apply Dm]; apply in_app_iff; right; left; congruence. }
    apply app_eq_nil in Z as [-> Z]. destruct l' as [|i l'].
    + destruct I' as [J|[]]. injection J as <-. apply N. left. auto.
    + inversion W2 as [|? ? (s2 & -> & _ & Ne2) _]; subst. rewrite line_cons in Z. apply app_eq_nil in Z as [Z _]. contradiction.
Qed.

(** Lines of a paragraph *)
Definition para_line (s : str) : Prop := is_token_line s = false /\ s <> [].

Lemma para_rest : forall ls before rest create, Forall para_line ls -> before <> [] ->
  exists before', before' <> [] /\ parseParagraphs_go before (ls ++ rest) false create = ls ++ parseParagraphs_go before' rest false create.
Proof.
  induction ls as [|s ls IH]; intros before rest create F N; [exists before; auto|]. inversion F as [|? ? [F1 F2] F3]; subst. destruct (IH s rest create F3 F2) as (b' & B & E). exists b'. split; auto.
  cbn [app parseParagraphs_go]. rewrite F1, E. assert (Q : str_eqb s [] = false) by (destruct s; [contradiction|reflexivity]). rewrite Q. reflexivity.
Qed.

Lemma para_break : forall before rest, before <> [] -> parseParagraphs_go before ([] :: rest) false false = parseParagraphs_go [] rest true true.
Proof. intros before rest N. cbn [parseParagraphs_go]. change (is_token_line []) with false. cbn iota. destruct before; [contradiction|reflexivity]. Qed.

Lemma keys_go : forall ls before rest create, ls <> [] -> Forall (fun s => is_token_line s = true) ls ->
  exists before', parseParagraphs_go before (ls ++ rest) true create = ls ++ parseParagraphs_go before' rest true false.
Proof.
  induction ls as [|s ls IH]; intros before rest create N F; [contradiction|]. inversion F as [|? ? F1 F2]; subst. destruct ls as [|s1 ls].
  - exists s. cbn [app parseParagraphs_go]. rewrite F1. auto.
  - destruct (IH s rest false ltac:(discriminate) F2) as (b' & E). exists b'. cbn [app] in *. cbn [parseParagraphs_go]. rewrite F1. f_equal. exact E.
Qed.

Lemma words_same : forall (a b : list str), map (fun k => [Words k]) a = map (fun k => [Words k]) b -> a = b.
Proof. induction a as [|x a IH]; intros [|y b] E; try discriminate; auto. injection E as -> E. f_equal. auto. Qed.

Lemma notes_keys_lines : forall t n title texts ss, notes_keys t n title texts (map (fun k => [Words k]) ss) -> ss <> [] /\ Forall (fun k => exists v, In (k, v) (tokenMap t)) ss.
Proof. intros t n title texts ss H. apply notes_keys_In in H as (keys & E & N & K). apply words_same in E. subst. auto. Qed.

Section Run.
Hypothesis P : prefixes_ok cfg.

Lemma para_lines : forall t lines lines', unique t -> Forall text_fine lines -> Forall2 (Forall2 (shown t)) lines lines' -> Forall para_line (map line_wikitext lines').
Proof.
  intros t lines lines' U F S. revert F. induction S as [|l l' lines lines' S1 S2 IH]; intros F; [constructor|]. inversion F as [|? ? (F1 & F2 & F3) F4]; subst. cbn [map]. constructor; auto. split.
  - eapply paragraph_no_token; eauto.
  - apply fine_text. eapply shown_fine; eauto.
Qed.

Lemma placed_tokens : forall t b s, unique t -> placed t b s -> (forall l, b <> Paragraph l) -> s <> [] /\ Forall (fun s => is_token_line s = true) s.
Proof.
  intros t b s U S1 N. assert (K : forall key v, s = [key] -> In (key, v) (tokenMap t) -> s <> [] /\ Forall (fun s => is_token_line s = true) s) by (intros key v -> I; split; [discriminate|constructor; [eapply key_token_line; eauto|constructor]]).
  destruct b as [n title|l|items|a caption rows|p|fn ft fa fx]; cbn [placed] in S1; [|exfalso; eapply N; eauto|..].
  - destruct S1 as (key & x & E & I & _). eauto.
  - destruct S1 as (key & x & E & I & _). eauto.
  - destruct S1 as (key & x & y & E & I & _). eauto.
  - destruct S1 as (key & E & p' & I & _). eauto.
  - apply notes_keys_lines in S1 as [S1 S3]. split; auto. eapply Forall_impl; [|exact S3]. intros k (v & I). eapply key_token_line; eauto.
Qed.

Lemma blanks_go : forall n before rest create, exists before', parseParagraphs_go before (repeat [] n ++ rest) true create = parseParagraphs_go before' rest true create.
Proof.
  induction n as [|n IH]; intros before rest create; [eauto|]. cbn [repeat app parseParagraphs_go]. change (is_token_line []) with false. cbn iota. cbn [str_eqb negb]. apply IH.
Qed.

Lemma breaks_go : forall t doc bs, unique t -> Forall block_fine doc -> Forall2 (placed t) doc bs -> forall g before create, gaps_ok g doc ->
  parseParagraphs_go before (layout [] g bs) true create = (match doc with Paragraph _ :: _ => if create then [MARKER_PARAGRAPH] else [] | _ => [] end) ++ breaks doc bs.
Proof.
  intros t doc bs U F S. revert F. induction S as [|b s doc bs S1 S2 IH]; intros F g before create Gp.
  { cbn [layout]. destruct (blanks_go (hd 0 g) before [] create) as (b' & E). etransitivity; [exact E|]. reflexivity. }
  inversion F as [|? ? F1 F2]; subst. destruct Gp as [Gp1 Gp2]. rewrite layout_cons. destruct (blanks_go (hd 0 g) before (s ++ layout [] (tl g) bs) create) as (before' & E). etransitivity; [exact E|]. clear before E.
  pose proof (placed_tokens t b s U S1) as T.
  assert (G : (forall l, b <> Paragraph l) -> parseParagraphs_go before' (s ++ layout [] (tl g) bs) true create = s ++ breaks doc bs).
  { intros N. destruct (T N) as (T1 & T2). destruct (keys_go s before' (layout [] (tl g) bs) create T1 T2) as (b' & ->). f_equal. rewrite IH by auto. destruct doc as [|[]]; reflexivity. }
  destruct b as [n title|l|items|a caption rows|p|fn ft fa fx]; cbn [breaks]; try (rewrite G by (intros l0 E; discriminate); reflexivity).
  clear G T. cbn [block_fine placed] in *. destruct F1 as (Ne & F1). destruct S1 as (l' & -> & S1). pose proof (para_lines t l l' U F1 S1) as L. destruct l as [|l0 l]; [contradiction|]. inversion S1 as [|? m0 ? m S3 S4]; subst. cbn [map] in *.
  inversion L as [|? ? [L1 L2] L3]; subst. cbn [app parseParagraphs_go]. rewrite L1. assert (Q : str_eqb (line_wikitext m0) [] = false) by (destruct (line_wikitext m0); [contradiction|reflexivity]). rewrite Q. cbn [negb]. f_equal. f_equal.
  destruct (para_rest (map line_wikitext m) (line_wikitext m0) (layout [] (tl g) bs) false L3 L2) as (b' & B & ->). f_equal.
  destruct (hd 0 (tl g)) as [|k] eqn:Ek.
  - destruct S2 as [|b1 s1 doc bs S5 S6]; [rewrite layout_nil, Ek; reflexivity|]. specialize (Gp1 b1 doc eq_refl eq_refl).
    assert (N1 : forall x, b1 <> Paragraph x) by (intros x ->; exact Gp1). destruct (placed_tokens t b1 s1 U S5 N1) as (T1 & T2).
    assert (X : parseParagraphs_go b' (layout [] (tl g) (s1 :: bs)) false false = parseParagraphs_go b' (layout [] (tl g) (s1 :: bs)) true false).
    { rewrite layout_cons, Ek. cbn [repeat app]. destruct s1 as [|x s1]; [contradiction|]. inversion T2 as [|? ? T3 _]; subst. cbn [app parseParagraphs_go]. rewrite T3. auto. }
    rewrite X, (IH F2 (tl g) b' false Gp2). destruct b1; try reflexivity. exfalso. eapply N1. reflexivity.
  - assert (X : layout [] (tl g) bs = [] :: layout [] (k :: tl (tl g)) bs) by (destruct bs as [|s1 bs]; [rewrite !layout_nil, Ek; reflexivity|rewrite !layout_cons, Ek; reflexivity]).
    assert (Gk : gaps_ok (k :: tl (tl g)) doc) by (destruct doc; [exact I|exact Gp2]). rewrite X, para_break by auto. rewrite (IH F2 _ _ _ Gk). destruct doc as [|[]]; reflexivity.
Qed.

(** ** All passes *)

Lemma placed_line : forall t b ss, unique t -> block_fine b -> placed t b ss -> Forall (fun s => inert s /\ ~ In nl_char s /\ no_block_start s) ss.
Proof.
  intros t b ss U F S. assert (K : forall s v, In (s, v) (tokenMap t) -> Forall (fun s => inert s /\ ~ In nl_char s /\ no_block_start s) [s]).
  { intros s v I0. pose proof (state_key _ _ _ U I0) as I. constructor; [|constructor]. split; [apply atom_inert; auto|]. split; [apply (atom_not _ nl_char I); apply in_app_iff; right; left; auto|apply (key_no_start 0); auto]. }
  destruct b as [n title|l|items|a caption rows|p|fn ft fa fx]; cbn [block_fine placed] in *.
  - destruct S as (key & x & -> & I & _). eauto.
  - destruct S as (l' & -> & S). destruct F as [_ F]. apply Forall_map. clear K. revert F. induction S as [|x x' l l' S1 S2 IH]; intros F; constructor; inversion F as [|? ? (F1 & _) F2]; subst; auto.
    destruct (shown_fine _ _ _ U S1 F1) as [F' W]. split; [apply words_text; auto|]. split; apply F'.
  - destruct S as (key & x & -> & I & _). eauto.
  - destruct S as (key & x & y & -> & I & _). eauto.
  - destruct S as (key & -> & p' & I & _). eauto.
  - apply notes_keys_lines in S as [_ S]. eapply Forall_impl; [|exact S]. intros s (v & I). specialize (K s v I). inversion K; auto.
Qed.

Lemma marker_line : inert MARKER_PARAGRAPH /\ ~ In nl_char MARKER_PARAGRAPH /\ no_block_start MARKER_PARAGRAPH.
Proof.
  assert (A : atom MARKER_PARAGRAPH) by (exists !"MARKER_PARAGRAPH"; split; [reflexivity|split; [discriminate|repeat constructor]]).
  split; [apply atom_inert; auto|]. split; [apply atom_not; auto; apply in_app_iff; right; left; auto|apply (key_no_start 0); auto].
Qed.

Lemma breaks_lines : forall t doc bs, unique t -> Forall block_fine doc -> Forall2 (placed t) doc bs -> Forall (fun s => inert s /\ ~ In nl_char s /\ no_block_start s) (breaks doc bs).
Proof.
  intros t doc bs U F S. revert F. induction S as [|b s doc bs S1 S2 IH]; intros F; [constructor|]. inversion F as [|? ? F1 F2]; subst. cbn [breaks]. apply Forall_app. split; [eapply placed_line; eauto|].
  apply Forall_app. split; auto. destruct b; try constructor. destruct doc as [|[]]; try constructor; auto. apply marker_line.
Qed.

Lemma join_In : forall (l : list str) c s, In c (join s l) -> In c s \/ exists x, In x l /\ In c x.
Proof.
  induction l as [|x [|y l] IH]; intros c s I; [destruct I|right; exists x; split; [left; auto|auto]|]. rewrite join_more in I. rewrite !in_app_iff in I. destruct I as [I|[I|I]]; auto.
  - right. exists x. split; [left; auto|auto].
  - destruct (IH c s I) as [J|(z & J & K)]; auto. right. exists z. split; [right; auto|auto].
Qed.

Lemma join_plain : forall l : list str, Forall plain l -> plain (join nl l).
Proof.
  induction 1 as [|x [|y l] X F IH]; [apply plain_without; intros []|exact X|]. rewrite join_more. apply plain_app; auto. apply plain_app; [marks|exact IH].
Qed.

Lemma breaks_settled : forall t doc bs, unique t -> Forall block_fine doc -> Forall2 (placed t) doc bs -> (exists s, parseParagraphs s = join nl (breaks doc bs)) ->
  settled (join nl (breaks doc bs)).
Proof.
  intros t doc bs U F S (s0 & E). pose proof (breaks_lines _ _ _ U F S) as L. constructor.
  - intros c I J. apply join_In in J as [[<-|[]]|(x & X & J)]; [cbn in I; intuition discriminate|]. rewrite Forall_forall in L. apply L in X as (X & _). revert J. apply X. cbn in I |- *. intuition.
  - apply (join_plain (breaks doc bs)). eapply Forall_impl; [|exact L]. intros x [[_ X] _]. exact X.
  - destruct (breaks doc bs) as [|s ss] eqn:B; [constructor; [|constructor]; intros c x Z; discriminate Z|]. replace (split nl (join nl (s :: ss))) with (s :: ss).
    + eapply Forall_impl; [|exact L]. intros x X. apply X.
    + symmetry. apply split_join_single; [discriminate|]. eapply Forall_impl; [|exact L]. intros x X. apply X.
  - rewrite <- E. apply parseParagraphs_twice.
Qed.

Lemma placed_nonempty : forall t b ss, block_fine b -> placed t b ss -> ss <> [].
Proof.
  intros t b ss F S. destruct b as [n title|l|items|a caption rows|p|fn ft fa fx]; cbn [block_fine placed] in *.
  - destruct S as (key & x & -> & _). discriminate.
  - destruct S as (l' & -> & S). intros E. apply map_eq_nil in E. subst. inversion S; subst. destruct F as [F _]. auto.
  - destruct S as (key & x & -> & _). discriminate.
  - destruct S as (key & x & y & -> & _). discriminate.
  - destruct S as (key & -> & _). discriminate.
  - apply notes_keys_lines in S as [S _]. auto.
Qed.

(** The lines before the lists and before the tables *)
Lemma plain_no_newline : forall b, block_plain b -> no_heading b -> Forall (fun s => ~ In nl_char s) (map line_wikitext (lines_of b)) /\ lines_of b <> [].
Proof.
  assert (X : forall l, plain_text l -> fine l) by (intros l [H _]; exact H).
  assert (C : forall l, cell_plain l -> cell_fine l) by (intros l [[H _] Y]; split; auto).
  intros b B N. assert (Y : (exists c, block_fine c /\ no_heading c /\ lines_of c = lines_of b) \/ exists lines, b = Paragraph lines).
  { destruct b as [n title|l|items|a caption rows|p|fn ft fa fx]; [destruct N|eauto|..].
    - left. exists (Items items). split; [|split; auto]. cbn in *. assert (G : Forall2 (item_rel eq) items items).
      { clear. induction items as [|i items IH]; constructor; auto. revert i. refine (item_rect' _ _). intros m x below H. constructor; auto. induction H as [|l below H F IHb]; constructor; auto. induction H; constructor; auto. }
      eapply rel_good; [|exact G|exact B]. intros m x x' [[Q1 _] Q2] <-. split; auto.
    - left. exists (Grid a caption rows). split; [|split; auto]. cbn in *. destruct B as (B1 & B2 & B3). split; auto. split; [intros; apply C; auto|]. eapply Forall_impl; [|exact B3]. intros row R. eapply Forall_impl; [|exact R].
      intros cells (h & [(k & -> & Kk)|[N1 F]]); exists h; [left; eauto|]. right. split; auto. eapply Forall_impl; [|exact F]. intros k [K1 K2]. split; auto.
    - destruct B.
    - destruct N. }
  destruct Y as [(c & F & Nc & E)|(lines & ->)].
  - rewrite <- E. split; [|apply lines_nonempty; auto]. apply Forall_map. eapply Forall_impl; [|apply block_rows; eauto]. intros r R. apply R.
  - destruct B as [Ne B]. split; auto. cbn [lines_of]. apply Forall_map. eapply Forall_impl; [|exact B]. intros l [L _]. apply L.
Qed.

Lemma rows_split : forall g t doc lss, unique t -> doc <> [] -> Forall block_fine doc -> Forall2 (ready t) doc lss ->
  split nl (line_wikitext (flat (layout [] g lss))) = layout [] g (map (map line_wikitext) lss).
Proof.
  intros g t doc lss U N F R. rewrite flat_text, layout_map. change (line_wikitext []) with (@nil ascii).
  assert (H : Forall (fun ls => Forall (fun s => ~ In nl_char s) (map line_wikitext ls) /\ ls <> []) lss).
  { clear N. revert F. induction R as [|b ls doc lss R1 R2 IH]; intros F; constructor; inversion F as [|? ? F1 F2]; subst; auto.
    assert (Z : forall b', ls = lines_of b' -> block_rel (Forall2 (shown t)) b b' -> no_heading b' -> Forall (fun s => ~ In nl_char s) (map line_wikitext ls) /\ ls <> []).
    { intros b' -> S Nh. apply plain_no_newline; auto. eapply related_plain; eauto. }
    destruct b as [n title|l|items|a caption rows|p|fn ft fa fx]; cbn [ready] in R1.
    - destruct R1 as (k & -> & title' & I & _). split; [|discriminate]. constructor; [|constructor]. rewrite one_text. apply atom_not; [eapply state_key; eauto|apply in_app_iff; right; left; auto].
    - destruct R1 as (b' & E & S). apply (Z b'); auto. destruct S as (x & -> & _). exact I.
    - destruct R1 as (b' & E & S). apply (Z b'); auto. destruct S as (x & -> & _). exact I.
    - destruct R1 as (b' & E & S). apply (Z b'); auto. destruct S as (x & y & -> & _). exact I.
    - destruct R1 as (b' & E & S). apply (Z b'); auto. destruct S as (x & -> & _). exact I.
    - apply notes_keys_In in R1 as (keys & -> & Nk & K). split; [|intros E; apply map_eq_nil in E; auto]. rewrite map_map. apply Forall_map. eapply Forall_impl; [|exact K]. intros k (v & I). rewrite one_text. apply atom_not; [eapply state_key; eauto|apply in_app_iff; right; left; auto]. }
  apply split_join_single.
  - apply layout_nonempty; [intros E; apply map_eq_nil in E; subst; inversion R; subst; auto|]. apply Forall_map. eapply Forall_impl; [|exact H]. intros ls [_ Ne] E. apply map_eq_nil in E. auto.
  - apply layout_Forall; [intros []|]. apply Forall_map. eapply Forall_impl; [|exact H]. intros ls [L _]. exact L.
Qed.

Lemma listed_lines : forall g t doc bs, unique t -> doc <> [] -> Forall block_fine doc -> Forall2 (listed t) doc bs -> Forall (fun s => ~ In nl_char s) (layout [] g bs) /\ layout [] g bs <> [].
Proof.
  intros g t doc bs U N F R.
  assert (H : Forall (fun ls => Forall (fun s => ~ In nl_char s) ls /\ ls <> []) bs).
  { clear N. revert F. induction R as [|b ls doc lss R1 R2 IH]; intros F; constructor; inversion F as [|? ? F1 F2]; subst; auto.
    assert (K : forall key v, In (key, v) (tokenMap t) -> Forall (fun s => ~ In nl_char s) [key] /\ [key] <> []) by (intros key v I; split; [|discriminate]; constructor; [|constructor]; apply atom_not; [eapply state_key; eauto|apply in_app_iff; right; left; auto]).
    assert (Z : forall b', ls = map line_wikitext (lines_of b') -> block_rel (Forall2 (shown t)) b b' -> no_heading b' -> Forall (fun s => ~ In nl_char s) ls /\ ls <> []).
    { intros b' -> S Nh. pose proof (related_plain t _ _ U F1 S) as W. destruct (plain_no_newline b' W Nh) as [A B]. split; auto. intros E. apply map_eq_nil in E. auto. }
    destruct b as [n title|l|items|a caption rows|p|fn ft fa fx]; cbn [listed] in R1.
    - destruct R1 as (key & x & -> & I & _). eauto.
    - destruct R1 as (b' & E & S). apply (Z b'); auto. destruct S as (x & -> & _). exact I.
    - destruct R1 as (key & x & -> & I & _). eauto.
    - destruct R1 as (b' & E & S). apply (Z b'); auto. destruct S as (x & y & -> & _). exact I.
    - destruct R1 as (b' & E & S). apply (Z b'); auto. destruct S as (x & -> & _). exact I.
    - apply notes_keys_lines in R1 as [Nk Hk]. split; auto. eapply Forall_impl; [|exact Hk]. intros k (v & I). destruct (K k v I) as [Kk _]. inversion Kk; auto. }
  split.
  - apply layout_Forall; [intros []|]. eapply Forall_impl; [|exact H]. intros ls [L _]. exact L.
  - apply layout_nonempty; [intros ->; inversion R; subst; auto|]. eapply Forall_impl; [|exact H]. intros ls [_ L]. exact L.
Qed.

(** The passes behind the footnotes *)
Theorem rest_pass : forall fuel g doc lss t, doc <> [] -> Forall block_fine doc -> gaps_ok g doc -> Forall2 (keyed t) doc lss -> ok false t ->
  judge true t (
    do! content := parseInternalLinks cfg (tokenizeContent cfg fuel) (line_wikitext (flat (layout [] g lss))) in
    do! content := parseGalleries cfg content in
    do! content := parseImageMaps cfg content in
    do! content := parseImages cfg (tokenizeContent cfg fuel) content in
    do! content := parseExternalLinks cfg (tokenizeContent cfg fuel) content in
    do! content := parseMath content in
    do! content := parseLists (tokenizeContent cfg fuel) content in
    do! content := parseTables (tokenizeContent cfg fuel) content in
    ret (parseParagraphs content)) (fun t' r => exists bs, Forall2 (placed t') doc bs /\ r = join nl (breaks doc bs) /\ settled r).
Proof.
  intros fuel g doc lss t N' F Gp H O.
  apply (links_middle P fuel _ g doc lss); auto. intros lss' t2 O2 G2 R. unfold parseLists. rewrite (rows_split g t2 doc lss' (proj1 O2) N' F R).
  eapply judge_bind with (Q := fun t' r => exists bs, Forall2 (listed t') doc bs /\ r = join nl (layout [] g bs)).
  - eapply judge_bind; [apply (lists_blocks fuel doc g lss' t2); auto|]. cbn beta. intros ls t3 O3 G3 (bs & S & ->). apply judge_ret; auto. exists bs. auto.
  - cbn beta. intros r t3 O3 G3 (bs & S & ->). destruct (listed_lines g t3 doc bs (proj1 O3) N' F S) as [L1 L2].
    eapply judge_bind; [apply (tables_blocks fuel g doc bs t3); auto|]. cbn beta. intros r t4 O4 G4 (bs' & S' & ->). apply judge_ret; auto. exists bs'.
    assert (Hs : Forall (fun ss => Forall (fun s => ~ In nl_char s) ss /\ ss <> []) bs').
    { clear - cfg P S' F O4. revert F. induction S' as [|b ss doc bs S1 S2 IH]; intros F; constructor; inversion F; subst; auto. split; [|eapply placed_nonempty; eauto]. eapply Forall_impl; [|eapply placed_line; eauto; apply O4]. intros s X. apply X. }
    assert (E : parseParagraphs (join nl (layout [] g bs')) = join nl (breaks doc bs')).
    { unfold parseParagraphs. change (split nl) with (split [nl_char]) at 1. change (join nl (layout [] g bs')) with (join [nl_char] (layout [] g bs')). rewrite split_join_single.
      - f_equal. rewrite (breaks_go t4 doc bs' (proj1 O4) F S') by auto. destruct doc as [|[]]; reflexivity.
      - apply layout_nonempty; [intros ->; inversion S'; subst; auto|]. eapply Forall_impl; [|exact Hs]. intros ss X. apply X.
      - apply layout_Forall; [intros []|]. eapply Forall_impl; [|exact Hs]. intros ss X. apply X. }
    rewrite E. split; auto. split; auto. eapply breaks_settled; eauto. apply O4.
Qed.

End Run.
End Doc.
