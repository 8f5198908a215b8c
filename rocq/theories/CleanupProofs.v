(** * The steps of the cleanup together *)

From Coq Require Import Ascii String.
From Coq Require Import List Arith Bool Lia.
From Verif Require Import GoStr GoStrFacts BracketSpec ConfigModel CleanerModel CleanerSpec CleanerProofs CleanerLinkProofs CleanerTemplateProofs RailwaySpec RailwayProofs CleanupSpec.
Import ListNotations.
Local Open Scope list_scope.

Lemma newline_det : forall t a b, without_newline t a -> without_newline t b -> a = b.
Proof.
  intros t a b [A|[A A']] [B|[B B']].
  - rewrite A in B. apply app_inv_tail in B. exact B.
  - exfalso. eapply B'; exact A.
  - exfalso. eapply A'; exact B.
  - congruence.
Qed.

Lemma uncommented_det : forall l a, uncommented l a -> forall b, uncommented l b -> a = b.
Proof.
  induction 1 as [|t t' c l r N U IH]; intros b B; inversion B as [|t2 t2' c2 l2 r2 N2 U2]; subst; [reflexivity|]. f_equal; [eapply newline_det; eauto|auto].
Qed.

Lemma entries_det : forall l a, without_empty_entries l a -> forall b, without_empty_entries l b -> a = b.
Proof.
  induction 1 as [|x l r E W IH|x l r E W IH]; intros b B; inversion B; subst; auto; [contradiction|contradiction|]. f_equal. auto.
Qed.

Lemma heading_blank : forall d, ~ heading_line [] d.
Proof. apply headingDepth_none. vm_compute. reflexivity. Qed.

Lemma blanks_det : forall (a b r s : list str), a ++ r = b ++ s -> Forall (eq []) a -> Forall (eq []) b ->
  (r = [] \/ exists h t, r = h :: t /\ h <> []) -> (s = [] \/ exists h t, s = h :: t /\ h <> []) -> r = s.
Proof.
  induction a as [|x a IH]; intros [|y b] r s E A B R S; cbn [app] in E.
  - exact E.
  - pose proof (Forall_inv B) as Y. destruct R as [R|(h & t & R & N)]; rewrite R in E; [discriminate|]. injection E as E _. congruence.
  - pose proof (Forall_inv A) as X. destruct S as [S|(h & t & S & N)]; rewrite S in E; [discriminate|]. injection E as E _. congruence.
  - injection E as _ E. apply (IH b); auto; eapply Forall_inv_tail; eauto.
Qed.

Lemma empty_section_det : forall d lines b r b' r', empty_section d lines b r -> empty_section d lines b' r' -> r = r'.
Proof.
  intros d lines b r b' r' (E & B & R) (E' & B' & R'). rewrite E in E'. eapply blanks_det; eauto.
  - destruct R as [R|(h & t & d' & R & H & _)]; [left; exact R|right]. exists h, t. split; [exact R|]. intros X. subst h. eapply heading_blank; exact H.
  - destruct R' as [R'|(h & t & d' & R' & H & _)]; [left; exact R'|right]. exists h, t. split; [exact R'|]. intros X. subst h. eapply heading_blank; exact H.
Qed.

Lemma sections_det : forall l a, without_empty_sections l a -> forall b, without_empty_sections l b -> a = b.
Proof.
  induction 1 as [|x l r N W IH|x H|x d l bl rest r H E O W IH|x d l r H E W IH]; intros b B; inversion B as [|x2 l2 r2 N2 W2|x2 H2|x2 d2 l2 bl2 rest2 r2 H2 E2 O2 W2|x2 d2 l2 r2 H2 E2 W2]; subst; auto;
    try (exfalso; eapply N; eassumption); try (exfalso; eapply N2; eassumption).
  - f_equal. auto.
  - exfalso. pose proof (heading_line_det _ _ _ H H2). subst. destruct O2 as [O|O]; apply O; reflexivity.
  - exfalso. pose proof (heading_line_det _ _ _ H H2). subst. apply (E2 [] []). split; [reflexivity|]. split; [constructor|left; reflexivity].
  - exfalso. pose proof (heading_line_det _ _ _ H H2). subst. destruct O as [O|O]; apply O; reflexivity.
  - pose proof (heading_line_det _ _ _ H H2). subst. pose proof (empty_section_det _ _ _ _ _ _ E E2). subst. auto.
  - exfalso. pose proof (heading_line_det _ _ _ H H2). subst. eapply E2; exact E.
  - exfalso. pose proof (heading_line_det _ _ _ H H2). subst. apply (E [] []). split; [reflexivity|]. split; [constructor|left; reflexivity].
  - exfalso. pose proof (heading_line_det _ _ _ H H2). subst. eapply E; exact E2.
  - f_equal. auto.
Qed.

Lemma word_removed : forall w s r, w <> [] -> without_word w s r -> replace_all w [] s = r.
Proof.
  intros w s r N H. induction H as [s H|t s r H W IH].
  - apply replace_all_none. apply index_none. exact H.
  - rewrite replace_all_first; [rewrite IH; reflexivity|exact N|]. apply index_first. intros j J. destruct (has_prefix w (skipn j (t ++ w ++ s))) eqn:E; [|reflexivity]. exfalso.
    apply has_prefix_spec in E as (b & E). specialize (H (firstn j (t ++ w ++ s)) b). rewrite <- E, firstn_skipn in H. specialize (H eq_refl).
    rewrite firstn_length in H. lia.
Qed.

Lemma tidied_clean : forall cfg source text, tidied cfg source text -> clean cfg source = Ok text.
Proof.
  intros cfg source text (cs & last & u & links & links' & ts & ts' & f & toc & es & ss & -> & C1 & C2 & L1 & L2 & L3 & T1 & T2 & T3 & W & E & S & R & B).
  unfold clean. destruct (removeComments_spec cs last C1) as (r & U & ->). rewrite (uncommented_det _ _ U _ C2), L1.
  destruct (removeUnwantedInternalLinks_spec cfg links L2) as (l2 & K & ->). rewrite (without_unwanted_det _ _ _ K _ L3). cbn [bind]. rewrite T1.
  destruct (handleTemplates_spec cfg ts T2) as (t2 & f2 & K2 & ->). destruct (without_templates_det _ _ _ _ K2 _ _ T3) as [-> ->]. cbn [bind].
  unfold removeUnwantedWikitext. assert (NT : !"__NOTOC__" <> []) by discriminate. rewrite (word_removed _ _ _ NT W).
  destruct (removeEmptyListEntries_spec toc) as (e2 & K3 & K4). rewrite (entries_det _ _ K3 _ E) in K4. rewrite K4.
  unfold removeEmptySections. assert (Tr : Forall (fun l => trim_space l = l) (split nl (join nl es))).
  { rewrite <- K4. eapply Forall_impl; [|apply removeEmptyListEntries_lines]. intros a H. apply H. }
  rewrite (sections_det _ _ (removeSections_spec _ Tr) _ S). apply hack_railway; [exact R|exact B|lia].
Qed.

(** Properly written texts can be tidied. *)
Lemma word_total : forall w s, w <> [] -> without_word w s (replace_all w [] s).
Proof.
  intros w s N. remember (length s) as n eqn:E. revert s E. induction n as [n IH] using lt_wf_ind. intros s E. destruct (index w s) as [i|] eqn:I.
  - destruct (index_some_split _ _ _ I) as (t & r & J & L & _). rewrite J.
    rewrite replace_all_first; [|exact N|rewrite <- J, I, L; reflexivity]. cbn [app]. apply word_next.
    + intros a b H. rewrite <- J in H. rewrite L. destruct (le_lt_dec i (length a)) as [|G]; [assumption|]. exfalso. apply index_some in I as (_ & _ & I). specialize (I (length a) G).
      rewrite H, skipn_app, skipn_all, Nat.sub_diag in I. cbn [app skipn] in I. rewrite has_prefix_app in I. discriminate.
    + eapply IH; [|reflexivity]. subst n. rewrite J, !app_length. destruct w; [contradiction|cbn [length]; lia].
  - rewrite replace_all_none by exact I. apply word_none. apply index_none. exact I.
Qed.

Lemma no_railway : forall s, contains table_head s = false -> railway s s.
Proof.
  induction s as [|c s IH]; intros N; [constructor|]. assert (X : forall t, c :: s <> table_head ++ t) by (intros t E; revert N; apply not_false_iff_true; apply contains_spec; exists [], t; exact E).
  constructor; [apply has_prefix_false; exact X|]. apply IH. apply contains_false. intros a b E. revert N. apply not_false_iff_true. apply contains_spec. exists (c :: a), b. rewrite E. reflexivity.
Qed.

Lemma tidy : forall cfg cs last u links ts templates text, proper_comments cs last -> uncommented cs u -> u ++ last = bracketed_texts links -> proper_brackets links ->
  removeUnwantedInternalLinks cfg (bracketed_texts links) = Ok (templated_texts ts) -> proper_templates ts [] ->
  handleUnwantedAndTrailingTemplates cfg (templated_texts ts) = Ok templates -> railway (removeEmptySections (removeEmptyListEntries (removeUnwantedWikitext templates))) text ->
  contains table_head text = false -> tidied cfg (commented cs last) text.
Proof.
  intros cfg cs last u links ts templates text C U L PL RL PT RT RW B.
  destruct (removeUnwantedInternalLinks_spec cfg links PL) as (l2 & K & E). rewrite RL in E. injection E as E.
  destruct (handleTemplates_spec cfg ts PT) as (t2 & f2 & K2 & E2). rewrite RT in E2. assert (E3 : templates = templated_texts t2 ++ concat (map (fun t => nl ++ !"{{" ++ t ++ !"}}") f2)) by (injection E2; auto).
  destruct (removeEmptyListEntries_spec (removeUnwantedWikitext templates)) as (e2 & K3 & K4).
  exists cs, last, u, links, l2, ts, t2, f2, (removeUnwantedWikitext templates), e2, (removeSections_go (split nl (join nl e2)) 0).
  repeat (split; [first [assumption|reflexivity|symmetry; assumption]|]). split; [|split; [assumption|split; [|split; [unfold removeEmptySections in RW; rewrite K4 in RW; exact RW|assumption]]]].
  - rewrite <- E3. apply word_total. discriminate.
  - apply removeSections_spec. rewrite <- K4. eapply Forall_impl; [|apply removeEmptyListEntries_lines]. intros a H. apply H.
Qed.
