(** * C33, C34: statistics *)

From Coq Require Import Ascii String.
From Coq Require Import List Arith NArith ZArith Bool Lia Permutation.
From Verif Require Import GoStr GoStrFacts ConfigModel TokenModel TokenSpec TokenizerModel PassSpec ExpandModel ExpandSpec HtmlSpec HtmlTotalProofs
  StatsModel StatsSpec StatsProofs StatsTotalProofs UnicodeProofs CombineProofs PropTokens PropHtml.
Import ListNotations.
Local Open Scope list_scope.

(** ** C33 *)

(** What the statistics of an article say: [es] is everything that is in the article. *)
Definition says (letter : N -> bool) (instance : str) (title : str) (es : list event) (stats : articleStats) : Prop :=
  ArticleName stats = title /\
  (forall c, c <> EstimatedReadingTimeMinutes -> count stats c = number letter c es) /\
  (exists speed, reading_speed instance speed /\ count stats EstimatedReadingTimeMinutes = number letter NumberOfWords es / speed) /\
  is_map (InternalLinks stats) /\
  (forall name, entry name (InternalLinks stats) = links_to name es) /\
  (forall name, In name (map fst (InternalLinks stats)) <-> 0 < links_to name es).

Lemma words_per_minute_speed : forall instance, reading_speed instance (words_per_minute instance).
Proof.
  intros instance. unfold words_per_minute.
  match goal with |- context [find ?f ?l] => destruct (find f l) as [[x n]|] eqn:F end.
  - pose proof (find_some _ _ F) as [I E]. cbn [fst] in E. apply str_eqb_eq in E. subst x. cbn [In] in I.
    repeat (destruct I as [I|I]; [injection I as <- <-; constructor|]). destruct I.
  - apply speed_other. match type of F with find _ ?l = _ => change (~ In instance (map fst l)) end. intros I.
    apply in_map_iff in I as ([x n] & X & I). cbn [fst] in X. subst x. pose proof (find_none _ _ F _ I) as N. cbn [fst] in N.
    rewrite str_eqb_refl in N. discriminate N.
Qed.

Lemma effect_says : forall letter instance title es st', effect letter (mkArticleStats title (fun _ => 0) []) es st' ->
  says letter instance title es (add EstimatedReadingTimeMinutes (count st' NumberOfWords / words_per_minute instance) st').
Proof.
  intros letter instance title es st' [E1 E2 E3 E4 E5]. cbn [ArticleName count InternalLinks] in *.
  assert (W := E2 NumberOfWords). assert (T := E2 EstimatedReadingTimeMinutes).
  split; [exact E1|]. split; [|split; [|split; [|split]]].
  - intros c C. cbn [add count]. destruct (counter_eq_dec _ _) as [X|X]; [congruence|]. apply E2.
  - exists (words_per_minute instance). split; [apply words_per_minute_speed|].
    cbn [add count]. destruct (counter_eq_dec _ _) as [_|X]; [|destruct X; auto]. rewrite W, T. cbn [plus].
    replace (number letter EstimatedReadingTimeMinutes es) with 0; [reflexivity|]. unfold number. symmetry. apply length_zero_iff_nil.
    induction (seen_tokens es) as [|t ts IH]; auto.
  - apply E4. constructor.
  - intros name. apply E3.
  - intros name. split.
    + intros I. apply E5 in I as [[]|I]; auto.
    + intros L. destruct (in_dec (list_eq_dec ascii_dec) name (map fst (InternalLinks st'))) as [I|I]; auto. exfalso. apply entry_missing in I. rewrite E3 in I. cbn in I. lia.
Qed.

(** The statistics are about everything that can be found in the article without the lists in the items of lists and without the texts of
    StringTokens: every link, image, formula, footnote, character and word is counted once for every occurrence, and nothing else is counted. *)
Theorem C33_counted : forall letter instance m fuel title s es stats, text_events counted_texts m s es ->
  generateStats letter instance m fuel title s = Ok stats -> says letter instance title es stats.
Proof.
  intros letter instance m fuel title s es stats T H. unfold generateStats in H.
  destruct (expandString (StatsGenerator letter m) fuel s _) as [[x st]| | |] eqn:E; try discriminate. cbn [bind] in H.
  assert (F : stats = add EstimatedReadingTimeMinutes (count st NumberOfWords / words_per_minute instance) st) by congruence. subst stats.
  apply effect_says. eapply (proj1 (events_effect letter m)); eauto.
Qed.
Print Assumptions C33_counted.

(** If there are no lists in items and no StringTokens, this is everything in the article.  (Missing: lists in the items of lists and StringTokens,
    see below, and texts that are no layouts, as in C29.) *)
Theorem C33_partial : forall letter instance m fuel title s, NoDup (map fst m) -> known_map m -> known m s -> length m < fuel ->
  (forall k token, In (k, token) m -> flat token) ->
  exists es stats, text_events ordered_texts m s es /\ generateStats letter instance m fuel title s = Ok stats /\ says letter instance title es stats.
Proof.
  intros letter instance m fuel title s N K S L F.
  destruct (known_works letter m N K fuel [] m s eq_refl L S (mkArticleStats title (fun _ => 0) [])) as (x & st & E).
  destruct (events_exist m N K ordered_texts ordered_of_texts fuel [] m s eq_refl L S) as [es T].
  exists es. eexists. split; auto. unfold generateStats. rewrite E. cbn [bind]. split; [reflexivity|]. apply effect_says.
  eapply (proj1 (events_effect letter m)); eauto. eapply (events_same ordered_texts); eauto. intros k v I. symmetry. apply flat_texts. eauto.
Qed.
Print Assumptions C33_partial.

(** In general, the statistics can always be made. *)
Theorem C33_total : forall letter instance m fuel title s, NoDup (map fst m) -> known_map m -> known m s -> length m < fuel ->
  exists es stats, text_events counted_texts m s es /\ generateStats letter instance m fuel title s = Ok stats /\ says letter instance title es stats.
Proof.
  intros letter instance m fuel title s N K S L.
  destruct (known_works letter m N K fuel [] m s eq_refl L S (mkArticleStats title (fun _ => 0) [])) as (x & st & E).
  destruct (events_exist m N K counted_texts counted_of_texts fuel [] m s eq_refl L S) as [es T].
  exists es. eexists. split; auto. unfold generateStats. rewrite E. cbn [bind]. split; [reflexivity|]. apply effect_says.
  eapply (proj1 (events_effect letter m)); eauto.
Qed.
Print Assumptions C33_total.

(** Characters are characters, not bytes: every text is the encoding of its characters. *)
Theorem C33_characters : forall cs, Forall scalar cs -> runes (concat (map utf8 cs)) = cs.
Proof. exact runes_text. Qed.
Print Assumptions C33_characters.

(** Examples *)

Definition ascii_letter (r : N) : bool := ((65 <=? r) && (r <=? 90) || (97 <=? r) && (r <=? 122) || (48 <=? r) && (r <=? 57))%N.

(** The numbers in statistics, in the order of [all_counters], and the links *)
Definition numbers (r : res articleStats) : option (list nat * list (str * nat)) :=
  match r with Ok stats => Some (map (count stats) all_counters, InternalLinks stats) | _ => None end.

Definition flat_item : layout := (!"d ", [(link_key, !" e ")]).
Definition flat_cell : layout := ([], [(list_key, !"x")]).
Definition flat_text : layout := (!"g h", [(!"$$MARKER_BOLD_OPEN$$", !"i"); (!"$$MARKER_BOLD_CLOSE$$", !" "); (table_key, !" j")]).
Definition flat_map_example : list (str * Token) :=
  [(table_key, TableToken [[mkTableColToken [] !"k l" true]; [mkTableColToken [] (layout_text flat_cell) false]] (layout_text caption_text));
   (list_key, ListTokenOf (AnyListToken Unordered [mkListItemToken NORMAL_ITEM (layout_text flat_item) []; mkListItemToken NORMAL_ITEM (layout_text sub_text) []]));
   (math_key, MathToken !"x<y"); (link_key, InternalLinkToken !"a" (layout_text link_text))].

Example C33_example : NoDup (map fst flat_map_example) /\ known_map flat_map_example /\ known flat_map_example (layout_text flat_text) /\
  (forall k token, In (k, token) flat_map_example -> flat token) /\
  numbers (generateStats ascii_letter !"en" flat_map_example 5 !"T" (layout_text flat_text)) = Some ([28; 15; 2; 0; 0; 1; 0; 0; 0], [(!"a", 2)]).
Proof.
  split; [|split; [|split; [|split]]].
  - repeat (apply NoDup_cons; [intros I; cbn [map fst In flat_map_example] in I; repeat (destruct I as [I|I]; [discriminate I|]); destruct I|]). apply NoDup_nil.
  - apply known_token; [apply known_token; [apply known_token; [apply known_token; [apply known_none|]|]|]|].
    + apply Forall_cons; [known_text link_text|apply Forall_nil].
    + apply Forall_nil.
    + apply Forall_cons; [known_text flat_item|apply Forall_cons; [known_text sub_text|apply Forall_nil]].
    + apply Forall_cons; [known_text caption_text|]. apply Forall_cons; [known_text ((!"k l", []) : layout)|].
      apply Forall_cons; [known_text flat_cell|apply Forall_nil].
  - known_text flat_text.
  - intros k token I. cbn [In flat_map_example] in I. repeat (destruct I as [I|I]; [injection I as _ <-; cbn [flat]; auto|]). destruct I.
  - vm_compute. reflexivity.
Qed.

Example C33_characters_example : runes (utf8 228 ++ utf8 8364 ++ utf8 128512 ++ !"a") = [228; 8364; 128512; 97]%N /\ length (utf8 228 ++ utf8 8364 ++ utf8 128512 ++ !"a") = 10 /\
  words_in ascii_letter (runes !"ab c-d ") = 3.
Proof. vm_compute. auto. Qed.

(** Links, images, formulas and words in lists inside of lists are not counted. *)
Theorem C33_refuted : exists text t,
  tokenizeContent default_config 5 (!"* [[a]]" ++ nl ++ !"** [[b]] and more" ++ nl ++ !"* [[c]]") NewTokenizer = Ok (text, t) /\
  numbers (generateStats ascii_letter !"en" (tokenMap t) 9 !"T" text) = Some ([4; 2; 2; 0; 0; 0; 0; 0; 0], [(!"a", 1); (!"c", 1)]) /\
  exists key kind item1 item2 content1 item3 link, In (key, ListTokenOf (AnyListToken kind [item1; item2])) (tokenMap t) /\
    item1 = mkListItemToken NORMAL_ITEM content1 [AnyListToken Unordered [item3]] /\
    item3 = mkListItemToken NORMAL_ITEM (!" " ++ link ++ !" and more") [] /\ lookup_token link (tokenMap t) = Some (InternalLinkToken !"b" !"b").
Proof.
  eexists. eexists. split; [vm_compute; reflexivity|]. split; [vm_compute; reflexivity|].
  eexists (token_key TOKEN_UNORDERED_LIST 4), Unordered, _, _, _, _, (token_key TOKEN_INTERNAL_LINK 1). split; [left; reflexivity|]. split; [reflexivity|]. split; vm_compute; reflexivity.
Qed.
Print Assumptions C33_refuted.

(** A link in the text of a link with an unknown protocol is not counted either. *)
Theorem C33_refuted_string : exists text t,
  tokenizeContent default_config 5 !"[ftp://y see [[b]]]" NewTokenizer = Ok (text, t) /\
  numbers (generateStats ascii_letter !"en" (tokenMap t) 9 !"T" text) = Some ([0; 0; 0; 0; 0; 0; 0; 0; 0], []) /\
  exists key, In (key, InternalLinkToken !"b" !"b") (tokenMap t).
Proof.
  eexists. eexists. split; [vm_compute; reflexivity|]. split; [vm_compute; reflexivity|].
  exists (token_key TOKEN_INTERNAL_LINK 0). cbn [tokenMap In]. vm_compute. tauto.
Qed.
Print Assumptions C33_refuted_string.

(** ** C34 *)

(** The numbers are the sums over all files, also for every link, and the uncovered links are the links to articles that are not in the book. *)
Theorem C34_sums : forall sortEntries files c, GenerateCombinedStats sortEntries files = Ok c ->
  exists ss, files = map Ok ss /\
    (forall x, count (Combined c) x = list_sum (map (fun s => count s x) ss)) /\
    (forall name, entry name (InternalLinks (Combined c)) = list_sum (map (fun s => entry name (InternalLinks s)) ss)) /\
    (forall name n, In (name, n) (UncoveredInternalLinks c) <->
       (exists s, In s ss /\ In name (map fst (InternalLinks s))) /\ ~ In name (map ArticleName ss) /\
       n = list_sum (map (fun s => entry name (InternalLinks s)) ss)) /\
    is_map (UncoveredInternalLinks c).
Proof.
  intros sortEntries files c H. unfold GenerateCombinedStats in H. destruct (combine_all files _) as [[st articles]| | |] eqn:E; try discriminate. cbn [bind] in H.
  destruct (combine_all_fails _ _ _ E) as [ss ->]. exists ss. split; auto. rewrite combine_all_ok in E.
  destruct (fold_combined ss (mkArticleStats [] (fun _ => 0) [], [])) as (I1 & I2 & I3 & I4 & I5 & I6 & I7).
  assert (E' : fold_left combine_one ss (mkArticleStats [] (fun _ => 0) [], []) = (st, articles)) by congruence. rewrite E' in *. cbn [fst snd InternalLinks count map ArticleName] in *.
  assert (C : c = mkCombination st articles (filter (fun e => negb (is_article articles (fst e))) (InternalLinks st)) (firstn 10 (sortEntries (filter (fun e => negb (is_article articles (fst e))) (InternalLinks st))))) by congruence.
  subst c. cbn [Combined UncoveredInternalLinks]. assert (MP : is_map (InternalLinks st)) by (apply I4; constructor).
  split; [exact I1|]. split; [exact I2|]. split; [|apply map_filter; auto].
  intros name n. rewrite filter_In. cbn [fst]. rewrite negb_true_iff, <- not_true_iff_false, is_article_spec. split.
  - intros [J1 J2]. split; [|split].
    + assert (J : In name (map fst (InternalLinks st))) by (apply in_map_iff; exists (name, n); auto). apply I3 in J as [[]|J]; auto.
    + intros J. apply J2. apply I5. auto.
    + rewrite <- (entry_in _ _ _ MP J1). apply I2.
  - intros (J1 & J2 & ->). split.
    + assert (J : In name (map fst (InternalLinks st))) by (apply I3; auto). apply in_map_iff in J as ([name' n] & <- & J). cbn [fst] in *. specialize (I2 name'). rewrite (entry_in _ _ n) in I2 by auto. cbn in I2. rewrite <- I2. auto.
    + intros J. apply J2. apply I5 in J as [[]|J]; auto.
Qed.
Print Assumptions C34_sums.

(** If a file cannot be read or decoded, there are no combined statistics; otherwise there are. *)
Theorem C34_total : forall sortEntries ss, exists c, GenerateCombinedStats sortEntries (map Ok ss) = Ok c.
Proof.
  intros sortEntries ss. unfold GenerateCombinedStats. rewrite combine_all_ok. destruct (fold_left _ _ _). eexists. reflexivity.
Qed.
Print Assumptions C34_total.

(** The top 10 are uncovered links, ten of them or all, in a descending order, and no other uncovered link is more frequent. *)
Theorem C34_top : forall sortEntries files c, sorts sortEntries -> GenerateCombinedStats sortEntries files = Ok c ->
  let top := Top10UncoveredInternalLinks c in
  length top = Nat.min 10 (length (UncoveredInternalLinks c)) /\ incl top (UncoveredInternalLinks c) /\ is_map top /\ descending top /\
  forall e f, In e top -> In f (UncoveredInternalLinks c) -> ~ In f top -> snd f <= snd e.
Proof.
  intros sortEntries files c S H. assert (MP : is_map (UncoveredInternalLinks c)) by (apply C34_sums in H as (ss & _ & _ & _ & _ & H); auto).
  unfold GenerateCombinedStats in H. destruct (combine_all files _) as [[st articles]| | |] eqn:E; try discriminate. cbn [bind] in H.
  assert (T : Top10UncoveredInternalLinks c = firstn 10 (sortEntries (UncoveredInternalLinks c))).
  { assert (C : c = mkCombination st articles (filter (fun e => negb (is_article articles (fst e))) (InternalLinks st)) (firstn 10 (sortEntries (filter (fun e => negb (is_article articles (fst e))) (InternalLinks st))))) by congruence. subst c. reflexivity. }
  rewrite T. destruct (S (UncoveredInternalLinks c)) as [P D]. set (l := sortEntries (UncoveredInternalLinks c)) in *. cbv zeta.
  assert (Sp := firstn_skipn 10 l). split; [rewrite firstn_length, (Permutation_length P); auto|]. split; [|split; [|split]].
  - intros e I. eapply Permutation_in; [exact P|]. rewrite <- Sp. apply in_or_app. auto.
  - unfold is_map in *. apply (Permutation_NoDup (Permutation_map fst (Permutation_sym P))) in MP. rewrite <- Sp, map_app in MP. clear -MP.
    induction (map fst (firstn 10 l)) as [|x xs IH]; [constructor|]. cbn [app] in MP. inversion MP; subst. constructor; auto. intros I. apply H1. apply in_or_app. auto.
  - apply descending_firstn. auto.
  - intros e f I J N. rewrite <- Sp in D. eapply descending_app; eauto. apply (Permutation_in f (Permutation_sym P)) in J. rewrite <- Sp in J. apply in_app_iff in J as [J|J]; auto. destruct (N J).
Qed.
Print Assumptions C34_top.

(** The text for the reader has the numbers of characters and links, the name of every article once, the number of uncovered links and the (at most)
    20 most frequent ones. *)
Theorem C34_text : forall sortEntries iterate files c, sorts sortEntries -> (forall l, Permutation (iterate l) l) -> GenerateCombinedStats sortEntries files = Ok c ->
  exists ss names top, files = map Ok ss /\
    NoDup names /\ (forall name, In name names <-> In name (map ArticleName ss)) /\
    length top = Nat.min 20 (length (UncoveredInternalLinks c)) /\ incl top (UncoveredInternalLinks c) /\ descending top /\
    (forall e f, In e top -> In f (UncoveredInternalLinks c) -> ~ In f top -> snd f <= snd e) /\
    generateTxtStatsContent sortEntries iterate c = concat (map (fun line => line ++ nl) (
      [!"Statistics generated with wiki2book:"; []; !"General:";
       !"  Number of characters    : " ++ itoa (list_sum (map (fun s => count s NumberOfCharacters) ss));
       !"  Number of internal links: " ++ itoa (list_sum (map (fun s => count s NumberOfInternalLinks) ss));
       []; !"Article:"] ++
      map (fun name => !"  " ++ name) names ++
      [[]; !"Top 20 linked articles that are not part of the book (total: " ++ itoa (length (UncoveredInternalLinks c)) ++ !"):"] ++
      map (fun e => !"  " ++ fst e ++ !" (" ++ itoa (snd e) ++ !")") top)).
Proof.
  intros sortEntries iterate files c S IT H. assert (H' := H). unfold GenerateCombinedStats in H'. destruct (combine_all files _) as [[st articles]| | |] eqn:E; try discriminate. cbn [bind] in H'.
  destruct (combine_all_fails _ _ _ E) as [ss ->]. rewrite combine_all_ok in E.
  destruct (fold_combined ss (mkArticleStats [] (fun _ => 0) [], [])) as (I1 & I2 & I3 & I4 & I5 & I6 & I7).
  assert (E' : fold_left combine_one ss (mkArticleStats [] (fun _ => 0) [], []) = (st, articles)) by congruence. rewrite E' in *. cbn [fst snd InternalLinks count map ArticleName] in *.
  assert (C1 : Combined c = st) by (injection H' as <-; reflexivity). assert (C2 : Articles c = articles) by (injection H' as <-; reflexivity). clear H' E E'.
  exists ss, (map ArticleName (iterate articles)), (firstn 20 (sortEntries (UncoveredInternalLinks c))). split; auto.
  destruct (S (UncoveredInternalLinks c)) as [P D]. set (l := sortEntries (UncoveredInternalLinks c)) in *. assert (Sp := firstn_skipn 20 l).
  split; [|split; [|split; [|split; [|split; [|split]]]]].
  - eapply Permutation_NoDup; [apply Permutation_map, Permutation_sym, IT|]. apply I6. constructor.
  - intros name. assert (X : In name (map ArticleName (iterate articles)) <-> In name (map ArticleName articles)).
    { split; apply Permutation_in; apply Permutation_map; [apply IT|apply Permutation_sym, IT]. }
    rewrite X, I5. cbn [map In]. tauto.
  - rewrite firstn_length, (Permutation_length P). auto.
  - intros e I. eapply Permutation_in; [exact P|]. rewrite <- Sp. apply in_or_app. auto.
  - apply descending_firstn. auto.
  - intros e f I J N. rewrite <- Sp in D. eapply descending_app; eauto. apply (Permutation_in f (Permutation_sym P)) in J. rewrite <- Sp in J. apply in_app_iff in J as [J|J]; auto. destruct (N J).
  - unfold generateTxtStatsContent. fold l. rewrite C1, C2, I1, I1. cbn [plus].
    rewrite !map_app, !concat_app, !map_map.
    rewrite (map_ext (fun x => (!"  " ++ fst x ++ !" (" ++ itoa (snd x) ++ !")") ++ nl) (fun e => !"  " ++ fst e ++ !" (" ++ itoa (snd e) ++ !")" ++ nl))
      by (intros a; rewrite <- !app_assoc; reflexivity).
    cbn [map concat]. rewrite <- !app_assoc. cbn [app]. reflexivity.
Qed.
Print Assumptions C34_text.

Definition entries_sorted (l : list (str * nat)) : list (str * nat) :=
  fold_right (fun e acc => filter (fun f => snd e <? snd f) acc ++ [e] ++ filter (fun f => snd f <=? snd e) acc) [] l.

(** Sorting as it is assumed exists. *)
Lemma entries_sorted_sorts : sorts entries_sorted.
Proof.
  intros l. induction l as [|e l [P D]]; [split; constructor|]. cbn [entries_sorted fold_right]. fold (entries_sorted l). set (r := entries_sorted l) in *. split.
  - transitivity (e :: r); [|constructor; auto]. cbn [app]. rewrite <- Permutation_middle. constructor. clear P D. induction r as [|f r IH]; auto. cbn [filter].
    destruct (snd e <? snd f) eqn:X.
    + apply Nat.ltb_lt in X. replace (snd f <=? snd e) with false by (symmetry; apply Nat.leb_gt; auto). cbn [app]. constructor. auto.
    + apply Nat.ltb_ge in X. replace (snd f <=? snd e) with true by (symmetry; apply Nat.leb_le; auto). rewrite <- Permutation_middle. constructor. auto.
  - clear P. assert (A : forall g, descending (filter g r)).
    { clearbody r. clear -D. intros g. induction D as [|x l F D IH]; [constructor|]. cbn [filter]. destruct (g x); auto. constructor; auto. intros f I. apply filter_In in I. apply F. tauto. }
    assert (B : forall a b, descending a -> descending b -> (forall x y, In x a -> In y b -> snd y <= snd x) -> descending (a ++ b)).
    { clear. intros a b HA HB H. induction HA as [|x l F HA IH]; auto. cbn [app]. constructor.
      - intros f I. apply in_app_iff in I as [I|I]; auto. apply H; auto. left. auto.
      - apply IH. intros x' y I J. apply H; auto. right. auto. }
    apply B; auto.
    + cbn [app]. constructor; auto. intros f I. apply filter_In in I as [_ I]. apply Nat.leb_le. auto.
    + intros x y I J. apply filter_In in I as [_ I]. apply Nat.ltb_lt in I. cbn [app In] in J. destruct J as [<-|J]; [lia|]. apply filter_In in J as [_ J]. apply Nat.leb_le in J. lia.
Qed.

Definition stats_of (name : str) (characters : nat) (links : list (str * nat)) : articleStats :=
  mkArticleStats name (fun c => match c with NumberOfCharacters => characters | NumberOfInternalLinks => list_sum (map snd links) | _ => 0 end) links.

Example C34_example : sorts entries_sorted /\ exists c,
  GenerateCombinedStats entries_sorted (map Ok [stats_of !"a" 5 [(!"b", 2); (!"x", 1); (!"y", 1)]; stats_of !"b" 7 [(!"y", 2); (!"a", 4)]]) = Ok c /\
  count (Combined c) NumberOfCharacters = 12 /\ count (Combined c) NumberOfInternalLinks = 10 /\
  UncoveredInternalLinks c = [(!"x", 1); (!"y", 3)] /\ Top10UncoveredInternalLinks c = [(!"y", 3); (!"x", 1)] /\
  GenerateCombinedStats entries_sorted [Ok (stats_of !"a" 5 []); Err] = Err.
Proof. split; [exact entries_sorted_sorts|]. eexists. split; [reflexivity|]. vm_compute. auto 10. Qed.

(** Names are compared as they are written: a link to berlin is reported as a link to an article that is not in the book, although the book has
    the article Berlin, which is the same one. *)
Theorem C34_refuted_names : exists c, GenerateCombinedStats entries_sorted (map Ok [stats_of !"Berlin" 5 [(!"berlin", 1)]]) = Ok c /\
  UncoveredInternalLinks c = [(!"berlin", 1)] /\ same_page !"berlin" !"Berlin".
Proof. eexists. split; [reflexivity|]. vm_compute. auto. Qed.
Print Assumptions C34_refuted_names.
