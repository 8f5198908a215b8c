(** * C69: files of statistics *)

From Coq Require Import Ascii String.
From Coq Require Import List Arith NArith ZArith Bool Lia Permutation.
From Verif Require Import GoStr GoStrFacts TokenModel StatsModel StatsSpec UnicodeProofs StatsProofs CombineProofs PropStats JsonSpec StatsJsonModel JsonProofs JsonDecodeProofs JsonObjectProofs JsonUniqueProofs StatsJsonSpec BookStatsSpec StatsJsonProofs StatsOrderProofs.
Import ListNotations.
Local Open Scope list_scope.

(** Whatever the names are, the files are JSON with the right numbers. *)
Theorem C69_json : forall stats, exists members, json_text (article_json stats) (JObject members) /\ NoDup (map fst members) /\
  forall c, In (letters (field c), JNumber (itoa (count stats c))) members.
Proof.
  intros stats. exists (stats_members stats (Some []) None). split; [apply says_text, stats_read|]. split; [apply members_keys|].
  intros c. destruct c; cbn [field stats_members In]; [right; left|do 2 right; left|do 3 right; left|do 4 right; left|do 5 right; left|do 6 right; left|do 7 right; left|do 8 right; left|do 12 right; left]; reflexivity.
Qed.
Print Assumptions C69_json.

(** If the names are texts in UTF-8, the file of an article says everything: the name of the article, all numbers and all links with their numbers. *)
Theorem C69_article : forall stats, is_utf8 (ArticleName stats) -> is_map (InternalLinks stats) -> utf8_names (InternalLinks stats) ->
  file_says (article_json stats) stats [(!"uncovered-internal-links", [])].
Proof.
  intros stats A M U. apply (stats_said stats (Some []) None); auto.
  - intros m I. cbn in I. destruct I as [I|[I|[]]]; [injection I as <-|discriminate I]. split; [constructor|intros s n []].
  - apply says_text, stats_read.
Qed.
Print Assumptions C69_article.

Lemma combined_name : forall ss acc, ArticleName (fst (fold_left combine_one ss acc)) = ArticleName (fst acc).
Proof.
  induction ss as [|s ss IH]; intros acc; [reflexivity|]. cbn [fold_left]. rewrite IH. unfold combine_one. cbn [fst].
  assert (A : forall l st, ArticleName (fold_left (fun acc e => add_link (fst e) (snd e) acc) l st) = ArticleName st) by (induction l as [|e l IHl]; intros st; [reflexivity|]; cbn [fold_left]; rewrite IHl; reflexivity).
  rewrite A. reflexivity.
Qed.

(** The same for the combination of files; here are the links that are not covered, and the ten most frequent ones of them, too. *)
Theorem C69_combined : forall sortEntries ss c, sorts sortEntries -> GenerateCombinedStats sortEntries (map Ok ss) = Ok c -> (forall s, In s ss -> utf8_names (InternalLinks s)) ->
  file_says (combined_json c) (Combined c) [(!"uncovered-internal-links", UncoveredInternalLinks c); (!"top-10-uncovered-internal-links", Top10UncoveredInternalLinks c)].
Proof.
  intros sortEntries ss c S H U. pose proof (C34_sums _ _ _ H) as (ss' & E & _ & _ & C3 & C4). pose proof (C34_top _ _ _ S H) as (_ & T1 & T2 & _).
  assert (X : forall (a b : list articleStats), map Ok a = map (@Ok articleStats) b -> a = b).
  { induction a as [|x a IH]; intros [|y b] Q; try discriminate; [reflexivity|]. cbn in Q. injection Q as -> Q. f_equal. apply IH. exact Q. }
  apply X in E. subst ss'.
  assert (N : ArticleName (Combined c) = [] /\ is_map (InternalLinks (Combined c)) /\ utf8_names (InternalLinks (Combined c))).
  { unfold GenerateCombinedStats in H. rewrite combine_all_ok in H. destruct (fold_combined ss (mkArticleStats [] (fun _ => 0) [], [])) as (_ & _ & I3 & I4 & _).
    pose proof (combined_name ss (mkArticleStats [] (fun _ => 0) [], [])) as I1. destruct (fold_left combine_one ss _) as [st articles]. cbn [bind fst snd InternalLinks map ArticleName] in *. injection H as <-. cbn [Combined].
    split; [exact I1|]. split; [apply I4; constructor|]. intros s n I. assert (J : In s (map fst (InternalLinks st))) by (apply in_map_iff; exists (s, n); auto). apply I3 in J as [[]|(x & J1 & J2)]. apply in_map_iff in J2 as ((k & m) & <- & J2). exact (U x J1 k m J2). }
  destruct N as (N1 & N2 & N3). apply (stats_said (Combined c) (Some (UncoveredInternalLinks c)) (Some (Top10UncoveredInternalLinks c))); auto.
  - rewrite N1. exists []. auto.
  - assert (V : utf8_names (UncoveredInternalLinks c)).
    { intros s n I. apply C3 in I as ((x & J1 & J2) & _). apply in_map_iff in J2 as ((k & m) & <- & J2). exact (U x J1 k m J2). }
    intros m I. cbn in I. destruct I as [I|[I|[]]]; injection I as <-; split; auto. intros s n I. apply (V s n). apply T1. exact I.
  - apply (says_text _ _ (stats_read _ _ _)).
Qed.
Print Assumptions C69_combined.

(** A text says only one thing: whoever reads the file finds these values and no others. *)
Theorem C69_one : forall text v v', json_text text v -> json_text text v' -> v = v'.
Proof. exact json_text_one. Qed.
Print Assumptions C69_one.

Theorem C69_back : forall text a b others others', file_says text a others -> file_says text b others' -> utf8_names (InternalLinks a) -> utf8_names (InternalLinks b) -> same_stats a b.
Proof.
  intros text a b others others' (ms & T & D & (n & N1 & N2) & C & L) (ms' & T' & D' & (n' & N1' & N2') & C' & L') U U'.
  pose proof (json_text_one _ _ _ T T') as E. injection E as <-.
  assert (One : forall k v v', In (k, v) ms -> In (k, v') ms -> v = v').
  { clear -D. induction ms as [|[k0 v0] ms IH]; intros k v v' I I'; [contradiction|]. cbn [map fst] in D. inversion D as [|? ? D1 D2]; subst. destruct I as [I|I], I' as [I'|I'].
    - congruence.
    - injection I as -> ->. exfalso. apply D1. apply in_map_iff. exists (k, v'). auto.
    - injection I' as -> ->. exfalso. apply D1. apply in_map_iff. exists (k, v). auto.
    - exact (IH D2 k v v' I I'). }
  split; [|split].
  - pose proof (One _ _ _ N1 N1') as E. injection E as <-. exact (named_one _ _ _ N2 N2').
  - intros c. pose proof (One _ _ _ (C c) (C' c)) as E. injection E as E. apply itoa_inj in E. exact E.
  - destruct (L _ _ (or_introl eq_refl)) as (v & V1 & (es & -> & _ & V2)), (L' _ _ (or_introl eq_refl)) as (v' & V1' & (es' & -> & _ & V2')).
    pose proof (One _ _ _ V1 V1') as E. injection E as <-.
    assert (Half : forall m m', utf8_names m -> (forall name value, In (name, value) es <-> exists s n0, In (s, n0) m /\ named_by name s /\ value = JNumber (itoa n0)) ->
      (forall name value, In (name, value) es <-> exists s n0, In (s, n0) m' /\ named_by name s /\ value = JNumber (itoa n0)) -> forall e, In e m -> In e m').
    { intros m m' Um A B [s k] I. assert (X : In (runes s, JNumber (itoa k)) es) by (apply A; exists s, k; split; [exact I|]; split; [apply utf8_named; eapply Um; exact I|reflexivity]).
      apply B in X as (s' & k' & X1 & X2 & X3). injection X3 as X3. apply itoa_inj in X3. subst k'. rewrite (named_one _ s s' (utf8_named s (Um s k I)) X2). exact X1. }
    intros e. split; [apply (Half _ (InternalLinks b) U V2 V2')|apply (Half _ (InternalLinks a) U' V2' V2)].
Qed.
Print Assumptions C69_back.

(** If names are no texts in UTF-8, the file does not say the names: every broken byte becomes the same replacement character.  Different links
    then have the same name in the file. *)
Theorem C69_refuted : exists stats, is_map (InternalLinks stats) /\ InternalLinks stats = [([ascii_of_N 255], 1); ([ascii_of_N 254], 2)] /\
  exists members links, json_text (article_json stats) (JObject members) /\ In (letters !"internal-links", JObject links) members /\ links = [([65533%N], JNumber !"2"); ([65533%N], JNumber !"1")].
Proof.
  exists (mkArticleStats !"a" (fun _ => 0) [([ascii_of_N 255], 1); ([ascii_of_N 254], 2)]). split; [|split; [reflexivity|]].
  - constructor; [intros [I|[]]; discriminate I|]. constructor; [intros []|constructor].
  - eexists _, _. split; [apply says_text, stats_read|]. split; [do 9 right; left; reflexivity|]. reflexivity.
Qed.
Print Assumptions C69_refuted.

(** The file depends only on what is counted: in whatever order the links are found in the map, the bytes are the same. *)
Theorem C69_order : forall a b, ArticleName a = ArticleName b -> (forall c, count a c = count b c) -> is_map (InternalLinks a) -> Permutation (InternalLinks a) (InternalLinks b) ->
  article_json a = article_json b.
Proof.
  intros a b N C M P. unfold article_json, stats_fields, json_map. rewrite N, !C, (sort_keys_order _ _ P M). reflexivity.
Qed.
Print Assumptions C69_order.

(** Examples *)

Definition json_example : articleStats := stats_of (!"Caf" ++ utf8 233) 12 [(!"say " ++ dq ++ !"A&B" ++ dq, 2); (utf8 128512, 1)].

Lemma example_utf8 : is_utf8 (ArticleName json_example) /\ is_map (InternalLinks json_example) /\ utf8_names (InternalLinks json_example).
Proof.
  split; [exists [67; 97; 102; 233]%N; split; [repeat constructor; unfold scalar; lia|reflexivity]|]. split; [constructor; [intros [I|[]]; discriminate I|constructor; [intros []|constructor]]|].
  intros s n [I|[I|[]]]; injection I as <- <-.
  - exists [115; 97; 121; 32; 34; 65; 38; 66; 34]%N. split; [repeat constructor; unfold scalar; lia|reflexivity].
  - exists [128512]%N. split; [repeat constructor; unfold scalar; lia|reflexivity].
Qed.

Example C69_example :
  article_json json_example = join nl [!"{"; !"  ""article-name"": ""Caf" ++ utf8 233 ++ !""",";
    !"  ""number-of-characters"": 12,"; !"  ""number-of-words"": 0,"; !"  ""number-of-internal-links"": 3,"; !"  ""number-of-external-links"": 0,";
    !"  ""number-of-images"": 0,"; !"  ""number-of-math"": 0,"; !"  ""number-of-ref-definitions"": 0,"; !"  ""number-of-ref-usages"": 0,";
    !"  ""internal-links"": {"; !"    ""say \""A\u0026B\"""": 2,"; !"    """ ++ utf8 128512 ++ !""": 1"; !"  },";
    !"  ""uncovered-internal-links"": {},"; !"  ""top-10-uncovered-internal-links"": null,"; !"  ""estimated-reading-time-minutes"": 0"; !"}"] /\
  file_says (article_json json_example) json_example [(!"uncovered-internal-links", [])].
Proof. split; [vm_compute; reflexivity|]. destruct example_utf8 as (A & B & C). apply C69_article; auto. Qed.

Example C69_example_combined : exists c, GenerateCombinedStats entries_sorted (map Ok [json_example; json_example]) = Ok c /\
  file_says (combined_json c) (Combined c) [(!"uncovered-internal-links", UncoveredInternalLinks c); (!"top-10-uncovered-internal-links", Top10UncoveredInternalLinks c)] /\
  count (Combined c) NumberOfCharacters = 24 /\ In (utf8 128512, 2) (UncoveredInternalLinks c).
Proof.
  eexists. split; [reflexivity|]. split; [|vm_compute; auto]. apply (C69_combined entries_sorted [json_example; json_example]); [apply entries_sorted_sorts|reflexivity|].
  intros s [<-|[<-|[]]]; apply example_utf8.
Qed.

Example C69_example_order : exists other, InternalLinks other = rev (InternalLinks json_example) /\ InternalLinks other <> InternalLinks json_example /\ article_json json_example = article_json other.
Proof.
  exists (mkArticleStats (ArticleName json_example) (count json_example) (rev (InternalLinks json_example))). split; [reflexivity|]. split; [vm_compute; discriminate|].
  apply C69_order; auto; [apply example_utf8|apply Permutation_rev].
Qed.
