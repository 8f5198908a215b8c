(** * Proofs about files of statistics *)

From Coq Require Import Ascii String.
From Coq Require Import List Arith NArith ZArith Bool Lia Permutation.
From Verif Require Import GoStr GoStrFacts StatsModel StatsSpec UnicodeProofs JsonSpec StatsJsonModel JsonProofs JsonDecodeProofs JsonObjectProofs JsonUniqueProofs StatsJsonSpec.
Import ListNotations.
Local Open Scope list_scope.

Lemma named_runes : forall cs s, named_by cs s -> runes s = cs.
Proof. intros cs s (F & ->). apply runes_text. exact F. Qed.

Lemma utf8_named : forall s, is_utf8 s -> named_by (runes s) s.
Proof. intros s (cs & F & ->). unfold named_by. rewrite (runes_text cs F : runes (encoded cs) = cs). auto. Qed.

Lemma named_one : forall cs s s', named_by cs s -> named_by cs s' -> s = s'.
Proof. intros cs s s' (_ & ->) (_ & ->). reflexivity. Qed.

(** ** Maps *)

Lemma insert_perm : forall e m, Permutation (insert_key e m) (e :: m).
Proof. intros e m. induction m as [|f m IH]; [reflexivity|]. cbn [insert_key]. destruct (str_less _ _); [reflexivity|]. rewrite IH. apply perm_swap. Qed.

Lemma sort_perm : forall m, Permutation (sort_keys m) m.
Proof. induction m as [|e m IH]; [constructor|]. cbn [sort_keys fold_right]. rewrite insert_perm. constructor. exact IH. Qed.

Definition map_members (m : list (str * nat)) : list (list N * json) := map (fun e => (runes (fst e), JNumber (itoa (snd e)))) (sort_keys m).

Lemma map_reads : forall depth m, value_says (json_map depth m) (JObject (map_members m)).
Proof.
  intros depth m. apply object_says. unfold map_members. induction (sort_keys m) as [|e l IH]; cbn [map]; constructor; auto. split; [reflexivity|]. cbn [snd]. apply number_says.
Qed.

Lemma runes_inj : forall s s', is_utf8 s -> is_utf8 s' -> runes s = runes s' -> s = s'.
Proof. intros s s' U U' E. apply utf8_named in U, U'. rewrite E in U. eapply named_one; eauto. Qed.

Lemma map_said : forall m, is_map m -> utf8_names m -> map_says m (JObject (map_members m)).
Proof.
  intros m M U. exists (map_members m). split; [reflexivity|]. pose proof (sort_perm m) as P. split.
  - unfold map_members. rewrite map_map. cbn [fst]. assert (M' : NoDup (map fst (sort_keys m))) by (eapply Permutation_NoDup; [apply Permutation_map, Permutation_sym, P|exact M]).
    assert (U' : forall e, In e (sort_keys m) -> is_utf8 (fst e)) by (intros [s n] I; apply (U s n); eapply Permutation_in; eauto). clear -M' U'.
    induction (sort_keys m) as [|e l IH]; [constructor|]. cbn [map] in *. inversion M' as [|? ? N1 N2]; subst. constructor.
    + intros I. apply in_map_iff in I as (f & E & I). apply N1. apply in_map_iff. exists f. split; [|exact I]. apply runes_inj; [apply U'; right; exact I|apply U'; left; reflexivity|exact E].
    + apply IH; auto. intros f I. apply U'. right. exact I.
  - intros name value. unfold map_members. rewrite in_map_iff. split.
    + intros ([s n] & E & I). injection E as <- <-. exists s, n. assert (I' : In (s, n) m) by (eapply Permutation_in; eauto). split; [exact I'|]. split; [|reflexivity]. apply utf8_named. eapply U; eauto.
    + intros (s & n & I & N & ->). exists (s, n). cbn [fst snd]. rewrite (named_runes _ _ N). split; [reflexivity|]. eapply Permutation_in; [apply Permutation_sym, P|exact I].
Qed.

(** ** Statistics *)

Definition optional_value (m : option (list (str * nat))) : json := match m with Some m => JObject (map_members m) | None => JNull end.

Definition stats_members (stats : articleStats) (uncovered top : option (list (str * nat))) : list (list N * json) :=
  [(runes !"article-name", JString (runes (ArticleName stats)));
   (runes !"number-of-characters", JNumber (itoa (count stats NumberOfCharacters)));
   (runes !"number-of-words", JNumber (itoa (count stats NumberOfWords)));
   (runes !"number-of-internal-links", JNumber (itoa (count stats NumberOfInternalLinks)));
   (runes !"number-of-external-links", JNumber (itoa (count stats NumberOfExternalLinks)));
   (runes !"number-of-images", JNumber (itoa (count stats NumberOfImages)));
   (runes !"number-of-math", JNumber (itoa (count stats NumberOfMath)));
   (runes !"number-of-ref-definitions", JNumber (itoa (count stats NumberOfRefDefinitions)));
   (runes !"number-of-ref-usages", JNumber (itoa (count stats NumberOfRefUsages)));
   (runes !"internal-links", JObject (map_members (InternalLinks stats)));
   (runes !"uncovered-internal-links", optional_value uncovered);
   (runes !"top-10-uncovered-internal-links", optional_value top);
   (runes !"estimated-reading-time-minutes", JNumber (itoa (count stats EstimatedReadingTimeMinutes)))].

Lemma stats_read : forall stats uncovered top, value_says (json_object 0 (stats_fields stats uncovered top)) (JObject (stats_members stats uncovered top)).
Proof.
  intros stats uncovered top. apply object_says. unfold stats_fields, stats_members. cbv zeta.
  assert (O : forall m, value_says (match m with Some m => json_map 1 m | None => !"null" end) (optional_value m)) by (intros [m|]; [apply map_reads|apply null_says]).
  repeat (constructor; [split; [reflexivity|]; cbn [fst snd]; first [apply number_says|apply string_says|apply map_reads|apply O]|]). constructor.
Qed.

Lemma members_keys : forall stats uncovered top, NoDup (map fst (stats_members stats uncovered top)).
Proof.
  intros stats uncovered top. unfold stats_members. cbn [map fst]. vm_compute.
  repeat (constructor; [intros I; cbn [In] in I; repeat (destruct I as [I|I]; [discriminate I|]); exact I|]). constructor.
Qed.

Lemma stats_said : forall stats uncovered top text, is_utf8 (ArticleName stats) -> is_map (InternalLinks stats) -> utf8_names (InternalLinks stats) ->
  (forall m, In (Some m) [uncovered; top] -> is_map m /\ utf8_names m) -> json_text text (JObject (stats_members stats uncovered top)) ->
  file_says text stats ((match uncovered with Some m => [(!"uncovered-internal-links", m)] | None => [] end) ++ (match top with Some m => [(!"top-10-uncovered-internal-links", m)] | None => [] end)).
Proof.
  intros stats uncovered top text A M U O T. exists (stats_members stats uncovered top). split; [exact T|]. split; [apply members_keys|]. split; [|split].
  - exists (runes (ArticleName stats)). split; [left; reflexivity|]. apply utf8_named. exact A.
  - intros c. destruct c; cbn [field stats_members In]; [right; left|do 2 right; left|do 3 right; left|do 4 right; left|do 5 right; left|do 6 right; left|do 7 right; left|do 8 right; left|do 12 right; left]; reflexivity.
  - intros name m I. destruct I as [I|I].
    + injection I as <- <-. eexists. split; [do 9 right; left; reflexivity|]. apply map_said; auto.
    + apply in_app_iff in I as [I|I]; [destruct uncovered as [m'|]; [|contradiction]|destruct top as [m'|]; [|contradiction]]; (destruct I as [I|[]]; injection I as <- <-);
        (destruct (O m' ltac:(cbn; auto)) as [O1 O2]); eexists; (split; [|apply map_said; auto]); [do 10 right; left; reflexivity|do 11 right; left; reflexivity].
Qed.
