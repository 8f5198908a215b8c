(** * Proofs about the statistics of a project *)

From Coq Require Import Ascii String.
From Coq Require Import List Arith NArith ZArith Bool Lia Permutation.
From Verif Require Import GoStr GoStrFacts TokenModel ExpandSpec ArticleModel StatsModel StatsSpec StatsProofs CombineProofs PropStats DocumentSpec DocumentTokenProofs PropDocument DocumentStatsSpec DocumentStatsProofs PropDocumentStats
  StatsJsonModel JsonSpec StatsJsonSpec StatsJsonProofs BookStatsSpec PropStatsJson.
Import ListNotations.
Local Open Scope list_scope.

(** Whatever the fuel is, the statistics say the same. *)
Lemma parsed_counted : forall cfg doc text t letter instance fuel title stats, @document_ok cfg doc -> parsed_as doc text t ->
  generateStats letter instance (tokenMap t) fuel title text = Ok stats -> says_things letter instance title (document_things (flat_document doc)) stats.
Proof.
  intros cfg doc text t letter instance fuel title stats (_ & F & _) (U & bs & B & ->) G. pose proof (document_sees t U doc bs F B) as S.
  apply (proj1 (sees_events (tokenMap t))) in S as (d & O & _ & E & H). destruct (H []) as (es & T & A). assert (X : text_events counted_texts (tokenMap t) (layout_text d) es) by (constructor; auto).
  rewrite E in G. eapply things_said; [|exact A]. eapply C33_counted; [exact X|exact G].
Qed.

(** ** Equal statistics *)

Lemma entry_same : forall m m', is_map m -> is_map m' -> (forall e, In e m <-> In e m') -> forall name, entry name m = entry name m'.
Proof.
  intros m m' M M' E name. destruct (in_dec str_eq_dec name (map fst m)) as [I|N].
  - apply in_map_iff in I as ((k & v) & <- & I). cbn [fst]. rewrite (entry_in m k v M I). symmetry. apply entry_in; auto. apply E. exact I.
  - rewrite (entry_missing m name N). symmetry. apply entry_missing. intros I. apply in_map_iff in I as ((k & v) & <- & I). apply N. apply in_map_iff. exists (k, v). split; [reflexivity|]. apply E. exact I.
Qed.

Lemma same_says : forall letter instance title l a b, says_things letter instance title l a -> same_stats a b -> is_map (InternalLinks b) -> says_things letter instance title l b.
Proof.
  intros letter instance title l a b (S1 & S2 & (speed & S3 & S4) & S5 & S6 & S7) (E1 & E2 & E3) M. split; [congruence|]. split; [intros c C; rewrite <- E2; auto|]. split; [exists speed; rewrite <- E2; auto|]. split; [exact M|]. split.
  - intros name. rewrite <- S6. symmetry. apply entry_same; auto.
  - intros name. rewrite <- S7. split; intros I; apply in_map_iff in I as ((k & v) & <- & I); apply in_map_iff; exists (k, v); (split; [reflexivity|]); apply E3; exact I.
Qed.

Lemma speed_one : forall instance a b, reading_speed instance a -> reading_speed instance b -> a = b.
Proof.
  intros instance a b A B. inversion A; subst; inversion B; subst; try reflexivity;
    match goal with H : ~ In ?i _ |- _ => exfalso; apply H; cbn [In]; tauto end.
Qed.

(** ** Sums *)

Lemma sum_same : forall A B (f : A -> nat) (g : B -> nat) l l', Forall2 (fun a b => f a = g b) l l' -> list_sum (map f l) = list_sum (map g l').
Proof. intros A B f g l l' F. induction F as [|a b l l' E F IH]; [reflexivity|]. cbn [map]. unfold list_sum in *. cbn [fold_right]. lia. Qed.

Lemma sum_positive : forall A (f : A -> nat) l, 0 < list_sum (map f l) <-> exists a, In a l /\ 0 < f a.
Proof.
  intros A f l. induction l as [|a l IH]; cbn [map]; unfold list_sum in *; cbn [fold_right In]; [split; [lia|intros (a & [] & _)]|]. split.
  - intros H. destruct (f a) eqn:E; [|exists a; split; [auto|lia]]. destruct IH as [IH _]. destruct IH as (b & I & P); [lia|]. exists b. auto.
  - intros (b & [<-|I] & P); [lia|]. destruct IH as [_ IH]. specialize (IH (ex_intro _ b (conj I P))). lia.
Qed.

(** The combination of the statistics of the articles *)
Lemma project_combined : forall sortEntries letter instance things articles ss c,
  Forall2 (fun a st => says_things letter instance a (things a) st) articles ss -> GenerateCombinedStats sortEntries (map Ok ss) = Ok c ->
  project_says letter instance things articles (Combined c) (UncoveredInternalLinks c).
Proof.
  intros sortEntries letter instance things articles ss c F H. pose proof (C34_sums _ _ _ H) as (ss' & E & C1 & C2 & C3 & C4).
  assert (X : forall (a b : list articleStats), map Ok a = map (@Ok articleStats) b -> a = b).
  { induction a as [|x a IH]; intros [|y b] Q; try discriminate; [reflexivity|]. cbn in Q. injection Q as -> Q. f_equal. apply IH. exact Q. }
  apply X in E. subst ss'.
  assert (Names : map ArticleName ss = articles) by (clear -F; induction F as [|a st l l' (S1 & _) F IH]; [reflexivity|]; cbn [map]; congruence).
  assert (Links : forall name, list_sum (map (fun s => entry name (InternalLinks s)) ss) = list_sum (map (fun a => links_in name (things a)) articles)).
  { intros name. symmetry. apply sum_same. clear -F. induction F as [|a st l l' (_ & _ & _ & _ & S6 & _) F IH]; constructor; [symmetry; apply S6|auto]. }
  assert (Some_links : forall name, (exists s, In s ss /\ In name (map fst (InternalLinks s))) <-> 0 < list_sum (map (fun a => links_in name (things a)) articles)).
  { intros name. rewrite sum_positive. clear -F. induction F as [|a st l l' (_ & _ & _ & _ & _ & S7) F IH]; [split; intros (x & [] & _)|]. split.
    - intros (s & [<-|I] & J); [exists a; split; [left; reflexivity|apply S7; exact J]|]. destruct IH as [IH _]. destruct IH as (b & I' & P); [exists s; auto|]. exists b. split; [right; exact I'|exact P].
    - intros (b & [<-|I] & P); [exists st; split; [left; reflexivity|apply S7; exact P]|]. destruct IH as [_ IH]. destruct IH as (s & I' & J); [exists b; auto|]. exists s. split; [right; exact I'|exact J]. }
  assert (N : ArticleName (Combined c) = [] /\ is_map (InternalLinks (Combined c)) /\
    forall name, In name (map fst (InternalLinks (Combined c))) <-> 0 < list_sum (map (fun a => links_in name (things a)) articles)).
  { unfold GenerateCombinedStats in H. rewrite combine_all_ok in H. destruct (fold_combined ss (mkArticleStats [] (fun _ => 0) [], [])) as (_ & _ & I3 & I4 & _).
    pose proof (combined_name ss (mkArticleStats [] (fun _ => 0) [], [])) as I1. destruct (fold_left combine_one ss _) as [st arts]. cbn [bind fst snd InternalLinks map ArticleName] in *. injection H as <-. cbn [Combined].
    split; [exact I1|]. split; [apply I4; constructor|]. intros name. rewrite I3, <- Some_links. cbn [In]. tauto. }
  destruct N as (N1 & N2 & N3).
  assert (All : forall name n, In (name, n) (InternalLinks (Combined c)) <-> 0 < n /\ n = list_sum (map (fun a => links_in name (things a)) articles)).
  { intros name n. split.
    - intros I. assert (E : n = list_sum (map (fun a => links_in name (things a)) articles)) by (rewrite <- Links, <- C2; symmetry; apply entry_in; auto). split; [|exact E]. rewrite E. apply N3. apply in_map_iff. exists (name, n). auto.
    - intros (P & E). assert (I : In name (map fst (InternalLinks (Combined c)))) by (apply N3; lia). apply in_map_iff in I as ((k & v) & E' & I). cbn [fst] in E'. subst k.
      assert (v = n) by (rewrite E, <- Links, <- C2; symmetry; apply entry_in; auto). subst v. exact I. }
  split; [exact N1|]. split; [|split; [|split; [exact N2|split; [exact C4|split; [exact All|]]]]].
  - intros x Nx. rewrite C1. symmetry. apply sum_same. clear -F Nx. induction F as [|a st l l' (_ & S2 & _) F IH]; constructor; [symmetry; apply S2; exact Nx|auto].
  - exists (words_per_minute instance). split; [apply words_per_minute_speed|]. rewrite C1. symmetry. apply sum_same. clear -F. induction F as [|a st l l' (_ & _ & (speed & S3 & S4) & _) F IH]; constructor; auto.
    rewrite S4. rewrite (speed_one _ _ _ S3 (words_per_minute_speed instance)). reflexivity.
  - intros name n. rewrite C3, All, Some_links, Links, Names. split; [intros (A & B & ->)|intros ((A & ->) & B)]; auto.
Qed.
