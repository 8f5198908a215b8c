(** * Calm texts: what the passes do to a text keeps it calm *)

From Coq Require Import Ascii String.
From Coq Require Import List Arith NArith Bool Lia.
From Verif Require Import GoStr GoStrFacts TextFacts TrimFacts ConfigModel TokenModel SafeSpec.
Import ListNotations.
Local Open Scope list_scope.

Lemma essence_app : forall a b, essence (a ++ b) = essence a ++ essence b.
Proof. intros. unfold essence, to_lower. rewrite filter_app, map_app. auto. Qed.

Lemma essence_cons : forall c s, c <> "="%char -> essence (c :: s) = lower_char c :: essence s.
Proof. intros c s N. unfold essence. cbn [filter]. destruct (Ascii.eqb c "=") eqn:E; [apply Ascii.eqb_eq in E; contradiction|]. auto. Qed.

Lemma essence_equals : forall s, essence ("="%char :: s) = essence s.
Proof. auto. Qed.

Lemma essence_lower : forall x, ~ In "="%char x -> essence x = to_lower x.
Proof.
  induction x as [|c x IH]; intros N; auto. rewrite essence_cons by (intros ->; apply N; left; auto). rewrite IH; auto. intros H. apply N. right. auto.
Qed.

(** Characters that are not the result of changing a letter *)
Lemma lower_symbol : forall c d, In d !"<[{$]=|#: '" \/ d = nl_char -> lower_char c = d -> c = d.
Proof.
  intros c d H. cbn [list_ascii_of_string In] in H. intros E.
  destruct c as [[] [] [] [] [] [] [] []]; vm_compute in E; subst d; try reflexivity; exfalso;
    (destruct H as [H|H]; [repeat (destruct H as [H|H]; [discriminate H|]); exact H|discriminate H]).
Qed.

Lemma lower_lower_idem : forall c, lower_char (lower_char c) = lower_char c.
Proof. intros [[] [] [] [] [] [] [] []]; reflexivity. Qed.

Lemma In_essence : forall d s, In d !"<[{$]=|#: '" \/ d = nl_char -> In d (essence s) -> In d s /\ d <> "="%char.
Proof.
  intros d s H I. unfold essence, to_lower in I. apply in_map_iff in I. destruct I as (c & E & I). apply filter_In in I. destruct I as [I N].
  apply lower_symbol in E; auto. subst d. split; auto. intros ->. discriminate.
Qed.

Lemma starts_not : forall c d, In c !"[]|#:=" -> starts_target d -> d <> c.
Proof. intros c d I [_ N] ->. auto. Qed.

Lemma blank_byte : forall p c q, In p space_runes -> p = c :: q -> ~ starts_target (lower_char c) /\ c <> "="%char.
Proof.
  intros p c q I E. cbn [space_runes In] in I.
  repeat (destruct I as [I|I]; [rewrite <- I in E; injection E as <- _; split; [|discriminate]; intros [[[H1 H2]|[H1 H2]] _]; vm_compute in H1, H2; congruence|]).
  destruct I.
Qed.

Lemma dollar_starts : starts_target "$".
Proof. split; [left; split; vm_compute; discriminate|]. cbn. intuition discriminate. Qed.

(** Two decompositions: where an occurrence lies *)
Lemma occurs_sep : forall w x (c : ascii) y, ~ In c w -> occurs w (x ++ c :: y) -> occurs w x \/ occurs w y.
Proof.
  intros w x c y N (a & b & E). apply app_app_cases in E. destruct E as [(z & -> & E)|(z & -> & E)].
  - destruct z as [|d z]; cbn [app] in E.
    + destruct w as [|e w]; [left; exists [], x; auto|]. injection E as -> _. exfalso. apply N. left. auto.
    + injection E as -> E. right. exists z, b. auto.
  - apply app_app_cases in E. destruct E as [(u & -> & E)|(u & -> & E)].
    + left. exists a, u. rewrite app_assoc. auto.
    + destruct u as [|d u]; cbn [app] in E; [subst; left; exists a, []; rewrite !app_nil_r; auto|].
      injection E as <- _. exfalso. apply N. apply in_or_app. right. left. auto.
Qed.

Lemma occurs_app_l : forall w x y, occurs w x -> occurs w (x ++ y).
Proof. intros w x y (a & b & ->). exists a, (b ++ y). rewrite <- !app_assoc. auto. Qed.
Lemma occurs_app_r : forall w x y, occurs w y -> occurs w (x ++ y).
Proof. intros w x y (a & b & ->). exists (x ++ a), b. rewrite <- !app_assoc. auto. Qed.

Lemma occurs_char : forall w c s, In c w -> occurs w s -> In c s.
Proof. intros w c s I (a & b & ->). apply in_or_app. right. apply in_or_app. auto. Qed.

Section Config.
Variable cfg : configuration.
Hypothesis words : prefixes_are_words cfg.
Notation calm := (calm cfg).

(** Calm up to two brackets at the end *)
Definition halfcalm (s : str) : Prop :=
  (forall w, In w (openings ++ file_links cfg) -> ~ occurs w (essence s)) /\
  (forall a b, essence s = a ++ !"[[" ++ b -> b = [] \/ exists c b', b = c :: b' /\ starts_target c).

Lemma calm_half : forall s, calm s -> halfcalm s.
Proof. intros s [W L]. split; auto. intros a b E. right. eauto. Qed.

Lemma word_start : forall w, In w (openings ++ file_links cfg) -> exists c w', w = c :: w' /\ In c !"<[{" /\ (forall d, In d w -> ~ In d (!"$]=" ++ nl)).
Proof.
  intros w I. apply in_app_or in I. destruct I as [I|I].
  - cbn [openings In] in I.
    repeat (destruct I as [<-|I]; [eexists _, _; split; [reflexivity|]; split; [cbn; auto 6|];
      intros d D J; cbn in D, J; repeat (destruct D as [<-|D]; [intuition discriminate|]); exact D|]). destruct I.
  - apply in_map_iff in I. destruct I as (p & <- & I). eexists _, _. split; [reflexivity|]. split; [cbn; auto|].
    intros d D. apply in_app_or in D. destruct D as [D|D]; [cbn in D; destruct D as [<-|[<-|[]]]; cbn; intuition discriminate|].
    apply in_app_or in D. destruct D as [D|[<-|[]]]; [eapply words; eauto|cbn; intuition discriminate].
Qed.

Lemma word_no : forall w c, In w (openings ++ file_links cfg) -> In c (!"$]=" ++ nl) -> ~ In c w.
Proof. intros w c W C I. destruct (word_start w W) as (_ & _ & _ & _ & N). exact (N c I C). Qed.

Lemma half_prefix : forall a b, halfcalm (a ++ b) -> halfcalm a.
Proof.
  intros a b [W L]. rewrite essence_app in *. split.
  - intros w I O. apply (W w I). apply occurs_app_l. auto.
  - intros x y E. specialize (L x (y ++ essence b)). rewrite E in L. rewrite <- !app_assoc in L. specialize (L eq_refl).
    destruct y as [|c y]; auto. right. destruct L as [L|(d & z & L & S)]; [discriminate|]. injection L as -> L. eauto.
Qed.

Lemma calm_suffix : forall a b, calm (a ++ b) -> calm b.
Proof.
  intros a b [W L]. rewrite essence_app in *. split.
  - intros w I O. apply (W w I). apply occurs_app_r. auto.
  - intros x y E. apply (L (essence a ++ x) y). rewrite E, <- !app_assoc. auto.
Qed.

(** The text in front of a character that cannot follow two brackets *)
Lemma calm_cut : forall a c b, c <> "="%char -> ~ starts_target (lower_char c) -> calm (a ++ c :: b) -> calm a.
Proof.
  intros a c b N K H. destruct (half_prefix a (c :: b) (calm_half _ H)) as [W L]. split; auto.
  intros x y E. destruct (L _ _ E) as [->|S]; auto. exfalso. destruct H as [_ H]. rewrite essence_app, essence_cons in H by auto.
  rewrite app_nil_r in E. destruct (H x (lower_char c :: essence b)) as (d & z & H' & S).
  - rewrite E, <- app_assoc. auto.
  - injection H' as <- _. auto.
Qed.

Lemma two_brackets : forall (a x y z : str) (c : ascii), c <> "["%char -> a ++ c :: x = y ++ !"[[" ++ z ->
  (exists b, a = y ++ !"[[" ++ b /\ z = b ++ c :: x) \/ (exists b, x = b ++ !"[[" ++ z).
Proof.
  intros a x y z c N E. apply app_app_cases in E. destruct E as [(u & -> & E)|(u & -> & E)].
  - destruct u as [|d u]; cbn [app list_ascii_of_string] in E; [congruence|]. injection E as -> E. right. exists u. auto.
  - destruct u as [|d [|e u]]; cbn [app list_ascii_of_string] in E; try congruence. injection E as <- <- E. left. exists u. split; auto.
Qed.

Lemma calm_glue : forall a c b, In c (!"$]" ++ nl) -> calm a -> calm b -> calm (a ++ c :: b).
Proof.
  intros a c b C [W1 L1] [W2 L2].
  assert (N : c <> "="%char /\ lower_char c = c /\ c <> "["%char /\ In c (!"$]=" ++ nl)).
  { cbn in C. destruct C as [<-|[<-|[<-|[]]]]; (split; [discriminate|]); (split; [reflexivity|]); (split; [discriminate|]); cbn; auto. }
  destruct N as (N1 & N2 & N3 & N4). split.
  - intros w I O. rewrite essence_app, essence_cons, N2 in O by auto. apply occurs_sep in O; [|apply word_no; auto].
    destruct O; [eapply W1|eapply W2]; eauto.
  - intros x y E. rewrite essence_app, essence_cons, N2 in E by auto. apply two_brackets in E; auto. destruct E as [(z & E & ->)|(z & E)].
    + destruct (L1 _ _ E) as (d & u & -> & S). exists d, (u ++ c :: essence b). auto.
    + apply (L2 _ _ E).
Qed.

(** Keys and markers *)
Definition mark (k : str) : Prop := exists m, k = "$"%char :: m ++ ["$"%char] /\ forall c, In c m -> ~ In c !"<[{=".

Lemma calm_mark : forall a k b, mark k -> halfcalm a -> calm b -> calm (a ++ k ++ b).
Proof.
  intros a k b (m & -> & M) [W1 L1] [W2 L2].
  assert (D : In "$"%char !"<[{$]=|#: '" \/ "$"%char = nl_char) by (left; cbn; auto).
  assert (E0 : essence (a ++ ("$"%char :: m ++ ["$"%char]) ++ b) = essence a ++ "$"%char :: essence m ++ "$"%char :: essence b).
  { rewrite essence_app. cbn [app]. rewrite essence_cons by discriminate. rewrite <- app_assoc, essence_app. cbn [app]. rewrite essence_cons by discriminate. auto. }
  assert (M' : forall c, In c !"<[{" -> ~ In c (essence m)).
  { intros c C I. assert (C' : In c !"<[{$]=|#: '" \/ c = nl_char) by (left; cbn in *; tauto). apply In_essence in I; auto. destruct I as [I _].
    apply (M c I). cbn in *. tauto. }
  split.
  - intros w I O. rewrite E0 in O. destruct (word_start w I) as (c & w' & -> & C & _). apply occurs_sep in O; [|apply word_no; cbn; auto].
    destruct O as [O|O]; [apply (W1 _ I O)|]. apply occurs_sep in O; [|apply word_no; cbn; auto]. destruct O as [O|O]; [|apply (W2 _ I O)].
    apply (M' c C). apply (occurs_char (c :: w')); auto. left. auto.
  - intros x y E. rewrite E0 in E. apply two_brackets in E; [|discriminate]. destruct E as [(z & E & ->)|(z & E)].
    + destruct (L1 _ _ E) as [->|(d & u & -> & S)]; [exists "$"%char; eexists; split; [reflexivity|apply dollar_starts]|]. eexists d, _. split; [reflexivity|auto].
    + apply two_brackets in E; [|discriminate]. destruct E as [(u & E & ->)|(u & E)].
      * exfalso. apply (M' "["%char); [cbn; auto|]. rewrite E. apply in_or_app. right. left. auto.
      * apply (L2 _ _ E).
Qed.

Lemma calm_nil : calm [].
Proof.
  split.
  - intros w I (a & b & E). destruct (word_start w I) as (c & w' & -> & _). destruct a; discriminate.
  - intros a b E. destruct a; discriminate.
Qed.

Lemma calm_mark_alone : forall k, mark k -> calm k.
Proof.
  intros k K. replace k with ([] ++ k ++ []) by (cbn [app]; apply app_nil_r). apply calm_mark; auto using calm_nil. apply calm_half, calm_nil.
Qed.

(** Replacing a part by a key *)
Lemma calm_replaced : forall a x b k, mark k -> calm (a ++ x ++ b) -> calm (a ++ k ++ b).
Proof.
  intros a x b k K H. apply calm_mark; auto.
  - eapply half_prefix. apply calm_half. exact H.
  - rewrite app_assoc in H. eapply calm_suffix. exact H.
Qed.

Lemma calm_pieces : forall s i j k, mark k -> i <= j -> calm s -> calm (firstn i s ++ k ++ skipn j s).
Proof.
  intros s i j k K L H. apply calm_mark; auto.
  - apply half_prefix with (skipn i s). rewrite firstn_skipn. apply calm_half. auto.
  - apply calm_suffix with (firstn j s). rewrite firstn_skipn. auto.
Qed.

Lemma calm_skipn : forall n s, calm s -> calm (skipn n s).
Proof. intros n s H. apply calm_suffix with (firstn n s). rewrite firstn_skipn. auto. Qed.

(** Separators *)
Definition cutting (sep : str) : Prop := exists c q, sep = c :: q /\ c <> "="%char /\ ~ starts_target (lower_char c).

Lemma cutting_nl : cutting nl.
Proof. exists nl_char, []. split; [auto|]. split; [discriminate|]. intros [[[H _]|[H _]] _]; vm_compute in H; congruence. Qed.
Lemma cutting_space : cutting !" ".
Proof. exists " "%char, []. split; [auto|]. split; [discriminate|]. intros [[[H _]|[H _]] _]; vm_compute in H; congruence. Qed.
Lemma cutting_close : forall q, cutting ("]"%char :: q).
Proof. intros q. exists "]"%char, q. split; [auto|]. split; [discriminate|]. intros [_ H]. apply H. cbn. auto. Qed.
Lemma cutting_open : forall q, cutting ("["%char :: q).
Proof. intros q. exists "["%char, q. split; [auto|]. split; [discriminate|]. intros [_ H]. apply H. cbn. auto. Qed.
Lemma cutting_pipe : cutting !"|".
Proof. exists "|"%char, []. split; [auto|]. split; [discriminate|]. intros [_ H]. apply H. cbn. auto. Qed.
Lemma cutting_colon : cutting !":".
Proof. exists ":"%char, []. split; [auto|]. split; [discriminate|]. intros [_ H]. apply H. cbn. auto 6. Qed.
Lemma cutting_hash : cutting !"#".
Proof. exists "#"%char, []. split; [auto|]. split; [discriminate|]. intros [_ H]. apply H. cbn. auto 6. Qed.

Lemma calm_before : forall sep a b, cutting sep -> calm (a ++ sep ++ b) -> calm a.
Proof. intros sep a b (c & q & -> & N & S) H. eapply calm_cut; eauto. Qed.

Lemma cutting_nonempty : forall sep, cutting sep -> sep <> [].
Proof. intros sep (c & q & -> & _). discriminate. Qed.

Lemma calm_split : forall sep s, cutting sep -> calm s -> Forall calm (split sep s).
Proof.
  intros sep s C. pattern s. apply (split_ind_len sep); [apply cutting_nonempty; auto| |].
  - intros t E H. rewrite split_none; auto.
  - intros a b E IH H. rewrite split_first by (auto using cutting_nonempty). apply Forall_cons.
    + eapply calm_before; eauto.
    + apply IH. rewrite app_assoc in H. eapply calm_suffix; eauto.
Qed.

Lemma split2_parts : forall sep s, split2 sep s = [s] \/ exists a b, s = a ++ sep ++ b /\ split2 sep s = [a; b].
Proof.
  intros sep s. unfold split2. destruct (index sep s) as [i|] eqn:E; auto. right. apply index_some_split in E. destruct E as (a & b & E & L & _).
  exists a, b. split; auto. subst s i. rewrite firstn_app, firstn_all, Nat.sub_diag, app_nil_r. f_equal. f_equal.
  rewrite app_assoc, skipn_app, skipn_all2 by (rewrite app_length; lia). rewrite app_length, Nat.sub_diag. auto.
Qed.

Lemma calm_split2 : forall sep s, cutting sep -> calm s -> Forall calm (split2 sep s).
Proof.
  intros sep s C H. destruct (split2_parts sep s) as [->|(a & b & -> & ->)]; auto. apply Forall_cons; [eapply calm_before; eauto|].
  apply Forall_cons; auto. rewrite app_assoc in H. eapply calm_suffix; eauto.
Qed.

Lemma calm_hd : forall l, Forall calm l -> calm (hd [] l).
Proof. intros [|x l] H; [apply calm_nil|exact (Forall_inv H)]. Qed.

Lemma calm_last : forall l, Forall calm l -> calm (last l []).
Proof.
  induction l as [|x l IH]; intros H; [apply calm_nil|]. destruct l; [exact (Forall_inv H)|]. apply IH. exact (Forall_inv_tail H).
Qed.

Lemma split_parts : forall sep s, sep <> [] -> (split sep s = [s] /\ index sep s = None) \/ exists a b, s = a ++ sep ++ b /\ split sep s = a :: split sep b.
Proof.
  intros sep s N. destruct (index sep s) as [i|] eqn:E; [right|left; split; [apply split_none|]; auto].
  pose proof (index_some_split _ _ _ E) as (a & b & E' & L & _). exists a, b. split; auto. subst s. apply split_first; auto. congruence.
Qed.

Lemma calm_rest : forall sep s, sep <> [] -> calm s -> calm (join sep (tl (split sep s))).
Proof.
  intros sep s N H. destruct (split_parts sep s N) as [[-> _]|(a & b & -> & ->)]; cbn [tl join]; [apply calm_nil|]. rewrite join_split; auto.
  rewrite app_assoc in H. eapply calm_suffix; eauto.
Qed.

Lemma calm_join : forall l, Forall calm l -> calm (join nl l).
Proof.
  induction l as [|x l IH]; intros H; [apply calm_nil|]. pose proof (Forall_inv H) as X. pose proof (Forall_inv_tail H) as L. specialize (IH L).
  destruct l as [|y l]; [exact X|]. rewrite join_cons by discriminate. apply calm_glue; auto. cbn. auto.
Qed.

Lemma calm_trim : forall s, calm s -> calm (trim_space s).
Proof.
  intros s H. destruct (trim_space_spec s) as (l & r & E & _ & R & _). rewrite E in H. apply calm_suffix in H. revert H.
  generalize (trim_space s) as t. intros t H. inversion R as [E1|p q P Q E1]; subst; [rewrite app_nil_r in H; auto|].
  destruct p as [|c p]; [exfalso; eapply space_runes_nonempty; eauto|]. destruct (blank_byte _ _ _ P eq_refl). eapply calm_cut; eauto.
Qed.

(** Headings: equals signs are removed *)
Lemma essence_repeat : forall n, essence (repeat_str !"=" n) = [].
Proof. induction n; auto. Qed.

Lemma essence_replaced : forall n s, essence (replace_all (repeat_str !"=" (S n)) [] s) = essence s.
Proof.
  intros n s. assert (N : repeat_str !"=" (S n) <> []) by discriminate. pose proof (essence_repeat (S n)) as R. revert N R.
  generalize (repeat_str !"=" (S n)) as m. intros m N R. pattern s. apply (split_ind_len m); auto.
  - intros t E. rewrite replace_all_none; auto.
  - intros a b E IH. rewrite replace_all_first by auto. cbn [app]. rewrite !essence_app, R, IH. auto.
Qed.

Lemma calm_essence : forall a b, essence a = essence b -> calm b -> calm a.
Proof. intros a b E [W L]. split; rewrite E; auto. Qed.

(** Words in a text *)
Lemma calm_no_word : forall w x a b, In w openings -> to_lower x = w -> ~ calm (a ++ x ++ b).
Proof.
  intros w x a b I E [W _]. apply (W w); [apply in_or_app; auto|]. exists (essence a), (essence b). rewrite !essence_app. f_equal. f_equal.
  rewrite <- E. apply essence_lower. intros J.
  assert (K : In "="%char w). { rewrite <- E. apply (in_map lower_char) in J. exact J. }
  assert (I' : In w (openings ++ file_links cfg)) by (apply in_or_app; auto). apply (word_no w "="%char I'); [cbn; auto|auto].
Qed.
End Config.
