(** * Proofs about the tags of footnotes *)

From Coq Require Import Ascii String.
From Coq Require Import List Arith Bool Lia.
From Verif Require Import GoStr GoStrFacts TextFacts UtilModel BracketModel TokenModel PassSpec ReferenceModel ReferenceSpec NowikiProofs RefAttrProofs.
Import ListNotations.
Local Open Scope list_scope.

Ltac no_lt := let H := fresh in intros H; cbn in H; repeat (destruct H as [H|H]; [discriminate H|]); destruct H.

(** ** The next tag *)

Lemma at_tag_lower : forall s, at_reference_tag s = true -> has_prefix !"<ref" (to_lower s) = true \/ has_prefix !"</re" (to_lower s) = true.
Proof.
  intros s H. unfold at_reference_tag in H. apply andb_true_iff in H as [_ H]. unfold EqualsIgnoreCase in H. apply orb_true_iff in H.
  rewrite !str_eqb_eq in H. rewrite <- (firstn_skipn 4 s), to_lower_app. destruct H as [H|H]; rewrite H; [left|right]; apply has_prefix_app.
Qed.

Lemma text_ok_cons : forall c p, text_ok (c :: p) -> text_ok p.
Proof. intros c p [H1 H2]. split; eapply no_tag_cons; eauto. Qed.

Lemma text_ok_skipn : forall n p, text_ok p -> text_ok (skipn n p).
Proof. induction n as [|n IH]; intros [|c p] H; auto. cbn. apply IH. eapply text_ok_cons; eauto. Qed.

Lemma text_ok_app : forall k p, ~ In "<"%char k -> text_ok p -> text_ok (k ++ p).
Proof.
  induction k as [|c k IH]; intros p N H; auto. assert (H' : text_ok (k ++ p)) by (apply IH; auto; intros I; apply N; right; auto).
  assert (Nc : lower_char c <> "<"%char).
  { intros E. apply N. left. destruct c as [[] [] [] [] [] [] [] []]; try discriminate E; auto. }
  destruct H' as [H1 H2]. unfold text_ok, no_tag in *. cbn [app to_lower map]. fold (to_lower (k ++ p)).
  split; apply contains_false; intros a b E; (destruct a as [|d a]; [injection E as E _; contradiction|injection E as _ E]).
  - apply (proj1 (contains_false _ _) H1 a b). auto.
  - apply (proj1 (contains_false _ _) H2 a b). auto.
Qed.

Lemma text_ok_plain : forall p, ~ In "<"%char p -> text_ok p.
Proof. intros p N. rewrite <- (app_nil_r p). apply text_ok_app; auto. split; reflexivity. Qed.

Lemma next_plain : forall p r, text_ok p -> tag_next r -> next_tag (p ++ r) = option_map (plus (length p)) (next_tag r).
Proof.
  induction p as [|c p IH]; intros r H R; cbn [app length].
  - destruct (next_tag r); auto.
  - cbn [next_tag]. destruct (at_reference_tag (c :: p ++ r)) eqn:E.
    + exfalso. apply at_tag_lower in E. change (c :: p ++ r) with ((c :: p) ++ r) in E. destruct H as [H1 H2].
      change !"<ref" with ("<"%char :: !"ref") in *. change !"</re" with ("<"%char :: !"/re") in *.
      rewrite !tag_not_here in E; auto; [destruct E; discriminate|no_lt|no_lt].
    + rewrite IH; auto; [|eapply text_ok_cons; eauto]. destruct (next_tag r); auto.
Qed.

Lemma next_none : forall p, text_ok p -> next_tag p = None.
Proof. intros p H. rewrite <- (app_nil_r p), next_plain; auto. left. auto. Qed.

Lemma next_hit : forall s, at_reference_tag s = true -> next_tag s = Some 0.
Proof. intros [|c s] H; [discriminate|]. cbn [next_tag]. rewrite H. auto. Qed.

(** ** The end of a tag and of a footnote *)

Lemma to_lower_no : forall c x, lower_char c = c -> (forall d, lower_char d = c -> d = c) -> ~ In c x -> ~ In c (to_lower x).
Proof. intros c x _ L N I. apply N. unfold to_lower in I. apply in_map_iff in I as (d & E & I). apply L in E. subst. auto. Qed.

Lemma lower_lt' : forall d, lower_char d = "<"%char -> d = "<"%char.
Proof. intros d E. destruct d as [[] [] [] [] [] [] [] []]; try discriminate E; auto. Qed.
Lemma lower_gt' : forall d, lower_char d = ">"%char -> d = ">"%char.
Proof. intros d E. destruct d as [[] [] [] [] [] [] [] []]; try discriminate E; auto. Qed.

Lemma find_gt : forall x y i, ~ In "<"%char x -> ~ In ">"%char x -> findClose_go true !"<ref" !">" (x ++ !">" ++ y) 0 0 i = Some (i + length x).
Proof.
  induction x as [|c x IH]; intros y i N1 N2; cbn [app length].
  - cbn [findClose_go]. rewrite Nat.add_0_r. reflexivity.
  - cbn [findClose_go]. unfold at_token. match goal with |- context[to_lower (c :: ?z)] => change (to_lower (c :: z)) with (lower_char c :: to_lower z) end.
    change (to_lower !"<ref") with ("<"%char :: !"ref"). change (to_lower !">") with [">"%char].
    rewrite has_prefix_neq by (intros E; symmetry in E; apply lower_lt' in E; subst; apply N1; left; auto).
    rewrite has_prefix_neq by (intros E; symmetry in E; apply lower_gt' in E; subst; apply N2; left; auto).
    rewrite andb_false_r. change (x ++ ">"%char :: y) with (x ++ !">" ++ y). rewrite IH; auto.
    + f_equal. lia.
    + intros I. apply N1. right. auto.
    + intros I. apply N2. right. auto.
Qed.

Lemma find_ref : forall b y i, no_tag !"<ref" b -> no_tag !"</ref>" b -> findClose_go true !"<ref" !"</ref>" (b ++ !"</ref>" ++ y) 0 0 i = Some (i + length b).
Proof.
  induction b as [|c b IH]; intros y i N1 N2; cbn [app length].
  - cbn [findClose_go]. rewrite Nat.add_0_r. reflexivity.
  - cbn [findClose_go]. unfold at_token. match goal with |- context[to_lower (c :: ?z)] => change (c :: z) with ((c :: b) ++ !"</ref>" ++ y) end.
    change (to_lower !"<ref") with ("<"%char :: !"ref"). change (to_lower !"</ref>") with ("<"%char :: !"/ref>").
    assert (R : tag_next (!"</ref>" ++ y)) by (right; eexists; reflexivity).
    rewrite !tag_not_here; auto; try no_lt. rewrite andb_false_r. match goal with |- findClose_go _ _ _ ?z _ _ _ = _ => change z with (b ++ !"</ref>" ++ y) end.
    rewrite IH; [|eapply no_tag_cons; eauto|eapply no_tag_cons; eauto]. f_equal. lia.
Qed.

Lemma no_tag_gt : forall tag b, no_tag ("<"%char :: tag) b -> no_tag ("<"%char :: tag) (">"%char :: b).
Proof.
  intros tag b N. unfold no_tag in *. change (to_lower (">"%char :: b)) with (">"%char :: to_lower b). apply contains_false. intros x y E.
  destruct x as [|d x]; [discriminate E|]. injection E as _ E. apply (proj1 (contains_false _ _) N x y). auto.
Qed.

Lemma skipn_exact : forall (a b : str), skipn (length a) (a ++ b) = b.
Proof. intros. rewrite skipn_app, skipn_all, Nat.sub_diag. auto. Qed.
Lemma firstn_exact : forall (a b : str), firstn (length a) (a ++ b) = a.
Proof. intros. rewrite firstn_app, firstn_all, Nat.sub_diag. apply app_nil_r. Qed.
Lemma sub_exact : forall (a b c : str), sub (a ++ b ++ c) (length a) (length a + length b) = b.
Proof. intros. unfold sub. rewrite skipn_exact. replace (length a + length b - length a) with (length b) by lia. apply firstn_exact. Qed.

(** ** The kind of a tag *)

Lemma match_inside : forall t rest s, ~ In "<"%char s -> tag_match ("<"%char :: t) rest s = false.
Proof.
  intros t rest s. induction s as [|c s IH]; intros N; auto. cbn [tag_match]. unfold HasPrefixIgnoreCase.
  change (to_lower ("<"%char :: t)) with ("<"%char :: to_lower t). change (to_lower (c :: s)) with (lower_char c :: to_lower s).
  rewrite has_prefix_neq by (intros E; symmetry in E; apply lower_lt' in E; subst; apply N; left; auto).
  rewrite IH by (intros I; apply N; right; auto). reflexivity.
Qed.

Lemma match_first : forall t rest s, ~ In "<"%char s ->
  tag_match ("<"%char :: t) rest ("<"%char :: s) = HasPrefixIgnoreCase ("<"%char :: s) ("<"%char :: t) && rest (skipn (S (length t)) ("<"%char :: s)).
Proof. intros t rest s N. cbn [tag_match]. rewrite match_inside; auto. rewrite orb_false_r. reflexivity. Qed.

Lemma attribute_chars : forall a c, attribute_ok a -> In c (attribute_text a) -> c <> "<"%char /\ c <> ">"%char /\ c <> nl_char.
Proof.
  intros a c (K & _ & N & _) I. unfold attribute_text in I.
  assert (V : In c (attr_value a) -> c <> "<"%char /\ c <> ">"%char /\ c <> nl_char).
  { intros J. repeat split; intros ->; (eapply N; [|exact J]); cbn; tauto. }
  assert (Q : In c (if attr_quoted a then dq ++ attr_value a ++ dq else attr_value a) -> c <> "<"%char /\ c <> ">"%char /\ c <> nl_char).
  { destruct (attr_quoted a); auto. rewrite !in_app_iff. intros [J|[J|J]]; auto; cbn in J; destruct J as [<-|[]]; repeat split; discriminate. }
  rewrite !in_app_iff in I. destruct I as [I|[I|[I|I]]]; auto.
  - cbn in I. destruct I as [<-|[]]. repeat split; discriminate.
  - destruct K as [K|K]; rewrite K in I; cbn in I; repeat (destruct I as [<-|I]; [repeat split; discriminate|]); destruct I.
  - cbn in I. destruct I as [<-|[]]. repeat split; discriminate.
Qed.

Lemma attributes_chars : forall a c, attributes_ok a -> In c (attributes_text a) -> c <> "<"%char /\ c <> ">"%char /\ c <> nl_char.
Proof.
  intros a c [F _] I. unfold attributes_text in I. rewrite in_app_iff in I. destruct I as [I|I].
  - rewrite Forall_forall in F. apply in_concat in I as (x & J & I). apply in_map_iff in J as (b & <- & J). eapply attribute_chars; eauto.
  - apply repeat_spec in I. subst. repeat split; discriminate.
Qed.

Lemma attributes_begin : forall a y, exists c x, attributes_text a ++ y = x /\ (x = y \/ x = c :: tl x /\ c = " "%char).
Proof.
  intros a y. exists " "%char. eexists. split; [reflexivity|]. unfold attributes_text. destruct (given a) as [|b l]; cbn [map concat app].
  - destruct (spaces a); [left|right]; auto.
  - right. auto.
Qed.

(** The tag of a footnote is not the tag of a list. *)
Lemma ref_tag_kind : forall a post, attributes_ok a -> post_ok post ->
  let tag := !"<ref" ++ attributes_text a ++ post ++ !">" in
  is_placeholder_end tag = false /\ is_placeholder_short tag = false /\ is_placeholder_start tag = false.
Proof.
  intros a post A P tag. assert (N : ~ In "<"%char (!"ref" ++ attributes_text a ++ post ++ !">")).
  { rewrite !in_app_iff. intros [I|[I|[I|I]]].
    - revert I. no_lt.
    - apply attributes_chars in I; auto. tauto.
    - destruct P as [->| ->]; cbn in I; intuition discriminate.
    - revert I. no_lt. }
  assert (X : exists c x, attributes_text a ++ post ++ !">" = c :: x /\ In c [" "; "/"; ">"]%char).
  { destruct (attributes_begin a (post ++ !">")) as (c & x & E & [H|[H1 H2]]).
    - rewrite E, H. destruct P as [->| ->]; eexists; eexists; (split; [reflexivity|cbn; auto]).
    - rewrite E. exists c, (tl x). subst c. cbn. auto. }
  destruct X as (c & x & E & I). subst tag. unfold is_placeholder_end, is_placeholder_short, is_placeholder_start.
  change !"</references" with ("<"%char :: !"/references"). change !"<references" with ("<"%char :: !"references").
  change (!"<ref" ++ attributes_text a ++ post ++ !">") with ("<"%char :: (!"ref" ++ attributes_text a ++ post ++ !">")).
  rewrite !match_first by auto. rewrite E. cbn in I. destruct I as [<-|[<-|[<-|[]]]]; cbn [app]; repeat split; reflexivity.
Qed.

Lemma short_true : forall x y, ~ In nl_char x -> short_rest (x ++ !"/>" ++ y) = true.
Proof.
  induction x as [|c x IH]; intros y N; [reflexivity|]. cbn [app short_rest]. match goal with |- context[short_rest ?z] => change z with (x ++ !"/>" ++ y) end.
  rewrite IH by (intros I; apply N; right; auto). assert (Ascii.eqb c nl_char = false) as -> by (apply Ascii.eqb_neq; intros ->; apply N; left; auto).
  cbn. apply orb_true_r.
Qed.

Lemma start_true : forall x, ~ In nl_char x -> start_rest (x ++ !">") = true.
Proof.
  induction x as [|c x IH]; intros N; [reflexivity|]. cbn [app start_rest]. rewrite IH by (intros I; apply N; right; auto).
  assert (Ascii.eqb c nl_char = false) as -> by (apply Ascii.eqb_neq; intros ->; apply N; left; auto). cbn [negb andb]. apply orb_true_r.
Qed.

Lemma short_skip : forall x y, ~ In "/"%char x -> short_rest y = false -> short_rest (x ++ y) = false.
Proof.
  induction x as [|c x IH]; intros y N H; auto. cbn [app short_rest]. rewrite IH; auto; [|intros I; apply N; right; auto].
  assert (Ascii.eqb c "/" = false) as -> by (apply Ascii.eqb_neq; intros ->; apply N; left; auto). rewrite andb_false_r. reflexivity.
Qed.

Lemma close_quoted : forall v y, ~ In ">"%char v -> space_then_close (v ++ dq ++ y) = false.
Proof.
  induction v as [|c v IH]; intros y N; [reflexivity|]. cbn [app space_then_close]. change (v ++ dq_char :: y) with (v ++ dq ++ y). rewrite IH by (intros I; apply N; right; auto).
  assert (Ascii.eqb c ">" = false) as -> by (apply Ascii.eqb_neq; intros ->; apply N; left; auto). rewrite andb_false_r. reflexivity.
Qed.

Lemma short_quoted : forall v y, ~ In ">"%char v -> short_rest y = false -> short_rest (v ++ dq ++ y) = false.
Proof.
  induction v as [|c v IH]; intros y N H; [exact H|]. assert (N' : ~ In ">"%char v) by (intros I; apply N; right; auto). cbn [app short_rest].
  change (v ++ dq_char :: y) with (v ++ dq ++ y). rewrite IH, close_quoted by auto. rewrite !andb_false_r. reflexivity.
Qed.

Lemma short_false : forall a, attributes_ok a -> short_rest (attributes_text a ++ !">") = false.
Proof.
  intros a [F _]. unfold attributes_text. rewrite <- app_assoc. induction F as [|b l B F IH]; cbn [map concat app].
  - apply short_skip; [|reflexivity]. intros I. apply repeat_spec in I. discriminate.
  - rewrite <- app_assoc. destruct B as (K & _ & N & U & _). unfold attribute_text.
    rewrite <- !app_assoc. apply short_skip; [no_lt|]. apply short_skip; [destruct K as [->| ->]; no_lt|]. apply short_skip; [no_lt|]. destruct (attr_quoted b).
    + rewrite <- !app_assoc. apply short_skip; [no_lt|]. apply short_quoted; auto. apply N. cbn. auto.
    + apply short_skip; auto. apply U. auto.
Qed.

Lemma list_tag_chars : forall a x, attributes_ok a -> ~ In "<"%char x -> ~ In "<"%char (!"references" ++ attributes_text a ++ x).
Proof.
  intros a x A N. rewrite !in_app_iff. intros [I|[I|I]]; auto.
  - revert I. no_lt.
  - apply attributes_chars in I; auto. tauto.
Qed.

Lemma short_tag_kind : forall a, attributes_ok a -> is_placeholder_short (!"<references" ++ attributes_text a ++ !"/>") = true.
Proof.
  intros a A. unfold is_placeholder_short. change !"<references" with ("<"%char :: !"references").
  change (("<"%char :: !"references") ++ attributes_text a ++ !"/>") with ("<"%char :: (!"references" ++ attributes_text a ++ !"/>")).
  rewrite match_first by (apply list_tag_chars; auto; no_lt). unfold HasPrefixIgnoreCase.
  change (to_lower ("<"%char :: !"references" ++ attributes_text a ++ !"/>")) with (!"<references" ++ to_lower (attributes_text a ++ !"/>")).
  change (to_lower ("<"%char :: !"references")) with !"<references". rewrite has_prefix_app.
  change (skipn _ _) with (attributes_text a ++ !"/>"). rewrite <- (app_nil_r !"/>"). rewrite short_true; auto. intros I. apply attributes_chars in I; auto. tauto.
Qed.

Lemma start_tag_kind : forall a, attributes_ok a -> let tag := !"<references" ++ attributes_text a ++ !">" in
  is_placeholder_end tag = false /\ is_placeholder_short tag = false /\ is_placeholder_start tag = true.
Proof.
  intros a A tag. subst tag. unfold is_placeholder_end, is_placeholder_short, is_placeholder_start.
  change !"</references" with ("<"%char :: !"/references"). change !"<references" with ("<"%char :: !"references").
  change (("<"%char :: !"references") ++ attributes_text a ++ !">") with ("<"%char :: (!"references" ++ attributes_text a ++ !">")).
  rewrite !match_first by (apply list_tag_chars; auto; no_lt).
  change (skipn (S (length !"references")) _) with (attributes_text a ++ !">"). rewrite short_false, start_true by (auto; intros I; apply attributes_chars in I; auto; tauto).
  rewrite andb_false_r, andb_true_r. unfold HasPrefixIgnoreCase.
  change (to_lower ("<"%char :: !"references" ++ attributes_text a ++ !">")) with (!"<references" ++ to_lower (attributes_text a ++ !">")).
  change (to_lower ("<"%char :: !"references")) with !"<references". rewrite has_prefix_app. auto.
Qed.

(** ** Newlines *)

Definition no_newline_end (s : str) : Prop := ~ ends_with nl_char s.

Lemma drop_newlines_spec : forall s, exists n, s = repeat nl_char n ++ drop_newlines s /\ ~ starts_with nl_char (drop_newlines s) /\ leading_newlines s = n.
Proof.
  induction s as [|c s (n & E & St & L)].
  - exists 0. split; auto. split; auto. intros (x & X). discriminate.
  - cbn [drop_newlines leading_newlines]. destruct (Ascii.eqb_spec c nl_char) as [->|N].
    + exists (S n). cbn [repeat app]. rewrite <- E, L. auto.
    + exists 0. split; auto. split; auto. intros (x & X). injection X as -> _. auto.
Qed.

Lemma repeat_rev : forall (c : ascii) n, rev (repeat c n) = repeat c n.
Proof. intros c n. induction n as [|n IH]; auto. cbn [repeat rev]. rewrite IH, <- repeat_cons. auto. Qed.

Lemma starts_ends : forall c s, starts_with c (rev s) <-> ends_with c s.
Proof.
  intros c s. split.
  - intros (x & E). exists (rev x). rewrite <- (rev_involutive s), E. reflexivity.
  - intros (x & ->). exists (rev x). rewrite rev_app_distr. reflexivity.
Qed.

Lemma trim_newlines_spec : forall s, exists n, s = trim_newlines s ++ repeat nl_char n /\ no_newline_end (trim_newlines s) /\ trailing_newlines s = n.
Proof.
  intros s. destruct (drop_newlines_spec (rev s)) as (n & E & S & L). exists n. unfold trim_newlines. split; [|split; auto].
  - rewrite <- (rev_involutive s) at 1. rewrite E at 1. rewrite rev_app_distr, repeat_rev. auto.
  - intros X. apply starts_ends in X. rewrite rev_involutive in X. auto.
Qed.

Lemma trailing_app : forall o f, no_newline_end o -> trailing_newlines (o ++ f) = trailing_newlines f.
Proof.
  intros o f N. unfold trailing_newlines. rewrite rev_app_distr. induction (rev f) as [|c x IH]; cbn [app leading_newlines].
  - destruct (rev o) as [|c x] eqn:E; auto. cbn [leading_newlines]. destruct (Ascii.eqb_spec c nl_char) as [->|]; auto.
    exfalso. apply N. apply starts_ends. rewrite E. exists x. auto.
  - rewrite IH. auto.
Qed.

Lemma trailing_le : forall o f, trailing_newlines (o ++ f) <= trailing_newlines o + length f.
Proof.
  intros o f. unfold trailing_newlines. rewrite rev_app_distr, <- (rev_length f). induction (rev f) as [|c x IH]; cbn [app leading_newlines length]; [lia|].
  destruct (Ascii.eqb c nl_char); lia.
Qed.

Lemma trim_newlines_fix : forall s n, no_newline_end s -> trim_newlines (s ++ repeat nl_char n) = s.
Proof.
  intros s n N. unfold trim_newlines. rewrite rev_app_distr, repeat_rev. induction n as [|n IH]; cbn [repeat app drop_newlines].
  - destruct (rev s) as [|c x] eqn:E; cbn [drop_newlines].
    + rewrite <- (rev_involutive s), E. auto.
    + destruct (Ascii.eqb_spec c nl_char) as [->|].
      * exfalso. apply N. apply starts_ends. rewrite E. exists x. auto.
      * rewrite <- E. apply rev_involutive.
  - rewrite Ascii.eqb_refl. auto.
Qed.

Lemma trim_keys : forall s keys, no_newline_end s -> Forall (fun k => exists x, k = x ++ ["$"%char]) keys ->
  trim_newlines (s ++ nl ++ concat (map (fun k => k ++ nl) keys)) = s ++ concat (map (app nl) keys) /\ no_newline_end (s ++ concat (map (app nl) keys)).
Proof.
  intros s keys N F. assert (E : nl ++ concat (map (fun k => k ++ nl) keys) = concat (map (app nl) keys) ++ repeat nl_char 1).
  { clear F. induction keys as [|k keys IH]; [reflexivity|]. cbn [map concat]. rewrite <- app_assoc, IH, <- !app_assoc. reflexivity. }
  assert (X : no_newline_end (s ++ concat (map (app nl) keys))).
  { destruct (list_eq_dec (list_eq_dec Ascii.ascii_dec) keys []) as [->|Ne]; [cbn; rewrite app_nil_r; auto|].
    destruct (exists_last Ne) as (ks & k & ->). rewrite Forall_app in F. destruct F as [_ F]. inversion F as [|? ? (x & ->) _]; subst. rewrite map_app, concat_app. cbn [map concat].
    rewrite app_nil_r, !app_assoc. intros (y & Y). apply app_inj_tail in Y as [_ Y]. discriminate. }
  split; auto. rewrite E, app_assoc. apply trim_newlines_fix. auto.
Qed.
