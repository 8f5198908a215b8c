(** * Parsing a calm text does not crash *)

From Coq Require Import Ascii String.
From Coq Require Import List Arith NArith ZArith Bool Lia.
From Verif Require Import GoStr GoStrFacts TextFacts TrimFacts UtilModel ConfigModel LinkProofs SafeSpec SafeTextProofs.
From Verif Require Import TokenModel FormattingModel ParagraphModel HeadingModel LinkModel ImageModel ListModel TableModel ReferenceModel TokenizerModel.
Import ListNotations.
Local Open Scope list_scope.

(** No crash and no error; the result satisfies [Q] *)
Definition safe {A} (m : M A) (Q : A -> Prop) : Prop :=
  forall t, match m t with Ok (a, _) => Q a | OutOfFuel => True | Panic => False | Err => False end.

Lemma safe_ret : forall A (a : A) (Q : A -> Prop), Q a -> safe (ret a) Q.
Proof. intros A a Q H t. exact H. Qed.

Lemma safe_fuel : forall A Q, safe (@out_of_fuel A) Q.
Proof. intros A Q t. exact I. Qed.

Lemma safe_bind : forall A C (m : M A) (f : A -> M C) P Q, safe m P -> (forall a, P a -> safe (f a) Q) -> safe (bindM m f) Q.
Proof. intros A C m f P Q H F t. unfold bindM. specialize (H t). destruct (m t) as [[a t']| | |]; auto. apply F. auto. Qed.

Lemma safe_weaken : forall A (m : M A) (P Q : A -> Prop), (forall a, P a -> Q a) -> safe m P -> safe m Q.
Proof. intros A m P Q W H t. specialize (H t). destruct (m t) as [[a t']| | |]; auto. Qed.

Lemma safe_setRawToken : forall k v, safe (setRawToken k v) (fun _ => True).
Proof. intros k v t. exact I. Qed.

Lemma safe_mapM : forall A C (f : A -> M C) (P : A -> Prop) (Q : C -> Prop) l, (forall a, P a -> safe (f a) Q) -> Forall P l -> safe (mapM f l) (Forall Q).
Proof.
  intros A C f P Q l F H. induction H as [|a l Pa L IH]; cbn [mapM]; [apply safe_ret, Forall_nil|]. eapply safe_bind; [apply F; auto|]. intros c Qc.
  eapply safe_bind; [exact IH|]. intros cs Qs. apply safe_ret. apply Forall_cons; auto.
Qed.

Definition tame (ty : str) : bool := forallb (fun c => negb (existsb (Ascii.eqb c) !"<[{=")) ty.

Lemma tame_In : forall ty c, tame ty = true -> In c ty -> ~ In c !"<[{=".
Proof.
  intros ty c T I J. unfold tame in T. rewrite forallb_forall in T. specialize (T c I). apply negb_true_iff in T.
  assert (E : existsb (Ascii.eqb c) !"<[{=" = true) by (apply existsb_exists; exists c; split; auto; apply Ascii.eqb_refl). congruence.
Qed.

Lemma digit_tame : forall c, is_digit c = true -> ~ In c !"<[{=".
Proof. intros c D J. cbn in J. repeat (destruct J as [<-|J]; [discriminate D|]). exact J. Qed.

Lemma mark_key : forall ty n, tame ty = true -> mark (token_key ty n).
Proof.
  intros ty n T. exists (!"$TOKEN_" ++ ty ++ !"_" ++ itoa n ++ !"$"). split.
  - unfold token_key. cbn [app list_ascii_of_string]. rewrite <- !app_assoc. cbn [app]. rewrite <- !app_assoc. auto.
  - intros c I. repeat (apply in_app_or in I; destruct I as [I|I]).
    + apply (tame_In !"$TOKEN_"); auto.
    + apply (tame_In ty); auto.
    + apply (tame_In !"_"); auto.
    + apply digit_tame. pose proof (itoa_digits n) as D. rewrite Forall_forall in D. auto.
    + apply (tame_In !"$"); auto.
Qed.

Lemma safe_getToken : forall ty, tame ty = true -> safe (getToken ty) mark.
Proof. intros ty T t. apply mark_key. auto. Qed.

Lemma mark_const : forall m, tame m = true -> mark ("$"%char :: m ++ ["$"%char]).
Proof. intros m T. exists m. split; auto. intros c I. eapply tame_In; eauto. Qed.

Lemma mark_of : forall ty, mark (marker_of ty).
Proof.
  intros []; [apply (mark_const !"$MARKER_BOLD_OPEN$")|apply (mark_const !"$MARKER_BOLD_CLOSE$")|apply (mark_const !"$MARKER_ITALIC_OPEN$")|
    apply (mark_const !"$MARKER_ITALIC_CLOSE$")]; reflexivity.
Qed.

Lemma mark_paragraph : mark MARKER_PARAGRAPH.
Proof. apply (mark_const !"$MARKER_PARAGRAPH$"). reflexivity. Qed.

Section Config.
Variable cfg : configuration.
Hypothesis words : prefixes_are_words cfg.
Notation calm := (calm cfg).

Lemma calm_no_prefix : forall w s n, In w openings -> calm s -> EqualsIgnoreCase (firstn n s) w = false.
Proof.
  intros w s n I H. destruct (EqualsIgnoreCase _ _) eqn:E; auto. exfalso. apply str_eqb_eq in E.
  assert (L : to_lower w = w) by (cbn [openings In] in I; repeat (destruct I as [<-|I]; [reflexivity|]); destruct I). rewrite L in E.
  rewrite <- (firstn_skipn n s) in H. exact (calm_no_word cfg words w (firstn n s) [] (skipn n s) I E H).
Qed.

Lemma lower_app : forall x a b, to_lower x = a ++ b -> exists y z, x = y ++ z /\ to_lower y = a /\ to_lower z = b.
Proof. intros x a b E. unfold to_lower in *. apply map_eq_app in E. destruct E as (y & z & -> & <- & <-). eauto. Qed.

Lemma calm_no_prefix2 : forall w v s, In w openings -> calm s -> HasPrefixIgnoreCase s (w ++ v) = false.
Proof.
  intros w v s I H. destruct (HasPrefixIgnoreCase _ _) eqn:E; auto. exfalso. unfold HasPrefixIgnoreCase in E. apply has_prefix_spec in E. destruct E as (x & E).
  assert (L : to_lower w = w) by (cbn [openings In] in I; repeat (destruct I as [<-|I]; [reflexivity|]); destruct I).
  replace (to_lower (w ++ v)) with (w ++ to_lower v) in E by (unfold to_lower in *; rewrite map_app; f_equal; auto).
  rewrite <- app_assoc in E. apply lower_app in E. destruct E as (y & z & -> & E & _).
  exact (calm_no_word cfg words w y [] z I E H).
Qed.

(** Passes that do nothing *)
Lemma parseNowiki_safe : forall s, calm s -> safe (parseNowiki s) calm.
Proof.
  intros s H. apply safe_weaken with (fun r => r = s); [intros a ->; auto|]. unfold parseNowiki. induction s as [|c s IH]; cbn [parseNowiki_go]; [apply safe_ret; auto|].
  rewrite (calm_no_prefix nowikiStart (c :: s) _) by (auto; cbn; auto). rewrite andb_false_r.
  eapply safe_bind; [apply IH; apply (calm_suffix cfg [c]); auto|]. intros r ->. apply safe_ret. auto.
Qed.

Lemma no_tag_calm : forall s, calm s -> next_tag s = None.
Proof.
  induction s as [|c s IH]; intros H; auto. cbn [next_tag]. unfold at_reference_tag.
  rewrite (calm_no_prefix !"<ref" (c :: s) 4), (calm_no_prefix !"</re" (c :: s) 4) by (auto; cbn; auto 7). rewrite andb_false_r.
  rewrite IH by (apply (calm_suffix cfg [c]); auto). auto.
Qed.

Lemma parseReferences_safe : forall f s, calm s -> safe (parseReferences f s) calm.
Proof.
  intros f s H. unfold parseReferences. destruct (length _); cbn [parseReferences_go]; rewrite skipn_O, no_tag_calm by auto; apply safe_ret; auto.
Qed.

Definition unlinked (s : str) : Prop := index !"[[" s = None.

Lemma unlinked_suffix : forall a b, unlinked (a ++ b) -> unlinked b.
Proof. intros a b H. unfold unlinked in *. rewrite index_none in *. intros x y ->. apply (H (a ++ x) y). rewrite <- app_assoc. auto. Qed.

Lemma unlinked_prefix : forall a b, unlinked (a ++ b) -> unlinked a.
Proof. intros a b H. unfold unlinked in *. rewrite index_none in *. intros x y ->. apply (H x (y ++ b)). rewrite <- !app_assoc. auto. Qed.

Lemma unlinked_glue : forall a c b, c <> "["%char -> unlinked a -> unlinked b -> unlinked (a ++ c :: b).
Proof.
  intros a c b N A B. unfold unlinked in *. rewrite index_none in *. intros x y E. apply two_brackets in E; auto.
  destruct E as [(z & -> & _)|(z & ->)]; [apply (A x z)|apply (B z y)]; auto.
Qed.

Lemma unlinked_mark : forall a k b, mark k -> unlinked a -> unlinked b -> unlinked (a ++ k ++ b).
Proof.
  intros a k b (m & -> & M) A B. cbn [app]. rewrite <- app_assoc. cbn [app]. apply unlinked_glue; [discriminate|auto|]. apply unlinked_glue; [discriminate| |auto].
  unfold unlinked. rewrite index_none. intros x y E. apply (M "["%char); [|cbn; auto]. rewrite E. apply in_or_app. right. left. auto.
Qed.

Lemma unlinked_join : forall l, Forall unlinked l -> unlinked (join nl l).
Proof.
  induction l as [|x l IH]; intros H; [reflexivity|]. pose proof (Forall_inv H) as X. pose proof (Forall_inv_tail H) as L. specialize (IH L).
  destruct l as [|y l]; [exact X|]. rewrite join_cons by discriminate. apply unlinked_glue; auto. discriminate.
Qed.

Lemma unlinked_split : forall s, unlinked s -> Forall unlinked (split nl s).
Proof.
  intros s. pattern s. apply (split_ind_len nl); [discriminate| |].
  - intros t E H. rewrite split_none; auto.
  - intros a b E IH H. rewrite split_first by (auto; discriminate). apply Forall_cons; [eapply unlinked_prefix; eauto|].
    apply IH. rewrite app_assoc in H. eapply unlinked_suffix; eauto.
Qed.

Lemma Forall_both : forall A (P Q : A -> Prop) l, Forall P l -> Forall Q l -> Forall (fun x => P x /\ Q x) l.
Proof. intros A P Q l. induction l; intros H1 H2; [apply Forall_nil|]. apply Forall_cons; [split; [exact (Forall_inv H1)|exact (Forall_inv H2)]|]. apply IHl; [exact (Forall_inv_tail H1)|exact (Forall_inv_tail H2)]. Qed.

Lemma lines_calm : forall s, calm s -> Forall calm (split nl s).
Proof. intros s H. apply calm_split; auto using cutting_nl. Qed.

Definition settled (s : str) : Prop := calm s /\ unlinked s.

Lemma settled_lines : forall s, settled s -> Forall settled (split nl s).
Proof. intros s [C U]. apply Forall_both; [apply lines_calm|apply unlinked_split]; auto. Qed.

Lemma settled_join : forall l, Forall settled l -> settled (join nl l).
Proof.
  intros l H. split; [apply calm_join|apply unlinked_join]; auto; eapply Forall_impl; [|exact H| |exact H]; intros a [A B]; auto.
Qed.

Lemma parseGalleries_safe : forall s, settled s -> safe (parseGalleries cfg s) settled.
Proof.
  intros s H. unfold parseGalleries. eapply safe_bind; [|intros l L; apply safe_ret; apply settled_join; exact L].
  apply settled_lines in H. induction H as [|line lines L LS IH]; cbn [parseGalleries_go]; [apply safe_ret, Forall_nil|].
  assert (T : calm (trim_space line)) by (apply calm_trim; auto; apply L).
  change !"</gallery>" with (!"</gallery" ++ !">"). rewrite (calm_no_prefix2 !"</gallery" !">") by (auto; cbn; auto 8).
  unfold remove_start_tag. rewrite <- (app_nil_r !"<gallery"). rewrite (calm_no_prefix2 !"<gallery" []) by (auto; cbn; auto 8).
  eapply safe_bind; [exact IH|]. intros r R. apply safe_ret. apply Forall_cons; auto.
Qed.

Lemma parseImageMaps_safe : forall s, settled s -> safe (parseImageMaps cfg s) settled.
Proof.
  intros s H. unfold parseImageMaps. eapply safe_bind; [|intros l L; apply safe_ret; apply settled_join; exact L].
  apply settled_lines in H. induction H as [|line lines L LS IH]; cbn [parseImageMaps_go]; [apply safe_ret, Forall_nil|].
  cbn [orb andb]. destruct (EqualsIgnoreCase line _); [exact IH|].
  unfold remove_start_tag. rewrite <- (app_nil_r !"<imagemap"). rewrite (calm_no_prefix2 !"<imagemap" []) by (solve [cbn; auto 8 | apply L]).
  eapply safe_bind; [exact IH|]. intros r R. apply safe_ret. apply Forall_cons; auto.
Qed.

Lemma no_link_start : forall s, unlinked s -> find_link_start s = None.
Proof.
  induction s as [|c s IH]; intros H; auto. cbn [find_link_start]. unfold link_start_match.
  assert (P : has_prefix !"[[" (c :: s) = false) by (apply index_none_prefix; auto). rewrite P, IH; auto. apply (unlinked_suffix [c]); auto.
Qed.

Lemma parseImages_safe : forall f s, settled s -> safe (parseImages cfg f s) calm.
Proof. intros f s [C U]. unfold parseImages. cbn [parseImages_go]. rewrite no_link_start by auto. apply safe_ret. auto. Qed.

Lemma no_table_start : forall s, calm s -> table_start s = None.
Proof.
  induction s as [|c s IH]; intros H; auto. cbn [table_start]. destruct (Ascii.eqb c ":"); [rewrite IH; auto; apply (calm_suffix cfg [c]); auto|].
  destruct (has_prefix !"{|" (c :: s)) eqn:E; auto. exfalso. apply has_prefix_spec in E. destruct E as (t & E). rewrite E in H.
  apply (calm_no_word cfg words !"{|" !"{|" [] t); auto; cbn; auto.
Qed.

Lemma parseTables_safe : forall f s, calm s -> safe (parseTables f s) calm.
Proof.
  intros f s H. unfold parseTables. eapply safe_bind; [|intros l L; apply safe_ret; apply calm_join; [auto|exact L]].
  apply lines_calm in H. induction H as [|line lines L LS IH]; cbn [length parseTables_go]; [apply safe_ret, Forall_nil|].
  rewrite no_table_start by (apply calm_trim; auto). eapply safe_bind; [exact IH|]. intros r R. apply safe_ret. apply Forall_cons; auto.
Qed.

(** Bold and italic text *)
Lemma insert_calm : forall stack s offset i, calm s -> calm (fst (insert_markers stack s offset i)).
Proof.
  induction stack as [|item stack IH]; intros s offset i H; cbn [insert_markers]; [exact H|]. apply IH. rewrite <- app_assoc.
  apply calm_pieces; auto using mark_of. lia.
Qed.

Lemma formatting_safe : forall fuel s i, calm s ->
  match parseBoldAndItalic_go fuel s i with Ok r => calm r | OutOfFuel => True | Panic => False | Err => False end.
Proof.
  induction fuel as [|fuel IH]; intros s i H; cbn [parseBoldAndItalic_go]; auto. destruct (index _ _); auto.
  match goal with |- context [match ?x with Some _ => _ | None => Ok s end] => destruct x as [stack|]; auto end.
  match goal with |- context [insert_markers ?a ?b ?c ?d] => pose proof (insert_calm a b c d H) as K; destruct (insert_markers a b c d) as [s' i'] end.
  apply IH. exact K.
Qed.

Lemma parseBoldAndItalic_safe : forall s, calm s -> safe (lift (parseBoldAndItalic s)) calm.
Proof.
  intros s H t. unfold lift, parseBoldAndItalic. pose proof (formatting_safe (S (length s)) s 0 H) as K. destruct (parseBoldAndItalic_go _ _ _); auto.
Qed.

(** Formulas *)
Lemma parseMath_safe : forall s, calm s -> safe (parseMath s) calm.
Proof.
  intros s. unfold parseMath. generalize (math_matches s 0). intros l. revert s. induction l as [|[m g] l IH]; intros s H; cbn [parseMath_go]; [apply safe_ret; auto|].
  eapply safe_bind; [apply safe_getToken; reflexivity|]. intros k K. eapply safe_bind; [apply safe_setRawToken|]. intros _ _. apply IH.
  unfold replace_first. destruct (index m s) as [i|] eqn:E; auto. apply calm_pieces; auto. lia.
Qed.

(** Paragraphs *)
Lemma parseParagraphs_calm : forall s, calm s -> calm (parseParagraphs s).
Proof.
  intros s H. unfold parseParagraphs. apply calm_join; auto. apply lines_calm in H. generalize (@nil ascii), true, false.
  induction H as [|line lines L LS IH]; intros before b1 b2; cbn [parseParagraphs_go]; [apply Forall_nil|].
  destruct (is_token_line line); [apply Forall_cons; auto|]. destruct b1.
  - destruct (negb _); auto. apply Forall_app. split; [|apply Forall_cons; auto]. destruct b2; auto. apply Forall_cons; auto.
    apply calm_mark_alone; auto using mark_paragraph.
  - destruct (_ && _); auto.
Qed.

Section Recursive.
Variable f : str -> M str.
Hypothesis rec : forall s, calm s -> safe (f s) calm.

(** Headings *)
Lemma parseHeadings_safe : forall s, calm s -> safe (parseHeadings f s) calm.
Proof.
  intros s H. unfold parseHeadings. eapply safe_bind; [|intros l L; apply safe_ret; apply calm_join; [auto|exact L]].
  apply lines_calm in H. revert H. generalize (split nl s), 7. intros l n. revert l. induction n as [|n IH]; intros l H; cbn [parseHeadings_go]; [apply safe_ret; auto|].
  eapply safe_bind; [|intros l'; apply IH]. eapply safe_mapM; [|exact H]. intros line L. unfold parseHeadingLine. destruct (_ && _); [|apply safe_ret; auto].
  eapply safe_bind; [apply safe_getToken; reflexivity|]. intros k K. eapply safe_bind.
  - apply rec. apply calm_trim; auto. eapply calm_essence; [apply essence_replaced|]. apply calm_trim; auto.
  - intros x _. eapply safe_bind; [apply safe_setRawToken|]. intros _ _. apply safe_ret. apply calm_mark_alone; auto.
Qed.

(** Links *)
Definition parts (op : str) (items : list str) : str := concat (map (app op) items).

Lemma split_items : forall op s, op <> [] -> exists first items, split op s = first :: items /\ s = first ++ parts op items.
Proof.
  intros op s N. pattern s. apply (split_ind_len op); auto.
  - intros t E. exists t, []. rewrite split_none by auto. unfold parts. cbn [map concat]. rewrite app_nil_r. auto.
  - intros a b E (first & items & S & B). exists a, (first :: items). rewrite split_first by auto. rewrite S. split; auto.
    unfold parts. cbn [map concat]. fold (parts op items). rewrite B at 1. rewrite <- !app_assoc. reflexivity.
Qed.

Lemma item_calm : forall op items item, cutting op -> calm (item ++ parts op items) -> calm item.
Proof.
  intros op [|x items] item C H; [cbn in H; rewrite app_nil_r in H; auto|]. unfold parts in H. cbn [map concat] in H. rewrite <- app_assoc in H. eapply calm_before; eauto.
Qed.

Lemma target_starts : forall s, calm (!"[[" ++ s) -> exists c s', s = c :: s' /\ (c = "="%char \/ starts_target (lower_char c)).
Proof.
  intros s [_ L]. specialize (L [] (essence s)). rewrite essence_app in L. specialize (L eq_refl). destruct L as (c & b & E & S).
  destruct s as [|d s]; [discriminate|]. exists d, s. split; auto. destruct (Ascii.ascii_dec d "="); auto. right. rewrite essence_cons in E by auto. congruence.
Qed.

Lemma target_solid : forall c, c = "="%char \/ starts_target (lower_char c) -> solid c = true.
Proof.
  intros c [->|[H _]]; [reflexivity|]. destruct c as [[] [] [] [] [] [] [] []]; try reflexivity; exfalso; vm_compute in H;
    destruct H as [[H1 H2]|[H1 H2]]; congruence.
Qed.

Lemma target_other : forall c d, c = "="%char \/ starts_target (lower_char c) -> In d !"[]|#:" -> c <> d.
Proof.
  intros c d [->|[_ H]] I.
  - intros <-. cbn in I. intuition discriminate.
  - intros ->. apply H. cbn in I. destruct I as [<-|[<-|[<-|[<-|[<-|[]]]]]]; cbn; auto 7.
Qed.

Lemma split_head : forall d q c s, c <> d -> exists s', hd [] (split (d :: q) (c :: s)) = c :: s'.
Proof. intros d q c s N. rewrite split_cons by (apply has_prefix_neq; congruence). destruct (split (d :: q) s); eexists; cbn; eauto. Qed.

Lemma split2_head : forall d q c s, c <> d -> exists s', hd [] (split2 (d :: q) (c :: s)) = c :: s'.
Proof.
  intros d q c s N. destruct (split2_parts (d :: q) (c :: s)) as [->|(a & b & E & ->)]; cbn [hd]; eauto. destruct a as [|x a]; cbn [app] in E; [congruence|].
  injection E as <- E. eauto.
Qed.

Lemma target_nonempty : forall s, calm (!"[[" ++ s) -> exists c t, link_target !"|" (hd [] (split !"]]" s)) true = c :: t.
Proof.
  intros s H. destruct (target_starts s H) as (c & s' & -> & C). unfold link_target.
  destruct (split_head "]" !"]" c s') as (s1 & E1); [apply target_other; cbn; auto|]. change !"]]" with ("]"%char :: !"]"). rewrite E1.
  destruct (split_head "|" [] c s1) as (s2 & E2); [apply target_other; cbn; auto|]. change !"|" with ["|"%char]. rewrite E2.
  destruct (split2_head "#" [] c s2) as (s3 & E3); [apply target_other; cbn; auto 6|]. change !"#" with ["#"%char]. rewrite E3.
  destruct (trim_space (c :: s3)) as [|x y] eqn:T; eauto. exfalso. apply trim_space_blank in T.
  destruct (blank_has_prefix _ T) as (p & P & Q); [discriminate|]. rewrite (solid_first c s3 p) in Q; [discriminate|apply target_solid; auto|auto].
Qed.

Lemma not_file : forall s, calm (!"[[" ++ s) -> is_file cfg s = false.
Proof.
  intros s [W _]. unfold is_file. destruct (contains !":" s) eqn:K; auto. cbn [andb].
  destruct (split2_parts !":" s) as [E|(a & b & -> & ->)].
  - unfold split2 in E. destruct (index !":" s) as [i|] eqn:J; [discriminate|]. apply contains_false_index in J. congruence.
  - apply mem_str_not_In. intros I. apply (W (!"[[" ++ to_lower a ++ !":")).
    + apply in_or_app. right. unfold file_links. apply in_map_iff. exists (to_lower a). auto.
    + assert (E : essence a = to_lower a).
      { apply essence_lower. intros J. apply (words (to_lower a) "="%char I); [|cbn; auto]. apply (in_map lower_char) in J. exact J. }
      exists [], (essence b). rewrite !essence_app, E. cbn [app]. rewrite <- !app_assoc. reflexivity.
Qed.

Lemma link_token_safe : forall ty target text, calm text ->
  safe (link_token f ty target text) (fun r => match r with Some (_, k) => tame k = true | None => ty = LINK_TYPE_EXTERNAL end).
Proof.
  intros ty target text H. unfold link_token. destruct ty; [|destruct (HasAnyPrefix _ _); [|destruct (contains _ _); [|apply safe_ret; auto]]].
  all: eapply safe_bind; [apply rec; auto|]; intros x _; apply safe_ret; reflexivity.
Qed.

Lemma token_stored : forall k v, tame k = true ->
  safe (do! tokenKey := getToken k in do! _ := setRawToken tokenKey v in ret tokenKey) mark.
Proof. intros k v T. eapply safe_bind; [apply safe_getToken; auto|]. intros key K. eapply safe_bind; [apply safe_setRawToken|]. intros _ _. apply safe_ret. auto. Qed.

Lemma internal_item : forall item, calm (!"[[" ++ item) -> calm item ->
  safe (parseLinkItem cfg f !"[[" !"]]" !"|" LINK_TYPE_INTERNAL false true item)
    (fun r => exists k x rest, mark k /\ item = x ++ rest /\ r = k ++ rest).
Proof.
  intros item H C. unfold parseLinkItem. rewrite not_file by auto. rewrite andb_false_r.
  apply safe_bind with calm.
  - assert (P : calm (hd [] (split !"]]" item))) by (apply calm_hd; auto; apply calm_split; auto; apply cutting_close).
    destruct (_ =? 1).
    + destruct (target_nonempty item H) as (c & t & E). rewrite E. apply safe_ret.
      assert (T : calm (c :: t)).
      { rewrite <- E. unfold link_target. apply calm_trim; auto. apply calm_hd; auto. apply calm_split2; [apply cutting_hash|].
        apply calm_hd; auto. apply calm_split; [apply cutting_pipe|]. auto. }
      destruct (Ascii.eqb c ":"); auto. apply calm_last; auto. apply calm_split; [apply cutting_colon|]. auto.
    + apply safe_ret. apply calm_rest; auto. discriminate.
  - intros text T. eapply safe_bind; [apply link_token_safe; auto|]. intros [[v k]|] K; [|discriminate].
    eapply safe_bind; [apply token_stored; exact K|]. intros key M. apply safe_ret.
    destruct (split_parts !"]]" item) as [[E _]|(a & b & E1 & E2)]; [discriminate| |].
    + rewrite E. cbn [tl join]. exists key, item, []. rewrite !app_nil_r. auto.
    + rewrite E2. cbn [tl]. rewrite join_split by discriminate. exists key, (a ++ !"]]"), b. rewrite <- app_assoc. auto.
Qed.

Lemma calm_item_of : forall done op item items, calm (done ++ parts op (item :: items)) -> calm (op ++ item ++ parts op items) /\ calm (item ++ parts op items).
Proof.
  intros done op item items H. apply calm_suffix in H. unfold parts in H. cbn [map concat] in H. fold (parts op items) in H. rewrite <- app_assoc in H.
  split; [exact H|]. eapply calm_suffix; exact H.
Qed.

Lemma internal_items : forall items done, calm (done ++ parts !"[[" items) -> unlinked done -> Forall unlinked items ->
  safe (mapM (parseLinkItem cfg f !"[[" !"]]" !"|" LINK_TYPE_INTERNAL false true) items) (fun rs => settled (done ++ concat rs)).
Proof.
  induction items as [|item items IH]; intros done H U UI; cbn [mapM]; [apply safe_ret; split; cbn [concat]; [exact H|rewrite app_nil_r; auto]|].
  destruct (calm_item_of _ _ _ _ H) as [H1 H2].
  assert (C : calm item) by (eapply item_calm; [|exact H2]; apply cutting_open).
  assert (C' : calm (!"[[" ++ item)) by (eapply item_calm; [|rewrite <- app_assoc; exact H1]; apply cutting_open).
  eapply safe_bind; [apply internal_item; auto|]. intros r (k & x & rest & K & E & R).
  eapply safe_bind; [apply (IH (done ++ r))|].
  - rewrite R, <- app_assoc, <- app_assoc. apply calm_replaced with (!"[[" ++ x); auto. unfold parts in H. cbn [map concat] in H. rewrite E in H.
    rewrite <- !app_assoc in *. exact H.
  - rewrite R. pose proof (Forall_inv UI) as V. rewrite E in V. apply unlinked_suffix in V. apply unlinked_mark; auto.
  - exact (Forall_inv_tail UI).
  - intros rs S. apply safe_ret. cbn [concat]. rewrite app_assoc. exact S.
Qed.

Lemma parseInternalLinks_safe : forall s, calm s -> safe (parseInternalLinks cfg f s) settled.
Proof.
  intros s H. unfold parseInternalLinks, parseLink. destruct (split_items !"[[" s) as (first & items & S & E); [discriminate|]. rewrite S.
  pose proof (split_pieces !"[[" s) as P. rewrite S in P. assert (N : !"[[" <> []) by discriminate. specialize (P N).
  eapply safe_bind; [apply (internal_items items first)|intros rs R; apply safe_ret; exact R].
  - rewrite <- E. auto.
  - exact (Forall_inv P).
  - exact (Forall_inv_tail P).
Qed.

Lemma external_item : forall item, calm item ->
  safe (parseLinkItem cfg f !"[" !"]" !" " LINK_TYPE_EXTERNAL true false item)
    (fun r => r = !"[" ++ item \/ r = (!"[" ++ item) ++ !"]" \/ exists k x rest, mark k /\ item = x ++ rest /\ r = k ++ rest).
Proof.
  intros item C. unfold parseLinkItem. destruct (is_file cfg item); [apply safe_ret; auto|]. rewrite andb_true_r.
  destruct (_ =? 1) eqn:L; [apply safe_ret; auto|]. apply safe_bind with calm.
  - apply safe_ret. apply calm_rest; [auto|discriminate|]. apply calm_hd; auto. apply calm_split; [apply cutting_close|auto].
  - intros text T. eapply safe_bind; [apply link_token_safe; auto|]. intros token K.
    assert (S : (split !"]" item = [item]) \/ exists a b, item = a ++ !"]" ++ b /\ split !"]" item = a :: split !"]" b).
    { destruct (split_parts !"]" item) as [[E _]|E]; auto. discriminate. }
    destruct token as [[v k]|].
    + eapply safe_bind; [apply token_stored; exact K|]. intros key M. apply safe_ret. right. right.
      destruct S as [S|(a & b & E1 & E2)].
      * rewrite S. cbn [tl join]. exists key, item, []. rewrite !app_nil_r. auto.
      * rewrite E2. cbn [tl]. rewrite join_split by discriminate. exists key, (a ++ !"]"), b. rewrite <- app_assoc. auto.
    + apply safe_bind with (fun r => r = !"[" ++ hd [] (split !"]" item) ++ !"]"); [apply safe_ret; auto|]. intros r ->. apply safe_ret.
      destruct S as [S|(a & b & E1 & E2)].
      * rewrite S. cbn [tl join hd]. right. left. rewrite app_nil_r, <- app_assoc. auto.
      * rewrite E2. cbn [tl hd]. rewrite join_split by discriminate. left. rewrite <- !app_assoc. rewrite <- E1. auto.
Qed.

Lemma calm_bracket : forall a b, cutting !"[" -> calm (a ++ parts !"[" b) -> calm (a ++ !"]" ++ parts !"[" b).
Proof.
  intros a b C H. change (calm (a ++ "]"%char :: parts !"[" b)). apply calm_glue; auto; [cbn; auto| |eapply calm_suffix; eauto].
  eapply item_calm; eauto.
Qed.

Lemma external_items : forall items done, calm (done ++ parts !"[" items) ->
  safe (mapM (parseLinkItem cfg f !"[" !"]" !" " LINK_TYPE_EXTERNAL true false) items) (fun rs => calm (done ++ concat rs)).
Proof.
  induction items as [|item items IH]; intros done H; cbn [mapM]; [apply safe_ret; exact H|].
  destruct (calm_item_of _ _ _ _ H) as [H1 H2].
  assert (C : calm item) by (eapply item_calm; [|exact H2]; apply cutting_open).
  eapply safe_bind; [apply external_item; auto|]. intros r R. unfold parts in H. cbn [map concat] in H. fold (parts !"[" items) in H.
  eapply safe_bind; [apply (IH (done ++ r))|].
  - destruct R as [->|[->|(k & x & rest & K & E & ->)]].
    + rewrite <- app_assoc. exact H.
    + rewrite app_assoc, <- app_assoc. apply calm_bracket; [apply cutting_open|]. rewrite <- app_assoc. exact H.
    + rewrite <- !app_assoc. apply calm_replaced with (!"[" ++ x); auto. rewrite E in H. rewrite <- !app_assoc in *. exact H.
  - intros rs S. apply safe_ret. cbn [concat]. rewrite app_assoc. exact S.
Qed.

Lemma parseExternalLinks_safe : forall s, calm s -> safe (parseExternalLinks cfg f s) calm.
Proof.
  intros s H. unfold parseExternalLinks, parseLink. destruct (split_items !"[" s) as (first & items & S & E); [discriminate|]. rewrite S.
  eapply safe_bind; [apply (external_items items first)|intros rs R; apply safe_ret; exact R]. rewrite <- E. auto.
Qed.

(** Lists *)
Lemma calm_tl : forall s, calm s -> calm (tl s).
Proof. intros [|c s] H; auto. apply (calm_suffix cfg [c]); auto. Qed.

Lemma lineItems_safe : forall c text, calm text -> safe (lineItems f c text) (fun _ => True).
Proof.
  intros c text H. unfold lineItems. destruct (Ascii.eqb c ";").
  - destruct (split2_parts !":" text) as [E|(a & b & E1 & E2)].
    + rewrite E. eapply safe_bind; [apply rec; auto|]. intros; apply safe_ret; auto.
    + rewrite E2. rewrite E1 in H. eapply safe_bind; [apply rec; eapply calm_before; [apply cutting_colon|exact H]|]. intros x _.
      eapply safe_bind; [apply rec; rewrite app_assoc in H; eapply calm_suffix; exact H|]. intros; apply safe_ret; auto.
  - destruct (Ascii.eqb c ":"); (eapply safe_bind; [apply rec; auto|]; intros; apply safe_ret; auto).
Qed.

Lemma take_while_Forall : forall g (P : str -> Prop) l, Forall P l -> Forall P (take_while g l).
Proof. intros g P l H. induction H; cbn [take_while]; [apply Forall_nil|]. destruct (g x); [apply Forall_cons; auto|apply Forall_nil]. Qed.

Lemma listItems_safe : forall sub p, (forall l c, Forall calm l -> safe (sub l c) (fun _ => True)) ->
  forall lines k items, Forall calm lines -> safe (listItems f sub p lines k items) (fun _ => True).
Proof.
  intros sub p S lines. induction lines as [|line lines IH]; intros k items H; cbn [listItems]; [apply safe_ret; auto|].
  pose proof (Forall_inv H) as L. pose proof (Forall_inv_tail H) as LS. destruct k; auto. destruct line as [|c text]; auto.
  assert (T : calm text) by (apply (calm_tl (c :: text)); auto).
  assert (G : safe (do! x := lineItems f c text in listItems f sub p lines 0 (items ++ x)) (fun _ => True)).
  { eapply safe_bind; [apply lineItems_safe; auto|]. intros x _. auto. }
  destruct text as [|q text]; [exact G|]. destruct (isListStartingCharacter q); [|exact G].
  eapply safe_bind; [apply S|intros x _; auto]. apply take_while_Forall. apply Forall_map. eapply Forall_impl; [|exact H]. intros a. apply calm_tl.
Qed.

Lemma tokenizeList_safe : forall fuel lines p, Forall calm lines -> safe (tokenizeList f fuel lines p) (fun r => mark (snd (fst r))).
Proof.
  induction fuel as [|fuel IH]; intros lines p H; cbn [tokenizeList]; [apply safe_fuel|].
  assert (H' : Forall calm (map trim_space lines)) by (apply Forall_map; eapply Forall_impl; [|exact H]; intros a A; apply calm_trim; auto).
  eapply safe_bind; [apply listItems_safe|].
  - intros l c L. eapply safe_bind; [apply IH; auto|]. intros [[x y] z] _. apply safe_ret. auto.
  - apply take_while_Forall. exact H'.
  - intros items _. eapply safe_bind; [apply safe_getToken|].
    + unfold getListTokenKey. destruct (Ascii.eqb p "*"); [reflexivity|]. destruct (Ascii.eqb p "#"); reflexivity.
    + intros key K. eapply safe_bind; [apply safe_setRawToken|]. intros _ _. apply safe_ret. exact K.
Qed.

Lemma parseLists_safe : forall s, calm s -> safe (parseLists f s) calm.
Proof.
  intros s H. unfold parseLists. eapply safe_bind; [|intros l L; apply safe_ret; apply calm_join; [auto|exact L]].
  apply lines_calm in H. revert H. generalize (split nl s), 0. induction l as [|line lines IH]; intros k H; cbn [parseLists_go]; [apply safe_ret, Forall_nil|].
  pose proof (Forall_inv H) as L. pose proof (Forall_inv_tail H) as LS. destruct k; auto.
  assert (G : safe (do! r := parseLists_go f lines 0 in ret (line :: r)) (Forall calm)).
  { eapply safe_bind; [apply IH; auto|]. intros r R. apply safe_ret. apply Forall_cons; auto. }
  destruct (trim_space line) as [|c text]; [exact G|]. destruct (isListStartingCharacter c); [|exact G].
  eapply safe_bind; [apply tokenizeList_safe; auto|]. intros [[x key] n] K. cbn [fst snd] in K. eapply safe_bind; [apply IH; auto|]. intros r R.
  apply safe_ret. apply Forall_cons; auto. apply calm_mark_alone; auto.
Qed.

Lemma passes_safe : forall s, calm s -> safe (passes cfg f s) calm.
Proof.
  intros s H. unfold passes.
  eapply safe_bind; [apply parseNowiki_safe; exact H|intros s1 H1].
  eapply safe_bind; [apply parseBoldAndItalic_safe; exact H1|intros s2 H2].
  eapply safe_bind; [apply parseHeadings_safe; exact H2|intros s3 H3].
  eapply safe_bind; [apply parseReferences_safe; exact H3|intros s4 H4].
  eapply safe_bind; [apply parseInternalLinks_safe; exact H4|intros s5 H5].
  eapply safe_bind; [apply parseGalleries_safe; exact H5|intros s6 H6].
  eapply safe_bind; [apply parseImageMaps_safe; exact H6|intros s7 H7].
  eapply safe_bind; [apply parseImages_safe; exact H7|intros s8 H8].
  eapply safe_bind; [apply parseExternalLinks_safe; exact H8|intros s9 H9].
  eapply safe_bind; [apply parseMath_safe; exact H9|intros s10 H10].
  eapply safe_bind; [apply parseLists_safe; exact H10|intros s11 H11].
  eapply safe_bind; [apply parseTables_safe; exact H11|intros s12 H12].
  apply safe_ret. apply parseParagraphs_calm. exact H12.
Qed.
End Recursive.

Theorem tokenizeContent_safe : forall fuel s, calm s -> safe (tokenizeContent cfg fuel s) calm.
Proof.
  induction fuel as [|fuel IH]; intros s H; cbn [tokenizeContent]; [apply safe_fuel|]. eapply safe_bind; [apply passes_safe; [exact IH|exact H]|].
  intros s' H'. destruct (str_eqb s' s); [apply safe_ret; exact H'|]. apply IH. exact H'.
Qed.
End Config.
