(** * The shape of the tokens is an invariant of the tokenizer *)

From Coq Require Import Ascii String.
From Coq Require Import List Arith ZArith Bool Lia.
From Verif Require Import GoStr GoStrFacts ConfigModel BracketModel LinkProofs TokenSpec HtmlSpec ShapeSpec.
From Verif Require Import TokenModel FormattingModel ParagraphModel HeadingModel LinkModel ImageModel ListModel TableModel ReferenceModel TokenizerModel.
Import ListNotations.
Local Open Scope list_scope.

Definition kept {A} (m : M A) (Q : A -> Prop) : Prop :=
  forall t a t', shaped t -> m t = Ok (a, t') -> shaped t' /\ incl (images t) (images t') /\ Q a.

Definition any {A} (a : A) : Prop := True.

Lemma kept_ret : forall A (a : A) (Q : A -> Prop), Q a -> kept (ret a) Q.
Proof. intros A a Q H t b t' G E. injection E as <- <-. auto using incl_refl. Qed.

Lemma kept_panic : forall A Q, kept (@panic A) Q.
Proof. discriminate. Qed.

Lemma kept_fuel : forall A Q, kept (@out_of_fuel A) Q.
Proof. discriminate. Qed.

Lemma bindM_ok : forall A C (m : M A) (f : A -> M C) t c t'', bindM m f t = Ok (c, t'') ->
  exists a t', m t = Ok (a, t') /\ f a t' = Ok (c, t'').
Proof. intros A C m f t c t'' E. unfold bindM in E. destruct (m t) as [[a t']| | |]; try discriminate. eauto. Qed.

Lemma kept_bind : forall A C (m : M A) (f : A -> M C) P Q, kept m P -> (forall a, P a -> kept (f a) Q) -> kept (bindM m f) Q.
Proof.
  intros A C m f P Q H F t c t'' G E. apply bindM_ok in E. destruct E as (a & t' & E1 & E2).
  destruct (H _ _ _ G E1) as (G1 & I1 & P1). destruct (F a P1 _ _ _ G1 E2) as (G2 & I2 & P2). eauto using incl_tran.
Qed.

Lemma kept_weaken : forall A (m : M A) (P Q : A -> Prop), (forall a, P a -> Q a) -> kept m P -> kept m Q.
Proof. intros A m P Q W K t a t' G E. destruct (K _ _ _ G E) as (G1 & I1 & P1). auto. Qed.

Lemma kept_getToken : forall ty, kept (getToken ty) any.
Proof. intros ty t a t' G E. unfold getToken in E. injection E as <- <-. split; [exact G|]. split; [apply incl_refl|exact I]. Qed.

Lemma kept_setRawToken : forall k v, (forall imgs, shape imgs v) -> kept (setRawToken k v) any.
Proof.
  intros k v H t a t' G E. unfold setRawToken in E. injection E as <- <-. split; [|split; [apply incl_refl|exact I]].
  apply Forall_cons; [apply H|exact G].
Qed.

Lemma recorded_incl : forall a b f, incl a b -> recorded a f -> recorded b f.
Proof. intros a b f H (mt & N & I & E & F). exists mt. auto. Qed.

Lemma shape_incl : forall a b v, incl a b -> shape a v -> shape b v.
Proof. intros a b v H. destruct v; cbn; auto; apply recorded_incl; auto. Qed.

Lemma kept_addImage : forall f, kept (addImage f) any.
Proof.
  intros f t a t' G E. unfold addImage in E. injection E as <- <-. cbn [images]. split; [|split; [apply incl_appl, incl_refl|exact I]].
  eapply Forall_impl; [|exact G]. intros p. apply shape_incl. apply incl_appl, incl_refl.
Qed.

Lemma kept_lift : forall A (r : res A), kept (lift r) any.
Proof. intros A r t a t' G E. unfold lift in E. destruct r; try discriminate. injection E as <- <-. split; [auto|]. split; [apply incl_refl|exact I]. Qed.

Lemma kept_mapM : forall A C (f : A -> M C) l, (forall a, kept (f a) any) -> kept (mapM f l) any.
Proof.
  intros A C f l F. induction l; cbn [mapM]; [apply kept_ret; exact I|]. apply kept_bind with any; auto. intros c _. apply kept_bind with any; auto.
  intros. apply kept_ret. exact I.
Qed.

Ltac keep :=
  first
    [ solve [auto]
    | apply kept_ret; exact I
    | apply kept_panic
    | apply kept_fuel
    | apply kept_getToken
    | apply kept_setRawToken; intros ?; exact I
    | apply kept_addImage
    | apply kept_lift
    | apply kept_bind with any; [keep|intros ? _; keep]
    | apply kept_mapM; intros; keep
    | match goal with |- kept (match ?x with _ => _ end) _ => destruct x; keep end ].

Lemma parseNowiki_kept : forall s, kept (parseNowiki s) any.
Proof. intros s. unfold parseNowiki. generalize 0. induction s as [|c s IH]; intros k; cbn [parseNowiki_go]; keep. Qed.

Lemma parseMath_kept : forall s, kept (parseMath s) any.
Proof. intros s. unfold parseMath. generalize (math_matches s 0). intros l. revert s. induction l as [|[m g] l IH]; intros s; cbn [parseMath_go]; keep. Qed.

Lemma in_split_first : forall (c : ascii) s, In c s -> exists a b, s = a ++ c :: b /\ ~ In c a.
Proof.
  intros c s. induction s as [|d s IH]; intros []; [subst d; exists [], s; auto|]. destruct (Ascii.ascii_dec d c) as [->|N]; [exists [], s; auto|].
  destruct (IH H) as (a & b & -> & K). exists (d :: a), b. split; auto. intros [E|E]; auto.
Qed.

Section Recursive.
Variables (cfg : configuration) (f : str -> M str).
Hypothesis rec : forall s, kept (f s) any.

Lemma headings_depth : forall n lines, n <= 7 -> kept (parseHeadings_go f n lines) any.
Proof.
  induction n as [|n IH]; intros lines L; cbn [parseHeadings_go]; [keep|]. apply kept_bind with any; [|intros; apply IH; lia].
  apply kept_mapM. intros line. unfold parseHeadingLine. destruct (_ && _); [|keep]. apply kept_bind with any; [keep|]. intros key _.
  apply kept_bind with any; [auto|]. intros title _. apply kept_bind with any; [|intros; keep]. apply kept_setRawToken. intros imgs. cbn. lia.
Qed.

Lemma parseHeadings_kept : forall s, kept (parseHeadings f s) any.
Proof. intros s. unfold parseHeadings. apply kept_bind with any; [|intros; keep]. apply headings_depth. auto. Qed.

Lemma parseLink_kept : forall s op cl d ty req rm, kept (parseLink cfg f s op cl d ty req rm) any.
Proof.
  intros. unfold parseLink. destruct (split op s); [keep|]. apply kept_bind with any; [|intros; keep]. apply kept_mapM. intros item.
  unfold parseLinkItem. destruct (is_file cfg item); [keep|]. destruct (_ && _); [keep|]. apply kept_bind with any; [keep|]. intros text _.
  apply kept_bind with (fun token => match token with Some (v, _) => forall imgs, shape imgs v | None => True end).
  - unfold link_token.
    repeat match goal with |- kept (match ?x with _ => _ end) _ => destruct x end;
    first [apply kept_ret; exact I|apply kept_bind with any; [auto|]; intros x _; apply kept_ret; intros imgs; exact I].
  - intros [[v k]|] V; [|keep]. apply kept_bind with any; [|intros; keep]. apply kept_bind with any; [keep|]. intros key _.
    apply kept_bind with any; [apply kept_setRawToken; auto|]. intros; keep.
Qed.

Lemma definitions_kept : forall ns cs, kept (definitions ns cs) any.
Proof. induction ns as [|n ns IH]; intros cs; cbn [definitions]; keep. Qed.

Lemma referenceTag_kept : forall content i gs w, kept (parseReferenceTag f content i gs w) any.
Proof.
  pose proof definitions_kept. intros. unfold parseReferenceTag, parseReferenceDefinition, parseReferenceEndPlaceholder, parseNamedReferenceUsage. keep.
Qed.

Lemma parseReferences_kept : forall s, kept (parseReferences f s) any.
Proof.
  intros s. unfold parseReferences. generalize (fun _ : str => mkGroup [] [] 0). generalize (@None str). generalize 0. generalize (length (filter (Ascii.eqb "<") s)) as n.
  revert s. intros s n. revert s. induction n as [|n IH]; intros s i w gs; cbn [parseReferences_go]; [keep|]. destruct (next_tag _); [|keep].
  apply kept_bind with any; [apply referenceTag_kept|]. intros [[c gs'] w'] _. apply IH.
Qed.

Definition image_text (imgs : list str) (c : str) : Prop :=
  c = [] \/ exists mediaType file rest, ~ In ":"%char mediaType /\ ~ In "|"%char (mediaType ++ !":" ++ file) /\
    In (mediaType ++ !":" ++ file) imgs /\ file <> [] /\ ~ In " "%char file /\ c = join !"|" ((mediaType ++ !":" ++ file) :: rest).

Lemma replace_single_In : forall old new s x, old <> [] -> In x (replace_all old new s) -> In x s \/ In x new.
Proof.
  intros old new s x N. unfold replace_all. generalize 0. induction s as [|c s IH]; intros k; cbn [replace_go]; auto.
  destruct k; intros H; [|apply IH in H; cbn [In]; tauto]. destruct (has_prefix old (c :: s)).
  - apply in_app_or in H. destruct H as [H|H]; auto. apply IH in H. cbn [In]. tauto.
  - destruct H as [->|H]; [left; left; auto|]. apply IH in H. cbn [In]. tauto.
Qed.

Lemma space_replaced : forall s, ~ In " "%char (replace_all !" " !"_" s).
Proof.
  unfold replace_all. induction s as [|c s IH]; cbn [replace_go]; auto. cbn [has_prefix]. rewrite andb_true_r.
  destruct (Ascii.eqb " " c) eqn:E; intros H.
  - apply in_app_or in H. destruct H as [[H|[]]|H]; [discriminate|]. auto.
  - destruct H as [H|H]; auto. subst. discriminate.
Qed.

Lemma upper_in : forall c s r, upper_first s = Ok r -> In c r -> (forall u, upper_char u = c -> u = c) -> In c s.
Proof. intros c s r E H U. destruct s as [|y s]; [discriminate|]. injection E as <-. destruct H as [H|H]; [left; auto|right; auto]. Qed.

Lemma upper_only : forall c, (c = " " \/ c = "|")%char -> forall u, upper_char u = c -> u = c.
Proof.
  intros c [->| ->] u; destruct u as [[] [] [] [] [] [] [] []]; vm_compute; intros H; try discriminate H; auto.
Qed.

Lemma escape_records : forall s t a t', shaped t -> escapeImages cfg s t = Ok (a, t') ->
  shaped t' /\ incl (images t) (images t') /\ image_text (images t') a.
Proof.
  intros s t a t' G E. unfold escapeImages in E.
  set (p := match split2 !":" (hd [] (split !"|" s)) with m :: fn :: _ => (m, trim_space fn) | _ => (!"File", trim_space (hd [] (split2 !":" (hd [] (split !"|" s))))) end) in E.
  assert (P : ~ In ":"%char (fst p) /\ ~ In "|"%char (fst p) /\ ~ In "|"%char (snd p)).
  { assert (B : ~ In "|"%char (hd [] (split !"|" s))).
    { pose proof (split_single_pieces "|" s) as F. change !"|" with ["|"%char]. destruct (split ["|"%char] s); [intros []|]. exact (Forall_inv F). }
    subst p. destruct (in_dec Ascii.ascii_dec ":"%char (hd [] (split !"|" s))) as [I|I].
    - apply in_split_first in I. destruct I as (l1 & l2 & I & N). rewrite I in *. change !":" with [":"%char]. rewrite split2_first by auto. cbn [fst snd].
      split; [auto|]. split; intros H; apply B; apply in_or_app; [left; auto|right; right; apply trim_space_In; auto].
    - change !":" with [":"%char]. rewrite split2_none by auto. cbn [fst snd hd]. split; [cbn; intuition discriminate|]. split; [cbn; intuition discriminate|].
      intros H. apply B. apply trim_space_In. auto. }
  destruct p as [mt fn]. cbn [fst snd] in P. destruct P as (P1 & P2 & P3). destruct (ignored_media cfg fn).
  { injection E as <- <-. split; [auto|]. split; [apply incl_refl|left; auto]. }
  apply bindM_ok in E. destruct E as (g & t1 & E1 & E). destruct (upper_first _) as [g'| | |] eqn:U; try discriminate. cbn [bind] in E1.
  assert (g' = g /\ t1 = t) as [-> ->] by (split; congruence). clear E1.
  apply bindM_ok in E. destruct E as (u & t2 & E1 & E2). injection E2 as <- <-.
  destruct (kept_addImage _ _ _ _ G E1) as (G2 & I2 & _). split; [auto|]. split; [auto|]. right.
  assert (X : ~ In " "%char g).
  { intros H. apply (upper_in _ _ _ U) in H; [|apply upper_only; auto]. apply replace_single_In in H; [|discriminate].
    destruct H as [H|[H|[]]]; [|discriminate]. revert H. apply space_replaced. }
  assert (Y : ~ In "|"%char g).
  { intros H. apply (upper_in _ _ _ U) in H; [|apply upper_only; auto]. apply replace_single_In in H; [|discriminate].
    destruct H as [H|[H|[]]]; [|discriminate]. apply replace_single_In in H; [|discriminate]. destruct H as [H|[H|[]]]; [|discriminate]. auto. }
  exists mt, g, (tl (split !"|" s)). split; [auto|]. split.
  { intros H. apply in_app_or in H. destruct H as [H|H]; auto. apply in_app_or in H. destruct H as [[H|[]]|H]; [discriminate|auto]. }
  split; [unfold addImage in E1; injection E1 as _ <-; cbn [images]; apply in_or_app; right; left; auto|].
  split; [|auto]. intros ->. destruct (replace_all _ _ (replace_all _ _ fn)); discriminate.
Qed.

Lemma escapeImages_kept : forall s, kept (escapeImages cfg s) any.
Proof. intros s t a t' G E. destruct (escape_records _ _ _ _ G E) as (G' & I' & _). split; [auto|]. split; [auto|exact I]. Qed.

Lemma galleries_kept : forall s, kept (parseGalleries cfg s) any.
Proof.
  pose proof escapeImages_kept as E. intros s. unfold parseGalleries. apply kept_bind with any; [|intros; keep]. generalize false. generalize (split nl s).
  induction l as [|x l IH]; intros b; cbn [parseGalleries_go]; unfold galleryLine; keep.
Qed.

Lemma imageMaps_kept : forall s, kept (parseImageMaps cfg s) any.
Proof.
  pose proof escapeImages_kept as E. intros s. unfold parseImageMaps. apply kept_bind with any; [|intros; keep]. generalize false. generalize (split nl s).
  fix IH 1. intros [|x l] b; cbn [parseImageMaps_go]; [keep|]. destruct (b || _); [apply IH|]. destruct (remove_start_tag _ x) as [y|].
  - destruct (trim_space y).
    + destruct l as [|z l]; [keep|]. apply kept_bind with any; [apply E|]. intros a _. apply kept_bind with any; [apply IH|intros; keep].
    + apply kept_bind with any; [apply E|]. intros a' _. apply kept_bind with any; [apply IH|intros; keep].
  - apply kept_bind with any; [apply IH|intros; keep].
Qed.

Lemma options_kept : forall options o, kept (parseOptions f options o) any.
Proof. induction options as [|x l IH]; intros o; cbn [parseOptions]; keep. Qed.

Lemma split_join_head : forall a rest, ~ In "|"%char a -> hd [] (split !"|" (join !"|" (a :: rest))) = a.
Proof.
  intros a rest N. destruct rest as [|b rest].
  - cbn [join]. change !"|" with ["|"%char]. rewrite split_single_none by auto. auto.
  - rewrite join_cons by discriminate. change !"|" with ["|"%char]. cbn [app]. rewrite split_single_app by auto. auto.
Qed.

Lemma image_token_kept : forall c t a t', shaped t -> c <> [] -> image_text (images t) c -> image_token cfg f c t = Ok (a, t') ->
  shaped t' /\ incl (images t) (images t').
Proof.
  intros c t a t' G N [->|(mt & fn & rest & C1 & C2 & I1 & F1 & F2 & ->)] E; [congruence|]. unfold image_token in E.
  rewrite split_join_head in E by auto.
  change (mt ++ !":" ++ fn) with (mt ++ ":"%char :: fn) in E. change !":" with [":"%char] in E. rewrite split2_first in E by auto.
  apply bindM_ok in E. destruct E as (fn' & t0 & E0 & E). assert (fn' = fn /\ t0 = t) as [-> ->] by (split; congruence). clear E0.
  apply bindM_ok in E. destruct E as (o & t1 & E1 & E). destruct (options_kept _ _ _ _ _ G E1) as (G1 & I2 & _).
  assert (R : recorded (images t1) fn) by (exists mt; auto).
  destruct (isImage o).
  all: apply bindM_ok in E; destruct E as (key & t2 & E2 & E); destruct (kept_getToken _ _ _ _ G1 E2) as (G2 & I3 & _);
    apply bindM_ok in E; destruct E as (u & t3 & E3 & E); injection E as <- <-; unfold setRawToken in E3; injection E3 as _ <-;
    (split; [|eapply incl_tran; eauto]); apply Forall_cons; [cbn; eapply recorded_incl; eauto|exact G2].
Qed.

Lemma images_kept : forall s, kept (parseImages cfg f s) any.
Proof.
  intros s. unfold parseImages. generalize (S (length (filter (Ascii.eqb "[") s))) as fuel. intros fuel. revert s.
  induction fuel as [|fuel IH]; intros s; cbn [parseImages_go]; [keep|].
  destruct (find_link_start s) as [[i j]|]; [|keep]. destruct (FindCorrespondingCloseToken _ _ _ _); [|keep].
  apply kept_bind with any; [auto|]. intros c _. intros t a t' G E.
  apply bindM_ok in E. destruct E as (c2 & t1 & E1 & E). destruct (escape_records _ _ _ _ G E1) as (G1 & I1 & T).
  apply bindM_ok in E. destruct E as (token & t2 & E2 & E).
  assert (G2 : shaped t2 /\ incl (images t1) (images t2)).
  { destruct (str_eqb c2 []) eqn:C; cbn [orb] in E2; [injection E2 as <- <-; auto using incl_refl|].
    destruct (negb _); [injection E2 as <- <-; auto using incl_refl|]. eapply image_token_kept; eauto. intros ->. discriminate. }
  destruct G2 as (G2 & I2).
  destruct (_ <? _); [discriminate|]. destruct (IH _ _ _ _ G2 E) as (G3 & I3 & _). split; [auto|]. split; [|exact I]. eauto using incl_tran.
Qed.

(** Lists *)
Lemma proper_list_all : forall kind items, proper_list (AnyListToken kind items) <-> Forall (proper_item kind) items.
Proof.
  intros kind items. split; intros H.
  - induction items as [|i items IH]; [apply Forall_nil|]. destruct H as [H1 H2]. apply Forall_cons; auto.
  - induction items as [|i items IH]; [exact I|]. split; [exact (Forall_inv H)|]. apply IH. exact (Forall_inv_tail H).
Qed.
Lemma proper_item_all : forall kind type c ls, proper_item kind (mkListItemToken type c ls) <-> (type = NORMAL_ITEM <-> kind <> Description) /\ Forall proper_list ls.
Proof.
  intros kind type c ls. split; intros [T H]; (split; [exact T|]); clear T.
  - induction ls as [|l ls IH]; [apply Forall_nil|]. destruct H as [H1 H2]. apply Forall_cons; auto.
  - induction ls as [|l ls IH]; [exact I|]. split; [exact (Forall_inv H)|]. apply IH. exact (Forall_inv_tail H).
Qed.

Lemma addSubList_proper : forall p items l, Forall (proper_item (kind_of_list p)) items -> proper_list l ->
  Forall (proper_item (kind_of_list p)) (addSubList p items l).
Proof.
  intros p items l H L. unfold addSubList. apply Forall_rev in H. destruct (rev items) as [|[type c ls] before].
  - apply Forall_cons; [|apply Forall_nil]. apply proper_item_all. split; [|auto].
    unfold getListItemTypeForList, kind_of_list. destruct (Ascii.eqb p "*"), (Ascii.eqb p "#"), (Ascii.eqb p ";"); cbn; split; congruence.
  - apply Forall_app. split; [apply Forall_rev; exact (Forall_inv_tail H)|]. apply Forall_cons; [|apply Forall_nil].
    pose proof (Forall_inv H) as I. apply proper_item_all in I. apply proper_item_all. split; [tauto|]. apply Forall_app. split; [tauto|auto].
Qed.

Lemma lineItems_proper : forall p c text, isListStartingCharacter p = true -> belongsToListPrefix (c :: text) p = true ->
  kept (lineItems f c text) (Forall (proper_item (kind_of_list p))).
Proof.
  intros p c text S B. unfold belongsToListPrefix in B.
  assert (D : forall t x, t = DESCRIPTION_HEAD \/ t = DESCRIPTION_ITEM -> proper_item Description (mkListItemToken t x [])).
  { intros t x T. apply proper_item_all. split; [|auto]. destruct T; subst; split; congruence. }
  assert (K : kind_of_list p = if Ascii.eqb c ";" || Ascii.eqb c ":" then Description else kind_of_list c).
  { unfold kind_of_list. destruct (Ascii.eqb p ";") eqn:P.
    - apply Ascii.eqb_eq in P. subst p. apply orb_true_iff in B. destruct B as [B|B]; rewrite B; cbn; auto. rewrite orb_true_r. auto.
    - apply Ascii.eqb_eq in B. subst p. rewrite P. cbn [orb]. destruct (Ascii.eqb c ":") eqn:C; auto. apply Ascii.eqb_eq in C. subst c. auto. }
  unfold lineItems. rewrite K. destruct (Ascii.eqb c ";") eqn:C1; cbn [orb] in *; [|destruct (Ascii.eqb c ":") eqn:C2].
  - destruct (split2 _ _) as [|x [|y [|z l]]].
    all: repeat (apply kept_bind with any; [auto|intros ? _]); apply kept_ret; repeat (apply Forall_cons; [apply D; auto|]); apply Forall_nil.
  - apply kept_bind with any; [auto|]. intros x _. apply kept_ret. apply Forall_cons; [apply D; auto|apply Forall_nil].
  - apply kept_bind with any; [auto|]. intros x _. apply kept_ret. apply Forall_cons; [|apply Forall_nil]. apply proper_item_all. split; [|auto].
    split; [intros _|auto]. destruct (Ascii.eqb p ";") eqn:P; [rewrite orb_false_r in B; congruence|]. apply Ascii.eqb_eq in B. subst p.
    unfold isListStartingCharacter in S. unfold kind_of_list. rewrite C1, C2 in S. destruct (Ascii.eqb c "*"); [discriminate|].
    destruct (Ascii.eqb c "#"); discriminate.
Qed.

Lemma take_while_all : forall g lines, Forall (fun l => g l = true) (take_while g lines).
Proof. intros g lines. induction lines as [|l lines IH]; cbn [take_while]; [apply Forall_nil|]. destruct (g l) eqn:E; [apply Forall_cons; auto|apply Forall_nil]. Qed.

Lemma listItems_kept : forall sub p, isListStartingCharacter p = true ->
  (forall l c, isListStartingCharacter c = true -> kept (sub l c) proper_list) ->
  forall lines k items, Forall (fun l => belongsToListPrefix l p = true) lines -> Forall (proper_item (kind_of_list p)) items ->
  kept (listItems f sub p lines k items) (Forall (proper_item (kind_of_list p))).
Proof.
  intros sub p S H. induction lines as [|line lines IH]; intros k items L P; cbn [listItems]; [apply kept_ret; auto|].
  pose proof (Forall_inv L) as L1. pose proof (Forall_inv_tail L) as L2. destruct k; [|auto].
  destruct line as [|c text]; [auto|].
  assert (N : kept (bindM (lineItems f c text) (fun x => listItems f sub p lines 0 (items ++ x))) (Forall (proper_item (kind_of_list p)))).
  { eapply kept_bind; [apply lineItems_proper; eauto|]. intros x X. apply IH; auto. apply Forall_app. auto. }
  destruct text as [|q text]; [exact N|]. destruct (isListStartingCharacter q) eqn:Q; [|exact N].
  eapply kept_bind; [apply H; auto|]. intros x X. apply IH; auto. apply addSubList_proper; auto.
Qed.

Lemma tokenizeList_kept : forall fuel lines p, isListStartingCharacter p = true ->
  kept (tokenizeList f fuel lines p) (fun r => proper_list (fst (fst r))).
Proof.
  induction fuel as [|fuel IH]; intros lines p S; cbn [tokenizeList]; [apply kept_fuel|]. eapply kept_bind.
  - apply listItems_kept; auto; [|apply take_while_all]. intros l c C. eapply kept_bind; [apply IH; auto|]. intros [[x y] z] X. apply kept_ret. exact X.
  - intros items X. apply kept_bind with any; [apply kept_getToken|]. intros key _. apply proper_list_all in X. eapply kept_bind.
    + apply kept_setRawToken. intros imgs. exact X.
    + intros _ _. apply kept_ret. exact X.
Qed.

Lemma parseLists_kept : forall s, kept (parseLists f s) any.
Proof.
  intros s. unfold parseLists. apply kept_bind with any; [|intros; keep]. generalize 0. generalize (split nl s).
  induction l as [|line lines IH]; intros k; cbn [parseLists_go]; [keep|]. destruct k; [|keep]. destruct (trim_space line) as [|c text]; [keep|].
  destruct (isListStartingCharacter c) eqn:C; [|keep]. eapply kept_bind; [apply tokenizeList_kept; auto|]. intros [[x y] z] _. keep.
Qed.

Lemma entry_kept : forall s, kept (tokenizeTableEntry f s) any.
Proof. intros s. unfold tokenizeTableEntry. keep. Qed.

Lemma row_kept : forall fuel lines, kept (tokenizeTableRow_go f fuel lines) any.
Proof.
  induction fuel as [|fuel IH]; intros lines; destruct lines as [|line lines]; cbn [tokenizeTableRow_go]; try keep. destruct (_ || _ || _); [keep|].
  apply kept_bind with any; [keep|]. intros [more after] _. apply kept_bind with any; [apply entry_kept|]. intros [x a] _. keep.
Qed.

Lemma table_kept : forall fuel lines rows cap, kept (tokenizeTable_go f fuel lines rows cap) any.
Proof.
  induction fuel as [|fuel IH]; intros lines rows cap; destruct lines as [|line lines]; cbn [tokenizeTable_go]; try keep.
  assert (R : forall l, kept (tokenizeTableRow f l) any) by (intros; apply row_kept).
  assert (C : kept (tokenizeTableCaption f line lines) any).
  { unfold tokenizeTableCaption. apply kept_bind with any; [keep|]. intros [more after] _. apply kept_bind with any; [apply entry_kept|]. intros; keep. }
  keep.
Qed.

Lemma finishTable_kept : forall lines, kept (finishTable f lines) any.
Proof.
  intros lines. unfold finishTable, tokenizeTable. apply kept_bind with (fun v => forall imgs, shape imgs v).
  - apply kept_bind with any; [apply table_kept|]. intros [rows cap] _. apply kept_ret. intros imgs. exact I.
  - intros token T. apply kept_bind with any; [keep|]. intros key _. apply kept_bind with any; [apply kept_setRawToken; exact T|]. intros; keep.
Qed.

Lemma tables_kept : forall fuel lines, kept (tokenizeTables_go f fuel lines) any.
Proof.
  pose proof finishTable_kept. induction fuel as [|fuel IH]; intros lines; destruct lines as [|line lines]; cbn [tokenizeTables_go]; keep.
Qed.

Lemma parseTables_kept : forall s, kept (parseTables f s) any.
Proof.
  intros s. unfold parseTables. apply kept_bind with any; [|intros; keep]. generalize (length (split nl s)) as n. generalize (split nl s). intros l n. revert l.
  induction n as [|n IH]; intros lines; destruct lines as [|line lines]; cbn [parseTables_go]; try keep.
  destruct (table_start _); [|keep]. apply kept_bind with any; [|intros; keep]. unfold tokenizeTables. apply kept_bind with any; [apply tables_kept|].
  intros [r after] _. apply kept_bind with any; [apply finishTable_kept|]. intros; keep.
Qed.

Lemma passes_kept : forall s, kept (passes cfg f s) any.
Proof.
  intros s. unfold passes, parseInternalLinks, parseExternalLinks.
  apply kept_bind with any; [apply parseNowiki_kept|intros s1 _].
  apply kept_bind with any; [keep|intros s2 _]; apply kept_bind with any; [apply parseHeadings_kept|intros s3 _];
   apply kept_bind with any; [apply parseReferences_kept|intros s4 _]; apply kept_bind with any; [apply parseLink_kept|intros s5 _];
   apply kept_bind with any; [apply galleries_kept|intros s6 _]; apply kept_bind with any; [apply imageMaps_kept|intros s7 _]; apply kept_bind with any; [apply images_kept|intros s8 _];
   apply kept_bind with any; [apply parseLink_kept|intros s9 _]; apply kept_bind with any; [apply parseMath_kept|intros s10 _]; apply kept_bind with any; [apply parseLists_kept|intros s11 _];
   apply kept_bind with any; [apply parseTables_kept|intros s12 _]; keep.
Qed.
End Recursive.

Theorem tokenizeContent_kept : forall cfg fuel s, kept (tokenizeContent cfg fuel s) any.
Proof.
  intros cfg. induction fuel as [|fuel IH]; intros s; cbn [tokenizeContent]; [keep|]. apply kept_bind with any; [apply passes_kept; auto|].
  intros s' _. destruct (str_eqb s' s); [keep|]. apply IH.
Qed.
