(** * The passes of the tokenizer create resolvable texts: references, images, lists, tables *)

From Coq Require Import Ascii String.
From Coq Require Import List Arith ZArith Bool Lia.
From Verif Require Import GoStr GoStrFacts TextFacts UtilModel ConfigModel BracketModel BracketProofs.
From Verif Require Import TokenModel TokenSpec TokenProofs FormattingModel ParagraphModel.
From Verif Require Import HeadingModel LinkModel ImageModel ListModel TableModel ReferenceModel TokenizerModel ImageClosing PassProofs.
Import ListNotations.
Local Open Scope list_scope.

Section Recursive.
Variables (cfg : configuration) (b : bool) (tokenizeContent : str -> M str).
Hypothesis rec_sound : sound b tokenizeContent.

(** ** References *)

Lemma drop_newlines_spec : forall s, exists n, s = repeat nl_char n ++ drop_newlines s.
Proof.
  induction s as [|c s (n & IH)]; [exists 0; auto|]. cbn [drop_newlines]. destruct (Ascii.eqb c nl_char) eqn:E.
  - apply Ascii.eqb_eq in E. subst c. exists (S n). cbn. congruence.
  - exists 0. auto.
Qed.

Lemma rev_repeat : forall (c : ascii) n, rev (repeat c n) = repeat c n.
Proof. intros c n. induction n as [|n IH]; auto. cbn. rewrite IH. symmetry. apply repeat_cons. Qed.

Lemma trim_newlines_spec : forall s, exists n, s = trim_newlines s ++ repeat nl_char n.
Proof.
  intros s. destruct (drop_newlines_spec (rev s)) as (n & E). exists n. unfold trim_newlines.
  rewrite <- (rev_repeat nl_char n), <- rev_app_distr, <- E, rev_involutive. auto.
Qed.

Lemma trim_newlines_good : forall t s, ok b t -> good b t s -> good b t (trim_newlines s).
Proof.
  intros t s O G. destruct (trim_newlines_spec s) as (n & E). rewrite E in G. eapply good_plain_suffix; eauto.
  intros D. apply repeat_spec in D. discriminate.
Qed.

Definition group_good (t : Tokenizer) (g : group) : Prop := Forall (fun p => good b t (snd p)) (refNumberToContent g).
Definition groups_good (t : Tokenizer) (gs : groups) : Prop := forall name, group_good t (gs name).

Lemma group_mono : forall t t' g, grows t t' -> group_good t g -> group_good t' g.
Proof. intros t t' g G H. eapply Forall_impl; [|exact H]. intros p. apply good_mono. auto. Qed.

Lemma set_group_good : forall t gs name g, groups_good t gs -> group_good t g -> groups_good t (set_group gs name g).
Proof. intros t gs name g H K n. unfold set_group. destruct (str_eqb n name); auto. Qed.

Lemma get_content_good : forall t l i s, Forall (fun p => good b t (snd p)) l -> get_content i l = Some s -> good b t s.
Proof.
  intros t l i s F. induction F as [|[j c] l H F IH]; cbn [get_content]; [discriminate|]. destruct (i =? j); auto. intros E. injection E as <-. auto.
Qed.

Lemma definitions_sound : forall numbers contents t, ok b t -> Forall (fun p => good b t (snd p)) contents -> holds b t (definitions numbers contents) (good b).
Proof.
  induction numbers as [|n numbers IH]; intros contents t O F; cbn [definitions]; [apply holds_ret; auto; apply good_nil|].
  destruct (get_content n contents) as [c|] eqn:E; [|apply IH; auto].
  apply (holds_token _ b t TOKEN_REF_DEF _ (fun k => do! r := definitions numbers contents in ret (k ++ nl ++ r))); [auto|apply nowiki_types| |].
  - cbn [texts]. constructor; auto. eapply get_content_good; eauto.
  - intros k t' O' G' K. eapply holds_bind.
    + apply IH; auto. eapply Forall_impl; [|exact F]. intros p. apply good_mono. auto.
    + intros r t2 O2 G2 Gr. apply holds_ret; auto. apply good_app; [eapply good_mono; eauto; apply key_good; auto|].
      apply good_app; auto. apply nl_good.
Qed.

Lemma endPlaceholder_sound : forall content i e g t, ok b t -> good b t content -> nth_error content i = Some "<"%char -> nth_error content e = Some ">"%char ->
  group_good t g -> holds b t (parseReferenceEndPlaceholder content i e g) (fun t' p => good b t' (fst p) /\ group_good t' (snd p)).
Proof.
  intros content i e g t O G Ni Ne Hg. unfold parseReferenceEndPlaceholder. eapply holds_bind; [apply definitions_sound; auto|].
  intros ks t' O' G' Gk. apply holds_ret; auto. cbn [fst snd refNumberToContent]. apply (good_mono _ _ _ _ G') in G. split.
  - apply good_app.
    + apply trim_newlines_good; auto. apply good_app; auto. apply good_app; [|apply nl_good]. apply trim_newlines_good; auto. eapply good_firstn; eauto.
    + eapply good_skipn_S; eauto.
  - apply (group_mono _ _ _ G') in Hg. unfold group_good. cbn [refNumberToContent]. apply Forall_forall. intros p I. apply filter_In in I as [I _].
    unfold group_good in Hg. rewrite Forall_forall in Hg. auto.
Qed.

Lemma usage_sound : forall content i name g within e t, ok b t -> good b t content -> nth_error content i = Some "<"%char -> nth_error content e = Some ">"%char ->
  group_good t g -> holds b t (parseNamedReferenceUsage content i name g within e) (fun t' p => good b t' (fst p) /\ group_good t' (snd p)).
Proof.
  intros content i name g within e t O G Ni Ne Hg. unfold parseNamedReferenceUsage. destruct (negb (str_eqb name [])); [|apply holds_ret; auto].
  set (p := match get_number name (nameToRefNumber g) with Some n => (n, g) | None => _ end).
  assert (Hp : group_good t (snd p)) by (unfold p; destruct (get_number _ _); auto). destruct p as [n g']. cbn [snd] in Hp.
  eapply (holds_bind _ _ b t _ _ (good b)).
  - destruct within; cbn [negb]; [apply holds_ret; auto; apply good_nil|].
    apply (holds_token _ b t TOKEN_REF_USAGE _ (fun k => ret k)); [auto|apply nowiki_types|constructor|].
    intros k t' O' G' K. apply holds_ret; auto. apply key_good. auto.
  - intros k t' O' G' K. apply (good_mono _ _ _ _ G') in G. apply holds_ret; auto. cbn [fst snd]. split; [|eapply group_mono; eauto].
    apply good_app; [eapply good_firstn; eauto|]. apply good_app; auto. eapply good_skipn_S; eauto.
Qed.

Lemma definition_sound : forall content i e r g name within t, ok b t -> good b t content -> nth_error content i = Some "<"%char -> nth_error content e = Some ">"%char ->
  e <= r -> nth_error content r = Some "<"%char -> nth_error content (r + 5) = Some ">"%char ->
  group_good t g -> holds b t (parseReferenceDefinition tokenizeContent content i e r g name within) (fun t' p => good b t' (fst p) /\ group_good t' (snd p)).
Proof.
  intros content i e r g name within t O G Ni Ne L Nr Nr5 Hg. unfold parseReferenceDefinition.
  eapply holds_bind; [apply rec_sound; auto|].
  - eapply good_sub_at; eauto; [eapply good_skipn_S; eauto|]. destruct (Nat.eq_dec e r) as [->|]; [congruence|lia].
  - intros text t1 O1 G1 Gt. eapply (holds_bind _ _ b t1 _ _ (good b)).
    + destruct within; cbn [negb]; [apply holds_ret; auto; apply good_nil|].
      match goal with |- context [RefUsageToken ?n] => apply (holds_token _ b t1 TOKEN_REF_USAGE (RefUsageToken n) (fun k => ret k)); [auto|apply nowiki_types|constructor|] end.
      intros k t' O' G' K. apply holds_ret; auto. apply key_good. auto.
    + intros k t2 O2 G2 K. assert (G02 : grows t t2) by (eapply grows_trans; eauto). apply (good_mono _ _ _ _ G02) in G. apply holds_ret; auto. cbn [fst snd]. split.
      * apply good_app; [eapply good_firstn; eauto|]. apply good_app; auto. replace (r + 6) with (S (r + 5)) by lia. eapply good_skipn_S; eauto.
      * unfold group_good. cbn [refNumberToContent]. constructor; [exact (good_mono _ _ _ _ G2 Gt)|]. exact (group_mono _ _ _ G02 Hg).
Qed.

Lemma referenceTag_sound : forall content i gs within t, ok b t -> good b t content -> nth_error content i = Some "<"%char -> groups_good t gs ->
  holds b t (parseReferenceTag tokenizeContent content i gs within) (fun t' p => good b t' (fst (fst p)) /\ groups_good t' (snd (fst p))).
Proof.
  intros content i gs within t O G Ni Hg. unfold parseReferenceTag.
  destruct (FindCorrespondingCloseTokenIgnoreCase content (i + 4) _ _) as [e|] eqn:F; [|apply holds_panic].
  apply findCloseIC_at in F as (Le & F); [|discriminate|discriminate]. destruct (F 0 ">"%char eq_refl) as (d & Ne & Ld). apply lower_gt in Ld. subst d.
  rewrite Nat.add_0_r in Ne. destruct (_ || _).
  - eapply (holds_bind _ _ b t _ _ (fun _ _ => True)).
    { destruct within; [apply holds_ret; auto|apply holds_lift; auto]. }
    intros name t1 O1 G1 _. eapply holds_bind.
    + apply endPlaceholder_sound; eauto; [eapply good_mono; eauto|eapply group_mono; eauto].
    + intros [c g] t2 O2 G2 [Gc Hc]. apply holds_ret; auto. cbn [fst snd] in *. split; auto. apply set_group_good; auto.
      intros n. eapply group_mono; [|apply Hg]. eapply grows_trans; eauto.
  - destruct (is_placeholder_start _).
    + eapply (holds_bind _ _ b t _ _ (fun _ _ => True)); [apply holds_lift; auto|]. intros name t1 O1 G1 _. apply (good_mono _ _ _ _ G1) in G.
      apply holds_ret; auto. cbn [fst snd]. split; [|intros n; eapply group_mono; [|apply Hg]; auto].
      apply good_app; [eapply good_firstn; eauto|eapply good_skipn_S; eauto].
    + eapply (holds_bind _ _ b t _ _ (fun _ _ => True)); [apply holds_lift; auto|]. intros name t1 O1 G1 _.
      eapply (holds_bind _ _ b t1 _ _ (fun _ _ => True)); [apply holds_lift; auto|]. intros gname t2 O2 G2 _.
      assert (G02 : grows t t2) by (eapply grows_trans; eauto). apply (good_mono _ _ _ _ G02) in G.
      assert (Hg2 : groups_good t2 gs) by (intros n; eapply group_mono; [|apply Hg]; auto).
      eapply (holds_bind _ _ b t2 _ _ (fun t' p => good b t' (fst p) /\ group_good t' (snd p))).
      * destruct (has_prefix !"/" _); [apply usage_sound; auto|].
        destruct (FindCorrespondingCloseTokenIgnoreCase content e _ _) as [r|] eqn:F2; [|apply holds_panic].
        apply findCloseIC_at in F2 as (Lr & F2); [|discriminate|discriminate].
        destruct (F2 0 "<"%char eq_refl) as (d & Nr & Ld). apply lower_lt in Ld. subst d.
        destruct (F2 5 ">"%char eq_refl) as (d & Nr5 & Ld). apply lower_gt in Ld. subst d. rewrite Nat.add_0_r in Nr.
        apply definition_sound; auto.
      * intros [c g] t3 O3 G3 [Gc Hc]. apply holds_ret; auto. cbn [fst snd] in *. split; auto. apply set_group_good; auto.
        intros n. eapply group_mono; eauto.
Qed.

Lemma at_tag_first : forall s, at_reference_tag s = true -> nth_error s 0 = Some "<"%char.
Proof.
  intros [|c s] H; [discriminate|]. unfold at_reference_tag in H. apply andb_true_iff in H as [_ H]. apply orb_true_iff in H.
  unfold EqualsIgnoreCase in H. rewrite !str_eqb_eq in H. destruct H as [H|H]; cbn [firstn to_lower map] in H; injection H as H _; apply lower_lt in H; subst; auto.
Qed.

Lemma next_tag_at : forall s d, next_tag s = Some d -> nth_error s d = Some "<"%char.
Proof.
  induction s as [|c s IH]; intros d H; [discriminate|]. cbn [next_tag] in H. destruct (at_reference_tag (c :: s)) eqn:E.
  - injection H as <-. apply at_tag_first. auto.
  - destruct (next_tag s) as [j|]; [|discriminate]. injection H as <-. cbn. auto.
Qed.

Lemma references_sound : forall fuel content i gs within t, ok b t -> good b t content -> groups_good t gs ->
  holds b t (parseReferences_go tokenizeContent fuel content i gs within) (good b).
Proof.
  induction fuel as [|fuel IH]; intros content i gs within t O G Hg; cbn [parseReferences_go].
  - destruct (next_tag _); [apply holds_fuel|apply holds_ret; auto].
  - destruct (next_tag (skipn i content)) as [d|] eqn:N; [|apply holds_ret; auto]. apply next_tag_at in N. rewrite nth_skip in N.
    eapply holds_bind; [apply referenceTag_sound; auto|]. intros [[c gs'] w] t' O' G' [Gc Hc]. apply IH; auto.
Qed.

Theorem parseReferences_sound : sound b (parseReferences tokenizeContent).
Proof. intros t s O G. apply references_sound; auto. intros n. constructor. Qed.

(** ** Images *)

Lemma holds_addImage : forall f t, ok b t -> holds b t (addImage f) (fun _ _ => True).
Proof.
  intros f t O a t' E. injection E as _ <-. split; [exact O|split; auto]. exists []. repeat split; auto. constructor.
Qed.

Lemma upper_good : forall t s r, ok b t -> good b t s -> upper_first s = Ok r -> good b t r.
Proof.
  intros t [|c s] r O G E; [discriminate|]. injection E as <-. destruct (ascii_dec c "$") as [->|N].
  - exact G.
  - apply good_cons; [rewrite upper_dollar; auto|]. eapply (good_plain_prefix b t O [c]); eauto. intros [D|[]]. auto.
Qed.

Theorem escapeImages_sound : sound b (escapeImages cfg).
Proof.
  intros t s O G. unfold escapeImages.
  pose proof (good_split b t O !"|" s ltac:(sep) G) as Fs. set (segments := split _ s) in *.
  pose proof (good_split2 b t O !":" (hd [] segments) ltac:(sep) (good_hd b t segments Fs)) as F2. set (fileSegments := split2 _ _) in *.
  match goal with |- holds _ _ (let '(_, _) := ?x in _) _ => set (p := x) end.
  assert (Hp : good b t (fst p) /\ good b t (snd p)).
  { unfold p. destruct F2 as [|m l Hm [|n l2 Hn _]]; cbn [fst snd hd]; repeat split; auto; try (apply good_plain; nodollar); apply good_trim; auto. }
  destruct p as [mediaType filename]. cbn [fst snd] in Hp. destruct Hp as [Hm Hf].
  destruct (ignored_media cfg filename); [apply holds_ret; auto; apply good_nil|].
  assert (Hf2 : good b t (replace_all !"%20" !"_" (replace_all !" " !"_" filename))).
  { apply good_replace; auto; [sep|apply good_plain; nodollar|]. apply good_replace; auto; [sep|apply good_plain; nodollar]. }
  eapply (holds_bind _ _ b t _ _ (good b)).
  { apply (holds_lift _ b t (upper_first _)); auto. intros a E. eapply upper_good; eauto. }
  intros f t1 O1 G1 Gf. eapply holds_bind; [apply holds_addImage; auto|]. intros _ t2 O2 G2 _. apply holds_ret; auto.
  assert (G02 : grows t t2) by (eapply grows_trans; eauto). apply good_join; auto; [apply good_plain; nodollar|]. constructor.
  - apply good_app; [exact (good_mono _ _ _ _ G02 Hm)|]. apply good_app; [apply good_plain; nodollar|]. exact (good_mono _ _ _ _ G2 Gf).
  - apply keyed_tl. exact (Forall_good_mono _ _ _ _ G02 Fs).
Qed.

Lemma start_tag_good : forall t tag line l, ok b t -> good b t line -> remove_start_tag tag line = Some l -> good b t l.
Proof.
  intros t tag line l O G E. unfold remove_start_tag in E. destruct (HasPrefixIgnoreCase line tag); [|discriminate].
  destruct (tag_end (skipn (length tag) line)) as [i|] eqn:T; [|discriminate]. apply tag_end_at in T. rewrite nth_skip in T.
  assert (El : l = skipn (S (length tag + i)) line). { replace (S (length tag + i)) with (length tag + i + 1) by lia. cbn [option_map] in E. congruence. }
  subst l. eapply good_skipn_S; eauto.
Qed.

Lemma remove_skip : forall old s k, remove_ignore_case old s k = remove_ignore_case old (skipn k s) 0.
Proof. induction s as [|c s IH]; intros [|k]; auto. cbn [remove_ignore_case skipn]. apply IH. Qed.

Lemma remove_scan : forall old s, remove_ignore_case old s 0 = s \/
  exists a r, s = a ++ r /\ HasPrefixIgnoreCase r old = true /\ remove_ignore_case old s 0 = a ++ remove_ignore_case old r 0.
Proof.
  intros old. induction s as [|c s IH]; [left; auto|]. destruct (HasPrefixIgnoreCase (c :: s) old) eqn:H.
  - right. exists [], (c :: s). auto.
  - assert (E : remove_ignore_case old (c :: s) 0 = c :: remove_ignore_case old s 0) by (cbn [remove_ignore_case]; rewrite H; auto).
    rewrite E. destruct IH as [->|(a & r & -> & R & ->)]; [left; auto|]. right. exists (c :: a), r. auto.
Qed.

Lemma lower_prefix_at : forall r p k x, HasPrefixIgnoreCase r p = true -> nth_error (to_lower p) k = Some x -> exists d, nth_error r k = Some d /\ lower_char d = x.
Proof.
  intros r p k x H N. unfold HasPrefixIgnoreCase in H. apply has_prefix_spec in H as (y & E). apply nth_lower. rewrite E.
  rewrite nth_error_app1; auto. apply nth_error_Some. congruence.
Qed.

Lemma remove_good : forall t n s, length s <= n -> ok b t -> good b t s -> good b t (remove_ignore_case !"</gallery>" s 0).
Proof.
  intros t. induction n as [|n IH]; intros s L O G.
  - destruct s; [auto|cbn in L; lia].
  - destruct (remove_scan !"</gallery>" s) as [->|(a & r & -> & R & ->)]; auto.
    destruct (lower_prefix_at r _ 0 "<"%char R eq_refl) as (d & N0 & Ld). apply lower_lt in Ld. subst d.
    destruct (lower_prefix_at r _ 9 ">"%char R eq_refl) as (d & N9 & Ld). apply lower_gt in Ld. subst d.
    destruct r as [|c r]; [discriminate|]. cbn in N0. injection N0 as ->.
    destruct (good_around b t O a ["<"%char] r ltac:(sep) G) as [Ga Gr]. apply good_app; auto.
    cbn [remove_ignore_case]. rewrite R, remove_skip. apply IH; auto.
    + rewrite skipn_length. rewrite app_length in L. cbn [length] in L. lia.
    + apply (good_skipn_S b t O r 8 ">"%char); auto.
Qed.

Theorem galleryLine_sound : sound b (galleryLine cfg).
Proof.
  intros t s O G. unfold galleryLine. eapply holds_bind; [apply escapeImages_sound; auto|].
  - destruct (hasNonInlineParameter s); auto. pose proof (good_split b t O !"|" s ltac:(sep) G) as F. destruct (split _ s) as [|name ps]; auto.
    inversion F; subst. apply good_join; auto; [apply good_plain; nodollar|]. constructor; auto. constructor; auto. apply good_plain; nodollar.
  - intros line t' O' G' Gl. apply holds_ret; auto. destruct line; [apply good_nil|]. apply good_app; [apply good_plain; nodollar|].
    apply good_app; auto. apply good_plain; nodollar.
Qed.

Lemma galleries_sound : forall lines within t, ok b t -> Forall (good b t) lines -> holds b t (parseGalleries_go cfg lines within) (fun t' => Forall (good b t')).
Proof.
  induction lines as [|line lines IH]; intros within t O F; cbn [parseGalleries_go]; [apply holds_ret; auto|].
  inversion F as [|? ? Hl Fl]; subst. pose proof (good_trim b t O line Hl) as Ht.
  assert (K : forall w x, good b t x -> holds b t (do! r := parseGalleries_go cfg lines w in ret (x :: r)) (fun t' => Forall (good b t'))).
  { intros w x X. eapply holds_bind; [apply IH; auto|]. intros r t' O' G' Fr. apply holds_ret; auto. constructor; auto. eapply good_mono; eauto. }
  destruct (HasPrefixIgnoreCase _ _).
  - destruct (EqualsIgnoreCase _ _); [apply IH; auto|]. apply K. eapply remove_good; eauto.
  - match goal with |- holds _ _ (let '(_, _) := ?x in _) _ => set (p := x) end.
    assert (Hp : good b t (snd p)).
    { unfold p. destruct (remove_start_tag _ _) as [l|] eqn:E; cbn [snd]; auto. eapply start_tag_good; eauto. }
    destruct p as [w l]. cbn [snd] in Hp. destruct w; [|apply K; auto]. destruct l as [|c l]; [apply IH; auto|].
    eapply holds_bind; [apply galleryLine_sound; auto|]. intros x t' O' G' Gx. eapply holds_bind; [apply IH; auto; eapply Forall_good_mono; eauto|].
    intros r t2 O2 G2 Fr. apply holds_ret; auto. constructor; auto. eapply good_mono; eauto.
Qed.

Theorem parseGalleries_sound : sound b (parseGalleries cfg).
Proof.
  intros t s O G. unfold parseGalleries. eapply holds_bind; [apply galleries_sound; auto; apply good_split; auto; apply nl_sep|].
  intros lines t' O' G' F. apply holds_ret; auto. apply good_join; auto. apply nl_good.
Qed.

Lemma imageMaps_sound : forall n lines within t, length lines <= n -> ok b t -> Forall (good b t) lines -> holds b t (parseImageMaps_go cfg lines within) (fun t' => Forall (good b t')).
Proof.
  induction n as [|n IH]; intros lines within t L O F; [destruct lines; [apply holds_ret; auto|cbn in L; lia]|].
  destruct lines as [|line lines]; cbn [parseImageMaps_go]; [apply holds_ret; auto|]. cbn [length] in L.
  inversion F as [|? ? Hl Fl]; subst.
  assert (K : forall image rest, good b t image -> Forall (good b t) rest -> length rest <= n ->
    holds b t (do! image := escapeImages cfg image in do! r := parseImageMaps_go cfg rest true in ret ((!"[[" ++ image ++ !"]]") :: r)) (fun t' => Forall (good b t'))).
  { intros image rest Gi Fr Lr. eapply holds_bind; [apply escapeImages_sound; auto|]. intros x t' O' G' Gx.
    eapply holds_bind; [apply IH; auto; eapply Forall_good_mono; eauto|]. intros r t2 O2 G2 F2. apply holds_ret; auto. constructor; auto.
    apply good_app; [apply good_plain; nodollar|]. apply good_app; [eapply good_mono; eauto|apply good_plain; nodollar]. }
  destruct (_ || _); [apply IH; auto; lia|]. destruct (remove_start_tag _ _) as [l|] eqn:E.
  - pose proof (good_trim b t O l (start_tag_good _ _ _ _ O Hl E)) as Gl. destruct (trim_space l) as [|c l'].
    + destruct lines as [|next lines]; [apply holds_panic|]. inversion Fl; subst. cbn [length] in L. apply K; auto. lia.
    + apply K; auto. lia.
  - eapply holds_bind; [apply IH; auto; lia|]. intros r t' O' G' Fr. apply holds_ret; auto. constructor; auto. eapply good_mono; eauto.
Qed.

Theorem parseImageMaps_sound : sound b (parseImageMaps cfg).
Proof.
  intros t s O G. unfold parseImageMaps. eapply holds_bind; [eapply imageMaps_sound; eauto; apply good_split; auto; apply nl_sep|].
  intros lines t' O' G' F. apply holds_ret; auto. apply good_join; auto. apply nl_good.
Qed.

Lemma options_sound : forall options o t, ok b t -> Forall (good b t) options -> good b t (caption o) ->
  holds b t (parseOptions tokenizeContent options o) (fun t' o' => good b t' (caption o')).
Proof.
  induction options as [|option options IH]; intros o t O F Gc; cbn [parseOptions]; [apply holds_ret; auto|].
  inversion F as [|? ? Ho Fo]; subst. destruct (HasAnyPrefix _ _); [apply IH; auto|]. destruct (has_suffix _ _).
  - destruct (option_size option). apply IH; auto.
  - destruct (_ && _); [|apply IH; auto]. eapply holds_bind; [apply rec_sound; auto|]. intros c t' O' G' Gc'. apply IH; auto. eapply Forall_good_mono; eauto.
Qed.

Lemma imageToken_sound : sound b (image_token cfg tokenizeContent).
Proof.
  intros t s O G. unfold image_token.
  pose proof (good_split b t O !"|" s ltac:(sep) G) as Fs. set (options := split _ s) in *.
  eapply (holds_bind _ _ b t _ _ (fun _ _ => True)).
  { intros a t' E. destruct (split2 _ _) as [|x [|f l]]; try discriminate. injection E as _ <-. split; [auto|split; auto]. apply grows_refl. }
  intros f t1 O1 G1 _. eapply holds_bind.
  { apply options_sound; auto; [|apply good_nil]. apply Forall_forall. intros x I. apply filter_In in I as [I _].
    rewrite Forall_forall in Fs. eapply good_mono; eauto. }
  intros o t2 O2 G2 Go.
  match goal with |- holds _ _ (let '(_, _) := ?x in _) _ => set (p := x) end.
  assert (Hp : type_ok (fst p) /\ Forall (good b t2) (texts (snd p))).
  { unfold p. destruct (isImage o); cbn [fst snd texts]; split; try apply nowiki_types; repeat constructor. destruct (hasCaption o); auto. apply good_nil. }
  destruct p as [ty v]. cbn [fst snd] in Hp. destruct Hp as [Hty Hv].
  apply (holds_token _ b t2 ty v (fun k => ret k)); auto. intros k t' O' G' K. apply holds_ret; auto. apply key_good. auto.
Qed.

Lemma link_start_at : forall s i j, find_link_start s = Some (i, j) -> nth_error s i = Some "["%char /\ i < j /\ nth_error s (pred j) = Some ":"%char.
Proof.
  assert (P : forall s n, prefix_end s = Some n -> nth_error s n = Some ":"%char).
  { induction s as [|c s IH]; intros n H; [discriminate|]. cbn [prefix_end] in H. destruct (Ascii.eqb c ":") eqn:E.
    - injection H as <-. apply Ascii.eqb_eq in E. subst. auto.
    - destruct (Ascii.eqb c "]"); [discriminate|]. destruct (prefix_end s) as [j|]; [|discriminate]. injection H as <-. cbn. auto. }
  induction s as [|c s IH]; intros i j H; [discriminate|]. cbn [find_link_start] in H. destruct (link_start_match (c :: s)) as [n|] eqn:E.
  - injection H as <- <-. unfold link_start_match in E. destruct (has_prefix !"[[" (c :: s)) eqn:Q; [|discriminate].
    apply has_prefix_spec in Q as (r & Q). rewrite Q in *. change (skipn 2 (!"[[" ++ r)) with r in E. destruct r as [|d r]; [discriminate|].
    destruct (Ascii.eqb d "]"); [discriminate|]. destruct (prefix_end r) as [m|] eqn:Em; [|discriminate]. injection E as <-. repeat split; auto; [lia|].
    cbn. apply P. auto.
  - destruct (find_link_start s) as [[i' j']|]; [|discriminate]. injection H as <- <-. cbn [fst snd]. destruct (IH i' j' eq_refl) as (A & B & C).
    repeat split; auto; [lia|]. destruct j'; [lia|]. cbn in *. auto.
Qed.

Lemma images_sound : forall fuel s t, ok b t -> good b t s -> holds b t (parseImages_check b cfg tokenizeContent fuel s) (good b).
Proof.
  induction fuel as [|fuel IH]; intros s t O G; cbn [parseImages_check]; [apply holds_fuel|].
  destruct (find_link_start s) as [[i j]|] eqn:E; [|apply holds_ret; auto]. apply link_start_at in E as (Ni & Lij & Nj).
  destruct (FindCorrespondingCloseToken s j _ _) as [e|] eqn:F; [|apply holds_panic].
  apply findClose_at in F as (Le & F); [|discriminate|discriminate]. specialize (F 0 "]"%char eq_refl). rewrite Nat.add_0_r in F.
  eapply holds_bind; [apply rec_sound; auto|].
  { eapply good_sub_at; eauto. apply skip_good; auto. right. exists ":"%char. auto. }
  intros c1 t1 O1 G1 Gc1. eapply holds_bind; [apply escapeImages_sound; auto|]. intros c2 t2 O2 G2 Gc2.
  eapply (holds_bind _ _ b t2 _ _ (good b)).
  { destruct (_ || _); [apply holds_ret; auto; apply good_nil|apply imageToken_sound; auto]. }
  intros k t3 O3 G3 Gk. destruct (length s <? e + 2); [apply holds_panic|].
  assert (G03 : grows t t3) by (eapply grows_trans; [|eauto]; eapply grows_trans; eauto). apply (good_mono _ _ _ _ G03) in G.
  destruct (b && has_prefix !"$" (skipn (S e) s)) eqn:C; [apply holds_panic|].
  apply IH; auto. apply good_app; [eapply good_firstn; eauto|]. apply good_app; auto. intros B. rewrite B in C. cbn [andb] in C.
  pose proof (good_skipn_S b t3 O3 s e "]"%char G F eq_refl) as K. replace (e + 2) with (S e + 1) by lia. rewrite <- skipn_skipn_add.
  destruct (skipn (S e) s) as [|d r]; [exact (K B)|]. apply (good_plain_prefix b t3 O3 [d]); auto.
  intros [D|D]; [subst d; discriminate C|exact D].
Qed.

(** ** Lists *)

Definition items_good (t : Tokenizer) (items : list ListItemToken) : Prop := Forall (good b t) (flat_map item_texts items).

Lemma items_mono : forall t t' items, grows t t' -> items_good t items -> items_good t' items.
Proof. intros. eapply Forall_good_mono; eauto. Qed.

Lemma addSubList_good : forall t p items l, items_good t items -> Forall (good b t) (list_texts l) -> items_good t (addSubList p items l).
Proof.
  intros t p items l H L. unfold addSubList. destruct (rev items) as [|[ty c subs] before] eqn:R.
  - unfold items_good. cbn [flat_map item_texts app]. rewrite !app_nil_r. constructor; auto. apply good_nil.
  - assert (E : items = rev before ++ [mkListItemToken ty c subs]) by (rewrite <- (rev_involutive items), R; auto).
    subst items. unfold items_good in *. rewrite flat_map_app in *. apply Forall_app in H as [H1 H2]. apply Forall_app. split; auto.
    cbn [flat_map item_texts] in *. rewrite app_nil_r in *. inversion H2; subst. constructor; auto. rewrite flat_map_app. apply Forall_app. split; auto.
    cbn [flat_map]. rewrite app_nil_r. auto.
Qed.

Lemma lineItems_sound : forall p text t, ok b t -> good b t text -> holds b t (lineItems tokenizeContent p text) items_good.
Proof.
  intros p text t O G. unfold lineItems.
  assert (K : forall ty, holds b t (do! content := tokenizeContent text in ret [mkListItemToken ty content []]) items_good).
  { intros ty. eapply holds_bind; [apply rec_sound; auto|]. intros c t' O' G' Gc. apply holds_ret; auto. unfold items_good. cbn. repeat constructor; auto. }
  destruct (Ascii.eqb p ";"); [|destruct (Ascii.eqb p ":"); apply K].
  pose proof (good_split2 b t O !":" text ltac:(sep) G) as F. destruct (split2 _ text) as [|h [|i [|]]]; try apply K.
  inversion F as [|? ? Fh F1]; subst. inversion F1; subst. eapply holds_bind; [apply rec_sound; auto|]. intros c t' O' G' Gc.
  eapply holds_bind; [apply rec_sound; auto; eapply good_mono; eauto|]. intros c2 t2 O2 G2 Gc2. apply holds_ret; auto. unfold items_good. cbn.
  repeat constructor; auto. eapply good_mono; eauto.
Qed.

Definition list_char (c : ascii) : Prop := isListStartingCharacter c = true.
Definition list_line (l : str) : Prop := exists c r, l = c :: r /\ list_char c.

Lemma list_char_key : forall c, list_char c -> key_char c = false /\ c <> "$"%char.
Proof.
  intros c H. unfold list_char, isListStartingCharacter in H. rewrite !orb_true_iff, !Ascii.eqb_eq in H.
  destruct H as [[[->| ->]| ->]| ->]; split; auto; discriminate.
Qed.

Lemma belongs_line : forall l p, list_char p -> belongsToListPrefix l p = true -> list_line l.
Proof.
  intros [|c r] p P H; [discriminate|]. exists c, r. split; auto. cbn [belongsToListPrefix] in H. destruct (Ascii.eqb p ";").
  - apply orb_true_iff in H. rewrite !Ascii.eqb_eq in H. destruct H as [->| ->]; reflexivity.
  - apply Ascii.eqb_eq in H. subst. auto.
Qed.

Lemma take_while_Forall : forall (P : str -> Prop) f l, Forall P l -> Forall P (take_while f l) /\ Forall (fun x => f x = true) (take_while f l).
Proof.
  intros P f l F. induction F as [|x l X F IH]; cbn [take_while]; auto. destruct (f x) eqn:E; auto. destruct IH. auto.
Qed.

Lemma tl_good : forall t l, ok b t -> list_line l -> good b t l -> good b t (tl l).
Proof.
  intros t l O (c & r & -> & C) G. cbn. eapply (good_plain_prefix b t O [c]); eauto. intros [D|[]]. apply list_char_key in C. apply C. auto.
Qed.

Lemma listItems_sound : forall sub listPrefix,
  (forall lines p t, ok b t -> list_char p -> Forall (good b t) lines -> holds b t (sub lines p) (fun t' l => Forall (good b t') (list_texts l))) ->
  forall lines skip items t, ok b t -> Forall (good b t) lines -> Forall list_line lines -> items_good t items ->
    holds b t (listItems tokenizeContent sub listPrefix lines skip items) items_good.
Proof.
  intros sub listPrefix Hs. induction lines as [|line lines IH]; intros skip items t O F FL Gi; cbn [listItems]; [apply holds_ret; auto|].
  inversion F as [|? ? Hl Fl]; subst. inversion FL as [|? ? Ll LL]; subst. destruct skip as [|k]; [|apply IH; auto].
  destruct line as [|p text]; [apply IH; auto|]. pose proof (tl_good t (p :: text) O Ll Hl) as Gt. cbn [tl] in Gt.
  assert (K : holds b t (do! more := lineItems tokenizeContent p text in listItems tokenizeContent sub listPrefix lines 0 (items ++ more)) items_good).
  { eapply holds_bind; [apply lineItems_sound; auto|]. intros more t' O' G' Gm. apply IH; auto; [eapply Forall_good_mono; eauto|].
    unfold items_good. rewrite flat_map_app. apply Forall_app. split; auto. eapply items_mono; eauto. }
  destruct text as [|q text']; [apply K|]. destruct (isListStartingCharacter q) eqn:Q; [|apply K].
  eapply holds_bind.
  - apply Hs; auto. apply take_while_Forall. constructor; [exact Gt|]. apply Forall_forall. intros x I. apply in_map_iff in I as (y & <- & I).
    rewrite Forall_forall in Fl, LL. apply tl_good; auto.
  - intros l t' O' G' Gl. apply IH; auto; [eapply Forall_good_mono; eauto|]. apply addSubList_good; auto. eapply items_mono; eauto.
Qed.

Lemma listKey_type : forall p, type_ok (getListTokenKey p).
Proof. intros p. unfold getListTokenKey. destruct (Ascii.eqb p "*"); [|destruct (Ascii.eqb p "#")]; apply nowiki_types. Qed.

Lemma tokenizeList_sound : forall fuel lines p t, ok b t -> list_char p -> Forall (good b t) lines ->
  holds b t (tokenizeList tokenizeContent fuel lines p) (fun t' r => Forall (good b t') (list_texts (fst (fst r))) /\ In (snd (fst r)) (map_keys t')).
Proof.
  induction fuel as [|fuel IH]; intros lines p t O P F; cbn [tokenizeList]; [apply holds_fuel|].
  assert (Ft : Forall (good b t) (map trim_space lines)).
  { apply Forall_forall. intros x I. apply in_map_iff in I as (y & <- & I). rewrite Forall_forall in F. apply good_trim; auto. }
  destruct (take_while_Forall _ (fun line => belongsToListPrefix line p) _ Ft) as [F1 F2]. set (listLines := take_while _ _) in *.
  eapply holds_bind.
  - apply listItems_sound; auto; [|eapply Forall_impl; [|exact F2]; intros l; apply belongs_line; auto|constructor].
    intros lines' q t' O' Q F'. eapply holds_bind; [apply IH; auto|]. intros [[l k] n] t2 O2 G2 [Hl _]. apply holds_ret; auto.
  - intros items t1 O1 G1 Hi. 
    match goal with |- holds b t1 (bindM (getToken ?ty) _) _ => 
      apply (holds_token _ b t1 ty (ListTokenOf (AnyListToken (kind_of_list p) items)) (fun k => ret (AnyListToken (kind_of_list p) items, k, length listLines))) end; auto.
    + apply listKey_type.
    + intros k t' O' G' K. apply holds_ret; auto. cbn [fst snd]. split; auto. cbn [list_texts]. eapply items_mono; eauto.
Qed.

Lemma lists_sound : forall lines skip t, ok b t -> Forall (good b t) lines -> holds b t (parseLists_go tokenizeContent lines skip) (fun t' => Forall (good b t')).
Proof.
  induction lines as [|line lines IH]; intros skip t O F; cbn [parseLists_go]; [apply holds_ret; auto|].
  inversion F as [|? ? Hl Fl]; subst. destruct skip as [|k]; [|apply IH; auto].
  assert (K : holds b t (do! r := parseLists_go tokenizeContent lines 0 in ret (line :: r)) (fun t' => Forall (good b t'))).
  { eapply holds_bind; [apply IH; auto|]. intros r t' O' G' Fr. apply holds_ret; auto. constructor; auto. eapply good_mono; eauto. }
  destruct (trim_space line) as [|p s]; [apply K|]. destruct (isListStartingCharacter p) eqn:P; [|apply K].
  eapply holds_bind; [apply tokenizeList_sound; auto|]. intros [[l k] n] t1 O1 G1 [_ Hk]. cbn [fst snd] in Hk.
  eapply holds_bind; [apply IH; auto; eapply Forall_good_mono; eauto|]. intros r t2 O2 G2 Fr. apply holds_ret; auto. constructor; auto.
  eapply good_mono; eauto. apply key_good. auto.
Qed.

Theorem parseLists_sound : sound b (parseLists tokenizeContent).
Proof.
  intros t s O G. unfold parseLists. eapply holds_bind; [apply lists_sound; auto; apply good_split; auto; apply nl_sep|].
  intros lines t' O' G' F. apply holds_ret; auto. apply good_join; auto. apply nl_good.
Qed.

(** ** Tables *)

Lemma entry_sound : forall s t, ok b t -> good b t s -> holds b t (tokenizeTableEntry tokenizeContent s) (fun t' p => good b t' (fst p)).
Proof.
  intros s t O G. unfold tokenizeTableEntry.
  assert (K : forall x a, good b t x -> holds b t (do! entryText := tokenizeContent x in ret (entryText, a : list str)) (fun t' p => good b t' (fst p))).
  { intros x a Gx. eapply holds_bind; [apply rec_sound; auto|]. intros c t' O' G' Gc. apply holds_ret; auto. }
  pose proof (good_split b t O !"|" s ltac:(sep) G) as F. destruct (split _ s) as [|a [|x l]]; try (apply K; auto).
  inversion F as [|? ? Fa F1]; subst. inversion F1; subst. auto.
Qed.

Lemma continuation_Forall : forall (P : str -> Prop) lines c r, Forall P lines -> continuation lines = Ok (c, r) -> Forall P c /\ Forall P r.
Proof.
  intros P lines. induction lines as [|l lines IH]; intros c r F E; [discriminate|]. inversion F; subst. cbn [continuation] in E.
  destruct (starts_entry l); [injection E as <- <-; auto|]. destruct (continuation lines) as [[c' r']| | |]; try discriminate. cbn in E. injection E as <- <-.
  destruct (IH c' r') as [A B]; auto.
Qed.

Lemma cell_lines_Forall : forall (P : str -> Prop) lines c r, Forall P lines -> cell_lines lines = Ok (c, r) -> Forall P c /\ Forall P r.
Proof.
  intros P [|l lines] c r F E; [discriminate|]. inversion F; subst. cbn [cell_lines] in E.
  destruct (starts_entry _); [injection E as <- <-; auto|]. destruct (continuation lines) as [[c' r']| | |] eqn:C; try discriminate. cbn in E. injection E as <- <-.
  destruct (continuation_Forall P lines c' r') as [A B]; auto.
Qed.

Lemma caption_lines_Forall : forall t lines c r, ok b t -> Forall (good b t) lines -> caption_lines lines = Ok (c, r) -> Forall (good b t) c /\ Forall (good b t) r.
Proof.
  intros t lines. induction lines as [|l lines IH]; intros c r O F E; [discriminate|]. inversion F; subst. cbn [caption_lines] in E.
  destruct (starts_entry _); [injection E as <- <-; auto|]. destruct (caption_lines lines) as [[c' r']| | |]; try discriminate. cbn in E. injection E as <- <-.
  destruct (IH c' r') as [A B]; auto. split; auto. constructor; auto. apply good_trim; auto.
Qed.

Lemma nl_lines_good : forall t l, Forall (good b t) l -> good b t (concat (map (fun l => nl ++ l) l)).
Proof.
  intros t l F. apply good_concat. apply Forall_forall. intros x I. apply in_map_iff in I as (y & <- & I). rewrite Forall_forall in F.
  apply good_app; [apply nl_good|auto].
Qed.

Lemma continuation_text_good : forall t l, ok b t -> Forall (good b t) l -> good b t (continuation_text l).
Proof.
  intros t l O F. destruct F as [|x l X F]; [apply good_nil|]. cbn [continuation_text]. apply nl_lines_good. constructor; auto. apply good_trim; auto.
Qed.

Definition row_good (t : Tokenizer) (row : TableRowToken) : Prop := Forall (fun c => good b t (ColContent c)) row.
Lemma row_mono : forall t t' row, grows t t' -> row_good t row -> row_good t' row.
Proof. intros t t' row G H. eapply Forall_impl; [|exact H]. intros c. apply good_mono. auto. Qed.

Lemma row_sound : forall fuel lines t, ok b t -> Forall (good b t) lines ->
  holds b t (tokenizeTableRow_go tokenizeContent fuel lines) (fun t' p => row_good t' (fst p) /\ Forall (good b t') (snd p)).
Proof.
  induction fuel as [|fuel IH]; intros lines t O F; destruct lines as [|line lines]; cbn [tokenizeTableRow_go];
    try (apply holds_ret; auto; split; constructor); [apply holds_fuel|].
  inversion F as [|? ? Hl Fl]; subst. destruct (_ || _ || _); [apply holds_ret; auto; split; auto; constructor|].
  eapply (holds_bind _ _ b t _ _ (fun t' p => t' = t /\ Forall (good b t) (fst p) /\ Forall (good b t) (snd p))).
  { intros [c r] t' E. unfold lift in E. destruct (cell_lines lines) as [[c' r']| | |] eqn:C; try discriminate. cbn in E. injection E as <- <- <-.
    repeat split; auto; try apply O; [apply grows_refl| |]; cbn [fst snd]; eapply (cell_lines_Forall _ _ c' r'); eauto. }
  intros [more after] t1 _ _ (-> & Fm & Fa). cbn [fst snd] in Fm, Fa. eapply holds_bind.
  { apply entry_sound; auto. apply good_app; [|apply continuation_text_good; auto].
    apply good_trim; auto. apply good_trim_prefix; auto; [nodollar|]. apply good_trim_prefix; auto; [nodollar|]. apply good_trim; auto. }
  intros [text attributes] t2 O2 G2 Gt. cbn [fst] in Gt. eapply holds_bind; [apply IH; auto; eapply Forall_good_mono; eauto|].
  intros [cols r] t3 O3 G3 [Hc Hr]. apply holds_ret; auto. cbn [fst snd] in *. split; auto. constructor; auto. cbn [ColContent].
  eapply good_mono; [exact G3|]. apply good_trim; auto.
Qed.

Lemma caption_sound : forall line lines t, ok b t -> good b t line -> Forall (good b t) lines ->
  holds b t (tokenizeTableCaption tokenizeContent line lines) (fun t' p => good b t' (fst p) /\ Forall (good b t') (snd p)).
Proof.
  intros line lines t O Gl F. unfold tokenizeTableCaption.
  eapply (holds_bind _ _ b t _ _ (fun t' p => t' = t /\ Forall (good b t) (fst p) /\ Forall (good b t) (snd p))).
  { intros [c r] t' E. unfold lift in E. destruct (caption_lines lines) as [[c' r']| | |] eqn:C; try discriminate. cbn in E. injection E as <- <- <-.
    repeat split; auto; try apply O; [apply grows_refl| |]; cbn [fst snd]; eapply (caption_lines_Forall _ _ c' r'); eauto. }
  intros [more after] t1 _ _ (-> & Fm & Fa). cbn [fst snd] in Fm, Fa. eapply holds_bind.
  { apply entry_sound; auto. apply good_trim_prefix; auto; [nodollar|]. apply good_app; [apply good_trim; auto|apply nl_lines_good; auto]. }
  intros [text attributes] t2 O2 G2 Gt. cbn [fst] in Gt. apply holds_ret; auto. cbn [fst snd]. split; [apply good_trim; auto|eapply Forall_good_mono; eauto].
Qed.

Definition rows_good (t : Tokenizer) (rows : list TableRowToken) : Prop := Forall (row_good t) rows.
Lemma rows_mono : forall t t' rows, grows t t' -> rows_good t rows -> rows_good t' rows.
Proof. intros t t' rows G H. eapply Forall_impl; [|exact H]. intros c. apply row_mono. auto. Qed.

Lemma table_sound : forall fuel lines rows cap t, ok b t -> Forall (good b t) lines -> rows_good t rows -> good b t cap ->
  holds b t (tokenizeTable_go tokenizeContent fuel lines rows cap) (fun t' p => rows_good t' (fst p) /\ good b t' (snd p)).
Proof.
  induction fuel as [|fuel IH]; intros lines rows cap t O F Hr Hc; destruct lines as [|line lines]; cbn [tokenizeTable_go];
    try (apply holds_ret; auto; fail); [apply holds_fuel|].
  inversion F as [|? ? Hl Fl]; subst.
  assert (K : forall ls, Forall (good b t) ls ->
    holds b t (do! (rowToken, after) := tokenizeTableRow tokenizeContent ls in tokenizeTable_go tokenizeContent fuel after (rows ++ [rowToken]) cap)
      (fun t' p => rows_good t' (fst p) /\ good b t' (snd p))).
  { intros ls Fs. eapply holds_bind; [apply row_sound; auto|]. intros [row after] t' O' G' [Hrow Ha]. cbn [fst snd] in *. apply IH; auto.
    - apply Forall_app. split; [eapply rows_mono; eauto|]. constructor; auto.
    - eapply good_mono; eauto. }
  destruct (has_prefix !"|+" _).
  { eapply holds_bind; [apply caption_sound; auto|]. intros [c after] t' O' G' [Hcap Ha]. cbn [fst snd] in *. apply IH; auto. eapply rows_mono; eauto. }
  destruct (has_prefix !"!" (trim_space line)); [apply K; auto|]. destruct (has_prefix !"|-" _).
  { destruct lines as [|next lines]; [apply holds_panic|]. destruct (_ || _); [apply K; auto|apply IH; auto]. }
  destruct (has_prefix !"|}" _); [apply holds_ret; auto|]. destruct (has_prefix !"|" (trim_space line)); [apply K; auto|apply IH; auto].
Qed.

Lemma tokenizeTable_sound : forall s t, ok b t -> good b t s -> holds b t (tokenizeTable tokenizeContent s) (fun t' v => Forall (good b t') (texts v)).
Proof.
  intros s t O G. unfold tokenizeTable. eapply holds_bind.
  - apply table_sound; auto; [|constructor|apply good_nil]. apply good_split; auto; [apply nl_sep|].
    apply good_replace; auto; [sep|apply good_plain; nodollar|]. apply good_replace; auto; [sep|apply good_plain; nodollar].
  - intros [rows cap] t' O' G' [Hr Hc]. cbn [fst snd] in *. apply holds_ret; auto. cbn [texts]. constructor; auto.
    apply Forall_forall. intros x I. apply in_flat_map in I as (row & Ir & I). apply in_map_iff in I as (c & <- & Ic).
    unfold rows_good, row_good in Hr. rewrite Forall_forall in Hr. specialize (Hr _ Ir). rewrite Forall_forall in Hr. auto.
Qed.

Lemma finishTable_sound : forall lines t, ok b t -> Forall (good b t) lines -> holds b t (finishTable tokenizeContent lines) (good b).
Proof.
  intros lines t O F. unfold finishTable. eapply holds_bind; [apply tokenizeTable_sound; auto; apply good_join; auto; apply nl_good|].
  intros v t1 O1 G1 Hv. apply (holds_token _ b t1 TOKEN_TABLE v (fun k => ret k)); auto; [apply nowiki_types|].
  intros k t' O' G' K. apply holds_ret; auto. apply key_good. auto.
Qed.

Lemma tables_go_sound : forall fuel lines t, ok b t -> Forall (good b t) lines ->
  holds b t (tokenizeTables_go tokenizeContent fuel lines) (fun t' p => Forall (good b t') (fst p) /\ Forall (good b t') (snd p)).
Proof.
  induction fuel as [|fuel IH]; intros lines t O F; destruct lines as [|line lines]; cbn [tokenizeTables_go];
    try (apply holds_ret; auto; fail); [apply holds_fuel|].
  inversion F as [|? ? Hl Fl]; subst. destruct (_ || _).
  - eapply holds_bind; [apply IH; auto|]. intros [nested after] t1 O1 G1 [Hn Ha]. cbn [fst snd] in *.
    eapply holds_bind; [apply finishTable_sound; auto; constructor; auto; eapply good_mono; eauto|]. intros k t2 O2 G2 Gk.
    eapply holds_bind; [apply IH; auto; eapply Forall_good_mono; eauto|]. intros [r after2] t3 O3 G3 [Hr Ha2]. cbn [fst snd] in *.
    apply holds_ret; auto. cbn [fst snd]. split; auto. constructor; auto. eapply good_mono; eauto.
  - destruct (has_prefix _ _); [apply holds_ret; auto; split; cbn [fst snd]; auto|].
    eapply holds_bind; [apply IH; auto|]. intros [r after] t1 O1 G1 [Hr Ha]. apply holds_ret; auto. cbn [fst snd] in *. split; auto. constructor; auto. eapply good_mono; eauto.
Qed.

Lemma tokenizeTables_sound : forall line lines t, ok b t -> good b t line -> Forall (good b t) lines ->
  holds b t (tokenizeTables tokenizeContent line lines) (fun t' p => good b t' (fst p) /\ Forall (good b t') (snd p)).
Proof.
  intros line lines t O Gl F. unfold tokenizeTables. eapply holds_bind; [apply tables_go_sound; auto|]. intros [r after] t1 O1 G1 [Hr Ha]. cbn [fst snd] in *.
  eapply holds_bind; [apply finishTable_sound; auto; constructor; auto; eapply good_mono; eauto|]. intros k t2 O2 G2 Gk. apply holds_ret; auto. cbn [fst snd].
  split; auto. eapply Forall_good_mono; eauto.
Qed.

Lemma table_start_colons : forall s p, table_start s = Some p -> ~ dollars p.
Proof.
  induction s as [|c s IH]; intros p H; [discriminate|]. cbn [table_start] in H. destruct (Ascii.eqb c ":") eqn:E.
  - apply Ascii.eqb_eq in E. subst c. destruct (table_start s) as [q|]; [|discriminate]. injection H as <-. intros [D|D]; [discriminate|]. eapply IH; eauto.
  - destruct (has_prefix _ _); [|discriminate]. injection H as <-. intros [].
Qed.

Lemma parseTables_go_sound : forall fuel lines t, ok b t -> Forall (good b t) lines -> holds b t (parseTables_go tokenizeContent fuel lines) (fun t' => Forall (good b t')).
Proof.
  induction fuel as [|fuel IH]; intros lines t O F; destruct lines as [|line lines]; cbn [parseTables_go];
    try (apply holds_ret; auto; fail); [apply holds_fuel|].
  inversion F as [|? ? Hl Fl]; subst. destruct (table_start _) as [p|] eqn:P.
  - eapply holds_bind; [apply tokenizeTables_sound; auto|]. intros [k after] t1 O1 G1 [Gk Ha]. cbn [fst snd] in *.
    eapply holds_bind; [apply IH; auto|]. intros r t2 O2 G2 Fr. apply holds_ret; auto. constructor; auto. apply good_app; [|eapply good_mono; eauto].
    apply good_plain. eapply table_start_colons; eauto.
  - eapply holds_bind; [apply IH; auto|]. intros r t1 O1 G1 Fr. apply holds_ret; auto. constructor; auto. eapply good_mono; eauto.
Qed.

Theorem parseTables_sound : sound b (parseTables tokenizeContent).
Proof.
  intros t s O G. unfold parseTables. eapply holds_bind; [apply parseTables_go_sound; auto; apply good_split; auto; apply nl_sep|].
  intros lines t' O' G' F. apply holds_ret; auto. apply good_join; auto. apply nl_good.
Qed.

(** ** Paragraphs *)

Lemma paragraphs_Forall : forall (P : str -> Prop), P MARKER_PARAGRAPH -> forall lines before i c, Forall P lines -> Forall P (parseParagraphs_go before lines i c).
Proof.
  intros P Pm lines. induction lines as [|l lines IH]; intros before i c F; cbn [parseParagraphs_go]; [constructor|]. inversion F; subst.
  destruct (is_token_line l); [constructor; auto|]. destruct i.
  - destruct (negb _); auto. destruct c; cbn [app]; repeat constructor; auto.
  - destruct (_ && _); auto.
Qed.

Lemma parseParagraphs_good : forall t s, ok b t -> good b t s -> good b t (parseParagraphs s).
Proof.
  intros t s O G. unfold parseParagraphs. apply good_join; auto; [apply nl_good|]. apply paragraphs_Forall.
  - intros _. apply keyed_single. unfold keys. apply in_app_iff. left. cbn. auto 10.
  - apply good_split; auto. apply nl_sep.
Qed.

(** ** All passes *)

Theorem later_sound : sound b (later_check b cfg tokenizeContent).
Proof.
  intros t1 s1 O1 G1. unfold later_check.
  eapply holds_bind; [apply parseBoldAndItalic_sound; auto|]. intros s2 t2 O2 _ G2.
  eapply holds_bind; [apply parseHeadings_sound; auto|]. intros s3 t3 O3 _ G3.
  eapply holds_bind; [apply parseReferences_sound; auto|]. intros s4 t4 O4 _ G4.
  eapply holds_bind; [apply parseInternalLinks_sound; auto|]. intros s5 t5 O5 _ G5.
  eapply holds_bind; [apply parseGalleries_sound; auto|]. intros s6 t6 O6 _ G6.
  eapply holds_bind; [apply parseImageMaps_sound; auto|]. intros s7 t7 O7 _ G7.
  eapply holds_bind; [apply images_sound; auto|]. intros s8 t8 O8 _ G8.
  eapply holds_bind; [apply parseExternalLinks_sound; auto|]. intros s9 t9 O9 _ G9.
  eapply holds_bind; [apply parseMath_sound; auto|]. intros s10 t10 O10 _ G10.
  eapply holds_bind; [apply parseLists_sound; auto|]. intros s11 t11 O11 _ G11.
  eapply holds_bind; [apply parseTables_sound; auto|]. intros s12 t12 O12 _ G12.
  apply holds_ret; auto. apply parseParagraphs_good; auto.
Qed.

Theorem passes_sound : sound b (passes_check b cfg tokenizeContent).
Proof.
  intros t s O G. unfold passes_check. eapply holds_bind; [apply parseNowiki_sound; auto|]. intros s1 t1 O1 _ G1. apply later_sound; auto.
Qed.
End Recursive.

Theorem tokenizeContent_sound : forall cfg b fuel, sound b (tokenizeContent_check b cfg fuel).
Proof.
  intros cfg b. induction fuel as [|fuel IH]; intros t s O G; cbn [tokenizeContent_check]; [apply holds_fuel|].
  eapply holds_bind; [apply passes_sound; auto|]. intros s' t' O' G' Gs. destruct (str_eqb s' s); [apply holds_ret; auto|apply IH; auto].
Qed.
