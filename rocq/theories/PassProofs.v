(** * The passes of the tokenizer create resolvable texts *)

From Coq Require Import Ascii String.
From Coq Require Import List Arith ZArith Bool Lia.
From Verif Require Import GoStr GoStrFacts TextFacts UtilModel ConfigModel BracketModel BracketProofs.
From Verif Require Import TokenModel TokenSpec TokenProofs FormattingModel FormattingSpec FormattingProofs ParagraphModel ParagraphSpec ParagraphProofs.
From Verif Require Import HeadingModel LinkModel ImageModel ListModel TableModel ReferenceModel TokenizerModel.
Import ListNotations.
Local Open Scope list_scope.

(** ** Texts *)

Definition no_dollar (s : str) : bool := forallb (fun c => negb (Ascii.eqb c "$")) s.
Definition separatorb (s : str) : bool := match s with c :: _ => negb (key_char c) && no_dollar s | [] => false end.

Lemma no_dollar_spec : forall s, no_dollar s = true -> ~ dollars s.
Proof.
  intros s H D. unfold no_dollar in H. rewrite forallb_forall in H. specialize (H _ D). discriminate.
Qed.

Lemma separator_spec : forall s, separatorb s = true -> separator s.
Proof.
  intros [|c s] H; [discriminate|]. cbn [separatorb] in H. apply andb_true_iff in H as [K D].
  split; [apply negb_true_iff; auto|apply no_dollar_spec; auto].
Qed.

Ltac sep := apply separator_spec; vm_compute; reflexivity.
Ltac nodollar := apply no_dollar_spec; vm_compute; reflexivity.

Section Good.
Variables (b : bool) (t : Tokenizer).
Hypothesis O : ok b t.
Let A : Forall atom (keys t) := keys_atoms b t O.

Lemma Forall_good : forall l, (b = true -> Forall (keyed (keys t)) l) -> Forall (good b t) l.
Proof.
  intros l H. apply Forall_forall. intros x I B. specialize (H B). rewrite Forall_forall in H. auto.
Qed.
Lemma good_Forall : forall l, Forall (good b t) l -> b = true -> Forall (keyed (keys t)) l.
Proof. intros l H B. eapply Forall_impl; [|exact H]. intros s G. apply G. auto. Qed.

Lemma good_nil : good b t [].
Proof. intros _. constructor. Qed.
Lemma good_plain : forall s, ~ dollars s -> good b t s.
Proof. intros s H _. apply keyed_plain. auto. Qed.
Lemma good_app : forall x y, good b t x -> good b t y -> good b t (x ++ y).
Proof. intros x y X Y B. apply keyed_app; auto. Qed.
Lemma good_cons : forall c s, c <> "$"%char -> good b t s -> good b t (c :: s).
Proof. intros c s C S B. apply keyed_char; auto. Qed.
Lemma good_split : forall p s, separator p -> good b t s -> Forall (good b t) (split p s).
Proof. intros p s P S. apply Forall_good. intros B. apply keyed_split; auto. Qed.
Lemma good_split2 : forall p s, separator p -> good b t s -> Forall (good b t) (split2 p s).
Proof. intros p s P S. apply Forall_good. intros B. apply keyed_split2; auto. Qed.
Lemma good_join : forall p l, good b t p -> Forall (good b t) l -> good b t (join p l).
Proof. intros p l P L B. apply keyed_join; auto. apply good_Forall; auto. Qed.
Lemma good_replace : forall p r s, separator p -> good b t r -> good b t s -> good b t (replace_all p r s).
Proof. intros p r s P R S B. apply keyed_replace; auto. Qed.
Lemma good_trim : forall s, good b t s -> good b t (trim_space s).
Proof. intros s S B. apply keyed_trim; auto. Qed.
Lemma good_trim_prefix : forall p s, ~ dollars p -> good b t s -> good b t (trim_prefix p s).
Proof. intros p s P S B. apply keyed_trim_prefix; auto. Qed.
Lemma good_hd : forall l, Forall (good b t) l -> good b t (hd [] l).
Proof. destruct 1; cbn; auto. apply good_nil. Qed.
Lemma good_last : forall l, Forall (good b t) l -> good b t (last l []).
Proof. induction 1; [apply good_nil|]. destruct l; auto. Qed.
Lemma good_concat : forall l, Forall (good b t) l -> good b t (concat l).
Proof. induction 1; [apply good_nil|]. cbn. apply good_app; auto. Qed.
Lemma good_firstn : forall s i c, good b t s -> nth_error s i = Some c -> key_char c = false -> good b t (firstn i s).
Proof. intros s i c S N C B. eapply keyed_firstn; eauto. Qed.
Lemma good_skipn : forall s i c, good b t s -> nth_error s i = Some c -> key_char c = false -> good b t (skipn i s).
Proof. intros s i c S N C B. eapply keyed_skipn; eauto. Qed.
Lemma good_skipn_S : forall s i c, good b t s -> nth_error s i = Some c -> key_char c = false -> good b t (skipn (S i) s).
Proof. intros s i c S N C B. eapply keyed_skipn_S; eauto. Qed.
Lemma good_plain_prefix : forall p s, ~ dollars p -> good b t (p ++ s) -> good b t s.
Proof. intros p s P S B. eapply keyed_plain_prefix; eauto. Qed.
Lemma good_plain_suffix : forall s p, ~ dollars p -> good b t (s ++ p) -> good b t s.
Proof. intros s p P S B. eapply keyed_plain_suffix; eauto. Qed.
Lemma good_around : forall x p y, separator p -> good b t (x ++ p ++ y) -> good b t x /\ good b t y.
Proof. intros x p y P S. split; intros B; destruct (keyed_around (keys t) A x p y P (S B)); auto. Qed.

(** The part between two positions *)
Lemma good_sub_at : forall s lo hi c, good b t (skipn lo s) -> lo <= hi -> nth_error s hi = Some c -> key_char c = false -> good b t (sub s lo hi).
Proof.
  intros s lo hi c S L N C. unfold sub. eapply good_firstn; eauto.
  clear - N L. revert s hi L N. induction lo as [|lo IH]; intros s hi L N; [cbn; rewrite Nat.sub_0_r; auto|].
  destruct s as [|x s]; [destruct hi; discriminate|]. destruct hi as [|hi]; [lia|]. cbn [skipn]. apply IH; auto. lia.
Qed.
End Good.

Ltac Fgood := repeat (apply Forall_cons; [|]); try apply Forall_nil.

(** ** Matches that ignore the case *)

Lemma lower_lt : forall c, lower_char c = "<"%char -> c = "<"%char.
Proof. intros [[] [] [] [] [] [] [] []]; vm_compute; congruence. Qed.
Lemma lower_gt : forall c, lower_char c = ">"%char -> c = ">"%char.
Proof. intros [[] [] [] [] [] [] [] []]; vm_compute; congruence. Qed.
Lemma lower_slash : forall c, lower_char c = "/"%char -> c = "/"%char.
Proof. intros [[] [] [] [] [] [] [] []]; vm_compute; congruence. Qed.
Lemma lower_dollar : forall c, lower_char c = "$"%char <-> c = "$"%char.
Proof. intros [[] [] [] [] [] [] [] []]; vm_compute; split; congruence. Qed.
Lemma upper_dollar : forall c, upper_char c = "$"%char <-> c = "$"%char.
Proof. intros [[] [] [] [] [] [] [] []]; vm_compute; split; congruence. Qed.

Lemma nth_lower : forall s i c, nth_error (to_lower s) i = Some c -> exists d, nth_error s i = Some d /\ lower_char d = c.
Proof.
  intros s i c H. unfold to_lower in H. rewrite nth_error_map in H. destruct (nth_error s i) as [d|]; [|discriminate]. injection H as <-. eauto.
Qed.

Lemma nth_skip : forall (s : str) k i, nth_error (skipn k s) i = nth_error s (k + i).
Proof. induction s as [|x s IH]; intros k i; destruct k; auto; cbn; [destruct i; auto|apply IH]. Qed.

(** Text at a position *)
Lemma nth_at : forall (a p q : str) i c, nth_error p i = Some c -> nth_error (a ++ p ++ q) (length a + i) = Some c.
Proof.
  intros a p q i c N. rewrite nth_error_app2 by lia. replace (length a + i - length a) with i by lia.
  rewrite nth_error_app1; auto. apply nth_error_Some. congruence.
Qed.

Lemma findClose_at : forall content start o c i, o <> [] -> c <> [] -> FindCorrespondingCloseToken content start o c = Some i ->
  start <= i /\ forall k x, nth_error c k = Some x -> nth_error content (i + k) = Some x.
Proof.
  intros content start o c i Ho Hc H. apply findClose_position in H as (L & _ & (a & r & -> & <-)); auto. split; auto.
  intros k x N. apply nth_at. auto.
Qed.

Lemma findCloseIC_at : forall content start o c i, o <> [] -> c <> [] -> FindCorrespondingCloseTokenIgnoreCase content start o c = Some i ->
  start <= i /\ forall k x, nth_error (to_lower c) k = Some x -> exists d, nth_error content (i + k) = Some d /\ lower_char d = x.
Proof.
  intros content start o c i Ho Hc H. rewrite findClose_ignore_case in H. 
  apply findClose_at in H as (L & F); [| |]; try (unfold to_lower; intros E; apply map_eq_nil in E; auto).
  split; auto. intros k x N. apply nth_lower. auto.
Qed.

Lemma skip_good : forall b t s k, ok b t -> good b t s -> (k = 0 \/ exists c, nth_error s (pred k) = Some c /\ key_char c = false) -> good b t (skipn k s).
Proof.
  intros b t s k O G [->|(c & N & C)]; [auto|]. destruct k as [|k]; [auto|]. cbn [pred] in N. eapply good_skipn_S; eauto.
Qed.

(** ** nowiki *)

Lemma nowiki_types : type_ok TOKEN_NOWIKI /\ type_ok TOKEN_MATH /\ type_ok TOKEN_HEADING /\ type_ok TOKEN_INTERNAL_LINK /\ type_ok TOKEN_EXTERNAL_LINK /\
  type_ok TOKEN_STRING /\ type_ok TOKEN_IMAGE /\ type_ok TOKEN_IMAGE_INLINE /\ type_ok TOKEN_REF_USAGE /\ type_ok TOKEN_REF_DEF /\ type_ok TOKEN_TABLE /\
  type_ok TOKEN_ORDERED_LIST /\ type_ok TOKEN_UNORDERED_LIST /\ type_ok TOKEN_DESCRIPTION_LIST.
Proof. repeat split; first [discriminate|repeat constructor]. Qed.

Lemma nowiki_skip : forall s k, parseNowiki_go s k = parseNowiki_go (skipn k s) 0.
Proof. induction s as [|c s IH]; intros [|k]; auto. cbn [parseNowiki_go skipn]. apply IH. Qed.

Definition nowiki_here (rest : str) : bool :=
  (length nowikiEnd <? length rest) && EqualsIgnoreCase (firstn (length nowikiStart) rest) nowikiStart.

(** The text before the first tag is kept. *)
Lemma nowiki_scan : forall s, (forall t, parseNowiki_go s 0 t = Ok (s, t)) \/
  exists a r, s = a ++ r /\ nowiki_here r = true /\ forall t, parseNowiki_go s 0 t = (do! x := parseNowiki_go r 0 in ret (a ++ x)) t.
Proof.
  induction s as [|c s IH]; [left; auto|]. destruct (nowiki_here (c :: s)) eqn:H.
  - right. exists [], (c :: s). repeat split; auto. intros t. unfold bindM, ret. destruct (parseNowiki_go (c :: s) 0 t) as [[]| | |]; auto.
  - assert (E : forall t, parseNowiki_go (c :: s) 0 t = (do! x := parseNowiki_go s 0 in ret (c :: x)) t).
    { intros t. cbn [parseNowiki_go]. change ((length nowikiEnd <? length (c :: s)) && _) with (nowiki_here (c :: s)). rewrite H. reflexivity. }
    destruct IH as [IH|(a & r & -> & R & IH)].
    + left. intros t. rewrite E. unfold bindM. rewrite IH. reflexivity.
    + right. exists (c :: a), r. repeat split; auto. intros t. rewrite E. unfold bindM in *. rewrite IH. destruct (parseNowiki_go r 0 t) as [[]| | |]; auto.
Qed.

Lemma nowiki_first : forall r, nowiki_here r = true -> nth_error r 0 = Some "<"%char.
Proof.
  intros [|c r] H; [discriminate|]. unfold nowiki_here in H. apply andb_true_iff in H as [_ H]. unfold EqualsIgnoreCase in H. apply str_eqb_eq in H.
  cbn [firstn nowikiStart to_lower map length] in H. injection H as H _. apply lower_lt in H. subst. reflexivity.
Qed.

Lemma holds_ext : forall A b t (m1 m2 : M A) Q, m1 t = m2 t -> holds b t m2 Q -> holds b t m1 Q.
Proof. intros A b t m1 m2 Q E H a t' R. apply H. congruence. Qed.

Lemma nowiki_sound : forall b n s t, length s <= n -> ok b t -> good b t s -> holds b t (parseNowiki_go s 0) (good b).
Proof.
  intros b. induction n as [|n IH]; intros s t L O G.
  - destruct s; [|cbn in L; lia]. apply holds_ret; auto.
  - destruct (nowiki_scan s) as [E|(a & r & -> & R & E)].
    + eapply (holds_ext _ _ _ _ (ret s)); [apply E|]. apply holds_ret; auto.
    + eapply holds_ext; [apply E|]. pose proof (nowiki_first r R) as N.
      destruct r as [|c r]; [discriminate|]. injection N as ->.
      assert (Ga : good b t a /\ good b t ("<"%char :: r)).
      { destruct (good_around b t O a ["<"%char] r) as [Ga Gr]; auto; [sep|]. split; auto. apply good_cons; auto. discriminate. }
      destruct Ga as [Ga Gr]. apply (holds_bind _ _ b t _ _ (good b)).
      * cbn [parseNowiki_go]. change ((length nowikiEnd <? length ("<"%char :: r)) && _) with (nowiki_here ("<"%char :: r)). rewrite R.
        destruct (FindCorrespondingCloseTokenIgnoreCase _ _ _ _) as [e|] eqn:F; [|apply holds_panic].
        apply (holds_token _ b t TOKEN_NOWIKI _ (fun tokenKey => do! x := parseNowiki_go r (pred (e + length nowikiEnd)) in ret (tokenKey ++ x)));
          [auto|apply nowiki_types|constructor|]. intros k t1 O1 G1 K.
        apply findCloseIC_at in F as (L1 & F); [|discriminate|discriminate].
        destruct (F 8 ">"%char eq_refl) as (d & Nd & Ld). apply lower_gt in Ld. subst d.
        rewrite nowiki_skip. eapply holds_bind; [apply IH; auto|].
        -- rewrite skipn_length. rewrite app_length in L. cbn [length] in L. lia.
        -- change (skipn (pred (e + length nowikiEnd)) r) with (skipn (S (pred (e + length nowikiEnd))) ("<"%char :: r)).
           change (length nowikiEnd) with 9. replace (pred (e + 9)) with (e + 8) by lia.
           eapply good_skipn_S; eauto; eapply good_mono; eauto.
        -- intros x t2 O2 G2 Gx. apply holds_ret; auto. apply good_app; auto. eapply good_mono; eauto. apply key_good. auto.
      * intros x t1 O1 G1 Gx. apply holds_ret; auto. apply good_app; auto. eapply good_mono; eauto.
Qed.

Theorem parseNowiki_sound : forall b, sound b parseNowiki.
Proof. intros b t s O G. eapply nowiki_sound; eauto. Qed.

(** ** Bold and italic text *)

Lemma quote_atom : forall k, atom k -> ~ In quote k.
Proof.
  intros k K I. pose proof (atom_chars k K) as F. rewrite Forall_forall in F. specialize (F _ I). discriminate.
Qed.

Lemma toggle_text : forall os k, NoDup os -> exists ms, afters (toggle_parts os k) = concat (map marker_text ms).
Proof. intros os k N. exists (fst (toggle os k)). apply toggle_fst. auto. Qed.

Lemma marker_in : forall m, In (marker_text m) all_markers.
Proof. intros [[]|[]]; cbn; auto. Qed.

(** A key at the beginning consists of characters that are kept. *)
Lemma grouped_plain : forall k l s, grouped l -> befores l = k ++ s -> ~ In quote k -> exists l', l = chars k ++ l' /\ grouped l' /\ befores l' = s.
Proof.
  induction k as [|c k IH]; intros l s G E N; [exists l; auto|].
  destruct G as [|d l G|os st l ND G]; cbn [app] in E.
  - discriminate.
  - injection E as -> E. destruct (IH l s G E) as (l' & -> & G' & B); [intros I; apply N; right; auto|]. exists l'. auto.
  - rewrite befores_app in E. destruct (toggle_befores os st ND) as (B & _). rewrite B in E. exfalso. apply N. left.
    destruct st; injection E as E _; auto.
Qed.

Lemma keyed_markers : forall keys ms, incl all_markers keys -> keyed keys (concat (map marker_text ms)).
Proof. intros keys ms I. induction ms as [|m ms IH]; [constructor|]. cbn. apply keyed_key; auto. apply I, marker_in. Qed.

Lemma bold_keyed : forall keys, Forall atom keys -> incl all_markers keys -> forall n l, length l <= n -> grouped l -> keyed keys (befores l) -> keyed keys (afters l).
Proof.
  intros keys A I. induction n as [|n IH]; intros l L G K.
  - destruct l; [constructor|cbn in L; lia].
  - inversion K as [E|c s C K' E|k s Ik K' E].
    + destruct G as [|d l G|os st l ND G]; [constructor|discriminate|].
      rewrite befores_app in E. destruct (toggle_befores os st ND) as (B & _). rewrite B in E. destruct st; discriminate.
    + destruct G as [|d l G|os st l ND G]; [discriminate| |].
      * injection E as -> ->. change (afters (Text d :: l)) with (d :: afters l). constructor; auto. apply IH; auto. cbn in L. lia.
      * destruct (toggle_text os st ND) as (ms & Em). rewrite afters_app, Em. apply keyed_app; [apply keyed_markers; auto|].
        destruct (toggle_befores os st ND) as (B & _ & (x & y & z & Ex)). rewrite befores_app, B in K. apply IH; auto.
        -- rewrite app_length, Ex, app_length in L. cbn in L. lia.
        -- eapply keyed_plain_prefix; eauto. destruct st; nodollar.
    + assert (Ak : atom k) by (apply (keys_atom _ A); auto).
      destruct (grouped_plain k l s G (eq_sym E) (quote_atom k Ak)) as (l' & -> & G' & B).
      rewrite afters_app, afters_chars. apply keyed_key; auto. apply IH; auto; [|rewrite B; auto].
      unfold chars in L. rewrite app_length, map_length in L. apply atom_ne in Ak. destruct k; [congruence|cbn in L; lia].
Qed.

Theorem parseBoldAndItalic_sound : forall b t s, ok b t -> good b t s -> holds b t (lift (parseBoldAndItalic s)) (good b).
Proof.
  intros b t s O G. apply holds_lift; auto. intros a E B. destruct (parse_grouped s) as (l & El & -> & Gl). rewrite El in E. injection E as <-.
  eapply bold_keyed; eauto; [eapply keys_atoms; eauto|]. unfold keys. apply incl_appl, incl_refl.
Qed.

(** ** Headings *)

Section Recursive.
Variables (cfg : configuration) (b : bool) (tokenizeContent : str -> M str).
Hypothesis rec_sound : sound b tokenizeContent.

Lemma equal_signs : forall n, separator (repeat_str !"=" (S n)).
Proof.
  intros n. cbn [repeat_str app]. split; [reflexivity|]. intros D.
  assert (H : forall m, ~ In "$"%char (repeat_str !"=" m)).
  { induction m as [|m IH]; cbn [repeat_str]; [intros []|]. rewrite in_app_iff. intros [[E|[]]|I]; [discriminate|auto]. }
  apply (H (S n)). exact D.
Qed.

Lemma headingLine_sound : forall depth line t, ok b t -> good b t line -> holds b t (parseHeadingLine tokenizeContent (S depth) line) (good b).
Proof.
  intros depth line t O G. unfold parseHeadingLine.
  destruct (has_prefix _ _ && has_suffix _ _); [|apply holds_ret; auto].
  eapply (holds_reserve _ _ b t TOKEN_HEADING _ (fun content => HeadingToken content (S depth)) (good b) (fun k _ => ret k)); auto.
  - apply nowiki_types.
  - intros t' O' G'. apply rec_sound; auto. apply good_trim; auto. apply good_replace; auto; [apply equal_signs|apply good_nil|].
    apply good_trim; auto. eapply good_mono; eauto.
  - intros t' a O' G' Ga. cbn [texts]. constructor; auto.
  - intros k t' a O' G' K. apply holds_ret; auto. apply key_good. auto.
Qed.

Lemma headings_sound : forall depth lines t, ok b t -> Forall (good b t) lines -> holds b t (parseHeadings_go tokenizeContent depth lines) (fun t' => Forall (good b t')).
Proof.
  induction depth as [|depth IH]; intros lines t O F; cbn [parseHeadings_go]; [apply holds_ret; auto|].
  eapply holds_bind; [apply (holds_mapM _ _ b _ (good b)); auto|].
  - intros. eapply good_mono; eauto.
  - intros x t' I O' G'. apply headingLine_sound; auto. rewrite Forall_forall in F. eapply good_mono; eauto.
  - intros lines' t' O' G' F'. apply IH; auto.
Qed.

Lemma nl_sep : separator nl.
Proof. sep. Qed.

Lemma nl_good : forall t, good b t nl.
Proof. intros t. apply good_plain. nodollar. Qed.

Theorem parseHeadings_sound : sound b (parseHeadings tokenizeContent).
Proof.
  intros t s O G. unfold parseHeadings. eapply holds_bind; [apply headings_sound; auto; apply good_split; auto; apply nl_sep|].
  intros lines t' O' G' F. apply holds_ret; auto. apply good_join; auto. apply nl_good.
Qed.

(** ** Links *)

Lemma linkTarget_good : forall t d s r, ok b t -> separator d -> good b t s -> good b t (link_target d s r).
Proof.
  intros t d s r O D G. unfold link_target. apply good_trim; auto. destruct r.
  - apply good_hd. apply good_split2; auto; [sep|]. apply good_hd, good_split; auto.
  - apply good_hd, good_split; auto.
Qed.

Definition token_good (t : Tokenizer) (o : option (Token * str)) : Prop :=
  match o with Some (v, ty) => Forall (good b t) (texts v) /\ type_ok ty | None => True end.

Lemma linkToken_sound : forall ty target text t, ok b t -> good b t text -> holds b t (link_token tokenizeContent ty target text) token_good.
Proof.
  intros ty target text t O G. unfold link_token. destruct ty.
  - eapply holds_bind; [apply rec_sound; auto|]. intros x t' O' G' Gx. apply holds_ret; auto. split; [repeat constructor; auto|apply nowiki_types].
  - destruct (HasAnyPrefix _ _); [|destruct (contains _ _); [|apply holds_ret; cbn; auto]];
      (eapply holds_bind; [apply rec_sound; auto|]; intros x t' O' G' Gx; apply holds_ret; auto; split; [repeat constructor; auto|apply nowiki_types]).
Qed.

Lemma linkItem_sound : forall op cl d ty req rm item t, ok b t -> separator op -> separator cl -> separator d -> good b t item ->
  holds b t (parseLinkItem cfg tokenizeContent op cl d ty req rm item) (good b).
Proof.
  intros op cl d ty req rm item t O Sop Scl Sd G. unfold parseLinkItem.
  assert (Gop : good b t op) by (apply good_plain; destruct op; [destruct Sop|apply Sop]).
  assert (Gcl : good b t cl) by (apply good_plain; destruct cl; [destruct Scl|apply Scl]).
  assert (Gd : good b t d) by (apply good_plain; destruct d; [destruct Sd|apply Sd]).
  destruct (is_file cfg item); [apply holds_ret; auto; apply good_app; auto|].
  pose proof (good_split b t O cl item Scl G) as Fs. set (segments := split cl item) in *.
  pose proof (good_hd b t segments Fs) as Gp. set (p := hd [] segments) in *.
  pose proof (good_split b t O d p Sd Gp) as Fe. set (elements := split d p) in *.
  pose proof (linkTarget_good t d p rm O Sd Gp) as Gt. set (target := link_target d p rm) in *.
  destruct ((length elements =? 1) && req); [apply holds_ret; auto; apply good_app; auto|].
  eapply (holds_bind _ _ b t _ _ (good b)).
  { destruct (length elements =? 1).
    - destruct target as [|c target']; [apply holds_panic|]. apply holds_ret; auto. destruct (Ascii.eqb c ":"); auto.
      apply good_last; auto. apply good_split; auto. sep.
    - apply holds_ret; auto. apply good_join; auto. apply keyed_tl. auto. }
  intros text t1 O1 G1 Gtext. eapply holds_bind; [apply linkToken_sound; auto|].
  intros token t2 O2 G2 Ht. assert (G02 : grows t t2) by (eapply grows_trans; eauto).
  eapply (holds_bind _ _ b t2 _ _ (good b)).
  { destruct token as [[v vty]|].
    - destruct Ht as [Hv Hty]. apply (holds_token _ b t2 vty v (fun k => ret k)); auto. intros k t' O' G' K. apply holds_ret; auto. apply key_good; auto.
    - apply holds_ret; auto. apply good_app; [eapply good_mono; eauto|]. apply good_app; eapply good_mono; eauto. }
  intros link t3 O3 G3 Gl. apply holds_ret; auto. apply good_app; auto. apply good_join; auto.
  - eapply good_mono; [|exact Gcl]. eapply grows_trans; eauto.
  - apply keyed_tl. eapply Forall_good_mono; [|exact Fs]. eapply grows_trans; eauto.
Qed.

Theorem parseLink_sound : forall op cl d ty req rm, separator op -> separator cl -> separator d ->
  sound b (fun s => parseLink cfg tokenizeContent s op cl d ty req rm).
Proof.
  intros op cl d ty req rm Sop Scl Sd t s O G. unfold parseLink.
  pose proof (good_split b t O op s Sop G) as F. destruct (split op s) as [|first items]; [apply holds_ret; auto; apply good_nil|].
  inversion F as [|? ? F1 F2]; subst. eapply holds_bind; [apply (holds_mapM _ _ b _ (good b)); auto|].
  - intros. eapply good_mono; eauto.
  - intros x t' I O' G'. apply linkItem_sound; auto. rewrite Forall_forall in F2. eapply good_mono; eauto.
  - intros results t' O' G' F'. apply holds_ret; auto. apply good_app; [eapply good_mono; eauto|]. apply good_concat; auto.
Qed.

Theorem parseInternalLinks_sound : sound b (parseInternalLinks cfg tokenizeContent).
Proof. unfold parseInternalLinks. apply parseLink_sound; sep. Qed.

Theorem parseExternalLinks_sound : sound b (parseExternalLinks cfg tokenizeContent).
Proof. unfold parseExternalLinks. apply parseLink_sound; sep. Qed.

(** ** Math *)

Lemma tag_end_at : forall s i, tag_end s = Some i -> nth_error s i = Some ">"%char.
Proof.
  induction s as [|c s IH]; intros i H; [discriminate|]. cbn [tag_end] in H. destruct (Ascii.eqb c ">") eqn:E.
  - injection H as <-. apply Ascii.eqb_eq in E. subst. auto.
  - destruct (Ascii.eqb c nl_char); [discriminate|]. destruct (tag_end s) as [j|]; [|discriminate]. injection H as <-. cbn. auto.
Qed.

Lemma math_match_ends : forall s m g, math_match s = Some (m, g) -> exists x, m = !"<" ++ x ++ !">".
Proof.
  intros s m g H. unfold math_match in H. destruct (has_prefix !"<math" s) eqn:P; [|discriminate].
  apply has_prefix_spec in P as (r & Es). destruct (tag_end _) as [i|]; [|discriminate].
  set (start := 5 + i + 1) in *. destruct (index _ _) as [j|] eqn:J; [|discriminate].
  apply index_some_split in J as (u & v & E & Lu & _ & _).
  assert (Ls : start <= length s).
  { destruct (le_lt_dec start (length s)) as [L|L]; auto. rewrite skipn_all2 in E by lia. destruct u; discriminate. }
  assert (Ef : s = (firstn start s ++ u ++ !"</math>") ++ v).
  { rewrite <- (firstn_skipn start s) at 1. rewrite E, <- !app_assoc. auto. }
  assert (En : length (firstn start s ++ u ++ !"</math>") = start + j + 7).
  { rewrite !app_length, firstn_length_le by auto. cbn [length]. lia. }
  assert (Em : m = firstn (start + j + 7) s) by congruence. clear H.
  rewrite Ef, firstn_app, <- En, firstn_all, Nat.sub_diag, app_nil_r in Em.
  exists (tl (firstn start s) ++ u ++ !"</math"). rewrite Em. rewrite Es. unfold start. replace (5 + i + 1) with (S (5 + i)) by lia.
  cbn [app firstn tl]. rewrite <- !app_assoc. reflexivity.
Qed.

Lemma math_matches_ends : forall s k m g, In (m, g) (math_matches s k) -> exists x, m = !"<" ++ x ++ !">".
Proof.
  induction s as [|c s IH]; intros k m g I; [destruct I|]. cbn [math_matches] in I. destruct k as [|k]; [|eauto].
  destruct (math_match (c :: s)) as [[m' g']|] eqn:E; [|eauto]. destruct I as [I|I]; [|eauto]. injection I as -> ->. eapply math_match_ends; eauto.
Qed.

Lemma math_sound : forall l s t, ok b t -> good b t s -> (forall m g, In (m, g) l -> exists x, m = !"<" ++ x ++ !">") -> holds b t (parseMath_go l s) (good b).
Proof.
  induction l as [|[m g] l IH]; intros s t O G H; cbn [parseMath_go]; [apply holds_ret; auto|].
  apply (holds_token _ b t TOKEN_MATH _ (fun k => parseMath_go l (replace_first m k s))); [auto|apply nowiki_types|constructor|].
  intros k t' O' G' K. apply IH; auto; [|intros; eapply H; right; eauto].
  unfold replace_first. destruct (index m s) as [i|] eqn:E; [|eapply good_mono; eauto].
  apply index_some_split in E as (u & v & -> & _ & -> & ->). destruct (H m g (or_introl eq_refl)) as (x & ->).
  apply (good_mono _ _ _ _ G') in G.
  assert (Gu : good b t' u).
  { rewrite <- !app_assoc in G. apply (good_around b t' O' u !"<" _) in G; [apply G|sep]. }
  assert (Gv : good b t' v).
  { rewrite !app_assoc in G. rewrite <- (app_assoc _ !">" v) in G. apply (good_around b t' O' _ !">" v) in G; [apply G|sep]. }
  apply good_app; auto. apply good_app; auto. apply key_good. auto.
Qed.

Theorem parseMath_sound : sound b parseMath.
Proof. intros t s O G. apply math_sound; auto. intros m g. apply math_matches_ends. Qed.
End Recursive.
