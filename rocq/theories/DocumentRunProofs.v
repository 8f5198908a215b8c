(** * Parsing a document *)

From Coq Require Import Ascii String.
From Coq Require Import List Arith Bool Lia.
From Verif Require Import GoStr GoStrFacts TextFacts TrimFacts UtilModel BracketModel ConfigModel TokenModel TokenSpec TokenProofs PassSpec MarkupSpec SafeSpec.
From Verif Require Import FormattingModel FormattingSpec FormattingProofs HeadingModel LinkModel ImageModel ReferenceModel ListModel TableModel ParagraphModel ParagraphSpec ParagraphProofs TokenizerModel JudgeProofs PassProofs HeadingProofs LinkProofs NowikiProofs SafeTextProofs SafeProofs ShapeProofs.
From Verif Require MathSpec MathProofs.
From Verif Require Import MathQuietProofs PropPasses DocumentSpec DocumentSettledProofs DocumentLineProofs DocumentPictureProofs.
Import ListNotations.
Local Open Scope list_scope.

(** ** Keys *)

Lemma key_char_not : forall c, In c (!"'[]{}|<>=*#;: " ++ nl) -> key_char c = false.
Proof. intros c I. cbn in I. repeat (destruct I as [<-|I]; [reflexivity|]). contradiction. Qed.

Lemma atom_not : forall a c, atom a -> In c (!"'[]{}|<>=*#;: " ++ nl) -> ~ In c a.
Proof. intros a c A I J. apply atom_chars in A. rewrite Forall_forall in A. apply A in J. rewrite key_char_not in J; auto. discriminate. Qed.

Lemma atom_inert : forall a, atom a -> inert a.
Proof. intros a A. split; [intros c I; apply atom_not; auto; cbn in I |- *; intuition|]. apply plain_without. apply atom_not; auto. cbn. auto. Qed.

Lemma atom_keylike : forall a, atom a -> keylike a.
Proof.
  intros a (b & -> & N & F). split.
  - exists "$"%char. split; auto. split; [exists ("$"%char :: b ++ !"$$"); auto|]. exists "$"%char, (!"$$" ++ b ++ !"$"). split; auto. rewrite <- !app_assoc. auto.
  - exists ("$"%char :: b ++ !"$$"). auto.
Qed.

Lemma atom_nonempty : forall a, atom a -> a <> [].
Proof. intros a (b & -> & _). discriminate. Qed.

Lemma state_key : forall t k v, unique t -> In (k, v) (tokenMap t) -> atom k.
Proof.
  intros t k v [F _] I. rewrite Forall_forall in F. destruct (F k) as (ty & i & T & -> & _); [apply (in_map fst) in I; exact I|]. apply token_key_atom. auto.
Qed.

Lemma marker_atom : forall m, atom (marker_text m).
Proof.
  intros [[]|[]]; [exists !"MARKER_BOLD_OPEN"|exists !"MARKER_ITALIC_OPEN"|exists !"MARKER_BOLD_CLOSE"|exists !"MARKER_ITALIC_CLOSE"];
  (split; [reflexivity|split; [discriminate|repeat constructor]]).
Qed.

(** ** What is shown in a line *)

Section Doc.
Context {cfg : configuration}.

Definition shown (t : Tokenizer) (i i' : inline) : Prop :=
  match i with
  | Words s => i' = Words s
  | Quotes _ => False
  | LinkTo a label => exists key b, i' = Words key /\ article_of a b /\ In (key, InternalLinkToken b (link_label a label)) (tokenMap t)
  | Address u label => exists key, i' = Words key /\ In (key, ExternalLinkToken u label) (tokenMap t)
  | Math f => exists key, i' = Words key /\ In (key, MathToken f) (tokenMap t)
  | Picture p => exists key, i' = Words key /\ exists p', In (key, picture_token p') (tokenMap t) /\ captioned t p p'
  | Note n _ => exists key, i' = Words key /\ In (key, RefUsageToken n) (tokenMap t)
  end.

Lemma captioned_mono : forall t t' p p', keeps t t' -> captioned t p p' -> captioned t' p p'.
Proof.
  intros t t' p p' K C. unfold captioned in *. destruct (caption_text p) as [c|]; auto. destruct C as (c' & F & ->). exists c'. split; auto. eapply Forall2_weaken; [|exact F].
  intros [s|a label] x'; cbn [phrase_linked]; auto. intros (key & b & E & A & I). exists key, b. split; auto. split; auto. eapply keeps_In; eauto.
Qed.

Lemma shown_mono : forall t t' i i', keeps t t' -> shown t i i' -> shown t' i i'.
Proof.
  intros t t' [s|k|a l|u l|f|p|nn nr] i' K; cbn [shown]; auto.
  - intros (key & b & E & A & I). exists key, b. split; auto. split; auto. eapply keeps_In; eauto.
  - intros (key & E & I). exists key. split; auto. eapply keeps_In; eauto.
  - intros (key & E & I). exists key. split; auto. eapply keeps_In; eauto.
  - intros (key & E & p' & I & C). exists key. split; auto. exists p'. split; [eapply keeps_In; eauto|eapply captioned_mono; eauto].
  - intros (key & E & I). exists key. split; auto. eapply keeps_In; eauto.
Qed.

Lemma shown_lines : forall t t' l l', keeps t t' -> Forall2 (shown t) l l' -> Forall2 (shown t') l l'.
Proof. intros t t' l l' K F. eapply Forall2_weaken; [|exact F]. intros. eapply shown_mono; eauto. Qed.

Lemma linked_ok : forall t l l', unique t -> Forall atom_ok l -> Forall2 (linked t) l l' -> Forall half_ok l'.
Proof.
  intros t l l' U A F. revert A. induction F as [|i i' l l' H F IH]; intros A; [auto|]. inversion A as [|? ? A1 A2]; subst. constructor; auto.
  destruct i as [s|k|a lb|u lb|f|p|nn nr]; cbn [linked] in H; [subst i'; exact A1|destruct A1|destruct H as (key & b & -> & _ & I)|subst i'; exact A1|subst i'; exact A1|destruct H as (p' & -> & C)|destruct A1].
  - pose proof (state_key _ _ _ U I) as K. cbn. split; [apply inert_loose; apply atom_inert; auto|apply atom_nonempty; auto].
  - exists t, p. auto.
Qed.

Lemma pictured_ok : forall t l l', unique t -> Forall half_ok l -> Forall2 (pictured t) l l' -> Forall atom_ok l' /\ Forall no_linkto l' /\ Forall no_picture l'.
Proof.
  intros t l l' U A F. revert A. induction F as [|i i' l l' H F IH]; intros A; [auto|]. inversion A as [|? ? A1 A2]; subst. destruct (IH A2) as (B1 & B2 & B3).
  destruct i as [s|k|a lb|u lb|f|p|nn nr]; cbn [pictured half_ok] in *; [subst i'|destruct A1|destruct A1|subst i'|subst i'|destruct H as (key & -> & I)|destruct A1]; try (split; [|split]; constructor; cbn [no_linkto no_picture]; auto; fail).
  pose proof (state_key _ _ _ U I) as K. split; [|split]; constructor; auto; cbn; auto. split; [apply inert_loose; apply atom_inert; auto|apply atom_nonempty; auto].
Qed.

(** Only text and formulas *)
Definition formulated (tokens : list (str * Token)) (i i' : inline) : Prop :=
  match i with
  | Math f => exists key, i' = Words key /\ In (key, MathToken f) tokens
  | _ => i' = i
  end.
Definition text_or_math (i : inline) : Prop := match i with Words s => loose s /\ s <> [] | Math f => inline_ok (Math f) | _ => False end.

Lemma formula_is_ok : forall f, inline_ok (Math f) -> MathSpec.formula_ok [] f.
Proof.
  intros f (F & _). rewrite Forall_forall in F. split; [intros []|]. split; [intros []|]. intros x y E. apply (F "<"%char); [rewrite E; apply in_app_iff; right; left; auto|cbn; auto 10].
Qed.

Lemma letters_reading : forall s t ps, ~ In "<"%char s -> MathSpec.reading t ps -> MathSpec.reading (s ++ t) (map MathSpec.Letter s ++ ps).
Proof.
  induction s as [|c s IH]; intros t ps N R; auto. cbn [map app]. constructor; [apply MathProofs.no_less_no_formula; intros ->; apply N; left; auto|]. apply IH; auto. intros I. apply N. right. auto.
Qed.

Lemma letters_keys : forall s ps n, MathSpec.with_keys n (map MathSpec.Letter s ++ ps) = s ++ MathSpec.with_keys n ps.
Proof. induction s as [|c s IH]; intros ps n; cbn [map app MathSpec.with_keys]; auto. rewrite IH. auto. Qed.

Lemma letters_formulas : forall s ps, MathSpec.formulas (map MathSpec.Letter s ++ ps) = MathSpec.formulas ps.
Proof. induction s as [|c s IH]; intros ps; cbn [map app MathSpec.formulas]; auto. Qed.

Lemma formulated_mono : forall m m' l l', incl m m' -> Forall2 (formulated m) l l' -> Forall2 (formulated m') l l'.
Proof. intros m m' l l' I F. eapply Forall2_weaken; [|exact F]. intros [s|k|a b|a b|f|p|nn nr] i'; cbn [formulated]; auto. intros (key & E & H). eauto. Qed.

Lemma math_pieces : forall l, Forall text_or_math l -> exists ps, MathSpec.reading (line_wikitext l) ps /\
  forall n, exists l', MathSpec.with_keys n ps = line_wikitext l' /\ Forall2 (formulated (MathProofs.math_tokens n (MathSpec.formulas ps))) l l'.
Proof.
  induction 1 as [|i l A F (ps & R & K)]; [exists []; split; [constructor|]; intros n; exists []; auto|]. rewrite line_cons. destruct i as [s|k|a lb|u lb|f|p|nn nr]; try contradiction.
  - exists (map MathSpec.Letter s ++ ps). split; [apply letters_reading; auto; destruct A as [A _]; apply A; cbn; auto 10|]. intros n. destruct (K n) as (l' & E & G).
    exists (Words s :: l'). rewrite letters_keys, letters_formulas, E, line_cons. split; auto. constructor; auto. reflexivity.
  - exists (MathSpec.Formula f :: ps). split.
    + change (inline_wikitext (Math f)) with (MathSpec.formula_text [] f). constructor; auto. apply formula_is_ok. exact A.
    + intros n. destruct (K (S n)) as (l' & E & G). exists (Words (token_key TOKEN_MATH n) :: l'). cbn [MathSpec.with_keys MathSpec.formulas MathProofs.math_tokens]. rewrite E, line_cons. split; auto.
      constructor; [|eapply formulated_mono; [|exact G]; intros x I; apply in_app_iff; auto]. cbn [formulated]. eexists. split; [reflexivity|]. apply in_app_iff. right. left. auto.
Qed.

Lemma math_pass : forall l t, Forall text_or_math l -> ok false t ->
  judge true t (parseMath (line_wikitext l)) (fun t' r => exists l', Forall2 (formulated (tokenMap t')) l l' /\ r = line_wikitext l').
Proof.
  intros l t A O. destruct (math_pieces l A) as (ps & R & K). pose proof (MathProofs.parseMath_run _ _ t R) as E. split.
  - intros r t' E'. pose proof (parseMath_sound false t (line_wikitext l) O) as Z. assert (Y : good false t (line_wikitext l)) by discriminate. destruct (Z Y r t' E') as (O' & G & _). clear Z Y. split; auto. split; auto.
    rewrite E in E'. injection E' as <- <-. destruct (K (tokenCounter t)) as (l' & H1 & H2). exists l'. split; auto. eapply formulated_mono; [|exact H2]. cbn [tokenMap]. intros x I. apply in_app_iff. auto.
  - intros _. rewrite E. exact I.
Qed.

Lemma addressed_ok : forall t l l', unique t -> Forall atom_ok l -> Forall no_linkto l -> Forall no_picture l -> Forall2 (addressed t) l l' -> Forall text_or_math l'.
Proof.
  intros t l l' U A Z Y F. revert A Z Y. induction F as [|i i' l l' H F IH]; intros A Z Y; [auto|]. inversion A as [|? ? A1 A2]; subst. inversion Z as [|? ? Z1 Z2]; subst. inversion Y as [|? ? Y1 Y2]; subst. constructor; auto.
  destruct i as [s|k|a lb|u lb|f|p|nn nr]; cbn [addressed] in H; [subst i'; exact A1|destruct A1|destruct Z1|destruct H as (key & -> & I)|subst i'; exact A1|destruct Y1|destruct A1].
  pose proof (state_key _ _ _ U I) as K. split; [apply inert_loose; apply atom_inert; auto|apply atom_nonempty; auto].
Qed.

Lemma all_shown : forall t1 t0 t2 t3 l l1 l0 l2 l3, keeps t1 t3 -> keeps t0 t3 -> keeps t2 t3 -> Forall atom_ok l -> Forall2 (linked t1) l l1 -> Forall2 (pictured t0) l1 l0 ->
  Forall2 (addressed t2) l0 l2 -> Forall2 (formulated (tokenMap t3)) l2 l3 -> Forall2 (shown t3) l l3.
Proof.
  intros t1 t0 t2 t3 l l1 l0 l2 l3 K1 K0 K2 A F. revert l0 l2 l3 A. induction F as [|i i1 l l1 H F IH]; intros l0 l2 l3 A Y G J; inversion Y as [|? i0 ? l0' Y1 Y2]; subst; inversion G as [|? i2 ? l2' G1 G2]; subst; inversion J as [|? i3 ? l3' J1 J2]; subst; [constructor|].
  inversion A as [|? ? A1 A2]; subst. constructor; [|eapply IH; eauto]. destruct i as [s|k|a lb|u lb|f|p|nn nr]; cbn [linked shown] in *.
  - subst i1. cbn [pictured] in Y1. subst i0. cbn [addressed] in G1. subst i2. exact J1.
  - destruct A1.
  - destruct H as (key & b & -> & A0 & I). exists key, b. cbn [pictured] in Y1. subst i0. cbn [addressed] in G1. subst i2. split; [exact J1|]. split; [exact A0|]. eapply keeps_In; [exact K1|exact I].
  - subst i1. cbn [pictured] in Y1. subst i0. cbn [addressed] in G1. destruct G1 as (key & -> & I). exists key. split; [exact J1|]. eapply keeps_In; [exact K2|exact I].
  - subst i1. cbn [pictured] in Y1. subst i0. cbn [addressed] in G1. subst i2. exact J1.
  - destruct H as (p' & -> & C). cbn [pictured] in Y1. destruct Y1 as (key & -> & I). exists key. cbn [addressed] in G1. subst i2. split; [exact J1|]. exists p'. split; [eapply keeps_In; [exact K0|exact I]|eapply captioned_mono; [exact K1|exact C]].
  - destruct A1.
Qed.

Definition only_words (i : inline) : Prop := exists s, i = Words s /\ inert s /\ s <> [].
(** Text without markup *)
Definition strong (i : inline) : Prop := match i with Words s => inert s | _ => True end.
Lemma shown_words : forall t l l', unique t -> Forall atom_ok l -> Forall strong l -> Forall2 (shown t) l l' -> Forall only_words l'.
Proof.
  intros t l l' U A St F. revert A St. induction F as [|i i' l l' H F IH]; intros A St; [auto|]. inversion A as [|? ? A1 A2]; subst. inversion St as [|? ? St1 St2]; subst. constructor; auto.
  destruct i as [s|k|a lb|u lb|f|p|nn nr]; cbn [shown] in H; [| |destruct H as (key & b & -> & _ & I)|destruct H as (key & -> & I)|destruct H as (key & -> & I)|destruct H as (key & -> & p' & I & _)|destruct H as (key & -> & I)].
  - subst i'. exists s. destruct A1. cbn in St1. auto.
  - destruct H.
  - pose proof (state_key _ _ _ U I) as K. exists key. split; auto. split; [apply atom_inert; auto|apply atom_nonempty; auto].
  - pose proof (state_key _ _ _ U I) as K. exists key. split; auto. split; [apply atom_inert; auto|apply atom_nonempty; auto].
  - pose proof (state_key _ _ _ U I) as K. exists key. split; auto. split; [apply atom_inert; auto|apply atom_nonempty; auto].
  - pose proof (state_key _ _ _ U I) as K. exists key. split; auto. split; [apply atom_inert; auto|apply atom_nonempty; auto].
  - pose proof (state_key _ _ _ U I) as K. exists key. split; auto. split; [apply atom_inert; auto|apply atom_nonempty; auto].
Qed.

Lemma shown_loose : forall t l l' c, unique t -> Forall atom_ok l -> Forall2 (shown t) l l' -> In c !"[]<>" -> ~ In c (line_wikitext l').
Proof.
  intros t l l' c U A F I. revert A. induction F as [|i i' l l' H F IH]; intros A J; [destruct J|]. inversion A as [|? ? A1 A2]; subst. rewrite line_cons in J. apply in_app_iff in J as [J|J]; [|exact (IH A2 J)].
  destruct i as [s|k|a lb|u lb|f|p|nn nr]; cbn [shown] in H; [| |destruct H as (key & b & -> & _ & K)|destruct H as (key & -> & K)|destruct H as (key & -> & K)|destruct H as (key & -> & p' & K & _)|destruct H as (key & -> & K)].
  - subst i'. destruct A1 as [A1 _]. revert J. apply A1. auto.
  - destruct H.
  - revert J. apply (inert_loose key); auto. apply atom_inert. eapply state_key; eauto.
  - revert J. apply (inert_loose key); auto. apply atom_inert. eapply state_key; eauto.
  - revert J. apply (inert_loose key); auto. apply atom_inert. eapply state_key; eauto.
  - revert J. apply (inert_loose key); auto. apply atom_inert. eapply state_key; eauto.
  - revert J. apply (inert_loose key); auto. apply atom_inert. eapply state_key; eauto.
Qed.

Lemma words_text : forall l, Forall only_words l -> inert (line_wikitext l).
Proof.
  intros l F. induction F as [|i l (s & -> & N & _) F [IH1 IH2]]; [split; [intros c _ []|apply plain_without; intros []]|]. rewrite line_cons. split; [|apply plain_app; [apply N|auto]].
  intros c I J. apply in_app_iff in J as [J|J]; [revert J; apply N; auto|apply (IH1 c); auto].
Qed.

(** Solid ends *)
Lemma ends_of : forall c d x, solid c = true -> solid d = true -> solid_ends (c :: x ++ [d]).
Proof. intros c d x C D. exists c. split; auto. split; [eauto|]. exists d, (c :: x). auto. Qed.

Lemma picture_ends : forall p, solid_ends (picture_wikitext p).
Proof.
  intros p. rewrite picture_text. replace (!"[[" ++ picture_inside p ++ !"]]") with ("["%char :: (!"[" ++ picture_inside p ++ !"]") ++ ["]"%char]); [apply ends_of; reflexivity|].
  rewrite <- !app_assoc. reflexivity.
Qed.

Lemma reference_ends : forall r, solid_ends (ReferenceSpec.reference_text r).
Proof.
  intros [a [b|]]; unfold ReferenceSpec.reference_text; cbn [ReferenceSpec.ref_attributes ReferenceSpec.ref_body].
  - replace (!"<ref" ++ ReferenceSpec.attributes_text a ++ !">" ++ b ++ !"</ref>") with ("<"%char :: (!"ref" ++ ReferenceSpec.attributes_text a ++ !">" ++ b ++ !"</ref") ++ [">"%char]); [apply ends_of; reflexivity|].
    rewrite <- !app_assoc. reflexivity.
  - replace (!"<ref" ++ ReferenceSpec.attributes_text a ++ !"/>") with ("<"%char :: (!"ref" ++ ReferenceSpec.attributes_text a ++ !"/") ++ [">"%char]); [apply ends_of; reflexivity|].
    rewrite <- !app_assoc. reflexivity.
Qed.

Lemma shown_swapped : forall t l l', unique t -> Forall2 (shown t) l l' -> Forall2 swapped (map inline_wikitext l) (map inline_wikitext l').
Proof.
  intros t l l' U F. induction F as [|i i' l l' H F IH]; cbn [map]; constructor; auto.
  destruct i as [s|k|a lb|u lb|f|p|nn nr]; cbn [shown] in H; [| |destruct H as (key & b & -> & _ & I)|destruct H as (key & -> & I)|destruct H as (key & -> & I)|destruct H as (key & -> & p' & I & _)|destruct H as (key & -> & I)].
  - subst. left. auto.
  - destruct H.
  - right. split; [|apply atom_keylike; eapply state_key; eauto]. cbn [inline_wikitext].
    replace (!"[[" ++ a ++ match lb with Some l0 => !"|" ++ l0 | None => [] end ++ !"]]") with ("["%char :: (!"[" ++ a ++ match lb with Some l0 => !"|" ++ l0 | None => [] end ++ !"]") ++ ["]"%char]); [apply ends_of; reflexivity|].
    rewrite <- !app_assoc. reflexivity.
  - right. split; [|apply atom_keylike; eapply state_key; eauto]. cbn [inline_wikitext].
    replace (!"[" ++ u ++ !" " ++ lb ++ !"]") with ("["%char :: (u ++ !" " ++ lb) ++ ["]"%char]); [apply ends_of; reflexivity|]. rewrite <- !app_assoc. reflexivity.
  - right. split; [|apply atom_keylike; eapply state_key; eauto]. cbn [inline_wikitext].
    replace (!"<math>" ++ f ++ !"</math>") with ("<"%char :: (!"math>" ++ f ++ !"</math") ++ [">"%char]); [apply ends_of; reflexivity|]. rewrite <- !app_assoc. reflexivity.
  - right. split; [|apply atom_keylike; eapply state_key; eauto]. cbn [inline_wikitext]. apply picture_ends.
  - right. split; [|apply atom_keylike; eapply state_key; eauto]. cbn [inline_wikitext]. apply reference_ends.
Qed.

(** Proper lines after the formatting *)
Record fine (l : list inline) : Prop := {
  fine_atoms : Forall atom_ok l;
  fine_strong : Forall strong l;
  fine_line : ~ In nl_char (line_wikitext l);
  fine_start : no_block_start (line_wikitext l);
  fine_trim : trim_space (line_wikitext l) = line_wikitext l;
  fine_nonempty : l <> [] }.

Lemma atom_text_nonempty : forall i, atom_ok i -> inline_wikitext i <> [].
Proof. intros [s|k|a l|u l|f|p|nn nr] A; cbn [inline_wikitext]; try discriminate; [apply A|destruct A]. Qed.

Lemma fine_text : forall l, fine l -> line_wikitext l <> [].
Proof.
  intros l [A _ _ _ _ N] E. destruct l as [|i l]; [contradiction|]. rewrite line_cons in E. apply app_eq_nil in E as [E _]. inversion A; subst. eapply atom_text_nonempty; eauto.
Qed.

Lemma shown_no_newline : forall t l l', unique t -> Forall2 (shown t) l l' -> ~ In nl_char (line_wikitext l) -> ~ In nl_char (line_wikitext l').
Proof.
  intros t l l' U F. induction F as [|i i' l l' H F IH]; intros N; auto. rewrite line_cons in N |- *. intros I. apply in_app_iff in I as [I|I]; [|revert I; apply IH; intros J; apply N; apply in_app_iff; auto].
  destruct i as [s|k|a lb|u lb|f|p|nn nr]; cbn [shown] in H; [| |destruct H as (key & b & -> & _ & K)|destruct H as (key & -> & K)|destruct H as (key & -> & K)|destruct H as (key & -> & p' & K & _)|destruct H as (key & -> & K)].
  - subst. apply N. apply in_app_iff. auto.
  - destruct H.
  - revert I. cbn [inline_wikitext]. apply atom_not; [eapply state_key; eauto|apply in_app_iff; right; left; auto].
  - revert I. cbn [inline_wikitext]. apply atom_not; [eapply state_key; eauto|apply in_app_iff; right; left; auto].
  - revert I. cbn [inline_wikitext]. apply atom_not; [eapply state_key; eauto|apply in_app_iff; right; left; auto].
  - revert I. cbn [inline_wikitext]. apply atom_not; [eapply state_key; eauto|apply in_app_iff; right; left; auto].
  - revert I. cbn [inline_wikitext]. apply atom_not; [eapply state_key; eauto|apply in_app_iff; right; left; auto].
Qed.

Lemma shown_fine : forall t l l', unique t -> Forall2 (shown t) l l' -> fine l -> fine l' /\ Forall only_words l'.
Proof.
  intros t l l' U F [A St N S T E]. pose proof (shown_words _ _ _ U A St F) as W. pose proof (shown_swapped _ _ _ U F) as X. split; auto. constructor.
  - eapply Forall_impl; [|exact W]. intros i (s & -> & H1 & H2). split; auto. apply inert_loose. auto.
  - eapply Forall_impl; [|exact W]. intros i (s & -> & H1 & H2). exact H1.
  - eapply shown_no_newline; eauto.
  - apply (swap_block_start _ _ X). exact S.
  - apply (swap_trim _ _ X). exact T.
  - intros ->. inversion F; subst. auto.
Qed.

(** ** The passes *)

Lemma judge_same : forall C strict t (m : M str) s (k : str -> M C) Q, unchanged m s -> judge strict t (k s) Q -> judge strict t (bindM m k) Q.
Proof.
  intros C strict t m s k Q U [H N]. split.
  - intros a t' E. unfold bindM in E. rewrite U in E. cbn [bind] in E. apply H. exact E.
  - intros S. unfold bindM. rewrite U. cbn [bind]. apply N. exact S.
Qed.

Section Run.
Hypothesis P : prefixes_ok cfg.

Section Middle.
Variable fuel : nat.
Let rec := tokenizeContent cfg fuel.

Lemma atom_angles : forall l, Forall atom_ok l -> math_angles (line_wikitext l).
Proof.
  intros l A. induction A as [|i l A F IH]; [apply math_angles_none; intros []|]. rewrite line_cons. apply math_angles_app; auto. clear IH F.
  destruct i as [s|k|a lb|u lb|f|p|nn nr]; cbn [inline_wikitext atom_ok] in *; [apply math_angles_none; intros I..| | |destruct A].
  - destruct A as [A _]. revert I. apply A. cbn. auto 10.
  - destruct A.
  - destruct A as (_ & W & W' & _). rewrite !in_app_iff in I. destruct I as [I|[I|[I|I]]].
    + cbn in I. intuition discriminate.
    + revert I. apply letter_not; auto. cbn. auto 10.
    + destruct lb as [y|]; [|destruct I]. apply in_app_iff in I as [I|I]; [cbn in I; intuition discriminate|revert I; apply letter_not; auto; cbn; auto 10].
    + cbn in I. intuition discriminate.
  - destruct A as (_ & _ & U & _ & W & _). rewrite !in_app_iff in I. destruct I as [I|[I|[I|[I|I]]]].
    + cbn in I. intuition discriminate.
    + rewrite Forall_forall in U. apply (U _ I). cbn. auto 10.
    + cbn in I. intuition discriminate.
    + revert I. apply letter_not; auto. cbn. auto 10.
    + cbn in I. intuition discriminate.
  - apply math_angles_text. destruct A as (F & _). intros I. rewrite Forall_forall in F. apply (F _ I). cbn. auto 10.
  - apply math_angles_none. apply picture_chars; auto. cbn. auto 10.
Qed.

Lemma atom_tags : forall l, Forall atom_ok l -> no_tags (line_wikitext l).
Proof. intros l A. apply math_no_tags. apply atom_angles. exact A. Qed.

Lemma half_wikitext : forall p c, half p -> In c (!"{}<>" ++ nl) -> ~ In c (picture_wikitext p).
Proof.
  intros p c H I J. rewrite picture_text, !in_app_iff in J. destruct J as [J|[J|J]].
  - cbn in I, J. intuition (subst; discriminate).
  - unfold picture_inside in J. rewrite !in_app_iff in J. destruct J as [J|[J|J]].
    + revert J. destruct (half_bare p H) as (_ & _ & _ & W & _). apply letter_not; auto. cbn in I |- *. intuition.
    + cbn in I, J. intuition (subst; discriminate).
    + revert J. apply half_body_chars; auto. cbn in I |- *. intuition.
  - cbn in I, J. intuition (subst; discriminate).
Qed.

Lemma half_tags : forall l, Forall half_ok l -> no_tags (line_wikitext l).
Proof.
  intros l A. apply math_no_tags. induction A as [|i l A F IH]; [apply math_angles_none; intros []|]. rewrite line_cons. apply math_angles_app; auto. clear IH F.
  destruct i as [s|k|a lb|u lb|f|p|nn nr]; cbn [half_ok] in A; try (destruct A; fail).
  all: try (assert (X : Forall atom_ok [Words s]) by (constructor; auto); apply atom_angles in X; unfold line_wikitext in X; cbn [map concat] in X; rewrite app_nil_r in X; exact X).
  - assert (X : Forall atom_ok [Address u lb]) by (constructor; auto). apply atom_angles in X. unfold line_wikitext in X. cbn [map concat] in X. rewrite app_nil_r in X. exact X.
  - assert (X : Forall atom_ok [Math f]) by (constructor; auto). apply atom_angles in X. unfold line_wikitext in X. cbn [map concat] in X. rewrite app_nil_r in X. exact X.
  - apply math_angles_none. apply half_wikitext; auto. cbn. auto 10.
Qed.

(** The passes after the footnotes *)
Lemma rest_middle : forall C (l : list inline) t (k : str -> M C) Q, Forall atom_ok l -> ok false t ->
  (forall l' t', ok false t' -> grows t t' -> Forall2 (shown t') l l' -> judge true t' (k (line_wikitext l')) Q) ->
  judge true t (
    do! content := parseInternalLinks cfg rec (line_wikitext l) in
    do! content := parseGalleries cfg content in
    do! content := parseImageMaps cfg content in
    do! content := parseImages cfg rec content in
    do! content := parseExternalLinks cfg rec content in
    do! content := parseMath content in
    k content) Q.
Proof.
  intros C l t k Q A O H.
  eapply judge_bind; [apply internal_pass; auto|]. cbn beta. intros r t1 O1 G1 (l1 & F1 & ->).
  pose proof (linked_ok t1 l l1 (proj1 O1) A F1) as A1.
  eapply judge_same; [apply galleries_same; apply half_tags; auto|].
  eapply judge_same; [apply imagemaps_same; apply half_tags; auto|].
  eapply judge_bind; [apply images_pass; auto|]. cbn beta. intros r t0 O0 G0 (l0 & F0 & ->). destruct (pictured_ok t0 l1 l0 (proj1 O0) A1 F0) as (A0 & Z0 & Y0).
  eapply judge_bind; [apply external_pass; auto|]. cbn beta. intros r t2 O2 G2 (l2 & F2 & ->).
  eapply judge_bind; [apply math_pass; auto; eapply addressed_ok; eauto; apply O2|]. cbn beta. intros r t3 O3 G3 (l3 & F3 & ->).
  pose proof (grows_trans _ _ _ G2 G3) as G23. pose proof (grows_trans _ _ _ G0 G23) as G03.
  apply H; auto; [eapply grows_trans; [exact G1|exact G03]|]. eapply (all_shown t1 t0 t2 t3); eauto; apply grows_keeps; auto.
Qed.
Lemma middle : forall C (l : list inline) t (k : str -> M C) Q, Forall atom_ok l -> ok false t ->
  (forall l' t', ok false t' -> grows t t' -> Forall2 (shown t') l l' -> judge true t' (k (line_wikitext l')) Q) ->
  judge true t (
    do! content := parseReferences rec (line_wikitext l) in
    do! content := parseInternalLinks cfg rec content in
    do! content := parseGalleries cfg content in
    do! content := parseImageMaps cfg content in
    do! content := parseImages cfg rec content in
    do! content := parseExternalLinks cfg rec content in
    do! content := parseMath content in
    k content) Q.
Proof.
  intros C l t k Q A O H. eapply judge_same; [apply references_same; apply atom_tags; auto|]. apply rest_middle; auto.
Qed.
End Middle.

(** ** A single line *)

Lemma only_words_chars : forall l c, Forall only_words l -> In c !"[<{" -> ~ In c (line_wikitext l).
Proof. intros l c W I. apply words_text; auto. cbn in I |- *. intuition. Qed.

Lemma line_settled : forall l, fine l -> Forall only_words l -> settled (line_wikitext l).
Proof. intros l [A St N S T E] W. apply settled_single; auto; [|apply (words_text l W)]. intros c I. apply only_words_chars; auto. Qed.

Lemma inline_quotes : forall i, atom_ok i -> plain (inline_wikitext i).
Proof.
  intros i A. destruct i as [s|k|a lb|u lb|f|p|nn nr]; cbn [atom_ok] in *.
  5: apply (formula_plain f); auto.
  5: apply (picture_plain p); auto.
  5: destruct A.
  - apply A.
  - destruct A.
  - apply (phrase_plain (Linked a lb)). exact A.
  - destruct A as (_ & _ & U & _ & W & _). cbn [inline_wikitext]. apply plain_app; [marks|]. apply plain_app; [|apply plain_app; [marks|]; apply plain_app; [apply W|marks]].
    apply plain_without. intros I. rewrite Forall_forall in U. apply (U _ I). cbn. auto.
Qed.
Lemma fine_plain : forall l, Forall atom_ok l -> plain (line_wikitext l).
Proof. intros l A. apply concat_plain. apply Forall_map. eapply Forall_impl; [|exact A]. apply inline_quotes. Qed.

Lemma single_lines : forall l, fine l -> Forall no_block_start (split nl (line_wikitext l)).
Proof. intros l [A St N S T E]. change nl with [nl_char]. rewrite split_single_none by auto. constructor; auto. Qed.

Lemma line_pass : forall fuel l t, fine l -> ok false t ->
  judge true t (passes cfg (tokenizeContent cfg fuel) (line_wikitext l)) (fun t' r => exists l', Forall2 (shown t') l l' /\ r = line_wikitext l').
Proof.
  intros fuel l t L O. pose proof (fine_atoms _ L) as A. unfold passes. eapply judge_same; [apply nowiki_same; apply atom_tags; auto|].
  eapply judge_same; [apply formatting_same; apply (fine_plain l); auto|]. eapply judge_same; [apply headings_same; apply single_lines; auto|].
  apply middle; auto. intros l' t' O' G F. destruct (shown_fine _ _ _ (proj1 O') F L) as [L' W].
  eapply judge_same; [apply lists_same; apply single_lines; auto|]. eapply judge_same; [apply tables_same; apply only_words_chars; auto; cbn; auto|].
  apply judge_ret; auto. exists l'. split; auto. apply single_paragraph. apply L'.
Qed.

Lemma line_result : forall fuel l t, fine l -> ok false t ->
  judge true t (tokenizeContent cfg fuel (line_wikitext l)) (fun t' r => exists l', Forall2 (shown t') l l' /\ r = line_wikitext l').
Proof.
  intros [|fuel] l t L O; cbn [tokenizeContent]; [apply judge_fuel|]. eapply judge_bind; [apply line_pass; auto|]. cbn beta. intros r t' O' G (l' & F & ->).
  destruct (str_eqb _ _); [apply judge_ret; eauto|]. destruct (shown_fine _ _ _ (proj1 O') F L) as [L' W].
  eapply judge_weaken; [apply settled_judge; auto; apply line_settled; auto|]. cbn beta. intros c t2 O2 G2 ->. exists l'. split; auto. eapply shown_lines; [apply grows_keeps; eauto|auto].
Qed.
End Run.
End Doc.
