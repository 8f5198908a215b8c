(** * Proper documents are ready for the parser *)

From Coq Require Import Ascii String.
From Coq Require Import List Arith Bool Lia.
From Verif Require Import GoStr GoStrFacts TextFacts TrimFacts UtilModel BracketModel ConfigModel TokenModel TokenSpec TokenProofs PassSpec MarkupSpec SafeSpec.
From Verif Require Import FormattingModel FormattingSpec FormattingProofs HeadingModel LinkModel ImageModel ReferenceModel ListModel TableModel ParagraphModel ParagraphSpec ParagraphProofs TokenizerModel JudgeProofs HeadingProofs LinkProofs NowikiProofs SafeTextProofs SafeProofs ShapeProofs.
From Verif Require Import MathQuietProofs PropPasses DocumentSpec DocumentSettledProofs DocumentLineProofs DocumentPictureProofs DocumentRunProofs DocumentBlockProofs DocumentListProofs DocumentGridProofs DocumentPassProofs.
From Verif Require MarkupProofs.
Import ListNotations.
Local Open Scope list_scope.

(** ** Lines *)

Lemma toggle_some : forall o k, exists m ms, fst (toggle o k) = m :: ms.
Proof. intros [|[] [|? o]] []; cbn [toggle fst]; eauto. Qed.

Lemma opened_cons : forall m ms, opened (m :: ms) = marker_text m ++ opened ms.
Proof. reflexivity. Qed.

Lemma opened_inert : forall ms, inert (opened ms).
Proof.
  intros ms. induction ms as [|m ms [IH1 IH2]]; [split; [intros c _ []|apply plain_without; intros []]|]. rewrite opened_cons. destruct (atom_inert _ (marker_atom m)) as [A1 A2]. split; [|apply plain_app; auto].
  intros c I J. apply in_app_iff in J as [J|J]; [apply (A1 c)|apply (IH1 c)]; auto.
Qed.

Lemma opened_piece : forall o k, piece (Words (opened (fst (toggle o k)))).
Proof. intros o k. destruct (toggle_some o k) as (m & ms & ->). right. exists (marker_text m), (opened ms). split; [apply marker_atom|apply opened_cons]. Qed.

Lemma opened_nonempty : forall o k, opened (fst (toggle o k)) <> [].
Proof. intros o k. destruct (toggle_some o k) as (m & ms & ->). rewrite opened_cons. intros E. apply app_eq_nil in E as [E _]. revert E. apply atom_nonempty. apply marker_atom. Qed.

Lemma keylike_app : forall a b, keylike a -> keylike b -> keylike (a ++ b).
Proof.
  intros a b ((c & C & (x & ->) & _) & y & E) ((c' & _ & _ & d' & y' & D & ->) & _). split.
  - exists c. split; auto. split; [exists (x ++ y' ++ [d']); auto|]. exists d', ((c :: x) ++ y'). split; auto. rewrite app_assoc. auto.
  - exists (y ++ y' ++ [d']). rewrite E. auto.
Qed.

Lemma opened_keylike : forall ms m, keylike (opened (m :: ms)).
Proof.
  induction ms as [|m' ms IH]; intros m; rewrite opened_cons.
  - unfold opened. cbn [map concat]. rewrite app_nil_r. apply atom_keylike. apply marker_atom.
  - apply keylike_app; [apply atom_keylike; apply marker_atom|apply IH].
Qed.

Lemma quotes_solid : forall k, solid_ends (quotes_of k).
Proof.
  intros []; [apply (ends_of "'"%char "'"%char !"'"); reflexivity|apply (ends_of "'"%char "'"%char []); reflexivity].
Qed.

Lemma bold_swapped : forall l o, Forall2 swapped (map inline_wikitext l) (map inline_wikitext (bold o l)).
Proof.
  induction l as [|[s|k|x y|x y|f|p|nn nr] l IH]; intros o; cbn [bold map]; constructor; auto; try (left; reflexivity). right.
  split; [apply quotes_solid|]. cbn [inline_wikitext]. destruct (toggle_some o k) as (m & ms & ->). apply opened_keylike.
Qed.

Section Doc.
Context {cfg : configuration}.

(** Footnotes are replaced by keys. *)
Definition noted (t : Tokenizer) (i i' : inline) : Prop :=
  match i with Note n _ => exists key, i' = Words key /\ In (key, RefUsageToken n) (tokenMap t) | _ => i' = i end.

Lemma noted_word : forall t s x, noted t (Words s) x -> x = Words s.
Proof. intros t s x H. exact H. Qed.

Lemma noted_none : forall t l, Forall no_note l -> Forall2 (noted t) l l.
Proof. intros t l F. induction F as [|[] l A F IH]; constructor; auto; try reflexivity. destruct A. Qed.

Lemma bold_no_note : forall l o, Forall no_note l -> Forall no_note (bold o l).
Proof. induction l as [|[] l IH]; intros o F; cbn [bold]; constructor; inversion F; subst; auto; exact I. Qed.

Lemma noted_swapped : forall t l l', unique t -> Forall2 (noted t) l l' -> Forall2 swapped (map inline_wikitext l) (map inline_wikitext l').
Proof.
  intros t l l' U F. induction F as [|i i' l l' H F IH]; cbn [map]; constructor; auto. destruct i; cbn [noted] in H; try (subst; left; reflexivity).
  destruct H as (key & -> & I). right. split; [apply reference_ends|]. apply atom_keylike. eapply state_key; eauto.
Qed.

Lemma noted_absent : forall t l l' c, unique t -> key_char c = false -> Forall2 (noted t) l l' -> ~ In c (line_wikitext l) -> ~ In c (line_wikitext l').
Proof.
  intros t l l' c U K F. induction F as [|i i' l l' H F IH]; intros N; auto. rewrite line_cons in *. intros J. apply in_app_iff in J as [J|J]; [|revert J; apply IH; intros J; apply N; apply in_app_iff; auto].
  destruct i; cbn [noted] in H; try (subst; apply N; apply in_app_iff; auto; fail). destruct H as (key & -> & I).
  pose proof (atom_chars _ (state_key _ _ _ U I)) as A. rewrite Forall_forall in A. rewrite (A _ J) in K. discriminate.
Qed.

Lemma bold_atoms : forall t l o l', unique t -> Forall inline_ok l -> Forall2 (noted t) (bold o l) l' -> Forall atom_ok l'.
Proof.
  intros t. induction l as [|i l IH]; intros o l' U F H; cbn [bold] in H; [inversion H; constructor|]. inversion F as [|? ? A B]; subst. destruct i as [s|k|x y|x y|f|p|nn nr]; inversion H as [|? j ? m H1 H2]; subst; cbn [noted] in H1; try (subst; constructor; eauto; fail).
  - subst. constructor; eauto. destruct A as [N W]. split; auto. apply inert_loose. apply words_inert. auto.
  - subst. constructor; eauto. split; [apply inert_loose; apply opened_inert|apply opened_nonempty].
  - destruct H1 as (key & -> & I). constructor; eauto. eapply key_atom_ok; eauto.
Qed.

Lemma bold_strong : forall t l o l', unique t -> Forall inline_ok l -> Forall2 (noted t) (bold o l) l' -> Forall strong l'.
Proof.
  intros t. induction l as [|i l IH]; intros o l' U F H; cbn [bold] in H; [inversion H; constructor|]. inversion F as [|? ? A B]; subst. destruct i as [s|k|x y|x y|f|p|nn nr]; inversion H as [|? j ? m H1 H2]; subst; cbn [noted] in H1; try (subst; constructor; eauto; exact I).
  - subst. constructor; eauto. apply words_inert. apply A.
  - subst. constructor; eauto. apply opened_inert.
  - destruct H1 as (key & -> & I). constructor; eauto. apply atom_inert. eapply state_key; eauto.
Qed.

Lemma bold_pieces : forall t l o l', unique t -> Forall inline_ok l -> Forall2 (noted t) (bold o l) l' -> Forall piece l'.
Proof.
  intros t. induction l as [|i l IH]; intros o l' U F H; cbn [bold] in H; [inversion H; constructor|]. inversion F as [|? ? A B]; subst. destruct i as [s|k|x y|x y|f|p|nn nr]; inversion H as [|? j ? m H1 H2]; subst; cbn [noted] in H1; try (subst; constructor; eauto; exact I).
  - subst. constructor; eauto. left. apply letter_not; [cbn; auto 20|apply A].
  - subst. constructor; eauto. apply opened_piece.
  - destruct H1 as (key & -> & I). constructor; eauto. right. exists key, []. split; [eapply state_key; eauto|rewrite app_nil_r; auto].
Qed.

Lemma bold_words : forall l o s, In (Words s) l -> In (Words s) (bold o l).
Proof.
  induction l as [|i l IH]; intros o s J; [destruct J|]. destruct J as [->|J]; [left; reflexivity|]. destruct i; cbn [bold]; right; auto.
Qed.

(** Two characters next to each other *)
Definition lonely (c : ascii) (s : str) : Prop := forall a b, s <> a ++ c :: c :: b.

Lemma lonely_none : forall c s, ~ In c s -> lonely c s.
Proof. intros c s N a b ->. apply N. apply in_app_iff. right. left. auto. Qed.

Lemma lonely_sep : forall c d x y, d <> c -> lonely c x -> lonely c y -> lonely c (x ++ d :: y).
Proof.
  intros c d x y D X Y a b E. apply app_eq_app in E as (m & [[-> H]|[-> H]]).
  - destruct m as [|e [|f m]]; cbn [app] in H; [congruence|injection H; congruence|]. injection H as <- <- ->. eapply X. reflexivity.
  - destruct m as [|e m]; cbn [app] in H; [congruence|]. injection H as _ ->. eapply Y. reflexivity.
Qed.

Lemma lonely_join : forall c ls, c <> nl_char -> Forall (lonely c) ls -> lonely c (join nl ls).
Proof.
  intros c ls N F. induction F as [|x [|y ls] X F IH]; [apply lonely_none; intros []|auto|]. rewrite join_more. apply lonely_sep; auto.
Qed.

Lemma lonely_app : forall c x y, lonely c x -> lonely c y -> (forall z, x <> z ++ [c]) -> lonely c (x ++ y).
Proof.
  intros c x y X Y N a b E. apply app_eq_app in E as (m & [[-> H]|[-> H]]).
  - destruct m as [|e [|f m]]; cbn [app] in H; [apply (Y [] b); auto|injection H as <- <-; eapply N; reflexivity|]. injection H as <- <- ->. eapply X. reflexivity.
  - subst. eapply Y. reflexivity.
Qed.

(** No comment ends: there is no dash in front of a closing angle bracket. *)
Definition no_comment (s : str) : Prop := forall a b, s = a ++ ">"%char :: b -> exists z d, a = z ++ [d] /\ d <> "-"%char.

Lemma no_comment_none : forall s, ~ In ">"%char s -> no_comment s.
Proof. intros s N a b ->. exfalso. apply N. apply in_app_iff. right. left. auto. Qed.

Lemma no_comment_app : forall x y, no_comment x -> no_comment y -> no_comment (x ++ y).
Proof.
  intros x y X Y a b E. apply app_eq_app in E as (m & [[-> H]|[-> H]]).
  - destruct m as [|d m]; [destruct (Y [] b) as (z & d & Z & _); [symmetry; exact H|]; destruct z; discriminate|]. injection H as <- ->. eapply X. reflexivity.
  - destruct (Y m b H) as (z & d & -> & D). exists (x ++ z), d. rewrite app_assoc. auto.
Qed.

(** The end of a tag *)
Lemma no_comment_end : forall x d, ~ In ">"%char (x ++ [d]) -> d <> "-"%char -> no_comment (x ++ d :: !">").
Proof.
  intros x d N D a b E. change (x ++ d :: !">") with (x ++ [d] ++ !">") in E. rewrite app_assoc in E. apply app_eq_app in E as (m & [[E H]|[-> H]]).
  - destruct m as [|e m]; [exists x, d; rewrite app_nil_r in E; auto|]. injection H as <- _. exfalso. apply N. rewrite E. apply in_app_iff. right. left. auto.
  - destruct m as [|e m]; [exists x, d; rewrite app_nil_r; auto|]. destruct m; discriminate.
Qed.

Lemma no_comment_math : forall f, ~ In ">"%char f -> no_comment (!"<math>" ++ f ++ !"</math>").
Proof.
  intros f N. apply no_comment_app; [|apply no_comment_app; [apply no_comment_none; auto|]].
  - apply (no_comment_end !"<mat" "h"%char); [cbn; intuition discriminate|discriminate].
  - apply (no_comment_end !"</mat" "h"%char); [cbn; intuition discriminate|discriminate].
Qed.

(** What lines contain of the characters that are not in any text *)
Record neat (s : str) : Prop := {
  neat_chars : forall c, In c (!"$" ++ nl) -> ~ In c s;
  neat_angles : tag_angles s;
  neat_ends : no_comment s;
  neat_braces : lonely "{" s }.
Definition neat_line (s : str) : Prop := neat s /\ forall z, s <> z ++ !"{".

Lemma neat_none : forall s, (forall c, In c (!"{}<>$" ++ nl) -> ~ In c s) -> neat_line s.
Proof.
  intros s H. split; [constructor|].
  - intros c C. apply H. cbn in C |- *. intuition.
  - apply tag_angles_none. apply H. cbn. auto 10.
  - apply no_comment_none. apply H. cbn. auto 10.
  - apply lonely_none. apply H. cbn. auto 10.
  - intros z ->. apply (H "{"%char); [cbn; auto|]. apply in_app_iff. right. left. auto.
Qed.

Lemma neat_app : forall x y, neat_line x -> neat_line y -> neat_line (x ++ y).
Proof.
  intros x y [[X1 X2 X3 X4] X5] [[Y1 Y2 Y3 Y4] Y5]. split; [constructor|].
  - intros c C I. apply in_app_iff in I as [I|I]; [apply (X1 c C I)|apply (Y1 c C I)].
  - apply tag_angles_app; auto.
  - apply no_comment_app; auto.
  - apply lonely_app; auto.
  - intros z E. destruct y as [|d y _] using rev_ind; [rewrite app_nil_r in E; apply (X5 z E)|]. rewrite app_assoc in E. apply app_inj_tail in E as [_ ->]. apply (Y5 y eq_refl).
Qed.

Lemma simple_neat : forall i, simple_ok cfg i -> neat_line (inline_wikitext i).
Proof.
  intros i A. destruct i as [s|k|a lb|u lb|f|p|nn nr]; cbn [inline_wikitext simple_ok] in *.
  5: { destruct A as (F & B & _). rewrite Forall_forall in F. assert (N : forall c, In c (!"[]<>$" ++ nl) -> ~ In c f) by (intros c I J; apply (F c J I)). split; [constructor|].
    - intros c C I. rewrite !in_app_iff in I. destruct I as [I|[I|I]]; [|revert I; apply N; cbn in C |- *; intuition|]; cbn in C, I; intuition (subst; discriminate).
    - apply tag_angles_math. apply math_angles_text. apply N. cbn. auto 10.
    - apply no_comment_math. apply N. cbn. auto 10.
    - apply (lonely_sep "{" ">" !"<math" (f ++ !"</math>")); [discriminate|apply lonely_none; cbn; intuition discriminate|]. apply (lonely_sep "{" "<" f !"/math>"); [discriminate| |apply lonely_none; cbn; intuition discriminate].
      intros x y E. rewrite contains_false in B. eapply B. exact E.
    - intros z E. rewrite !app_assoc in E. change (!"</math>") with (!"</math" ++ !">") in E. rewrite app_assoc in E. apply app_inj_tail in E as [_ E]. discriminate. }
  5: { apply neat_none. intros c C. apply (picture_chars p c A). cbn in C |- *. intuition. }
  5: { destruct A. }
  all: apply neat_none; intros c C I; assert (C' : In c (!"[]{}|<>$_" ++ nl)) by (cbn in C |- *; intuition); assert (C2 : ~ In c !"[] |'") by (cbn in C |- *; intuition (subst; discriminate)).
  - destruct A as [_ A]. revert I. apply letter_not; auto.
  - apply C2. destruct k; cbn in I |- *; intuition.
  - destruct A as (_ & W & W' & _). rewrite !in_app_iff in I. destruct I as [I|[I|[I|I]]].
    + apply C2. cbn in I |- *. intuition.
    + revert I. apply letter_not; auto.
    + destruct lb as [y|]; [|destruct I]. apply in_app_iff in I as [I|I]; [apply C2; cbn in I |- *; intuition|revert I; apply letter_not; auto].
    + apply C2. cbn in I |- *. intuition.
  - destruct A as (_ & _ & U & _ & W & _). rewrite !in_app_iff in I. destruct I as [I|[I|[I|[I|I]]]].
    + apply C2. cbn in I |- *. intuition.
    + rewrite Forall_forall in U. apply (U c I). cbn in C |- *. intuition.
    + apply C2. cbn in I |- *. intuition.
    + revert I. apply letter_not; auto.
    + apply C2. cbn in I |- *. intuition.
Qed.

Lemma simple_line_neat : forall l, Forall (simple_ok cfg) l -> neat_line (line_wikitext l).
Proof.
  intros l F. induction F as [|i l A F IH]; [apply neat_none; intros c _ []|]. rewrite line_cons. apply neat_app; auto. apply simple_neat; auto.
Qed.

(** Attributes of tags *)
Definition tag_char (c : ascii) : Prop := ~ In c (!"[]{}|<>$_" ++ nl).
Definition calm (s : str) : Prop := (forall c, In c s -> tag_char c) /\ plain s.
Lemma calm_app : forall a b, calm a -> calm b -> calm (a ++ b).
Proof. intros a b [A A'] [B B']. split; [|apply plain_app; auto]. intros c I. apply in_app_iff in I as [I|I]; auto. Qed.
Ltac calm_text := split; [let c := fresh in let I := fresh in let J := fresh in intros c I J; cbn in I, J; intuition (subst; discriminate)|marks].
Lemma calm_nil : calm [].
Proof. split; [intros c []|apply plain_without; intros []]. Qed.

Lemma attributes_calm : forall a, note_attributes_ok a -> calm (ReferenceSpec.attributes_text a) /\ forall z, ReferenceSpec.attributes_text a <> z ++ !"-".
Proof.
  intros [l n] [[A _] W]. unfold ReferenceSpec.attributes_text. cbn [ReferenceSpec.given ReferenceSpec.spaces] in *. split.
  - apply calm_app; [|split; [intros c I; apply repeat_spec in I; subst; intros J; cbn in J; intuition discriminate|apply plain_without; intros I; apply repeat_spec in I; discriminate]]. induction l as [|x l IH]; [apply calm_nil|]. inversion A as [|? ? A1 A2]; subst. inversion W as [|? ? [W1 _] W2]; subst. cbn [map concat]. apply calm_app; auto.
    unfold ReferenceSpec.attribute_text. apply calm_app; [calm_text|]. apply calm_app; [destruct A1 as [[->| ->] _]; calm_text|]. apply calm_app; [calm_text|].
    assert (V : calm (ReferenceSpec.attr_value x)) by (destruct W1 as [W1 W3]; split; auto; intros c I; rewrite Forall_forall in W1; apply W1; auto). destruct (ReferenceSpec.attr_quoted x); auto. apply calm_app; [calm_text|]. apply calm_app; [auto|calm_text].
  - intros z E. destruct n as [|n].
    + cbn [repeat] in E. rewrite app_nil_r in E. destruct l as [|x l _] using rev_ind; [destruct z; discriminate|]. apply Forall_app in A as [_ A]. apply Forall_app in W as [_ W]. inversion A as [|? ? (_ & N & _) _]; subst. inversion W as [|? ? [_ W1] _]; subst.
      rewrite map_app, concat_app in E. cbn [map concat] in E. rewrite app_nil_r in E. unfold ReferenceSpec.attribute_text in E. destruct (ReferenceSpec.attr_quoted x).
      * rewrite !app_assoc in E. apply app_inj_tail in E as [_ E]. discriminate.
      * destruct (ReferenceSpec.attr_value x) as [|d v _] using rev_ind; [contradiction|]. rewrite !app_assoc in E. apply app_inj_tail in E as [_ ->]. apply W1. eauto.
    + change (S n) with (1 + n) in E. rewrite Nat.add_comm, repeat_app in E. cbn [repeat] in E. rewrite app_assoc in E. apply app_inj_tail in E as [_ E]. discriminate.
Qed.

(** A tag: its name, its attributes and its end *)
Lemma name_calm : forall name, In name [!"ref"; !"references"] -> calm name.
Proof. intros name [<-|[<-|[]]]; calm_text. Qed.
Lemma end_calm : forall e, e = [] \/ e = !"/" -> calm e.
Proof. intros e [->| ->]; [apply calm_nil|calm_text]. Qed.

Lemma tag_neat : forall name a e, In name [!"ref"; !"references"] -> note_attributes_ok a -> (e = [] \/ e = !"/") -> neat_line (!"<" ++ name ++ ReferenceSpec.attributes_text a ++ e ++ !">").
Proof.
  intros name a e N A He. destruct (attributes_calm a A) as [C L]. set (x := ReferenceSpec.attributes_text a) in *.
  assert (Cb : calm (name ++ x ++ e)) by (apply calm_app; [apply name_calm; auto|apply calm_app; [auto|apply end_calm; auto]]).
  assert (Z : forall c, In c (!"{}$" ++ nl) -> ~ In c (!"<" ++ name ++ x ++ e ++ !">")).
  { intros c K I. rewrite !in_app_iff in I. destruct I as [I|[I|[I|[I|I]]]]; [cbn in I, K; intuition (subst; discriminate)| | | |cbn in I, K; intuition (subst; discriminate)];
    (apply (proj1 Cb c); [rewrite !in_app_iff; auto|cbn in K |- *; intuition]). }
  split; [constructor|].
  - intros c K. apply Z. cbn in K |- *. intuition.
  - intros p q E. destruct p as [|d p].
    + exists !"ref". cbn [app] in E. assert (E' : q = name ++ x ++ e ++ !">") by congruence. subst q. cbn in N. destruct N as [<-|[<-|[]]]; eexists; (split; [cbn; auto 10|rewrite <- ?app_assoc; reflexivity]).
    + exfalso. assert (E' : name ++ x ++ e ++ !">" = p ++ "<"%char :: q) by (cbn [app] in E; congruence). assert (I : In "<"%char (name ++ x ++ e ++ !">")) by (rewrite E'; apply in_app_iff; right; left; auto).
      rewrite !app_assoc in I. apply in_app_iff in I as [I|I]; [|cbn in I; intuition discriminate]. rewrite <- !app_assoc in I. apply (proj1 Cb _ I). cbn. auto 10.
  - assert (X : exists y d, !"<" ++ name ++ x ++ e = y ++ [d] /\ d <> "-"%char).
    { destruct He as [->| ->]; [|exists (!"<" ++ name ++ x), "/"%char; split; [rewrite <- !app_assoc; reflexivity|discriminate]].
      rewrite app_nil_r. destruct x as [|d x' _] using rev_ind.
      - cbn in N. destruct N as [<-|[<-|[]]]; [exists !"<re", "f"%char|exists !"<reference", "s"%char]; (split; [reflexivity|discriminate]).
      - exists (!"<" ++ name ++ x'), d. split; [rewrite <- !app_assoc; reflexivity|]. intros ->. apply (L x'). reflexivity. }
    destruct X as (y & d & X & D). replace (!"<" ++ name ++ x ++ e ++ !">") with (y ++ d :: !">"); [|change (d :: !">") with ([d] ++ !">"); rewrite app_assoc, <- X, <- !app_assoc; reflexivity].
    apply no_comment_end; auto. rewrite <- X. intros I. apply in_app_iff in I as [I|I]; [cbn in I; intuition discriminate|]. apply (proj1 Cb _ I). cbn. auto 10.
  - apply lonely_none. apply Z. cbn. auto.
  - intros z E. rewrite !app_assoc in E. apply app_inj_tail in E as [_ E]. discriminate.
Qed.

Lemma listing_neat : forall a, note_attributes_ok a -> neat_line (listing a).
Proof.
  intros a A. unfold listing, ReferenceSpec.element_text. apply (tag_neat !"references" a !"/"); auto. cbn. auto.
Qed.

Lemma reference_neat : forall r, note_ok cfg r -> neat_line (ReferenceSpec.reference_text r).
Proof.
  intros [a b] [A B]. unfold ReferenceSpec.reference_text. cbn [ReferenceSpec.ref_attributes ReferenceSpec.ref_body] in *. destruct b as [body|]; [|apply (tag_neat !"ref" a !"/"); auto; cbn; auto].
  destruct B as (l & -> & (_ & F & _) & _). replace (!"<ref" ++ ReferenceSpec.attributes_text a ++ !">" ++ line_wikitext l ++ !"</ref>") with ((!"<" ++ !"ref" ++ ReferenceSpec.attributes_text a ++ [] ++ !">") ++ line_wikitext l ++ !"</ref>") by (rewrite <- !app_assoc; reflexivity).
  apply neat_app; [apply tag_neat; auto; cbn; auto|]. apply neat_app; [apply simple_line_neat; auto|]. split; [constructor|].
  - intros c K I. cbn in I, K. intuition (subst; discriminate).
  - intros p q E. destruct p as [|d p]; [exists !"/ref>", []; split; [cbn; auto|cbn [app] in E |- *; congruence]|]. exfalso. assert (E' : !"/ref>" = p ++ "<"%char :: q) by (cbn [app] in E; congruence).
    assert (I : In "<"%char !"/ref>") by (rewrite E'; apply in_app_iff; right; left; auto). cbn in I. intuition discriminate.
  - apply (no_comment_end !"</re" "f"%char); [cbn; intuition discriminate|discriminate].
  - apply lonely_none. cbn. intuition discriminate.
  - intros z E. change (!"</ref>") with (!"</ref" ++ [">"%char]) in E. apply app_inj_tail in E as [_ E]. discriminate.
Qed.

Lemma inline_neat : forall i, inline_ok i -> neat_line (inline_wikitext i).
Proof. intros i A. destruct i; try (apply simple_neat; exact A). apply reference_neat. exact A. Qed.

Lemma line_neat : forall l, Forall inline_ok l -> neat_line (line_wikitext l).
Proof.
  intros l F. induction F as [|i l A F IH]; [apply neat_none; intros c _ []|]. rewrite line_cons. apply neat_app; auto. apply inline_neat; auto.
Qed.

Lemma bold_newline : forall l o, Forall inline_ok l -> ~ In nl_char (line_wikitext (bold o l)).
Proof.
  induction l as [|i l IH]; intros o F; [intros []|]. inversion F as [|? ? A B]; subst. intros J.
  assert (X : inline_ok i -> ~ In nl_char (inline_wikitext i)) by (intros Ai; apply (inline_neat i Ai); cbn; auto).
  destruct i as [s|k|x y|x y|f|p|nn nr]; cbn [bold] in J; rewrite line_cons in J; (apply in_app_iff in J as [J|J]; [|revert J; apply IH; auto]); try (revert J; apply X; auto; fail).
  revert J. cbn [inline_wikitext]. clear. generalize (fst (toggle o k)). intros ms. induction ms as [|m ms IH]; [intros []|]. rewrite opened_cons. intros J. apply in_app_iff in J as [J|J]; auto.
  revert J. apply atom_not; [apply marker_atom|apply in_app_iff; right; left; auto].
Qed.

Lemma bold_nonempty : forall l o, l <> [] -> bold o l <> [].
Proof. intros [|[s|k|x y|x y|f|p|nn nr] l] o N; [contradiction|discriminate..]. Qed.

Lemma line_fine : forall t l l', unique t -> line_ok l -> Forall2 (noted t) (bold [] l) l' -> fine l'.
Proof.
  intros t l l' U (N & F & Q & S & T & B) H. pose proof (bold_swapped l []) as X. pose proof (noted_swapped _ _ _ U H) as Y. constructor.
  - eapply bold_atoms; eauto.
  - eapply bold_strong; eauto.
  - eapply noted_absent; eauto. apply bold_newline; auto.
  - apply (swap_block_start _ _ Y). apply (swap_block_start _ _ X). exact B.
  - apply (swap_trim _ _ Y). apply (swap_trim _ _ X). exact T.
  - intros ->. inversion H as [E|]; subst. symmetry in E. revert E. apply bold_nonempty; auto.
Qed.

(** Lines without footnotes *)
Lemma new_unique : unique NewTokenizer.
Proof. split; constructor. Qed.

Lemma plain_line_fine : forall l, line_ok l -> Forall no_note l -> fine (bold [] l).
Proof. intros l L N. eapply line_fine; [exact new_unique|exact L|]. apply noted_none. apply bold_no_note. auto. Qed.

(** Texts of footnotes *)
Lemma simple_inline : forall i, simple_ok cfg i -> inline_ok i /\ no_note i.
Proof. intros [] A; cbn in *; auto. destruct A. Qed.

Lemma no_quotes_bold : forall l o, Forall (fun i => forall k, i <> Quotes k) l -> bold o l = l.
Proof. induction l as [|i l IH]; intros o F; auto. inversion F as [|? ? A B]; subst. destruct i; cbn [bold]; rewrite ?IH by auto; auto. exfalso. eapply A; eauto. Qed.

Lemma simple_line : forall l, line_with (simple_ok cfg) l -> line_ok l /\ Forall no_note l.
Proof.
  intros l (N & F & R). split; [split; auto; split; auto|]; (eapply Forall_impl; [|exact F]); intros i A; apply simple_inline; auto.
Qed.

Lemma note_text_fine : forall l, note_text_ok cfg l -> fine l.
Proof. intros l [L Q]. rewrite <- (no_quotes_bold l [] Q). apply simple_line in L as [L N]. apply plain_line_fine; auto. Qed.

(** A picture in a line of its own *)
Lemma picture_line : forall p, picture_ok cfg p -> line_ok [Picture p].
Proof.
  intros p A. assert (E : line_wikitext [Picture p] = picture_wikitext p) by (unfold line_wikitext; cbn [map concat inline_wikitext]; apply app_nil_r). split; [discriminate|]. split; [constructor; auto|].
  split; [split; [intros; discriminate|exact I]|]. split; [reflexivity|]. rewrite E. split.
  - destruct (MarkupProofs.trim_keeps [] (picture_wikitext p) []) as (y & Y & r & R); [constructor|apply picture_ends|]. rewrite app_nil_r in Y. cbn [app] in Y. rewrite Y. destruct y; [apply app_nil_r|discriminate].
  - intros c x T. rewrite picture_text in T. cbn [app] in T. destruct (trim_first "["%char ("["%char :: picture_inside p ++ !"]]") eq_refl) as (y & Y). rewrite Y in T. injection T as <- _. cbn. intuition discriminate.
Qed.

Lemma bold_absent : forall c l o, key_char c = false -> ~ In c (line_wikitext l) -> ~ In c (line_wikitext (bold o l)).
Proof.
  intros c l o K. revert o. induction l as [|i l IH]; intros o N; [intros []|]. rewrite line_cons in N. intros J.
  assert (N1 : ~ In c (inline_wikitext i)) by (intros I; apply N; apply in_app_iff; auto). assert (N2 : ~ In c (line_wikitext l)) by (intros I; apply N; apply in_app_iff; auto).
  destruct i as [s|k|x y|x y|f|p|nn nr]; cbn [bold] in J; rewrite line_cons in J; (apply in_app_iff in J as [J|J]; [|revert J; apply IH; auto]); try (apply N1; exact J).
  revert J. cbn [inline_wikitext]. clear - K. generalize (fst (toggle o k)). intros ms. induction ms as [|m ms IH]; [intros []|]. rewrite opened_cons. intros J. apply in_app_iff in J as [J|J]; auto.
  pose proof (atom_chars _ (marker_atom m)) as A. rewrite Forall_forall in A. rewrite (A _ J) in K. discriminate.
Qed.

(** ** Blocks *)

Definition item_text_ok (m : list_mark) (l : list inline) : Prop := line_ok l /\ (m = Term -> no_char ":" (line_wikitext l)).

Lemma item_ok_good : forall i, item_ok i -> item_good item_text_ok i.
Proof.
  refine (item_rect' _ _). intros m x below IH H. inversion H as [? ? ? H1 H2 H3 H4]; subst. constructor; auto; [split; auto|]. clear - IH H3. revert IH. induction H3 as [|l ls L F IHF]; intros IH; constructor; inversion IH as [|? ? IH1 IH2]; subst; auto.
  inversion L as [i items L1 L2]; subst. constructor; auto. clear - IH1 L1. induction L1; constructor; inversion IH1; subst; auto.
Qed.

Lemma list_ok_good : forall l, list_ok l -> list_good item_text_ok l.
Proof. intros l L. inversion L as [i items L1 L2]; subst. constructor; auto. eapply Forall_impl; [|exact L1]. apply item_ok_good. Qed.

Lemma bold_item_rel : forall i, item_rel (fun x x' => x' = bold [] x) i (bold_item i).
Proof.
  refine (item_rect' _ _). intros m x below IH. cbn [bold_item]. constructor; auto. induction IH as [|l below L F IHF]; cbn [map]; constructor; auto. clear - L. induction L; cbn [map]; constructor; auto.
Qed.

Lemma bold_items_rel : forall l, Forall2 (item_rel (fun x x' => x' = bold [] x)) l (map bold_item l).
Proof. induction l; cbn [map]; constructor; auto. apply bold_item_rel. Qed.

(** Blocks with keys for the footnotes *)
Definition block_noted (t : Tokenizer) (b b' : block) : Prop :=
  match b with
  | Heading _ _ | Figure _ | Footnotes _ _ _ _ => b' = b
  | _ => block_rel (Forall2 (noted t)) b b'
  end.

Lemma noted_In : forall t l l' s, Forall2 (noted t) l l' -> In (Words s) l -> In (Words s) l'.
Proof. intros t l l' s F. induction F as [|i i' l l' H F IH]; intros I; [destruct I|]. destruct I as [->|I]; [left; symmetry; exact (eq_sym H)|right; auto]. Qed.

Lemma grid_text_fine : forall t l l', unique t -> grid_text_ok l -> Forall2 (noted t) (bold [] l) l' -> cell_fine l'.
Proof. intros t l l' U [L N] H. split; [eapply line_fine; eauto|]. eapply noted_absent; eauto. apply bold_absent; auto. Qed.

Lemma texts_bold : forall texts, Forall (fun p => note_text_ok cfg (snd p)) texts -> map (fun p : nat * list inline => (fst p, bold [] (snd p))) texts = texts.
Proof. intros texts F. induction F as [|[n l] texts [_ Q] F IH]; auto. cbn [map fst snd] in *. rewrite no_quotes_bold by exact Q. f_equal. auto. Qed.

Lemma block_is_fine : forall t b k, unique t -> block_ok b -> block_noted t (bold_block b) k -> block_fine k.
Proof.
  intros t [n title|lines|items|a caption rows|p|fn ft fa fx] k U; cbn [block_ok bold_block block_noted block_rel].
  - intros (L & T & E & N) ->. split; auto. split; [apply plain_line_fine; auto|apply bold_absent; auto].
  - intros (N & F) (ls & -> & H). split; [destruct lines; [contradiction|inversion H; discriminate]|]. clear N. revert ls H. induction F as [|l lines (L & (s & I) & _) F IH]; intros ls H; inversion H as [|? l' ? ls' H1 H2]; subst; constructor; auto.
    split; [eapply line_fine; eauto|]. split; [eapply (bold_pieces t l []); eauto; apply L|]. exists s. split; [eapply noted_In; eauto; apply bold_words; auto|]. destruct L as (_ & Fl & _). rewrite Forall_forall in Fl. apply Fl in I as [_ W]. apply letter_not; auto. cbn. auto 20.
  - intros L (items' & -> & H). apply list_ok_good in L. cbn [block_fine].
    eapply (rel_good _ (fun m y => forall y', Forall2 (noted t) y y' -> item_fine m y')); [|exact H|]; [intros m x x' Q R; auto|].
    eapply rel_good; [|apply bold_items_rel|exact L]. intros m x x' [X1 X2] -> y' Y. split; [eapply line_fine; eauto|]. intros E. eapply noted_absent; eauto. apply bold_absent; [reflexivity|]. apply X2. auto.
  - intros (A & C & F) (caption' & rows' & -> & Hc & Hr). split; auto. split.
    + intros c ->. destruct caption as [c0|]; [|destruct Hc]. cbn [option_map] in Hc. eapply grid_text_fine; eauto.
    + revert rows' Hr. induction F as [|row rows Fr F IH]; intros rows' Hr; inversion Hr as [|? row' ? rows2 H1 H2]; subst; constructor; auto. clear - U Fr H1. revert row' H1. induction Fr as [|cells row Fc Fr IH]; intros row' H1; inversion H1 as [|? cells' ? row2 H3 H4]; subst; constructor; auto.
      destruct Fc as (h & [(k & -> & K)|[N H]]); exists h.
      * left. exists k. inversion H3 as [|? c' ? r [E R] H5]; subst. inversion H5; subst. cbn in E, R. inversion R; subst. destruct c'; cbn in *; subst; auto.
      * right. split; [destruct cells; [contradiction|inversion H3; discriminate]|]. clear - U H H3. revert cells' H3. induction H as [|c cells [Hc Hg] H IH]; intros cells' H3; inversion H3 as [|? c' ? r [E R] H5]; subst; constructor; auto. cbn in E, R. split; [rewrite E; auto|]. eapply grid_text_fine; eauto.
  - intros A ->. apply (plain_line_fine [Picture p]); [apply picture_line; auto|constructor; [exact I|constructor]].
  - intros ((L & T & E & N) & A & X) ->. split; [split; auto; split; [apply plain_line_fine; auto|apply bold_absent; auto]|]. split; [apply A|]. rewrite texts_bold by auto. eapply Forall_impl; [|exact X]. intros q. apply note_text_fine.
Qed.

Lemma simple_plain : forall i, simple_ok cfg i -> inline_plain i.
Proof.
  intros i A Q. assert (F : atom_ok i) by (destruct i as [s|k|x y|x y|f|p|nn nr]; try exact A; [destruct A; split; auto; apply inert_loose; apply words_inert; auto|discriminate]).
  split; [apply inline_quotes; auto|].
  apply atom_text_nonempty. auto.
Qed.

Lemma calm_plain : forall s, calm s -> plain s.
Proof. intros s [_ C]. exact C. Qed.

Lemma simple_line_plain : forall l, note_text_ok cfg l -> plain (line_wikitext l).
Proof.
  intros l [(_ & F & _) Q]. induction F as [|i l A F IH]; [apply plain_without; intros []|]. inversion Q as [|? ? Q1 Q2]; subst. rewrite line_cons. apply plain_app; auto.
  apply simple_plain; auto. destruct i; auto. exfalso. eapply Q1; eauto.
Qed.

Lemma ok_plain : forall i, inline_ok i -> inline_plain i.
Proof.
  intros i A. destruct i as [s|k|x y|x y|f|p|n [a b]]; try (apply simple_plain; exact A). intros _. destruct A as [A B]. cbn [inline_wikitext ReferenceSpec.ref_attributes ReferenceSpec.ref_body] in *.
  split; [|unfold ReferenceSpec.reference_text; discriminate]. unfold ReferenceSpec.reference_text. cbn [ReferenceSpec.ref_attributes ReferenceSpec.ref_body]. destruct (attributes_calm a A) as [C _]. apply calm_plain in C.
  apply plain_app; [marks|]. apply plain_app; [exact C|]. destruct b as [body|]; [|marks]. destruct B as (l & -> & T). apply plain_app; [marks|]. apply plain_app; [apply simple_line_plain; auto|marks].
Qed.

(** A line of a block with its markup *)
Record good (l : list inline) : Prop := { good_plain : Forall inline_plain l; good_apart : quotes_apart l; good_styles : styles [] l = [] }.

Lemma apart_app : forall a s b, quotes_apart a -> quotes_apart b -> quotes_apart (a ++ Words s :: b).
Proof.
  induction a as [|i a IH]; intros s b A B; [split; auto; intros; discriminate|]. destruct A as [A1 A2]. cbn [app quotes_apart]. split; auto.
  intros k k' l'' -> E. destruct a as [|j a]; [discriminate E|]. assert (j = Quotes k') by (cbn [app] in E; congruence). subst. eapply (A1 k k' a); auto.
Qed.

Lemma good_app : forall a s b, good a -> good b -> s <> [] -> plain s -> good (a ++ Words s :: b).
Proof.
  intros a s b [A1 A2 A3] [B1 B2 B3] N S. constructor.
  - apply Forall_app. split; auto. constructor; auto. intros _. auto.
  - apply apart_app; auto.
  - rewrite styles_app, A3. exact B3.
Qed.

Lemma good_nil : good [].
Proof. repeat constructor. Qed.

Lemma good_line : forall l, line_ok l -> good l.
Proof. intros l (N & F & Q & S & T & B). constructor; auto. eapply Forall_impl; [|exact F]. apply ok_plain. Qed.

Lemma equals_plain : forall n, plain (equals n).
Proof. intros n. apply plain_without. intros I. apply repeat_spec in I. discriminate. Qed.

Lemma good_word : forall s b, good b -> s <> [] -> plain s -> good (Words s :: b).
Proof. intros s b B N S. apply (good_app []); auto. apply good_nil. Qed.

Lemma good_rest : forall (f : grid_cell -> str) cells, Forall (fun c : grid_cell => (f c <> [] /\ plain (f c)) /\ good (snd c)) cells -> forall a, good a -> good (a ++ concat (map (fun c => Words (f c) :: snd c) cells)).
Proof.
  intros f cells F. induction F as [|c cells [H C] F IH]; intros a A; cbn [map concat]; [rewrite app_nil_r; auto|]. cbn [app]. apply good_app; auto; apply H.
Qed.

Lemma cells_good : forall cells, cells_ok cells -> good (cells_row cells).
Proof.
  assert (P : forall h c, kind_ok h (fst c) -> !" " ++ cell_sign c ++ cell_start c ++ !" " <> [] /\ plain (!" " ++ cell_sign c ++ cell_start c ++ !" ")).
  { intros h c K. split; [discriminate|]. apply plain_app; [marks|]. apply plain_app; [apply cell_sign_plain|]. apply plain_app; [eapply cell_start_plain; eauto|marks]. }
  assert (P1 : forall c, cell_start c <> []) by (intros [[[] a] x]; discriminate).
  intros cells (h & [(k & -> & K)|[N F]]); cbn [cells_row].
  - cbn [map concat app snd]. apply good_word; [apply good_nil|apply P1|apply (cell_start_plain h); auto].
  - destruct F as [|c cells [K [C _]] F]; [contradiction|]. cbn [cells_row]. apply (good_rest (fun c => !" " ++ cell_sign c ++ cell_start c ++ !" ")); auto.
    + eapply Forall_impl; [|exact F]. intros d [Kd [D _]]. split; [eauto|apply good_line; auto].
    + pose proof (good_line _ C) as G. destruct (snd c) as [|i text] eqn:E; [destruct C; contradiction|]. apply good_word; auto; [intros Z; apply app_eq_nil in Z as [_ Z]; discriminate|].
      apply plain_app; [apply (cell_start_plain h); auto|marks].
Qed.

Lemma words_plain : forall s, words s -> plain s.
Proof. intros s [_ W]. exact W. Qed.

Lemma heading_good : forall n title, line_ok title -> good (Words (equals n ++ !" ") :: title ++ [Words (!" " ++ equals n)]).
Proof.
  intros n title T. apply (good_app []); [apply good_nil| | |].
  - apply good_app; [apply good_line; auto|apply good_nil|discriminate|]. apply plain_app; [marks|apply equals_plain].
  - intros E. apply app_eq_nil in E as [_ E]. discriminate.
  - apply plain_app; [apply equals_plain|marks].
Qed.

Lemma listing_plain : forall a, note_attributes_ok a -> plain (listing a).
Proof.
  intros a A. destruct (attributes_calm a A) as [C _]. apply calm_plain in C. unfold listing, ReferenceSpec.element_text. apply plain_app; [marks|]. apply plain_app; [exact C|marks].
Qed.

Lemma good_lines : forall b, block_ok b -> Forall good (lines_of b).
Proof.
  intros [n title|lines|items|a caption rows|p|fn ft fa fx]; cbn [block_ok lines_of].
  - intros (_ & T & _). constructor; auto. apply heading_good. auto.
  - intros (_ & F). eapply Forall_impl; [|exact F]. intros l (L & _). apply good_line. auto.
  - intros L. apply list_ok_good in L. eapply list_rows; [|exact L]. intros above m x A [X _]. apply good_word; [apply good_line; auto|intros E; apply app_eq_nil in E as [_ E]; discriminate|].
    apply plain_without. intros I. rewrite Forall_forall in A. rewrite !in_app_iff in I. destruct I as [I|[I|I]]; [apply A in I; cbn in I; intuition discriminate|destruct m; cbn in I; intuition discriminate|cbn in I; intuition discriminate].
  - intros ((A & _) & C & F). constructor; [apply good_word; [apply good_nil|discriminate|apply plain_app; [marks|apply words_plain; auto]]|].
    apply Forall_app. split; [|apply Forall_app; split].
    + destruct caption as [c|]; constructor; [|constructor]. apply good_word; [apply good_line; apply C; auto|discriminate|marks].
    + unfold grid_rows. apply Forall_concat. apply Forall_map. eapply Forall_impl; [|exact F]. intros row Fr. constructor; [apply good_word; [apply good_nil|discriminate|marks]|].
      apply Forall_map. eapply Forall_impl; [|exact Fr]. apply cells_good.
    + constructor; [|constructor]. apply good_word; [apply good_nil|discriminate|marks].
  - intros A. constructor; [|constructor]. apply good_line. apply picture_line. auto.
  - intros ((_ & T & _) & A & _). constructor; [apply heading_good; auto|]. constructor; [|constructor]. apply good_word; [apply good_nil|discriminate|apply listing_plain; auto].
Qed.

Lemma good_flat : forall ls, Forall good ls -> good (flat ls).
Proof.
  intros ls F. induction F as [|l [|l1 ls] G F IH]; [apply good_nil|auto|]. rewrite flat_cons. apply good_app; auto; [discriminate|]. marks.
Qed.

Lemma good_doc : forall g doc, Forall block_ok doc -> good (flat (doc_lines g doc)).
Proof.
  intros g doc F. apply good_flat. apply layout_Forall; [apply good_nil|]. apply Forall_map. eapply Forall_impl; [|exact F]. apply good_lines.
Qed.

Lemma bold_flat : forall ls, Forall good ls -> bold [] (flat ls) = flat (map (bold []) ls).
Proof.
  intros ls F. induction F as [|l [|l1 ls] G F IH]; [reflexivity|reflexivity|]. rewrite flat_cons, bold_app, (good_styles _ G). cbn [bold]. rewrite IH. reflexivity.
Qed.

Lemma bold_item_rows : forall i above, map (bold []) (item_rows above i) = item_rows above (bold_item i).
Proof.
  refine (item_rect' _ _). intros m x below IH above. cbn [item_rows bold_item map bold]. f_equal. rewrite map_concat, !map_map. f_equal. apply map_ext_in. intros l L. rewrite map_concat, !map_map. f_equal.
  apply map_ext_in. intros i I. rewrite Forall_forall in IH. specialize (IH l L). rewrite Forall_forall in IH. apply IH. auto.
Qed.

Lemma bold_cells : forall cells, cells_ok cells -> bold [] (cells_row cells) = cells_row (map bold_cell cells).
Proof.
  intros cells (h & [(k & -> & _)|[N F]]); [reflexivity|]. destruct F as [|c cells [_ [C _]] F]; [contradiction|]. cbn [cells_row map].
  assert (E : bold [] (concat (map (fun c => Words (!" " ++ cell_sign c ++ cell_start c ++ !" ") :: snd c) cells)) = concat (map (fun c => Words (!" " ++ cell_sign c ++ cell_start c ++ !" ") :: snd c) (map bold_cell cells))).
  { clear N C. induction F as [|d cells [_ [D _]] F IH]; auto. cbn [map concat]. rewrite bold_app. destruct D as (_ & _ & _ & S & _). cbn [bold styles]. rewrite S, IH. reflexivity. }
  rewrite bold_app, <- E. destruct C as (C & _ & _ & S & _). unfold bold_cell at 1. cbn [snd]. change (cell_start (fst c, bold [] (snd c))) with (cell_start c). destruct (snd c) as [|i text] eqn:X; [contradiction|].
  cbn [styles]. cbn [styles] in S. rewrite S. f_equal. change (bold [] (Words (cell_start c ++ !" ") :: i :: text)) with (Words (cell_start c ++ !" ") :: bold [] (i :: text)).
  destruct (bold [] (i :: text)) eqn:B; [exfalso; revert B; apply bold_nonempty; discriminate|]. reflexivity.
Qed.

Lemma bold_lines : forall b, block_ok b -> map (bold []) (lines_of b) = lines_of (bold_block b).
Proof.
  intros [n title|lines|items|a caption rows|p|fn ft fa fx]; cbn [block_ok lines_of bold_block map]; auto.
  - intros (_ & (_ & _ & _ & S & _) & _). cbn [bold]. rewrite bold_app, S. reflexivity.
  - intros _. rewrite map_concat, !map_map. f_equal. apply map_ext. intros i. apply bold_item_rows.
  - intros (_ & C & F). f_equal. rewrite !map_app. f_equal; [destruct caption; reflexivity|]. f_equal. unfold grid_rows. rewrite map_concat, !map_map. f_equal. apply map_ext_in. intros row I.
    cbn [map]. f_equal. rewrite !map_map. apply map_ext_in. intros cells J. apply bold_cells. rewrite Forall_forall in F. specialize (F _ I). rewrite Forall_forall in F. auto.
  - intros ((_ & (_ & _ & _ & S & _) & _) & _). cbn [bold]. rewrite bold_app, S. reflexivity.
Qed.

Lemma bold_doc : forall g doc, Forall block_ok doc -> bold [] (flat (doc_lines g doc)) = flat (doc_lines g (map bold_block doc)).
Proof.
  intros g doc F. rewrite bold_flat.
  - unfold doc_lines. rewrite layout_map, !map_map. do 2 f_equal. apply map_ext_in. intros b I. rewrite Forall_forall in F. apply bold_lines. auto.
  - apply layout_Forall; [apply good_nil|]. apply Forall_map. eapply Forall_impl; [|exact F]. apply good_lines.
Qed.

Lemma ok_lines : forall b, block_ok b -> lines_of b <> [].
Proof.
  intros [n title|lines|items|a caption rows|p|fn ft fa fx] B; cbn [lines_of block_ok] in *; try discriminate; [apply B|]. inversion B as [i items' G _]; subst. cbn [map concat]. destruct i. discriminate.
Qed.

Lemma doc_bold : forall g doc, Forall block_ok doc -> parseBoldAndItalic (laid g doc) = Ok (line_wikitext (flat (doc_lines g (map bold_block doc)))).
Proof.
  intros g doc F. rewrite doc_text. rewrite <- bold_doc by auto. destruct (good_doc g doc F) as [A B C]. apply bold_pass; auto.
Qed.

(** Characters that are in no document *)
Lemma cells_neat : forall cells, cells_ok cells -> neat_line (line_wikitext (cells_row cells)).
Proof.
  intros cells H. assert (S : forall d, neat_line (cell_sign d)).
  { intros d. apply neat_none. intros c C J. apply cell_sign_char in J as [J|J]; subst; cbn in C; intuition discriminate. }
  assert (S1 : neat_line !" ") by (apply neat_none; intros c C J; cbn in C, J; intuition (subst; discriminate)).
  assert (S2 : forall h d, kind_ok h (fst d) -> neat_line (cell_start d)).
  { intros h d K. apply neat_none. intros c C J. apply (cell_start_char h) in J as [J|[J|J]]; auto; [subst; cbn in C; intuition discriminate..|]. apply J. cbn in C |- *. intuition. }
  rewrite cells_row_text. destruct H as (h & [(k & -> & K)|[Ne F]]); cbn [cells_line].
  - cbn [map concat snd]. rewrite !app_nil_r. apply (S2 h). auto.
  - destruct F as [|k cells [Kk [(_ & K & _) _]] F]; [contradiction|]. cbn [cells_line]. apply neat_app; [apply (S2 h); auto|]. apply neat_app.
    + pose proof (line_neat _ K) as L. destruct (snd k); [apply neat_none; intros c _ []|]. apply neat_app; auto.
    + clear Ne. induction F as [|d cells [Kd [(_ & D & _) _]] F IH]; [apply neat_none; intros c _ []|]. cbn [map concat]. apply neat_app; auto. apply neat_app; [auto|]. apply neat_app; [auto|]. apply neat_app; [eapply S2; eauto|]. apply neat_app; [auto|apply line_neat; auto].
Qed.

Lemma row_chars : forall b, block_ok b -> Forall (fun r => neat (line_wikitext r)) (lines_of b).
Proof.
  assert (M : forall s l, (forall c, In c (!"{}<>$" ++ nl) -> ~ In c s) -> Forall inline_ok l -> neat (line_wikitext (Words s :: l))).
  { intros s l H F. rewrite line_cons. apply neat_app; [apply neat_none; auto|apply line_neat; auto]. }
  assert (Hd : forall n title, Forall inline_ok title -> neat (line_wikitext (Words (equals n ++ !" ") :: title ++ [Words (!" " ++ equals n)]))).
  { intros n title T. assert (Q : neat_line (repeat "="%char n)) by (apply neat_none; intros c C I; apply repeat_spec in I; subst; cbn in C; intuition discriminate).
    assert (S1 : neat_line !" ") by (apply neat_none; intros c C J; cbn in C, J; intuition (subst; discriminate)).
  assert (S2 : forall h d, kind_ok h (fst d) -> neat_line (cell_start d)).
  { intros h d K. apply neat_none. intros c C J. apply (cell_start_char h) in J as [J|[J|J]]; auto; [subst; cbn in C; intuition discriminate..|]. apply J. cbn in C |- *. intuition. }
    rewrite line_cons, line_app, one_text. cbn [inline_wikitext]. repeat (apply neat_app; auto). apply line_neat; auto. }
  intros [n title|lines|items|a caption rows|p|fn ft fa fx]; cbn [block_ok lines_of].
  - intros (_ & (_ & T & _) & _). constructor; [|constructor]. auto.
  - intros (_ & F). eapply Forall_impl; [|exact F]. intros l ((_ & L & _) & _). apply line_neat; auto.
  - intros L. apply list_ok_good in L. eapply list_rows; [|exact L]. intros above m x A [(_ & X & _) _]. apply M; auto. intros c C I. rewrite Forall_forall in A. rewrite !in_app_iff in I.
    assert (N : ~ In c !" *#;:") by (cbn in C |- *; intuition (subst; discriminate)). destruct I as [I|[I|I]]; [apply A in I; apply N; cbn in I |- *; intuition|apply N; destruct m; cbn in I |- *; intuition|apply N; cbn in I |- *; intuition].
  - intros ((A & _) & C & F). assert (Ac : forall c, In c (!"{}<>$" ++ nl) -> ~ In c a) by (intros c K; apply letter_not; auto; cbn in K |- *; intuition). constructor; [|apply Forall_app; split; [|apply Forall_app; split]].
    + rewrite one_text. constructor.
      * intros c K I. apply in_app_iff in I as [I|I]; [cbn in I, K; intuition (subst; discriminate)|revert I; apply Ac; cbn in K |- *; intuition].
      * apply tag_angles_none. intros I. apply in_app_iff in I as [I|I]; [cbn in I; intuition discriminate|revert I; apply Ac; cbn; auto 10].
      * apply no_comment_none. intros I. apply in_app_iff in I as [I|I]; [cbn in I; intuition discriminate|revert I; apply Ac; cbn; auto 10].
      * apply (lonely_sep "{" "|" !"{" a); [discriminate| |apply lonely_none; apply Ac; cbn; auto]. intros x y E. destruct x as [|? [|? x]]; discriminate.
    + destruct caption as [k|]; constructor; [|constructor]. apply M; [intros c K I; cbn in I, K; intuition (subst; discriminate)|]. apply (C k eq_refl).
    + unfold grid_rows. apply Forall_concat. apply Forall_map. eapply Forall_impl; [|exact F]. intros row Fr. constructor; [rewrite one_text; apply neat_none; intros c K I; cbn in I, K; intuition (subst; discriminate)|].
      apply Forall_map. eapply Forall_impl; [|exact Fr]. intros cells H. apply cells_neat; auto.
    + constructor; [|constructor]. rewrite one_text. constructor.
      * intros c K I. cbn in I, K. intuition (subst; discriminate).
      * apply tag_angles_none. cbn. intuition discriminate.
      * apply no_comment_none. cbn. intuition discriminate.
      * apply lonely_none. cbn. intuition discriminate.
  - intros A. constructor; [|constructor]. apply line_neat. constructor; auto.
  - intros ((_ & (_ & T & _) & _) & A & _). constructor; [auto|]. constructor; [|constructor]. rewrite one_text. apply listing_neat. auto.
Qed.

Lemma doc_rows : forall (Q : list inline -> Prop) g doc, Q [] -> (forall b, In b doc -> Forall Q (lines_of b)) -> Forall Q (doc_lines g doc).
Proof. intros Q g doc N F. unfold doc_lines. apply layout_Forall; auto. apply Forall_map. apply Forall_forall. auto. Qed.

Lemma doc_neat : forall g doc, Forall block_ok doc -> ~ In "$"%char (laid g doc) /\ tag_angles (laid g doc) /\ no_comment (laid g doc) /\ lonely "{" (laid g doc).
Proof.
  intros g doc F. rewrite doc_text. rewrite flat_text.
  assert (D : Forall neat (map line_wikitext (doc_lines g doc))).
  { apply Forall_map. apply doc_rows; [apply neat_none; intros c _ []|]. intros b B. rewrite Forall_forall in F. apply row_chars. apply F. auto. }
  split; [|split; [|split]].
  - intros I. apply join_In in I as [I|(x & X & I)]; [cbn in I; intuition discriminate|]. rewrite Forall_forall in D. apply (D x X) in I; auto. cbn. auto.
  - induction D as [|x [|y ls] X D IH]; [apply tag_angles_none; intros []|apply X|]. rewrite join_more. apply tag_angles_app; [apply X|]. apply tag_angles_app; auto. apply tag_angles_none. cbn. intuition discriminate.
  - induction D as [|x [|y ls] X D IH]; [apply no_comment_none; intros []|apply X|]. rewrite join_more. apply no_comment_app; [apply X|]. apply no_comment_app; auto. apply no_comment_none. cbn. intuition discriminate.
  - apply lonely_join; [discriminate|]. eapply Forall_impl; [|exact D]. intros x X. apply X.
Qed.

(** What the headings need *)
Lemma sign_plain_row : forall c s l, solid c = true -> c <> equal_sign -> ~ In nl_char (c :: s) -> ~ In nl_char (line_wikitext l) -> row_plain (Words (c :: s) :: l).
Proof.
  intros c s l S E N L. unfold row_plain. rewrite line_cons. cbn [inline_wikitext]. split; [intros I; apply in_app_iff in I as [I|I]; auto|]. apply (first_no_equals c (s ++ line_wikitext l)); auto.
Qed.

Lemma bold_row_plain : forall l, line_ok l -> row_plain (bold [] l).
Proof.
  intros l L. split; [apply bold_newline; apply L|]. apply start_no_equals. apply (swap_block_start _ _ (bold_swapped l [])). apply L.
Qed.

Lemma bold_cells_plain : forall cells, cells_ok cells -> row_plain (cells_row (map bold_cell cells)).
Proof.
  intros cells H. rewrite <- bold_cells by auto.
  assert (Nn : ~ In nl_char (line_wikitext (bold [] (cells_row cells)))).
  { apply bold_absent; [reflexivity|]. apply cells_neat; auto. cbn. auto. }
  split; auto. apply start_no_equals. apply (swap_block_start _ _ (bold_swapped (cells_row cells) [])). change (concat (map inline_wikitext (cells_row cells))) with (line_wikitext (cells_row cells)). rewrite cells_row_text.
  assert (X : exists c s, cells_line cells = c :: s /\ (c = "|"%char \/ c = "!"%char)).
  { assert (N : cells <> []) by (destruct H as (h & [(k & -> & _)|[N _]]); [discriminate|auto]). destruct cells as [|k cells]; [contradiction|]. cbn [cells_line]. destruct (cell_start_shape k) as (d & z & -> & D). cbn [app]. eauto. }
  destruct X as (c & s & -> & C). intros d x T. assert (Sd : solid c = true) by (destruct C as [->| ->]; reflexivity). destruct (trim_first c s Sd) as (y & Y). rewrite Y in T. injection T as <- _. destruct C as [->| ->]; cbn; intuition discriminate.
Qed.

Lemma title_is_fine : forall n title, 1 <= n <= 6 /\ line_ok title /\ no_char "=" (line_wikitext title) /\ Forall no_note title -> title_fine n (bold [] title).
Proof. intros n title (L & T & E & N). split; auto. split; [apply plain_line_fine; auto|apply bold_absent; auto]. Qed.

Lemma block_is_lined : forall b, block_ok b -> block_lined (bold_block b).
Proof.
  intros b B. assert (Ne : lines_of (bold_block b) <> []) by (rewrite <- bold_lines by auto; intros E; apply map_eq_nil in E; revert E; apply ok_lines; auto).
  destruct b as [n title|lines|items|a caption rows|p|fn ft fa fx]; cbn [block_ok bold_block block_lined] in *.
  - apply title_is_fine. auto.
  - split; auto. cbn [lines_of]. destruct B as [_ F]. apply Forall_map. eapply Forall_impl; [|exact F]. intros l (L & _). apply bold_row_plain. auto.
  - split; auto. cbn [lines_of]. apply list_ok_good in B.
    eapply list_rows; [|eapply (rel_good _ _ (fun _ x => ~ In nl_char (line_wikitext x))); [|apply bold_items_rel|exact B]]; [|intros m x x' [X _] ->; apply bold_newline; apply X].
    intros above m x A X. assert (H : exists c s, above ++ [sign m] ++ !" " = c :: s /\ In c signs).
    { destruct A as [|c above C A]; [exists (sign m), !" "; split; [reflexivity|apply sign_In]|]. exists c, (above ++ [sign m] ++ !" "). auto. }
    destruct H as (c & s & E & C). assert (Z : ~ In nl_char (c :: s)).
    { rewrite <- E. rewrite !in_app_iff. rewrite Forall_forall in A. intros [I|[I|I]]; [apply A in I; cbn in I; intuition discriminate|destruct m; cbn in I; intuition discriminate|cbn in I; intuition discriminate]. }
    rewrite E. apply sign_plain_row; auto; [apply signs_solid; auto|]. intros ->. cbn in C. intuition discriminate.
  - split; auto. destruct B as ((W & _) & C & R). cbn [lines_of]. constructor; [|apply Forall_app; split; [|apply Forall_app; split]].
    + apply sign_plain_row; try reflexivity; try discriminate; auto. intros [I|[I|I]]; [discriminate..|]. revert I. apply letter_not; auto. cbn. auto 20.
    + destruct caption as [c|]; cbn [option_map caption_rows]; constructor; auto. apply sign_plain_row; try reflexivity; try discriminate; [cbn; intuition discriminate|]. apply bold_newline. apply (C c eq_refl).
    + unfold grid_rows. rewrite map_map. apply Forall_concat. apply Forall_map. eapply Forall_impl; [|exact R]. intros row Rw. constructor; [apply sign_plain_row; try reflexivity; try discriminate; cbn; intuition discriminate|].
      rewrite map_map. apply Forall_map. eapply Forall_impl; [|exact Rw]. apply bold_cells_plain.
    + constructor; auto. apply sign_plain_row; try reflexivity; try discriminate; cbn; intuition discriminate.
  - split; auto. constructor; auto. apply (bold_row_plain [Picture p]). apply picture_line. auto.
  - destruct B as (T & A & _). split; [apply title_is_fine; auto|apply A].
Qed.

(** ** The parser *)

Lemma placed_mono : forall t t' b ss, keeps t t' -> placed t b ss -> placed t' b ss.
Proof.
  intros t t' b ss K H. assert (M : forall x x', Forall2 (shown t) x x' -> Forall2 (shown t') x x') by (intros; eapply shown_lines; eauto).
  destruct b as [n title|lines|items|a caption rows|p|fn ft fa fx]; cbn [placed] in *.
  - destruct H as (k & x & E & I & S). exists k, x. split; auto. split; [eapply keeps_In; eauto|auto].
  - destruct H as (x & E & S). exists x. split; auto. eapply Forall2_weaken; [|exact S]. auto.
  - destruct H as (k & x & E & I & S). exists k, x. split; auto. split; [eapply keeps_In; eauto|]. eapply Forall2_weaken; [|exact S]. intros. eapply rel_mono; eauto.
  - destruct H as (k & x & y & E & I & S). exists k, x, y. split; auto. split; [eapply keeps_In; eauto|]. eapply block_rel_mono; eauto.
  - destruct H as (k & E & p' & I & C). exists k. split; auto. exists p'. split; [eapply keeps_In; eauto|eapply captioned_mono; eauto].
  - eapply notes_keys_mono; eauto.
Qed.

End Doc.
