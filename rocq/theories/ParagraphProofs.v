(** * Proofs about paragraphs *)

From Coq Require Import Ascii String.
From Coq Require Import List Arith Bool Lia.
From Verif Require Import GoStr GoStrFacts TextFacts FormattingModel ParagraphModel ParagraphSpec.
Import ListNotations.
Local Open Scope list_scope.

Lemma span_spec : forall f s a b, span f s = (a, b) -> s = a ++ b /\ Forall (fun c => f c = true) a /\ (b = [] \/ exists c b', b = c :: b' /\ f c = false).
Proof.
  induction s as [|c s IH]; intros a b E; cbn [span] in E.
  - injection E as <- <-. repeat split; auto.
  - destruct (f c) eqn:F.
    + destruct (span f s) as [a1 b1]. injection E as <- <-. destruct (IH a1 b1 eq_refl) as (-> & A & B). repeat split; auto.
    + injection E as <- <-. repeat split; auto. right. eauto.
Qed.
Lemma span_stop : forall f a c b, Forall (fun c => f c = true) a -> f c = false -> span f (a ++ c :: b) = (a, c :: b).
Proof.
  induction a as [|x a IH]; intros c b F E; cbn [app span].
  - rewrite E. auto.
  - inversion F; subst. rewrite H1, IH; auto.
Qed.

Lemma is_digit_in : forall c, is_digit c = true <-> In c !"0123456789".
Proof.
  intros c. split.
  - destruct c as [[] [] [] [] [] [] [] []]; vm_compute; intros H; try discriminate H; auto 12.
  - intros I. cbn [In] in I. repeat (destruct I as [<-|I]; [reflexivity|]). contradiction.
Qed.

Lemma token_char_in : forall c, token_char c = true <-> In c !"ABCDEFGHIJKLMNOPQRSTUVWXYZ_0123456789".
Proof.
  intros c. unfold token_char. rewrite !orb_true_iff, is_digit_in, Ascii.eqb_eq, mem_str_In, in_map_iff.
  assert (E : (exists x, [x] = [c] /\ In x !"ABCDEFGHIJKLMNOPQRSTUVWXYZ") <-> In c !"ABCDEFGHIJKLMNOPQRSTUVWXYZ").
  { split; [intros (x & E & I); injection E as ->; auto|intros I; exists c; auto]. }
  rewrite E. change !"ABCDEFGHIJKLMNOPQRSTUVWXYZ_0123456789" with (!"ABCDEFGHIJKLMNOPQRSTUVWXYZ" ++ ["_"%char] ++ !"0123456789").
  rewrite !in_app_iff. cbn [In]. split; [intros [[H|H]|H]|intros [H|[[H|[]]|H]]]; auto.
Qed.

Lemma token_middle_spec : forall m, token_middle m = true <-> exists name number, m = name ++ !"_" ++ number /\ name <> [] /\ number <> [] /\
  (forall c, In c name -> token_char c = true) /\ (forall c, In c number -> is_digit c = true).
Proof.
  intros m. unfold token_middle. destruct (span is_digit (rev m)) as [d b] eqn:E. split.
  - intros H. apply span_spec in E as (E & F & _). destruct d as [|d0 d]; [discriminate|]. destruct b as [|u [|n0 n]]; try discriminate.
    apply andb_true_iff in H as [H1 H2]. apply Ascii.eqb_eq in H1. subst u.
    apply (f_equal (@rev ascii)) in E. rewrite rev_involutive, rev_app_distr in E.
    change (rev ("_"%char :: n0 :: n)) with (rev (n0 :: n) ++ ["_"%char]) in E. rewrite <- app_assoc in E.
    exists (rev (n0 :: n)), (rev (d0 :: d)). split; [exact E|]. split; [|split; [|split]].
    + intros K. apply (f_equal (@length ascii)) in K. rewrite rev_length in K. discriminate.
    + intros K. apply (f_equal (@length ascii)) in K. rewrite rev_length in K. discriminate.
    + intros c I. rewrite <- in_rev in I. rewrite forallb_forall in H2. apply H2. auto.
    + intros c I. rewrite <- in_rev in I. rewrite Forall_forall in F. auto.
  - intros (name & number & -> & N1 & N2 & H1 & H2). rewrite !rev_app_distr, <- app_assoc in E. cbn [rev app] in E.
    rewrite span_stop in E; [|apply Forall_rev, Forall_forall; auto|reflexivity]. injection E as <- <-.
    destruct (rev number) eqn:R1; [apply (f_equal (@rev ascii)) in R1; rewrite rev_involutive in R1; cbn in R1; congruence|].
    destruct (rev name) eqn:R2; [apply (f_equal (@rev ascii)) in R2; rewrite rev_involutive in R2; cbn in R2; congruence|].
    apply andb_true_iff. split; [reflexivity|]. apply forallb_forall. intros c I. apply H1. rewrite in_rev, R2. auto.
Qed.

Lemma is_token_line_spec : forall line, is_token_line line = true <-> block_line line.
Proof.
  intros line. unfold is_token_line, block_line. split.
  - rewrite !andb_true_iff. intros [[P S] M]. apply has_prefix_spec in P as (r & ->).
    change (skipn 8 (!"$$TOKEN_" ++ r)) with r in *. apply has_suffix_spec in S as (m & ->).
    rewrite !app_length in M. change (length !"$$TOKEN_") with 8 in M. change (length !"$$") with 2 in M.
    replace (8 + (length m + 2) - 10) with (length m) in M by lia. rewrite firstn_app, firstn_all, Nat.sub_diag in M. cbn [firstn] in M.
    rewrite app_nil_r in M. apply token_middle_spec in M as (name & number & -> & N1 & N2 & H1 & H2).
    exists name, number. rewrite <- !app_assoc. repeat split; auto.
    + intros c I. apply token_char_in. auto.
    + intros c I. apply is_digit_in. auto.
  - intros (name & number & -> & N1 & N2 & H1 & H2).
    replace (!"$$TOKEN_" ++ name ++ !"_" ++ number ++ !"$$") with (!"$$TOKEN_" ++ (name ++ !"_" ++ number) ++ !"$$") by (rewrite <- !app_assoc; auto).
    set (m := name ++ !"_" ++ number). rewrite !andb_true_iff. change (skipn 8 (!"$$TOKEN_" ++ m ++ !"$$")) with (m ++ !"$$").
    repeat split; auto.
    + apply has_suffix_spec. eauto.
    + rewrite !app_length. change (length !"$$TOKEN_") with 8. change (length !"$$") with 2.
      replace (8 + (length m + 2) - 10) with (length m) by lia. rewrite firstn_app, firstn_all, Nat.sub_diag. cbn [firstn].
      rewrite app_nil_r. apply token_middle_spec. exists name, number. repeat split; auto.
      * intros c I. apply token_char_in. auto.
      * intros c I. apply is_digit_in. auto.
Qed.

Lemma token_line_ne : forall line, is_token_line line = true -> line <> [].
Proof. intros line H ->. discriminate. Qed.

(** The loop, in its three kinds of states: before the first line or behind a block element, behind blank lines, behind a line *)
Lemma go_spec : forall lines,
  (forall before previous, (previous = None \/ exists p, previous = Some p /\ block_line p) -> forall blank, Forall (eq []) blank ->
     paragraphs previous (blank ++ lines) (parseParagraphs_go before lines true false)) /\
  (forall before p, ~ block_line p -> forall blank, Forall (eq []) blank -> blank <> [] ->
     paragraphs (Some p) (blank ++ lines) (parseParagraphs_go before lines true true)) /\
  (forall before, before <> [] -> ~ block_line before -> paragraphs (Some before) lines (parseParagraphs_go before lines false false)).
Proof.
  induction lines as [|line lines (IH1 & IH2 & IH3)].
  - repeat split; intros; cbn [parseParagraphs_go]; rewrite ?app_nil_r; apply paragraphs_end; auto.
  - assert (Bl : forall blank, Forall (eq []) blank -> Forall (eq []) (blank ++ [@nil ascii])).
    { intros blank F. apply Forall_app. split; auto. }
    repeat split; intros; cbn [parseParagraphs_go]; destruct (is_token_line line) eqn:T.
    + assert (B := proj1 (is_token_line_spec line) T). apply paragraphs_line; auto using token_line_ne.
      apply (IH1 line (Some line)) with (blank := []); eauto.
    + assert (B : ~ block_line line) by (intros B; apply is_token_line_spec in B; congruence).
      destruct (str_eqb line []) eqn:E; cbn [negb].
      * apply str_eqb_eq in E. subst line. replace (blank ++ [] :: lines) with ((blank ++ [[]]) ++ lines) by (rewrite <- app_assoc; auto).
        apply IH1; auto.
      * cbn [app]. assert (N : line <> []) by (intros ->; discriminate). apply paragraphs_line; auto.
        destruct H as [->|H]; auto.
    + assert (B := proj1 (is_token_line_spec line) T). apply paragraphs_line; auto using token_line_ne.
      apply (IH1 line (Some line)) with (blank := []); eauto.
    + assert (B : ~ block_line line) by (intros B; apply is_token_line_spec in B; congruence).
      destruct (str_eqb line []) eqn:E; cbn [negb].
      * apply str_eqb_eq in E. subst line. replace (blank ++ [] :: lines) with ((blank ++ [[]]) ++ lines) by (rewrite <- app_assoc; auto).
        apply IH2; auto. intros K. apply app_eq_nil in K as [_ K]. discriminate.
      * cbn [app]. assert (N : line <> []) by (intros ->; discriminate). apply paragraphs_marker; auto.
    + assert (B := proj1 (is_token_line_spec line) T). apply (paragraphs_line _ []); auto using token_line_ne.
      apply (IH1 line (Some line)) with (blank := []); eauto.
    + assert (B : ~ block_line line) by (intros B; apply is_token_line_spec in B; congruence).
      destruct (str_eqb line []) eqn:E; cbn [andb].
      * apply str_eqb_eq in E. subst line. destruct (str_eqb before []) eqn:E2; [apply str_eqb_eq in E2; contradiction|]. cbn [negb].
        apply (IH2 [] before) with (blank := [[]]); auto. discriminate.
      * assert (N : line <> []) by (intros ->; discriminate). apply (paragraphs_line _ []); auto.
Qed.

Theorem paragraphs_spec : forall content, exists result,
  parseParagraphs content = join nl result /\ paragraphs None (split nl content) result.
Proof. intros content. eexists. split; [reflexivity|]. apply (proj1 (go_spec (split nl content)) [] None) with (blank := []); auto. Qed.

(** ** Consequences *)

Lemma blank_split : forall (b1 b2 : list str) l1 l2 r1 r2, Forall (eq []) b1 -> Forall (eq []) b2 -> l1 <> [] -> l2 <> [] ->
  b1 ++ l1 :: r1 = b2 ++ l2 :: r2 -> b1 = b2 /\ l1 = l2 /\ r1 = r2.
Proof.
  induction b1 as [|x b1 IH]; intros b2 l1 l2 r1 r2 F1 F2 N1 N2 E.
  - destruct b2 as [|y b2]; cbn [app] in E; [injection E as -> ->; auto|].
    injection E as -> _. inversion F2; subst. congruence.
  - destruct b2 as [|y b2]; cbn [app] in E.
    + injection E as -> _. inversion F1; subst. congruence.
    + injection E as -> E. inversion F1; subst. inversion F2; subst. destruct (IH b2 l1 l2 r1 r2) as (-> & -> & ->); auto.
Qed.

Lemma paragraphs_det : forall previous lines r1, paragraphs previous lines r1 -> forall r2, paragraphs previous lines r2 -> r1 = r2.
Proof.
  assert (Z : forall b b' l (r : list str), Forall (eq []) b -> l <> [] -> b = b' ++ l :: r -> False).
  { intros b b' l r F N ->. apply Forall_app in F as [_ F]. inversion F; subst. congruence. }
  induction 1 as [previous blank F|previous blank line lines result F N C H IH|p blank line lines result F Nb N P L H IH]; intros r2 H2.
  - inversion H2 as [|? b l ls r F' N' C' H' E|? b l ls r F' Nb' N' P' L' H' E]; subst; auto; exfalso; apply Forall_app in F as [_ F]; inversion F; congruence.
  - inversion H2 as [? b F' E|? b l ls r F' N' C' H' E|? b l ls r F' Nb' N' P' L' H' E]; subst.
    + exfalso. apply Forall_app in F' as [_ F']. inversion F'. congruence.
    + apply blank_split in H0 as (-> & -> & ->); auto. f_equal. auto.
    + apply blank_split in H0 as (-> & -> & ->); auto. exfalso. destruct C as [C|[C|[(q & C & B)|C]]]; try congruence.
  - inversion H2 as [? b F' E|? b l ls r F' N' C' H' E|? b l ls r F' Nb' N' P' L' H' E]; subst.
    + exfalso. apply Forall_app in F' as [_ F']. inversion F'. congruence.
    + apply blank_split in H0 as (-> & -> & ->); auto. exfalso. destruct C' as [C|[C|[(q & C & B)|C]]]; try congruence.
    + apply blank_split in H0 as (-> & -> & ->); auto. f_equal. f_equal. auto.
Qed.

Lemma paragraphs_nonblank : forall previous lines result, paragraphs previous lines result -> Forall (fun line => line <> []) result.
Proof. induction 1; auto. constructor; auto. discriminate. Qed.

Lemma paragraphs_from : forall (P : str -> Prop) previous lines result, P paragraph_marker -> paragraphs previous lines result ->
  Forall P lines -> Forall P result.
Proof.
  induction 2; intros Q; auto; apply Forall_app in Q as [_ Q]; inversion Q; subst; auto.
Qed.

Lemma paragraphs_keep : forall f previous lines result, f [] = false -> f paragraph_marker = false -> paragraphs previous lines result ->
  filter f result = filter f lines.
Proof.
  intros f previous lines result F1 F2. assert (B : forall blank, Forall (eq []) blank -> filter f blank = []).
  { induction 1; auto. subst. cbn [filter]. rewrite F1. auto. }
  induction 1.
  - symmetry. auto.
  - rewrite filter_app, (B blank) by auto. cbn [app filter]. rewrite IHparagraphs. auto.
  - rewrite filter_app, (B blank) by auto. cbn [app filter]. rewrite F2, IHparagraphs. auto.
Qed.

Lemma paragraphs_again : forall result, Forall (fun line => line <> []) result -> forall previous, paragraphs previous result result.
Proof.
  induction 1; intros previous; [apply paragraphs_end; auto|]. apply (paragraphs_line previous []); auto.
Qed.

Theorem parseParagraphs_twice : forall content, parseParagraphs (parseParagraphs content) = parseParagraphs content.
Proof.
  intros content. destruct (paragraphs_spec content) as (r & E & P).
  destruct (paragraphs_spec (parseParagraphs content)) as (r2 & E2 & P2). rewrite E2, E.
  destruct r as [|line r].
  - rewrite E in P2. cbn [join] in P2. rewrite split_nil in P2. assert (K : r2 = []); [|subst; reflexivity].
    apply (paragraphs_det _ _ _ P2). apply paragraphs_end. auto.
  - rewrite E in P2. unfold nl in P2 at 1 2. rewrite split_join_single in P2.
    + f_equal. apply (paragraphs_det _ _ _ P2). apply paragraphs_again. exact (paragraphs_nonblank _ _ _ P).
    + discriminate.
    + apply (paragraphs_from (fun p => ~ In nl_char p) _ _ _) with (2 := P).
      * cbn [In paragraph_marker]. intros I. repeat (destruct I as [I|I]; [discriminate|]). contradiction.
      * apply split_single_pieces.
Qed.
