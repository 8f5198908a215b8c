(** * Proofs about the cleaning steps *)

From Coq Require Import Ascii String.
From Coq Require Import List Arith Bool Lia.
From Verif Require Import GoStr GoStrFacts TextFacts UtilModel BracketModel BracketSpec BracketProofs ConfigModel CleanerModel CleanerSpec.
Import ListNotations.
Local Open Scope list_scope.

Ltac not_in := let K := fresh in intros K; repeat (destruct K as [K|K]; [discriminate K|]); exact K.

(** ** Comments *)

Definition comments_go (content : str) : str := concat (removeComments_go (split !"-->" content)).

Lemma removeComments_eq : forall content, removeComments content = comments_go content.
Proof. intros. unfold removeComments, comments_go. apply join_nil. Qed.

Lemma comments_go_none : forall s, contains !"-->" s = false -> comments_go s = s.
Proof.
  intros s C. apply contains_false_index in C. unfold comments_go. rewrite split_none by auto.
  cbn [removeComments_go concat]. apply app_nil_r.
Qed.

Lemma removeComments_cons : forall a l, l <> [] -> removeComments_go (a :: l) =
  match split !"<!--" a with
  | nonCommentSegment :: _ :: _ => drop_trailing_newline nonCommentSegment :: removeComments_go l
  | segments => segments ++ [!"-->"] ++ removeComments_go l
  end.
Proof. intros a [|x l] H; [congruence|reflexivity]. Qed.

Lemma comments_go_next : forall a b, contains !"-->" a = false ->
  comments_go (a ++ !"-->" ++ b) =
  (match index !"<!--" a with Some i => drop_trailing_newline (firstn i a) | None => a ++ !"-->" end) ++ comments_go b.
Proof.
  intros a b C. unfold comments_go.
  rewrite split_first; [|discriminate|apply (index_fresh_last ">"%char !"--" a b); [not_in|exact C]].
  rewrite removeComments_cons by apply split_nonempty.
  destruct (index !"<!--" a) as [i|] eqn:I.
  - rewrite (split_index !"<!--" a i) by (auto; discriminate).
    destruct (split !"<!--" (skipn (i + length !"<!--") a)) as [|y m] eqn:F; [exfalso; eapply split_nonempty; eauto|].
    reflexivity.
  - rewrite split_none by auto. cbn [app concat]. rewrite <- app_assoc. reflexivity.
Qed.

Lemma drop_newline_spec : forall t, without_newline t (drop_trailing_newline t).
Proof.
  intros t. unfold drop_trailing_newline. destruct (rev t) as [|c r] eqn:E.
  - right. split; auto. intros u ->. rewrite rev_app_distr in E. discriminate E.
  - assert (T : t = rev r ++ [c]) by (rewrite <- (rev_involutive t), E; reflexivity).
    destruct (Ascii.eqb_spec c nl_char) as [->|N].
    + left. exact T.
    + right. split; auto. intros u U. rewrite U in T. unfold nl in T. apply app_inj_tail in T as [_ T]. congruence.
Qed.

Lemma drop_newline_app : forall a b, (forall u, a <> u ++ nl) -> drop_trailing_newline (a ++ b) = a ++ drop_trailing_newline b.
Proof.
  intros a b N. unfold drop_trailing_newline. rewrite rev_app_distr. destruct (rev b) as [|c r] eqn:E; cbn [app].
  - apply (f_equal (@rev ascii)) in E. rewrite rev_involutive in E. cbn [rev] in E. subst b. rewrite app_nil_r.
    destruct (rev a) as [|c r] eqn:Ea; auto. destruct (Ascii.eqb_spec c nl_char) as [->|_]; auto.
    exfalso. apply (N (rev r)). rewrite <- (rev_involutive a), Ea. reflexivity.
  - destruct (Ascii.eqb c nl_char).
    + rewrite rev_app_distr, rev_involutive. auto.
    + auto.
Qed.

Lemma comments_go_comment : forall t c rest, contains !"<!--" t = false -> contains !"-->" (!"<!--" ++ c) = false ->
  comments_go (t ++ comment c ++ rest) = drop_trailing_newline t ++ comments_go rest.
Proof.
  intros t c rest. remember (length t) as n. revert t Heqn. induction n as [n IH] using lt_wf_ind. intros t -> Ct Cc.
  destruct (index !"-->" t) as [i|] eqn:I.
  - destruct (index_some _ _ _ I) as (_ & _ & F). apply index_some_split in I as (t1 & t2 & E & L & _).
    assert (C1 : contains !"-->" t1 = false).
    { apply contains_false_index. apply (index_prefix_none !"-->" t1 t2); [|discriminate]. apply index_first. rewrite <- E, L. auto. }
    subst t. rewrite <- !app_assoc. rewrite comments_go_next by auto.
    pose proof (contains_app_false _ _ _ Ct) as [Ct1 Ct2]. apply contains_app_false in Ct2 as [_ Ct2].
    apply contains_false_index in Ct1. rewrite Ct1.
    rewrite (IH (length t2)) with (t := t2); auto.
    + rewrite (app_assoc t1 !"-->" t2). rewrite drop_newline_app.
      * rewrite <- !app_assoc. reflexivity.
      * intros u U. unfold nl in U. apply (f_equal (@rev ascii)) in U. rewrite !rev_app_distr in U. cbn in U. inversion U.
    + rewrite !app_length. simpl. lia.
  - assert (C : contains !"-->" (t ++ !"<!--" ++ c) = false).
    { destruct (contains _ (t ++ _)) eqn:K; auto. exfalso. apply contains_spec in K as (u & w & K).
      destruct (app_app_cases _ _ _ _ K) as [(z & Z1 & Z2)|(z & Z1 & Z2)].
      - apply contains_false with (a := z) (b := w) in Cc. congruence.
      - destruct (app_app_cases _ _ _ _ Z2) as [(y & Y1 & Y2)|(y & Y1 & Y2)].
        + apply index_none with (a := u) (b := y) in I. apply I. rewrite Z1, Y1. auto.
        + (* the marker would be cut by the beginning of the comment *)
          destruct y as [|y1 y].
          * rewrite app_nil_r in Y1. apply index_none with (a := u) (b := []) in I. apply I. rewrite app_nil_r, Y1. auto.
          * cbn [app] in Y2. inversion Y2; subst y1.
            destruct z as [|z1 [|z2 [|z3 [|z4 z]]]]; cbn [app] in Y1; inversion Y1. }
    unfold comment. rewrite <- !app_assoc.
    replace (t ++ !"<!--" ++ c ++ !"-->" ++ rest) with ((t ++ !"<!--" ++ c) ++ !"-->" ++ rest) by (rewrite <- !app_assoc; reflexivity).
    rewrite comments_go_next by auto.
    rewrite (index_fresh_first "<"%char !"!--" t c); [|not_in|exact Ct].
    rewrite firstn_app, Nat.sub_diag, firstn_all, firstn_O, app_nil_r. reflexivity.
Qed.

Lemma comments_go_text : forall s, contains !"<!--" s = false -> comments_go s = s.
Proof.
  intros s. remember (length s) as n. revert s Heqn. induction n as [n IH] using lt_wf_ind. intros s -> C.
  destruct (index !"-->" s) as [i|] eqn:I.
  - destruct (index_some _ _ _ I) as (_ & _ & F). apply index_some_split in I as (t1 & t2 & E & L & _).
    assert (C1 : contains !"-->" t1 = false).
    { apply contains_false_index. apply (index_prefix_none !"-->" t1 t2); [|discriminate]. apply index_first. rewrite <- E, L. auto. }
    subst s. rewrite comments_go_next by auto. pose proof (contains_app_false _ _ _ C) as [Ct1 Ct2].
    apply contains_app_false in Ct2 as [_ Ct2]. apply contains_false_index in Ct1. rewrite Ct1.
    rewrite (IH (length t2)) with (s := t2); auto.
    + rewrite <- !app_assoc. reflexivity.
    + rewrite !app_length. simpl. lia.
  - apply comments_go_none. apply contains_false_index. auto.
Qed.

Theorem removeComments_spec : forall l last, proper_comments l last ->
  exists r, uncommented l r /\ removeComments (commented l last) = r ++ last.
Proof.
  intros l last [H L]. rewrite removeComments_eq. unfold commented. induction l as [|[t c] l IH].
  - exists []. split; [constructor|]. cbn [map concat app].
    destruct L as [L|L]; [apply comments_go_text|apply comments_go_none]; auto.
  - destruct IH as (r & R & E); [intros; apply H; right; auto|].
    exists (drop_trailing_newline t ++ r). split.
    + constructor; auto. apply drop_newline_spec.
    + cbn [map concat fst snd]. rewrite <- !app_assoc. destruct (H t c) as [H1 H2]; [left; auto|].
      rewrite comments_go_comment by auto. rewrite E. reflexivity.
Qed.

Theorem removeComments_none : forall content, contains !"-->" content = false -> removeComments content = content.
Proof. intros. rewrite removeComments_eq. apply comments_go_none; auto. Qed.

(** ** Empty list entries *)

Lemma isListBeginning_spec : forall c, isListBeginning c = true <-> list_character c.
Proof.
  intros c. unfold isListBeginning, list_character. rewrite !orb_true_iff, !Ascii.eqb_eq. tauto.
Qed.

Lemma filter_length_all : forall {A} (f : A -> bool) l, length (filter f l) <= length l /\
  (length (filter f l) = length l <-> Forall (fun x => f x = true) l).
Proof.
  induction l as [|a l [IH1 IH2]]; simpl; [split; auto; split; auto|].
  destruct (f a) eqn:E; simpl.
  - split; [lia|]. split.
    + intros H. constructor; auto. apply IH2. lia.
    + intros H. inversion H; subst. f_equal. apply IH2; auto.
  - split; [lia|]. split.
    + intros H. lia.
    + intros H. inversion H; congruence.
Qed.

Lemma keepListLine_spec : forall line,
  (empty_entry line /\ keepListLine line = None) \/ (~ empty_entry line /\ keepListLine line = Some (trim_space line)).
Proof.
  intros line. unfold keepListLine, empty_entry. remember (trim_space line) as t. destruct t as [|c t].
  - right. split; auto. intros [H _]; congruence.
  - destruct (isListBeginning c) eqn:E; cbn [negb].
    + destruct (filter_length_all isListBeginning (c :: t)) as [_ F].
      destruct (Nat.eqb_spec (length (filter isListBeginning (c :: t))) (length (c :: t))) as [K|K].
      * left. split; auto. split; [discriminate|]. apply F in K. eapply Forall_impl; [|exact K].
        intros a. apply isListBeginning_spec.
      * right. split; auto. intros [_ H]. apply K, F. eapply Forall_impl; [|exact H]. intros a. apply isListBeginning_spec.
    + right. split; auto. intros [_ H]. inversion H; subst. apply isListBeginning_spec in H2. congruence.
Qed.

Lemma filter_map_entries : forall lines, without_empty_entries lines (filter_map keepListLine lines).
Proof.
  induction lines as [|l lines IH]; simpl; [constructor|].
  destruct (keepListLine_spec l) as [[E K]|[E K]]; rewrite K; [apply we_drop|apply we_keep]; auto.
Qed.

Theorem removeEmptyListEntries_spec : forall content,
  exists r, without_empty_entries (split nl content) r /\ removeEmptyListEntries content = join nl r.
Proof. intros. eexists. split; [apply filter_map_entries|reflexivity]. Qed.

Lemma entries_trimmed : forall lines r, without_empty_entries lines r ->
  Forall (fun l => ~ empty_entry l /\ trim_space l = l) r.
Proof.
  induction 1 as [|l ls r E H IH|l ls r E H IH]; auto.
  constructor; auto. unfold empty_entry in *. rewrite trim_space_idem. auto.
Qed.

Lemma entries_newline : forall lines r, without_empty_entries lines r -> Forall (fun p => ~ In nl_char p) lines ->
  Forall (fun p => ~ In nl_char p) r.
Proof.
  induction 1 as [|l ls r E H IH|l ls r E H IH]; intros F; inversion F; subst; auto.
  constructor; auto. intros K. apply trim_space_In in K. auto.
Qed.

Lemma entries_of_trimmed : forall lines, Forall (fun l => ~ empty_entry l /\ trim_space l = l) lines ->
  filter_map keepListLine lines = lines.
Proof.
  induction 1 as [|l ls [E T] F IH]; simpl; auto.
  destruct (keepListLine_spec l) as [[E' K]|[E' K]]; [tauto|]. rewrite K, T, IH. auto.
Qed.

Lemma removeEmptyListEntries_lines : forall content, Forall (fun l => ~ empty_entry l /\ trim_space l = l) (split nl (removeEmptyListEntries content)).
Proof.
  intros content. destruct (removeEmptyListEntries_spec content) as (r & W & ->).
  destruct r as [|a r].
  - simpl. constructor; auto. split; [|reflexivity]. intros [H _]. apply H. reflexivity.
  - unfold nl. rewrite split_join_single; [|discriminate|].
    + eapply entries_trimmed; eauto.
    + eapply entries_newline; eauto. apply split_single_pieces.
Qed.

Theorem removeEmptyListEntries_idem : forall content,
  removeEmptyListEntries (removeEmptyListEntries content) = removeEmptyListEntries content.
Proof.
  intros content. unfold removeEmptyListEntries at 1. rewrite entries_of_trimmed.
  - apply join_split. discriminate.
  - apply removeEmptyListEntries_lines.
Qed.

(** ** Sections *)

Lemma equals_snoc : forall n, equals (S n) = equals n ++ !"=".
Proof. intros n. unfold equals. change (S n) with (1 + n). rewrite Nat.add_comm, repeat_app. reflexivity. Qed.

Lemma rev_equals : forall n, rev (equals n) = equals n.
Proof. induction n; auto. rewrite equals_snoc at 1. rewrite rev_app_distr, IHn. reflexivity. Qed.

(** The run of equal signs at the beginning *)
Lemma equals_run : forall s, exists n t, s = equals n ++ t /\ has_prefix !"=" t = false.
Proof.
  induction s as [|c s (n & t & -> & T)].
  - exists 0, []. auto.
  - destruct (Ascii.eqb_spec c "="%char) as [->|N].
    + exists (S n), t. auto.
    + exists 0, (c :: equals n ++ t). split; auto. cbn [has_prefix]. destruct (Ascii.eqb_spec "="%char c); [congruence|reflexivity].
Qed.

Lemma no_equal : forall c t, has_prefix !"=" (c :: t) = false -> Ascii.eqb c "=" = false.
Proof.
  intros c t. cbn [has_prefix]. rewrite andb_true_r. intros H.
  destruct (Ascii.eqb_spec c "="%char) as [->|N]; auto.
Qed.

Lemma no_equal_app : forall t u, t <> [] -> has_prefix !"=" t = false -> has_prefix !"=" (t ++ u) = false.
Proof. intros [|c t] u N H; [congruence|]. exact H. Qed.

Lemma headingDepth_go_cons : forall c r line rline k, headingDepth_go (c :: line) (r :: rline) k =
  if negb (Ascii.eqb c "=") && negb (Ascii.eqb r "=") then k
  else if negb (Ascii.eqb c r) then 0 else headingDepth_go line rline (S k).
Proof. reflexivity. Qed.

Lemma headingDepth_go_run : forall n m t u k, has_prefix !"=" t = false -> has_prefix !"=" u = false ->
  length (equals n ++ t) = length (equals m ++ u) ->
  headingDepth_go (equals n ++ t) (equals m ++ u) k = if Nat.eqb n m then k + n else 0.
Proof.
  induction n as [|n IH]; intros [|m] t u k T U L.
  - cbn [equals repeat app] in *. destruct t as [|c t], u as [|d u]; try discriminate L.
    + cbn. lia.
    + apply no_equal in T, U. rewrite headingDepth_go_cons, T, U. cbn. lia.
  - change (equals (S m)) with ("="%char :: equals m) in *. cbn [equals repeat app] in *. destruct t as [|c t]; [discriminate L|].
    apply no_equal in T. rewrite headingDepth_go_cons, T. cbn [negb andb]. change (Ascii.eqb "=" "=") with true.
    cbn [negb andb]. destruct (Ascii.eqb_spec c "="%char); [subst; discriminate|reflexivity].
  - change (equals (S n)) with ("="%char :: equals n) in *. cbn [equals repeat app] in *. destruct u as [|c u]; [discriminate L|].
    apply no_equal in U. rewrite headingDepth_go_cons, U. cbn [negb andb]. change (Ascii.eqb "=" "=") with true.
    cbn [negb andb]. destruct (Ascii.eqb_spec "="%char c); [subst; discriminate|reflexivity].
  - change (equals (S n)) with ("="%char :: equals n) in *. change (equals (S m)) with ("="%char :: equals m) in *.
    cbn [app] in *. rewrite headingDepth_go_cons. change (Ascii.eqb "=" "=") with true. cbn [negb andb].
    rewrite IH; auto.
    cbn [Nat.eqb]. destruct (Nat.eqb n m); auto. lia.
Qed.

Lemma prefix_rev : forall p s, has_suffix p s = has_prefix (rev p) (rev s).
Proof. reflexivity. Qed.

(** The shape of a line that begins and ends with equal signs *)
Lemma headingDepth_go_heading : forall line, has_prefix !"=" line = true -> has_suffix !"=" line = true ->
  (exists n, 0 < n /\ line = equals n /\ headingDepth_go line (rev line) 0 = n) \/
  (exists n m title, 0 < n /\ 0 < m /\ title <> [] /\ has_prefix !"=" title = false /\ has_suffix !"=" title = false /\
     line = equals n ++ title ++ equals m /\ headingDepth_go line (rev line) 0 = if Nat.eqb n m then n else 0).
Proof.
  intros line P S. destruct (equals_run line) as (n & t & E & T).
  assert (N : 0 < n). { destruct n; [|lia]. cbn [equals repeat app] in E. subst. congruence. }
  destruct (list_eq_dec ascii_dec t []) as [->|Nt].
  - left. exists n. rewrite app_nil_r in E. split; auto. split; auto. subst line. rewrite rev_equals.
    rewrite <- (app_nil_r (equals n)). rewrite headingDepth_go_run; auto. rewrite Nat.eqb_refl. auto.
  - right. destruct (equals_run (rev t)) as (m & u & E' & U).
    assert (Et : t = rev u ++ equals m). { rewrite <- (rev_involutive t), E', rev_app_distr, rev_equals. auto. }
    assert (Nu : u <> []).
    { intros ->. cbn [rev app] in Et. destruct m; [cbn in Et; congruence|]. subst t. discriminate T. }
    assert (M : 0 < m).
    { destruct m; [|lia]. exfalso. rewrite prefix_rev, E, rev_app_distr, E' in S. cbn [equals repeat app] in S.
      change (rev !"=") with !"=" in S. rewrite no_equal_app in S; auto. discriminate. }
    exists n, m, (rev u). split; auto. split; auto. split.
    { intros H. apply Nu. rewrite <- (rev_involutive u), H. auto. }
    split.
    { destruct (rev u) as [|c v] eqn:Eu; [auto|]. rewrite Et in T. exact T. }
    split. { rewrite prefix_rev, rev_involutive. exact U. }
    split; [rewrite E, Et; auto|].
    assert (Er : rev line = equals m ++ (u ++ equals n)).
    { rewrite E, rev_app_distr, E', rev_equals, app_assoc. auto. }
    rewrite Er. rewrite E at 1. rewrite headingDepth_go_run; auto.
    + apply no_equal_app; auto.
    + rewrite <- E, <- Er, rev_length. auto.
Qed.

Lemma equals_unique : forall n m t u, has_prefix !"=" t = false -> has_prefix !"=" u = false ->
  equals n ++ t = equals m ++ u -> n = m /\ t = u.
Proof.
  induction n as [|n IH]; intros [|m] t u T U E.
  - auto.
  - cbn [equals repeat app] in E. subst. discriminate T.
  - cbn [equals repeat app] in E. subst. discriminate U.
  - cbn [equals repeat app] in E. injection E as E. destruct (IH m t u) as [-> ->]; auto.
Qed.

Lemma headingDepth_spec : forall line d, 0 < d -> (headingDepth line = d <-> heading_line line d).
Proof.
  intros line d D. unfold headingDepth.
  destruct (has_prefix !"=" line) eqn:P; cbn [negb orb].
  1: destruct (has_suffix !"=" line) eqn:S; cbn [negb].
  - destruct (headingDepth_go_heading line P S) as [(n & N & E & H)|(n & m & title & N & M & T0 & T1 & T2 & E & H)]; rewrite H; clear H.
    + split.
      * intros <-. rewrite E. apply heading_equals; auto.
      * intros K. rewrite E in K. remember (equals n) as q eqn:Q. destruct K as [k title K0 K1 K2 K3|k K0|q K0 K1].
        -- symmetry in Q. rewrite <- (app_nil_r (equals n)) in Q.
           apply equals_unique in Q as [_ C]; [|reflexivity|apply no_equal_app; auto].
           destruct title; [congruence|discriminate].
        -- rewrite <- (app_nil_r (equals n)), <- (app_nil_r (equals k)) in Q. apply equals_unique in Q as [-> _]; auto.
        -- subst q. destruct n; [lia|]. discriminate K0.
    + split.
      * destruct (Nat.eqb_spec n m) as [<-|]; [|intros; lia]. intros <-. rewrite E. apply heading_title; auto.
      * intros K. rewrite E in K. remember (equals n ++ title ++ equals m) as q eqn:Q. destruct K as [k title0 K0 K1 K2 K3|k K0|q K0 K1].
        -- apply equals_unique in Q as [-> E2]; try (apply no_equal_app; auto).
           assert (R : equals n ++ rev title0 = equals m ++ rev title).
           { rewrite <- (rev_equals n), <- (rev_equals m), <- !rev_app_distr. congruence. }
           apply equals_unique in R as [-> _]; auto. rewrite Nat.eqb_refl. auto.
        -- rewrite <- (app_nil_r (equals k)) in Q. apply equals_unique in Q as [_ E2]; auto; [|apply no_equal_app; auto].
           destruct title; [congruence|discriminate].
        -- subst q. destruct n; [lia|]. discriminate K0.
  - split.
    + destruct (has_prefix !"'''" line) eqn:P'; [|cbn [andb]; intros; lia]. destruct line as [|c line]; [discriminate|].
      cbn [has_prefix] in P, P'. apply andb_true_iff in P as [P _]. apply andb_true_iff in P' as [P' _].
      apply Ascii.eqb_eq in P, P'. congruence.
    + intros K. exfalso. destruct K as [k title0 K0 K1 K2 K3|k K0|q K0 K1].
      * destruct k; [lia|]. rewrite equals_snoc in S at 2. rewrite !app_assoc, has_suffix_app in S. discriminate.
      * destruct k; [lia|]. rewrite equals_snoc, has_suffix_app in S. discriminate.
      * destruct q as [|c line]; [discriminate|].
        cbn [has_prefix] in P, K0. apply andb_true_iff in P as [P _]. apply andb_true_iff in K0 as [P' _].
        apply Ascii.eqb_eq in P, P'. congruence.
  - split.
    + destruct (has_prefix !"'''" line) eqn:P'; [|cbn [andb]; intros; lia]. destruct (has_suffix !"'''" line) eqn:S'; [|cbn [andb]; intros; lia].
      intros <-. apply heading_semi; auto.
    + intros K. destruct K as [k title0 K0 K1 K2 K3|k K0|q K0 K1].
      * destruct k; [lia|]. discriminate P.
      * destruct k; [lia|]. discriminate P.
      * rewrite K0, K1. reflexivity.
Qed.

Lemma heading_line_pos : forall line d, heading_line line d -> 0 < d.
Proof. intros ? ? H. destruct H; auto. lia. Qed.

Lemma headingDepth_none : forall line, headingDepth line = 0 <-> forall d, ~ heading_line line d.
Proof.
  intros line. split.
  - intros H d K. pose proof (heading_line_pos _ _ K). apply headingDepth_spec in K; lia.
  - intros H. destruct (headingDepth line) eqn:E; auto. exfalso. apply (H (S n)). apply headingDepth_spec; auto. lia.
Qed.

Lemma heading_line_det : forall line d d', heading_line line d -> heading_line line d' -> d = d'.
Proof.
  intros line d d' A C. pose proof (heading_line_pos _ _ A). pose proof (heading_line_pos _ _ C).
  apply headingDepth_spec in A, C; auto. congruence.
Qed.

Lemma trim_space_nil_len : forall l : str, (length l =? 0) = true <-> l = [].
Proof. intros [|c l]; cbn; split; congruence. Qed.

Lemma walkSection_spec : forall lines d e n e', Forall (fun l => trim_space l = l) lines ->
  walkSection lines d e = (n, e') ->
  exists body rest, lines = body ++ rest /\ length body = n /\ Forall (fun l => headingDepth l = 0) body /\
    (rest = [] \/ exists h r, rest = h :: r /\ 0 < headingDepth h) /\
    (e' = true <-> e = true /\ Forall (eq []) body /\ forall h r, rest = h :: r -> headingDepth h <= d).
Proof.
  induction lines as [|l lines IH]; intros d e n e' T W.
  - injection W as <- <-. exists [], []. repeat split; auto; try discriminate. intros (H & _); auto.
  - apply Forall_cons_iff in T as [Tl T]. cbn [walkSection] in W. rewrite Tl in W.
    destruct (Nat.ltb_spec 0 (headingDepth l)) as [H|H].
    + injection W as <- <-. exists [], (l :: lines). split; auto. split; auto. split; auto. split; [eauto|].
      destruct (Nat.ltb_spec d (headingDepth l)) as [K|K].
      * split; [discriminate|]. intros (_ & _ & C). specialize (C _ _ eq_refl). lia.
      * split; [intros; repeat split; auto; intros ? ? [= <- <-]; auto|tauto].
    + destruct (walkSection lines d (e && (length l =? 0))) as [n1 e1] eqn:W1. injection W as <- <-.
      apply IH in W1 as (body & rest & -> & L & F & R & C); auto.
      exists (l :: body), rest. split; auto. split; [cbn; auto|]. split; [constructor; auto; lia|]. split; auto.
      rewrite C, andb_true_iff, trim_space_nil_len. split.
      * intros ((-> & ->) & Fb & X). repeat split; auto.
      * intros (-> & Fb & X). apply Forall_cons_iff in Fb as [El Fb]. subst l. auto.
Qed.

Lemma empty_section_iff : forall d body rest, Forall (fun l => headingDepth l = 0) body ->
  (rest = [] \/ exists h r, rest = h :: r /\ 0 < headingDepth h) ->
  forall blanks rest', empty_section d (body ++ rest) blanks rest' ->
  blanks = body /\ rest' = rest.
Proof.
  induction body as [|l body IH]; intros rest F R blanks rest' (E & Bl & N); cbn [app] in E.
  - destruct blanks as [|b blanks]; auto. exfalso. apply Forall_cons_iff in Bl as [Eb Bl]; subst b.
    destruct R as [->|(h & r & -> & H)]; [discriminate|]. injection E as Eh E; subst h. cbn in H. lia.
  - apply Forall_cons_iff in F as [Fl F]. destruct blanks as [|b blanks].
    + exfalso. cbn [app] in E. destruct N as [->|(h & r & d' & -> & H & _)]; [discriminate|].
      injection E as El E. subst h. eapply (proj1 (headingDepth_none l) Fl); eauto.
    + injection E as El E. subst l. apply Forall_cons_iff in Bl as [Eb Bl]. subst b.
      destruct (IH rest F R blanks rest') as [-> ->]; auto. repeat split; auto.
Qed.

Lemma removeSections_skip : forall a b k, k = length a -> removeSections_go (a ++ b) k = removeSections_go b 0.
Proof.
  induction a as [|l a IH]; intros b k ->; [reflexivity|]. cbn [app length removeSections_go]. auto.
Qed.

Lemma removeSections_cons : forall line lines, removeSections_go (line :: lines) 0 =
  if (0 <? headingDepth line) then
    match lines with
    | [] => if (headingDepth line =? semiHeadingDepth) then [line] else []
    | _ :: _ =>
        let (n, e) := walkSection lines (headingDepth line) true in
        if e then match skipn n lines with
                  | l :: _ => removeSections_go lines (if (0 <? headingDepth l) then n else S n)
                  | [] => []
                  end
        else line :: removeSections_go lines 0
    end
  else line :: removeSections_go lines 0.
Proof. reflexivity. Qed.

Theorem removeSections_spec : forall lines, Forall (fun l => trim_space l = l) lines ->
  without_empty_sections lines (removeSections_go lines 0).
Proof.
  intros lines. remember (length lines) as k eqn:Ek. assert (K : length lines <= k) by lia. clear Ek. revert lines K.
  induction k as [|k IH]; intros lines K T.
  - destruct lines; [|cbn in K; lia]. apply ws_end.
  - destruct lines as [|line lines]; [apply ws_end|]. apply Forall_cons_iff in T as [Tl T]. cbn [length] in K.
    rewrite removeSections_cons. destruct (Nat.ltb_spec 0 (headingDepth line)) as [D|D].
    2:{ apply ws_text; [apply headingDepth_none; lia|]. apply IH; auto; lia. }
    pose proof (proj1 (headingDepth_spec line _ D) eq_refl) as HL.
    destruct lines as [|l0 lines0] eqn:El.
    { destruct (Nat.eqb_spec (headingDepth line) semiHeadingDepth) as [Q|Q].
      - apply ws_last. rewrite Q in HL. exact HL.
      - eapply ws_empty with (blanks := []) (rest := []); eauto; [|apply ws_end]. repeat split; auto. }
    rewrite <- El in *. assert (Nl : lines <> []) by congruence. clear El l0 lines0.
    destruct (walkSection lines (headingDepth line) true) as [n e] eqn:W.
    apply walkSection_spec in W as (body & rest & E & L & F & R & C); auto.
    destruct e.
    + destruct (proj1 C eq_refl) as (_ & Bl & N). rewrite E. rewrite skipn_app, <- L, Nat.sub_diag, skipn_all. cbn [app skipn].
      assert (X : without_empty_sections rest (removeSections_go rest 0)).
      { apply IH. - rewrite E, app_length in K. lia. - rewrite E, Forall_app in T. tauto. }
      rewrite <- E. eapply ws_empty with (blanks := body) (rest := rest); eauto.
      * split; auto. split; auto. destruct R as [->|(h & r & -> & H)]; auto. right. exists h, r, (headingDepth h).
        split; auto. split; [apply headingDepth_spec; auto|]. eapply N; eauto.
      * destruct R as [->|(h & r & -> & H)]; auto.
        destruct (Nat.ltb_spec 0 (headingDepth h)); [|lia]. rewrite E, removeSections_skip; auto.
    + eapply ws_section; eauto.
      * intros blanks rest' ES. rewrite E in ES. destruct (empty_section_iff _ _ _ F R _ _ ES) as [-> ->].
        assert (false = true); [|discriminate]. apply C. split; auto. destruct ES as (_ & Bl & N). split; auto.
        intros h r ->. destruct N as [|(h' & r' & d' & [= <- <-] & H1 & H2)]; [discriminate|].
        apply headingDepth_spec in H1; [lia|]. eapply heading_line_pos; eauto.
      * apply IH; auto. lia.
Qed.

(** Text is kept: the lines that are no headings and not blank survive in order *)
Definition text_line (line : str) : bool := negb (str_eqb line []) && (headingDepth line =? 0).

Lemma sections_text : forall lines r, without_empty_sections lines r -> filter text_line r = filter text_line lines.
Proof.
  induction 1 as [|line lines r H W IH|line H|line d lines blanks rest r H ES N W IH|line d lines r H N W IH]; auto.
  - cbn [filter]. rewrite IH. auto.
  - assert (X : forall l, heading_line l d -> text_line l = false).
    { intros l Hl. unfold text_line. pose proof (heading_line_pos _ _ Hl). apply headingDepth_spec in Hl; auto.
      destruct (Nat.eqb_spec (headingDepth l) 0); [lia|]. apply andb_false_r. }
    cbn [filter]. rewrite (X line H). destruct ES as (-> & Bl & _). rewrite filter_app, IH.
    replace (filter text_line blanks) with (@nil str); auto.
    clear -Bl. induction Bl as [|b bs Eb Bl IH]; auto. subst b. auto.
  - cbn [filter]. rewrite IH. auto.
Qed.

Lemma removeSections_fix : forall r lines, without_empty_sections lines r -> forall x, In x r -> In x lines.
Proof.
  induction 1 as [|line lines r H W IH|line H|line d lines blanks rest r H ES N W IH|line d lines r H N W IH]; intros x I; auto.
  - destruct I as [<-|I]; [left|right]; auto.
  - right. destruct ES as (-> & _). apply in_or_app. auto.
  - destruct I as [<-|I]; [left|right]; auto.
Qed.
