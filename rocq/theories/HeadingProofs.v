(** * Proofs about headings *)

From Coq Require Import Ascii String.
From Coq Require Import List Arith Bool Lia.
From Verif Require Import GoStr GoStrFacts TextFacts TrimFacts ConfigModel TokenModel TokenSpec TokenProofs PassSpec HeadingModel PassProofs JudgeProofs.
Import ListNotations.
Local Open Scope list_scope.

Lemma equals_repeat : forall n, repeat_str !"=" n = equals n.
Proof. induction n as [|n IH]; [reflexivity|]. cbn [repeat_str]. rewrite IH. reflexivity. Qed.

Lemma equals_length : forall n, length (equals n) = n.
Proof. intros. apply repeat_length. Qed.

Lemma equals_snoc : forall n, equals n ++ [equal_sign] = equals (S n).
Proof. induction n as [|n IH]; auto. change (equals (S n)) with (equal_sign :: equals n) at 1. cbn [app]. rewrite IH. reflexivity. Qed.

Lemma equals_app : forall n m, equals n ++ equals m = equals (n + m).
Proof. intros. symmetry. apply repeat_app. Qed.

Lemma equals_rev : forall n, rev (equals n) = equals n.
Proof. induction n as [|n IH]; auto. cbn [equals repeat rev]. fold (equals n). rewrite IH. apply equals_snoc. Qed.

(** The line is a heading of level [n] or higher. *)
Definition matches (n : nat) (line : str) : bool := has_prefix (equals n) (trim_space line) && has_suffix (equals n) (trim_space line).

Lemma matches_pred : forall n line, matches (S n) line = true -> matches n line = true.
Proof.
  intros n line H. unfold matches in *. apply andb_prop in H as [H1 H2]. apply andb_true_iff. split.
  - apply has_prefix_spec in H1 as (x & ->). apply has_prefix_spec. exists (equal_sign :: x). rewrite <- equals_snoc, <- app_assoc. auto.
  - apply has_suffix_spec in H2 as (x & ->). apply has_suffix_spec. exists (x ++ [equal_sign]). rewrite <- app_assoc. auto.
Qed.

Lemma matches_le : forall n m line, m <= n -> matches n line = true -> matches m line = true.
Proof. intros n m line L H. induction L; auto. apply IHL. apply matches_pred. auto. Qed.

(** The text of the heading *)
Definition title_of (n : nat) (line : str) : str := trim_space (replace_all (equals n) [] (trim_space line)).

Lemma headingLine_eq : forall rec n line, parseHeadingLine rec n line =
  if matches n line then
    (do! token := getToken TOKEN_HEADING in do! content := rec (title_of n line) in do! _ := setRawToken token (HeadingToken content n) in ret token)
  else ret line.
Proof. intros. unfold parseHeadingLine, matches, title_of. rewrite equals_repeat. reflexivity. Qed.

Lemma token_key_ends : forall ty n, solid_ends (token_key ty n).
Proof.
  intros ty n. exists "$"%char. split; [reflexivity|]. split; [eexists; reflexivity|]. exists "$"%char. eexists. split; [reflexivity|].
  unfold token_key. change !"$$" with (!"$" ++ !"$"). rewrite !app_assoc. reflexivity.
Qed.

Lemma key_matches : forall ty i n, matches (S n) (token_key ty i) = false.
Proof. intros. unfold matches. rewrite trim_solid; [reflexivity|apply token_key_ends]. Qed.

(** Lists of lines *)
Lemma Forall2_weaken : forall A B (P Q : A -> B -> Prop) l1 l2, (forall x y, P x y -> Q x y) -> Forall2 P l1 l2 -> Forall2 Q l1 l2.
Proof. intros A B P Q l1 l2 H F. induction F; constructor; auto. Qed.

Lemma Forall2_In_l : forall A B (P : A -> B -> Prop) l1 l2, Forall2 P l1 l2 -> Forall2 (fun x y => P x y /\ In x l1) l1 l2.
Proof.
  intros A B P l1 l2 F. assert (H : forall l, incl l1 l -> Forall2 (fun x y => P x y /\ In x l) l1 l2); [|apply H; apply incl_refl].
  intros l. induction F as [|x y l1 l2 Hxy F IHF]; intros Hi; constructor; auto; [split; auto; apply Hi; left; auto|]. apply IHF. intros z Z. apply Hi. right. auto.
Qed.

Lemma holds_mapM2 : forall A B C b (f : A -> M C) (P : Tokenizer -> B -> A -> Prop) (Q : Tokenizer -> B -> C -> Prop),
  (forall t t' x y, grows t t' -> P t x y -> P t' x y) -> (forall t t' x y, grows t t' -> Q t x y -> Q t' x y) ->
  (forall t x y, ok b t -> P t x y -> holds b t (f y) (fun t' => Q t' x)) ->
  forall l0 l t, ok b t -> Forall2 (P t) l0 l -> holds b t (mapM f l) (fun t' => Forall2 (Q t') l0).
Proof.
  intros A B C b f P Q MP MQ H l0. induction l0 as [|x l0 IH]; intros l t O F; inversion F; subst; cbn [mapM]; [apply holds_ret; auto|].
  eapply holds_bind; [apply H; eauto|]. intros z t1 O1 G1 Q1. eapply holds_bind; [apply IH; auto; eapply Forall2_weaken; [|eassumption]; eauto|].
  intros zs t2 O2 G2 F2. apply holds_ret; auto. constructor; auto. eapply MQ; eauto.
Qed.

Section Recursive.
Variable tokenizeContent : str -> M str.
Variable strict : bool.
(** The texts on which the parser does not fail *)
Variable R : str -> Prop.
Hypothesis rec_runs : forall t s, unique t -> R s -> judge strict t (tokenizeContent s) (fun _ _ => True).

Lemma ok_false : forall t, unique t -> ok false t.
Proof. intros t U. split; [exact U|discriminate]. Qed.

(** The text has been parsed, with a result that is part of the state. *)
Definition parsed (t' : Tokenizer) (text content : str) : Prop :=
  exists t1 t2, unique t1 /\ tokenizeContent text t1 = Ok (content, t2) /\ keeps t2 t'.

Lemma parsed_mono : forall t t' s c, keeps t t' -> parsed t s c -> parsed t' s c.
Proof. intros t t' s c K (t1 & t2 & U & E & K'). exists t1, t2. repeat split; auto; try apply U. eapply keeps_trans; eauto. Qed.

Lemma parsed_spec : forall t s c, unique t -> parsed t s c -> parsed_as tokenizeContent t s c.
Proof. intros t s c U (t1 & t2 & U1 & E & K). exists t1, t2. repeat split; auto; try apply U1. apply keeps_extends; auto. Qed.

Lemma rec_parsed : forall t s, ok false t -> R s -> judge strict t (tokenizeContent s) (fun t' c => parsed t' s c).
Proof.
  intros t s (U & _) H. destruct (rec_runs t s U H) as [H1 H2]. split; auto. intros c t' E. destruct (H1 c t' E) as (O & G & _). split; auto. split; auto. exists t, t'. split; auto. split; auto. apply keeps_refl.
Qed.

(** A heading of level [n] has been parsed. *)
Definition is_heading (t : Tokenizer) (n : nat) (line line' : str) : Prop :=
  exists content i, line' = token_key TOKEN_HEADING i /\ In (line', HeadingToken content n) (tokenMap t) /\ parsed t (title_of n line) content.

(** The state of the lines after the levels above [d] *)
Definition done (d : nat) (t : Tokenizer) (line line' : str) : Prop :=
  (line' = line /\ forall n, d < n <= 7 -> matches n line = false) \/
  (exists n, d < n <= 7 /\ matches n line = true /\ (forall m, n < m <= 7 -> matches m line = false) /\ is_heading t n line line').

Lemma done_mono : forall d t t' x y, grows t t' -> done d t x y -> done d t' x y.
Proof.
  intros d t t' x y G [H|(n & L & H1 & H2 & c & i & E & I & P)]; [left; auto|]. right. exists n. do 3 (split; auto).
  exists c, i. split; auto. split; [eapply keeps_In; [apply grows_keeps|]; eauto|]. eapply parsed_mono; [apply grows_keeps|]; eauto.
Qed.

Lemma good_false : forall t l, Forall (good false t) l.
Proof. intros t l. apply Forall_forall. intros x _. discriminate. Qed.

(** The level of a heading is the largest one that is possible. *)
Definition level_of (n : nat) (line : str) : Prop := 1 <= n <= 7 /\ matches n line = true /\ forall m, n < m <= 7 -> matches m line = false.

Lemma headingLine_done : forall d t x y, S d <= 7 -> ok false t -> (forall n, level_of n x -> R (title_of n x)) -> done (S d) t x y -> judge strict t (parseHeadingLine tokenizeContent (S d) y) (fun t' => done d t' x).
Proof.
  intros d t x y L O Rx D. rewrite headingLine_eq. destruct D as [[-> N]|(n & Ln & M1 & M2 & c & i & E & I & P)].
  - destruct (matches (S d) x) eqn:E.
    + eapply (judge_reserve_in _ _ strict t TOKEN_HEADING _ (fun content => HeadingToken content (S d)) (fun t' c => parsed t' (title_of (S d) x) c) (fun k _ => ret k)); auto.
      * apply nowiki_types.
      * intros t' O' _. apply rec_parsed; auto. apply Rx. split; [lia|]. split; auto.
      * intros t1 t' a i O' G' O1 K P I. apply judge_ret; auto. right. exists (S d). split; [lia|]. split; auto. split; [intros; apply N; lia|].
        exists a, i. do 2 (split; auto). eapply parsed_mono; eauto.
    + apply judge_ret; auto. left. split; auto. intros n Ln. destruct (Nat.eq_dec n (S d)) as [->|]; auto. apply N. lia.
  - subst y. rewrite key_matches. apply judge_ret; auto. right. exists n. split; [lia|]. do 2 (split; auto). exists c, i. auto.
Qed.

Lemma headings_done : forall d lines0 lines t, d <= 7 -> ok false t -> (forall x n, In x lines0 -> level_of n x -> R (title_of n x)) -> Forall2 (done d t) lines0 lines ->
  judge strict t (parseHeadings_go tokenizeContent d lines) (fun t' => Forall2 (done 0 t') lines0).
Proof.
  induction d as [|d IH]; intros lines0 lines t L O Rs F; cbn [parseHeadings_go]; [apply judge_ret; auto|].
  eapply judge_bind.
  - apply (judge_mapM2 _ _ _ strict _ (fun t x y => done (S d) t x y /\ In x lines0) (fun t x y => done d t x y)).
    + intros t1 t2 x y G [D I]. split; auto. eapply done_mono; eauto.
    + eauto using done_mono.
    + intros t1 x y O1 [D I]. apply headingLine_done; auto.
    + auto.
    + apply Forall2_In_l. exact F.
  - cbn beta. intros lines' t' O' G' F'. apply IH; auto. lia.
Qed.

Lemma lines_done : forall text t, ok false t -> (forall line n, In line (split nl text) -> level_of n line -> R (title_of n line)) ->
  judge strict t (parseHeadings tokenizeContent text) (fun t' result => Forall2 (done 0 t') (split nl text) (split nl result)).
Proof.
  intros text t O Rs. unfold parseHeadings. eapply judge_bind.
  - apply (headings_done 7 (split nl text)); auto.
    clear Rs. induction (split nl text) as [|l ls IH]; constructor; auto. left. split; auto. intros. lia.
  - cbn beta. intros lines t' O' G' F. apply judge_ret; auto. unfold nl. rewrite split_join_single; auto.
    + intros ->. inversion F. eapply (split_nonempty [nl_char] text). auto.
    + pose proof (split_single_pieces nl_char text) as P. unfold nl in F. revert lines F. induction P as [|x xs X P IH]; intros lines F; inversion F as [|? y ? ys D F']; subst; constructor; auto.
      destruct D as [[-> _]|(n & _ & _ & _ & c & i & E & _ & _)]; auto. subst y. intros Hn.
      assert (A : atom (token_key TOKEN_HEADING i)) by (apply token_key_atom; apply nowiki_types).
      apply atom_chars in A. rewrite Forall_forall in A. specialize (A _ Hn). discriminate.
Qed.
End Recursive.

Lemma rec_parsed_any : forall rec, (forall t s, unique t -> holds false t (rec s) (fun _ _ => True)) ->
  forall t s, ok false t -> holds false t (rec s) (fun t' c => parsed rec t' s c).
Proof. intros rec H t s O. apply (judge_holds _ false). apply (rec_parsed rec false (fun _ => True)); auto. intros. apply holds_judge. auto. Qed.

(** ** Heading lines *)

Lemma equals_solid : forall n title, solid_ends (equals (S n) ++ title ++ equals (S n)).
Proof.
  intros n title. exists equal_sign. split; [reflexivity|]. split; [eexists; reflexivity|]. exists equal_sign. eexists. split; [reflexivity|].
  rewrite <- (equals_snoc n) at 2. rewrite !app_assoc. reflexivity.
Qed.

Lemma heading_trim : forall line n title, heading_line line n title -> trim_space line = equals n ++ title ++ equals n.
Proof.
  intros line n title (L & T & _ & l & r & Bl & Br & ->). destruct n as [|n]; [lia|].
  replace (l ++ equals (S n) ++ title ++ equals (S n) ++ r) with (l ++ (equals (S n) ++ title ++ equals (S n)) ++ r) by (rewrite <- !app_assoc; auto).
  apply trim_core; auto. apply equals_solid.
Qed.

Lemma heading_matches : forall line n title, heading_line line n title -> matches n line = true.
Proof.
  intros line n title H. unfold matches. rewrite (heading_trim _ _ _ H), has_prefix_app, app_assoc, has_suffix_app. auto.
Qed.

Lemma equals_inner : forall n x title y, title <> [] -> equals (S n) ++ x = equals n ++ title ++ y -> starts_with equal_sign title.
Proof.
  intros n x title y T E. rewrite <- equals_snoc, <- app_assoc in E. apply app_inv_head in E. destruct title as [|c title]; [contradiction|].
  cbn [app] in E. injection E as <- _. exists title. auto.
Qed.

Lemma heading_max : forall line n title m, heading_line line n title -> n < m <= 7 -> matches m line = false.
Proof.
  intros line n title m H L. destruct (matches m line) eqn:E; auto. exfalso. pose proof (heading_trim _ _ _ H) as Tr. destruct H as (Ln & T & [->|N] & _); [lia|].
  apply (matches_le _ (S n)) in E; [|lia]. unfold matches in E. rewrite Tr in E. apply andb_prop in E as [E1 E2]. apply N. split.
  - apply has_prefix_spec in E1 as (x & E1). eapply equals_inner; eauto.
  - unfold has_suffix in E2. rewrite !rev_app_distr, !equals_rev in E2. apply has_prefix_spec in E2 as (x & E2). rewrite <- app_assoc in E2.
    symmetry in E2. apply equals_inner in E2 as (y & E2); [|intros K; apply (f_equal (@rev ascii)) in K; rewrite rev_involutive in K; auto].
    exists (rev y). apply (f_equal (@rev ascii)) in E2. rewrite rev_involutive in E2. exact E2.
Qed.

(** The first row of equal signs behind a title that has no such row *)
Lemma title_split : forall title : str, exists x j, title = x ++ equals j /\ ~ ends_with equal_sign x.
Proof.
  intros title. induction title as [|c title IH] using rev_ind.
  - exists [], 0. split; auto. intros (x & E). destruct x; discriminate.
  - destruct (Ascii.eqb_spec c equal_sign) as [->|N].
    + destruct IH as (x & j & -> & Hx). exists x, (S j). rewrite <- equals_snoc, app_assoc. auto.
    + exists (title ++ [c]), 0. cbn [equals repeat]. rewrite app_nil_r. split; auto. intros (x & E). apply app_inj_tail in E as [_ ->]. auto.
Qed.

Lemma equals_index : forall n x y, contains (equals n) x = false -> ~ ends_with equal_sign x -> index (equals n) (x ++ equals n ++ y) = Some (length x).
Proof.
  intros n x y C E. apply index_first. intros j J. destruct (has_prefix (equals n) (skipn j (x ++ equals n ++ y))) eqn:H; auto. exfalso.
  rewrite skipn_app in H. replace (j - length x) with 0 in H by lia. cbn [skipn] in H. apply has_prefix_spec in H as (z & H).
  destruct (app_app_cases _ _ _ _ H) as [(w & W & _)|(w & W & _)].
  - destruct (skipn j x) as [|c u] eqn:S using rev_ind; [apply (f_equal (@length ascii)) in S; rewrite skipn_length in S; cbn in S; lia|]. clear IHu.
    apply E. exists (firstn j x ++ u). rewrite <- app_assoc. replace equal_sign with c.
    + rewrite <- S. symmetry. apply firstn_skipn.
    + apply (repeat_spec n). fold (equals n). rewrite W. rewrite !in_app_iff. left. right. left. auto.
  - assert (K : contains (equals n) x = true); [|congruence]. apply contains_spec. exists (firstn j x), w. rewrite <- W. symmetry. apply firstn_skipn.
Qed.

Lemma heading_title : forall line n title, heading_line line n title -> contains (equals n) title = false -> title_of n line = trim_space title.
Proof.
  intros line n title H C. unfold title_of. rewrite (heading_trim _ _ _ H). f_equal. destruct H as (L & T & _). destruct n as [|n]; [lia|].
  rewrite replace_all_hit by discriminate. cbn [app]. destruct (title_split title) as (x & j & -> & E).
  rewrite <- app_assoc, equals_app, Nat.add_comm, <- equals_app.
  rewrite replace_all_first; [|discriminate|apply equals_index; auto; apply (contains_app_false _ _ _ C)].
  cbn [app]. f_equal. apply replace_all_none. apply contains_app_false in C as [_ C]. apply contains_false_index. exact C.
Qed.

Lemma ordinary_matches : forall line n, 1 <= n -> ordinary_line line -> matches n line = false.
Proof.
  intros line n L O. destruct (matches n line) eqn:E; auto. exfalso. apply O. apply (matches_le _ 1) in E; auto.
  unfold matches in E. apply andb_prop in E as [E1 E2]. destruct (trim_space_spec line) as (l & r & El & Bl & Br & _).
  exists l, (trim_space line), r. repeat split; auto.
  - apply has_prefix_spec in E1 as (x & ->). exists x. auto.
  - apply has_suffix_spec in E2 as (x & ->). exists x. auto.
Qed.
