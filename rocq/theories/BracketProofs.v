(** * Proofs about bracket matching *)

From Coq Require Import Ascii String.
From Coq Require Import List Arith Bool Lia.
From Verif Require Import GoStr GoStrFacts BracketModel BracketSpec.
Import ListNotations.
Local Open Scope list_scope.

Lemma findClose_skip : forall ic o c s k d i,
  findClose_go ic o c s k d i = findClose_go ic o c (skipn k s) 0 d (i + min k (length s)).
Proof.
  induction s as [|x s IH]; intros k d i.
  - rewrite skipn_nil. reflexivity.
  - destruct k as [|k].
    + rewrite skipn_O, Nat.add_0_r. reflexivity.
    + cbn [findClose_go skipn length min]. rewrite IH. f_equal. lia.
Qed.

Lemma reading_total : forall o c s, o <> [] -> c <> [] -> exists l, reading o c s l.
Proof.
  intros o c s Ho Hc. remember (length s) as n. revert s Heqn.
  induction n as [n IH] using lt_wf_ind. intros s ->.
  destruct s as [|x s]; [exists []; constructor|].
  destruct (str_eq_dec o c) as [E|E].
  - destruct (has_prefix c (x :: s)) eqn:P.
    + apply has_prefix_spec in P as (t & P).
      destruct (IH (length t)) with (s := t) as (l & L); auto.
      { rewrite P, app_length. destruct c; [congruence|simpl; lia]. }
      exists (Closing :: l). rewrite P. apply read_close; auto.
    + destruct (IH (length s)) with (s := s) as (l & L); auto.
      exists (Other x :: l). apply read_other; auto. congruence.
  - destruct (has_prefix o (x :: s)) eqn:Po.
    + apply has_prefix_spec in Po as (t & P).
      destruct (IH (length t)) with (s := t) as (l & L); auto.
      { rewrite P, app_length. destruct o; [congruence|simpl; lia]. }
      exists (Opening :: l). rewrite P. apply read_open; auto.
    + destruct (has_prefix c (x :: s)) eqn:P.
      * pose proof P as P'. apply has_prefix_spec in P as (t & P).
        destruct (IH (length t)) with (s := t) as (l & L); auto.
        { rewrite P, app_length. destruct c; [congruence|simpl; lia]. }
        exists (Closing :: l). rewrite P in *. apply read_close; auto.
      * destruct (IH (length s)) with (s := s) as (l & L); auto.
        exists (Other x :: l). apply read_other; auto.
Qed.

(** Net number of unclosed opening tokens and the first closing token without partner, on the item level *)
Fixpoint first_unpaired (l : list item) (d : nat) : option nat :=
  match l with
  | [] => None
  | Opening :: l' => option_map S (first_unpaired l' (S d))
  | Closing :: l' => match d with O => Some 0 | S d' => option_map S (first_unpaired l' d') end
  | Other _ :: l' => option_map S (first_unpaired l' d)
  end.

Lemma findClose_reading : forall o c s l, o <> [] -> c <> [] -> reading o c s l -> forall d i,
  findClose_go false o c s 0 d i =
  option_map (fun n => i + length (items_text o c (firstn n l))) (first_unpaired l d).
Proof.
  intros o c s l Ho Hc R. induction R as [|s l N R IH|s l D R IH|x s l N1 N2 R IH]; intros d i.
  - reflexivity.
  - assert (E : exists y t, o ++ s = y :: t /\ t = tl o ++ s).
    { destruct o; [congruence|]. eexists; eexists; split; [reflexivity|]. reflexivity. }
    destruct E as (y & t & E & Et). rewrite E. cbn [findClose_go]. rewrite <- E.
    unfold tokens_differ, at_token. replace (str_eqb o c) with false by (symmetry; apply str_eqb_neq; auto).
    rewrite has_prefix_app. cbn [negb andb]. rewrite findClose_skip, Et.
    rewrite skipn_app. replace (length (tl o)) with (pred (length o)) by (destruct o; reflexivity).
    rewrite Nat.sub_diag. rewrite skipn_all2 by (destruct o; simpl; lia). rewrite skipn_O. cbn [app].
    rewrite IH. cbn [first_unpaired]. destruct (first_unpaired l (S d)); cbn [option_map]; auto. f_equal.
    unfold items_text. cbn [firstn map concat item_text]. rewrite !app_length.
    rewrite Nat.min_l by (destruct o; simpl; lia). destruct o; [congruence|]. simpl. lia.
  - assert (E : exists y t, c ++ s = y :: t /\ t = tl c ++ s).
    { destruct c; [congruence|]. eexists; eexists; split; [reflexivity|]. reflexivity. }
    destruct E as (y & t & E & Et). rewrite E. cbn [findClose_go]. rewrite <- E.
    assert (F : tokens_differ false o c && at_token false o (c ++ s) = false).
    { unfold tokens_differ, at_token. destruct D as [->|D].
      - rewrite str_eqb_refl. reflexivity.
      - rewrite D. apply andb_false_r. }
    rewrite F. unfold at_token. rewrite has_prefix_app. destruct d as [|d].
    + cbn [first_unpaired option_map]. f_equal. unfold items_text. simpl. lia.
    + rewrite findClose_skip, Et.
      rewrite skipn_app. replace (length (tl c)) with (pred (length c)) by (destruct c; reflexivity).
      rewrite Nat.sub_diag. rewrite skipn_all2 by (destruct c; simpl; lia). rewrite skipn_O. cbn [app].
      rewrite IH. cbn [first_unpaired]. destruct (first_unpaired l d); cbn [option_map]; auto. f_equal.
      unfold items_text. cbn [firstn map concat item_text]. rewrite !app_length.
      rewrite Nat.min_l by (destruct c; simpl; lia). destruct c; [congruence|]. simpl. lia.
  - cbn [findClose_go]. unfold at_token. rewrite N1, N2, andb_false_r. rewrite IH. cbn [first_unpaired].
    destruct (first_unpaired l d); cbn [option_map]; auto. f_equal. unfold items_text. simpl. lia.
Qed.

Lemma balanced_app : forall a b, balanced a -> balanced b -> balanced (a ++ b).
Proof.
  intros a b H; revert b; induction H as [|x l H IH|l1 l2 H1 IH1 H2 IH2]; intros b Hb; cbn [app]; auto.
  - constructor; auto.
  - rewrite <- app_assoc. cbn [app]. constructor; auto.
Qed.

Lemma first_unpaired_balanced : forall l, balanced l -> forall r d,
  first_unpaired (l ++ r) d = option_map (fun n => length l + n) (first_unpaired r d).
Proof.
  induction 1 as [|x l H IH|l1 l2 H1 IH1 H2 IH2]; intros r d.
  - simpl. destruct (first_unpaired r d); auto.
  - cbn [app first_unpaired]. rewrite IH. destruct (first_unpaired r d); auto.
  - cbn [app first_unpaired]. rewrite <- app_assoc. rewrite IH1. cbn [app first_unpaired]. rewrite IH2.
    destruct (first_unpaired r d); simpl; auto. rewrite app_length. simpl. f_equal. lia.
Qed.

(** The item found closes [d] further levels *)
Inductive nested : nat -> list item -> Prop :=
| nested_O : forall l, balanced l -> nested 0 l
| nested_S : forall d l1 l2, balanced l1 -> nested d l2 -> nested (S d) (l1 ++ Closing :: l2).

Lemma nested_other : forall d x l, nested d l -> nested d (Other x :: l).
Proof.
  intros d x l H. destruct H.
  - constructor; constructor; auto.
  - change (Other x :: l1 ++ Closing :: l2) with ((Other x :: l1) ++ Closing :: l2). constructor; auto. constructor; auto.
Qed.

Lemma nested_open : forall d l, nested (S d) l -> nested d (Opening :: l).
Proof.
  intros d l H. inversion H as [|d' l1 l2 B N]; subst. destruct N as [l2 B2|d l2 l3 B2 N].
  - constructor. constructor; auto.
  - change (Opening :: l1 ++ Closing :: l2 ++ Closing :: l3) with (Opening :: l1 ++ (Closing :: l2) ++ Closing :: l3).
    replace (Opening :: l1 ++ (Closing :: l2) ++ Closing :: l3) with ((Opening :: l1 ++ Closing :: l2) ++ Closing :: l3).
    + constructor; auto. constructor; auto.
    + cbn [app]. rewrite <- app_assoc. reflexivity.
Qed.

Lemma first_unpaired_spec : forall l d n, first_unpaired l d = Some n ->
  exists a b, l = a ++ Closing :: b /\ length a = n /\ nested d a.
Proof.
  induction l as [|[| |x] l IH]; intros d n H; cbn [first_unpaired] in H; [discriminate| | |].
  - destruct (first_unpaired l (S d)) eqn:E; [|discriminate]. inversion H; subst.
    destruct (IH _ _ E) as (a & b & -> & L & N). exists (Opening :: a), b. repeat split; simpl; auto.
    apply nested_open; auto.
  - destruct d as [|d].
    + inversion H; subst. exists [], l. repeat split; auto. constructor; constructor.
    + destruct (first_unpaired l d) eqn:E; [|discriminate]. inversion H; subst.
      destruct (IH _ _ E) as (a & b & -> & L & N). exists (Closing :: a), b. repeat split; simpl; auto.
      apply (nested_S d [] a); auto. constructor.
  - destruct (first_unpaired l d) eqn:E; [|discriminate]. inversion H; subst.
    destruct (IH _ _ E) as (a & b & -> & L & N). exists (Other x :: a), b. repeat split; simpl; auto.
    apply nested_other; auto.
Qed.

Lemma reading_det : forall o c, o <> [] -> c <> [] -> forall s l, reading o c s l -> forall l', reading o c s l' -> l = l'.
Proof.
  intros o c Ho Hc s l R. induction R as [|s l N R IH|s l D R IH|x s l N1 N2 R IH]; intros l' R'.
  - inversion R' as [|s' ? ? ? E|s' ? ? ? E|]; auto; [destruct o; [congruence|discriminate E]|destruct c; [congruence|discriminate E]].
  - inversion R' as [E|s' l2 N' R2 E|s' l2 D' R2 E|y s' l2 N1 N2 R2 E]; subst.
    + destruct o; [congruence|discriminate].
    + apply app_inv_head in E; subst. f_equal; auto.
    + destruct D' as [D'|D']; [congruence|]. rewrite E, has_prefix_app in D'. discriminate.
    + rewrite E, has_prefix_app in N1. discriminate.
  - inversion R' as [E|s' l2 N' R2 E|s' l2 D' R2 E|y s' l2 N1 N2 R2 E]; subst.
    + destruct c; [congruence|discriminate].
    + destruct D as [D|D]; [congruence|]. rewrite <- E, has_prefix_app in D. discriminate.
    + apply app_inv_head in E; subst. f_equal; auto.
    + rewrite E, has_prefix_app in N2. discriminate.
  - inversion R' as [E|s' l2 N' R2 E|s' l2 D' R2 E|y s' l2 N1' N2' R2 E]; subst.
    + rewrite <- E, has_prefix_app in N1. discriminate.
    + rewrite <- E, has_prefix_app in N2. discriminate.
    + f_equal; auto.
Qed.

Lemma reading_text : forall o c s l, reading o c s l -> s = items_text o c l.
Proof. induction 1; unfold items_text in *; cbn [map concat item_text]; auto; try (f_equal; auto; fail). cbn [app]. f_equal; auto. Qed.

Theorem findClose_spec : forall content start o c i, o <> [] -> c <> [] -> start <= length content ->
  (FindCorrespondingCloseToken content start o c = Some i <-> closes content start o c i).
Proof.
  intros content start o c i Ho Hc Hs. unfold FindCorrespondingCloseToken, findCorrespondingCloseToken, closes.
  destruct (reading_total o c (skipn start content) Ho Hc) as (l & R).
  rewrite (findClose_reading o c _ l Ho Hc R). split.
  - intros H. destruct (first_unpaired l 0) as [n|] eqn:F; [|discriminate]. inversion H; subst. split; auto.
    destruct (first_unpaired_spec _ _ _ F) as (a & b & -> & L & N). exists a, b. split; auto. inversion N; subst.
    split; auto. rewrite firstn_app, Nat.sub_diag, firstn_all, firstn_O, app_nil_r. auto.
  - intros (_ & a & b & R' & B & ->). rewrite (reading_det _ _ Ho Hc _ _ R _ R').
    rewrite first_unpaired_balanced; auto. cbn [first_unpaired option_map]. f_equal. f_equal. f_equal. f_equal.
    rewrite Nat.add_0_r. rewrite firstn_app, Nat.sub_diag, firstn_all, firstn_O, app_nil_r. auto.
Qed.

Theorem findClose_none : forall content start o c, o <> [] -> c <> [] ->
  (FindCorrespondingCloseToken content start o c = None <-> forall i, ~ closes content start o c i).
Proof.
  intros content start o c Ho Hc. destruct (le_dec start (length content)) as [L|L].
  - split.
    + intros N i K. apply (findClose_spec content start o c i Ho Hc L) in K. congruence.
    + intros N. destruct (FindCorrespondingCloseToken content start o c) eqn:E; auto.
      apply (findClose_spec content start o c n Ho Hc L) in E. exfalso; eapply N; eauto.
  - split.
    + intros _ i [K _]. lia.
    + intros _. unfold FindCorrespondingCloseToken, findCorrespondingCloseToken. rewrite skipn_all2 by lia. reflexivity.
Qed.

Lemma closes_position : forall content start o c i, closes content start o c i ->
  start <= i /\ i + length c <= length content /\ exists a b, content = a ++ c ++ b /\ length a = i.
Proof.
  intros content start o c i (L & a & b & R & B & ->). apply reading_text in R.
  unfold items_text in *. rewrite map_app, concat_app in R. cbn [map concat item_text] in R.
  assert (E : content = firstn start content ++ concat (map (item_text o c) a) ++ c ++ concat (map (item_text o c) b)).
  { rewrite <- R. symmetry. apply firstn_skipn. }
  split; [lia|]. split.
  - apply (f_equal (@length ascii)) in E. rewrite !app_length, firstn_length in E. lia.
  - exists (firstn start content ++ concat (map (item_text o c) a)), (concat (map (item_text o c) b)). split.
    + rewrite <- app_assoc. exact E.
    + rewrite app_length, firstn_length. lia.
Qed.

(** What callers use *)
Lemma findClose_position : forall content start o c i, o <> [] -> c <> [] ->
  FindCorrespondingCloseToken content start o c = Some i ->
  start <= i /\ i + length c <= length content /\ exists a b, content = a ++ c ++ b /\ length a = i.
Proof.
  intros content start o c i Ho Hc H. destruct (le_dec start (length content)) as [L|L].
  - apply findClose_spec in H; auto. eapply closes_position; eauto.
  - unfold FindCorrespondingCloseToken, findCorrespondingCloseToken in H. rewrite skipn_all2 in H by lia. discriminate.
Qed.

(** Ignoring the case is matching in the lower case text. *)
Lemma findClose_go_lower : forall o c s k d i,
  findClose_go true o c s k d i = findClose_go false (to_lower o) (to_lower c) (to_lower s) k d i.
Proof.
  induction s as [|x s IH]; intros k d i; [reflexivity|].
  cbn [findClose_go to_lower map]. change (map lower_char s) with (to_lower s).
  destruct k as [|k]; [|apply IH].
  unfold tokens_differ, at_token. cbn [to_lower map]. change (map lower_char s) with (to_lower s).
  replace (length (to_lower o)) with (length o) by (unfold to_lower; rewrite map_length; auto).
  replace (length (to_lower c)) with (length c) by (unfold to_lower; rewrite map_length; auto).
  destruct (_ && _); [apply IH|]. destruct (has_prefix _ _); [|apply IH]. destruct d; auto.
Qed.

Lemma to_lower_skipn : forall n s, to_lower (skipn n s) = skipn n (to_lower s).
Proof. intros. unfold to_lower. symmetry. apply skipn_map. Qed.

Theorem findClose_ignore_case : forall content start o c,
  FindCorrespondingCloseTokenIgnoreCase content start o c =
  FindCorrespondingCloseToken (to_lower content) start (to_lower o) (to_lower c).
Proof.
  intros. unfold FindCorrespondingCloseTokenIgnoreCase, FindCorrespondingCloseToken, findCorrespondingCloseToken.
  rewrite findClose_go_lower, to_lower_skipn. reflexivity.
Qed.

Lemma findCloseIC_position : forall content start o c i, o <> [] -> c <> [] ->
  FindCorrespondingCloseTokenIgnoreCase content start o c = Some i ->
  start <= i /\ i + length c <= length content.
Proof.
  intros content start o c i Ho Hc H. rewrite findClose_ignore_case in H.
  apply findClose_position in H as (A & B & _).
  - unfold to_lower in B. rewrite !map_length in B. auto.
  - destruct o; [congruence|discriminate].
  - destruct c; [congruence|discriminate].
Qed.
