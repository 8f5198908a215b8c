(** * Proofs about lists *)

From Coq Require Import Ascii String.
From Coq Require Import List Arith Bool Lia.
From Verif Require Import GoStr GoStrFacts TextFacts TrimFacts TokenModel ListModel TokenSpec PassSpec ListSpec TokenProofs PassProofs HeadingProofs LinkProofs.
Import ListNotations.
Local Open Scope list_scope.

Lemma start_char : forall c, isListStartingCharacter c = true <-> is_list_char c.
Proof.
  intros c. unfold isListStartingCharacter, is_list_char. rewrite !orb_true_iff, !Ascii.eqb_eq. tauto.
Qed.

Lemma kind_eq : forall c, kind_of_list c = kind_for c.
Proof. reflexivity. Qed.

Lemma list_char_solid : forall c, is_list_char c -> solid c = true.
Proof. intros c [->|[->|[->| ->]]]; reflexivity. Qed.

(** ** Entries *)

Lemma covers_app : forall a b c d, covers a b -> covers c d -> covers (a ++ c) (b ++ d).
Proof. intros a b c d H K. induction H; cbn [app]; auto; constructor; auto. Qed.

Lemma covers_refl : forall l, covers l l.
Proof. induction l; constructor; auto. Qed.

(** Entries one level deeper *)
Definition deeper (k : list_kind) (e : entry) : entry := mkEntry (k :: path e) (type e) (content e).

Lemma covers_deeper : forall k a b, covers a b -> covers (map (deeper k) a) (map (deeper k) b).
Proof. intros k a b H. induction H; cbn [map]; try constructor; auto. Qed.

Lemma flat_map_map : forall A B C (f : B -> C) (g : A -> list B) l, map f (flat_map g l) = flat_map (fun a => map f (g a)) l.
Proof. intros. induction l; cbn; auto. rewrite map_app, IHl. auto. Qed.

Fixpoint list_deeper (k : list_kind) (p : list list_kind) (l : ListToken) {struct l} : list_entries (k :: p) l = map (deeper k) (list_entries p l)
with item_deeper (k : list_kind) (p : list list_kind) (i : ListItemToken) {struct i} : item_entries (k :: p) i = map (deeper k) (item_entries p i).
Proof.
  - destruct l as [kind items]. cbn [list_entries]. rewrite flat_map_map. cbn [app].
    induction items as [|i items IH]; cbn [flat_map]; auto. rewrite IH, (item_deeper k (p ++ [kind]) i). auto.
  - destruct i as [ty c subs]. cbn [item_entries map]. f_equal. rewrite flat_map_map.
    induction subs as [|l subs IH]; cbn [flat_map]; auto. rewrite IH, (list_deeper k p l). auto.
Qed.

Lemma flat_map_last : forall A B (f : A -> list B) l x, flat_map f (l ++ [x]) = flat_map f l ++ f x.
Proof. intros. rewrite flat_map_app. cbn. rewrite app_nil_r. auto. Qed.

(** A sub-list behind the other items *)
Lemma addSubList_entries : forall p c items sub, exists filler, (filler = [] \/ exists ty, filler = [mkEntry p ty []]) /\
  flat_map (item_entries p) (addSubList c items sub) = flat_map (item_entries p) items ++ filler ++ list_entries p sub.
Proof.
  intros p c items sub. unfold addSubList. destruct (rev items) as [|[ty ct subs] before] eqn:E.
  - exists [mkEntry p (getListItemTypeForList c) []]. split; [right; eexists; auto|].
    apply (f_equal (@rev _)) in E. rewrite rev_involutive in E. subst items. cbn [flat_map item_entries app rev]. rewrite !app_nil_r. auto.
  - exists []. split; auto. apply (f_equal (@rev _)) in E. rewrite rev_involutive in E. subst items. cbn [rev]. rewrite !flat_map_last, <- app_assoc. f_equal.
    cbn [item_entries app]. rewrite flat_map_last. auto.
Qed.

(** ** Lines *)

Section Parsed.
Variable parsed : str -> str -> Prop.

Lemma line_deeper : forall c line es, is_list_char c -> line_entries parsed line es -> line_entries parsed (c :: line) (map (deeper (kind_for c)) es).
Proof.
  intros c line es C H. destruct H as [p d text ct F N S P|p h i c1 c2 F N H P1 P2].
  - apply (one_item parsed (c :: p) d text ct); auto. constructor; auto.
  - apply (head_and_item parsed (c :: p) h i c1 c2); auto.
Qed.
End Parsed.

Lemma line_entries_mono : forall (P Q : str -> str -> Prop) line es, (forall a b, P a b -> Q a b) -> line_entries P line es -> line_entries Q line es.
Proof. intros P Q line es H L. destruct L; [apply one_item|apply head_and_item]; auto. Qed.

Lemma Forall2_lines_mono : forall (P Q : str -> str -> Prop) lines es, (forall a b, P a b -> Q a b) ->
  Forall2 (line_entries P) lines es -> Forall2 (line_entries Q) lines es.
Proof. intros P Q lines es H F. eapply Forall2_weaken; [|exact F]. intros. eapply line_entries_mono; eauto. Qed.

Lemma tail_trimmed : forall c d s, trim_space (c :: d :: s) = c :: d :: s -> solid d = true -> trim_space (d :: s) = d :: s.
Proof.
  intros c d s T S. apply trim_space_fix; intros p I.
  - apply solid_first; auto.
  - destruct (has_suffix p (d :: s)) eqn:E; auto. exfalso. apply has_suffix_spec in E as (x & E).
    destruct (trim_space_spec (c :: d :: s)) as (l & r & _ & _ & _ & K). rewrite T in K. destruct (K p I) as [_ K'].
    assert (X : has_suffix p (c :: d :: s) = true) by (apply has_suffix_spec; exists (c :: x); rewrite E; auto). congruence.
Qed.

Lemma take_while_prefix : forall f l, exists r, l = take_while f l ++ r.
Proof. intros f l. induction l as [|x l [r IH]]; [exists []; auto|]. cbn [take_while]. destruct (f x); [exists r; cbn; congruence|exists (x :: l); auto]. Qed.

Lemma take_while_firstn : forall f l, take_while f l = firstn (length (take_while f l)) l.
Proof. intros f l. induction l as [|x l IH]; cbn [take_while]; auto. destruct (f x); cbn [length firstn]; congruence. Qed.

Lemma take_while_all : forall f l, Forall (fun x => f x = true) (take_while f l).
Proof. intros f l. induction l as [|x l IH]; cbn [take_while]; auto. destruct (f x) eqn:E; constructor; auto. Qed.

Lemma take_while_id : forall f l, Forall (fun x => f x = true) l -> take_while f l = l.
Proof. intros f l H. induction H as [|x l X H IH]; auto. cbn [take_while]. rewrite X, IH. auto. Qed.

Lemma belongs_char : forall line p, belongsToListPrefix line p = true -> is_list_char p -> exists c s, line = c :: s /\ is_list_char c /\ kind_for c = kind_for p.
Proof.
  intros line p B C. destruct line as [|c s]; [discriminate|]. exists c, s. split; auto. cbn [belongsToListPrefix] in B. destruct (Ascii.eqb p ";") eqn:E; [apply Ascii.eqb_eq in E; subst p|].
  - apply orb_prop in B as [B|B]; apply Ascii.eqb_eq in B; subst c; split; auto; unfold is_list_char; auto.
  - apply Ascii.eqb_eq in B. subst c. auto.
Qed.

Section Recursive.
Variable tokenizeContent : str -> M str.
Hypothesis rec_runs : forall t s, unique t -> holds false t (tokenizeContent s) (fun _ _ => True).

Notation P t := (parsed tokenizeContent t).

Lemma P_mono : forall t t', grows t t' -> forall a b, P t a b -> P t' a b.
Proof. intros t t' G a b. apply parsed_mono. apply grows_keeps. auto. Qed.

Lemma lines_mono : forall t t' lines es, grows t t' -> Forall2 (line_entries (P t)) lines es -> Forall2 (line_entries (P t')) lines es.
Proof. intros t t' lines es G. apply Forall2_lines_mono. apply P_mono. auto. Qed.

(** The items of a line without sub-list *)
Lemma lineItems_spec : forall c text t, ok false t -> is_list_char c -> no_list_start text ->
  holds false t (lineItems tokenizeContent c text)
    (fun t' items => exists es, line_entries (P t') (c :: text) es /\ flat_map (item_entries [kind_for c]) items = es).
Proof.
  intros c text t O C N. unfold lineItems. destruct (Ascii.eqb_spec c ";") as [->|Nc].
  - destruct (first_char ":" text) as [F|(h & i & -> & F)].
    + change !":" with [":"%char]. rewrite split2_none; auto. eapply holds_bind; [apply rec_parsed_any; auto|]. cbn beta. intros ct t1 O1 G1 P1. apply holds_ret; auto.
      eexists. split; [apply (one_item _ [] ";" text ct); auto; apply Forall_cons; auto|]. reflexivity.
    + change !":" with [":"%char]. rewrite split2_first; auto. eapply holds_bind; [apply rec_parsed_any; auto|]. cbn beta. intros c1 t1 O1 G1 P1.
      eapply holds_bind; [apply rec_parsed_any; auto|]. cbn beta. intros c2 t2 O2 G2 P2. apply holds_ret; auto.
      eexists. split; [apply (head_and_item _ [] h i c1 c2); auto; eapply P_mono; eauto|]. reflexivity.
  - assert (T : (if Ascii.eqb c ":" then DESCRIPTION_ITEM else NORMAL_ITEM) = type_for c).
    { unfold type_for. destruct (Ascii.eqb_spec c ";"); [contradiction|]. auto. }
    destruct (Ascii.eqb c ":"); (eapply holds_bind; [apply rec_parsed_any; auto|]); cbn beta; intros ct t1 O1 G1 P1; apply holds_ret; auto;
      (eexists; split; [apply (one_item _ [] c text ct); auto; [apply Forall_cons; auto|intros; contradiction]|]); rewrite <- T; reflexivity.
Qed.

(** Lines of a list that have been trimmed *)
Definition list_lines (p : ascii) (lines : list str) : Prop := Forall (fun l => trim_space l = l /\ belongsToListPrefix l p = true) lines.

Lemma sub_lines : forall p q lines, is_list_char p -> is_list_char q -> list_lines p lines ->
  exists n, take_while (fun l => belongsToListPrefix l q) (map (@tl ascii) lines) = map (@tl ascii) (firstn n lines) /\
            n = length (take_while (fun l => belongsToListPrefix l q) (map (@tl ascii) lines)) /\ n <= length lines /\
            list_lines q (map (@tl ascii) (firstn n lines)).
Proof.
  intros p q lines Cp Cq L. exists (length (take_while (fun l => belongsToListPrefix l q) (map (@tl ascii) lines))).
  destruct (take_while_prefix (fun l => belongsToListPrefix l q) (map (@tl ascii) lines)) as (r & R).
  set (tw := take_while _ _) in *. pose proof (take_while_all (fun l => belongsToListPrefix l q) (map (@tl ascii) lines)) as A. fold tw in A.
  assert (E : tw = map (@tl ascii) (firstn (length tw) lines)).
  { exact (eq_trans (take_while_firstn _ _) (firstn_map _ _ _)). }
  split; [exact E|]. split; auto. split.
  { pose proof (f_equal (@length str) R) as Rl. rewrite map_length, app_length in Rl. change (length lines = length tw + length r) in Rl. clear -Rl. lia. }
  rewrite <- E. unfold list_lines. apply Forall_forall. intros x I. rewrite Forall_forall in A. split; [|apply A; auto].
  rewrite E in I. apply in_map_iff in I as (l & <- & I). assert (I' : In l lines) by (rewrite <- (firstn_skipn (length tw) lines); apply in_app_iff; auto).
  unfold list_lines in L. rewrite Forall_forall in L. destruct (L l I') as [T B]. 
  assert (B' : belongsToListPrefix (tl l) q = true) by (apply A; rewrite E; apply in_map_iff; exists l; auto).
  destruct (belongs_char _ _ B Cp) as (c & s & -> & _ & _). cbn [tl] in *. destruct (belongs_char _ _ B' Cq) as (d & s' & -> & Cd & _).
  eapply tail_trimmed; eauto. apply list_char_solid; auto.
Qed.

Lemma kinds_deeper : forall P p lines ess, is_list_char p -> list_lines p lines -> Forall2 (line_entries P) (map (@tl ascii) lines) ess ->
  Forall2 (line_entries P) lines (map (map (deeper (kind_for p))) ess).
Proof.
  intros P0 p lines ess Cp L F. remember (map (@tl ascii) lines) as tls eqn:E. revert lines L E. induction F as [|x es tls ess X F IH]; intros [|l lines] L E; try discriminate; cbn [map]; constructor.
  - injection E as -> _. inversion L as [|? ? [_ B] _]; subst. destruct (belongs_char _ _ B Cp) as (c & s & -> & Cc & K). cbn [tl] in X. rewrite <- K. apply line_deeper; auto.
  - injection E as _ E. inversion L; subst. apply IH; auto.
Qed.

Lemma concat_deeper : forall k ess, concat (map (map (deeper k)) ess) = map (deeper k) (concat ess).
Proof. intros. symmetry. apply concat_map. Qed.

Lemma listItems_spec : forall sub p, is_list_char p ->
  (forall lines q t, lines <> [] -> is_list_char q -> list_lines q lines -> ok false t ->
     holds false t (sub lines q) (fun t' l => is_list_of (P t') lines l)) ->
  forall lines skip items es0 t, list_lines p lines -> ok false t -> covers es0 (flat_map (item_entries [kind_for p]) items) ->
  holds false t (listItems tokenizeContent sub p lines skip items)
    (fun t' items' => exists ess, Forall2 (line_entries (P t')) (skipn skip lines) ess /\ covers (es0 ++ concat ess) (flat_map (item_entries [kind_for p]) items')).
Proof.
  intros sub p Cp Sub lines. induction lines as [|line lines IH]; intros skip items es0 t L O Cv; cbn [listItems].
  - apply holds_ret; auto. exists []. rewrite skipn_nil. split; [constructor|]. cbn [concat]. rewrite app_nil_r. auto.
  - inversion L as [|? ? [T B] L']; subst. destruct skip as [|k]; [|apply IH; auto].
    destruct (belongs_char _ _ B Cp) as (c & text & -> & Cc & Kc).
    assert (Plain : no_list_start text ->
      holds false t (do! items0 := lineItems tokenizeContent c text in listItems tokenizeContent sub p lines 0 (items ++ items0))
        (fun t' items' => exists ess, Forall2 (line_entries (P t')) (skipn 0 ((c :: text) :: lines)) ess /\
           covers (es0 ++ concat ess) (flat_map (item_entries [kind_for p]) items'))).
    { intros N. eapply holds_bind; [apply lineItems_spec; auto|]. cbn beta. intros its t1 O1 G1 (es & E1 & E2). rewrite Kc in E2.
      eapply holds_weaken; [apply (IH 0 (items ++ its) (es0 ++ es)); auto|].
      - rewrite flat_map_app, E2. apply covers_app; auto. apply covers_refl.
      - cbn beta. intros items' t2 O2 G2 (ess & F & C2). exists (es :: ess). cbn [skipn] in *. split.
        + constructor; auto. eapply line_entries_mono; [|exact E1]. apply P_mono. auto.
        + cbn [concat]. rewrite app_assoc. auto. }
    destruct text as [|q text]; [apply Plain; intros d _ (x & X); discriminate|].
    destruct (isListStartingCharacter q) eqn:Q; [|apply Plain; intros d D (x & X); injection X as <- <-; apply start_char in D; congruence].
    apply start_char in Q. clear Plain.
    destruct (sub_lines p q ((c :: q :: text) :: lines) Cp Q L) as (n & E & En & Ln & Ls). cbv zeta.
    match goal with |- context[take_while ?f ?ls] => change (take_while f ls) with (take_while (fun l => belongsToListPrefix l q) (map (@tl ascii) ((c :: q :: text) :: lines))) end.
    rewrite <- En, E.
    assert (Nn : n <> 0).
    { rewrite En. cbn [map tl take_while]. unfold belongsToListPrefix at 1. destruct (Ascii.eqb_spec q ";") as [->|]; cbn [orb length]; [discriminate|].
      rewrite Ascii.eqb_refl. discriminate. }
    destruct n as [|n]; [contradiction|]. cbn [pred].
    eapply holds_bind; [apply Sub; auto; cbn [firstn map]; discriminate|]. cbn beta. intros l t1 O1 G1 (ess & F1 & C1).
    destruct (addSubList_entries [kind_for p] p items l) as (filler & Fi & Ad).
    eapply holds_weaken; [apply (IH n _ (es0 ++ map (deeper (kind_for p)) (concat ess))); auto|].
    + rewrite Ad. apply covers_app; auto. rewrite (list_deeper (kind_for p) [] l). apply (covers_deeper (kind_for p)) in C1.
      destruct Fi as [->|(ty & ->)]; cbn [app]; auto. apply covers_empty. auto.
    + cbn beta. intros items' t2 O2 G2 (ess2 & F2 & C2). cbn [skipn].
      exists (map (map (deeper (kind_for p))) ess ++ ess2). split.
      * refine (eq_rect _ (fun x => Forall2 (line_entries (P t2)) x _) _ _ (firstn_skipn (S n) ((c :: q :: text) :: lines))). apply Forall2_app; auto.
        apply kinds_deeper; auto.
        -- unfold list_lines in *. apply Forall_forall. intros x I. rewrite Forall_forall in L. apply L.
           refine (eq_rect _ (fun y => In x y) _ _ (firstn_skipn (S n) ((c :: q :: text) :: lines))). apply in_app_iff. left. exact I.
        -- eapply lines_mono; eauto.
      * rewrite concat_app, concat_deeper, app_assoc. auto.
Qed.

Lemma list_types : forall p, type_ok (getListTokenKey p).
Proof. intros p. unfold getListTokenKey. destruct (Ascii.eqb p "*"); [|destruct (Ascii.eqb p "#")]; apply nowiki_types || (split; [discriminate|repeat constructor]). Qed.

Lemma tokenizeList_spec : forall fuel lines p t, is_list_char p -> ok false t ->
  holds false t (tokenizeList tokenizeContent fuel lines p)
    (fun t' r => let '(l, key, n) := r in
       let listLines := take_while (fun line => belongsToListPrefix line p) (map trim_space lines) in
       n = length listLines /\ is_list_of (P t') listLines l /\ In (key, ListTokenOf l) (tokenMap t') /\ exists i, key = token_key (getListTokenKey p) i).
Proof.
  induction fuel as [|fuel IH]; intros lines p t C O; cbn [tokenizeList]; [apply holds_fuel|].
  set (listLines := take_while _ (map trim_space lines)).
  assert (LL : list_lines p listLines).
  { unfold list_lines. apply Forall_forall. intros l I. split.
    - destruct (take_while_prefix (fun line => belongsToListPrefix line p) (map trim_space lines)) as (r & R). fold listLines in R.
      assert (I' : In l (map trim_space lines)) by (rewrite R; apply in_app_iff; auto). apply in_map_iff in I' as (x & <- & _). apply trim_space_idem.
    - pose proof (take_while_all (fun line => belongsToListPrefix line p) (map trim_space lines)) as A. fold listLines in A. rewrite Forall_forall in A. apply A. auto. }
  eapply holds_bind.
  - apply (listItems_spec _ p C) with (es0 := []) (skip := 0) (items := []); auto; [|constructor].
    intros ls q t1 N Q L1 O1. eapply holds_bind; [apply IH; auto|]. cbn beta. intros [[l k] n] t2 O2 G2 (_ & Is & _).
    apply holds_ret; auto. rewrite take_while_id in Is.
    + assert (E : map trim_space ls = ls) by (clear -L1; induction L1 as [|x ls [X _] L1 IH]; cbn [map]; congruence). rewrite E in Is. exact Is.
    + assert (E : map trim_space ls = ls) by (clear -L1; induction L1 as [|x ls [X _] L1 IH]; cbn [map]; congruence). rewrite E.
      eapply Forall_impl; [|exact L1]. cbn beta. tauto.
  - cbn beta. intros items t1 O1 G1 (ess & F & Cv). cbn [skipn app] in *.
    apply (holds_token_in _ false t1 (getListTokenKey p) (ListTokenOf (AnyListToken (kind_of_list p) items)) (fun k => ret (AnyListToken (kind_of_list p) items, k, length listLines)));
      auto; [apply list_types|apply good_false|].
    intros t2 n O2 G2 I. apply holds_ret; auto. split; auto. split; [|split; [auto|exists n; auto]]. exists ess. split; [eapply lines_mono; eauto|].
    cbn [list_entries app]. rewrite kind_eq. auto.
Qed.

(** ** All lists of a text *)

Inductive lists_found (t : Tokenizer) : list str -> list str -> Prop :=
| found_nil : lists_found t [] []
| found_other : forall line lines result, ~ list_line line -> lists_found t lines result -> lists_found t (line :: lines) (line :: result)
| found_list : forall listLines key l lines result, listLines <> [] -> Forall list_line listLines ->
    In (key, ListTokenOf l) (tokenMap t) -> is_list_of (P t) (map trim_space listLines) l -> ~ In nl_char key ->
    lists_found t lines result -> lists_found t (listLines ++ lines) (key :: result).

Lemma is_list_mono : forall t t' lines l, grows t t' -> is_list_of (P t) lines l -> is_list_of (P t') lines l.
Proof. intros t t' lines l G (es & F & C). exists es. split; auto. eapply lines_mono; eauto. Qed.

Lemma key_newline : forall ty n, type_ok ty -> ~ In nl_char (token_key ty n).
Proof. intros ty n T I. pose proof (atom_chars _ (token_key_atom ty n T)) as A. rewrite Forall_forall in A. specialize (A _ I). discriminate. Qed.

Lemma take_trimmed : forall f lines, take_while f (map trim_space lines) = map trim_space (firstn (length (take_while f (map trim_space lines))) lines).
Proof.
  intros f lines. exact (eq_trans (take_while_firstn _ _) (firstn_map _ _ _)).
Qed.

Lemma parseLists_spec : forall lines skip t, ok false t ->
  holds false t (parseLists_go tokenizeContent lines skip) (fun t' r => lists_found t' (skipn skip lines) r).
Proof.
  induction lines as [|line lines IH]; intros skip t O; cbn [parseLists_go].
  - apply holds_ret; auto. rewrite skipn_nil. constructor.
  - destruct skip as [|k]; [|apply IH; auto].
    assert (Other : ~ list_line line -> holds false t (do! r := parseLists_go tokenizeContent lines 0 in ret (line :: r)) (fun t' r => lists_found t' (skipn 0 (line :: lines)) r)).
    { intros N. eapply holds_bind; [apply IH; auto|]. cbn beta. intros r t1 O1 G1 F. apply holds_ret; auto. constructor; auto. }
    destruct (trim_space line) as [|c text] eqn:T; [apply Other; intros (c & _ & (x & X)); rewrite T in X; discriminate|].
    destruct (isListStartingCharacter c) eqn:C; [|apply Other; intros (d & D & (x & X)); rewrite T in X; injection X as <- _; apply start_char in D; congruence].
    apply start_char in C. eapply holds_bind; [apply tokenizeList_spec; auto|]. cbn beta. intros [[l key] n] t1 O1 G1 (En & Is & I & (i & Ek)).
    rewrite take_trimmed, <- En in Is.
    assert (Nn : n <> 0).
    { rewrite En. cbn [map take_while]. rewrite T. unfold belongsToListPrefix at 1. destruct (Ascii.eqb_spec c ";") as [->|]; cbn [orb length]; [discriminate|].
      rewrite Ascii.eqb_refl. discriminate. }
    destruct n as [|n]; [contradiction|]. cbn [pred].
    eapply holds_bind; [apply IH; auto|]. cbn beta. intros r t2 O2 G2 F. apply holds_ret; auto. cbn [skipn].
    refine (eq_rect _ (fun x => lists_found t2 x _) _ _ (firstn_skipn (S n) (line :: lines))). apply (found_list t2 _ key l); auto.
    + discriminate.
    + pose proof (take_while_all (fun line => belongsToListPrefix line c) (map trim_space (line :: lines))) as A. rewrite take_trimmed, <- En in A.
      apply Forall_forall. intros x Ix. rewrite Forall_forall in A. specialize (A (trim_space x) (in_map _ _ _ Ix)).
      destruct (belongs_char _ _ A C) as (d & s & E & D & _). exists d. split; auto. exists s. auto.
    + eapply keeps_In; [apply grows_keeps|]; eauto.
    + eapply is_list_mono; eauto.
    + rewrite Ek. apply key_newline. apply list_types.
Qed.

Lemma found_newline : forall t lines result, lists_found t lines result -> Forall (fun l => ~ In nl_char l) lines -> Forall (fun l => ~ In nl_char l) result.
Proof.
  intros t lines result F. induction F as [|line lines result N F IH|ll key l lines result Ne Fl I Is K F IH]; intros H; constructor; auto.
  - inversion H; auto.
  - inversion H; auto.
  - apply Forall_app in H as [_ H]. auto.
Qed.

Lemma found_ne : forall t lines result, lists_found t lines result -> lines <> [] -> result <> [].
Proof. intros t lines result F N. destruct F; auto; discriminate. Qed.

Theorem parseLists_found : forall text t, ok false t ->
  holds false t (parseLists tokenizeContent text) (fun t' r => lists_found t' (split nl text) (split nl r)).
Proof.
  intros text t O. unfold parseLists. eapply holds_bind; [apply parseLists_spec; auto|]. cbn beta. intros lines t1 O1 G1 F. apply holds_ret; auto. cbn [skipn] in F.
  unfold nl in *. rewrite split_join_single; auto.
  - eapply found_ne; eauto. apply split_nonempty.
  - eapply found_newline; eauto. apply split_single_pieces.
Qed.
End Recursive.

(** ** Termination *)

Definition ends {A} (m : M A) : Prop := forall t, m t <> OutOfFuel.

Lemma ends_bind : forall A C (m : M A) (f : A -> M C), ends m -> (forall a, ends (f a)) -> ends (bindM m f).
Proof. intros A C m f H F t. unfold bindM. specialize (H t). destruct (m t) as [[a t']| | |]; cbn; try discriminate; auto. apply F. Qed.

Lemma ends_ret : forall A (a : A), ends (ret a).
Proof. intros A a t. discriminate. Qed.

Section Ends.
Variable tokenizeContent : str -> M str.
Hypothesis rec_ends : forall s, ends (tokenizeContent s).

Lemma lineItems_ends : forall c text, ends (lineItems tokenizeContent c text).
Proof.
  intros c text. unfold lineItems. destruct (Ascii.eqb c ";").
  - destruct (split2 _ _) as [|h [|i [|x l]]]; repeat (apply ends_bind; [auto|intros]); try apply ends_ret.
  - destruct (Ascii.eqb c ":"); apply ends_bind; auto; intros; apply ends_ret.
Qed.

Lemma listItems_ends : forall sub p lines skip items,
  (forall c q text before after, lines = before ++ (c :: q :: text) :: after -> isListStartingCharacter q = true ->
     ends (sub (take_while (fun l => belongsToListPrefix l q) (map (@tl ascii) ((c :: q :: text) :: after))) q)) ->
  ends (listItems tokenizeContent sub p lines skip items).
Proof.
  intros sub p lines. induction lines as [|line lines IH]; intros skip items S; cbn [listItems]; [apply ends_ret|].
  assert (S' : forall k items, ends (listItems tokenizeContent sub p lines k items)).
  { intros k its. apply IH. intros c q text before after E Q. apply (S c q text (line :: before) after); auto. cbn [app]. congruence. }
  destruct skip; [|auto]. destruct line as [|c text]; [auto|]. destruct text as [|q text]; [apply ends_bind; auto using lineItems_ends|].
  destruct (isListStartingCharacter q) eqn:Q; apply ends_bind; auto using lineItems_ends. apply (S c q text [] lines); auto.
Qed.

Lemma longest_In : forall lines x, In x lines -> length x <= longest lines.
Proof. induction lines as [|l lines IH]; intros x []; cbn [longest fold_right]; [subst; lia|]. specialize (IH x H). unfold longest in IH. lia. Qed.

Lemma longest_le : forall lines n, (forall x, In x lines -> length x <= n) -> longest lines <= n.
Proof. induction lines as [|l lines IH]; intros n H; cbn [longest fold_right]; [lia|]. apply Nat.max_lub; [apply H; left; auto|]. apply IH. intros; apply H; right; auto. Qed.

Lemma trim_length : forall s, length (trim_space s) <= length s.
Proof. intros s. destruct (trim_space_spec s) as (l & r & E & _). rewrite E at 2. rewrite !app_length. lia. Qed.

(** The lines of a sub-list are shorter, so that the fuel of the model is enough. *)
Lemma tokenizeList_fuel : forall fuel lines p, longest lines < fuel -> ends (tokenizeList tokenizeContent fuel lines p).
Proof.
  induction fuel as [|fuel IH]; intros lines p L; [lia|]. cbn [tokenizeList]. apply ends_bind.
  - apply listItems_ends. intros c q text before after E Q. apply ends_bind; [|intros [[? ?] ?]; apply ends_ret]. apply IH.
    assert (In1 : forall x, In x ((c :: q :: text) :: after) -> length x <= longest lines).
    { intros x I. assert (I' : In x (map trim_space lines)).
      { destruct (take_while_prefix (fun line => belongsToListPrefix line p) (map trim_space lines)) as (r & R). rewrite R, E.
        apply in_app_iff; left; apply in_app_iff; right; auto. }
      apply in_map_iff in I' as (y & <- & I'). pose proof (trim_length y). pose proof (longest_In lines y I'). lia. }
    pose proof (In1 _ (or_introl eq_refl)) as L1. cbn [length] in L1.
    assert (L2 : longest (take_while (fun l => belongsToListPrefix l q) (map (@tl ascii) ((c :: q :: text) :: after))) <= longest lines - 1).
    { apply longest_le. intros x I. destruct (take_while_prefix (fun l => belongsToListPrefix l q) (map (@tl ascii) ((c :: q :: text) :: after))) as (r & R).
      pose proof (take_while_all (fun l => belongsToListPrefix l q) (map (@tl ascii) ((c :: q :: text) :: after))) as A. rewrite Forall_forall in A. specialize (A x I).
      assert (I' : In x (map (@tl ascii) ((c :: q :: text) :: after))) by (rewrite R; apply in_app_iff; auto).
      apply in_map_iff in I' as (y & <- & I'). specialize (In1 y I'). destruct y as [|y0 y]; [discriminate|]. cbn [tl length] in *. lia. }
    lia.
  - intros items t. discriminate.
Qed.

Lemma parseLists_ends : forall content, ends (parseLists tokenizeContent content).
Proof.
  intros content. unfold parseLists. apply ends_bind; [|intros; apply ends_ret]. generalize (split nl content) as lines. generalize 0 as skip. intros skip lines. revert skip.
  induction lines as [|line lines IH]; intros skip; [apply ends_ret|]. cbn [parseLists_go]. destruct skip; [|apply IH].
  destruct (trim_space line) as [|c text]; [apply ends_bind; [apply IH|intros; apply ends_ret]|]. destruct (isListStartingCharacter c).
  - apply ends_bind; [apply tokenizeList_fuel; lia|]. intros [[? ?] n]. apply ends_bind; [apply IH|intros; apply ends_ret].
  - apply ends_bind; [apply IH|intros; apply ends_ret].
Qed.
End Ends.
