(** * Proofs about the statistics *)

From Coq Require Import Ascii String.
From Coq Require Import List Arith NArith Bool Lia Permutation.
From Verif Require Import GoStr GoStrFacts TextFacts TokenModel TokenSpec TokenProofs PassSpec ExpandModel ExpandSpec ExpandProofs HtmlProofs HtmlSpec HtmlTotalProofs
  StatsModel StatsSpec.
Import ListNotations.
Local Open Scope list_scope.

(** ** Words *)

Lemma count_words_spec : forall letter rs b, count_words letter b rs =
  length (filter (fun i => match i with 0 => match rs with r :: _ => letter r && negb b | [] => false end | S _ => word_begins letter rs i end) (seq 0 (length rs))).
Proof.
  intros letter rs. induction rs as [|r rs IH]; intros b; auto. cbn [count_words length seq]. rewrite (filter_ext_in _ (fun i => match i with 0 => letter r && negb b | S j => match j with 0 => match rs with q :: _ => letter q && negb (letter r) | [] => false end | S _ => word_begins letter rs j end end)).
  2: { intros [|[|i]] I; auto. unfold word_begins. cbn [nth_error]. destruct rs; auto. }
  cbn [filter]. rewrite <- seq_shift.
  assert (E : forall l f, length (filter f (map S l)) = length (filter (fun i => f (S i)) l)).
  { induction l as [|x l IHl]; intros f; auto. cbn [map filter]. destruct (f (S x)); cbn [length]; rewrite IHl; auto. }
  destruct (letter r) eqn:L.
  - rewrite IH. destruct b; cbn [andb negb]; [|cbn [length]]; rewrite E; auto.
  - rewrite IH. cbn [andb]. rewrite E. auto.
Qed.

Lemma count_words_in : forall letter rs, count_words letter false rs = words_in letter rs.
Proof.
  intros letter rs. rewrite count_words_spec. unfold words_in. f_equal. apply filter_ext. intros [|i]; auto. unfold word_begins. destruct rs; auto.
Qed.

(** ** Maps *)

Lemma entry_add : forall name n m x, entry x (add_entry name n m) = entry x m + if str_eqb name x then n else 0.
Proof.
  intros name n m x. induction m as [|[k v] m IH].
  - unfold entry. cbn [add_entry filter fst]. destruct (str_eqb name x); cbn; lia.
  - cbn [add_entry]. unfold entry in *. destruct (str_eqb k name) eqn:E; cbn [filter fst].
    + apply str_eqb_eq in E. subst k. destruct (str_eqb name x); cbn [map snd list_sum fold_right]; unfold list_sum; cbn [fold_right]; lia.
    + destruct (str_eqb k x); cbn [map snd]; unfold list_sum in *; cbn [fold_right]; lia.
Qed.

Lemma add_entry_keys : forall name n m x, In x (map fst (add_entry name n m)) <-> x = name \/ In x (map fst m).
Proof.
  intros name n m x. induction m as [|[k v] m IH]; [cbn; intuition|]. cbn [add_entry]. destruct (str_eqb k name) eqn:E; cbn [map fst In].
  - apply str_eqb_eq in E. subst. intuition.
  - rewrite IH. intuition.
Qed.

Lemma add_entry_map : forall name n m, is_map m -> is_map (add_entry name n m).
Proof.
  intros name n m. induction m as [|[k v] m IH]; intros H; [repeat constructor; auto|]. unfold is_map in *. cbn [add_entry]. cbn [map fst] in H. inversion H as [|? ? N1 N2]; subst.
  destruct (str_eqb k name) eqn:E; cbn [map fst]; constructor; auto. intros I. apply add_entry_keys in I. apply str_eqb_neq in E. destruct I; auto.
Qed.

Lemma entry_in : forall m k v, is_map m -> In (k, v) m -> entry k m = v.
Proof.
  intros m k v. induction m as [|[k' v'] m IH]; intros N I; [destruct I|]. unfold is_map in N. cbn [map fst] in N. inversion N as [|? ? N1 N2]; subst. unfold entry in *. cbn [filter fst].
  destruct I as [I|I].
  - injection I as <- <-. rewrite str_eqb_refl. cbn [map snd]. unfold list_sum. cbn [fold_right].
    replace (filter (fun e => str_eqb (fst e) k') m) with (@nil (str * nat)); [cbn; lia|]. clear -N1. symmetry.
    induction m as [|[x y] m IH]; auto. cbn [filter fst]. destruct (str_eqb x k') eqn:E; [apply str_eqb_eq in E; subst; exfalso; apply N1; left; auto|]. apply IH. intros I. apply N1. right. auto.
  - destruct (str_eqb k' k) eqn:E; [apply str_eqb_eq in E; subst; exfalso; apply N1; apply in_map_iff; exists (k, v); auto|]. auto.
Qed.

Lemma entry_missing : forall m k, ~ In k (map fst m) -> entry k m = 0.
Proof.
  intros m k. unfold entry. induction m as [|[x y] m IH]; intros N; auto. cbn [filter fst]. destruct (str_eqb x k) eqn:E; [apply str_eqb_eq in E; subst; exfalso; apply N; left; auto|].
  apply IH. intros I. apply N. right. auto.
Qed.

(** ** The effect of the expansion *)

Section Effect.
Variable letter : N -> bool.

Record effect (st : articleStats) (es : list event) (st' : articleStats) : Prop := mkEffect {
  effect_name : ArticleName st' = ArticleName st;
  effect_count : forall c, count st' c = count st c + number letter c es;
  effect_links : forall name, entry name (InternalLinks st') = entry name (InternalLinks st) + links_to name es;
  effect_map : is_map (InternalLinks st) -> is_map (InternalLinks st') ;
  effect_keys : forall name, In name (map fst (InternalLinks st')) -> In name (map fst (InternalLinks st)) \/ 0 < links_to name es }.

Lemma number_app : forall c a b, number letter c (a ++ b) = number letter c a + number letter c b.
Proof.
  intros c a b. unfold number, seen_runs, seen_tokens. rewrite !flat_map_app. destruct c; rewrite ?map_app, ?list_sum_app, ?filter_app, ?app_length; auto.
Qed.
Lemma links_app : forall x a b, links_to x (a ++ b) = links_to x a + links_to x b.
Proof. intros x a b. unfold links_to, seen_tokens. rewrite flat_map_app, filter_app, app_length. auto. Qed.

Lemma effect_nil : forall st, effect st [] st.
Proof. intros st. split; auto. intros c. destruct c; cbn; lia. Qed.

Lemma effect_app : forall st a st1 b st2, effect st a st1 -> effect st1 b st2 -> effect st (a ++ b) st2.
Proof.
  intros st a st1 b st2 [A1 A2 A3 A4 A5] [B1 B2 B3 B4 B5]. split; auto; [congruence| | |].
  - intros c. rewrite B2, A2, number_app. lia.
  - intros x. rewrite B3, A3, links_app. lia.
  - intros x I. rewrite links_app. apply B5 in I as [I|I]; [apply A5 in I as [I|I]|]; auto; right; lia.
Qed.

Lemma effect_run : forall st s x st', countString letter s st = Ok (x, st') -> effect st [Run s] st'.
Proof.
  intros st s x st' E. unfold countString, change, bindX, retX, bind in E. injection E as _ <-. split; auto.
  - intros c. unfold number, seen_runs, seen_tokens. cbn [flat_map app map list_sum fold_right filter length].
    destruct c; cbn -[runes words_in count_words]; rewrite ?count_words_in; lia.
Qed.

Lemma words_nil : words_in letter [] = 0.
Proof. reflexivity. Qed.

Lemma effect_segment : forall m st s x st', expandSegment (StatsGenerator letter m) s st = Ok (x, st') -> effect st [Run s] st'.
Proof.
  intros m st [|c s] x st' E.
  - cbn [expandSegment] in E. injection E as _ <-. split; auto. intros c. destruct c; cbn; lia.
  - eapply effect_run; eauto.
Qed.

(** The effect of counting a token *)
Lemma effect_add : forall c t st, (forall d, counted_by d t = if counter_eq_dec c d then true else false) -> (forall a b, t <> InternalLinkToken a b) -> c <> NumberOfCharacters -> c <> NumberOfWords ->
  effect st [Seen t] (add c 1 st).
Proof.
  intros c t st H N C1 C2. split; auto.
  - intros d. unfold number, seen_runs, seen_tokens. cbn [flat_map app map list_sum fold_right filter length]. cbn [add count]. rewrite H.
    destruct (counter_eq_dec c d) as [->|X]; destruct d; cbn [length]; try congruence; unfold list_sum; cbn [fold_right]; lia.
  - intros name. unfold links_to, seen_tokens. cbn [flat_map app filter add InternalLinks]. destruct t; cbn; try lia. destruct (N _ _ eq_refl).
Qed.

Lemma effect_link : forall a b st, effect st [Seen (InternalLinkToken a b)] (add_link a 1 (add NumberOfInternalLinks 1 st)).
Proof.
  intros a b st. split; auto.
  - intros d. unfold number, seen_runs, seen_tokens. cbn [flat_map app map list_sum fold_right filter length]. cbn [add_link add count].
    destruct d; cbn [counted_by length]; repeat (destruct (counter_eq_dec _ _) as [X|X]; try discriminate X; try (destruct X; reflexivity)); unfold list_sum; cbn [fold_right]; lia.
  - intros name. unfold links_to, seen_tokens. cbn [flat_map app filter add_link add InternalLinks]. rewrite entry_add. destruct (str_eqb a name); cbn [length]; lia.
  - intros H. cbn [add_link add InternalLinks]. apply add_entry_map; auto.
  - intros name I. cbn [add_link add InternalLinks] in I. apply add_entry_keys in I as [->|I]; auto. right. unfold links_to, seen_tokens. cbn [flat_map app filter]. rewrite str_eqb_refl. cbn. lia.
Qed.

Lemma effect_none : forall t st, (forall c, counted_by c t = false) -> effect st [Seen t] st.
Proof.
  intros t st H. split; auto.
  - intros d. unfold number, seen_runs, seen_tokens. cbn [flat_map app map filter length]. rewrite H. destruct d; cbn [length]; unfold list_sum; cbn [fold_right]; lia.
  - intros name. unfold links_to, seen_tokens. cbn [flat_map app filter]. destruct t; cbn; try lia. specialize (H NumberOfInternalLinks). discriminate.
Qed.

(** ** Tokens *)

Definition effect_of (f : X articleStats str) (es : list event) : Prop := forall st x st', f st = Ok (x, st') -> effect st es st'.

Lemma bind_ok : forall (A R T : Type) (f : X A R) (k : R -> X A T) a r b, bindX f k a = Ok (r, b) -> exists x c, f a = Ok (x, c) /\ k x c = Ok (r, b).
Proof. intros A R T f k a r b H. unfold bindX in H. destruct (f a) as [[x c]| | |]; cbn in H; try discriminate. eauto. Qed.

Lemma effect_mapX : forall (A : Type) (f : A -> X articleStats str) l ess, Forall2 (fun a es => effect_of (f a) es) l ess ->
  forall st r st', mapX f l st = Ok (r, st') -> effect st (concat ess) st'.
Proof.
  intros A f l ess F. induction F as [|a es l ess E F IH]; intros st r st' H.
  - injection H as _ <-. apply effect_nil.
  - cbn [mapX] in H. apply bind_ok in H as (y & st1 & H1 & H). apply bind_ok in H as (ys & st2 & H2 & H). injection H as _ <-.
    cbn [concat]. eapply effect_app; [eapply E; eauto|eapply IH; eauto].
Qed.

Lemma F2_split : forall (A B : Type) (P : A -> B -> Prop) l1 l2 r, Forall2 P (l1 ++ l2) r -> exists r1 r2, r = r1 ++ r2 /\ Forall2 P l1 r1 /\ Forall2 P l2 r2.
Proof. intros A B P l1 l2 r H. apply Forall2_app_inv_l in H as (r1 & r2 & H1 & H2 & ->). eauto. Qed.

Lemma effect_rows : forall expand rows ess, Forall2 (fun s es => effect_of (expand s) es) (flat_map (map ColContent) rows) ess ->
  forall st r st', mapX (fun row => let* columns := mapX (fun column => expand (ColContent column)) row in retX (concat columns)) rows st = Ok (r, st') -> effect st (concat ess) st'.
Proof.
  intros expand rows. induction rows as [|row rows IH]; intros ess F st r st' H.
  - inversion F; subst. injection H as _ <-. apply effect_nil.
  - cbn [flat_map] in F. apply F2_split in F as (e1 & e2 & -> & F1 & F2). cbn [mapX] in H. apply bind_ok in H as (y & st1 & H1 & H). apply bind_ok in H as (ys & st2 & H2 & H). injection H as _ <-.
    rewrite concat_app. apply bind_ok in H1 as (cs & st3 & H1 & H3). injection H3 as _ <-. eapply effect_app; [|eapply IH; eauto].
    eapply (effect_mapX _ (fun column => expand (ColContent column)) row); eauto. clear -F1. revert e1 F1. induction row as [|c row IH]; intros e1 F; inversion F; subst; constructor; auto.
Qed.

Lemma effect_token : forall expand t ess, Forall2 (fun s es => effect_of (expand s) es) (counted_texts t) ess ->
  effect_of (statsToken expand t) (Seen t :: concat ess).
Proof.
  intros expand t ess F st x st' H. change (Seen t :: concat ess) with ([Seen t] ++ concat ess).
  assert (One : forall c s, counted_texts t = [s] -> (let* _ := change (add c 1) in expand s) st = Ok (x, st') -> (forall d, counted_by d t = if counter_eq_dec c d then true else false) ->
    (forall a b, t <> InternalLinkToken a b) -> c <> NumberOfCharacters -> c <> NumberOfWords -> effect st ([Seen t] ++ concat ess) st').
  { intros c s Ec E D N C1 C2. rewrite Ec in F. inversion F as [|? es ? ? E1 F']; subst. inversion F'; subst. cbn [concat]. rewrite app_nil_r.
    apply bind_ok in E as (u & st1 & E2 & E). injection E2 as _ <-. eapply effect_app; [apply effect_add; eauto|eapply E1; eauto]. }
  assert (Zero : forall c, counted_texts t = [] -> (let* _ := change (add c 1) in retX []) st = Ok (x, st') -> (forall d, counted_by d t = if counter_eq_dec c d then true else false) ->
    (forall a b, t <> InternalLinkToken a b) -> c <> NumberOfCharacters -> c <> NumberOfWords -> effect st ([Seen t] ++ concat ess) st').
  { intros c Ec E D N C1 C2. rewrite Ec in F. inversion F; subst. cbn [concat].
    apply bind_ok in E as (u & st1 & E2 & E). injection E2 as _ <-. injection E as _ <-. apply effect_add; auto. }
  destruct t; cbn [statsToken] in H.
  - cbn in F. inversion F as [|? es ? ? E1 F']; subst. inversion F'; subst. cbn [concat]. rewrite app_nil_r. eapply effect_app; [apply effect_none; intros []; auto|eapply E1; eauto].
  - cbn in F. inversion F as [|? es ? ? E1 F']; subst. inversion F'; subst. cbn [concat]. rewrite app_nil_r.
    apply bind_ok in H as (u & st1 & E2 & E). apply bind_ok in E as (u' & st2 & E3 & E). injection E2 as _ <-. injection E3 as _ <-.
    eapply effect_app; [apply effect_link|eapply E1; eauto].
  - eapply One; [reflexivity|exact H|intros []; reflexivity|discriminate..].
  - cbn in F. inversion F; subst. injection H as _ <-. apply effect_none. intros []; auto.
  - eapply One; [reflexivity|exact H|intros []; reflexivity|discriminate..].
  - eapply Zero; [reflexivity|exact H|intros []; reflexivity|discriminate..].
  - eapply One; [reflexivity|exact H|intros []; reflexivity|discriminate..].
  - eapply Zero; [reflexivity|exact H|intros []; reflexivity|discriminate..].
  - eapply Zero; [reflexivity|exact H|intros []; reflexivity|discriminate..].
  - cbn in F. inversion F; subst. injection H as _ <-. apply effect_none. intros []; auto.
  - destruct l as [kind items]. apply bind_ok in H as (y & st1 & H1 & H). injection H as _ <-.
    apply effect_app with (st1 := st); [apply effect_none; intros []; auto|]. cbn [counted_texts] in F.
    eapply effect_mapX; [|exact H1]. clear -F. revert ess F. induction items as [|[ty c sl] items IH]; intros ess F; inversion F; subst; constructor; auto.
  - apply bind_ok in H as (y & st1 & H1 & H). apply bind_ok in H as (z & st2 & H2 & H). injection H as _ <-.
    apply effect_app with (st1 := st); [apply effect_none; intros []; auto|]. cbn [counted_texts ordered_texts] in F.
    apply F2_split in F as (e1 & e2 & -> & F1 & F2). inversion F2 as [|? es ? ? E1 F']; subst. inversion F'; subst. rewrite concat_app. cbn [concat]. rewrite app_nil_r.
    eapply effect_app; [eapply effect_rows; eauto|eapply E1; eauto].
Qed.

(** ** Texts *)

Definition stats_pairs : list (str * str) :=
  [(!"MARKER_BOLD_OPEN", []); (!"MARKER_BOLD_CLOSE", []); (!"MARKER_ITALIC_OPEN", []); (!"MARKER_ITALIC_CLOSE", []); (!"MARKER_PARAGRAPH", [])].

Lemma stats_marker_eq : forall c, statsMarker c = replace_markers stats_pairs c.
Proof. reflexivity. Qed.

Lemma stats_pairs_ok : pairs_ok stats_pairs.
Proof.
  repeat (apply Forall_cons; [split; [apply marker_name; cbn [fst In]; tauto|split; [intros []|left; intros []]]|]). apply Forall_nil.
Qed.

Lemma stats_names : map (fun p => mark_of (fst p)) stats_pairs = all_markers.
Proof. reflexivity. Qed.

Fixpoint joined (ms : list str) (s : str) (l : list (str * str)) : layout :=
  match l with
  | [] => (s, [])
  | (k, u) :: l' => if mem_str k ms then joined ms (s ++ u) l' else let d := joined ms u l' in (s, (k, fst d) :: snd d)
  end.

Lemma joined_cons : forall n ms l s, joined (mark_of n :: ms) s l = let d := merge n [] s l in joined ms (fst d) (snd d).
Proof.
  intros n ms l. induction l as [|[k u] l IH]; intros s; [reflexivity|]. cbn [joined merge mem_str existsb]. destruct (str_eqb k (mark_of n)) eqn:E.
  - cbn [orb]. rewrite IH. reflexivity.
  - cbn [orb fst snd joined]. fold (mem_str k ms). destruct (mem_str k ms); rewrite IH; [rewrite merge_app; reflexivity|reflexivity].
Qed.

Lemma joined_nil : forall l s, joined [] s l = (s, l).
Proof. induction l as [|[k u] l IH]; intros s; auto. cbn [joined mem_str existsb]. rewrite IH. auto. Qed.

Lemma joined_pairs : forall ns s l, merge_markers (map (fun n => (n, [])) ns) (s, l) = joined (map mark_of ns) s l.
Proof.
  induction ns as [|n ns IH]; intros s l; cbn [map].
  - rewrite joined_nil. reflexivity.
  - rewrite joined_cons. change (merge_markers ((n, []) :: map (fun n => (n, [])) ns) (s, l)) with (merge_markers (map (fun n => (n, [])) ns) (merge n [] s l)).
    destruct (merge n [] s l) as [s' l']. apply IH.
Qed.

Lemma joined_stats : forall s l, merge_markers stats_pairs (s, l) = joined all_markers s l.
Proof. intros s l. exact (joined_pairs [!"MARKER_BOLD_OPEN"; !"MARKER_BOLD_CLOSE"; !"MARKER_ITALIC_OPEN"; !"MARKER_ITALIC_CLOSE"; !"MARKER_PARAGRAPH"] s l). Qed.

Variable m : list (str * Token).
Let g := StatsGenerator letter m.

(** The expansion of a text: the simple case and the segments *)
Lemma stats_expand : forall fuel d, layout_ok d -> let d' := joined all_markers (fst d) (snd d) in
  (forall k, In k (map fst (snd d')) -> is_key k) /\
  forall st, expandString g (S fuel) (layout_text d) st =
    match snd d' with [] => countString letter (fst d') st | _ => segments g (expandToken g fuel) (fst d') (snd d') st end.
Proof.
  intros fuel [s l] O. cbn [fst snd]. rewrite <- joined_stats. destruct (markers_replaced stats_pairs (s, l) _ stats_pairs_ok key_atom O) as [E K].
  assert (K' : forall k, In k (map fst (snd (merge_markers stats_pairs (s, l)))) -> is_key k).
  { intros k I. destruct K as [_ K]. rewrite Forall_forall in K. apply in_map_iff in I as (p & <- & I). apply K in I as [[[X|X] Y] _]; auto. exfalso. apply Y. exact X. }
  split; auto. intros st. destruct (atom_no_dollar _ _ (fun k H => key_atom k (proj1 H)) K) as [D1 D2].
  cbn [expandString]. change (expandMarker g) with statsMarker. rewrite stats_marker_eq, E. destruct (merge_markers stats_pairs (s, l)) as [s' l']. cbn [fst snd] in *. destruct l' as [|[k u] l'].
  - rewrite layout_eq. unfold body. cbn [map concat]. rewrite app_nil_r. rewrite has_token_none by auto. reflexivity.
  - rewrite layout_eq, body_cons, has_token_key; [|apply K'; left; auto]. rewrite <- body_cons. unfold expandToken. rewrite (go_segments g _ ((k, u) :: l') s' [] st) by auto. reflexivity.
Qed.

Scheme text_events_mind := Minimality for text_events Sort Prop
  with layout_events_mind := Minimality for layout_events Sort Prop
  with texts_events_mind := Minimality for texts_events Sort Prop.
Combined Scheme events_mind from text_events_mind, layout_events_mind, texts_events_mind.

Definition text_effect (s : str) (es : list event) : Prop := forall fuel, effect_of (expandString g fuel s) es.

Lemma mem_marker : forall k, mem_str k all_markers = true <-> In k all_markers.
Proof.
  intros k. unfold mem_str. rewrite existsb_exists. split.
  - intros (x & I & E). apply str_eqb_eq in E. subst. auto.
  - intros I. exists k. split; auto. apply str_eqb_refl.
Qed.

Lemma events_effect : (forall s es, text_events counted_texts m s es -> text_effect s es) /\
  (forall s l es, layout_events counted_texts m s l es -> forall fuel, effect_of (segments g (expandToken g fuel) (fst (joined all_markers s l)) (snd (joined all_markers s l))) es) /\
  (forall ss es, texts_events counted_texts m ss es -> exists ess, es = concat ess /\ Forall2 text_effect ss ess).
Proof.
  apply (events_mind counted_texts m text_effect (fun s l es => forall fuel, effect_of (segments g (expandToken g fuel) (fst (joined all_markers s l)) (snd (joined all_markers s l))) es)
    (fun ss es => exists ess, es = concat ess /\ Forall2 text_effect ss ess)).
  - intros d es O L IH fuel st x st' H. destruct fuel as [|fuel]; [discriminate|]. destruct (stats_expand fuel d O) as [_ E]. rewrite E in H. clear E.
    specialize (IH fuel). destruct (joined all_markers (fst d) (snd d)) as [s' l'] eqn:J. cbn [fst snd] in *. destruct l' as [|p l']; [|eapply IH; eauto].
    cbn [segments] in IH. apply effect_run in H. assert (es = [Run s']) as ->; auto. clear -L J. revert J. generalize dependent (fst d). generalize dependent (snd d). intros l s L. induction L; intros J; auto.
    + injection J as ->. reflexivity.
    + apply IHL. cbn [joined] in J. rewrite (proj2 (mem_marker k)) in J; auto.
    + cbn [joined] in J. destruct (mem_str k all_markers) eqn:X; [|discriminate]. apply mem_marker in X. exfalso. eapply marker_not_key; eauto.
  - intros s fuel st x st' H. cbn [joined fst snd segments] in H. eapply effect_segment; eauto.
  - intros s k u l es I L IH fuel. cbn [joined]. rewrite (proj2 (mem_marker k)) by auto. apply IH.
  - intros s k u l v inner es K Lk T (ess & -> & F) L IH fuel st x st' H. cbn [joined] in H. replace (mem_str k all_markers) with false in H.
    2: { symmetry. apply not_true_iff_false. intros X. apply mem_marker in X. eapply marker_not_key; eauto. }
    cbn [fst snd segments] in H. apply bind_ok in H as (b & st1 & H1 & H). change (handlerTokens g) with m in H. rewrite Lk in H.
    apply bind_ok in H as (y & st2 & H2 & H). apply bind_ok in H as (z & st3 & H3 & H). injection H as _ <-.
    change (Run s :: Seen v :: concat ess ++ es) with ([Run s] ++ (Seen v :: concat ess) ++ es).
    eapply effect_app; [eapply effect_segment; eauto|]. eapply effect_app; [|eapply IH; eauto].
    unfold expandToken in H2. eapply (effect_token (expandString g fuel) v ess); eauto. clear -F. induction F as [|a e ss ess X F IH]; constructor; auto.
  - exists []. split; auto.
  - intros s ss es es' _ E _ (ess & -> & F). exists (es :: ess). split; auto.
Qed.
End Effect.
