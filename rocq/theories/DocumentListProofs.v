(** * Parsing a document: lists *)

From Coq Require Import Ascii String.
From Coq Require Import List Arith Bool Lia.
From Verif Require Import GoStr GoStrFacts TextFacts TrimFacts UtilModel BracketModel ConfigModel TokenModel TokenSpec TokenProofs PassSpec MarkupSpec SafeSpec.
From Verif Require Import FormattingModel FormattingSpec FormattingProofs HeadingModel LinkModel ImageModel ReferenceModel ListModel TableModel ParagraphModel ParagraphSpec ParagraphProofs TokenizerModel JudgeProofs HeadingProofs LinkProofs NowikiProofs SafeTextProofs SafeProofs ShapeProofs.
From Verif Require Import MathQuietProofs PropPasses DocumentSpec DocumentSettledProofs DocumentLineProofs DocumentRunProofs DocumentBlockProofs.
Import ListNotations.
Local Open Scope list_scope.

Fixpoint item_token (i : item) : ListItemToken :=
  match i with Item m x below => mkListItemToken (getListItemTypeForList (sign m)) (!" " ++ line_wikitext x)
    (map (fun l => AnyListToken (match l with j :: _ => kind_of_list (sign (mark_of j)) | [] => Unordered end) (map item_token l)) below) end.
Definition list_token (l : list item) : ListToken :=
  AnyListToken (match l with j :: _ => kind_of_list (sign (mark_of j)) | [] => Unordered end) (map item_token l).

Definition texts_of (l : list item) : list str := concat (map (item_lines []) l).

Lemma above_lines : forall i above, item_lines above i = map (app above) (item_lines [] i).
Proof.
  refine (item_rect' _ _). intros m x below IH above. cbn [item_lines map app]. f_equal. rewrite map_concat, map_map. f_equal. apply map_ext_in. intros l L. rewrite map_concat, map_map. f_equal. apply map_ext_in. intros j J.
  rewrite Forall_forall in IH. specialize (IH l L). rewrite Forall_forall in IH. rewrite (IH j J (above ++ [sign m])), (IH j J [sign m]), map_map. apply map_ext. intros s. rewrite <- app_assoc. auto.
Qed.

Lemma item_lines_below : forall m x below, item_lines [] (Item m x below) = (sign m :: " "%char :: line_wikitext x) :: map (cons (sign m)) (concat (map texts_of below)).
Proof.
  intros m x below. cbn [item_lines app]. f_equal. rewrite map_concat, map_map. f_equal. apply map_ext. intros l. unfold texts_of. rewrite map_concat, map_map. f_equal. apply map_ext. intros j. apply above_lines.
Qed.

Lemma item_lines_first : forall i, Forall (fun line => exists y, line = sign (mark_of i) :: y) (item_lines [] i).
Proof.
  intros [m x below]. rewrite item_lines_below. constructor; [cbn; eauto|]. apply Forall_map. apply Forall_forall. intros y _. cbn. eauto.
Qed.

Lemma belongs_prefix : forall m m' y, belongs m m' -> belongsToListPrefix (sign m' :: y) (sign m) = true.
Proof. intros m m' y [->|[-> ->]]; [destruct m|]; reflexivity. Qed.
Lemma other_prefix : forall m m' y, ~ belongs m m' -> belongsToListPrefix (sign m' :: y) (sign m) = false.
Proof. intros m m' y N. destruct m, m'; try reflexivity; exfalso; apply N; (left; reflexivity) || (right; auto). Qed.
Lemma space_prefix : forall m y, belongsToListPrefix (" "%char :: y) (sign m) = false.
Proof. intros [] y; reflexivity. Qed.

Lemma take_all : forall f l rest, Forall (fun x => f x = true) l -> (rest = [] \/ exists x r, rest = x :: r /\ f x = false) -> take_while f (l ++ rest) = l.
Proof.
  intros f l rest F R. induction F as [|x l X F IH]; cbn [app take_while].
  - destruct R as [->|(x & r & -> & X)]; auto. cbn [take_while]. rewrite X. auto.
  - rewrite X, IH. auto.
Qed.

Lemma list_belongs : forall Q i items, list_good Q (i :: items) -> Forall (fun x => belongsToListPrefix x (sign (mark_of i)) = true) (texts_of (i :: items)).
Proof.
  intros Q i items G. inversion G as [? ? G1 G2]; subst. unfold texts_of. apply Forall_concat. apply Forall_map.
  assert (H : Forall (fun j => belongs (mark_of i) (mark_of j)) (i :: items)) by (constructor; auto; left; auto). eapply Forall_impl; [|exact H]. intros j J.
  eapply Forall_impl; [|apply item_lines_first]. intros line (y & ->). apply belongs_prefix. auto.
Qed.

(** A sign and a space before a text *)
Lemma framed_trim : forall c p s, solid c = true -> s <> [] -> trim_space s = s -> trim_space ((c :: p) ++ !" " ++ s) = (c :: p) ++ !" " ++ s.
Proof.
  intros c p s S N T. apply trimmed_iff in T as [A B]. apply trimmed_iff. split.
  - intros r I. apply solid_first; auto.
  - intros r I. destruct (has_suffix r ((c :: p) ++ !" " ++ s)) eqn:E; auto. exfalso. apply has_suffix_spec in E as (x & E). rewrite app_assoc in E. apply app_eq_app in E as (m & [[E1 E2]|[-> E2]]).
    + subst r. destruct s as [|d s]; [contradiction|]. destruct m as [|e m] using rev_ind.
      * specialize (B (d :: s) I). assert (Z : has_suffix (d :: s) (d :: s) = true) by (apply has_suffix_spec; exists []; auto). congruence.
      * rewrite app_assoc in E1. apply app_inj_tail in E1 as [_ E1]. subst e. specialize (space_alone _ I). rewrite !in_app_iff. intros Z. specialize (Z ltac:(left; right; left; auto)). apply (f_equal (@length ascii)) in Z. rewrite !app_length in Z. cbn [length] in Z. lia.
    + specialize (B r I). rewrite E2 in B. assert (Z : has_suffix r (m ++ r) = true) by (apply has_suffix_spec; eauto). congruence.
Qed.

Section Doc.
Context {cfg : configuration}.

Lemma item_trim : forall l, list_good item_plain l -> Forall (fun s => trim_space s = s) (texts_of l).
Proof.
  intros l G. assert (H : Forall (fun r => trim_space (line_wikitext r) = line_wikitext r) (concat (map (item_rows []) l))).
  { eapply list_rows; [|exact G]. intros above m x A [[X _] _]. rewrite line_cons. cbn [inline_wikitext]. rewrite <- !app_assoc.
    destruct A as [|c above C A].
    - cbn [app]. apply (framed_trim (sign m) []); [apply signs_solid; apply sign_In|apply fine_text; auto|apply X].
    - rewrite app_assoc. change ((c :: above) ++ [sign m]) with (c :: above ++ [sign m]). apply framed_trim; [apply signs_solid; auto|apply fine_text; auto|apply X]. }
  unfold texts_of. replace (concat (map (item_lines []) l)) with (map line_wikitext (concat (map (item_rows []) l))); [apply Forall_map; exact H|].
  rewrite map_concat, map_map. f_equal. apply map_ext. intros i. apply item_rows_text.
Qed.

Lemma only_words_not : forall l c, Forall only_words l -> In c !"[<{" -> ~ In c (line_wikitext l).
Proof. intros l c W I. apply words_text; auto. cbn in I |- *. intuition. Qed.

Lemma item_settled : forall l, plain_text l -> settled (!" " ++ line_wikitext l).
Proof.
  intros l [[A St N S T E] W]. apply settled_single.
  - intros c I J. apply in_app_iff in J as [[<-|[]]|J]; [cbn in I; intuition discriminate|]. revert J. apply only_words_not; auto.
  - apply plain_app; [marks|apply words_text; auto].
  - intros J. apply in_app_iff in J as [[J|[]]|J]; [discriminate|auto].
  - intros c x X. apply (S c x). rewrite <- X. unfold trim_space. rewrite trim_left_blank; auto. apply space_blank.
Qed.

Lemma split2_absent : forall c s, ~ In c s -> split2 [c] s = [s].
Proof. intros c s N. unfold split2. rewrite (proj2 (index_none _ _)); auto. intros a b ->. apply N. apply in_app_iff. right. left. auto. Qed.

Section Run.
Variable fuel : nat.
Let rec := tokenizeContent cfg fuel.
Let sub (n : nat) (lines : list str) (prefix : ascii) : M ListToken := do! (token, _, _) := tokenizeList rec n lines prefix in ret token.

Lemma line_items : forall m x t, item_plain m x -> ok false t ->
  judge true t (lineItems rec (sign m) (" "%char :: line_wikitext x)) (fun _ r => r = [mkListItemToken (getListItemTypeForList (sign m)) (!" " ++ line_wikitext x) []]).
Proof.
  intros m x t [X C] O. change (" "%char :: line_wikitext x) with (!" " ++ line_wikitext x). pose proof (settled_judge true cfg fuel (!" " ++ line_wikitext x) t (item_settled _ X) O) as J.
  unfold lineItems. destruct m; cbn [sign]; cbn [Ascii.eqb Bool.eqb]; try rewrite split2_absent by (intros I; apply in_app_iff in I as [[I|[]]|I]; [discriminate|apply C; auto]);
    (eapply judge_bind; [exact J|]; cbn beta; intros r t' O' G ->; apply judge_ret; auto).
Qed.

Definition next_ok (rest : list str) : Prop := rest = [] \/ exists c x r, rest = (c :: " "%char :: x) :: r.

Definition item_parsed (i : item) : Prop := item_good item_plain i -> forall p n rest acc t Q, next_ok rest -> ok false t ->
  (forall t', ok false t' -> grows t t' -> judge true t' (listItems rec (sub n) p rest 0 (acc ++ [item_token i])) Q) ->
  judge true t (listItems rec (sub n) p (item_lines [] i ++ rest) 0 acc) Q.

Lemma next_items : forall l rest, next_ok rest -> next_ok (texts_of l ++ rest).
Proof.
  intros [|[m x below] l] rest R; auto. right. unfold texts_of. cbn [map concat]. rewrite item_lines_below. cbn [app]. eauto.
Qed.

Lemma items_parsed : forall l, Forall item_parsed l -> Forall (item_good item_plain) l -> forall p n acc t Q, ok false t ->
  (forall t', ok false t' -> grows t t' -> judge true t' (ret (acc ++ map item_token l)) Q) ->
  judge true t (listItems rec (sub n) p (texts_of l) 0 acc) Q.
Proof.
  intros l P. induction P as [|i l Pi P IH]; intros G p n acc t Q O K.
  - cbn [texts_of map concat listItems]. rewrite <- (app_nil_r acc). apply K; auto. apply grows_refl.
  - inversion G as [|? ? G1 G2]; subst. unfold texts_of. cbn [map concat]. fold (texts_of l). apply Pi; auto; [rewrite <- (app_nil_r (texts_of l)); apply next_items; left; auto|].
    intros t' O' Gr. apply IH; auto. intros t2 O2 Gr2. rewrite <- app_assoc. apply K; auto. eapply grows_trans; eauto.
Qed.

Lemma keys_type : forall c, type_ok (getListTokenKey c).
Proof. intros c. unfold getListTokenKey. destruct (Ascii.eqb c "*"); [|destruct (Ascii.eqb c "#")]; (split; [discriminate|repeat constructor]). Qed.

(** The lines of a list, before other lines *)
Lemma list_parsed : forall i items, Forall item_parsed (i :: items) -> list_good item_plain (i :: items) -> forall n rest t, ok false t ->
  (rest = [] \/ exists x r, rest = x :: r /\ belongsToListPrefix (trim_space x) (sign (mark_of i)) = false) ->
  judge true t (tokenizeList rec n (texts_of (i :: items) ++ rest) (sign (mark_of i)))
    (fun t' r => let '(token, key, k) := r in token = list_token (i :: items) /\ In (key, ListTokenOf (list_token (i :: items))) (tokenMap t') /\ k = length (texts_of (i :: items))).
Proof.
  intros i items P G [|n] rest t O R; cbn [tokenizeList]; [apply judge_fuel|].
  assert (T : map trim_space (texts_of (i :: items) ++ rest) = texts_of (i :: items) ++ map trim_space rest).
  { rewrite map_app. f_equal. pose proof (item_trim _ G) as X. induction X as [|s l X F IH]; auto. cbn [map]. rewrite X, IH. auto. }
  rewrite T, (take_all _ (texts_of (i :: items))); [|eapply list_belongs; eauto|destruct R as [->|(x & r & -> & R)]; [left; auto|right; exists (trim_space x), (map trim_space r); auto]].
  inversion G as [? ? G1 _]; subst. eapply judge_bind with (Q := fun _ r => r = map item_token (i :: items)); [apply (items_parsed (i :: items) P G1 _ n []); auto; intros; apply judge_ret; auto|].
  cbn beta. intros r t' O' Gr ->. cbn zeta.
  eapply (judge_token_in _ true t' (getListTokenKey (sign (mark_of i))) (ListTokenOf (list_token (i :: items))) (fun k => ret (list_token (i :: items), k, length (texts_of (i :: items))))); auto.
  - apply keys_type.
  - intros t2 k O2 G2 I. apply judge_ret; auto.
Qed.

Lemma skip_items : forall s p l rest acc, listItems rec s p (l ++ rest) (length l) acc = listItems rec s p rest 0 acc.
Proof. intros s p. induction l as [|x l IH]; intros rest acc; cbn [app length listItems]; auto. Qed.

Lemma add_last : forall p acc ty c done token, addSubList p (acc ++ [mkListItemToken ty c done]) token = acc ++ [mkListItemToken ty c (done ++ [token])].
Proof. intros. unfold addSubList. rewrite rev_app_distr. cbn [rev app]. rewrite rev_involutive. auto. Qed.

(** The lists below an item *)
Lemma below_parsed : forall m ty c below, Forall (Forall item_parsed) below -> Forall (list_good item_plain) below -> lists_apart below ->
  forall p n rest acc done t Q, next_ok rest -> ok false t ->
  (forall t', ok false t' -> grows t t' -> judge true t' (listItems rec (sub n) p rest 0 (acc ++ [mkListItemToken ty c (done ++ map list_token below)])) Q) ->
  judge true t (listItems rec (sub n) p (map (cons (sign m)) (concat (map texts_of below)) ++ rest) 0 (acc ++ [mkListItemToken ty c done])) Q.
Proof.
  intros m ty c below P. induction P as [|l below Pl P IH]; intros G A p n rest acc done t Q R O K.
  - cbn [map concat app]. rewrite <- (app_nil_r done) at 1. apply K; auto. apply grows_refl.
  - inversion G as [|? ? G1 G2]; subst. inversion G1 as [i items G3 G4]; subst.
    assert (A' : lists_apart below) by (destruct i as [mi xi bi]; destruct below as [|[|[mj xj bj] l2] below]; [exact I|exact I|apply A]).
    cbn [map concat]. rewrite map_app, <- app_assoc. set (others := map (cons (sign m)) (concat (map texts_of below)) ++ rest).
    assert (E : exists (y : str) (more : list str), texts_of (i :: items) = (sign (mark_of i) :: y) :: more).
    { destruct i as [mi xi bi]. unfold texts_of. cbn [map concat]. rewrite item_lines_below. cbn [app mark_of]. eauto. }
    destruct E as (y & more & E). rewrite E. cbn [map app listItems].
    replace (isListStartingCharacter (sign (mark_of i))) with true by (destruct (mark_of i); reflexivity). cbn iota.
    assert (T : take_while (fun l => belongsToListPrefix l (sign (mark_of i))) (map (@tl ascii) ((sign m :: sign (mark_of i) :: y) :: map (cons (sign m)) more ++ others)) = texts_of (i :: items)).
    { change ((sign m :: sign (mark_of i) :: y) :: map (cons (sign m)) more ++ others) with (map (cons (sign m)) ((sign (mark_of i) :: y) :: more) ++ others). rewrite <- E, map_app, map_map. cbn [tl]. rewrite map_id.
      apply take_all; [eapply list_belongs; eauto|]. unfold others. rewrite map_app, map_map. cbn [tl]. rewrite map_id. destruct below as [|l2 below].
      - cbn [map concat app]. destruct R as [->|(d & x & r & ->)]; [left; auto|]. right. cbn [map tl]. eexists _, _. split; [reflexivity|]. apply space_prefix.
      - right. inversion G2 as [|? ? G5 _]; subst. inversion G5 as [[mj xj bj] items2 G6 _]; subst. destruct i as [mi xi bi]. destruct A as [A _]. cbn [map concat]. unfold texts_of. cbn [map concat]. rewrite item_lines_below. cbn [app].
        eexists _, _. split; [reflexivity|]. apply other_prefix. exact A. }
    match goal with |- context [take_while ?f ?x] => replace (take_while f x) with (texts_of (i :: items)) by (symmetry; exact T) end. unfold sub at 1. eapply judge_bind with (Q := fun _ r => r = list_token (i :: items)).
    + eapply judge_bind; [rewrite <- (app_nil_r (texts_of (i :: items))); apply list_parsed; auto|]. cbn beta. intros [[token key] k] t' O' Gr (-> & _ & _). apply judge_ret; auto.
    + cbn beta. intros r t' O' Gr ->. rewrite E. cbn [length Nat.pred]. replace (length more) with (length (map (cons (sign m)) more)) by apply map_length. rewrite skip_items, add_last.
      apply IH; auto. intros t2 O2 Gr2. rewrite <- app_assoc. apply K; auto. eapply grows_trans; eauto.
Qed.

Lemma all_parsed : forall i, item_parsed i.
Proof.
  refine (item_rect' _ _). intros m x below IH G p n rest acc t Q R O K. inversion G as [? ? ? G1 G2 G3]; subst. rewrite item_lines_below. cbn [app listItems]. change (isListStartingCharacter " ") with false. cbn iota.
  eapply judge_bind; [apply line_items; auto|]. cbn beta. intros r t' O' Gr ->. apply below_parsed; auto. intros t2 O2 Gr2. cbn [app]. apply K; auto. eapply grows_trans; eauto.
Qed.

Lemma skip_lines : forall (l rest : list str), parseLists_go rec (l ++ rest) (length l) = parseLists_go rec rest 0.
Proof. induction l as [|x l IH]; intros rest; cbn [app length parseLists_go]; auto. Qed.

(** A list *)
Lemma items_pass : forall items rest t Q, list_good item_plain items -> (rest = [] \/ exists x r, rest = x :: r /\ no_block_start x) -> ok false t ->
  (forall key t', ok false t' -> grows t t' -> In (key, ListTokenOf (list_token items)) (tokenMap t') -> judge true t' (do! r := parseLists_go rec rest 0 in ret (key :: r)) Q) ->
  judge true t (parseLists_go rec (texts_of items ++ rest) 0) Q.
Proof.
  intros items rest t Q G R O H. pose proof G as G0. inversion G as [i items' G1 G2]; subst. pose proof (item_trim _ G) as T.
  assert (E : exists (y : str) (more : list str), texts_of (i :: items') = (sign (mark_of i) :: y) :: more).
  { destruct i as [mi xi bi]. unfold texts_of. cbn [map concat]. rewrite item_lines_below. cbn [app mark_of]. eauto. }
  destruct E as (y & more & E). rewrite E in T. inversion T as [|? ? T1 T2]; subst. rewrite E at 1. cbn [app parseLists_go]. rewrite T1.
  replace (isListStartingCharacter (sign (mark_of i))) with true by (destruct (mark_of i); reflexivity). cbn iota.
  change ((sign (mark_of i) :: y) :: more ++ rest) with (((sign (mark_of i) :: y) :: more) ++ rest). rewrite <- E.
  eapply judge_bind; [apply list_parsed; auto|].
  - apply Forall_forall. intros j _. apply all_parsed.
  - destruct R as [->|(x & r & -> & N)]; [left; auto|]. right. exists x, r. split; auto. destruct (trim_space x) as [|c z] eqn:Ex; auto.
    assert (Nc : ~ In c !"=*#;:") by (intros J; exact (N c z Ex J)). unfold belongsToListPrefix. clear - Nc. destruct (mark_of i); cbn [sign]; cbn in Nc |- *;
      repeat match goal with |- context[Ascii.eqb c ?d] => destruct (Ascii.eqb_spec c d); [subst; exfalso; apply Nc; tauto|] | |- context[Ascii.eqb ?d c] => destruct (Ascii.eqb_spec d c); [subst; exfalso; apply Nc; tauto|] end; auto.
  - cbn beta. intros [[token key] k] t' O' Gr (-> & I & ->). rewrite E. cbn [length Nat.pred]. rewrite skip_lines. apply H; auto.
Qed.

Lemma key_no_start : forall k, atom k -> no_block_start k.
Proof.
  intros k A c x E I. destruct (trim_space_spec k) as (l & r & H & _). rewrite E in H. apply atom_chars in A. rewrite Forall_forall in A.
  assert (J : key_char c = true) by (apply A; rewrite H; apply in_app_iff; right; left; auto). rewrite key_char_not in J; [discriminate|]. cbn in I |- *. intuition.
Qed.

(** Lines that begin no list *)
Lemma lists_line : forall line rest t Q, no_block_start line -> judge true t (do! r := parseLists_go rec rest 0 in ret (line :: r)) Q -> judge true t (parseLists_go rec (line :: rest) 0) Q.
Proof.
  intros line rest t Q N H. cbn [parseLists_go]. destruct (trim_space line) as [|c x] eqn:E; auto. rewrite (start_list _ _ _ N E). auto.
Qed.

Lemma lists_lines : forall lines rest t Q, Forall no_block_start lines -> judge true t (parseLists_go rec rest 0) (fun t' r => Q t' (lines ++ r)) -> ok false t -> judge true t (parseLists_go rec (lines ++ rest) 0) Q.
Proof.
  induction lines as [|line lines IH]; intros rest t Q F H O; cbn [app] in *; [exact H|]. inversion F; subst. apply lists_line; auto.
  eapply judge_bind; [apply (IH rest t (fun t' r => Q t' (line :: r))); auto|]. cbn beta. intros r t' O' G K. apply judge_ret; auto.
Qed.

Definition listed (t : Tokenizer) (b : block) (ls : list str) : Prop :=
  match b with
  | Heading n title => exists key title', ls = [key] /\ In (key, HeadingToken (line_wikitext title') n) (tokenMap t) /\ Forall2 (shown t) title title'
  | Items items => exists key items', ls = [key] /\ In (key, ListTokenOf (list_token items')) (tokenMap t) /\ Forall2 (item_rel (Forall2 (shown t))) items items'
  | Footnotes n title _ texts => notes_keys t n title texts (map (fun k => [Words k]) ls)
  | _ => exists b', ls = map line_wikitext (lines_of b') /\ block_rel (Forall2 (shown t)) b b'
  end.

Lemma listed_mono : forall t t' b ls, keeps t t' -> listed t b ls -> listed t' b ls.
Proof.
  intros t t' b ls K H. assert (M : forall x x', Forall2 (shown t) x x' -> Forall2 (shown t') x x') by (intros; eapply shown_lines; eauto).
  destruct b as [n title|lines|items|a caption rows|p|fn ft fa fx]; cbn [listed] in *.
  - destruct H as (k & x & E & I & S). exists k, x. split; auto. split; [eapply keeps_In; eauto|auto].
  - destruct H as (b' & E & S). exists b'. split; auto. eapply block_rel_mono; eauto.
  - destruct H as (k & x & E & I & S). exists k, x. split; auto. split; [eapply keeps_In; eauto|]. eapply Forall2_weaken; [|exact S]. intros. eapply rel_mono; eauto.
  - destruct H as (b' & E & S). exists b'. split; auto. eapply block_rel_mono; eauto.
  - destruct H as (b' & E & S). exists b'. split; auto. eapply block_rel_mono; eauto.
  - eapply notes_keys_mono; eauto.
Qed.

Lemma first_no_start : forall c s, solid c = true -> ~ In c !"=*#;:" -> no_block_start (c :: s).
Proof. intros c s S N d x E. destruct (trim_first c s S) as (y & Y). congruence. Qed.

Definition table_first (s : str) : Prop := exists c y, s = c :: y /\ In c !"{|!".
Lemma table_no_start : forall s, table_first s -> no_block_start s.
Proof. intros s (c & y & -> & I). apply first_no_start; cbn in I; intuition (subst; try reflexivity; cbn in *; intuition discriminate). Qed.

Lemma cells_first : forall cells, cells <> [] -> table_first (cells_line cells).
Proof.
  intros [|c cells] N; [contradiction|]. cbn [cells_line]. destruct (cell_start_shape c) as (d & z & -> & [->| ->]); cbn [app]; eexists _, _; (split; [reflexivity|]); cbn; auto.
Qed.

Lemma grid_first : forall a caption rows, block_plain (Grid a caption rows) -> Forall table_first (block_lines (Grid a caption rows)).
Proof.
  intros a caption rows (A & C & R). cbn [block_lines]. constructor; [eexists _, _; split; [reflexivity|cbn; auto]|]. apply Forall_app. split; [|apply Forall_app; split].
  - destruct caption; constructor; auto. eexists _, _. split; [reflexivity|cbn; auto].
  - apply Forall_concat. apply Forall_map. eapply Forall_impl; [|exact R]. intros row Rw. constructor; [eexists _, _; split; [reflexivity|cbn; auto]|]. apply Forall_map. eapply Forall_impl; [|exact Rw].
    intros cells (h & [(k & -> & _)|[N _]]); apply cells_first; [discriminate|auto].
  - constructor; auto. eexists _, _. split; [reflexivity|cbn; auto].
Qed.

(** Blocks that are no lists begin no lists. *)
Lemma ready_start : forall t b ls, unique t -> block_fine b -> ready t b ls -> (forall items, b <> Items items) -> Forall no_block_start (map line_wikitext ls) /\ ls <> [].
Proof.
  intros t b ls U F R N. destruct b as [n title|lines|items|a caption rows|p|fn ft fa fx]; cbn [ready] in *.
  - destruct R as (key & -> & title' & I & S). cbn [map]. rewrite one_text. split; [|discriminate]. constructor; auto. apply key_no_start. eapply state_key; eauto.
  - destruct R as (b' & -> & S). pose proof (related_plain t _ _ U F S) as W. destruct S as (lines' & -> & S). destruct W as [Ne W]. cbn [lines_of]. split; auto. apply Forall_map. eapply Forall_impl; [|exact W]. intros l [X _]. apply X.
  - exfalso. eapply N. reflexivity.
  - destruct R as (b' & -> & S). pose proof (related_plain t _ _ U F S) as W. destruct S as (c' & rows' & -> & S). split; [|discriminate]. rewrite lines_of_text. eapply Forall_impl; [|apply grid_first; exact W]. apply table_no_start.
  - destruct R as (b' & -> & S). pose proof (related_plain t _ _ U F S) as W. destruct S as (line' & -> & S). destruct W as [Ne W]. cbn [lines_of] in *. split; [|discriminate]. apply Forall_map. eapply Forall_impl; [|exact W]. intros l [X _]. apply X.
  - apply notes_keys_In in R as X. destruct X as (keys & -> & Nk & X). replace (map line_wikitext (map (fun k => [Words k]) keys)) with keys by (rewrite map_map; erewrite map_ext; [symmetry; apply map_id|apply one_text]).
    split; [|intros E; apply map_eq_nil in E; auto]. eapply Forall_impl; [|exact X]. intros k (v & I). apply key_no_start. eapply state_key; eauto.
Qed.

Lemma blanks_start : forall n, Forall no_block_start (repeat [] n).
Proof. intros n. apply repeat_Forall. intros c x E. discriminate E. Qed.

Lemma lists_blocks : forall doc g lss t, Forall block_fine doc -> gaps_ok g doc -> Forall2 (ready t) doc lss -> ok false t ->
  judge true t (parseLists_go rec (layout [] g (map (map line_wikitext) lss)) 0) (fun t' r => exists bs, Forall2 (listed t') doc bs /\ r = layout [] g bs).
Proof.
  induction doc as [|b doc IH]; intros g lss t F Gp R O; inversion R as [|? ls ? lss' R1 R2]; subst; cbn [map].
  - rewrite layout_nil, <- (app_nil_r (repeat _ _)). apply lists_lines; [apply blanks_start| |auto]. apply judge_ret; auto. exists []. rewrite layout_nil, app_nil_r. auto.
  - inversion F as [|? ? F1 F2]; subst. destruct Gp as [Gp1 Gp2]. rewrite layout_cons. apply lists_lines; [apply blanks_start| |auto]. set (rest := layout [] (tl g) (map (map line_wikitext) lss')).
    assert (K : forall t', ok false t' -> grows t t' -> judge true t' (parseLists_go rec rest 0) (fun t' r => exists bs, Forall2 (listed t') doc bs /\ r = layout [] (tl g) bs)).
    { intros t' O' G. apply IH; auto. eapply Forall2_weaken; [|exact R2]. intros; eapply ready_mono; eauto; apply grows_keeps; auto. }
    assert (L : forall ss r t0 t', grows t0 t' -> listed t0 b ss -> (exists bs, Forall2 (listed t') doc bs /\ r = layout [] (tl g) bs) ->
      exists bs, Forall2 (listed t') (b :: doc) bs /\ repeat [] (hd 0 g) ++ ss ++ r = layout [] g bs).
    { intros s r t0 t' G0 S (bs & T & ->). exists (s :: bs). split; [constructor; auto; eapply listed_mono; eauto; apply grows_keeps; auto|]. reflexivity. }
    assert (Z : forall ss, Forall no_block_start ss -> listed t b ss ->
      judge true t (parseLists_go rec (ss ++ rest) 0) (fun t' r => exists bs, Forall2 (listed t') (b :: doc) bs /\ repeat [] (hd 0 g) ++ r = layout [] g bs)).
    { intros ss N S. apply lists_lines; auto. eapply judge_weaken; [apply K; auto; apply grows_refl|]. cbn beta. intros r t' O' G H. apply (L ss r t); auto. }
    assert (Y : (forall items, b <> Items items) -> Forall no_block_start (map line_wikitext ls)) by (intros N; eapply ready_start; eauto; apply O).
    destruct b as [n title|lines|items|a caption rows|p|fn ft fa fx]; cbn [ready] in *.
    + apply Z; [apply Y; discriminate|]. destruct R1 as (key & -> & title' & I & S). cbn [map]. rewrite one_text. exists key, title'. auto.
    + apply Z; [apply Y; discriminate|]. destruct R1 as (b' & -> & S). exists b'. auto.
    + assert (Hr : rest = [] \/ exists x r, rest = x :: r /\ no_block_start x).
      { unfold rest. destruct R2 as [|b1 ls1 doc lss' R3 R4].
        - cbn [map]. rewrite layout_nil. destruct (hd 0 (tl g)) as [|k]; [left; reflexivity|]. right. exists [], (repeat [] k). split; [reflexivity|]. intros c x E. discriminate E.
        - cbn [map]. rewrite layout_cons. right. destruct (hd 0 (tl g)) as [|k] eqn:Ek; [|exists []; eexists; split; [reflexivity|intros c x E; discriminate E]]. specialize (Gp1 b1 doc eq_refl eq_refl).
          destruct (ready_start t b1 ls1 (proj1 O)) as [X1 X2]; auto; [inversion F2; auto|intros items' ->; exact Gp1|]. destruct ls1 as [|l1 ls1]; [contradiction|]. cbn [map repeat app] in *. inversion X1; subst. eexists _, _. split; [reflexivity|auto]. }
      destruct R1 as (b' & -> & S). pose proof (related_plain t _ _ (proj1 O) F1 S) as W. destruct S as (items' & -> & S). cbn [block_plain] in W. rewrite lines_of_text. cbn [block_lines]. fold (texts_of items').
      apply items_pass; auto. intros key t' O' G I. eapply judge_bind; [apply K; auto|]. cbn beta. intros r t2 O2 G2 H. apply judge_ret; auto. apply (L [key] r t'); auto. exists key, items'. split; auto. split; auto.
      eapply Forall2_weaken; [|exact S]. intros j j' Rj. eapply rel_mono; [|exact Rj]. intros. eapply shown_lines; [apply grows_keeps; exact G|]. auto.
    + apply Z; [apply Y; discriminate|]. destruct R1 as (b' & -> & S). exists b'. auto.
    + apply Z; [apply Y; discriminate|]. destruct R1 as (b' & -> & S). exists b'. auto.
    + specialize (Y ltac:(discriminate)). apply notes_keys_In in R1 as X. destruct X as (keys & -> & _ & X). revert Y. replace (map line_wikitext (map (fun k => [Words k]) keys)) with keys by (rewrite map_map; erewrite map_ext; [symmetry; apply map_id|apply one_text]).
      intros Y. apply Z; [exact Y|exact R1].
Qed.
End Run.
End Doc.
