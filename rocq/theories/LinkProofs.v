(** * Proofs about links *)

From Coq Require Import Ascii String.
From Coq Require Import List Arith Bool Lia.
From Verif Require Import GoStr GoStrFacts TextFacts TrimFacts UtilModel ConfigModel TokenModel TokenSpec TokenProofs PassSpec LinkModel PassProofs JudgeProofs HeadingProofs.
Import ListNotations.
Local Open Scope list_scope.

(** ** Splitting at brackets *)

(** The separator neither occurs in the text nor overlaps with its end. *)
Definition fresh (op s : str) : Prop := index op s = None /\ forall y, index op (s ++ op ++ y) = Some (length s).

Lemma split_items : forall op items first, op <> [] -> fresh op first -> Forall (fresh op) items ->
  split op (first ++ concat (map (app op) items)) = first :: items.
Proof.
  intros op items. induction items as [|x items IH]; intros first N F H; cbn [map concat].
  - rewrite app_nil_r. apply split_none. apply F.
  - inversion H; subst. rewrite <- app_assoc. rewrite split_first; auto; [|apply F]. f_equal. apply IH; auto.
Qed.

Lemma fresh_single : forall c s, ~ In c s -> fresh [c] s.
Proof. intros c s N. split; [apply index_single_none; auto|]. intros y. apply index_single_app. auto. Qed.

Lemma fresh_double : forall c s, contains [c; c] s = false -> ~ ends_with c s -> fresh [c; c] s.
Proof.
  intros c s C E. split; [apply contains_false_index; auto|]. intros y. apply index_first. intros j J.
  destruct (has_prefix [c; c] (skipn j (s ++ [c; c] ++ y))) eqn:H; auto. exfalso.
  rewrite skipn_app in H. replace (j - length s) with 0 in H by lia. cbn [skipn] in H. apply has_prefix_spec in H as (z & H).
  assert (S : s = firstn j s ++ skipn j s) by (symmetry; apply firstn_skipn).
  destruct (skipn j s) as [|a [|b u]] eqn:K.
  - apply (f_equal (@length ascii)) in K. rewrite skipn_length in K. cbn in K. lia.
  - cbn in H. injection H as -> _. apply E. exists (firstn j s). auto.
  - cbn in H. injection H as -> -> _. assert (X : contains [c; c] s = true); [|congruence]. apply contains_spec. exists (firstn j s), u. auto.
Qed.

Lemma no_link_fresh : forall s, no_link s -> fresh !"[[" s.
Proof. intros s [C E]. apply fresh_double; auto. Qed.

(** Text without the characters of the separator in front of other text *)
Lemma app_fresh : forall c a s, ~ In c a -> s <> [] -> no_link s -> c = "["%char -> fresh [c; c] (a ++ s).
Proof.
  intros c a s N S [C E] ->. apply fresh_double.
  - destruct (contains ["["%char; "["%char] (a ++ s)) eqn:H; auto. exfalso. apply contains_spec in H as (x & y & H).
    destruct (app_app_cases _ _ _ _ H) as [(z & Z & K)|(z & Z & K)].
    + subst x. apply (proj1 (contains_false _ _) C z y). exact K.
    + destruct z as [|w z]; [apply (proj1 (contains_false _ _) C [] y); symmetry; exact K|].
      apply N. rewrite Z. apply in_app_iff. right. left. cbn in K. congruence.
  - intros (x & H). destruct s as [|d s] using rev_ind; [contradiction|]. rewrite app_assoc in H. apply app_inj_tail in H as [_ ->]. apply E. exists s. auto.
Qed.

(** ** Characters *)

Lemma first_char : forall (c : ascii) s, ~ In c s \/ exists a b, s = a ++ c :: b /\ ~ In c a.
Proof.
  intros c s. induction s as [|x s IH]; [left; auto|]. destruct (ascii_dec x c) as [->|N]; [right; exists [], s; auto|].
  destruct IH as [H|(a & b & -> & H)]; [left; intros [K|K]; auto|]. right. exists (x :: a), b. split; auto. intros [K|K]; auto.
Qed.

Lemma last_char : forall (c : ascii) s, ~ In c s \/ exists a b, s = a ++ c :: b /\ ~ In c b.
Proof.
  intros c s. induction s as [|x s IH]; [left; auto|]. destruct IH as [H|(a & b & -> & H)]; [|right; exists (x :: a), b; auto].
  destruct (ascii_dec x c) as [->|N]; [right; exists [], s; auto|]. left. intros [K|K]; auto.
Qed.

Lemma split2_none : forall c s, ~ In c s -> split2 [c] s = [s].
Proof. intros c s N. unfold split2. apply index_single_none in N. rewrite N. auto. Qed.

Lemma split2_first : forall c a b, ~ In c a -> split2 [c] (a ++ c :: b) = [a; b].
Proof.
  intros c a b N. unfold split2. rewrite (index_single_app c a b N). cbn [length]. rewrite firstn_app, firstn_all, Nat.sub_diag, app_nil_r.
  rewrite skipn_app, skipn_all2 by lia. replace (length a + 1 - length a) with 1 by lia. reflexivity.
Qed.

Lemma lower_bracket : forall s, In "]"%char s -> In "]"%char (to_lower s).
Proof. intros s I. apply (in_map lower_char) in I. exact I. Qed.

Section Recursive.
Variable cfg : configuration.
Variable tokenizeContent : str -> M str.
Variable strict : bool.
Variable R : str -> Prop.
Hypothesis rec_runs : forall t s, unique t -> R s -> judge strict t (tokenizeContent s) (fun _ _ => True).

(** The prefix of a file has no closing bracket. *)
Hypothesis prefixes : forall p, In p (lists cfg FilePrefixes) -> ~ In "]"%char p.

Lemma is_file_false : forall a b, ~ has_file_prefix (lists cfg FilePrefixes) a -> is_file cfg (a ++ "]"%char :: b) = false.
Proof.
  intros a b N. unfold is_file. destruct (first_char ":" (a ++ "]"%char :: b)) as [C|(p & q & E & C)].
  - apply contains_single_false in C. rewrite C. auto.
  - rewrite E, split2_first; auto. destruct (mem_str _ _) eqn:M; [|apply andb_false_r]. exfalso. apply mem_str_In in M.
    destruct (app_app_cases _ _ _ _ E) as [(z & Z & K)|(z & Z & K)].
    + destruct z as [|w z]; [discriminate K|]. cbn in K. injection K as <- _. apply (prefixes _ M). apply lower_bracket. rewrite Z. apply in_app_iff. right. left. auto.
    + destruct z as [|w z]; [discriminate K|]. cbn in K. injection K as <- _. apply N. exists p, z. split; [exact Z|]. split; auto.
Qed.

(** ** Internal links *)

Lemma target_article : forall target, exists a, article_of target a /\ link_target !"|" target true = a \/ In "|"%char target.
Proof.
  intros target. destruct (first_char "|" target) as [N|(x & y & E & _)]; [|exists []; right; rewrite E; apply in_app_iff; right; left; auto].
  destruct (first_char "#" target) as [H|(x & y & E & H)].
  - exists (trim_space target). left. split.
    + exists target, []. rewrite app_nil_r. repeat split; auto.
    + unfold link_target. rewrite split_single_none, split2_none; auto.
  - exists (trim_space x). left. split.
    + exists x, ("#"%char :: y). repeat split; auto. right. exists y. auto.
    + unfold link_target. rewrite split_single_none; auto. cbn [hd]. rewrite E, split2_first; auto.
Qed.

Lemma article_unique : forall target a b, article_of target a -> article_of target b -> a = b.
Proof.
  intros target a b (n & s & E & N & S & ->) (n' & s' & E' & N' & S' & ->). f_equal. rewrite E in E'.
  destruct (app_app_cases _ _ _ _ E') as [(z & Z & K)|(z & Z & K)]; destruct z as [|c z]; rewrite ?app_nil_r in Z; auto.
  - destruct S as [->|(y & ->)]; [discriminate K|]. injection K as <- _. exfalso. apply N'. rewrite Z. apply in_app_iff. right. left. auto.
  - destruct S' as [->|(y & ->)]; [discriminate K|]. injection K as <- _. exfalso. apply N. rewrite Z. apply in_app_iff. right. left. auto.
Qed.

Lemma last_segment : forall s, In ":"%char s -> exists p, s = p ++ !":" ++ last (split !":" s) [] /\ ~ In ":"%char (last (split !":" s) []).
Proof.
  intros s I. destruct (last_char ":" s) as [N|(p & q & -> & N)]; [contradiction|]. exists p. change !":" with [":"%char].
  rewrite split_app_single, (split_single_none _ q), last_last; auto.
Qed.

(** What a link shows *)
Definition shows (l : link) (shown : str) : Prop :=
  exists article, article_of (target l) article /\ match text l with Some x => shown = x | None => shown_article article shown end.

(** A link has been parsed. *)
Definition is_link (t : Tokenizer) (l : link) (key : str) : Prop :=
  exists article shown content, article_of (target l) article /\
    match text l with Some x => shown = x | None => shown_article article shown end /\
    In (key, InternalLinkToken article content) (tokenMap t) /\ parsed tokenizeContent t shown content.

Lemma is_link_mono : forall t t' l k, grows t t' -> is_link t l k -> is_link t' l k.
Proof.
  intros t t' l k G (a & s & c & A & S & I & P). exists a, s, c. split; auto. split; auto. split; [eapply keeps_In; [apply grows_keeps|]; eauto|].
  eapply parsed_mono; [apply grows_keeps|]; eauto.
Qed.

Definition inner (l : link) : str := target l ++ match text l with None => [] | Some x => !"|" ++ x end.

Lemma inner_brackets : forall l, link_ok (lists cfg FilePrefixes) l -> ~ In "["%char (inner l) /\ ~ In "]"%char (inner l).
Proof.
  intros l (N1 & N2 & _ & T & _). unfold inner. destruct (text l) as [x|].
  - destruct (T x eq_refl) as [X1 X2]. split; rewrite !in_app_iff; cbn; intros [H|[[H|[]]|H]]; auto; discriminate.
  - rewrite app_nil_r. auto.
Qed.

Lemma link_segments : forall c a b, ~ In c a -> exists segments, split [c; c] (a ++ [c; c] ++ b) = a :: segments /\ join [c; c] segments = b.
Proof.
  intros c a b N. assert (F : fresh [c; c] a).
  { apply fresh_double.
    - destruct (contains _ a) eqn:E; auto. apply contains_spec in E as (x & y & ->). exfalso. apply N. rewrite !in_app_iff. right. left. left. auto.
    - intros (x & ->). apply N. apply in_app_iff. right. left. auto. }
  rewrite split_first; [|discriminate|apply F]. eexists. split; eauto. apply join_split. discriminate.
Qed.

Lemma internalItem : forall l t, link_ok (lists cfg FilePrefixes) l -> (forall shown, shows l shown -> R shown) -> ok false t ->
  judge strict t (parseLinkItem cfg tokenizeContent !"[[" !"]]" !"|" LINK_TYPE_INTERNAL false true (inner l ++ !"]]" ++ after_link l))
    (fun t' r => exists key, r = key ++ after_link l /\ is_link t' l key).
Proof.
  intros l t L Rl O. destruct (inner_brackets l L) as [B1 B2]. pose proof L as (N1 & N2 & N3 & T & Ne & F & _). unfold parseLinkItem.
  replace (is_file cfg (inner l ++ !"]]" ++ after_link l)) with false by (symmetry; apply (is_file_false (inner l) ("]"%char :: after_link l)); exact F).
  destruct (link_segments "]" (inner l) (after_link l) B2) as (segs & S & J). change !"]]" with ["]"%char; "]"%char]. rewrite S. cbn [hd tl]. rewrite J.
  rewrite andb_false_r. destruct (target_article (target l)) as (a & [[A E]|H]); [|contradiction].
  assert (X : link_target !"|" (inner l) true = a /\
    (match text l with None => length (split !"|" (inner l)) = 1 | Some x => (length (split !"|" (inner l)) =? 1) = false /\ join !"|" (tl (split !"|" (inner l))) = x end)).
  { unfold inner. change !"|" with ["|"%char]. destruct (text l) as [x|].
    - cbn [app]. rewrite split_single_app; auto. split.
      + revert E. unfold link_target. change !"|" with ["|"%char]. rewrite split_single_none, split_single_app; auto.
      + cbn [tl length]. split; [|apply join_split; discriminate]. pose proof (split_nonempty ["|"%char] x). destruct (split ["|"%char] x); [contradiction|]. reflexivity.
    - rewrite app_nil_r. split; auto. rewrite split_single_none; auto. }
  destruct X as [X1 X2]. rewrite X1.
  assert (K : forall shown t1, ok false t1 -> grows t t1 -> match text l with Some x => shown = x | None => shown_article a shown end ->
    judge strict t1 (do! token := link_token tokenizeContent LINK_TYPE_INTERNAL a shown in
      do! link := match token with
        | Some (token, linkTokenKey) => do! tokenKey := getToken linkTokenKey in do! _ := setRawToken tokenKey token in ret tokenKey
        | None => ret (!"[[" ++ inner l ++ ["]"%char; "]"%char])
        end in ret (link ++ after_link l))
     (fun t' r => exists key, r = key ++ after_link l /\ is_link t' l key)).
  { intros shown t1 O1 G1 Sh. unfold link_token. eapply (judge_bind _ _ strict t1 _ _ (fun t' o => exists c, o = Some (InternalLinkToken a c, TOKEN_INTERNAL_LINK) /\ parsed tokenizeContent t' shown c)).
    - eapply judge_bind; [apply (rec_parsed tokenizeContent strict R rec_runs); auto; apply Rl; exists a; split; [exact A|exact Sh]|]. cbn beta. intros c t2 O2 G2 P. apply judge_ret; auto. exists c. auto.
    - cbn beta. intros o t2 O2 G2 (c & -> & P). eapply (judge_bind _ _ strict t2 _ _ (fun t' k => is_link t' l k)).
      + apply (judge_token_in _ strict t2 TOKEN_INTERNAL_LINK (InternalLinkToken a c) (fun k => ret k)); auto; [apply nowiki_types|].
        intros t3 n O3 G3 I. apply judge_ret; auto. exists a, shown, c. split; auto. split; auto. split; auto. eapply parsed_mono; [apply grows_keeps|]; eauto.
      + cbn beta. intros k t3 O3 G3 Lk. apply judge_ret; auto. exists k. auto. }
  destruct (text l) as [x|].
  - destruct X2 as [X2 X3]. rewrite X2. rewrite X3. eapply judge_bind; [apply (judge_ret _ strict t x (fun t' s => s = x)); auto|].
    cbn beta. intros s t1 O1 G1 ->. apply K; auto.
  - rewrite X2. cbn [Nat.eqb]. specialize (Ne eq_refl a A). destruct a as [|c a]; [contradiction|].
    eapply (judge_bind _ _ strict t _ _ (fun t' s => shown_article (c :: a) s)).
    + apply judge_ret; auto. destruct (Ascii.eqb_spec c ":") as [->|Nc].
      * right. split; [exists a; auto|]. destruct (last_segment (":"%char :: a) (or_introl eq_refl)) as (p & P & Q). split; auto. exists p. exact P.
      * left. split; auto. intros (y & Y). congruence.
    + cbn beta. intros s t1 O1 G1 Sh. apply K; auto.
Qed.

Lemma link_items : forall links, concat (map link_wikitext links) = concat (map (app !"[[") (map (fun l => inner l ++ !"]]" ++ after_link l) links)).
Proof. intros links. rewrite map_map. f_equal. apply map_ext. intros l. unfold link_wikitext, inner. rewrite <- !app_assoc. auto. Qed.

Lemma internal_links : forall first links t, no_link first -> Forall (link_ok (lists cfg FilePrefixes)) links -> Forall (fun l => forall shown, shows l shown -> R shown) links -> ok false t ->
  judge strict t (parseInternalLinks cfg tokenizeContent (first ++ concat (map link_wikitext links)))
    (fun t' r => exists keys, r = links_replaced first links keys /\ Forall2 (is_link t') links keys).
Proof.
  intros first links t F L Rl O. unfold parseInternalLinks, parseLink. rewrite link_items, split_items; [|discriminate|apply no_link_fresh; auto|].
  - eapply judge_bind.
    + apply (judge_mapM2 str link str strict (parseLinkItem cfg tokenizeContent !"[[" !"]]" !"|" LINK_TYPE_INTERNAL false true)
               (fun t l item => link_ok (lists cfg FilePrefixes) l /\ (forall shown, shows l shown -> R shown) /\ item = inner l ++ !"]]" ++ after_link l)
               (fun t' l r => exists key, r = key ++ after_link l /\ is_link t' l key)); auto.
      * intros t1 t2 l r G (k & E & I). exists k. split; auto. eapply is_link_mono; eauto.
      * intros t1 l item O1 (Ok & Rs & ->). apply internalItem; auto.
      * instantiate (1 := links). clear F. induction L; inversion Rl; subst; cbn [map]; constructor; auto.
    + cbn beta. intros results t' O' G' F2. apply judge_ret; auto.
      assert (X : exists keys, concat results = concat (map (fun p => snd p ++ after_link (fst p)) (combine links keys)) /\ Forall2 (is_link t') links keys).
      { clear -F2. induction F2 as [|l r links results (k & -> & I) F2 (keys & E & K)]; [exists []; split; [auto|constructor]|].
        exists (k :: keys). cbn [concat combine map fst snd]. rewrite E. split; auto. }
      destruct X as (keys & E & K). exists keys. unfold links_replaced. rewrite E. auto.
  - apply Forall_forall. intros x I. apply in_map_iff in I as (l & <- & I). rewrite Forall_forall in L. specialize (L l I).
    destruct (inner_brackets l L) as [B _]. pose proof L as (_ & _ & _ & _ & _ & _ & A).
    apply (app_fresh "[" (inner l) (!"]]" ++ after_link l)); auto; [discriminate|].
    destruct A as [A1 A2]. split.
    + destruct (contains !"[[" (!"]]" ++ after_link l)) eqn:C; auto. apply contains_spec in C as (u & v & C). exfalso.
      destruct u as [|u1 [|u2 u]]; [discriminate C|discriminate C|]. injection C as _ _ C. apply (proj1 (contains_false _ _) A1 u v). exact C.
    + intros (u & U). destruct u as [|u1 [|u2 u]]; [discriminate U|discriminate U|]. injection U as _ _ U. apply A2. exists u. exact U.
Qed.

(** ** External links *)

(** A bracketed text has been handled. *)
Definition is_bracket (t : Tokenizer) (b : bracket) (r : str) : Prop :=
  (exists url text content, url_and_text (inside b) url text /\ is_http url /\
     In (r, ExternalLinkToken url content) (tokenMap t) /\ parsed tokenizeContent t text content) \/
  (exists url text content, url_and_text (inside b) url text /\ ~ is_http url /\ contains !"://" url = true /\
     In (r, StringToken content) (tokenMap t) /\ parsed tokenizeContent t text content) \/
  ((forall url text, url_and_text (inside b) url text -> contains !"://" url = false) /\ r = !"[" ++ inside b ++ !"]").

Lemma is_bracket_mono : forall t t' l k, grows t t' -> is_bracket t l k -> is_bracket t' l k.
Proof.
  intros t t' l k G [(u & x & c & A & S & I & P)|[(u & x & c & A & S & S' & I & P)|H]]; [left|right; left|right; right; auto]; exists u, x, c; repeat (split; [solve [auto]|]);
  (split; [eapply keeps_In; [apply grows_keeps|]; eauto|eapply parsed_mono; [apply grows_keeps|]; eauto]).
Qed.

Lemma http_spec : forall url, HasAnyPrefix url [!"http://"; !"https://"] = true <-> is_http url.
Proof.
  intros url. unfold HasAnyPrefix, is_http. cbn [existsb]. rewrite orb_false_r, orb_true_iff, !has_prefix_spec. tauto.
Qed.

Lemma http_url : forall url, is_http url -> contains !"://" url = true.
Proof.
  intros url [(x & ->)|(x & ->)]; apply contains_spec; [exists !"http", x|exists !"https", x]; reflexivity.
Qed.

Lemma url_unique : forall s u x u' x', url_and_text s u x -> url_and_text s u' x' -> u = u' /\ x = x'.
Proof.
  intros s u x u' x' (a & E & N & ->) (b & E' & N' & ->). rewrite E in E'. destruct (app_app_cases _ _ _ _ E') as [(z & Z & K)|(z & Z & K)]; destruct z as [|c z].
  - rewrite app_nil_r in Z. cbn in K. injection K as ->. subst. auto.
  - cbn in K. injection K as <- _. exfalso. apply N'. rewrite Z. apply in_app_iff. right. left. auto.
  - rewrite app_nil_r in Z. cbn in K. injection K as ->. subst. auto.
  - cbn in K. injection K as <- _. exfalso. apply N. rewrite Z. apply in_app_iff. right. left. auto.
Qed.

Lemma externalItem : forall b t, bracket_ok (lists cfg FilePrefixes) b -> (forall url text, url_and_text (inside b) url text -> R text) -> ok false t ->
  judge strict t (parseLinkItem cfg tokenizeContent !"[" !"]" !" " LINK_TYPE_EXTERNAL true false (inside b ++ !"]" ++ behind b))
    (fun t' r => exists k, r = k ++ behind b /\ is_bracket t' b k).
Proof.
  intros b t (N1 & N2 & N3 & F) Rb O. unfold parseLinkItem.
  replace (is_file cfg (inside b ++ !"]" ++ behind b)) with false by (symmetry; apply (is_file_false (inside b) (behind b)); exact F).
  change (inside b ++ !"]" ++ behind b) with (inside b ++ "]"%char :: behind b). change !"]" with ["]"%char]. rewrite split_single_app; auto.
  cbn [hd tl]. rewrite join_split by discriminate. change !" " with [" "%char].
  destruct (first_char " " (inside b)) as [N|(u & x & E & N)].
  - rewrite split_single_none; auto. cbn [length Nat.eqb andb]. apply judge_ret; auto. exists (!"[" ++ inside b ++ !"]"). split; [rewrite <- !app_assoc; auto|].
    right. right. split; auto. intros url text (v & V & _). exfalso. apply N. rewrite V, !in_app_iff. right. left. left. auto.
  - assert (U : url_and_text (inside b) (trim_space u) x) by (exists u; auto).
    assert (Sp : split [" "%char] (inside b) = u :: split [" "%char] x) by (rewrite E, split_single_app; auto).
    assert (X : (length (split [" "%char] (inside b)) =? 1) = false).
    { rewrite Sp. pose proof (split_nonempty [" "%char] x). destruct (split [" "%char] x); [contradiction|reflexivity]. }
    rewrite X. unfold link_target. rewrite Sp. cbn [hd tl]. rewrite join_split by discriminate.
    cbn [andb]. apply (judge_bind _ _ strict t _ _ (fun t' s => s = x)); [apply judge_ret; auto|]. cbn beta. intros s t1 O1 G1 ->.
    unfold link_token. destruct (HasAnyPrefix (trim_space u) _) eqn:H.
    + apply http_spec in H. eapply (judge_bind _ _ strict t1 _ _ (fun t' o => exists c, o = Some (ExternalLinkToken (trim_space u) c, TOKEN_EXTERNAL_LINK) /\ parsed tokenizeContent t' x c)).
      * eapply judge_bind; [apply (rec_parsed tokenizeContent strict R rec_runs); auto; apply (Rb (trim_space u)); exact U|]. cbn beta. intros c t2 O2 G2 P. apply judge_ret; auto. exists c. auto.
      * cbn beta. intros o t2 O2 G2 (c & -> & P). eapply (judge_bind _ _ strict t2 _ _ (fun t' k => is_bracket t' b k)).
        -- apply (judge_token_in _ strict t2 TOKEN_EXTERNAL_LINK (ExternalLinkToken (trim_space u) c) (fun k => ret k)); auto; [apply nowiki_types|].
           intros t3 n O3 G3 I. apply judge_ret; auto. left. exists (trim_space u), x, c. do 3 (split; auto). eapply parsed_mono; [apply grows_keeps|]; eauto.
        -- cbn beta. intros k t3 O3 G3 Lk. apply judge_ret; auto. exists k. auto.
    + assert (Nh : ~ is_http (trim_space u)) by (rewrite <- http_spec; congruence). destruct (contains !"://" (trim_space u)) eqn:C.
      * eapply (judge_bind _ _ strict t1 _ _ (fun t' o => exists c, o = Some (StringToken c, TOKEN_STRING) /\ parsed tokenizeContent t' x c)).
        -- eapply judge_bind; [apply (rec_parsed tokenizeContent strict R rec_runs); auto; apply (Rb (trim_space u)); exact U|]. cbn beta. intros c t2 O2 G2 P. apply judge_ret; auto. exists c. auto.
        -- cbn beta. intros o t2 O2 G2 (c & -> & P). eapply (judge_bind _ _ strict t2 _ _ (fun t' k => is_bracket t' b k)).
           ++ apply (judge_token_in _ strict t2 TOKEN_STRING (StringToken c) (fun k => ret k)); auto; [apply nowiki_types|].
              intros t3 n O3 G3 I. apply judge_ret; auto. right. left. exists (trim_space u), x, c. do 4 (split; auto). eapply parsed_mono; [apply grows_keeps|]; eauto.
           ++ cbn beta. intros k t3 O3 G3 Lk. apply judge_ret; auto. exists k. auto.
      * eapply (judge_bind _ _ strict t1 _ _ (fun t' o => o = None)); [apply judge_ret; auto|]. cbn beta. intros o t2 O2 G2 ->.
        eapply (judge_bind _ _ strict t2 _ _ (fun t' k => k = !"[" ++ inside b ++ !"]")); [apply judge_ret; auto|]. cbn beta. intros k t3 O3 G3 ->.
        apply judge_ret; auto. eexists. split; [reflexivity|]. right. right. split; auto. intros url text U'.
        destruct (url_unique _ _ _ _ _ U U') as [<- _]. auto.
Qed.

Lemma external_links : forall first brackets t, no_char "[" first -> Forall (bracket_ok (lists cfg FilePrefixes)) brackets -> Forall (fun b => forall url text, url_and_text (inside b) url text -> R text) brackets -> ok false t ->
  judge strict t (parseExternalLinks cfg tokenizeContent (first ++ concat (map bracket_wikitext brackets)))
    (fun t' r => exists rs, r = first ++ concat (map (fun p => snd p ++ behind (fst p)) (combine brackets rs)) /\ Forall2 (is_bracket t') brackets rs).
Proof.
  intros first brackets t F L Rb O. unfold parseExternalLinks, parseLink.
  replace (concat (map bracket_wikitext brackets)) with (concat (map (app !"[") (map (fun b => inside b ++ !"]" ++ behind b) brackets)))
    by (rewrite map_map; reflexivity).
  rewrite split_items; [|discriminate|apply fresh_single; auto|].
  - eapply judge_bind.
    + apply (judge_mapM2 str bracket str strict (parseLinkItem cfg tokenizeContent !"[" !"]" !" " LINK_TYPE_EXTERNAL true false)
               (fun t b item => bracket_ok (lists cfg FilePrefixes) b /\ (forall url text, url_and_text (inside b) url text -> R text) /\ item = inside b ++ !"]" ++ behind b)
               (fun t' b r => exists key, r = key ++ behind b /\ is_bracket t' b key)); auto.
      * intros t1 t2 l r G (k & E & I). exists k. split; auto. eapply is_bracket_mono; eauto.
      * intros t1 l item O1 (Ok & Rs & ->). apply externalItem; auto.
      * instantiate (1 := brackets). clear F. induction L; inversion Rb; subst; cbn [map]; constructor; auto.
    + cbn beta. intros results t' O' G' F2. apply judge_ret; auto.
      assert (X : exists keys, concat results = concat (map (fun p => snd p ++ behind (fst p)) (combine brackets keys)) /\ Forall2 (is_bracket t') brackets keys).
      { clear -F2. induction F2 as [|l r links results (k & -> & I) F2 (keys & E & K)]; [exists []; split; [auto|constructor]|].
        exists (k :: keys). cbn [concat combine map fst snd]. rewrite E. split; auto. }
      destruct X as (keys & E & K). exists keys. rewrite E. auto.
  - apply Forall_forall. intros x I. apply in_map_iff in I as (b & <- & I). rewrite Forall_forall in L. destruct (L b I) as (N1 & _ & N3 & _).
    apply fresh_single. rewrite !in_app_iff. intros [H|[[H|[]]|H]]; auto. discriminate.
Qed.
End Recursive.
