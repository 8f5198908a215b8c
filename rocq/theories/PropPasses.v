(** * Headings, links and nowiki areas (C20, C25, C26, C28) *)

From Coq Require Import Ascii String.
From Coq Require Import List Arith ZArith Bool Lia.
From Verif Require Import GoStr GoStrFacts TrimFacts ConfigModel TokenModel HeadingModel LinkModel TokenizerModel.
From Verif Require Import TokenSpec PassSpec TokenProofs ImageClosing PassProofs BlockPassProofs RefineProofs JudgeProofs HeadingProofs NowikiProofs LinkProofs FrameProofs.
Import ListNotations.
Local Open Scope list_scope.

Definition default_config : configuration := NewDefaultConfig (mkEnvironment !"c" true true).

Lemma In_key : forall t k v, unique t -> In (k, v) (tokenMap t) -> lookup_token k (tokenMap t) = Some v.
Proof. intros t k v (_ & N) I. apply In_lookup; auto. Qed.

Lemma runs : forall cfg fuel t s, unique t -> holds false t (tokenizeContent cfg fuel s) (fun _ _ => True).
Proof. intros. apply tokenizeContent_runs. auto. Qed.

Lemma runs_any : forall cfg fuel t s, unique t -> True -> judge false t (tokenizeContent cfg fuel s) (fun _ _ => True).
Proof. intros. apply holds_judge. apply runs. auto. Qed.

(** ** Headings *)

(** The heading with its title *)
Definition heading_token (rec : str -> M str) (t' : Tokenizer) (n : nat) (title key : str) : Prop :=
  exists content, lookup_token key (tokenMap t') = Some (HeadingToken content n) /\ parsed_as rec t' (trim_space title) content.

(** Every line is handled on its own: a heading becomes a token of its level with its title, a line that does not begin and end with an
    equal sign stays.  (Missing: titles that contain the equal signs of the heading, and lines that consist of equal signs.) *)
Theorem C20_headings_partial : forall cfg fuel text result t t', unique t ->
  parseHeadings (tokenizeContent cfg fuel) text t = Ok (result, t') ->
  Forall2 (fun line line' =>
      (ordinary_line line -> line' = line) /\
      (forall n title, heading_line line n title -> contains (equals n) title = false -> heading_token (tokenizeContent cfg fuel) t' n title line'))
    (split nl text) (split nl result).
Proof.
  intros cfg fuel text result t t' U E. destruct (judge_holds _ _ _ _ _ (lines_done _ _ _ (runs_any cfg fuel) text t (ok_false t U) (fun _ _ _ _ => I)) result t' E) as ((U' & _) & _ & F).
  eapply Forall2_weaken; [|exact F]. cbn beta. clear F E. intros line line' D. split.
  - intros O. destruct D as [[-> _]|(n & L & M & _)]; auto. rewrite ordinary_matches in M; auto; [discriminate|lia].
  - intros n title H C. pose proof (heading_matches _ _ _ H) as M. pose proof H as (L & _). destruct D as [[_ N]|(m & Lm & Mm & Max & c & i & E & I & P)].
    + rewrite N in M; [discriminate|lia].
    + assert (n = m).
      { destruct (Nat.lt_trichotomy n m) as [K|[K|K]]; auto.
        - rewrite (heading_max _ _ _ _ H) in Mm; [discriminate|lia].
        - rewrite Max in M; [discriminate|lia]. }
      subst m. exists c. split; [apply In_key; auto|]. rewrite <- (heading_title _ _ _ H C). apply parsed_spec; auto.
Qed.
Print Assumptions C20_headings_partial.

(** The equal sign in the title of a heading of level 1 is lost. *)
Theorem C20_refuted : heading_line !"= a=b =" 1 !" a=b " /\
  exists key t, parseHeadings (tokenizeContent default_config 4) !"= a=b =" NewTokenizer = Ok (key, t) /\
                lookup_token key (tokenMap t) = Some (HeadingToken !"ab" 1).
Proof.
  split.
  - split; [lia|]. split; [discriminate|]. split; [right; intros [(x & X) _]; discriminate|]. exists [], []. split; [constructor|]. split; [constructor|]. reflexivity.
  - eexists. eexists. split; vm_compute; reflexivity.
Qed.
Print Assumptions C20_refuted.

(** A line that consists of equal signs is no heading, but becomes one, without any text. *)
Theorem C20_refuted_line : (forall n title, ~ heading_line !"==" n title) /\
  exists key t, parseHeadings (tokenizeContent default_config 4) !"==" NewTokenizer = Ok (key, t) /\
                lookup_token key (tokenMap t) = Some (HeadingToken [] 2).
Proof.
  split.
  - intros n title H. pose proof (heading_trim _ _ _ H) as T. destruct H as (L & N & _).
    apply (f_equal (@length ascii)) in T. rewrite !app_length, equals_length in T. change (length (trim_space !"==")) with 2 in T.
    destruct title; [contradiction|]. cbn [length] in T. lia.
  - eexists. eexists. split; vm_compute; reflexivity.
Qed.
Print Assumptions C20_refuted_line.

Example C20_example : exists result t,
  parseHeadings (tokenizeContent default_config 4) (!"a" ++ nl ++ !" === b == c === " ++ nl ++ !"=d") NewTokenizer = Ok (result, t) /\
  heading_line !" === b == c === " 3 !" b == c " /\ contains (equals 3) !" b == c " = false /\ ordinary_line !"a" /\ ordinary_line !"=d".
Proof.
  eexists. eexists. split; [vm_compute; reflexivity|]. split; [|split; [reflexivity|]].
  - split; [lia|]. split; [discriminate|]. split; [right; intros [(x & X) _]; discriminate|]. exists !" ", !" ".
    split; [|split]; auto; rewrite <- (app_nil_r !" "); constructor; auto; try constructor; vm_compute; tauto.
  - assert (H : forall line, solid_ends line -> ~ (starts_with equal_sign line /\ ends_with equal_sign line) -> ordinary_line line).
    { intros line S N (l & core & r & Bl & Br & E & C1 & C2). apply N. pose proof (trim_solid line S) as T.
      assert (K : trim_space line = core).
      { rewrite E. apply trim_core; auto. destruct C1 as (x & ->), C2 as (y & C2). exists equal_sign. split; [reflexivity|].
        split; [exists x; auto|]. exists equal_sign, y. auto. }
      rewrite T in K. subst core. auto. }
    split; apply H.
    + apply solid_ends_single. reflexivity.
    + intros [(x & X) _]. discriminate.
    + exists "="%char. split; [reflexivity|]. split; [exists !"d"; auto|]. exists "d"%char, !"=". split; reflexivity.
    + intros [_ (x & X)]. destruct x as [|x1 [|x2 [|x3 x]]]; discriminate X.
Qed.

(** ** Internal links *)

Definition no_closing_bracket (cfg : configuration) : Prop := forall p, In p (lists cfg FilePrefixes) -> no_char "]" p.

(** The token of a link *)
Definition link_token_of (rec : str -> M str) (t' : Tokenizer) (l : link) (key : str) : Prop :=
  exists article shown content, article_of (target l) article /\
    match text l with Some x => shown = x | None => shown_article article shown end /\
    lookup_token key (tokenMap t') = Some (InternalLinkToken article content) /\ parsed_as rec t' shown content.

(** Every link becomes a token with its target and its text, and the text outside of the links stays. *)
Theorem C25_links : forall cfg fuel first links result t t', no_closing_bracket cfg -> unique t ->
  no_link first -> Forall (link_ok (lists cfg FilePrefixes)) links ->
  parseInternalLinks cfg (tokenizeContent cfg fuel) (first ++ concat (map link_wikitext links)) t = Ok (result, t') ->
  exists keys, result = links_replaced first links keys /\ Forall2 (link_token_of (tokenizeContent cfg fuel) t') links keys.
Proof.
  intros cfg fuel first links result t t' P U F L E.
  destruct (judge_holds _ _ _ _ _ (internal_links cfg _ _ _ (runs_any cfg fuel) P first links t F L (Forall_all _ _ (fun _ _ _ => I) links) (ok_false t U)) result t' E) as ((U' & _) & _ & keys & -> & K).
  exists keys. split; auto. eapply Forall2_weaken; [|exact K]. cbn beta. intros l k (a & s & c & A & S & I & Pa). exists a, s, c.
  split; auto. split; auto. split; [apply In_key; auto|apply parsed_spec; auto].
Qed.
Print Assumptions C25_links.

Example C25_example : no_closing_bracket default_config /\ no_link !"text [x] " /\
  (Forall (link_ok (lists default_config FilePrefixes)) [mkLink !" a b#c " None !" and [x]"; mkLink !"d" (Some !"''e'' | f") !"]] end"]) /\
  exists result t', parseInternalLinks default_config (tokenizeContent default_config 4)
    (!"text [x] " ++ concat (map link_wikitext [mkLink !" a b#c " None !" and [x]"; mkLink !"d" (Some !"''e'' | f") !"]] end"])) NewTokenizer = Ok (result, t').
Proof.
  assert (NC : forall c s, existsb (Ascii.eqb c) s = false -> no_char c s).
  { intros c s E I. assert (X : existsb (Ascii.eqb c) s = true) by (apply existsb_exists; exists c; split; auto; apply Ascii.eqb_refl). congruence. }
  assert (NF : forall s, ~ In ":"%char s -> ~ has_file_prefix (lists default_config FilePrefixes) s).
  { intros s N (p & r & -> & _). apply N. rewrite !in_app_iff. right. left. left. auto. }
  assert (NL : forall s c x, contains !"[[" s = false -> s = x ++ [c] -> c <> "["%char -> no_link s).
  { intros s c x C E N. split; auto. intros (y & Y). rewrite E in Y. apply app_inj_tail in Y as [_ ->]. auto. }
  split; [|split; [|split]].
  - intros p I. apply NC. revert p I. apply Forall_forall. repeat constructor.
  - eapply (NL _ " "%char !"text [x]"); try reflexivity. discriminate.
  - constructor; [|constructor; [|constructor]].
    + repeat split; try (apply NC; reflexivity); try discriminate.
      * intros _ a A. assert (B : article_of !" a b#c " !"a b").
        { exists !" a b", !"#c ". split; [reflexivity|]. split; [apply NC; reflexivity|]. split; [right; exists !"c "; reflexivity|reflexivity]. }
        rewrite (article_unique _ _ _ A B). discriminate.
      * cbn [target text]. apply NF. apply NC. reflexivity.
      * intros (y & Y). change !" and [x]" with (!" and [x" ++ !"]") in Y. apply app_inj_tail in Y as [_ Y]. discriminate.
    + repeat split; try (apply NC; reflexivity); try discriminate.
      * injection H as <-. apply NC. reflexivity.
      * injection H as <-. apply NC. reflexivity.
      * apply NF. apply NC. reflexivity.
      * intros (y & Y). change !"]] end" with (!"]] en" ++ !"d") in Y. apply app_inj_tail in Y as [_ Y]. discriminate.
  - eexists. eexists. vm_compute. reflexivity.
Qed.

(** ** Text in single brackets *)

(** The result for a text in brackets: a token if it is a link, otherwise the text itself *)
Definition bracket_result (rec : str -> M str) (t' : Tokenizer) (b : bracket) (r : str) : Prop :=
  (exists url text content, url_and_text (inside b) url text /\ is_http url /\
     lookup_token r (tokenMap t') = Some (ExternalLinkToken url content) /\ parsed_as rec t' text content) \/
  (exists url text content, url_and_text (inside b) url text /\ ~ is_http url /\ contains !"://" url = true /\
     lookup_token r (tokenMap t') = Some (StringToken content) /\ parsed_as rec t' text content) \/
  ((forall url text, url_and_text (inside b) url text -> contains !"://" url = false) /\ r = !"[" ++ inside b ++ !"]").

(** Bracketed text that is no link stays as it is, and so does all text outside of brackets; links become tokens with their URL and text.
    (Missing: brackets that are not closed or nested, which are changed, see below.) *)
Theorem C26_brackets_partial : forall cfg fuel first brackets result t t', no_closing_bracket cfg -> unique t ->
  no_char "[" first -> Forall (bracket_ok (lists cfg FilePrefixes)) brackets ->
  parseExternalLinks cfg (tokenizeContent cfg fuel) (first ++ concat (map bracket_wikitext brackets)) t = Ok (result, t') ->
  exists rs, result = first ++ concat (map (fun p => snd p ++ behind (fst p)) (combine brackets rs)) /\
             Forall2 (bracket_result (tokenizeContent cfg fuel) t') brackets rs.
Proof.
  intros cfg fuel first brackets result t t' P U F L E.
  destruct (judge_holds _ _ _ _ _ (external_links cfg _ _ _ (runs_any cfg fuel) P first brackets t F L (Forall_all _ _ (fun _ _ _ _ => I) brackets) (ok_false t U)) result t' E) as ((U' & _) & _ & rs & -> & K).
  exists rs. split; auto. eapply Forall2_weaken; [|exact K]. cbn beta.
  intros b r [(u & x & c & A & S & I & Pa)|[(u & x & c & A & S & S2 & I & Pa)|H]]; [left|right; left|right; right; auto]; exists u, x, c;
  repeat (split; [solve [auto]|]); (split; [apply In_key; auto|apply parsed_spec; auto]).
Qed.
Print Assumptions C26_brackets_partial.

(** A bracket that is not closed gets a closing bracket. *)
Theorem C26_refuted : parseExternalLinks default_config (tokenizeContent default_config 4) !"[foo bar" NewTokenizer = Ok (!"[foo bar]", NewTokenizer).
Proof. vm_compute. reflexivity. Qed.
Print Assumptions C26_refuted.

(** Nested brackets are changed as well. *)
Theorem C26_refuted_nested :
  parseExternalLinks default_config (tokenizeContent default_config 4) !"[a [b c] d]" NewTokenizer = Ok (!"[a ][b c] d]", NewTokenizer).
Proof. vm_compute. reflexivity. Qed.
Print Assumptions C26_refuted_nested.

Example C26_example : Forall (bracket_ok (lists default_config FilePrefixes)) [mkBracket !"x y" !" and "; mkBracket !"http://a b c" !"] end"] /\
  exists result t', parseExternalLinks default_config (tokenizeContent default_config 4)
    (!"text " ++ concat (map bracket_wikitext [mkBracket !"x y" !" and "; mkBracket !"http://a b c" !"] end"])) NewTokenizer = Ok (result, t') /\
    lookup_token !"$$TOKEN_EXTERNAL_LINK_0$$" (tokenMap t') = Some (ExternalLinkToken !"http://a" !"b c") /\
    result = !"text [x y] and $$TOKEN_EXTERNAL_LINK_0$$] end".
Proof.
  assert (NC : forall c s, existsb (Ascii.eqb c) s = false -> no_char c s).
  { intros c s E I. assert (X : existsb (Ascii.eqb c) s = true) by (apply existsb_exists; exists c; split; auto; apply Ascii.eqb_refl). congruence. }
  split.
  - constructor; [|constructor; [|constructor]]; repeat split; try (apply NC; reflexivity).
    + intros (p & r & E & _). assert (I : no_char ":" !"x y") by (apply NC; reflexivity). apply I. cbn [inside] in E. rewrite E, !in_app_iff. right. left. left. auto.
    + intros (p & r & E & N & I). cbn [inside] in E.
      assert (p = !"http").
      { destruct p as [|a [|b [|c [|d [|e p]]]]]; try discriminate E.
        - injection E as <- <- <- <- _. reflexivity.
        - injection E as <- <- <- <- <- _. exfalso. apply N. right. right. right. right. left. reflexivity. }
      subst p. vm_compute in I. repeat (destruct I as [I|I]; [discriminate I|]). destruct I.
  - eexists. eexists. split; [vm_compute; reflexivity|]. split; vm_compute; reflexivity.
Qed.

(** ** nowiki areas *)

(** The content of every area is the content of a token, and the text around the areas stays; the token keeps its content in the parsed
    article. *)
Theorem C28_verbatim : forall cfg fuel first areas content t t', unique t -> no_tag !"<nowiki>" first -> Forall area_ok areas ->
  tokenizeContent cfg fuel (nowiki_text first areas) t = Ok (content, t') ->
  exists t1, parseNowiki (nowiki_text first areas) t = Ok (first ++ replaced_areas (tokenCounter t) areas, t1) /\
  forall i a, nth_error areas i = Some a -> lookup_token (token_key TOKEN_NOWIKI (tokenCounter t + i)) (tokenMap t') = Some (NowikiToken (body a)).
Proof.
  intros cfg fuel first areas content t t' U N A E. eexists. split; [apply nowiki_run; auto|]. intros i a Hi. apply In_key.
  { destruct (tokenizeContent_runs cfg fuel t _ U _ _ E) as ((U' & _) & _). exact U'. }
  destruct fuel as [|fuel]; [discriminate E|]. cbn [tokenizeContent] in E.
  change (passes cfg) with (passes_check false cfg) in E. unfold passes_check in E.
  unfold bindM at 1 2 in E. rewrite nowiki_run in E; auto. cbn [bind] in E.
  pose proof (nowiki_run first areas t N A) as R. change tag_start with !"<nowiki>" in R.
  set (t1 := mkTokenizer _ _ _) in *.
  assert (G : forall b, ok b t -> good b t (nowiki_text first areas) -> ok b t1 /\ grows t t1).
  { intros b O G. destruct (parseNowiki_sound b t _ O G _ _ R) as (O1 & G1 & _). auto. }
  destruct (G false (ok_false t U) ltac:(discriminate)) as (O1 & _). clear G.
  assert (I : In (token_key TOKEN_NOWIKI (tokenCounter t + i), NowikiToken (body a)) (tokenMap t1)).
  { unfold t1. cbn [tokenMap]. apply in_app_iff. left. apply area_token_In. auto. }
  destruct (later_check false cfg (tokenizeContent cfg fuel) _ t1) as [[c2 t2]| | |] eqn:E2; try discriminate. cbn [bind] in E.
  assert (S2 : ok false t2 /\ grows t1 t2).
  { assert (S : sound false (tokenizeContent cfg fuel)).
    { intros t0 s0 (U0 & _) _ a0 t0' E0. destruct (runs cfg fuel t0 s0 U0 _ _ E0) as (? & ? & _). split; auto. split; auto. discriminate. }
    destruct (later_sound cfg false _ S t1 _ O1 ltac:(discriminate) _ _ E2) as (O2 & G2 & _). auto. }
  destruct S2 as (O2 & G2). assert (I2 : In (token_key TOKEN_NOWIKI (tokenCounter t + i), NowikiToken (body a)) (tokenMap t2)) by (eapply keeps_In; [apply grows_keeps; eauto|auto]).
  destruct (str_eqb c2 _).
  - injection E as _ <-. exact I2.
  - destruct (tokenizeContent_runs cfg fuel t2 _ (proj1 O2) _ _ E) as (_ & G3 & _). eapply keeps_In; [apply grows_keeps; eauto|auto].
Qed.
Print Assumptions C28_verbatim.

Lemma lookup_app : forall k l m, lookup_token k (l ++ m) = match lookup_token k l with Some v => Some v | None => lookup_token k m end.
Proof. induction l as [|[k' v] l IH]; intros m; cbn [app lookup_token]; auto. destruct (str_eqb k k'); auto. Qed.

Lemma area_tokens_none : forall areas n k, (forall i, i < length areas -> k <> token_key TOKEN_NOWIKI (n + i)) -> lookup_token k (area_tokens n areas) = None.
Proof.
  induction areas as [|a areas IH]; intros n k H; cbn [area_tokens]; auto. rewrite lookup_app, IH.
  - cbn [lookup_token]. destruct (str_eqb k _) eqn:E; auto. apply str_eqb_eq in E. exfalso. apply (H 0); [cbn; lia|]. rewrite Nat.add_0_r. auto.
  - intros i L. specialize (H (S i)). cbn [length] in H. rewrite Nat.add_succ_r in H. apply H. lia.
Qed.

Lemma replaced_same : forall areas1 areas2 n, map following areas1 = map following areas2 -> replaced_areas n areas1 = replaced_areas n areas2.
Proof.
  induction areas1 as [|a areas1 IH]; intros [|b areas2] n E; try discriminate; auto. injection E as E1 E2. cbn [replaced_areas]. rewrite E1, (IH areas2); auto.
Qed.

(** No pass interprets the content of an area: with other contents, a round of parsing gives the same text and the same other tokens. *)
Theorem C28_not_interpreted : forall cfg fuel first areas1 areas2 content t t1, no_tag !"<nowiki>" first ->
  Forall area_ok areas1 -> Forall area_ok areas2 -> map following areas1 = map following areas2 ->
  passes cfg (tokenizeContent cfg fuel) (nowiki_text first areas1) t = Ok (content, t1) ->
  exists t2, passes cfg (tokenizeContent cfg fuel) (nowiki_text first areas2) t = Ok (content, t2) /\
  forall key, (forall i, i < length areas1 -> key <> token_key TOKEN_NOWIKI (tokenCounter t + i)) ->
    lookup_token key (tokenMap t2) = lookup_token key (tokenMap t1).
Proof.
  intros cfg fuel first areas1 areas2 content t t1 N A1 A2 F E.
  assert (L : length areas1 = length areas2) by (rewrite <- (map_length following areas1), F, map_length; auto).
  assert (P : forall areas, Forall area_ok areas -> passes cfg (tokenizeContent cfg fuel) (nowiki_text first areas) t =
    later_passes cfg (tokenizeContent cfg fuel) (first ++ replaced_areas (tokenCounter t) areas)
      (mkTokenizer (area_tokens (tokenCounter t) areas ++ tokenMap t) (length areas + tokenCounter t) (images t))).
  { intros areas A. change (passes cfg (tokenizeContent cfg fuel)) with (fun s => bindM (parseNowiki s) (later_passes cfg (tokenizeContent cfg fuel))).
    cbn beta. unfold bindM at 1. rewrite nowiki_run; auto. }
  rewrite P in E; auto. rewrite P; auto. rewrite <- (replaced_same _ _ _ F), <- L.
  pose proof (later_framed (area_tokens (tokenCounter t) areas1 ++ tokenMap t) (area_tokens (tokenCounter t) areas2 ++ tokenMap t) cfg
    (tokenizeContent cfg fuel) (tokenizeContent_framed _ _ cfg fuel) (first ++ replaced_areas (tokenCounter t) areas1)) as H.
  match type of E with _ ?u = _ => match goal with |- exists _, _ ?v = _ /\ _ => specialize (H u v) end end.
  assert (T : forall m1 m2 n im, twins m1 m2 (mkTokenizer m1 n im) (mkTokenizer m2 n im)) by (intros; split; auto; split; auto; exists []; auto).
  specialize (H (T _ _ _ _)). rewrite E in H. unfold same_result in H.
  match type of H with match ?r with _ => _ end => destruct r as [[c2 t2]| | |]; try contradiction end. destruct H as (<- & _ & _ & l & E1 & E2).
  exists t2. split; auto. intros key K. rewrite E1, E2, !lookup_app. destruct (lookup_token key l); auto. rewrite !area_tokens_none; auto. rewrite <- L. auto.
Qed.
Print Assumptions C28_not_interpreted.

Definition example_areas : list area := [mkArea !"<nowiki>" !"''a'' [[b]]" !"</nowiki>" !" and "; mkArea !"<NoWiki>" !"== <ref>" !"</nowiki>" !" ''end''"].

Example C28_example : no_tag !"<nowiki>" !"text " /\ Forall area_ok example_areas /\
  exists content t, tokenizeContent default_config 4 (nowiki_text !"text " example_areas) NewTokenizer = Ok (content, t) /\
  content = !"text $$TOKEN_HEADINNOWIKI_0$$ and $$TOKEN_HEADINNOWIKI_1$$ $$MARKER_ITALIC_OPEN$$end$$MARKER_ITALIC_CLOSE$$".
Proof.
  split; [reflexivity|]. split.
  - constructor; [|constructor; [|constructor]]; repeat split; reflexivity.
  - eexists. eexists. split; vm_compute; reflexivity.
Qed.
