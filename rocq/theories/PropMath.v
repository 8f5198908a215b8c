(** * Formulas (C55) *)

From Coq Require Import Ascii String.
From Coq Require Import List Arith Bool Lia.
From Verif Require Import GoStr GoStrFacts TextFacts TrimFacts ConfigModel TokenModel FormattingModel HeadingModel ListModel TableModel ParagraphModel TokenizerModel.
From Verif Require Import TokenSpec PassSpec MarkupSpec MathSpec TokenProofs ImageClosing PassProofs BlockPassProofs RefineProofs HeadingProofs NowikiProofs LinkProofs FrameProofs MarkupProofs MathProofs MathQuietProofs PropPasses.
Import ListNotations.
Local Open Scope list_scope.

(** Every text has exactly one reading. *)
Theorem C55_reading : forall s, exists pieces, reading s pieces /\ forall pieces', reading s pieces' -> pieces' = pieces.
Proof.
  intros s. destruct (reading_exists (length s) s (le_n _)) as (ps & R). exists ps. split; auto. intros ps' R'. symmetry. eapply reading_unique; eauto.
Qed.
Print Assumptions C55_reading.

Lemma math_tokens_In : forall gs n i g, nth_error gs i = Some g -> In (token_key TOKEN_MATH (n + i), MathToken g) (math_tokens n gs).
Proof.
  induction gs as [|x gs IH]; intros n [|i] g E; try discriminate E; cbn [math_tokens]; apply in_app_iff.
  - injection E as ->. right. rewrite Nat.add_0_r. left. auto.
  - left. rewrite Nat.add_succ_r. apply (IH (S n)). auto.
Qed.

Lemma math_sound : forall s t t1 r, unique t -> parseMath s t = Ok (r, t1) -> unique t1.
Proof. intros s t t1 r U E. destruct (parseMath_sound false t s (ok_false t U) ltac:(discriminate) _ _ E) as (O & _). apply O. Qed.

(** The pass never fails.  It replaces the formulas, and nothing else, by keys with increasing numbers; the token of every key has the text of its formula
    exactly as it is written. *)
Theorem C55_formulas : forall s pieces t, unique t -> reading s pieces ->
  exists t', parseMath s t = Ok (with_keys (tokenCounter t) pieces, t') /\
  tokenCounter t' = tokenCounter t + length (formulas pieces) /\ images t' = images t /\
  (forall i content, nth_error (formulas pieces) i = Some content -> lookup_token (token_key TOKEN_MATH (tokenCounter t + i)) (tokenMap t') = Some (MathToken content)) /\
  (forall key, (forall i, i < length (formulas pieces) -> key <> token_key TOKEN_MATH (tokenCounter t + i)) -> lookup_token key (tokenMap t') = lookup_token key (tokenMap t)).
Proof.
  intros s ps t U R. pose proof (parseMath_run s ps t R) as E. eexists. split; [exact E|]. cbn [tokenCounter images tokenMap]. split; [lia|]. split; [reflexivity|].
  pose proof (math_sound _ _ _ _ U E) as U'. split.
  - intros i g H. apply (In_key _ _ _ U'). cbn [tokenMap]. apply in_app_iff. left. apply math_tokens_In. auto.
  - intros key H. rewrite lookup_app. cut (lookup_token key (math_tokens (tokenCounter t) (formulas ps)) = None); [intros ->; auto|].
    clear E U'. revert H. generalize (tokenCounter t). induction (formulas ps) as [|g gs IH]; intros n H; auto. cbn [math_tokens]. rewrite lookup_app, IH.
    + cbn [lookup_token]. destruct (str_eqb key _) eqn:K; auto. apply str_eqb_eq in K. exfalso. apply (H 0); [cbn; lia|]. rewrite Nat.add_0_r. auto.
    + intros i L. specialize (H (S i)). cbn [length] in H. rewrite Nat.add_succ_r in H. apply H. lia.
Qed.
Print Assumptions C55_formulas.

(** The article: every formula of a quiet text has a token with its text in the parsed article.  (Missing: texts with other markup that is read before the
    formulas.  It is also read within the formulas, see below.) *)
Theorem C55_article_partial : forall cfg fuel s pieces content t t', unique t -> quiet s -> reading s pieces ->
  tokenizeContent cfg fuel s t = Ok (content, t') ->
  forall i formula, nth_error (formulas pieces) i = Some formula -> lookup_token (token_key TOKEN_MATH (tokenCounter t + i)) (tokenMap t') = Some (MathToken formula).
Proof.
  intros cfg fuel s ps content t t' U Q R E i g Hi. apply In_key.
  { destruct (tokenizeContent_runs cfg fuel t _ U _ _ E) as ((U' & _) & _). exact U'. }
  destruct fuel as [|fuel]; [discriminate E|]. cbn [tokenizeContent] in E. unfold bindM at 1 in E. rewrite (quiet_passes cfg (tokenizeContent cfg fuel) s Q) in E.
  unfold bindM at 1 in E. pose proof (parseMath_run s ps t R) as P. rewrite P in E. cbn [bind] in E.
  pose proof (math_sound _ _ _ _ U P) as U1. set (t1 := mkTokenizer _ _ _) in *.
  assert (I : In (token_key TOKEN_MATH (tokenCounter t + i), MathToken g) (tokenMap t1)).
  { unfold t1. cbn [tokenMap]. apply in_app_iff. left. apply math_tokens_In. auto. }
  destruct (after_math (tokenizeContent cfg fuel) _ t1) as [[c2 t2]| | |] eqn:E2; try discriminate. cbn [bind] in E.
  assert (S2 : ok false t2 /\ grows t1 t2).
  { assert (S : sound false (tokenizeContent cfg fuel)).
    { intros t0 s0 (U0 & _) _ a0 t0' E0. destruct (runs cfg fuel t0 s0 U0 _ _ E0) as (? & ? & _). split; auto. split; auto. discriminate. }
    assert (H : holds false t1 (after_math (tokenizeContent cfg fuel) (with_keys (tokenCounter t) ps)) (fun _ _ => True)).
    { unfold after_math. eapply holds_bind; [apply parseLists_sound; auto; [apply ok_false; auto|discriminate]|]. intros s11 t11 O11 _ _.
      eapply holds_bind; [apply parseTables_sound; auto; discriminate|]. intros s12 t12 O12 _ _. apply holds_ret; auto. }
    destruct (H _ _ E2) as (? & ? & _). auto. }
  destruct S2 as (O2 & G2). assert (I2 : In (token_key TOKEN_MATH (tokenCounter t + i), MathToken g) (tokenMap t2)) by (eapply keeps_In; [apply grows_keeps; eauto|auto]).
  destruct (str_eqb c2 _).
  - injection E as _ <-. exact I2.
  - destruct (tokenizeContent_runs cfg fuel t2 _ (proj1 O2) _ _ E) as (_ & G3 & _). eapply keeps_In; [apply grows_keeps; eauto|auto].
Qed.
Print Assumptions C55_article_partial.

(** A quiet text with two formulas, one of them with attributes and markup inside, in a list *)
Definition quiet_text : str := !"* Let <math>a_1 \in [0, 1]</math>" ++ nl ++ !"* and <math display=block>{x|x<y}" ++ nl ++ !"</math></math>.".

Fixpoint closes (s : str) : bool :=
  match s with
  | [] => false
  | c :: s' => if Ascii.eqb c "]" then true else if Ascii.eqb c "[" then false else closes s'
  end.
Fixpoint closed (s : str) : bool :=
  match s with
  | [] => true
  | c :: s' => (if Ascii.eqb c "[" then closes s' else true) && closed s'
  end.

Lemma closes_ok : forall s, closes s = true -> exists x y, s = x ++ !"]" ++ y /\ no_char "[" x.
Proof.
  induction s as [|c s IH]; [discriminate|]. cbn [closes]. destruct (Ascii.eqb_spec c "]") as [->|]; [exists [], s; split; auto; intros []|].
  destruct (Ascii.eqb_spec c "["); [discriminate|]. intros H. destruct (IH H) as (x & y & -> & N). exists (c :: x), y. split; auto. intros [I|I]; auto.
Qed.

Lemma closed_ok : forall s, closed s = true -> brackets_closed s.
Proof.
  intros s H a b ->. induction a as [|c a IH]; cbn [List.app closed] in H; apply andb_true_iff in H as [H1 H2]; auto. apply closes_ok. exact H1.
Qed.

Lemma letter_at : forall c s, math_match (c :: s) = None -> ~ formula_at (c :: s).
Proof. intros c s E F. apply formula_at_match in F. congruence. Qed.

Fixpoint read (s : str) (fuel : nat) : list piece :=
  match fuel, s with
  | S fuel', c :: s' => match math_match s with Some (m, g) => Formula g :: read (skipn (length m) s) fuel' | None => Letter c :: read s' fuel' end
  | _, _ => []
  end.

Lemma read_reading : forall fuel s, length s <= fuel -> reading s (read s fuel).
Proof.
  induction fuel as [|fuel IH]; intros s L; [destruct s; [constructor|cbn in L; lia]|]. destruct s as [|c s]; [constructor|]. cbn [read].
  destruct (math_match (c :: s)) as [[m g]|] eqn:E.
  - apply math_match_some in E as (a & r & O & -> & E). rewrite E, skipn_app, skipn_all, Nat.sub_diag. constructor; auto. apply IH. cbn [skipn]. cbn [List.app].
    apply (f_equal (@length ascii)) in E. rewrite app_length in E. cbn [length] in E, L. unfold formula_text in E. rewrite app_length in E. cbn [length] in E. lia.
  - constructor; [apply letter_at; auto|]. apply IH. cbn in L. lia.
Qed.

Lemma no_tag_here : forall tag s, contains tag (to_lower s) = false -> no_tag tag s.
Proof. auto. Qed.

Example C55_example :
  quiet quiet_text /\ formulas (read quiet_text 200) = [!"a_1 \in [0, 1]"; !"{x|x<y}" ++ nl] /\ reading quiet_text (read quiet_text 200) /\
  exists content t', tokenizeContent default_config 50 quiet_text NewTokenizer = Ok (content, t') /\
    lookup_token (token_key TOKEN_MATH 0) (tokenMap t') = Some (MathToken !"a_1 \in [0, 1]").
Proof.
  split; [|split; [vm_compute; reflexivity|split; [apply read_reading; vm_compute; repeat constructor|]]].
  - constructor.
    + apply contains_false. vm_compute. reflexivity.
    + intros line L. apply line_split in L. intros (l & core & r & Bl & Br & E & (x & S1) & _).
      assert (P : has_prefix !"=" (trim_left line) = false) by (revert L; vm_compute; intros L; repeat (destruct L as [<-|L]; [reflexivity|]); destruct L).
      rewrite E in P. rewrite trim_left_blank in P by auto. rewrite S1 in P. rewrite trim_left_fix in P; [discriminate P|].
      intros p I. apply solid_first; [reflexivity|auto].
    + apply contains_false. vm_compute. reflexivity.
    + apply closed_ok. vm_compute. reflexivity.
    + intros tag I. apply no_tag_here. repeat (destruct I as [<-|I]; [vm_compute; reflexivity|]). destruct I.
  - vm_compute. eexists. eexists. split; reflexivity.
Qed.

(** Not for every text: the derivatives of a function are two quotes, which are markers of italic text for the parser. *)
Theorem C55_derivative_refuted : exists formula text content t', text = formula_text [] formula /\ reading text [Formula formula] /\
  tokenizeContent default_config 50 text NewTokenizer = Ok (content, t') /\ forall key, lookup_token key (tokenMap t') <> Some (MathToken formula).
Proof.
  set (formula := !"f''(x)=g''(x)"). exists formula, (formula_text [] formula).
  assert (E : exists content t', tokenizeContent default_config 50 (formula_text [] formula) NewTokenizer = Ok (content, t') /\
    tokenMap t' = [(token_key TOKEN_MATH 0, MathToken (!"f" ++ MARKER_ITALIC_OPEN ++ !"(x)=g" ++ MARKER_ITALIC_CLOSE ++ !"(x)"))])
    by (vm_compute; eexists; eexists; split; reflexivity).
  destruct E as (content & t' & E & M). exists content, t'. split; auto. split; [|split; [exact E|]].
  - rewrite <- (app_nil_r (formula_text [] formula)). constructor; [|constructor]. split; [intros []|split; [intros []|]]. apply contains_false. reflexivity.
  - intros key H. rewrite M in H. cbn [lookup_token] in H. destruct (str_eqb _ _); discriminate H.
Qed.
Print Assumptions C55_derivative_refuted.

(** Half-open intervals: the pass for links closes brackets, within the formula and behind it. *)
Theorem C55_interval_refuted : exists formula text t', text = formula_text [] formula /\ reading text [Formula formula] /\
  tokenizeContent default_config 50 text NewTokenizer = Ok (token_key TOKEN_MATH 0 ++ !"]", t') /\
  formula = !"[0, 1) \cup [2, 3)" /\ lookup_token (token_key TOKEN_MATH 0) (tokenMap t') = Some (MathToken !"[0, 1) \cup ][2, 3)").
Proof.
  exists !"[0, 1) \cup [2, 3)". eexists. eexists. split; [reflexivity|]. split; [|split; [vm_compute; reflexivity|split; reflexivity]].
  rewrite <- (app_nil_r (formula_text [] _)). constructor; [|constructor]. split; [intros []|split; [intros []|]]. apply contains_false. reflexivity.
Qed.
Print Assumptions C55_interval_refuted.
