(** * Proofs about formulas *)

From Coq Require Import Ascii String.
From Coq Require Import List Arith Bool Lia.
From Verif Require Import GoStr GoStrFacts TextFacts TokenModel TokenSpec TokenProofs PassSpec HeadingModel MarkupSpec MathSpec.
Import ListNotations.
Local Open Scope list_scope.

Lemma tag_end_some : forall s i, tag_end s = Some i <-> exists a r, s = a ++ !">" ++ r /\ length a = i /\ no_char ">" a /\ no_char nl_char a.
Proof.
  induction s as [|c s IH]; intros i; cbn [tag_end].
  - split; [discriminate|]. intros ([|] & r & E & _); discriminate E.
  - destruct (Ascii.eqb_spec c ">") as [->|N].
    + split.
      * intros E. injection E as <-. exists [], s. repeat split; auto; intros [].
      * intros ([|x a] & r & E & <- & A & _); auto. injection E as <- _. exfalso. apply A. left. auto.
    + destruct (Ascii.eqb_spec c nl_char) as [->|N2].
      * split; [discriminate|]. intros ([|x a] & r & E & _ & _ & A); [discriminate E|]. injection E as <- _. exfalso. apply A. left. auto.
      * split.
        -- intros E. destruct (tag_end s) as [j|] eqn:T; [|discriminate]. injection E as <-. destruct (proj1 (IH j) eq_refl) as (a & r & -> & <- & A & B).
           exists (c :: a), r. repeat split; auto; intros [->|I]; auto.
        -- intros ([|x a] & r & E & <- & A & B); [injection E as -> _; congruence|]. injection E as <- ->.
           assert (T : tag_end (a ++ !">" ++ r) = Some (length a)).
           { apply IH. exists a, r. repeat split; auto; intros I; [apply A|apply B]; right; auto. }
           cbn [List.app] in T. rewrite T. reflexivity.
Qed.

Lemma tag_end_newline : forall x y, no_char ">" x -> no_char nl_char x -> tag_end (x ++ nl ++ y) = None.
Proof.
  induction x as [|c x IH]; intros y A B; [reflexivity|]. cbn [List.app tag_end]. destruct (Ascii.eqb_spec c ">") as [->|]; [exfalso; apply A; left; auto|].
  destruct (Ascii.eqb_spec c nl_char); auto. rewrite IH; auto; intros I; [apply A|apply B]; right; auto.
Qed.

Lemma tag_end_none : forall s, tag_end s = None -> (no_char ">" s /\ no_char nl_char s) \/ exists x y, s = x ++ nl ++ y /\ no_char ">" x /\ no_char nl_char x.
Proof.
  induction s as [|c s IH]; cbn [tag_end]; intros E; [left; split; intros []|].
  destruct (Ascii.eqb_spec c ">") as [->|N]; [discriminate|]. destruct (Ascii.eqb_spec c nl_char) as [->|N2].
  - right. exists [], s. repeat split; auto; intros [].
  - destruct (tag_end s); [discriminate|]. destruct (IH eq_refl) as [(A & B)|(x & y & -> & A & B)].
    + left. split; intros [->|I]; auto; congruence.
    + right. exists (c :: x), y. repeat split; auto; intros [->|I]; auto; congruence.
Qed.

Lemma end_tag_first : forall g r, (forall x y, g <> x ++ !"</math>" ++ y) -> index !"</math>" (g ++ !"</math>" ++ r) = Some (length g).
Proof.
  intros g r H. apply (index_fresh_first "<"%char !"/math>" g r).
  - intros I. repeat (destruct I as [I|I]; [discriminate I|]). destruct I.
  - apply contains_false. auto.
Qed.

Lemma match_formula : forall a g r, formula_ok a g -> math_match (formula_text a g ++ r) = Some (formula_text a g, g).
Proof.
  intros a g r (A & B & C). unfold math_match, formula_text. rewrite <- !app_assoc. rewrite has_prefix_app.
  change (skipn 5 (!"<math" ++ a ++ !">" ++ g ++ !"</math>" ++ r)) with (a ++ !">" ++ g ++ !"</math>" ++ r).
  rewrite (proj2 (tag_end_some (a ++ !">" ++ g ++ !"</math>" ++ r) (length a))) by (exists a, (g ++ !"</math>" ++ r); auto).
  assert (S : skipn (5 + length a + 1) (!"<math" ++ a ++ !">" ++ g ++ !"</math>" ++ r) = g ++ !"</math>" ++ r).
  { rewrite (app_assoc !"<math"), (app_assoc (!"<math" ++ a)), skipn_app, skipn_all2; rewrite !app_length; cbn [length]; [|lia].
    replace (5 + length a + 1 - _) with 0 by lia. reflexivity. }
  rewrite S, end_tag_first by auto. f_equal. f_equal.
  - rewrite (app_assoc (g)), (app_assoc !">"), (app_assoc a), (app_assoc !"<math"), firstn_app, firstn_all2; rewrite !app_length; cbn [length]; [|lia].
    replace (5 + length a + 1 + length g + 7 - _) with 0 by lia. rewrite firstn_O, app_nil_r. reflexivity.
  - rewrite firstn_app, firstn_all, Nat.sub_diag, firstn_O. apply app_nil_r.
Qed.

Lemma math_match_some : forall s m g, math_match s = Some (m, g) -> exists a r, formula_ok a g /\ m = formula_text a g /\ s = m ++ r.
Proof.
  intros s m g E. pose proof E as E0. unfold math_match in E. destruct (has_prefix !"<math" s) eqn:P; [|discriminate]. apply has_prefix_spec in P as (s' & ->).
  change (skipn 5 (!"<math" ++ s')) with s' in E. destruct (tag_end s') as [i|] eqn:T; [|discriminate]. apply tag_end_some in T as (a & u & -> & <- & A & B).
  destruct (index _ _) as [j|] eqn:I in E; [|discriminate].
  assert (S : skipn (5 + length a + 1) (!"<math" ++ a ++ !">" ++ u) = u).
  { rewrite (app_assoc !"<math"), (app_assoc (!"<math" ++ a)), skipn_app, skipn_all2; rewrite !app_length; cbn [length]; [|lia].
    replace (5 + length a + 1 - _) with 0 by lia. reflexivity. }
  rewrite S in I. pose proof I as I'. apply index_some_split in I as (x & y & -> & <- & _). clear S E. apply (index_prefix_none !"</math>" x y) in I'; [|discriminate].
  rewrite index_none in I'.
  assert (O : formula_ok a x) by (split; [auto|split; auto]). exists a, y.
  assert (Es : !"<math" ++ a ++ !">" ++ x ++ !"</math>" ++ y = formula_text a x ++ y) by (unfold formula_text; rewrite <- !app_assoc; reflexivity).
  rewrite Es in E0. rewrite match_formula in E0 by auto. assert (m = formula_text a x /\ g = x) as [-> ->] by (split; congruence). auto.
Qed.

Lemma formula_at_match : forall s, formula_at s <-> math_match s <> None.
Proof.
  intros s. split.
  - intros (a & g & r & O & ->). rewrite match_formula; auto. discriminate.
  - intros H. destruct (math_match s) as [[m g]|] eqn:E; [|congruence]. apply math_match_some in E as (a & r & O & -> & ->). exists a, g, r. auto.
Qed.

Lemma contains_match : forall b u, no_char nl_char b -> no_char ">" b -> (exists x y, u = x ++ !"</math>" ++ y) -> formula_at (!"<math" ++ b ++ !">" ++ u).
Proof.
  intros b u A B (x & y & E). destruct (index !"</math>" u) as [j|] eqn:I; [|rewrite index_none in I; destruct (I _ _ E)].
  pose proof I as I'. apply index_some_split in I as (x' & y' & -> & <- & _). apply (index_prefix_none !"</math>" x' y') in I'; [|discriminate]. rewrite index_none in I'.
  exists b, x', y'. split; [split; auto|]. unfold formula_text. rewrite <- !app_assoc. reflexivity.
Qed.

(** Where no formula begins although there is one behind, there begins none if the rest is replaced. *)
Lemma stays_no_formula : forall b a g r z, b <> [] -> formula_ok a g -> ~ formula_at (b ++ formula_text a g ++ r) ->
  (forall c z', z = c :: z' -> ~ In c !"math") -> ~ formula_at (b ++ z).
Proof.
  intros b a g r z N O F Z (a' & g' & r' & O' & E). unfold formula_text in E. rewrite <- !app_assoc in E.
  destruct (app_app_cases _ _ _ _ E) as [(w & W & K)|(w & W & K)].
  - (* the tag goes on in z *)
    destruct w as [|c w].
    + rewrite app_nil_r in W. subst b. apply F. destruct O as (A & B & C). exists (!"<math" ++ a), g, r. split.
      * split; [|split; auto]; intros I; apply in_app_iff in I as [I|I]; auto; repeat (destruct I as [I|I]; [discriminate I|]); destruct I.
      * unfold formula_text. rewrite <- !app_assoc. reflexivity.
    + apply (Z c _ K). destruct b as [|b0 b]; [congruence|]. injection W as _ W. rewrite W. apply in_app_iff. right. left. auto.
  - subst b. rewrite <- app_assoc in F. destruct (tag_end w) as [i|] eqn:T.
    + apply tag_end_some in T as (x & y & -> & _ & A & B). apply F. rewrite <- !app_assoc. apply contains_match; auto.
      exists (y ++ !"<math" ++ a ++ !">" ++ g), r. unfold formula_text. rewrite <- !app_assoc. reflexivity.
    + apply tag_end_none in T as [(A & B)|(x & y & -> & A & B)].
      * apply F. destruct O as (A' & B' & C). exists (w ++ !"<math" ++ a), g, r. split.
        -- split; [|split; auto]; intros I; apply in_app_iff in I as [I|I]; auto; apply in_app_iff in I as [I|I]; auto; repeat (destruct I as [I|I]; [discriminate I|]); destruct I.
        -- unfold formula_text. rewrite <- !app_assoc. reflexivity.
      * assert (T : tag_end (a' ++ !">" ++ g' ++ !"</math>" ++ r') = Some (length a')) by (apply tag_end_some; exists a', (g' ++ !"</math>" ++ r'); destruct O' as (? & ? & ?); auto).
        rewrite K in T. rewrite <- !app_assoc in T. rewrite tag_end_newline in T by auto. discriminate.
Qed.

(** ** Readings *)

Lemma reading_exists : forall n s, length s <= n -> exists pieces, reading s pieces.
Proof.
  induction n as [|n IH]; intros s L; [destruct s; [exists []; constructor|cbn in L; lia]|].
  destruct s as [|c s]; [exists []; constructor|]. destruct (math_match (c :: s)) as [[m g]|] eqn:E.
  - apply math_match_some in E as (a & r & O & -> & E). rewrite E. destruct (IH r) as (ps & R).
    { apply (f_equal (@length ascii)) in E. rewrite app_length in E. cbn [length] in E, L. unfold formula_text in E. rewrite app_length in E. cbn [length] in E. lia. }
    exists (Formula g :: ps). constructor; auto.
  - destruct (IH s) as (ps & R); [cbn in L; lia|]. exists (Letter c :: ps). constructor; auto. rewrite formula_at_match, E. congruence.
Qed.

Lemma reading_cases : forall s ps, reading s ps -> (s = [] /\ ps = []) \/
  (exists a g r ps', formula_ok a g /\ reading r ps' /\ s = formula_text a g ++ r /\ ps = Formula g :: ps') \/
  (exists c r ps', ~ formula_at (c :: r) /\ reading r ps' /\ s = c :: r /\ ps = Letter c :: ps').
Proof. intros s ps [|a g r ps' O R|c r ps' F R]; [left; auto|right; left; exists a, g, r, ps'; auto|right; right; exists c, r, ps'; auto]. Qed.

Lemma reading_unique : forall s ps1, reading s ps1 -> forall ps2, reading s ps2 -> ps1 = ps2.
Proof.
  induction 1 as [|a g r ps O R IH|c r ps F R IH]; intros ps2 R2; apply reading_cases in R2 as [(E & ->)|[(a' & g' & r' & ps' & O' & R' & E & ->)|(c' & r' & ps' & F' & R' & E & ->)]]; auto.
  - unfold formula_text in E; discriminate E.
  - discriminate E.
  - unfold formula_text in E; discriminate E.
  - pose proof (match_formula a' g' r' O') as M1. rewrite <- E in M1. rewrite match_formula in M1 by auto.
    assert (M2 : formula_text a g = formula_text a' g') by congruence. assert (M3 : g = g') by congruence. subst g'. rewrite M2 in E. apply app_inv_head in E. subst r'.
    f_equal. auto.
  - exfalso. apply F'. rewrite <- E. exists a, g, r. auto.
  - discriminate E.
  - exfalso. apply F. rewrite E. exists a', g', r'. auto.
  - injection E as <- <-. f_equal. auto.
Qed.

(** ** The pass *)

Lemma matches_skip : forall s k, math_matches s k = math_matches (skipn k s) 0.
Proof. induction s as [|c s IH]; intros [|k]; auto. cbn [math_matches skipn]. apply IH. Qed.

Lemma key_start : forall n, exists k, token_key TOKEN_MATH n = "$"%char :: k /\ ~ In "<"%char (token_key TOKEN_MATH n).
Proof.
  intros n. eexists. split; [reflexivity|]. unfold token_key. rewrite !in_app_iff. intros [H|[H|[H|[H|H]]]].
  1-3,5: repeat (destruct H as [H|H]; [discriminate H|]); destruct H. pose proof (itoa_digits n) as D. rewrite Forall_forall in D. specialize (D _ H). discriminate D.
Qed.

Fixpoint math_tokens (n : nat) (gs : list str) : list (str * Token) :=
  match gs with
  | [] => []
  | g :: gs' => math_tokens (S n) gs' ++ [(token_key TOKEN_MATH n, MathToken g)]
  end.

Lemma first_formula : forall pre a g r, formula_ok a g -> (forall x b, pre = x ++ b -> b <> [] -> ~ formula_at (b ++ formula_text a g ++ r)) ->
  index (formula_text a g) (pre ++ formula_text a g ++ r) = Some (length pre).
Proof.
  intros pre a g r O F. destruct (index (formula_text a g) (pre ++ formula_text a g ++ r)) as [k|] eqn:I; [|rewrite index_none in I; destruct (I _ _ eq_refl)].
  pose proof (index_some _ _ _ I) as Min. apply index_some_split in I as (x & y & E & <- & _). f_equal.
  destruct (Nat.lt_trichotomy (length x) (length pre)) as [L|[L|L]]; auto; exfalso.
  - assert (P : firstn (length x) pre = x).
    { apply (f_equal (firstn (length x))) in E. rewrite !firstn_app, firstn_all, Nat.sub_diag, firstn_O, app_nil_r in E. replace (length x - length pre) with 0 in E by lia.
      rewrite firstn_O, app_nil_r in E. auto. }
    rewrite <- (firstn_skipn (length x) pre), P in E. rewrite <- !app_assoc in E. apply app_inv_head in E.
    apply (F x (skipn (length x) pre)).
    + rewrite <- P at 1. symmetry. apply firstn_skipn.
    + intros Z. apply (f_equal (@length ascii)) in Z. rewrite skipn_length in Z. cbn in Z. lia.
    + rewrite E. exists a, g, y. auto.
  - destruct Min as (_ & _ & Min). specialize (Min (length pre) L). rewrite skipn_app, skipn_all, Nat.sub_diag in Min. cbn [List.app skipn] in Min. rewrite has_prefix_app in Min. discriminate.
Qed.

Lemma replace_formula : forall pre a g r key, formula_ok a g -> (forall x b, pre = x ++ b -> b <> [] -> ~ formula_at (b ++ formula_text a g ++ r)) ->
  replace_first (formula_text a g) key (pre ++ formula_text a g ++ r) = pre ++ key ++ r.
Proof.
  intros pre a g r key O F. unfold replace_first. rewrite first_formula; auto. rewrite firstn_app, firstn_all, Nat.sub_diag, firstn_O, app_nil_r.
  rewrite (app_assoc pre (formula_text a g) r), skipn_app, app_length, Nat.sub_diag, skipn_all2 by (rewrite app_length; lia). reflexivity.
Qed.

Lemma no_less_no_formula : forall c s, c <> "<"%char -> ~ formula_at (c :: s).
Proof. intros c s N (a & g & r & _ & E). unfold formula_text in E. injection E as E _. congruence. Qed.

Lemma math_run : forall s ps, reading s ps -> forall pre t, (forall x b, pre = x ++ b -> b <> [] -> ~ formula_at (b ++ s)) ->
  parseMath_go (math_matches s 0) (pre ++ s) t =
    Ok (pre ++ with_keys (tokenCounter t) ps, mkTokenizer (math_tokens (tokenCounter t) (formulas ps) ++ tokenMap t) (length (formulas ps) + tokenCounter t) (images t)).
Proof.
  induction 1 as [|a g r ps O R IH|c r ps F R IH]; intros pre t N.
  - destruct t; reflexivity.
  - assert (M : math_matches (formula_text a g ++ r) 0 = (formula_text a g, g) :: math_matches r 0).
    { assert (D : exists s', formula_text a g ++ r = "<"%char :: s') by (unfold formula_text; eexists; reflexivity). destruct D as (s' & D).
      pose proof (match_formula a g r O) as M. rewrite D in M |- *. cbn [math_matches]. rewrite M. f_equal. rewrite matches_skip. f_equal.
      apply (f_equal (skipn (length (formula_text a g)))) in D. rewrite skipn_app, skipn_all, Nat.sub_diag in D. cbn [List.app skipn] in D. rewrite D.
      unfold formula_text. reflexivity. }
    rewrite M. cbn [parseMath_go]. unfold bindM, getToken, setRawToken at 1. cbn [bind tokenCounter tokenMap images].
    rewrite replace_formula by auto. rewrite app_assoc, IH.
    + cbn [tokenCounter tokenMap images with_keys formulas math_tokens length]. rewrite <- !app_assoc. cbn [List.app]. rewrite Nat.add_succ_r. reflexivity.
    + cbn [tokenCounter]. intros x b E B. destruct (key_start (tokenCounter t)) as (k & K & NK). destruct (app_app_cases _ _ _ _ E) as [(z & -> & K2)|(z & -> & ->)].
      * destruct b as [|c b]; [congruence|]. cbn [List.app]. apply no_less_no_formula. intros ->. apply NK. rewrite K2. apply in_app_iff. right. left. auto.
      * rewrite <- app_assoc. destruct z as [|c z].
        -- cbn [List.app]. rewrite K. cbn [List.app]. apply no_less_no_formula. discriminate.
        -- apply stays_no_formula with (a := a) (g := g) (r := r); auto; [discriminate|apply (N x); auto; discriminate|].
           intros c' z' E'. rewrite K in E'. injection E' as <- _. intros I. repeat (destruct I as [I|I]; [discriminate I|]). destruct I.
  - assert (M : math_matches (c :: r) 0 = math_matches r 0).
    { cbn [math_matches]. destruct (math_match (c :: r)) as [[m g]|] eqn:E; auto. exfalso. apply F. apply formula_at_match. congruence. }
    rewrite M. change (c :: r) with ([c] ++ r). rewrite app_assoc, IH.
    + rewrite <- app_assoc. reflexivity.
    + intros x b E B. destruct (app_app_cases _ _ _ _ E) as [(z & -> & K2)|(z & -> & ->)].
      * destruct z as [|c0 z]; [cbn in K2; subst b; auto|]. cbn [List.app] in K2. injection K2 as _ K2. destruct z; [cbn in K2; congruence|discriminate K2].
      * rewrite <- app_assoc. destruct z as [|c' z]; [auto|]. apply (N x); auto. discriminate.
Qed.

Lemma parseMath_run : forall s ps t, reading s ps ->
  parseMath s t = Ok (with_keys (tokenCounter t) ps, mkTokenizer (math_tokens (tokenCounter t) (formulas ps) ++ tokenMap t) (length (formulas ps) + tokenCounter t) (images t)).
Proof. intros s ps t R. unfold parseMath. apply (math_run s ps R []). intros [|] b E B; [|discriminate E]. cbn in E. congruence. Qed.
