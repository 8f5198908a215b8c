(** * Proofs about tables *)

From Coq Require Import Ascii String.
From Coq Require Import List Arith Bool Lia.
From Verif Require Import GoStr GoStrFacts TextFacts TrimFacts TokenModel TableModel TokenSpec PassSpec TableSpec TableAttributeProofs TokenProofs PassProofs JudgeProofs HeadingProofs LinkProofs.
Import ListNotations.
Local Open Scope list_scope.

(** ** White space *)

Lemma blank_nil : blank [].
Proof. constructor. Qed.

Lemma trimmed_refl : forall s, trimmed s s.
Proof. intros s. exists [], []. split; [apply blank_nil|]. split; [apply blank_nil|]. cbn [app]. rewrite app_nil_r. auto. Qed.

Lemma trimmed_trim : forall s, trimmed s (trim_space s).
Proof. intros s. destruct (trim_space_spec s) as (l & r & E & Bl & Br & _). exists l, r. auto. Qed.

Lemma trimmed_left : forall s, trimmed s (trim_left s).
Proof. intros s. destruct (trim_left_spec s) as (l & E & B & _). exists l, []. split; auto. split; [apply blank_nil|]. rewrite app_nil_r. auto. Qed.

Lemma trimmed_right : forall s, trimmed s (trim_right s).
Proof. intros s. destruct (trim_right_spec s) as (r & E & B & _). exists [], r. split; [apply blank_nil|]. auto. Qed.

Lemma trimmed_In : forall s s' c, trimmed s s' -> In c s' -> In c s.
Proof. intros s s' c (l & r & _ & _ & ->) I. rewrite !in_app_iff. auto. Qed.

Lemma prefix_before : forall m p a b, ~ In m p -> has_prefix p (a ++ m :: b) = true -> has_prefix p a = true.
Proof.
  intros m p. induction p as [|x p IH]; intros a b N H; [destruct a; auto|]. destruct a as [|y a]; cbn [app] in H; rewrite has_prefix_cons in *.
  - apply andb_prop in H as [H _]. apply Ascii.eqb_eq in H. exfalso. apply N. left. auto.
  - apply andb_prop in H as [H1 H2]. rewrite H1. cbn [andb]. apply (IH a b); auto. intros I. apply N. right. auto.
Qed.

Lemma trim_left_mid : forall m a b, solid m = true -> trim_left (a ++ m :: b) = trim_left a ++ m :: b.
Proof.
  intros m a b S. destruct (trim_left_spec a) as (l & E & B & F). rewrite E at 1. rewrite <- app_assoc, trim_left_blank; auto. apply trim_left_fix.
  intros p I. destruct (has_prefix p (trim_left a ++ m :: b)) eqn:H; auto. apply prefix_before in H; [rewrite F in H; auto|]. apply solid_In; auto.
Qed.

Lemma trim_right_mid : forall m a b, solid m = true -> trim_right (a ++ m :: b) = a ++ m :: trim_right b.
Proof.
  intros m a b S. destruct (trim_right_spec b) as (r & E & B & F). rewrite E at 1.
  replace (a ++ m :: trim_right b ++ r) with ((a ++ m :: trim_right b) ++ r) by (rewrite <- app_assoc; auto). rewrite trim_right_blank; auto. apply trim_right_fix.
  intros p I. destruct (has_suffix p (a ++ m :: trim_right b)) eqn:H; auto. unfold has_suffix in H. rewrite rev_app_distr in H. cbn [rev] in H.
  rewrite <- app_assoc in H. cbn [app] in H. apply prefix_before in H.
  - specialize (F p I). unfold has_suffix in F. rewrite F in H. auto.
  - intros X. apply in_rev in X. eapply solid_In; eauto.
Qed.

Lemma trim_mid : forall m a b, solid m = true -> trim_space (a ++ m :: b) = trim_left a ++ m :: trim_right b.
Proof. intros m a b S. unfold trim_space. rewrite trim_left_mid, trim_right_mid; auto. Qed.

Lemma trim_left_nil : trim_left [] = [].
Proof. reflexivity. Qed.

Lemma trim_cons : forall m s, solid m = true -> trim_space (m :: s) = m :: trim_right s.
Proof. intros m s S. apply (trim_mid m [] s S). Qed.

Lemma trim_right_start : forall c s, starts_with c (trim_right s) -> starts_with c s.
Proof. intros c s (x & X). destruct (trim_right_spec s) as (r & E & _). rewrite X in E. exists (x ++ r). auto. Qed.

Lemma trim_trim_right : forall s, trimmed s (trim_space (trim_right s)).
Proof.
  intros s. destruct (trim_right_spec s) as (r & E & B & _). destruct (trim_space_spec (trim_right s)) as (l & r' & E' & Bl & Br & _).
  exists l, (r' ++ r). split; auto. split; [apply Forall_app || idtac|].
  - unfold blank in *. apply made_of_app; auto.
  - rewrite E at 1. rewrite E' at 1. rewrite <- !app_assoc. auto.
Qed.

(** ** Replacing separators *)

Lemma ends_with_cons : forall c x a, a <> [] -> ends_with c (x :: a) -> ends_with c a.
Proof. intros c x a N (y & E). destruct y as [|z y]; [injection E as _ E; contradiction|]. injection E as _ E. exists y. auto. Qed.

Lemma replace_app : forall c r n a b, length a <= n -> ~ ends_with c a \/ ~ starts_with c b ->
  replace_all [c; c] r (a ++ b) = replace_all [c; c] r a ++ replace_all [c; c] r b.
Proof.
  intros c r n. induction n as [|n IH]; intros a b L H; [destruct a; [auto|cbn in L; lia]|].
  destruct a as [|x a]; [auto|]. destruct (has_prefix [c; c] (x :: a)) eqn:E.
  - apply has_prefix_spec in E as (z & E). rewrite E, <- app_assoc. rewrite !replace_all_hit by discriminate. rewrite <- app_assoc. f_equal. apply IH.
    + apply (f_equal (@length _)) in E. cbn in *. lia.
    + destruct H as [H|H]; auto. left. intros (y & Y). apply H. exists (c :: c :: y). rewrite E, Y. auto.
  - assert (E' : has_prefix [c; c] (x :: a ++ b) = false).
    { destruct a as [|y a]; [|exact E]. destruct (has_prefix [c; c] (x :: [] ++ b)) eqn:K; auto. cbn [app] in K. rewrite has_prefix_cons in K. apply andb_prop in K as [K1 K2].
      apply Ascii.eqb_eq in K1. subst x. apply has_prefix_spec in K2 as (z & K2). exfalso. destruct H as [H|H]; apply H; [exists []; auto|exists z; auto]. }
    cbn [app]. rewrite !replace_all_cons; auto. cbn [app]. f_equal. apply IH; [cbn in L; lia|].
    destruct a as [|y a]; [left; intros (z & Z); destruct z; discriminate|]. destruct H as [H|H]; auto. left. intros (z & Z). apply H. exists (x :: z). rewrite Z. auto.
Qed.

Lemma replace_line : forall c r a b, c <> nl_char -> replace_all [c; c] r (a ++ nl ++ b) = replace_all [c; c] r a ++ nl ++ replace_all [c; c] r b.
Proof.
  intros c r a b N. rewrite (replace_app c r (length a)); auto.
  - f_equal. unfold nl. cbn [app]. rewrite replace_all_cons; auto. apply has_prefix_neq. auto.
  - right. intros (z & Z). injection Z as Z _. auto.
Qed.

Lemma replace_lines : forall c r ls, c <> nl_char -> replace_all [c; c] r (join nl ls) = join nl (map (replace_all [c; c] r) ls).
Proof.
  intros c r ls N. induction ls as [|l ls IH]; [reflexivity|]. destruct ls as [|l' ls]; [reflexivity|]. rewrite join_cons by discriminate. cbn [map].
  rewrite (join_cons nl _ (_ :: _)) by discriminate. rewrite replace_line, IH; auto.
Qed.

Lemma split_lines : forall ls, ls <> [] -> split nl (join nl ls) = flat_map (split nl) ls.
Proof.
  induction ls as [|l ls IH]; [contradiction|]. intros _. destruct ls as [|l' ls]; [cbn [join flat_map]; rewrite app_nil_r; auto|].
  rewrite join_cons by discriminate. unfold nl at 2. cbn [app]. unfold nl at 1. rewrite split_app_single. cbn [flat_map]. f_equal. apply IH. discriminate.
Qed.

(** The lines of a table after every cell has been put on its own line *)
Definition pieces (l : str) : list str := split nl (replace_all !"!!" (nl ++ !"!") (replace_all !"||" (nl ++ !"|") l)).

Lemma table_pieces : forall ls, ls <> [] ->
  split nl (replace_all !"!!" (nl ++ !"!") (replace_all !"||" (nl ++ !"|") (join nl ls))) = flat_map pieces ls.
Proof.
  intros ls N. change !"||" with ["|"%char; "|"%char]. change !"!!" with ["!"%char; "!"%char]. rewrite !replace_lines by discriminate.
  rewrite split_lines, !flat_map_concat_map, !map_map; auto. destruct ls; [contradiction|discriminate].
Qed.

Lemma clean_pieces : forall l, clean l -> pieces l = [l].
Proof.
  intros l (N & A & B). unfold pieces. rewrite (replace_all_none !"||"); [|apply contains_false_index; auto]. rewrite (replace_all_none !"!!"); [|apply contains_false_index; auto].
  apply split_single_none. exact N.
Qed.

Lemma no_bar_double : forall s, no_char "|" s -> contains !"||" s = false.
Proof. intros s N. destruct (contains !"||" s) eqn:E; auto. apply contains_spec in E as (a & b & ->). exfalso. apply N. rewrite in_app_iff. right. left. auto. Qed.

Lemma source_no_double : forall c, cell_ok c -> contains !"||" (cell_source c) = false /\ one_line (cell_source c).
Proof.
  intros c ((O & N & _) & A & _). unfold cell_source. destruct (attributes c) as [a|]; [|split; auto using no_bar_double].
  destruct (A a eq_refl) as ((Oa & Na & _) & Ne). split.
  - destruct (contains !"||" (a ++ !"|" ++ cell_text c)) eqn:E; auto. apply contains_spec in E as (x & y & E). exfalso.
    assert (Ex : forall a' x', a' ++ "|"%char :: cell_text c = x' ++ "|"%char :: "|"%char :: y -> no_char "|" a' -> False).
    { induction a' as [|h a' IH]; intros x' E' N'; destruct x' as [|k x']; cbn [app] in E'; apply (f_equal (@tl ascii)) in E' as E2; apply (f_equal (@hd ascii "0"%char)) in E' as E0; cbn [tl hd] in E0, E2; clear E'; rename E2 into E'.
      - apply N. rewrite E'. left. auto.
      - apply N. rewrite E'. rewrite in_app_iff. right. left. auto.
      - apply N'. left. auto.
      - eapply IH; eauto. intros I. apply N'. right. auto. }
    apply (Ex a x E Na).
  - unfold one_line, no_char. rewrite !in_app_iff. cbn. intros [I|[[I|[]]|I]]; [apply Oa; auto|discriminate|apply O; auto].
Qed.

(** The cells on the lines *)
Definition cell_line (c : cell) : str := mark c :: cell_source c.

Lemma mark_bar : forall c, mark c = if heading c then "!"%char else "|"%char.
Proof. reflexivity. Qed.

Definition after_bars (c : cell) : str := (if heading c then !"!!" else nl ++ !"|") ++ cell_source c.

Lemma bars_go : forall cells p, inline_ok cells -> contains !"||" p = false -> (cells = [] \/ ~ ends_with "|" p) ->
  replace_all !"||" (nl ++ !"|") (p ++ concat (map (fun c => [mark c; mark c] ++ cell_source c) cells)) = p ++ concat (map after_bars cells).
Proof.
  intros cells. induction cells as [|c cells IH]; intros p I C E; cbn [map concat].
  - rewrite !app_nil_r. apply replace_all_none. apply contains_false_index. auto.
  - destruct E as [E|E]; [discriminate|]. change !"||" with ["|"%char; "|"%char] at 1. rewrite (replace_app "|" _ (length p)); auto.
    change ["|"%char; "|"%char] with !"||". rewrite (replace_all_none !"||" _ p) by (apply contains_false_index; auto). f_equal.
    assert (Ok : cell_ok c) by (inversion I; auto). destruct (source_no_double c Ok) as [D _].
    assert (R : replace_all !"||" (nl ++ !"|") (cell_source c ++ concat (map (fun c => [mark c; mark c] ++ cell_source c) cells)) = cell_source c ++ concat (map after_bars cells)).
    { inversion I as [|? c' cells' O1 (E1 & _) I1]; subst.
      - cbn [map concat]. rewrite !app_nil_r. apply replace_all_none. apply contains_false_index. auto.
      - apply IH; auto. }
    unfold after_bars at 1. rewrite mark_bar. rewrite <- !app_assoc. destruct (heading c).
    + change (["!"%char; "!"%char] ++ cell_source c ++ concat (map (fun c => [mark c; mark c] ++ cell_source c) cells))
        with (!"!!" ++ (cell_source c ++ concat (map (fun c => [mark c; mark c] ++ cell_source c) cells))).
      change !"||" with ["|"%char; "|"%char] at 1. rewrite (replace_app "|" _ 2); [|auto|left; intros (z & Z); destruct z as [|? [|? [|? ?]]]; discriminate].
      change ["|"%char; "|"%char] with !"||". rewrite R. reflexivity.
    + change ["|"%char; "|"%char] with !"||". rewrite replace_all_hit by discriminate. rewrite R, <- app_assoc. reflexivity.
Qed.

Lemma marks_go : forall cells p, inline_ok cells -> contains !"!!" p = false -> (cells = [] \/ ~ ends_with "!" p) ->
  replace_all !"!!" (nl ++ !"!") (p ++ concat (map after_bars cells)) = p ++ concat (map (fun c => nl ++ cell_line c) cells).
Proof.
  intros cells. induction cells as [|c cells IH]; intros p I C E; cbn [map concat].
  - rewrite !app_nil_r. apply replace_all_none. apply contains_false_index. auto.
  - destruct E as [E|E]; [discriminate|]. change !"!!" with ["!"%char; "!"%char] at 1. rewrite (replace_app "!" _ (length p)); auto.
    change ["!"%char; "!"%char] with !"!!". rewrite (replace_all_none !"!!" _ p) by (apply contains_false_index; auto). f_equal.
    assert (Ok : cell_ok c) by (inversion I; auto). destruct Ok as (_ & _ & D & _).
    assert (R : replace_all !"!!" (nl ++ !"!") (cell_source c ++ concat (map after_bars cells)) = cell_source c ++ concat (map (fun c => nl ++ cell_line c) cells)).
    { inversion I as [|? c' cells' O1 (_ & E1) I1]; subst.
      - cbn [map concat]. rewrite !app_nil_r. apply replace_all_none. apply contains_false_index. auto.
      - apply IH; auto. }
    unfold after_bars at 1, cell_line at 1. rewrite mark_bar. rewrite <- !app_assoc. destruct (heading c).
    + rewrite replace_all_hit by discriminate. rewrite R, <- !app_assoc. reflexivity.
    + rewrite (app_assoc nl). change !"!!" with ["!"%char; "!"%char] at 1. rewrite (replace_app "!" _ 2); [|auto|left; intros (z & Z); destruct z as [|? [|? [|? ?]]]; discriminate].
      change ["!"%char; "!"%char] with !"!!". rewrite R. reflexivity.
Qed.

Lemma join_concat : forall l ls, join nl (l :: ls) = l ++ concat (map (fun l => nl ++ l) ls).
Proof.
  intros l ls. revert l. induction ls as [|l' ls IH]; intros l; [cbn; rewrite app_nil_r; auto|]. rewrite join_cons by discriminate. rewrite IH. cbn [map concat].
  rewrite <- !app_assoc. auto.
Qed.

Lemma starts_bar : forall c, cell_ok c -> ~ starts_with "|" (cell_source c).
Proof.
  intros c ((_ & N & _) & A & _) (x & E). unfold cell_source in E. destruct (attributes c) as [a|].
  - destruct (A a eq_refl) as ((_ & Na & _) & Ne). destruct a as [|y a]; [contradiction|]. injection E as -> _. apply Na. left. auto.
  - apply N. rewrite E. left. auto.
Qed.

Lemma double_cons : forall d m s, contains [d; d] s = false -> m <> d \/ ~ starts_with d s -> contains [d; d] (m :: s) = false.
Proof.
  intros d m s C H. destruct (contains [d; d] (m :: s)) eqn:E; auto. apply contains_spec in E as (a & b & E). exfalso. destruct a as [|x a].
  - injection E as -> E. destruct H as [H|H]; [contradiction|]. apply H. exists b. auto.
  - injection E as _ E. assert (X : contains [d; d] s = true) by (apply contains_spec; exists a, b; auto). congruence.
Qed.

Lemma cell_line_clean : forall c, cell_ok c -> clean (cell_line c).
Proof.
  intros c Ok. destruct (source_no_double c Ok) as [D O]. pose proof (starts_bar c Ok) as S. destruct Ok as (_ & _ & M & B & _). unfold cell_line. split; [|split].
  - intros [I|I]; [|apply O; auto]. unfold mark in I. destruct (heading c); discriminate.
  - apply (double_cons "|"); auto.
  - apply (double_cons "!"); auto.
Qed.

Lemma ends_cons : forall d m s, ends_with d (m :: s) -> s <> [] -> ends_with d s.
Proof. intros d m s E N. eapply ends_with_cons; eauto. Qed.

Lemma group_pieces : forall cells, group_cells_ok cells -> pieces (group_line cells) = map cell_line cells.
Proof.
  intros cells (I & F). destruct cells as [|c cells]; [inversion I|]. unfold pieces, group_line.
  assert (Ok : cell_ok c) by (inversion I; auto). destruct (cell_line_clean c Ok) as (_ & D1 & D2). unfold cell_line in D1, D2.
  assert (Rest : cells = [] \/ (inline_ok cells /\ end_ok (mark c :: cell_source c))).
  { inversion I as [|? c' cells' O1 (E1 & E2) I1]; subst; auto. right. split; auto. specialize (F c c' cells' eq_refl). split; intros E; apply ends_cons in E; auto. }
  replace ([mark c] ++ cell_source c ++ concat (map (fun c0 : cell => [mark c0; mark c0] ++ cell_source c0) cells))
    with ((mark c :: cell_source c) ++ concat (map (fun c0 : cell => [mark c0; mark c0] ++ cell_source c0) cells)) by reflexivity.
  assert (R : replace_all !"!!" (nl ++ !"!") (replace_all !"||" (nl ++ !"|") ((mark c :: cell_source c) ++ concat (map (fun c0 : cell => [mark c0; mark c0] ++ cell_source c0) cells)))
              = join nl (map cell_line (c :: cells))).
  { cbn [map]. rewrite join_concat, map_map. destruct Rest as [->|(I' & E1 & E2)].
    - cbn [map concat]. rewrite !app_nil_r. rewrite (replace_all_none !"||") by (apply contains_false_index; auto). apply replace_all_none. apply contains_false_index. auto.
    - rewrite bars_go; auto. rewrite marks_go; auto. }
  rewrite R. unfold nl at 1 2. apply split_join_single; [discriminate|]. apply Forall_forall. intros x Ix. apply in_map_iff in Ix as (y & <- & Iy).
  assert (Oy : cell_ok y). { clear -I Iy. induction I as [c0 Oc|c0 c1 cs Oc _ I' IH]; destruct Iy as [<-|Iy]; auto. destruct Iy. }
  apply cell_line_clean. auto.
Qed.

(** ** Cells *)

(** A further line of a cell *)
Definition more_ok (l : str) : Prop := starts_entry (trim_space l) = false /\ no_char "|" l.

Definition flat_lines (fc : cell * list str) : list str := cell_line (fst fc) :: snd fc.
Definition flat_ok (fc : cell * list str) : Prop := cell_ok (fst fc) /\ Forall more_ok (snd fc).

Lemma bar_solid : solid "|" = true. Proof. reflexivity. Qed.
Lemma mark_solid : forall c, solid (mark c) = true. Proof. intros c. unfold mark. destruct (heading c); reflexivity. Qed.

Lemma starts_entry_trim : forall l, starts_entry l = true -> starts_entry (trim_space l) = true.
Proof.
  intros l H. unfold starts_entry in *. apply orb_prop in H as [H|H]; apply has_prefix_spec in H as (x & ->); cbn [app]; rewrite trim_cons by reflexivity; reflexivity.
Qed.

Lemma more_not_entry : forall l, more_ok l -> starts_entry l = false.
Proof. intros l (H & _). destruct (starts_entry l) eqn:E; auto. apply starts_entry_trim in E. congruence. Qed.

Lemma continuation_more : forall more next rest, Forall more_ok more -> starts_entry next = true -> continuation (more ++ next :: rest) = Ok (more, next :: rest).
Proof.
  intros more next rest F S. induction F as [|l more L F IH]; cbn [app continuation]; [rewrite S; auto|]. rewrite more_not_entry, IH; auto.
Qed.

Lemma cell_lines_more : forall more next rest, Forall more_ok more -> starts_entry next = true -> cell_lines (more ++ next :: rest) = Ok (more, next :: rest).
Proof.
  intros more next rest F S. destruct F as [|l more L F]; cbn [app cell_lines].
  - rewrite starts_entry_trim; auto.
  - destruct L as [L _]. rewrite L, continuation_more; auto.
Qed.

(** The lines of the text as they are parsed *)
Definition shown_lines (more : list str) : list str := match more with [] => [] | l :: more' => trim_space l :: more' end.
Definition same_line (l l' : str) : Prop := l' = l \/ l' = trim_space l.

Lemma shown_same : forall more, Forall2 same_line more (shown_lines more).
Proof.
  intros [|l more]; constructor; [right; auto|]. induction more; constructor; auto. left. auto.
Qed.

Lemma continuation_text_lines : forall more, continuation_text more = concat (map (fun l => nl ++ l) (shown_lines more)).
Proof. intros [|l more]; reflexivity. Qed.

Lemma shown_no_bar : forall more, Forall more_ok more -> no_char "|" (concat (map (fun l => nl ++ l) (shown_lines more))).
Proof.
  intros more F I. apply in_concat in I as (x & I & Ix). apply in_map_iff in I as (l & <- & I). apply in_app_iff in Ix as [Ix|Ix]; [destruct Ix as [Ix|[]]; discriminate|].
  pose proof (shown_same more) as S. clear -F I Ix S. induction S as [|a b more ls Sab S IH]; [destruct I|]. inversion F as [|? ? [_ N] F']; subst.
  destruct I as [<-|I]; [|auto]. destruct Sab as [->| ->]; [apply N; auto|apply N; eapply trim_space_In; eauto].
Qed.

Lemma trim_prefix_skip : forall p s, trim_prefix p (p ++ s) = s.
Proof. intros p s. unfold trim_prefix. rewrite has_prefix_app, skipn_app, skipn_all, Nat.sub_diag. auto. Qed.

Lemma not_start : forall c s, ~ starts_with c s -> has_prefix [c] s = false.
Proof. intros c s N. apply has_prefix_false. intros t E. apply N. exists t. auto. Qed.

Lemma cell_trim : forall c, cell_ok c -> trim_space (cell_line c) = mark c :: trim_right (cell_source c).
Proof. intros c _. apply trim_cons. apply mark_solid. Qed.

Lemma cell_no_end : forall c, cell_ok c -> forall d, (d = "-" \/ d = "+" \/ d = "}")%char -> has_prefix ["|"%char; d] (trim_space (cell_line c)) = false.
Proof.
  intros c Ok d D. rewrite cell_trim; auto. rewrite has_prefix_cons. destruct Ok as (_ & _ & _ & _ & H). unfold mark. destruct (heading c); [reflexivity|].
  cbn [Ascii.eqb]. apply not_start. intros X. apply trim_right_start in X. destruct (H eq_refl) as (H1 & H2 & H3). destruct D as [->|[->| ->]]; auto.
Qed.

Lemma cell_unmarked : forall c, cell_ok c -> trim_space (trim_prefix !"!" (trim_prefix !"|" (trim_space (cell_line c)))) = trim_space (trim_right (cell_source c)).
Proof.
  intros c Ok. rewrite cell_trim; auto. pose proof (starts_bar c Ok) as Sb. destruct Ok as (_ & _ & _ & Sm & _). unfold mark. destruct (heading c).
  - change (trim_prefix !"|" ("!"%char :: trim_right (cell_source c))) with (!"!" ++ trim_right (cell_source c)). rewrite trim_prefix_skip. auto.
  - change ("|"%char :: trim_right (cell_source c)) with (!"|" ++ trim_right (cell_source c)). rewrite trim_prefix_skip. unfold trim_prefix. rewrite not_start; auto.
    intros X. apply trim_right_start in X. auto.
Qed.

(** ** Parsed tables stay parsed *)

Lemma caption_parsed_mono : forall (P Q : str -> str -> Prop) c s, (forall a b, P a b -> Q a b) -> caption_parsed P c s -> caption_parsed Q c s.
Proof. intros P Q [[s0 more]|] s H; [|auto]. intros (l & x & A & B & C). exists l, x. auto. Qed.

Section Mono.
Variables P Q : str -> str -> Prop.
Variables F G : str -> Token -> Prop.
Hypothesis PQ : forall a b, P a b -> Q a b.
Hypothesis FG : forall a b, F a b -> G a b.

Fixpoint table_mono t v (H : table_parsed P F t v) {struct H} : table_parsed Q G t v
with row_mono r v (H : row_parsed P F r v) {struct H} : row_parsed Q G r v
with cell_mono c v (H : cell_parsed P F c v) {struct H} : cell_parsed Q G c v
with line_mono l v (H : line_parsed P F l v) {struct H} : line_parsed Q G l v.
Proof.
  - destruct H as [a caption rows rowTokens captionToken C R]. constructor; [eapply caption_parsed_mono; eauto|].
    induction R; constructor; auto.
  - destruct H as [a groups columns R]. constructor. induction R; constructor; auto.
  - destruct H as [c more text lines content attrs h T R Pc A Hh]. apply (parsed_cell Q G c more text lines content attrs h); auto. clear -R line_mono. induction R; constructor; auto.
  - destruct H as [s s' T|t key token Fk T]; [constructor; auto|]. apply (parsed_nested Q G t key token); auto.
Defined.
End Mono.

Section Recursive.
Variable tokenizeContent : str -> M str.
Variable strict : bool.
Variable R : str -> Prop.
Hypothesis R_any : strict = false -> forall s, R s.
Hypothesis rec_runs : forall t s, unique t -> R s -> judge strict t (tokenizeContent s) (fun _ _ => True).

Notation P t := (parsed tokenizeContent t).

(** The parsed cell *)
Definition cell_found (t : Tokenizer) (fc : cell * list str) (col : TableColToken) : Prop :=
  exists text lines content, trimmed (cell_text (fst fc)) text /\ Forall2 same_line (snd fc) lines /\ P t (join nl (text :: lines)) content /\
    attributes_parsed (attributes (fst fc)) (Attributes col) /\ ColContent col = trim_space content /\ (snd fc = [] -> IsHeading col = heading (fst fc)).

Lemma P_grows : forall t t' a b, grows t t' -> P t a b -> P t' a b.
Proof. intros t t' a b G. apply parsed_mono. apply grows_keeps. auto. Qed.

Lemma cell_found_mono : forall t t' fc col, grows t t' -> cell_found t fc col -> cell_found t' fc col.
Proof. intros t t' fc col G (x & y & z & H1 & H2 & H3 & H4). exists x, y, z. split; auto. split; auto. split; auto. eapply P_grows; eauto. Qed.

Lemma split_bar_none : forall s, no_char "|" s -> split !"|" s = [s].
Proof. intros s N. apply (split_single_none "|"); auto. Qed.

Lemma entry_plain : forall s t, ok false t -> R s -> no_char "|" s -> judge strict t (tokenizeTableEntry tokenizeContent s) (fun t' p => P t' s (fst p) /\ snd p = []).
Proof.
  intros s t O Rs N. unfold tokenizeTableEntry. rewrite split_bar_none; auto. eapply judge_bind; [apply (rec_parsed tokenizeContent strict R rec_runs); auto|]. cbn beta. intros c t1 O1 G1 P1. apply judge_ret; auto.
Qed.

Lemma entry_attributed : forall a s t, ok false t -> R s -> no_char "|" a -> no_char "|" s ->
  judge strict t (tokenizeTableEntry tokenizeContent (a ++ "|"%char :: s)) (fun t' p => P t' s (fst p) /\ snd p = entry_attributes (trim_space a)).
Proof.
  intros a s t O Rs Na N. unfold tokenizeTableEntry. change !"|" with ["|"%char]. rewrite split_single_app, split_single_none; auto.
  eapply judge_bind; [apply (rec_parsed tokenizeContent strict R rec_runs); auto|]. cbn beta. intros c t1 O1 G1 P1. apply judge_ret; auto.
Qed.

Lemma no_char_app : forall c a b, no_char c a -> no_char c b -> no_char c (a ++ b).
Proof. intros c a b A B I. apply in_app_iff in I as [I|I]; auto. Qed.

Lemma trimmed_no_char : forall c s s', trimmed s s' -> no_char c s -> no_char c s'.
Proof. intros c s s' T N I. apply N. eapply trimmed_In; eauto. Qed.

Lemma trimmed_trans : forall a b c, trimmed a b -> trimmed b c -> trimmed a c.
Proof.
  intros a b c (l & r & Bl & Br & ->) (l' & r' & Bl' & Br' & ->). exists (l ++ l'), (r' ++ r). split; [apply made_of_app; auto|]. split; [apply made_of_app; auto|].
  rewrite <- !app_assoc. auto.
Qed.

(** The parser does not fail on the text of a cell. *)
Definition flat_safe (fc : cell * list str) : Prop :=
  forall text lines, trimmed (cell_text (fst fc)) text -> Forall2 same_line (snd fc) lines -> R (join nl (text :: lines)).

(** The text of the cell, behind the attributes *)
Lemma cell_entry : forall c more t, flat_ok (c, more) -> flat_safe (c, more) -> ok false t ->
  judge strict t (tokenizeTableEntry tokenizeContent (trim_space (trim_right (cell_source c)) ++ continuation_text more))
    (fun t' p => exists text, trimmed (cell_text c) text /\ P t' (join nl (text :: shown_lines more)) (fst p) /\ attributes_parsed (attributes c) (snd p)).
Proof.
  intros c more t (Ok & F) Sf O. unfold flat_safe in Sf. cbn [fst snd] in *. rewrite continuation_text_lines. pose proof (shown_no_bar more F) as Nm.
  destruct Ok as ((_ & Nt & _) & A & _). unfold cell_source. destruct (attributes c) as [a|] eqn:Ea.
  - destruct (A a eq_refl) as ((_ & Na & _) & _). change (!"|" ++ cell_text c) with ("|"%char :: cell_text c). rewrite trim_right_mid by reflexivity. rewrite trim_mid by reflexivity.
    rewrite <- app_assoc. cbn [app]. assert (T : trimmed (cell_text c) (trim_right (trim_right (cell_text c)))) by (eapply trimmed_trans; apply trimmed_right).
    eapply judge_weaken; [apply entry_attributed; auto|].
    + rewrite <- join_concat. apply Sf; [exact T|apply shown_same].
    + eapply trimmed_no_char; [apply trimmed_left|auto].
    + apply no_char_app; auto. eapply trimmed_no_char; eauto.
    + cbn beta. intros p t' O' G' [Hp Ha]. exists (trim_right (trim_right (cell_text c))). split; auto. split; [rewrite join_concat; auto|]. rewrite Ha, trim_space_left. apply attributes_found.
  - eapply judge_weaken; [apply entry_plain; auto|].
    + rewrite <- join_concat. apply Sf; [apply trim_trim_right|apply shown_same].
    + apply no_char_app; auto. eapply trimmed_no_char; [apply trim_trim_right|auto].
    + cbn beta. intros p t' O' G' (Hp & Hs). exists (trim_space (trim_right (cell_text c))). split; [apply trim_trim_right|]. split; auto. rewrite join_concat. auto.
Qed.

(** The end of a row *)
Definition row_end (l : str) : Prop := has_prefix !"|-" (trim_space l) || has_prefix !"|+" (trim_space l) || has_prefix !"|}" (trim_space l) = true /\ starts_entry l = true.

Lemma cell_starts : forall c, starts_entry (cell_line c) = true.
Proof. intros c. unfold starts_entry, cell_line, mark. destruct (heading c); reflexivity. Qed.

Lemma last_heading : forall c more, flat_ok (c, more) -> more = [] -> has_prefix !"!" (trim_space (last more (cell_line c))) = heading c.
Proof. intros c more (Ok & _) ->. cbn [last]. rewrite cell_trim; auto. unfold mark. destruct (heading c); reflexivity. Qed.

Lemma row_found : forall cells fuel next rest t, Forall flat_ok cells -> Forall flat_safe cells -> row_end next -> ok false t ->
  judge strict t (tokenizeTableRow_go tokenizeContent fuel (flat_map flat_lines cells ++ next :: rest))
    (fun t' p => Forall2 (cell_found t') cells (fst p) /\ snd p = next :: rest).
Proof.
  induction cells as [|[c more] cells IH]; intros fuel next rest t F Sf (E & S) O; cbn [flat_map app].
  - destruct fuel; cbn [tokenizeTableRow_go]; [apply judge_fuel|]. rewrite E. apply judge_ret; auto. split; [constructor|auto].
  - inversion F as [|? ? Fc F']; subst. inversion Sf as [|? ? Sf1 Sf2]; subst. unfold flat_lines at 1. cbn [fst snd app]. destruct fuel as [|fuel]; cbn [tokenizeTableRow_go]; [apply judge_fuel|].
    pose proof Fc as (Ok & Fm). cbn [fst snd] in *.
    rewrite (cell_no_end c Ok "-"), (cell_no_end c Ok "+"), (cell_no_end c Ok "}") by tauto. cbn [orb]. rewrite cell_unmarked; auto.
    assert (exists next' rest', flat_map flat_lines cells ++ next :: rest = next' :: rest' /\ starts_entry next' = true) as (next' & rest' & En & Sn).
    { destruct cells as [|[c' more'] cells]; [exists next, rest; auto|]. cbn [flat_map flat_lines fst snd app]. eexists. eexists. split; [reflexivity|apply cell_starts]. }
    rewrite <- app_assoc, En, cell_lines_more; auto.
    eapply judge_bind; [apply judge_lift with (Q := fun _ p => p = (more, next' :: rest')); auto; [intros; congruence|intros _; exact I]|]. cbn beta. intros [m after] t1 O1 G1 Eq. injection Eq as -> ->.
    eapply judge_bind; [apply cell_entry; auto|]. cbn beta. intros [tl at'] t2 O2 G2 (text & T & Pt & At). cbn [fst snd] in *.
    eapply judge_bind; [rewrite <- En; apply IH; auto; split; auto|]. cbn beta. intros [cols r] t3 O3 G3 (Fc3 & Er). cbn [fst snd] in *. apply judge_ret; auto. cbn [fst snd]. split; auto.
    constructor; auto. eapply cell_found_mono; [exact G3|]. exists text, (shown_lines more), tl. cbn [fst snd ColContent Attributes IsHeading].
    split; auto. split; [apply shown_same|]. do 3 (split; auto). intros X. apply last_heading; auto.
Qed.

(** ** Rows and captions *)

Definition flat_row : Type := option str * list (cell * list str).
Definition row_lines (r : flat_row) : list str := match fst r with None => [] | Some a => [!"|-" ++ a] end ++ flat_map flat_lines (snd r).
Definition row_flat_ok (r : flat_row) : Prop := Forall flat_ok (snd r).
Definition row_safe (r : flat_row) : Prop := Forall flat_safe (snd r).
Definition row_is (t : Tokenizer) (r : flat_row) (row : TableRowToken) : Prop := Forall2 (cell_found t) (snd r) row.

Lemma row_is_mono : forall t t' r row, grows t t' -> row_is t r row -> row_is t' r row.
Proof. intros t t' r row G. apply Forall2_weaken. intros. eapply cell_found_mono; eauto. Qed.

Definition end_line : str := !"|}".

Lemma end_row_end : row_end end_line.
Proof. split; reflexivity. Qed.

Lemma sep_row_end : forall a, row_end (!"|-" ++ a).
Proof. intros a. split; [|reflexivity]. change (!"|-" ++ a) with ("|"%char :: "-"%char :: a). rewrite trim_cons by reflexivity. change ("-"%char :: a) with ([] ++ "-"%char :: a). rewrite trim_right_mid by reflexivity. reflexivity. Qed.

(** Rows with separators, up to the end of the table: the first line ends the row before them. *)
Lemma rows_first : forall rows, (forall a cells, In (a, cells) rows -> a <> None) -> exists next rest, flat_map row_lines rows ++ [end_line] = next :: rest /\ row_end next.
Proof.
  intros [|[a cells] rows] H; [exists end_line, []; split; [auto|apply end_row_end]|]. destruct a as [a|]; [|exfalso; eapply H; [left|]; auto].
  cbn [flat_map row_lines fst snd app]. eexists. eexists. split; [reflexivity|apply sep_row_end].
Qed.

Lemma rows_found : forall rows fuel rowTokens cap t, (forall a cells, In (a, cells) rows -> a <> None) -> Forall row_flat_ok rows -> Forall row_safe rows -> ok false t ->
  judge strict t (tokenizeTable_go tokenizeContent fuel (flat_map row_lines rows ++ [end_line]) rowTokens cap)
    (fun t' p => snd p = cap /\ exists rows', fst p = rowTokens ++ rows' /\ Forall2 (row_is t') rows rows').
Proof.
  induction rows as [|[a cells] rows IH]; intros fuel rowTokens cap t H F Sf O.
  - destruct fuel; cbn [flat_map app tokenizeTable_go]; [apply judge_fuel|]. apply judge_ret; auto. split; auto. exists []. rewrite app_nil_r. split; auto.
  - inversion F as [|? ? F1 F2]; subst. inversion Sf as [|? ? Sf1 Sf2]; subst. destruct a as [a|]; [|exfalso; eapply H; [left|]; auto].
    assert (H' : forall a cells, In (a, cells) rows -> a <> None) by (intros; eapply H; right; eauto).
    destruct (rows_first rows H') as (next & rest & En & Re).
    cbn [flat_map]. unfold row_lines at 1. cbn [fst snd app]. rewrite <- app_assoc, En. destruct fuel as [|fuel]; cbn [tokenizeTable_go]; [apply judge_fuel|].
    assert (T : trim_space ("|"%char :: "-"%char :: a) = "|"%char :: "-"%char :: trim_right a).
    { rewrite trim_cons by reflexivity. f_equal. apply (trim_right_mid "-" [] a). reflexivity. }
    rewrite T.
    change (has_prefix !"|+" ("|"%char :: "-"%char :: trim_right a)) with false.
    change (has_prefix !"!" ("|"%char :: "-"%char :: trim_right a)) with false.
    change (has_prefix !"|-" ("|"%char :: "-"%char :: trim_right a)) with true. cbn match.
    assert (exists next' rest', flat_map flat_lines cells ++ next :: rest = next' :: rest' /\ starts_entry next' = true) as (next' & rest' & En' & Sn).
    { destruct cells as [|[c more] cells]; [exists next, rest; split; auto; apply Re|]. cbn [flat_map flat_lines fst snd app]. eexists. eexists. split; [reflexivity|apply cell_starts]. }
    rewrite En'. unfold starts_entry in Sn. rewrite orb_comm in Sn. rewrite Sn. rewrite <- En'. unfold tokenizeTableRow.
    eapply judge_bind; [apply row_found; auto|]. cbn beta. intros [row after] t1 O1 G1 (R1 & Ea). cbn [fst snd] in R1, Ea. rewrite Ea, <- En.
    eapply judge_weaken; [apply IH; auto|]. cbn beta. intros [rows1 cap1] t2 O2 G2 (E & rows' & E2 & R2). cbn [fst snd] in *. split; auto. exists (row :: rows').
    split; [rewrite E2, <- app_assoc; auto|]. constructor; auto. eapply row_is_mono; eauto.
Qed.

(** The first row may have no separator. *)
Definition rows_ok (rows : list flat_row) : Prop :=
  (forall a cells, In (a, cells) rows -> a <> None) \/
  exists cells rows', rows = (None, cells) :: rows' /\ cells <> [] /\ forall a cells, In (a, cells) rows' -> a <> None.

Lemma first_rows_found : forall rows fuel rowTokens cap t, rows_ok rows -> Forall row_flat_ok rows -> Forall row_safe rows -> ok false t ->
  judge strict t (tokenizeTable_go tokenizeContent fuel (flat_map row_lines rows ++ [end_line]) rowTokens cap)
    (fun t' p => snd p = cap /\ exists rows', fst p = rowTokens ++ rows' /\ Forall2 (row_is t') rows rows').
Proof.
  intros rows fuel rowTokens cap t [H|(cells & rows' & -> & Ne & H)] F Sf O; [apply rows_found; auto|]. inversion F as [|? ? F1 F2]; subst. inversion Sf as [|? ? Sf1 Sf2]; subst.
  destruct (rows_first rows' H) as (next & rest & En & Re). cbn [flat_map]. unfold row_lines at 1. cbn [fst snd app]. rewrite <- app_assoc, En.
  destruct fuel as [|fuel]; [destruct cells as [|[c more] cells]; [contradiction|]; apply judge_fuel|].
  assert (Go : judge strict t (do! (rowToken, after) := tokenizeTableRow tokenizeContent (flat_map flat_lines cells ++ next :: rest) in
                  tokenizeTable_go tokenizeContent fuel after (rowTokens ++ [rowToken]) cap)
                (fun t' p => snd p = cap /\ exists rows'0, fst p = rowTokens ++ rows'0 /\ Forall2 (row_is t') ((None, cells) :: rows') rows'0)).
  { unfold tokenizeTableRow. eapply judge_bind; [apply row_found; auto|]. cbn beta. intros [row after] t1 O1 G1 (R1 & Ea). cbn [fst snd] in R1, Ea. rewrite Ea, <- En.
    eapply judge_weaken; [apply rows_found; auto|]. cbn beta. intros [rows1 cap1] t2 O2 G2 (E & rows2 & E2 & R2). cbn [fst snd] in *. split; auto. exists (row :: rows2).
    split; [rewrite E2, <- app_assoc; auto|]. constructor; auto. eapply row_is_mono; eauto. }
  destruct cells as [|[c more] cells]; [contradiction|]. cbn [flat_map flat_lines fst snd app] in *. cbn [tokenizeTable_go].
  inversion F1 as [|? ? (Ok & _) _]; subst. cbn [fst] in Ok.
  pose proof (cell_no_end c Ok "-") as N1. pose proof (cell_no_end c Ok "+") as N2. pose proof (cell_no_end c Ok "}") as N3.
  change !"|-" with ["|"%char; "-"%char]. change !"|+" with ["|"%char; "+"%char]. change !"|}" with ["|"%char; "}"%char].
  rewrite N1, N2, N3 by tauto. rewrite cell_trim; auto. unfold mark. destruct (heading c).
  - exact Go.
  - exact Go.
Qed.

(** Captions *)
Lemma caption_more : forall more next rest, Forall more_ok more -> starts_entry next = true -> caption_lines (more ++ next :: rest) = Ok (map trim_space more, next :: rest).
Proof.
  intros more next rest F S. induction F as [|l more L F IH]; cbn [app caption_lines].
  - rewrite starts_entry_trim; auto.
  - destruct L as [L _]. rewrite L, IH. auto.
Qed.

Definition caption_lines_of (c : option (str * list str)) : list str := match c with None => [] | Some (c, more) => (!"|+" ++ c) :: more end.
Definition caption_flat_ok (c : option (str * list str)) : Prop := forall s more, c = Some (s, more) -> no_char "|" s /\ Forall more_ok more.

Definition caption_safe (c : option (str * list str)) : Prop := forall s more lines, c = Some (s, more) -> Forall2 trimmed (s :: more) lines -> R (join nl lines).

Lemma table_found : forall a caption rows fuel t, caption_flat_ok caption -> caption_safe caption -> rows_ok rows -> Forall row_flat_ok rows -> Forall row_safe rows -> ok false t ->
  judge strict t (tokenizeTable_go tokenizeContent fuel ((!"{|" ++ a) :: caption_lines_of caption ++ flat_map row_lines rows ++ [end_line]) [] [])
    (fun t' p => caption_parsed (P t') caption (snd p) /\ Forall2 (row_is t') rows (fst p)).
Proof.
  intros a caption rows fuel t C Sc Ro F Sf O. destruct fuel as [|fuel]; cbn [tokenizeTable_go]; [apply judge_fuel|].
  assert (T : trim_space (!"{|" ++ a) = "{"%char :: trim_right ("|"%char :: a)) by (apply trim_cons; reflexivity). rewrite T. clear T.
  change (has_prefix !"|+" ("{"%char :: trim_right ("|"%char :: a))) with false. change (has_prefix !"!" ("{"%char :: trim_right ("|"%char :: a))) with false.
  change (has_prefix !"|-" ("{"%char :: trim_right ("|"%char :: a))) with false. change (has_prefix !"|}" ("{"%char :: trim_right ("|"%char :: a))) with false.
  change (has_prefix !"|" ("{"%char :: trim_right ("|"%char :: a))) with false. cbn match.
  destruct caption as [[s more]|]; cbn [caption_lines_of app].
  - destruct (C s more eq_refl) as (Ns & Fm). destruct fuel as [|fuel]; cbn [tokenizeTable_go]; [apply judge_fuel|].
    assert (T : trim_space ("|"%char :: "+"%char :: s) = !"|+" ++ trim_right s).
    { rewrite trim_cons by reflexivity. change (!"|+" ++ trim_right s) with ("|"%char :: "+"%char :: trim_right s). f_equal. apply (trim_right_mid "+" [] s). reflexivity. }
    rewrite T. rewrite has_prefix_app. unfold tokenizeTableCaption.
    assert (exists next rest, flat_map row_lines rows ++ [end_line] = next :: rest /\ starts_entry next = true) as (next & rest & En & Sn).
    { destruct Ro as [Ro|(cells & rows' & -> & Ne & _)].
      - destruct (rows_first rows Ro) as (next & rest & E & (_ & S)). eauto.
      - destruct cells as [|[c m] cells]; [contradiction|]. eexists. eexists. split; [reflexivity|apply cell_starts]. }
    rewrite En, caption_more; auto. eapply judge_bind.
    { eapply judge_bind; [apply judge_lift with (Q := fun _ p => p = (map trim_space more, next :: rest)); auto; [intros; congruence|intros _; exact I]|].
      cbn beta. intros [m after] t1 O1 G1 Eq. injection Eq as -> ->. rewrite T. rewrite <- app_assoc, trim_prefix_skip.
      assert (Tr : Forall2 trimmed (s :: more) (trim_right s :: map trim_space more)) by (constructor; [apply trimmed_right|clear; induction more; constructor; auto; apply trimmed_trim]).
      eapply judge_bind; [apply entry_plain; auto|].
      - rewrite <- join_concat. apply (Sc s more); auto.
      - apply no_char_app; [eapply trimmed_no_char; [apply trimmed_right|auto]|]. intros I. apply in_concat in I as (x & I & Ix). apply in_map_iff in I as (l & <- & I).
        apply in_app_iff in Ix as [[Ix|[]]|Ix]; [discriminate|]. apply in_map_iff in I as (l' & <- & I). rewrite Forall_forall in Fm. apply (Fm l' I). apply trim_space_In. auto.
      - cbn beta. intros [content at'] t2 O2 G2 (Pc & _). cbn [fst] in Pc.
        apply (judge_ret _ strict t2 (trim_space content, next :: rest) (fun t' p => caption_parsed (P t') (Some (s, more)) (fst p) /\ snd p = next :: rest)); auto. cbn [fst snd]. split; auto.
        exists (trim_right s :: map trim_space more), content. split; [constructor; [apply trimmed_right|]|split; [rewrite join_concat; auto|auto]].
        clear. induction more; constructor; auto. apply trimmed_trim. }
    cbn beta. intros [cap after] t1 O1 G1 (Cp & E). cbn [fst snd] in *. subst after. rewrite <- En.
    eapply judge_weaken; [apply first_rows_found; auto|]. cbn beta. intros [rs cp] t2 O2 G2 (E & rows' & E2 & R2). cbn [fst snd] in *. subst cp rs. split; auto.
    destruct Cp as (lines & content & X1 & X2 & X3). exists lines, content. split; auto. split; auto. eapply P_grows; eauto.
  - eapply judge_weaken; [apply first_rows_found; auto|]. cbn beta. intros [rs cp] t2 O2 G2 (E & rows' & E2 & R2). cbn [fst snd] in *. subst cp rs. split; auto. reflexivity.
Qed.

(** ** Nested tables *)

Definition found_in (t : Tokenizer) (k : str) (v : Token) : Prop := In (k, v) (tokenMap t).

(** A line, or the key of a table *)
Definition item_found (t : Tokenizer) (item : line) (l : str) : Prop :=
  match item with
  | TextLine s => l = s
  | TableLines tb => exists i token, l = token_key TOKEN_TABLE i /\ found_in t l token /\ table_parsed (P t) (found_in t) tb token
  end.

Lemma item_mono : forall t t' item l, grows t t' -> item_found t item l -> item_found t' item l.
Proof.
  intros t t' [s|tb] l Gr; [auto|]. intros (i & token & E & I & T). exists i, token. split; auto.
  assert (X : forall a b, found_in t a b -> found_in t' a b) by (intros a b; apply keeps_In; apply grows_keeps; auto).
  split; [auto|]. eapply table_mono; [| |exact T]; auto. intros a b. apply P_grows. auto.
Qed.

Lemma items_mono : forall t t' items ls, grows t t' -> Forall2 (item_found t) items ls -> Forall2 (item_found t') items ls.
Proof. intros t t' items ls Gr. apply Forall2_weaken. intros. eapply item_mono; eauto. Qed.

Lemma table_type : type_ok TOKEN_TABLE.
Proof. split; [discriminate|repeat constructor]. Qed.

Lemma key_facts : forall i, clean (token_key TOKEN_TABLE i) /\ more_ok (token_key TOKEN_TABLE i) /\ trim_space (token_key TOKEN_TABLE i) = token_key TOKEN_TABLE i.
Proof.
  intros i. pose proof (atom_chars _ (token_key_atom TOKEN_TABLE i table_type)) as A. rewrite Forall_forall in A.
  assert (T : trim_space (token_key TOKEN_TABLE i) = token_key TOKEN_TABLE i) by (apply trim_solid; apply token_key_ends).
  assert (N : forall c, key_char c = false -> no_char c (token_key TOKEN_TABLE i)) by (intros c C I; specialize (A c I); congruence).
  split; [|split; [split|]]; auto.
  - split; [apply N; reflexivity|]. split; [apply no_bar_double; apply N; reflexivity|].
    destruct (contains !"!!" (token_key TOKEN_TABLE i)) eqn:E; auto. apply contains_spec in E as (a & b & E). exfalso. apply (N "!"%char eq_refl). rewrite E, in_app_iff. right. left. auto.
  - rewrite T. reflexivity.
Qed.

Lemma text_line_facts : forall s, text_line s -> clean s /\ more_ok s.
Proof.
  intros s ((O & N & M) & S). split.
  - split; auto. split; auto. apply no_bar_double. auto.
  - split; auto. unfold starts_entry. rewrite orb_false_iff. split; apply not_start; auto. intros (x & X). apply N. apply trim_space_In. rewrite X. left. auto.
Qed.

Lemma item_facts : forall t item l, line_ok item -> item_found t item l -> clean l /\ more_ok l.
Proof.
  intros t item l Ok F. destruct Ok as [s T|tb T].
  - cbn in F. subst l. apply text_line_facts. auto.
  - destruct F as (i & token & -> & _). split; apply key_facts.
Qed.

Lemma items_facts : forall t items ls, Forall line_ok items -> Forall2 (item_found t) items ls -> Forall more_ok ls /\ flat_map pieces ls = ls.
Proof.
  intros t items ls Ok F. induction F as [|item l items ls I F IH]; [split; auto|]. inversion Ok; subst. destruct IH as [IH1 IH2]; auto.
  destruct (item_facts t item l) as [C M]; auto. split; [constructor; auto|]. cbn [flat_map]. rewrite clean_pieces, IH2; auto.
Qed.

Lemma with_more_lines : forall cells (more : list str), cells <> [] -> flat_map flat_lines (with_more cells more) = map cell_line cells ++ more.
Proof.
  induction cells as [|c cells IH]; intros more N; [contradiction|]. destruct cells as [|c' cells].
  - cbn [with_more flat_map flat_lines fst snd map app]. rewrite app_nil_r. auto.
  - change (with_more (c :: c' :: cells) more) with ((c, @nil str) :: with_more (c' :: cells) more). cbn [flat_map map]. rewrite IH by discriminate. reflexivity.
Qed.

Definition cell_link (t : Tokenizer) (x : cell * list line) (y : cell * list str) : Prop := fst y = fst x /\ Forall2 (item_found t) (snd x) (snd y).

Lemma with_more_link : forall t cells more more', Forall2 (item_found t) more more' -> Forall2 (cell_link t) (with_more cells more) (with_more cells more').
Proof.
  intros t cells more more' F. induction cells as [|c cells IH]; [constructor|]. destruct cells as [|c' cells].
  - constructor; [split; auto|constructor].
  - constructor; [split; [auto|constructor]|]. exact IH.
Qed.

Lemma with_more_ok : forall cells more, inline_ok cells -> Forall more_ok more -> Forall flat_ok (with_more cells more).
Proof.
  intros cells more I F. induction I as [c Ok|c c' cells Ok E I IH].
  - constructor; [split; auto|constructor].
  - constructor; [split; [auto|constructor]|]. exact IH.
Qed.

Lemma inline_nonempty : forall cells, inline_ok cells -> cells <> [].
Proof. intros cells H. destruct H; discriminate. Qed.

Lemma group_link : forall t g ls, group_ok g -> Forall2 (item_found t) (group_items g) ls ->
  exists fcells, flat_map pieces ls = flat_map flat_lines fcells /\ Forall flat_ok fcells /\ Forall2 (cell_link t) (group_cells g) fcells.
Proof.
  intros t g ls Ok F. destruct Ok as [cells more C L]. cbn [group_items] in F. inversion F as [|? l ? more' E F']; subst. cbn in E. subst l.
  destruct (items_facts t more more' L F') as [M Pm]. exists (with_more cells more'). destruct C as [I C]. pose proof (inline_nonempty _ I) as N. split; [|split].
  - cbn [flat_map]. rewrite group_pieces by (split; auto). rewrite Pm, with_more_lines; auto.
  - apply with_more_ok; auto.
  - apply with_more_link. auto.
Qed.

Definition row_link (t : Tokenizer) (r : row) (fr : flat_row) : Prop :=
  match r with Row a groups => fst fr = a /\ Forall2 (cell_link t) (flat_map group_cells groups) (snd fr) end.

Lemma groups_link : forall t groups ls, Forall group_ok groups -> Forall2 (item_found t) (flat_map group_items groups) ls ->
  exists fcells, flat_map pieces ls = flat_map flat_lines fcells /\ Forall flat_ok fcells /\ Forall2 (cell_link t) (flat_map group_cells groups) fcells.
Proof.
  intros t groups. induction groups as [|g groups IH]; intros ls Ok F.
  - inversion F; subst. exists []. split; [auto|split; constructor].
  - cbn [flat_map] in F. apply Forall2_app_inv_l in F as (l1 & l2 & F1 & F2 & ->). inversion Ok; subst. destruct (group_link t g l1) as (c1 & E1 & O1 & L1); auto.
    destruct (IH l2) as (c2 & E2 & O2 & L2); auto. exists (c1 ++ c2). rewrite !flat_map_app, E1, E2. split; auto. split; [apply Forall_app; auto|]. cbn [flat_map]. apply Forall2_app; auto.
Qed.

Lemma rows_link : forall t rows ls, Forall row_ok rows -> Forall2 (item_found t) (flat_map row_items rows) ls ->
  exists frows, flat_map pieces ls = flat_map row_lines frows /\ Forall row_flat_ok frows /\ Forall2 (row_link t) rows frows.
Proof.
  intros t rows. induction rows as [|r rows IH]; intros ls Ok F.
  - inversion F; subst. exists []. split; [auto|split; constructor].
  - cbn [flat_map] in F. apply Forall2_app_inv_l in F as (l1 & l2 & F1 & F2 & ->). inversion Ok as [|? ? Or Ors]; subst. destruct (IH l2) as (fr2 & E2 & O2 & L2); auto.
    destruct Or as [a groups Ha Hg]. cbn [row_items] in F1. apply Forall2_app_inv_l in F1 as (la & lg & Fa & Fg & ->).
    destruct (groups_link t groups lg) as (fc & Eg & Og & Lg); auto. exists ((a, fc) :: fr2). rewrite !flat_map_app, E2, Eg. cbn [flat_map].
    assert (Ea : flat_map pieces la = match a with None => [] | Some a => [!"|-" ++ a] end).
    { destruct a as [a|]; inversion Fa as [|? x ? y Ex Fy]; subst; auto. inversion Fy; subst. cbn in Ex. subst x. cbn [flat_map]. rewrite clean_pieces by (apply Ha; auto). auto. }
    rewrite Ea. split; auto. split; constructor; auto. split; auto.
Qed.

Lemma separated_ok : forall t rows frows, rows_separated rows -> Forall row_ok rows -> Forall2 (row_link t) rows frows -> rows_ok frows.
Proof.
  intros t rows frows S Ok F.
  assert (Sep : forall rows frows, Forall2 (row_link t) rows frows -> (forall a gs, In (Row a gs) rows -> a <> None) -> forall a cells, In (a, cells) frows -> a <> None).
  { clear. intros rows frows F. induction F as [|r fr rows frows L F IH]; intros H a cells I; [destruct I|]. destruct I as [->|I]; [|eapply IH; eauto; intros; eapply H; right; eauto].
    destruct r as [a' gs]. destruct L as [E _]. cbn [fst] in E. subst a'. eapply H. left. reflexivity. }
  destruct S as [rows S|groups rows N S].
  - left. eapply Sep; eauto.
  - right. inversion F as [|? [a' fcells] ? frows' L F']; subst. destruct L as [E L]. cbn [fst snd] in *. subst a'. exists fcells, frows'. split; auto. split; [|eapply Sep; eauto].
    intros ->. inversion Ok as [|? ? Or _]; subst. inversion Or as [? ? _ Hg]; subst. destruct groups as [|g gs]; [contradiction|]. inversion Hg as [|? ? Og _]; subst.
    destruct Og as [cells more (I & _) _]. cbn [flat_map group_cells] in L. destruct I; inversion L.
Qed.

Lemma caption_link : forall t caption ls, caption_ok caption ->
  Forall2 (item_found t) (match caption with None => [] | Some (c, more) => TextLine (!"|+" ++ c) :: map TextLine more end) ls ->
  flat_map pieces ls = caption_lines_of caption /\ caption_flat_ok caption.
Proof.
  intros t [[s more]|] ls Ok F; [|inversion F; split; auto; discriminate]. destruct (Ok s more eq_refl) as ((O & N & M) & L).
  inversion F as [|? l ? ls' E F']; subst. cbn in E. subst l.
  assert (E : ls' = more).
  { clear -F'. revert ls' F'. induction more as [|m more IH]; intros ls' F; inversion F as [|? ? ? ? E F2]; subst; auto. cbn in E. subst. f_equal. apply IH. auto. }
  subst ls'. clear F F'. split.
  - cbn [flat_map caption_lines_of]. rewrite clean_pieces.
    + cbn [app]. f_equal. clear Ok. induction L as [|l more Tl L IH]; [auto|]. cbn [flat_map]. destruct (text_line_facts l Tl) as [C _]. rewrite clean_pieces; auto. cbn [app]. f_equal. auto.
    + split; [|split].
      * intros [I|[I|I]]; try discriminate. apply O. auto.
      * apply (double_cons "|"); [apply (double_cons "|"); [apply no_bar_double; auto|left; discriminate]|right; intros (x & X); discriminate].
      * apply (double_cons "!"); [apply (double_cons "!"); [auto|left; discriminate]|left; discriminate].
  - intros s' more' E. injection E as <- <-. split; auto. eapply Forall_impl; [|exact L]. intros l Tl. apply text_line_facts. auto.
Qed.

(** From the cells with strings to the cells with nested tables *)
Lemma cell_convert : forall t t' x y col, grows t t' -> cell_link t x y -> cell_found t' y col -> cell_parsed (P t') (found_in t') x col.
Proof.
  intros t t' [c more] [c' more'] [attrs content h] Gr (E & L) (text & lines & ct & T & S & Pc & A & C & Hh). cbn [fst snd Attributes ColContent IsHeading] in *. subst c' content.
  apply (parsed_cell (P t') (found_in t') c more text lines ct attrs h); auto.
  - clear -L S Gr. revert lines S. induction L as [|item l more more' I L IH]; intros lines S; inversion S as [|? l' ? ls' El S']; subst; constructor; auto.
    apply (item_mono _ _ _ _ Gr) in I. destruct item as [s|tb].
    + cbn in I. subst l. constructor. destruct El as [->| ->]; [apply trimmed_refl|apply trimmed_trim].
    + destruct I as (i & token & -> & I1 & I2). assert (l' = token_key TOKEN_TABLE i) as ->.
      { destruct El as [->| ->]; auto. apply key_facts. }
      apply (parsed_nested (P t') (found_in t') tb _ token); auto.
  - intros ->. inversion L; subst. auto.
Qed.

Lemma rows_convert : forall t t' rows frows rowTokens, grows t t' -> Forall2 (row_link t) rows frows -> Forall2 (row_is t') frows rowTokens ->
  Forall2 (row_parsed (P t') (found_in t')) rows rowTokens.
Proof.
  intros t t' rows frows rowTokens Gr L. revert rowTokens. induction L as [|[a groups] [a' fcells] rows frows (E & Lc) L IH]; intros rowTokens Ri; inversion Ri as [|? row ? rowTokens' R1 R2]; subst; constructor; auto.
  constructor. cbn [fst snd] in *. unfold row_is in R1. cbn [snd] in R1. clear -Gr Lc R1. revert row R1. induction Lc as [|x y cells fcells X Lc IH]; intros row R1; inversion R1; subst; constructor; auto.
  eapply cell_convert; eauto.
Qed.

Lemma end_pieces : pieces end_line = [end_line].
Proof. reflexivity. Qed.

(** A table without nested tables, on whose texts the parser does not fail *)
Definition table_safe (tb : table) : Prop :=
  match tb with Table _ caption rows =>
    caption_safe caption /\ (forall item, In item (table_items tb) -> exists s, item = TextLine s) /\
    forall a groups c more text lines0 lines, In (Row a groups) rows -> In (c, more) (flat_map group_cells groups) -> more = map TextLine lines0 ->
      trimmed (cell_text c) text -> Forall2 same_line lines0 lines -> R (join nl (text :: lines))
  end.

Definition item_safe (item : line) : Prop := match item with TextLine _ => True | TableLines tb => table_safe tb end.

Lemma table_items_safe : forall tb, table_safe tb -> Forall item_safe (table_items tb).
Proof. intros [a caption rows] (_ & H & _). apply Forall_forall. intros item I. destruct (H item I) as (s & ->). exact Logic.I. Qed.

Lemma safe_rows : forall t a caption rows frows, (strict = true -> table_safe (Table a caption rows)) -> Forall2 (row_link t) rows frows -> Forall row_safe frows /\ caption_safe caption.
Proof.
  intros t a caption rows frows S L. destruct strict eqn:E.
  - destruct (S eq_refl) as (Sc & T & H). split; auto.
    assert (T' : forall a groups c more item, In (Row a groups) rows -> In (c, more) (flat_map group_cells groups) -> In item more -> exists s, item = TextLine s).
    { intros a0 groups c more item I1 I2 I3. apply T. cbn [table_items]. apply in_app_iff. right. apply in_flat_map. exists (Row a0 groups). split; auto. cbn [row_items].
      apply in_app_iff. right. apply in_flat_map in I2 as (g & I2 & I4). apply in_flat_map. exists g. split; auto. destruct g as [cells m]. cbn [group_items group_cells] in *. right.
      clear -I3 I4. induction cells as [|c' cells IH]; [destruct I4|]. destruct cells as [|c2 cells]; [destruct I4 as [I4|[]]; injection I4 as <- <-; auto|].
      destruct I4 as [I4|I4]; [injection I4 as <- <-; destruct I3|auto]. }
    clear T Sc S. induction L as [|r fr rows frows L1 L IH]; constructor.
    + destruct r as [a0 groups]. destruct fr as [a1 fcells]. destruct L1 as [_ L1]. unfold row_safe. cbn [snd] in *. apply Forall_forall. intros fc I.
      assert (X : exists x, In x (flat_map group_cells groups) /\ cell_link t x fc). { clear -I L1. induction L1; [destruct I|]. destruct I as [->|I]; [eexists; split; [left; eauto|eauto]|]. destruct (IHL1 I) as (x0 & J & K). exists x0. split; auto. right. auto. }
      destruct X as ([c more] & Ix & Lx). destruct fc as [c' more']. destruct Lx as [E1 E2]. cbn [fst snd] in *. subst c'. intros text lines Tt Sl. cbn [fst snd] in *.
      assert (Em : more = map TextLine more').
      { specialize (T' a0 groups c more). clear -E2 T' Ix. assert (Y : forall item, In item more -> exists s, item = TextLine s) by (intros item J; apply (T' item); auto; left; auto). clear T' Ix.
        induction E2 as [|item l more more' Hl E2 IH]; auto. cbn [map]. destruct (Y item (or_introl eq_refl)) as (s & ->). cbn in Hl. subst l. f_equal. apply IH. intros. apply Y. right. auto. }
      eapply (H a0 groups c more text more' lines); eauto. left. auto.
    + apply IH; intros; [eapply H; eauto; right; eauto|eapply T'; eauto; right; eauto].
  - split.
    + apply Forall_all. intros r. apply Forall_all. intros fc text lines _ _. apply R_any. auto.
    + intros s more lines _ _. apply R_any. auto.
Qed.

(** A table whose nested tables have been replaced *)
Lemma finish_found : forall tb ls t, table_ok tb -> (strict = true -> table_safe tb) -> Forall2 (item_found t) (table_items tb) ls -> ok false t ->
  judge strict t (finishTable tokenizeContent (first_line tb :: ls ++ [end_line])) (fun t' key => item_found t' (TableLines tb) key).
Proof.
  intros tb ls t Ok Sf F O. destruct Ok as [a caption rows Ca Cc Rs Sep]. cbn [table_items first_line] in *. apply Forall2_app_inv_l in F as (lc & lr & Fc & Fr & ->).
  destruct (caption_link t caption lc Cc Fc) as [Ec Oc]. destruct (rows_link t rows lr Rs Fr) as (frows & Er & Or & Lr). destruct (safe_rows t a caption rows frows Sf Lr) as [Sr Sc].
  unfold finishTable, tokenizeTable. eapply judge_bind with (Q := fun t' v => table_parsed (P t') (found_in t') (Table a caption rows) v).
  - rewrite table_pieces by discriminate.
    assert (E : flat_map pieces ((!"{|" ++ a) :: (lc ++ lr) ++ [end_line]) = (!"{|" ++ a) :: caption_lines_of caption ++ flat_map row_lines frows ++ [end_line]).
    { cbn [flat_map]. rewrite !flat_map_app, Ec, Er. cbn [flat_map]. rewrite end_pieces, clean_pieces; auto. cbn [app]. rewrite <- app_assoc. auto. }
    match goal with |- context [flat_map pieces ?l] => replace (flat_map pieces l) with ((!"{|" ++ a) :: caption_lines_of caption ++ flat_map row_lines frows ++ [end_line]) by (symmetry; exact E) end.
    eapply judge_bind; [apply table_found; auto; eapply separated_ok; eauto|]. cbn beta. intros [rowTokens cap] t1 O1 G1 (C1 & R1). cbn [fst snd] in *. apply judge_ret; auto.
    constructor; auto. eapply rows_convert; eauto.
  - cbn beta. intros v t1 O1 G1 T1.
    apply (judge_token_in _ strict t1 TOKEN_TABLE v (fun k => ret k)); auto; [apply table_type|]. intros t2 n O2 G2 I. apply judge_ret; auto.
    exists n, v. split; auto. split; [exact I|]. eapply table_mono; [| |exact T1].
    + intros x y. apply P_grows. auto.
    + intros x y. apply keeps_In. apply grows_keeps. auto.
Qed.

(** The lines within a table *)
Definition body_ok (item : line) : Prop :=
  match item with
  | TextLine s => has_prefix !"{|" (trim_space s) = false /\ has_prefix !":{|" (trim_space s) = false /\ has_prefix !"|}" (trim_space s) = false
  | TableLines tb => table_ok tb
  end.

Lemma line_body : forall item, line_ok item -> body_ok item.
Proof.
  intros item Ok. destruct Ok as [s ((_ & N & _) & S)|tb T]; [|exact T].
  assert (K : forall p, In "|"%char p -> has_prefix p (trim_space s) = false).
  { intros p I. destruct (has_prefix p (trim_space s)) eqn:E; auto. apply has_prefix_spec in E as (x & E). exfalso. apply N. apply trim_space_In. rewrite E, in_app_iff. auto. }
  repeat split; apply K; cbn; auto.
Qed.

Lemma bar_body : forall c d s, (c = "|" \/ c = "!")%char -> (c = "|"%char -> d <> "}"%char) -> solid d = true -> body_ok (TextLine (c :: d :: s)).
Proof.
  intros c d s C D Sd. unfold body_ok. assert (Sc : solid c = true) by (destruct C as [-> | ->]; reflexivity).
  rewrite trim_cons by auto. replace (trim_right (d :: s)) with (d :: trim_right s) by (symmetry; apply (trim_right_mid d []); auto).
  destruct C as [-> | ->]; repeat split; try reflexivity. rewrite has_prefix_cons. change (Ascii.eqb "|" "|") with true. cbn [andb]. apply has_prefix_neq. intros <-. apply D; auto.
Qed.

Lemma group_body : forall cells, group_cells_ok cells -> body_ok (TextLine (group_line cells)).
Proof.
  intros cells (I & F). destruct cells as [|c cells]; [inversion I|]. assert (Ok : cell_ok c) by (inversion I; auto). unfold body_ok, group_line. cbn [app]. rewrite trim_cons by apply mark_solid.
  destruct Ok as (_ & _ & _ & _ & Hd). unfold mark. destruct (heading c); [repeat split; reflexivity|]. split; [reflexivity|]. split; [reflexivity|].
  rewrite has_prefix_cons. change (Ascii.eqb "|" "|") with true. cbn [andb]. apply not_start. intros X. apply trim_right_start in X. destruct (Hd eq_refl) as (_ & _ & H). 
  destruct (cell_source c) as [|d s] eqn:Es.
  - destruct cells as [|c' cells]; [destruct X as (x & X); discriminate|]. apply (F c c' cells); auto.
  - apply H. destruct X as (x & X). injection X as -> _. exists s. auto.
Qed.

Lemma table_body : forall tb, table_ok tb -> Forall body_ok (table_items tb).
Proof.
  intros tb Ok. destruct Ok as [a caption rows Ca Cc Rs Sep]. cbn [table_items]. apply Forall_app. split.
  - destruct caption as [[s more]|]; [|constructor]. destruct (Cc s more eq_refl) as (_ & L). constructor.
    + apply (bar_body "|" "+" s); auto. discriminate.
    + apply Forall_forall. intros x I. apply in_map_iff in I as (l & <- & I). rewrite Forall_forall in L. apply line_body. constructor. auto.
  - apply Forall_forall. intros x I. apply in_flat_map in I as (r & Ir & I). rewrite Forall_forall in Rs. specialize (Rs r Ir). destruct Rs as [ra groups Ha Hg].
    cbn [row_items] in I. apply in_app_iff in I as [I|I].
    + destruct ra as [ra|]; [|destruct I]. destruct I as [<-|[]]. apply (bar_body "|" "-" ra); auto. discriminate.
    + apply in_flat_map in I as (g & Ig & I). rewrite Forall_forall in Hg. specialize (Hg g Ig). destruct Hg as [cells more Gc Lm]. cbn [group_items] in I. destruct I as [<-|I].
      * apply group_body. auto.
      * rewrite Forall_forall in Lm. apply line_body. auto.
Qed.

Lemma first_trim : forall tb, has_prefix !"{|" (trim_space (first_line tb)) = true.
Proof.
  intros [a c r]. cbn [first_line]. change (!"{|" ++ a) with ("{"%char :: "|"%char :: a). rewrite trim_cons by reflexivity.
  replace (trim_right ("|"%char :: a)) with ("|"%char :: trim_right a) by (symmetry; apply (trim_right_mid "|" []); reflexivity). reflexivity.
Qed.

Lemma gather : forall fuel items sources after t, Forall body_ok items -> (strict = true -> Forall item_safe items) -> Forall2 line_source items sources -> ok false t ->
  judge strict t (tokenizeTables_go tokenizeContent fuel (concat sources ++ end_line :: after))
    (fun t' p => exists ls, Forall2 (item_found t') items ls /\ fst p = ls ++ [end_line] /\ snd p = after).
Proof.
  induction fuel as [|fuel IH]; intros items sources after t B Sf S O.
  - destruct (concat sources ++ end_line :: after) eqn:E; [destruct (concat sources); discriminate|]. apply judge_fuel.
  - destruct S as [|item source items sources S1 S].
    + cbn [concat app tokenizeTables_go]. apply judge_ret; auto. exists []. split; auto.
    + inversion B as [|? ? B1 B2]; subst. assert (Sf1 : strict = true -> item_safe item) by (intros X; specialize (Sf X); inversion Sf; auto).
      assert (Sf2 : strict = true -> Forall item_safe items) by (intros X; specialize (Sf X); inversion Sf; auto). destruct S1 as [s|tb ss S1].
      * cbn [concat app tokenizeTables_go]. destruct B1 as (N1 & N2 & N3). rewrite N1, N2, N3. cbn [orb]. eapply judge_bind; [apply IH; eauto|]. cbn beta.
        intros [r aft] t1 O1 G1 (ls & F & E1 & E2). cbn [fst snd] in *. subst r aft. apply judge_ret; auto. exists (s :: ls). split; auto. constructor; auto. reflexivity.
      * cbn [concat app tokenizeTables_go]. rewrite first_trim. cbn [orb]. cbn in B1.
        replace ((concat ss ++ [!"|}"]) ++ concat sources) with (concat ss ++ end_line :: concat sources) by (rewrite <- app_assoc; reflexivity).
        rewrite <- app_assoc. cbn [app].
        eapply judge_bind; [apply IH; [apply table_body; eauto|intros X; apply table_items_safe; apply (Sf1 X)|eauto|auto]|]. cbn beta. intros [nested aft] t1 O1 G1 (ls & F & E1 & E2). cbn [fst snd] in *. subst nested aft.
        eapply judge_bind; [apply finish_found; eauto|]. cbn beta. intros key t2 O2 G2 K.
        eapply judge_bind; [apply IH; eauto|]. cbn beta. intros [r aft] t3 O3 G3 (ls3 & F3 & E1 & E2). cbn [fst snd] in *. subst r aft. apply judge_ret; auto.
        exists (key :: ls3). split; auto. constructor; auto. eapply item_mono; eauto.
Qed.

(** ** Tables between other lines *)

Lemma table_start_spec : forall s p, table_start s = Some p -> exists rest, s = p ++ !"{|" ++ rest /\ Forall (eq ":"%char) p.
Proof.
  induction s as [|c s IH]; intros p E; cbn [table_start] in E; [discriminate|]. destruct (Ascii.eqb_spec c ":") as [->|N].
  - destruct (table_start s) as [q|]; [|discriminate]. injection E as <-. destruct (IH q eq_refl) as (rest & -> & F). exists rest. split; auto.
  - destruct (has_prefix !"{|" (c :: s)) eqn:H; [|discriminate]. injection E as <-. apply has_prefix_spec in H as (rest & ->). exists rest. split; auto.
Qed.

Lemma first_start : forall tb, table_start (trim_space (first_line tb)) = Some [].
Proof.
  intros tb. pose proof (first_trim tb) as H. apply has_prefix_spec in H as (x & ->). reflexivity.
Qed.

Lemma tables_found : forall fuel items sources t, Forall block_ok items -> (strict = true -> Forall item_safe items) -> Forall2 line_source items sources -> ok false t ->
  judge strict t (parseTables_go tokenizeContent fuel (concat sources)) (fun t' ls => Forall2 (item_found t') items ls).
Proof.
  induction fuel as [|fuel IH]; intros items sources t B Sf S O.
  - destruct S as [|item source items sources S1 S]; [apply judge_ret; auto|]. destruct S1; apply judge_fuel.
  - destruct S as [|item source items sources S1 S]; [apply judge_ret; auto|]. inversion B as [|? ? B1 B2]; subst. assert (Sf1 : strict = true -> item_safe item) by (intros X; specialize (Sf X); inversion Sf; auto).
    assert (Sf2 : strict = true -> Forall item_safe items) by (intros X; specialize (Sf X); inversion Sf; auto). destruct S1 as [s|tb ss S1].
    + cbn [concat app parseTables_go]. destruct (table_start (trim_space s)) as [p|] eqn:E.
      * exfalso. apply table_start_spec in E as (rest & E & F). destruct B1 as [_ B1]. apply (B1 p rest); auto.
      * eapply judge_bind; [apply IH; eauto|]. cbn beta. intros r t1 O1 G1 F. apply judge_ret; auto. constructor; auto. reflexivity.
    + cbn [concat app parseTables_go]. rewrite first_start. unfold tokenizeTables. rewrite <- app_assoc. cbn [app]. change !"|}" with end_line.
      eapply judge_bind.
      { eapply judge_bind; [apply gather; [apply table_body; eauto|intros X; apply table_items_safe; apply (Sf1 X)|eauto|auto]|]. cbn beta. intros [r aft] t1 O1 G1 (ls & F & E1 & E2). cbn [fst snd] in *. subst r aft.
        eapply judge_bind; [apply finish_found; eauto|]. cbn beta. intros key t2 O2 G2 K.
        apply (judge_ret _ strict t2 (key, concat sources) (fun t' p => item_found t' (TableLines tb) (fst p) /\ snd p = concat sources)); auto. }
      cbn beta. intros [key aft] t1 O1 G1 (K & E). cbn [fst snd] in *. subst aft. eapply judge_bind; [apply IH; eauto|]. cbn beta. intros r t2 O2 G2 F. apply judge_ret; auto.
      constructor; auto. eapply item_mono; eauto.
Qed.
End Recursive.
