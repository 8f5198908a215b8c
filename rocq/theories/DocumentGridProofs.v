(** * Parsing a document: tables *)

From Coq Require Import Ascii String.
From Coq Require Import List Arith Bool Lia.
From Verif Require Import GoStr GoStrFacts TextFacts TrimFacts UtilModel BracketModel ConfigModel TokenModel TokenSpec TokenProofs PassSpec MarkupSpec SafeSpec.
From Verif Require Import FormattingModel FormattingSpec FormattingProofs HeadingModel LinkModel ImageModel ReferenceModel ListModel TableModel TableSpec ParagraphModel ParagraphSpec ParagraphProofs TokenizerModel JudgeProofs HeadingProofs LinkProofs TableProofs NowikiProofs SafeTextProofs SafeProofs ShapeProofs.
From Verif Require Import MathQuietProofs PropPasses DocumentSpec DocumentSettledProofs DocumentLineProofs DocumentPictureProofs DocumentRunProofs DocumentBlockProofs DocumentListProofs.
Import ListNotations.
Local Open Scope list_scope.

(** ** White space around a text *)

Lemma rune_inside : forall p p' z c m m', In p space_runes -> In p' space_runes -> p = z ++ c :: m -> z <> [] -> p' = c :: m' -> False.
Proof.
  assert (H : forallb (fun p => forallb (fun c => forallb (fun p' => match p' with [] => true | d :: _ => negb (Ascii.eqb c d) end) space_runes) (tl p)) space_runes = true) by (vm_compute; reflexivity).
  intros p p' z c m m' I J -> N ->. rewrite forallb_forall in H. specialize (H _ I). rewrite forallb_forall in H. destruct z as [|d z]; [contradiction|]. cbn [app tl] in H.
  specialize (H c ltac:(apply in_app_iff; right; left; auto)). rewrite forallb_forall in H. specialize (H _ J). cbn beta iota in H. rewrite Ascii.eqb_refl in H. discriminate.
Qed.

Lemma trimmed_same : forall s y, trimmed s y -> trim_space y = trim_space s.
Proof.
  intros s y (l & r & L & R & ->). unfold trim_space. rewrite trim_left_blank by auto. destruct (trim_left_spec y) as (a & E & A & N). remember (trim_left y) as z eqn:Ez. clear Ez.
  rewrite E, <- app_assoc, trim_left_blank by auto. destruct z as [|c z'].
  - cbn [app]. rewrite <- (app_nil_r r), trim_left_blank by auto. reflexivity.
  - rewrite (trim_left_fix ((c :: z') ++ r)); [rewrite trim_right_blank by auto; auto|]. intros p I. destruct (has_prefix p ((c :: z') ++ r)) eqn:X; auto. exfalso.
    apply has_prefix_spec in X as (x & X). apply app_eq_app in X as (m & [[Y _]|[-> Y]]).
    + specialize (N p I). rewrite Y, has_prefix_app in N. discriminate.
    + destruct m as [|d m]; [rewrite app_nil_r in I; specialize (N _ I); assert (X : has_prefix (c :: z') (c :: z') = true) by (apply has_prefix_spec; exists []; rewrite app_nil_r; auto); congruence|].
      destruct R as [|p' r' I' R]; [discriminate|]. destruct p' as [|d' p']; [apply space_runes_nonempty in I'; auto|]. cbn [app] in Y. injection Y as Y _. subst d'.
      eapply (rune_inside _ (d :: p') (c :: z') d); eauto. discriminate.
Qed.

Lemma trimmed_settled : forall s y, (forall c, In c !"[<{" -> ~ In c s) -> (forall a b, s <> a ++ !"''" ++ b) -> ~ In nl_char s -> no_block_start s -> trimmed s y -> settled y.
Proof.
  intros s y C Q N B T. apply settled_single.
  - intros c I J. apply (C c I). eapply trimmed_In; eauto.
  - destruct T as (l & r & _ & _ & ->). intros a b ->. apply (Q (l ++ a) (b ++ r)). rewrite <- !app_assoc. reflexivity.
  - intros J. apply N. eapply trimmed_In; eauto.
  - intros c x E. rewrite (trimmed_same _ _ T) in E. apply (B c x E).
Qed.

(** ** The table of a grid *)

Definition attributes_of (k : cell_kind) : option str := match cell_attributes k with [] => None | l => Some (!" " ++ attributes_source l ++ !" ") end.
Definition cell_of (c : grid_cell) (x : str) : TableSpec.cell := mkCell (is_heading (fst c)) (attributes_of (fst c)) x.
Definition kept (k : cell_kind) : list str := kept_spans (cell_attributes k) ++ kept_alignment (cell_attributes k).

Fixpoint grid_cells (cells : list grid_cell) : list TableSpec.cell :=
  match cells with
  | [] => []
  | [c] => [cell_of c (match snd c with [] => [] | x => !" " ++ line_wikitext x end)]
  | c :: cells' => cell_of c (!" " ++ line_wikitext (snd c) ++ !" ") :: grid_cells cells'
  end.
Definition grid_row (row : list (list grid_cell)) : TableSpec.row := Row (Some []) (map (fun cells => Group (grid_cells cells) []) row).
Definition table_of (a : str) (caption : option (list inline)) (rows : list (list (list grid_cell))) : TableSpec.table :=
  Table a (option_map (fun x => (!" " ++ line_wikitext x, [])) caption) (map grid_row rows).

Definition cell_token (c : grid_cell) : TableColToken := mkTableColToken (kept (fst c)) (line_wikitext (snd c)) (is_heading (fst c)).
Definition grid_token (caption : option (list inline)) (rows : list (list (list grid_cell))) : Token :=
  TableToken (map (fun row => map cell_token (concat row)) rows) (match caption with Some x => line_wikitext x | None => [] end).

Lemma grid_mark : forall (c : grid_cell) x, [TableSpec.mark (cell_of c x)] = cell_sign c.
Proof. intros [[[] a] y] x; reflexivity. Qed.
Lemma cell_of_source : forall c x, [TableSpec.mark (cell_of c x)] ++ cell_source (cell_of c x) = cell_start c ++ x.
Proof.
  intros c x. rewrite grid_mark. unfold cell_start, cell_source, cell_of, attributes_of. cbn [attributes cell_text]. rewrite <- app_assoc. f_equal. destruct (cell_attributes (fst c)); [reflexivity|]. rewrite <- !app_assoc. reflexivity.
Qed.

Lemma group_rest : forall cells c, Forall (fun c : grid_cell => snd c <> []) (c :: cells) ->
  exists d ds, grid_cells (c :: cells) = d :: ds /\ [TableSpec.mark d] = cell_sign c /\ [TableSpec.mark d] ++ cell_source d ++ concat (map (fun d => [TableSpec.mark d; TableSpec.mark d] ++ cell_source d) ds) =
    cell_start c ++ !" " ++ line_wikitext (snd c) ++ concat (map (fun c => !" " ++ cell_sign c ++ cell_start c ++ !" " ++ line_wikitext (snd c)) cells).
Proof.
  induction cells as [|c' cells IH]; intros c F; inversion F as [|? ? F1 F2]; subst.
  - cbn [grid_cells]. eexists _, _. split; [reflexivity|]. split; [apply grid_mark|]. cbn [map concat]. rewrite !app_nil_r, cell_of_source. destruct (snd c); [contradiction|reflexivity].
  - destruct (IH c' F2) as (d & ds & E & M & S). cbn [grid_cells] in *. rewrite E. eexists _, _. split; [reflexivity|]. split; [apply grid_mark|]. cbn [map concat].
    change ([TableSpec.mark d; TableSpec.mark d] ++ ?z) with ([TableSpec.mark d] ++ [TableSpec.mark d] ++ z). rewrite (app_assoc [TableSpec.mark _] (cell_source _)), cell_of_source. rewrite <- !app_assoc. rewrite S, M. reflexivity.
Qed.

Section Doc.
Context {cfg : configuration}.

Lemma group_text : forall cells, cells_plain cells -> group_line (grid_cells cells) = cells_line cells.
Proof.
  intros cells (h & [(k & -> & K)|[N F]]); [cbn [grid_cells snd group_line map concat cells_line]; rewrite !app_nil_r; rewrite cell_of_source; apply app_nil_r|]. destruct cells as [|c cells]; [contradiction|].
  assert (X : Forall (fun c : grid_cell => snd c <> []) (c :: cells)) by (eapply Forall_impl; [|exact F]; intros k [_ [[K _] _]]; apply K).
  destruct (group_rest cells c X) as (d & ds & E & M & S). rewrite E. cbn [group_line cells_line]. rewrite S. inversion X as [|? ? X1 X2]; subst. destruct (snd c); [contradiction|]. rewrite <- !app_assoc. reflexivity.
Qed.

Definition inner_lines (caption : option (list inline)) (rows : list (list (list grid_cell))) : list str :=
  match caption with Some c => [!"|+ " ++ line_wikitext c] | None => [] end ++ concat (map (fun row => !"|-" :: map cells_line row) rows).

Lemma grid_lines : forall a caption rows, block_lines (Grid a caption rows) = first_line (table_of a caption rows) :: inner_lines caption rows ++ [!"|}"].
Proof. intros a caption rows. cbn [block_lines first_line table_of]. unfold inner_lines. rewrite <- app_assoc. reflexivity. Qed.

Lemma table_texts : forall a caption rows, Forall (Forall cells_plain) rows -> table_items (table_of a caption rows) = map TextLine (inner_lines caption rows).
Proof.
  intros a caption rows F. unfold table_of, inner_lines. cbn [table_items]. rewrite map_app. f_equal.
  - destruct caption; reflexivity.
  - rewrite map_concat, !map_map. rewrite flat_map_concat_map, map_map. f_equal. apply map_ext_in. intros row I. rewrite Forall_forall in F. specialize (F row I). cbn [grid_row row_items map app]. f_equal.
    clear I. induction F as [|cells row C F IH]; auto. cbn [map flat_map group_items app]. rewrite group_text by auto. f_equal. auto.
Qed.

Lemma texts_source : forall ls, Forall2 line_source (map TextLine ls) (map (fun s => [s]) ls).
Proof. induction ls; constructor; auto. constructor. Qed.
Lemma concat_singles : forall (ls : list str), concat (map (fun s => [s]) ls) = ls.
Proof. induction ls; auto. cbn [map concat app]. f_equal. auto. Qed.

Lemma grid_source : forall a caption rows, Forall (Forall cells_plain) rows -> line_source (TableLines (table_of a caption rows)) (block_lines (Grid a caption rows)).
Proof.
  intros a caption rows F. rewrite grid_lines. rewrite <- (concat_singles (inner_lines caption rows)) at 1. apply table_source. rewrite table_texts by auto. apply texts_source.
Qed.

Lemma doubled_absent : forall c s, ~ In c s -> contains [c; c] s = false.
Proof. intros c s N. apply contains_false. intros a b ->. apply N. apply in_app_iff. right. left. auto. Qed.

Lemma cell_text_plain : forall l p, cell_plain l -> (forall c, In c p -> c = " "%char) -> TableSpec.plain_text (p ++ line_wikitext l) /\ TableSpec.plain_text (p ++ line_wikitext l ++ !" ").
Proof.
  intros l p [[[_ _ N _ _ _] W] E] S. pose proof (words_text _ W) as I. assert (I' : ~ In "|"%char (line_wikitext l)) by (apply I; cbn; auto 10).
  assert (H : forall c, c <> " "%char -> ~ In c (line_wikitext l) -> ~ In c (p ++ line_wikitext l) /\ ~ In c (p ++ line_wikitext l ++ !" ")).
  { intros c Nc H. rewrite !in_app_iff. split; intros J; repeat (destruct J as [J|J]); auto; cbn in J; intuition congruence. }
  split; (split; [apply H; auto; discriminate|]; split; [apply H; auto; discriminate|]; apply (doubled_absent "!"); apply H; auto; discriminate).
Qed.

Lemma space_starts : forall c x, c <> " "%char -> ~ starts_with c (!" " ++ x).
Proof. intros c x N (y & E). cbn [app] in E. congruence. Qed.
Lemma nil_starts : forall c, ~ starts_with c [].
Proof. intros c (y & E). discriminate. Qed.

Lemma grid_cell_ok : forall h c x, kind_ok h (fst c) -> (x = [] \/ exists y, x = !" " ++ y) -> TableSpec.plain_text x -> ~ In "!"%char x -> TableSpec.cell_ok (cell_of c x).
Proof.
  intros h [[k a] z] x (_ & _ & W & E & _) S Px Nx. cbn [fst cell_attributes] in *. unfold cell_of, attributes_of. cbn [fst cell_attributes is_heading].
  assert (Q : forall c, c <> " "%char -> ~ starts_with c x) by (intros c N; destruct S as [->|(y & ->)]; [apply nil_starts|apply space_starts; auto]).
  destruct a as [|b a].
  - split; [exact Px|]. split; [discriminate|]. split; [apply Px|]. cbn [cell_source attributes cell_text]. split; [apply Q; discriminate|]. intros _. split; [|split]; apply Q; discriminate.
  - set (s := attributes_source (b :: a)) in *. assert (N : forall c, c <> " "%char -> ~ In c s -> ~ In c (!" " ++ s ++ !" ")) by (intros c Nc I J; rewrite !in_app_iff in J; destruct J as [J|[J|J]]; auto; cbn in J; intuition congruence).
    assert (Na : TableSpec.plain_text (!" " ++ s ++ !" ")).
    { split; [apply N; [discriminate|apply letter_not; auto; cbn; auto 20]|]. split; [apply N; [discriminate|apply letter_not; auto; cbn; auto 20]|]. apply (doubled_absent "!"). apply N; [discriminate|exact E]. }
    split; [exact Px|]. split; [intros a0 X; injection X as <-; split; auto; discriminate|]. unfold cell_source. cbn [attributes cell_text]. split.
    + apply (doubled_absent "!"). intros I. rewrite !in_app_iff in I. destruct I as [[I|[I|I]]|[I|I]]; auto; cbn in I; intuition discriminate.
    + rewrite <- !app_assoc. split; [apply space_starts; discriminate|]. intros _. split; [|split]; apply space_starts; discriminate.
Qed.

Lemma grid_inline_ok : forall h cells, cells <> [] -> Forall (fun c : grid_cell => kind_ok h (fst c) /\ cell_plain (snd c)) cells -> TableSpec.inline_ok (grid_cells cells).
Proof.
  intros h. induction cells as [|c cells IH]; intros N F; [contradiction|]. inversion F as [|? ? [K F1] F2]; subst. assert (Sp : forall d, In d !" " -> d = " "%char) by (intros d [<-|[]]; auto). destruct (cell_text_plain (snd c) !" " F1 Sp) as [P1 P2].
  assert (Nx : ~ In "!"%char (line_wikitext (snd c))) by apply F1.
  destruct cells as [|c' cells].
  - cbn [grid_cells]. constructor. apply (grid_cell_ok h); auto; destruct (snd c) as [|i l] eqn:X; eauto; try (destruct F1 as [[[_ _ _ _ _ Y] _] _]; contradiction). intros I. apply in_app_iff in I as [I|I]; auto. cbn in I. intuition discriminate.
  - specialize (IH ltac:(discriminate) F2). change (grid_cells (c :: c' :: cells)) with (cell_of c (!" " ++ line_wikitext (snd c) ++ !" ") :: grid_cells (c' :: cells)). destruct (grid_cells (c' :: cells)) as [|d ds] eqn:E; [destruct cells; discriminate E|]. constructor; auto.
    + apply (grid_cell_ok h); eauto. intros I. rewrite !in_app_iff in I. destruct I as [I|[I|I]]; auto; cbn in I; intuition discriminate.
    + assert (Y : exists y, cell_source (cell_of c (!" " ++ line_wikitext (snd c) ++ !" ")) = y ++ !" ").
      { unfold cell_source, cell_of. cbn [attributes cell_text]. destruct (attributes_of (fst c)); rewrite !app_assoc; eauto. }
      destruct Y as (y & ->). split; intros (z & Z); apply app_inj_tail in Z as [_ Z]; discriminate.
Qed.

Lemma grid_group_ok : forall cells, cells_plain cells -> TableSpec.group_ok (Group (grid_cells cells) []).
Proof.
  intros cells (h & [(k & -> & K)|[N F]]); (constructor; [split|constructor]).
  - cbn [grid_cells snd]. constructor. apply (grid_cell_ok h); auto. split; [intros []|]. split; [intros []|reflexivity].
  - cbn. intros c c' cells' E. discriminate.
  - apply (grid_inline_ok h); auto.
  - intros d d' ds E. destruct cells as [|c [|c' cells]]; [contradiction|discriminate E|]. injection E as <- _. unfold cell_source, cell_of. cbn [attributes cell_text]. destruct (attributes_of (fst c)) as [s|]; [|discriminate]. intros Z. apply app_eq_nil in Z as [_ Z]. discriminate.
Qed.

Lemma grid_table_ok : forall a caption rows, block_plain (Grid a caption rows) -> TableSpec.table_ok (table_of a caption rows).
Proof.
  intros a caption rows (A & C & F). constructor.
  - destruct A as ([W _] & E & _). rewrite Forall_forall in W. assert (N : forall c, In c (!"|" ++ nl) -> ~ In c a) by (intros c I J; apply (W c J); cbn in I |- *; intuition).
    split; [intros [I|[I|I]]; [discriminate|discriminate|revert I; apply N; cbn; auto]|]. split.
    + apply contains_false. intros x y Ex. destruct x as [|c [|d x]]; cbn [app] in Ex.
      * discriminate.
      * injection Ex as _ Ex. apply (N "|"%char); [cbn; auto|]. rewrite Ex. left. auto.
      * injection Ex as _ _ Ex. apply (N "|"%char); [cbn; auto|]. rewrite Ex. apply in_app_iff. right. left. auto.
    + apply (doubled_absent "!"). intros [I|[I|I]]; [discriminate|discriminate|auto].
  - intros s more E. destruct caption as [c|]; cbn [option_map] in E; [|discriminate]. injection E as <- <-. split; [|constructor]. refine (proj1 (cell_text_plain c !" " (C c eq_refl) _)). intros d [<-|[]]; auto.
  - apply Forall_map. eapply Forall_impl; [|exact F]. intros row Rw. constructor.
    + intros s E. injection E as <-. split; [intros [I|[I|[]]]; discriminate|]. split; reflexivity.
    + apply Forall_map. eapply Forall_impl; [|exact Rw]. apply grid_group_ok.
  - apply all_separated. intros x groups I. apply in_map_iff in I as (row & E & _). injection E as <- _. discriminate.
Qed.

(** ** The texts are parsed *)

Lemma plain_settled : forall l p q y, plain_text l -> (forall c, In c (p ++ q) -> c = " "%char) -> trimmed (p ++ line_wikitext l ++ q) y -> settled y /\ trim_space y = line_wikitext l.
Proof.
  intros l p q y [[A St N S T E] W] H Tr. assert (Bp : blank p /\ blank q).
  { assert (X : forall z, (forall c, In c z -> c = " "%char) -> blank z). { induction z as [|c z IH]; intros Z; [constructor|]. rewrite (Z c) by (left; auto). apply (made_cons _ !" "); [vm_compute; auto 10|apply IH; intros; apply Z; right; auto]. }
    split; apply X; intros c I; apply H; apply in_app_iff; auto. }
  destruct Bp as [Bp Bq]. assert (Ts : trim_space (p ++ line_wikitext l ++ q) = line_wikitext l) by (rewrite <- T; symmetry; apply trimmed_same; exists p, q; rewrite T; auto).
  split; [|rewrite (trimmed_same _ _ Tr); exact Ts]. eapply trimmed_settled; [| | | |exact Tr].
  - intros c I J. rewrite !in_app_iff in J. destruct J as [J|[J|J]]; [|revert J; apply only_words_not; auto|]; (assert (c = " "%char) by (apply H; apply in_app_iff; auto)); subst c; cbn in I; intuition discriminate.
  - apply plain_app; [|apply plain_app; [apply words_text; auto|]]; apply plain_without; intros I; (assert (Z : quote = " "%char) by (apply H; apply in_app_iff; auto)); discriminate Z.
  - intros J. rewrite !in_app_iff in J. destruct J as [J|[J|J]]; [|auto|]; (assert (Z : nl_char = " "%char) by (apply H; apply in_app_iff; auto)); discriminate.
  - intros c x X. rewrite Ts in X. apply (S c x). rewrite T. exact X.
Qed.

Lemma blank_settled : forall y, trimmed [] y -> settled y /\ trim_space y = [].
Proof.
  intros y (l & r & _ & _ & E). symmetry in E. apply app_eq_nil in E as [_ E]. apply app_eq_nil in E as [-> _]. split; [|reflexivity]. apply settled_single; [intros c _ []|intros [] b Z; discriminate Z|intros []|]. intros c x E. discriminate E.
Qed.

Lemma grid_cells_texts : forall cells, cells_plain cells -> Forall2 (fun c d => heading d = is_heading (fst c) /\ (forall attrs, attributes_parsed (attributes d) attrs -> attrs = kept (fst c)) /\ forall y, trimmed (cell_text d) y -> settled y /\ trim_space y = line_wikitext (snd c)) cells (grid_cells cells).
Proof.
  assert (At : forall h k attrs, kind_ok h k -> attributes_parsed (attributes_of k) attrs -> attrs = kept k).
  { intros h [b l] attrs (_ & A & _ & _ & T) P. unfold attributes_of, kept in *. cbn [cell_attributes] in *. destruct l as [|x l]; [exact P|]. apply P; auto. change (join !" " (map attribute_source (x :: l))) with (attributes_source (x :: l)). rewrite <- T. rewrite T at 1. symmetry. apply trimmed_same. exists !" ", !" ".
    split; [|split; [|reflexivity]]; apply (made_cons _ !" "); try (vm_compute; auto 10); constructor. }
  intros cells (h & [(k & -> & K)|[_ F]]).
  - constructor; [|constructor]. split; auto. split; [intros attrs; apply (At h); auto|]. cbn. apply blank_settled.
  - assert (Sp : forall p q : str, (p = !" " /\ (q = [] \/ q = !" ")) -> forall c, In c (p ++ q) -> c = " "%char) by (intros p q [-> [->| ->]] c I; cbn in I; intuition).
    induction F as [|c cells [Kc [C _]] F IH]; [constructor|]. destruct cells as [|c' cells]; cbn [grid_cells]; (constructor; [|try constructor; exact IH]); split; auto; split; try (intros attrs; apply (At h); auto); cbn [cell_text cell_of]; intros y Y.
    + apply (plain_settled (snd c) !" " [] y C); [apply Sp; auto|]. rewrite app_nil_r. destruct (snd c) as [|i l] eqn:E; auto. destruct C as [[_ _ _ _ _ X] _]. contradiction.
    + apply (plain_settled (snd c) !" " !" " y C); [apply Sp; auto|]. exact Y.
Qed.

Lemma with_none : forall cells, with_more cells (@nil TableSpec.line) = map (fun c => (c, [])) cells.
Proof. induction cells as [|c [|c' cells] IH]; auto. cbn [with_more map] in *. f_equal. exact IH. Qed.

Lemma row_cells : forall row, flat_map group_cells (map (fun cells => Group (grid_cells cells) []) row) = map (fun c => (c, [])) (concat (map grid_cells row)).
Proof. induction row as [|cells row IH]; auto. cbn [map flat_map concat group_cells]. rewrite IH, with_none, map_app. auto. Qed.

Lemma row_texts : forall row, Forall cells_plain row ->
  Forall2 (fun c d => heading d = is_heading (fst c) /\ (forall attrs, attributes_parsed (attributes d) attrs -> attrs = kept (fst c)) /\ forall y, trimmed (cell_text d) y -> settled y /\ trim_space y = line_wikitext (snd c)) (concat row) (concat (map grid_cells row)).
Proof. induction 1 as [|cells row C F IH]; cbn [map concat]; [constructor|]. apply Forall2_app; auto. apply grid_cells_texts. auto. Qed.

Lemma grid_safe : forall a caption rows, block_plain (Grid a caption rows) -> table_safe settled (table_of a caption rows).
Proof.
  intros a caption rows (A & C & F). split; [|split].
  - intros s more lines E T. destruct caption as [c|]; cbn [option_map] in E; [|discriminate]. injection E as <- <-. inversion T as [|? y ? ls T1 T2]; subst. inversion T2; subst. cbn [join].
    destruct (C c eq_refl) as [X _]. apply (plain_settled c !" " [] y X); [intros d [<-|[]]; auto|]. rewrite app_nil_r. exact T1.
  - intros item I. rewrite table_texts in I by auto. apply in_map_iff in I as (s & <- & _). eauto.
  - intros x groups c more text lines0 lines I J E T L. apply in_map_iff in I as (row & R & I). unfold grid_row in R. injection R as <- <-. rewrite row_cells in J. apply in_map_iff in J as (d & D & J). injection D as -> <-. destruct lines0; [|discriminate]. inversion L; subst. cbn [join].
    rewrite Forall_forall in F. specialize (F row I). pose proof (row_texts row F) as X. clear - X J T. induction X as [|e d l l' (_ & _ & H) X IH]; [destruct J|]. destruct J as [->|J]; [apply H; auto|auto].
Qed.

Section Run.
Variable fuel : nat.
Let rec := tokenizeContent cfg fuel.

Lemma settled_parsed : forall t s content, settled s -> parsed rec t s content -> content = s.
Proof. intros t s content S (t1 & t2 & U & E & _). pose proof (settled_judge false cfg fuel s t1 S (ok_false _ U)) as [H _]. destruct (H _ _ E) as (_ & _ & X). exact X. Qed.

Lemma cells_parsed_as : forall t found l l' cols, Forall2 (fun c d => heading d = is_heading (fst c) /\ (forall attrs, attributes_parsed (attributes d) attrs -> attrs = kept (fst c)) /\ forall y, trimmed (cell_text d) y -> settled y /\ trim_space y = line_wikitext (snd c)) l l' ->
  Forall2 (cell_parsed (parsed rec t) found) (map (fun c => (c, [])) l') cols -> cols = map cell_token l.
Proof.
  intros t found l l' cols F. revert cols. induction F as [|c d l l' (H1 & H2 & H3) F IH]; intros cols C; inversion C as [|? col ? cols' C1 C2]; subst; auto. cbn [map]. f_equal; auto. clear - C1 H1 H2 H3.
  inversion C1 as [? ? text lines content attrs h T L Pc A Hh]; subst. inversion L; subst. cbn [join] in Pc. destruct (H3 text T) as [S Ts]. apply settled_parsed in Pc; auto. subst content. rewrite Ts, (H2 _ A), (Hh eq_refl), H1. reflexivity.
Qed.

Lemma grid_parsed : forall t found a caption rows token, block_plain (Grid a caption rows) -> table_parsed (parsed rec t) found (table_of a caption rows) token -> token = grid_token caption rows.
Proof.
  intros t found a caption rows token (A & C & F) H. unfold table_of in H. inversion H as [? ? ? rowTokens captionToken Hc Hr]; subst. unfold grid_token. f_equal.
  - clear - Hr F. revert rowTokens Hr. induction F as [|row rows R F IH]; intros rowTokens Hr; inversion Hr as [|? r ? rs H1 H2]; subst; auto. cbn [map]. f_equal; auto. unfold grid_row in H1. inversion H1 as [? ? cols H3]; subst. rewrite row_cells in H3.
    eapply cells_parsed_as; [|exact H3]. apply row_texts. auto.
  - destruct caption as [c|]; cbn [option_map caption_parsed] in Hc; [|auto]. destruct Hc as (lines & content & T & Pc & ->). inversion T as [|? y ? ls T1 T2]; subst. inversion T2; subst. cbn [join] in Pc. destruct (C c eq_refl) as [X _].
    destruct (plain_settled c !" " [] y X) as [S Ts]; [intros d [<-|[]]; auto|rewrite app_nil_r; exact T1|]. apply settled_parsed in Pc; auto. subst. auto.
Qed.

Definition placed (t : Tokenizer) (b : block) (ss : list str) : Prop :=
  match b with
  | Heading n title => exists key title', ss = [key] /\ In (key, HeadingToken (line_wikitext title') n) (tokenMap t) /\ Forall2 (shown t) title title'
  | Paragraph lines => exists lines', ss = map line_wikitext lines' /\ Forall2 (Forall2 (shown t)) lines lines'
  | Items items => exists key items', ss = [key] /\ In (key, ListTokenOf (list_token items')) (tokenMap t) /\ Forall2 (item_rel (Forall2 (shown t))) items items'
  | Grid a caption rows => exists key caption' rows', ss = [key] /\ In (key, grid_token caption' rows') (tokenMap t) /\ block_rel (Forall2 (shown t)) b (Grid a caption' rows')
  | Figure p => exists key, ss = [key] /\ exists p', In (key, picture_token p') (tokenMap t) /\ captioned t p p'
  | Footnotes n title _ texts => notes_keys t n title texts (map (fun k => [Words k]) ss)
  end.

Lemma inert_outside : forall s, inert s -> ~ In nl_char s -> outside s.
Proof.
  intros s I N. split; [exact N|]. intros colons rest E _. apply (proj1 I "{"%char); [cbn; auto 10|]. apply (trim_space_In s). rewrite E. apply in_app_iff. right. left. auto.
Qed.

Lemma key_outside : forall t key v, unique t -> In (key, v) (tokenMap t) -> outside key.
Proof. intros t key v U I. pose proof (state_key _ _ _ U I) as A. apply inert_outside; [apply atom_inert; auto|apply atom_not; auto; apply in_app_iff; right; left; auto]. Qed.

Lemma texts_found : forall t ls rs, Forall2 (item_found rec t) (map TextLine ls) rs -> rs = ls.
Proof. induction ls as [|s ls IH]; intros rs F; inversion F as [|? r ? rs' F1 F2]; subst; auto. cbn in F1. subst. f_equal. auto. Qed.

(** The lines of a block, as lines outside of tables or a table *)
Lemma block_tabled : forall t b ls, unique t -> block_fine b -> listed t b ls ->
  exists items sources, Forall2 line_source items sources /\ concat sources = ls /\ Forall TableSpec.block_ok items /\ Forall (item_safe settled) items /\
    forall t' rs, keeps t t' -> Forall2 (item_found rec t') items rs -> placed t' b rs.
Proof.
  intros t b ls U F L. assert (M : forall t' x x', keeps t t' -> Forall2 (shown t) x x' -> Forall2 (shown t') x x') by (intros; eapply shown_lines; eauto).
  assert (Z : Forall outside ls -> (forall t', keeps t t' -> placed t' b ls) ->
    exists items sources, Forall2 line_source items sources /\ concat sources = ls /\ Forall TableSpec.block_ok items /\ Forall (item_safe settled) items /\ forall t' rs, keeps t t' -> Forall2 (item_found rec t') items rs -> placed t' b rs).
  { intros O K. exists (map TextLine ls), (map (fun s => [s]) ls). split; [apply texts_source|]. split; [apply concat_singles|]. split; [apply Forall_map; exact O|]. split; [apply Forall_map; apply Forall_forall; intros s _; exact I|].
    intros t' rs Kp H. apply texts_found in H. subst rs. auto. }
  destruct b as [n title|lines|items|a caption rows|p|fn ft fa fx]; cbn [listed] in L.
  - destruct L as (key & title' & -> & I & S). apply Z; [constructor; [eapply key_outside; eauto|constructor]|]. intros t' K. exists key, title'. split; auto. split; [eapply keeps_In; eauto|eauto].
  - destruct L as (b' & -> & S). pose proof (related_plain t _ _ U F S) as W. destruct S as (lines' & -> & S). destruct W as [_ W]. apply Z.
    + cbn [lines_of]. apply Forall_map. eapply Forall_impl; [|exact W]. intros l [L1 L2]. apply inert_outside; [apply words_text; auto|apply L1].
    + intros t' K. exists lines'. split; auto. eapply Forall2_weaken; [|exact S]. eauto.
  - destruct L as (key & items' & -> & I & S). apply Z; [constructor; [eapply key_outside; eauto|constructor]|]. intros t' K. exists key, items'. split; auto. split; [eapply keeps_In; eauto|]. eapply Forall2_weaken; [|exact S]. intros. eapply rel_mono; [|eauto]. eauto.
  - destruct L as (b' & -> & S). pose proof (related_plain t _ _ U F S) as W. assert (S' := S). destruct S' as (caption' & rows' & -> & _). clear Z.
    exists [TableLines (table_of a caption' rows')], [block_lines (Grid a caption' rows')]. split; [constructor; [|constructor]; apply grid_source; apply W|]. split; [cbn [concat]; rewrite app_nil_r, lines_of_text; auto|].
    split; [constructor; [|constructor]; apply grid_table_ok; auto|]. split; [constructor; [|constructor]; apply grid_safe; auto|].
    intros t' rs K H. inversion H as [|? key ? r H1 H2]; subst. inversion H2; subst. destruct H1 as (i & token & E & Fi & T). apply grid_parsed in T; auto. subst token. exists key, caption', rows'. split; auto. split; [exact Fi|]. eapply block_rel_mono; [|exact S]. eauto.
  - destruct L as (b' & -> & S). destruct S as (line' & -> & S). inversion S as [|? x ? y X Y]; subst. inversion Y; subst. destruct X as (key & -> & p' & I & C). cbn [lines_of map] in *. rewrite one_text in *.
    apply Z; [constructor; [eapply key_outside; eauto|constructor]|]. intros t' K. exists key. split; auto. exists p'. split; [eapply keeps_In; eauto|eapply captioned_mono; eauto].
  - apply notes_keys_In in L as X. destruct X as (keys & E & _ & X). assert (ls = keys) by (revert E; clear; revert keys; induction ls as [|l ls IH]; intros [|k keys] E; try discriminate; auto; injection E as -> E; f_equal; auto). subst keys.
    apply Z; [|intros t' K; eapply notes_keys_mono; eauto]. eapply Forall_impl; [|exact X]. intros k (v & I). eapply key_outside; eauto.
Qed.

Lemma blanks_tabled : forall n, exists items sources, Forall2 line_source items sources /\ concat sources = repeat [] n /\ Forall TableSpec.block_ok items /\ Forall (item_safe settled) items /\
    forall t' rs, Forall2 (item_found rec t') items rs -> rs = repeat [] n.
Proof.
  induction n as [|n (is & ss & S1 & S2 & S3 & S4 & S5)]; [exists [], []; do 4 (split; [constructor|]); intros t' rs H; inversion H; auto|].
  exists (TextLine [] :: is), ([[]] :: ss). split; [constructor; auto; constructor|]. split; [cbn [concat repeat app]; rewrite S2; auto|]. split; [constructor; auto; split; [intros []|]; intros colons rest E _; destruct colons; discriminate E|].
  split; [constructor; auto; exact I|]. intros t' rs H. inversion H as [|? r ? r3 H3 H4]; subst. cbn in H3. subst r. cbn [repeat]. rewrite (S5 _ _ H4). auto.
Qed.

Lemma blocks_tabled : forall t g doc bs, unique t -> Forall block_fine doc -> Forall2 (listed t) doc bs ->
  exists items sources, Forall2 line_source items sources /\ concat sources = layout [] g bs /\ Forall TableSpec.block_ok items /\ Forall (item_safe settled) items /\
    forall t' rs, keeps t t' -> Forall2 (item_found rec t') items rs -> exists bs', Forall2 (placed t') doc bs' /\ rs = layout [] g bs'.
Proof.
  intros t g doc bs U F L. revert g F. induction L as [|b ls doc bs L1 L2 IH]; intros g F; destruct (blanks_tabled (hd 0 g)) as (i0 & s0 & A1 & A2 & A3 & A4 & A5).
  - exists i0, s0. rewrite layout_nil. do 4 (split; auto). intros t' rs _ H. exists []. rewrite layout_nil. split; eauto.
  - inversion F as [|? ? F1 F2]; subst. destruct (IH (tl g) F2) as (is & ss & S1 & S2 & S3 & S4 & S5). destruct (block_tabled t b ls U F1 L1) as (i1 & s1 & T1 & T2 & T3 & T4 & T5).
    exists (i0 ++ i1 ++ is), (s0 ++ s1 ++ ss). split; [repeat apply Forall2_app; auto|]. split; [rewrite !concat_app, A2, T2, S2; reflexivity|].
    split; [repeat (apply Forall_app; split); auto|]. split; [repeat (apply Forall_app; split); auto|].
    intros t' rs K H. apply Forall2_app_inv_l in H as (r0 & r & H0 & H & ->). apply Forall2_app_inv_l in H as (r1 & r2 & H1 & H2 & ->). destruct (S5 t' r2 K H2) as (bs' & B & ->). apply A5 in H0. subst r0. exists (r1 :: bs'). split; [constructor; auto|reflexivity].
Qed.

Lemma tables_blocks : forall g doc bs t, doc <> [] -> Forall block_fine doc -> Forall2 (listed t) doc bs -> Forall (fun s => ~ In nl_char s) (layout [] g bs) -> layout [] g bs <> [] -> ok false t ->
  judge true t (parseTables rec (join nl (layout [] g bs))) (fun t' r => exists bs', Forall2 (placed t') doc bs' /\ r = join nl (layout [] g bs')).
Proof.
  intros g doc bs t N F L Nl Ne O. destruct (blocks_tabled t g doc bs (proj1 O) F L) as (items & sources & S1 & S2 & S3 & S4 & S5). unfold parseTables. cbv zeta.
  assert (E : split nl (join nl (layout [] g bs)) = concat sources) by (rewrite S2; apply split_join_single; auto). rewrite E.
  eapply judge_bind; [apply (tables_found rec true settled)|].
  - discriminate.
  - intros t0 s U S. eapply judge_weaken; [apply settled_judge; auto; apply ok_false; auto|auto].
  - exact S3.
  - intros _. exact S4.
  - exact S1.
  - exact O.
  - cbn beta. intros rs t' O' G H. destruct (S5 t' rs (grows_keeps _ _ G) H) as (bs' & B & ->). apply judge_ret; auto. eauto.
Qed.
End Run.
End Doc.
